(** Property C87: what a factor match score says about the components and the tensors. *)
From Coq Require Import String.
From Verif Require Import MatchFacts.
From Verif Require Import Prelude Lin.
Local Open Scope R_scope.

(** *** C87.  A score s (weights compared): the smallest (average) value of 1 - d^2 / 2 over the matched components is at least
    s, where d is the distance of the two rank-one tensors, with the better sign, relative to the longer one. *)
Theorem C87_score_bounds_distances : forall red K K' Ts Es s p,
  mats K Ts -> mats K' Es -> rows Ts = rows Es -> Ts <> [] -> (0 < K)%nat ->
  factor_match_score Ts Es true (reduction_name red) = Ok (Fin s, Some p) ->
  assignment K' K p /\
  exists sg, signs K sg /\
    forall t, reduced red K (fun c => 1 - rel_dist2 Ts c (sg c) Es (nth c p 0%nat) / 2) t -> s <= t.
Proof.
  intros red K K' Ts Es s p HT HE Hr Hn HK E. destruct (score_bounds HT HE Hr Hn HK E) as [A B]. split; [exact A|].
  exists (fun c => sgn1 (comp_cross Ts Es c (nth c p 0%nat))). split; [intros c _; apply sgn1_or|exact B].
Qed.
Print Assumptions C87_score_bounds_distances.

(** Without comparing weights: the same for the components scaled to equal length, each of them. *)
Theorem C87_score_without_weights : forall K K' Ts Es s p,
  mats K Ts -> mats K' Es -> rows Ts = rows Es -> Ts <> [] -> (0 < K)%nat ->
  factor_match_score Ts Es false "min" = Ok (Fin s, Some p) ->
  assignment K' K p /\
  exists sg, signs K sg /\
    forall c, (c < K)%nat -> let d := nth c p 0%nat in
      comp_dist2 (cweight Es d) Ts c (sg c * cweight Ts c) Es d <= 2 * (1 - s) * (cweight Ts c * cweight Es d) ^ 2.
Proof.
  intros K K' Ts Es s p HT HE Hr Hn HK E. destruct (score_bounds_unit HT HE Hr Hn HK E) as [A B]. split; [exact A|].
  exists (fun c => sgn1 (comp_cross Ts Es c (nth c p 0%nat))). split; [intros c _; apply sgn1_or|exact B].
Qed.
Print Assumptions C87_score_without_weights.

(** Conversely, components within relative distance e_c of each other score at least the smallest (average) 1 - e_c, up to
    the regularisation. *)
Theorem C87_close_components_score_high : forall red K K' Ts Es q sg e l t,
  mats K Ts -> mats K' Es -> rows Ts = rows Es -> Ts <> [] -> (0 < K)%nat ->
  assignment K' K q -> signs K sg -> 0 < l ->
  (forall T c, In T Ts -> (c < K)%nat -> l <= clen T c) -> (forall E d, In E Es -> (d < K')%nat -> l <= clen E d) ->
  (forall c, (c < K)%nat -> 0 <= e c /\ rel_dist2 Ts c (sg c) Es (nth c q 0%nat) <= e c ^ 2) ->
  reduced red K (fun c => (1 - e c) * kept_share l (length Ts)) t ->
  exists s p, factor_match_score Ts Es true (reduction_name red) = Ok (Fin s, Some p) /\ t <= s.
Proof. exact close_scores. Qed.
Print Assumptions C87_close_components_score_high.

(** The tensors the factors make, when no matched pair points in opposite directions *)
Theorem C87_score_bounds_tensor_distance : forall K Ts Es s p,
  mats K Ts -> mats K Es -> rows Ts = rows Es -> Ts <> [] -> (0 < K)%nat ->
  factor_match_score Ts Es true "min" = Ok (Fin s, Some p) ->
  (forall c, (c < K)%nat -> 0 <= comp_cross Ts Es c (nth c p 0%nat)) ->
  sumf (indices (rows Ts)) (fun idx => (cp_entry Ts unit_weights K idx - cp_entry Es unit_weights K idx) ^ 2) <=
  2 * INR K * (1 - s) * sum K (fun c => Rmax (cweight Ts c) (cweight Es (nth c p 0%nat)) ^ 2).
Proof. exact tensor_bound. Qed.
Print Assumptions C87_score_bounds_tensor_distance.

(** Without that condition it says nothing: the opposite tensor gets the score of the tensor itself. *)
Theorem C87_opposite_tensor_scores_the_same : forall red penalty K T Ts, mats K (T :: Ts) -> (0 < K)%nat ->
  let Es := np_map Ropp T :: Ts in
  factor_match_score (T :: Ts) Es penalty (reduction_name red) = factor_match_score (T :: Ts) (T :: Ts) penalty (reduction_name red) /\
  forall idx, valid idx (rows (T :: Ts)) -> cp_entry Es unit_weights K idx = - cp_entry (T :: Ts) unit_weights K idx.
Proof. exact opposite_score. Qed.
Print Assumptions C87_opposite_tensor_scores_the_same.

(** Two unit vectors at an angle with cosine 3/5: score 3/5 up to the regularisation, squared distance 4/5 *)
Example C87_example : let T := mk [2; 1]%nat [1; 0] in let E := mk [2; 1]%nat [3 / 5; 4 / 5] in
  factor_match_score [T] [E] true "min" = Ok (Fin (match_score true [T] [E] 0 0), Some [0%nat]) /\
  match_score true [T] [E] 0 0 = 3 / 5 / (1 + tiny) ^ 2 /\ comp_dist2 1 [T] 0 1 [E] 0 = 4 / 5 /\
  rel_dist2 [T] 0 1 [E] 0 = 4 / 5 /\ comp_cross [T] [E] 0 0 = 3 / 5.
Proof.
  intros T E.
  assert (E1 : clen T 0 = 1).
  { unfold clen. cbn. match goal with |- sqrt ?x = 1 => replace x with 1 by ring; apply sqrt_1 end. }
  assert (E2 : clen E 0 = 1).
  { unfold clen. cbn. match goal with |- sqrt ?x = 1 => replace x with 1 by field; apply sqrt_1 end. }
  assert (Ed : comp_dist2 1 [T] 0 1 [E] 0 = 4 / 5) by (cbv -[Rplus Rmult Rminus Ropp Rdiv Rinv IZR]; field).
  assert (W1 : cweight [T] 0 = 1) by (unfold cweight; cbn [prodf]; rewrite E1; ring).
  assert (W2 : cweight [E] 0 = 1) by (unfold cweight; cbn [prodf]; rewrite E2; ring).
  split; [|split; [|split; [exact Ed|split]]].
  - assert (HA : forall p, assignment 1 1 p -> p = [0%nat]).
    { intros p (H1 & _ & H3). destruct p as [|x [|]]; try discriminate H1. inversion H3; subst. f_equal. lia. }
    assert (MT : mats 1 [T]) by (repeat constructor). assert (ME : mats 1 [E]) by (repeat constructor).
    destruct (fms_lemma Minimum true MT ME eq_refl ltac:(discriminate) ltac:(lia)) as [(p & s & Ef & A & _ & Sc & _)|(_ & Hno)].
    + apply HA in A. subst p. cbn [reduction_name] in Ef. rewrite Ef. destruct Sc as [(c & Hc & <-) _]. cbn in Hc.
      assert (c = 0%nat) as -> by lia. reflexivity.
    + exfalso. apply (Hno [0%nat]).
      * split; [reflexivity|]. split; [repeat constructor; intros []|repeat constructor].
      * intros _ c Hc. cbn in Hc. assert (c = 0%nat) as -> by lia. cbn [nth]. lra.
  - unfold match_score, weight_agreement, rcos. rewrite W1, W2. cbn [combine prodf fst snd]. rewrite E1, E2.
    rewrite Rmax_left by lra. replace (1 - 1) with 0 by ring. rewrite Rabs_R0.
    replace (sum (nrows T) (fun i => mget T i 0 * mget E i 0)) with (3 / 5) by (cbn; ring).
    rewrite Rabs_right by lra. pose proof tiny_pos. field. lra.
  - unfold rel_dist2. rewrite Ed, W1, W2, Rmax_left by lra. field.
  - cbv -[Rplus Rmult Rminus Ropp Rdiv Rinv IZR]. field.
Qed.
