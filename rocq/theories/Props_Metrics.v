(** Properties C25-C29, C59, C60: metrics. *)
From Coq Require Import String.
From Verif Require Import MetricsMore.
Local Open Scope R_scope.

(** *** C25 *)
Theorem C25_best_assignment : forall red penalty K K' Ts Es,
  mats K Ts -> mats K' Es -> rows Ts = rows Es -> Ts <> [] -> (0 < K)%nat ->
  (exists p s, factor_match_score Ts Es penalty (reduction_name red) = Ok (Fin s, Some p) /\
               best_assignment red penalty Ts Es K' K p s) \/
  (factor_match_score Ts Es penalty (reduction_name red) = Ok (Fin (-1), None) /\
   forall p, assignment K' K p -> ~ comparable penalty Ts Es p).
Proof. exact @fms_lemma. Qed.
Print Assumptions C25_best_assignment.

Theorem C25_too_few_components : forall red penalty K K' Ts Es,
  mats K Ts -> mats K' Es -> rows Ts = rows Es -> Ts <> [] -> (K' < K)%nat ->
  factor_match_score Ts Es penalty (reduction_name red) = Ok (Fin (-1), None).
Proof.
  intros red wp K K' Ts Es HT HE Hr Hn Hlt.
  destruct (@fms_lemma red wp K K' Ts Es HT HE Hr Hn) as [(p & s & _ & (Hl & Hd & Hb) & _)|[E _]]; auto; [lia|].
  exfalso. assert (Hi : (length p <= K')%nat); [|lia].
  rewrite <- (seq_length K' 0). apply NoDup_incl_length; auto. intros x Hx. apply in_seq.
  rewrite Forall_forall in Hb. specialize (Hb x Hx). lia.
Qed.
Print Assumptions C25_too_few_components.

Theorem C25_other_reductions_raise : forall penalty Ts Es name,
  name <> "min"%string -> name <> "mean"%string -> factor_match_score Ts Es penalty name = Err ValueError.
Proof.
  intros wp Ts Es name H1 H2. unfold factor_match_score, fms_reduction.
  apply String.eqb_neq in H1, H2. now rewrite H1, H2.
Qed.
Print Assumptions C25_other_reductions_raise.

(** Two components in two modes, estimated in the opposite order (and one scaled). *)
Definition mT : nd := mk [2; 2]%nat [1; 0; 0; 1].
Definition mE : nd := mk [2; 2]%nat [0; 1; -1; 0].
Lemma mT_mats : mats 2 [mT; mT]. Proof. repeat constructor. Qed.
Lemma mE_mats : mats 2 [mE; mE]. Proof. repeat constructor. Qed.
Lemma m_clen : (forall r, (r < 2)%nat -> clen mT r = 1) /\ (forall r, (r < 2)%nat -> clen mE r = 1).
Proof.
  split; intros [|[|]] H; try lia; unfold clen; cbn;
  match goal with |- sqrt ?x = 1 => replace x with 1 by ring; apply sqrt_1 end.
Qed.
Lemma m_rcos c d : (c < 2)%nat -> (d < 2)%nat -> rcos mT mE c d = if Nat.eqb c d then 0 else / (1 + tiny) ^ 2.
Proof.
  intros Hc Hd. unfold rcos. rewrite (proj1 m_clen) by auto. rewrite (proj2 m_clen) by auto. pose proof tiny_pos.
  destruct c as [|[|]], d as [|[|]]; try lia; cbn.
  - replace (1 * 0 + (0 * -1 + 0)) with 0 by ring. rewrite Rabs_R0. field. lra.
  - replace (1 * 1 + (0 * 0 + 0)) with 1 by ring. rewrite Rabs_R1. field. lra.
  - replace (0 * 0 + (1 * -1 + 0)) with (-1) by ring. rewrite (Rabs_left (-1)) by lra. field. lra.
  - replace (0 * 1 + (1 * 0 + 0)) with 0 by ring. rewrite Rabs_R0. field. lra.
Qed.
Lemma m_score c d : (c < 2)%nat -> (d < 2)%nat ->
  match_score true [mT; mT] [mE; mE] c d = if Nat.eqb c d then 0 else / (1 + tiny) ^ 4.
Proof.
  intros Hc Hd. unfold match_score. cbn [combine prodf fst snd]. rewrite !m_rcos by auto.
  unfold weight_agreement, cweight. cbn [prodf]. rewrite (proj1 m_clen) by auto. rewrite (proj2 m_clen) by auto.
  pose proof tiny_pos. rewrite Rmax_left by lra. rewrite Rminus_eq_0, Rabs_R0.
  destruct (Nat.eqb c d); field; lra.
Qed.
Example C25_example :
  mats 2 [mT; mT] /\ mats 2 [mE; mE] /\ rows [mT; mT] = rows [mE; mE] /\
  factor_match_score [mT; mT] [mE; mE] true "min" = Ok (Fin (/ (1 + tiny) ^ 4), Some [1; 0]%nat).
Proof.
  split; [exact mT_mats|]. split; [exact mE_mats|]. split; [reflexivity|].
  pose proof tiny_pos as Ht.
  assert (Hp : 0 < / (1 + tiny) ^ 4) by (apply Rinv_0_lt_compat, pow_lt; lra).
  assert (Hc : forall p, comparable true [mT; mT] [mE; mE] p \/ (2 < length p)%nat).
  { intros p. destruct (le_lt_dec (length p) 2) as [Hl|Hl]; auto. left. intros _ c Hc [H _].
    unfold cweight in H. cbn [prodf] in H. rewrite (proj1 m_clen) in H by lia. lra. }
  apply (@fms_two Minimum true [mT; mT] [mE; mE] 0 (/ (1 + tiny) ^ 4)).
  - exact mT_mats.
  - exact mE_mats.
  - reflexivity.
  - discriminate.
  - destruct (Hc [0; 1]%nat) as [H|H]; auto. cbn in H. lia.
  - destruct (Hc [1; 0]%nat) as [H|H]; auto. cbn in H. lia.
  - split.
    + exists 0%nat. split; [cbn; lia|]. apply (m_score 0 0); lia.
    + intros c H. cbn in H. destruct c as [|[|]]; try lia; cbn [nth];
        [rewrite (m_score 0 0) by lia|rewrite (m_score 1 1) by lia]; cbn; lra.
  - split.
    + exists 0%nat. split; [cbn; lia|]. apply (m_score 0 1); lia.
    + intros c H. cbn in H. destruct c as [|[|]]; try lia; cbn [nth];
        [rewrite (m_score 0 1) by lia|rewrite (m_score 1 0) by lia]; cbn [Nat.eqb]; lra.
  - exact Hp.
Qed.

(** *** C26 *)
Theorem C26_component_scores : forall penalty Ts Es c d,
  rows Ts = rows Es -> ~ (penalty = true /\ cweight Ts c = 0 /\ cweight Es d = 0) ->
  0 <= match_score penalty Ts Es c d <= 1.
Proof. exact @match_score_bound. Qed.
Print Assumptions C26_component_scores.

(** The list of scores the code computes for factors with the same number of components. *)
Theorem C26_computed_scores : forall penalty K Ts Es,
  mats K Ts -> mats K Es -> rows Ts = rows Es -> Ts <> [] ->
  exists scores, factor_match_scores penalty true Ts Es = Ok scores /\ length scores = K /\
    forall c, (c < K)%nat ->
      (penalty = true /\ cweight Ts c = 0 /\ cweight Es c = 0 /\ nth c scores PInf = NaN) \/
      (exists s, nth c scores PInf = Fin s /\ 0 <= s <= 1).
Proof.
  intros wp K Ts Es HT HE Hr Hn. eexists. split; [exact (factor_match_scores_ok wp HT HE Hr Hn)|].
  rewrite map_length, seq_length. split; auto. intros c Hc.
  rewrite (nth_indep _ PInf (fms_value (mvalue wp Ts Es 0 0))) by (rewrite map_length, seq_length; auto).
  rewrite (map_nth (fun c => fms_value (mvalue wp Ts Es c c))). rewrite seq_nth by auto. cbn [plus].
  destruct wp; [destruct (Req_EM_T (cweight Ts c) 0) as [E1|E1]; [destruct (Req_EM_T (cweight Es c) 0) as [E2|E2]|]|].
  - left. rewrite mvalue_none by auto. auto.
  - right. rewrite mvalue_some by tauto. eexists. split; [reflexivity|]. apply match_score_bound; auto. tauto.
  - right. rewrite mvalue_some by tauto. eexists. split; [reflexivity|]. apply match_score_bound; auto. tauto.
  - right. rewrite mvalue_some by (intros [H _]; discriminate). eexists. split; [reflexivity|].
    apply match_score_bound; auto. intros [H _]; discriminate.
Qed.
Print Assumptions C26_computed_scores.

Theorem C26_result : forall red penalty K K' Ts Es s p,
  mats K Ts -> mats K' Es -> rows Ts = rows Es -> Ts <> [] -> (0 < K)%nat ->
  factor_match_score Ts Es penalty (reduction_name red) = Ok (Fin s, Some p) -> 0 <= s <= 1.
Proof.
  intros red wp K K' Ts Es s p HT HE Hr Hn HK E.
  destruct (fms_lemma red wp HT HE Hr Hn HK) as [(q & t & E1 & A & C & S & M)|(E1 & _)]; rewrite E in E1; [|discriminate].
  injection E1 as -> ->. exact (total_score_bound Hr C S).
Qed.
Print Assumptions C26_result.

Example C26_example : match_score true [mT; mT] [mE; mE] 0 1 = / (1 + tiny) ^ 4 /\ match_score true [mT; mT] [mE; mE] 0 0 = 0.
Proof. split; [apply (m_score 0 1)|apply (m_score 0 0)]; lia. Qed.

(** Two zero components with a weight penalty give NaN and no assignment at all. *)
Example C26_example_zero :
  factor_match_score [mk [1; 1]%nat [0]] [mk [1; 1]%nat [0]] true "mean" = Ok (Fin (-1), None).
Proof.
  destruct (@C25_best_assignment Mean true 1 1 [mk [1; 1]%nat [0]] [mk [1; 1]%nat [0]]) as [(p & s & _ & A & C & _)|[E _]];
    auto; try (repeat constructor; fail); [discriminate|].
  exfalso. destruct A as (Hl & _ & Hb). apply (C eq_refl 0%nat); [lia|].
  destruct p as [|x [|]]; try discriminate Hl. inversion Hb; subst. replace x with 0%nat by lia. cbn [nth].
  unfold cweight, clen. cbn. replace (0 * (0 * 1) + 0) with 0 by ring. rewrite sqrt_0. lra.
Qed.

(** *** C27 *)
Theorem C27_order_of_estimated_components : forall red penalty K K' Ts Es sigma Es',
  mats K Ts -> mats K' Es -> rows Ts = rows Es -> Ts <> [] -> (0 < K)%nat ->
  is_perm K' sigma -> permute_factors sigma Es = Ok Es' ->
  exists m b b', factor_match_score Ts Es penalty (reduction_name red) = Ok (m, b) /\
    factor_match_score Ts Es' penalty (reduction_name red) = Ok (m, b').
Proof. exact @order_lemma. Qed.
Print Assumptions C27_order_of_estimated_components.

Theorem C27_signs_of_estimated_components : forall red penalty K K' Ts Es Es',
  mats K Ts -> mats K' Es -> mats K' Es' -> rows Ts = rows Es -> Ts <> [] -> (0 < K)%nat ->
  Forall2 (same_up_to_sign K') Es Es' ->
  factor_match_score Ts Es' penalty (reduction_name red) = factor_match_score Ts Es penalty (reduction_name red).
Proof. exact @sign_lemma. Qed.
Print Assumptions C27_signs_of_estimated_components.

Theorem C27_against_itself : forall red penalty K Ts t,
  mats K Ts -> Ts <> [] -> (0 < K)%nat -> (penalty = true -> forall c, (c < K)%nat -> cweight Ts c <> 0) ->
  reduced red K (fun c => prodf Ts (fun T => (clen T c / (clen T c + tiny)) ^ 2)) t ->
  exists s p, factor_match_score Ts Ts penalty (reduction_name red) = Ok (Fin s, Some p) /\ t <= s.
Proof. exact @self_lemma. Qed.
Print Assumptions C27_against_itself.

(** Because of the regularisation, positive rescaling does change the score (without weight penalty). *)
Theorem C27_positive_scale_refuted : exists T E E' s s',
  is_mat 1 1 T /\ is_mat 1 1 E /\ is_mat 1 1 E' /\ mget E' 0 0 = 2 * mget E 0 0 /\
  factor_match_score [T] [E] false "min" = Ok (Fin s, Some [0%nat]) /\
  factor_match_score [T] [E'] false "min" = Ok (Fin s', Some [0%nat]) /\ s <> s'.
Proof.
  set (T := mk [1; 1]%nat [1]). set (E' := mk [1; 1]%nat [2]).
  exists T, T, E', (match_score false [T] [T] 0 0), (match_score false [T] [E'] 0 0).
  assert (MT : mats 1 [T]) by (repeat constructor). assert (ME : mats 1 [E']) by (repeat constructor).
  split; [split; reflexivity|]. split; [split; reflexivity|]. split; [split; reflexivity|].
  split; [cbn; ring|].
  split; [apply (@fms_one Minimum); auto; discriminate|].
  split; [apply (@fms_one Minimum); auto; discriminate|].
  unfold match_score, weight_agreement, rcos. cbn [combine prodf fst snd].
  assert (E1 : clen T 0 = 1).
  { unfold clen. cbn. replace (1 * (1 * 1) + 0) with 1 by ring. apply sqrt_1. }
  assert (E2 : clen E' 0 = 2).
  { unfold clen. cbn. replace (2 * (2 * 1) + 0) with (2 * 2) by ring. apply sqrt_square. lra. }
  rewrite E1, E2. cbn. replace (1 * 1 + 0) with 1 by ring. replace (1 * 2 + 0) with 2 by ring.
  rewrite Rabs_R1, (Rabs_right 2) by lra. pose proof tiny_pos as Ht. intros H. rewrite !Rmult_1_l, !Rmult_1_r in H.
  assert (H1 : 1 / ((1 + tiny) * (1 + tiny)) * ((1 + tiny) * (1 + tiny) * (2 + tiny)) = 2 + tiny) by (field; lra).
  assert (H2 : 2 / ((1 + tiny) * (2 + tiny)) * ((1 + tiny) * (1 + tiny) * (2 + tiny)) = 2 * (1 + tiny)) by (field; lra).
  rewrite H in H1. lra.
Qed.
Print Assumptions C27_positive_scale_refuted.

Example C27_example : is_perm 2 [1; 0]%nat /\
  (exists Es', permute_factors [1; 0]%nat [mE; mE] = Ok Es' /\ nth 0 Es' m0 = mk [2; 2]%nat [1; 0; 0; -1]) /\
  same_up_to_sign 2 mE (mk [2; 2]%nat [0; -1; -1; 0]) /\
  reduced Minimum 2 (fun c => prodf [mT; mT] (fun T => (clen T c / (clen T c + tiny)) ^ 2)) ((1 / (1 + tiny)) ^ 4).
Proof.
  split. { split; [reflexivity|]. split; [repeat constructor; cbn; intuition discriminate|]. cbn. intuition lia. }
  split. { eexists. split; [reflexivity|]. reflexivity. }
  split.
  { split; [reflexivity|]. exists (fun r => match r with O => 1 | _ => -1 end). split.
    - intros [|r] _; auto.
    - intros i r Hi Hr. cbn in Hi. destruct i as [|[|]], r as [|[|]]; try lia; cbn; ring. }
  assert (H : forall c, (c < 2)%nat -> prodf [mT; mT] (fun T => (clen T c / (clen T c + tiny)) ^ 2) = (1 / (1 + tiny)) ^ 4).
  { intros c Hc. cbn [prodf]. rewrite (proj1 m_clen) by auto. ring. }
  split; [exists 0%nat; split; [lia|apply H; lia]|]. intros c Hc. rewrite H by auto. lra.
Qed.

(** *** C28 *)
Theorem C28_percent_explained : forall X Y,
  wf X -> wf Y -> shape X = shape Y -> (exists i, valid i (shape X) /\ get X i <> 0) ->
  exists v, percent_explained X Y = Ok (Fin v) /\
    v = 1 - sumf (indices (shape X)) (fun i => (get X i - get Y i) ^ 2) / sumf (indices (shape X)) (fun i => get X i ^ 2) /\
    v <= 1 /\ (v = 1 <-> X = Y).
Proof.
  intros X Y HX HY E (i & Hi & Hx). apply percent_calibrated; auto.
  intros H. apply Hx. exact (proj1 (sq_sum_zero _ _) H i Hi).
Qed.
Print Assumptions C28_percent_explained.

Theorem C28_percent_explained_zero_data : forall X Y,
  wf X -> wf Y -> shape X = shape Y -> (forall i, valid i (shape X) -> get X i = 0) ->
  percent_explained X Y = Ok NaN \/ (percent_explained X Y = Ok NInf /\ X <> Y).
Proof.
  intros X Y HX HY E H. rewrite (percent_zero HX HY E H).
  destruct (Req_EM_T _ 0) as [Hz|Hz]; auto. right. split; auto. intros <-. apply Hz. now apply sq_sum_zero.
Qed.
Print Assumptions C28_percent_explained_zero_data.

Theorem C28_completion_score : forall X Y W,
  wf X -> wf Y -> wf W -> shape X = shape Y -> shape W = shape X ->
  (exists i, valid i (shape X) /\ get W i <> 1 /\ get X i <> 0) ->
  exists v, tensor_completion_score X Y W = Ok (Fin v) /\ 0 <= v /\
    (v = 0 <-> forall i, valid i (shape X) -> get W i <> 1 -> get X i = get Y i).
Proof. exact @tcs_calibrated. Qed.
Print Assumptions C28_completion_score.

Theorem C28_completion_score_ignores_observed : forall X Y X' Y' W,
  wf X -> wf Y -> wf X' -> wf Y' -> wf W ->
  shape X = shape Y -> shape W = shape X -> shape X' = shape X -> shape Y' = shape X ->
  (forall i, valid i (shape X) -> get W i <> 1 -> get X i = get X' i /\ get Y i = get Y' i) ->
  tensor_completion_score X Y W = tensor_completion_score X' Y' W.
Proof. exact @tcs_ignores. Qed.
Print Assumptions C28_completion_score_ignores_observed.

Example C28_example : exists v, percent_explained (mk [2]%nat [3; 4]) (mk [2]%nat [3; 0]) = Ok (Fin v) /\ v = 9 / 25 /\
  (exists i, valid i [2]%nat /\ get (mk [2]%nat [1; 0]) i <> 1 /\ get (mk [2]%nat [3; 4]) i <> 0).
Proof.
  destruct (@C28_percent_explained (mk [2]%nat [3; 4]) (mk [2]%nat [3; 0])) as (v & E & Hv & _);
    [reflexivity|reflexivity|reflexivity| |].
  { exists [0%nat]. split; [repeat constructor|]. cbn. lra. }
  exists v. split; auto. split. { rewrite Hv. cbn. field. }
  exists [1%nat]. split; [repeat constructor|]. cbn. split; lra.
Qed.

(** *** C29 *)
Theorem C29_leverage : forall inv n k F Gi,
  is_mat n k F ->
  inv (tab2 k k (fun a b => sum n (fun i => mget F i a * mget F i b))) = Ok Gi ->
  is_inverse k (tab2 k k (fun a b => sum n (fun i => mget F i a * mget F i b))) Gi ->
  exists L, leverage inv F = Ok L /\ is_vec n L /\ (forall i, (i < n)%nat -> 0 <= vget L i <= 1) /\
    sum n (fun i => vget L i) = INR k.
Proof. exact @leverage_lemma. Qed.
Print Assumptions C29_leverage.

Theorem C29_singular : forall inv n k F e,
  is_mat n k F -> inv (tab2 k k (fun a b => sum n (fun i => mget F i a * mget F i b))) = Err e ->
  leverage inv F = Err e.
Proof. exact @leverage_err. Qed.
Print Assumptions C29_singular.

Example C29_example : exists F Gi L, is_mat 2 1 F /\
  is_inverse 1 (tab2 1 1 (fun a b => sum 2 (fun i => mget F i a * mget F i b))) Gi /\
  leverage (fun _ => Ok Gi) F = Ok L /\ vget L 0 = 9 / 25 /\ vget L 1 = 16 / 25.
Proof.
  exists (mk [2; 1]%nat [3; 4]), (mk [1; 1]%nat [/ 25]).
  eexists. split; [split; reflexivity|]. split.
  { split; [split; reflexivity|]. intros i j Hi Hj. replace i with 0%nat by lia. replace j with 0%nat by lia.
    cbn. unfold delta. cbn. field. }
  split; [reflexivity|]. cbn. split; field.
Qed.

(** *** C59 *)
Theorem C59_each_mode_separately : forall red K K' Ts Es,
  mats K Ts -> mats K' Es -> rows Ts = rows Es -> Ts <> [] -> (0 < K)%nat ->
  exists ms ps, separate_mode_factor_match_score Ts Es (reduction_name red) = Ok (ms, ps) /\
    length ms = length Ts /\ length ps = length Ts /\
    forall k, (k < length Ts)%nat ->
      factor_match_score [nth k Ts m0] [nth k Es m0] false (reduction_name red) = Ok (nth k ms NaN, nth k ps None).
Proof. exact @separate_lemma. Qed.
Print Assumptions C59_each_mode_separately.

Theorem C59_at_least_the_joint_score : forall red K K' Ts Es k s b,
  mats K Ts -> mats K' Es -> rows Ts = rows Es -> (0 < K)%nat -> (k < length Ts)%nat ->
  factor_match_score Ts Es false (reduction_name red) = Ok (Fin s, b) ->
  exists t b', factor_match_score [nth k Ts m0] [nth k Es m0] false (reduction_name red) = Ok (Fin t, b') /\ s <= t.
Proof. exact @separate_above. Qed.
Print Assumptions C59_at_least_the_joint_score.

Example C59_example : mats 1 [mk [1; 1]%nat [1]; mk [1; 1]%nat [2]] /\
  exists s, factor_match_score [mk [1; 1]%nat [1]; mk [1; 1]%nat [2]] [mk [1; 1]%nat [1]; mk [1; 1]%nat [0]] false "mean"
            = Ok (Fin s, Some [0%nat]).
Proof.
  split; [repeat constructor|]. eexists.
  apply (@fms_one Mean); [repeat constructor|repeat constructor|reflexivity|discriminate].
Qed.

(** *** C60 *)
Theorem C60_evolving_mode_ignored : forall K K' tA tC tB tB' eA eC eB eB' penalty red,
  is_mat (nrows tA) K tA -> is_mat (nrows eA) K' eA ->
  factor_match_score_parafac2 tA tC tB eA eC eB penalty red = factor_match_score [tA; tC] [eA; eC] penalty red /\
  factor_match_score_parafac2 tA tC tB eA eC eB penalty red = factor_match_score_parafac2 tA tC tB' eA eC eB' penalty red.
Proof.
  intros K K' tA tC tB tB' eA eC eB eB' wp red HT HE. rewrite !(@pf2_lemma K K') by auto. auto.
Qed.
Print Assumptions C60_evolving_mode_ignored.

(** Two PARAFAC2 models with different evolving factors get the perfect-match score. *)
Theorem C60_different_models_match : exists tA tC tB eB s,
  tB <> eB /\ factor_match_score_parafac2 tA tC [tB] tA tC [eB] false "min" = Ok (Fin s, Some [0%nat]) /\
  s = (1 / (1 + tiny)) ^ 4.
Proof.
  set (T := mk [1; 1]%nat [1]). exists T, T, T, (mk [1; 1]%nat [7]), (match_score false [T; T] [T; T] 0 0).
  assert (MT : mats 1 [T; T]) by (repeat constructor).
  split; [intros H; injection H; lra|]. split.
  - rewrite (@pf2_lemma 1 1) by (split; reflexivity). apply (@fms_one Minimum); auto; discriminate.
  - unfold match_score, weight_agreement. rewrite (combine_self [T; T] (fun T E => rcos T E 0 0)). cbn [prodf].
    rewrite !rcos_self. assert (E1 : clen T 0 = 1).
    { unfold clen. cbn. replace (1 * (1 * 1) + 0) with 1 by ring. apply sqrt_1. }
    rewrite E1. ring.
Qed.
Print Assumptions C60_different_models_match.

(** The unused function _factor_match_score_parafac2 does not depend on the true factors at all
    (beyond the number of columns of the first), and with its default weight penalty it always raises. *)
Theorem C60_scores_ignore_true_factors : forall penalty tA tC tB tA' tC' tB' eA eC eB,
  shape_at tA 1 = shape_at tA' 1 ->
  factor_match_scores_parafac2 penalty tA tC tB eA eC eB = factor_match_scores_parafac2 penalty tA' tC' tB' eA eC eB.
Proof. intros. unfold factor_match_scores_parafac2. now rewrite H. Qed.
Print Assumptions C60_scores_ignore_true_factors.

(** What it returns instead of scores: the lengths of the estimated components, with the geometric mean over the slices. *)
Theorem C60_scores_are_lengths : forall K tA tC tB eA eC eB, shape_at tA 1 = Ok K -> mats K (eA :: eC :: eB) -> eB <> [] ->
  (forall U r, In U (eA :: eC :: eB) -> (r < K)%nat -> clen U r <> 0) ->
  factor_match_scores_parafac2 false tA tC tB eA eC eB =
  Ok (map (fun r => clen eA r * clen eC r * Rpower (prodf eB (fun U => clen U r)) (1 / INR (length eB))) (seq 0 K)).
Proof. exact scores_lengths. Qed.
Print Assumptions C60_scores_are_lengths.

Theorem C60_default_penalty_raises : forall tA tC tB eA eC eB,
  exists e, factor_match_scores_parafac2 true tA tC tB eA eC eB = Err e.
Proof.
  intros. unfold factor_match_scores_parafac2.
  destruct (shape_at tA 1); cbn [bind]; eauto. destruct (unit_columns eA); cbn [bind]; eauto.
  destruct (mapM unit_columns eB); cbn [bind]; eauto. destruct (unit_columns eC); cbn [bind]; eauto.
Qed.
Print Assumptions C60_default_penalty_raises.

Example C60_example : exists l, factor_match_scores_parafac2 false mT mT [mT] (mk [1; 2]%nat [2; 1]) (mk [1; 2]%nat [1; 1])
  [mk [1; 2]%nat [1; 1]] = Ok l /\ length l = 2%nat.
Proof.
  unfold factor_match_scores_parafac2.
  assert (U : forall a, 0 < a -> unit_columns (mk [1; 2]%nat [a; 1]) = Ok (mk [1; 2]%nat [a / a; 1 / 1])).
  { intros a Ha. unfold unit_columns, np_div.
    assert (E : norm_axis0 (mk [1; 2]%nat [a; 1]) = mk [2]%nat [a; 1]).
    { unfold norm_axis0, tab1, tab. cbn. unfold colnorm, colnorm2. cbn. do 2 f_equal.
      - replace (a * a + 0) with (a * a) by ring. apply sqrt_square. lra.
      - f_equal. replace (1 * 1 + 0) with 1 by ring. apply sqrt_1. }
    rewrite E. assert (Hz : has_zero (mk [2]%nat [a; 1]) = false).
    { apply has_zero_false. cbn. intros x [<-|[<-|[]]]; lra. }
    rewrite Hz. reflexivity. }
  rewrite !U by lra. cbn [shape_at mT shape nth_error bind mapM]. rewrite !U by lra. cbn [bind].
  eexists. split; [reflexivity|]. reflexivity.
Qed.
