(** Signs, permutations and single components (utils.py, decompositions.py). *)
From Verif Require Export KruskalFacts.
From Coq Require Export Permutation.
Set Implicit Arguments.
Unset Strict Implicit.
Local Open Scope R_scope.

(** *** np.sign *)
Lemma sgn_cases x : (x < 0 /\ sgn x = -1) \/ (x = 0 /\ sgn x = 0) \/ (0 < x /\ sgn x = 1).
Proof.
  unfold sgn. destruct (Rlt_dec x 0); [left; auto|]. destruct (Rlt_dec 0 x); [right; right; auto|].
  right. left. split; auto. lra.
Qed.
Lemma sgn_pos x : 0 < x -> sgn x = 1.
Proof. intros. destruct (sgn_cases x) as [[]|[[]|[]]]; lra. Qed.
Lemma sgn_neg x : x < 0 -> sgn x = -1.
Proof. intros. destruct (sgn_cases x) as [[]|[[]|[]]]; lra. Qed.
Lemma sgn_0 : sgn 0 = 0.
Proof. destruct (sgn_cases 0) as [[]|[[]|[]]]; lra. Qed.
Lemma sgn_zero_iff x : sgn x = 0 <-> x = 0.
Proof. destruct (sgn_cases x) as [[]|[[]|[]]]; split; lra. Qed.
Lemma sgn_pm x : x <> 0 -> sgn x = 1 \/ sgn x = -1.
Proof. intros. destruct (sgn_cases x) as [[]|[[]|[]]]; lra. Qed.
Lemma sgn_mul s x : s = 1 \/ s = -1 -> sgn (s * x) = s * sgn x.
Proof.
  intros [-> | ->]; destruct (sgn_cases x) as [[H ->]|[[-> ->]|[H ->]]].
  - rewrite Rmult_1_l, sgn_neg; lra.
  - rewrite Rmult_0_r, sgn_0; lra.
  - rewrite Rmult_1_l, sgn_pos; lra.
  - rewrite sgn_pos; lra.
  - rewrite Rmult_0_r, sgn_0; lra.
  - rewrite sgn_neg; lra.
Qed.
Lemma sgn_div x n : 0 < n -> sgn (x / n) = sgn x.
Proof.
  intros Hn. assert (H : 0 < / n) by now apply Rinv_0_lt_compat. unfold Rdiv.
  destruct (sgn_cases x) as [[Hx ->]|[[-> ->]|[Hx ->]]].
  - apply sgn_neg. nra.
  - rewrite Rmult_0_l. apply sgn_0.
  - apply sgn_pos. nra.
Qed.
Lemma pm_sq s : s = 1 \/ s = -1 -> s * s = 1.
Proof. intros [-> | ->]; lra. Qed.

(** *** np.argmin *)
Lemma argmin_from_spec l : forall best bestv pos,
  let a := argmin_from best bestv pos l in
  (a = best /\ (forall j, (j < length l)%nat -> bestv <= nth j l 0)) \/
  (exists q, (q < length l)%nat /\ a = (pos + q)%nat /\ nth q l 0 < bestv /\
     forall j, (j < length l)%nat -> nth q l 0 <= nth j l 0).
Proof.
  induction l as [|x l IH]; intros best bestv pos; cbn.
  - left. split; auto. intros; lia.
  - destruct (Rlt_dec x bestv) as [H|H].
    + right. destruct (IH pos x (S pos)) as [[E Hm]|(q & Hq & E & Hl & Hm)].
      * exists 0%nat. split; [lia|]. split; [rewrite E; lia|]. split; auto.
        intros [|j] Hj; [lra|]. apply Hm. lia.
      * exists (S q). split; [lia|]. split; [rewrite E; lia|]. split; [lra|].
        intros [|j] Hj; [lra|]. apply Hm. lia.
    + destruct (IH best bestv (S pos)) as [[E Hm]|(q & Hq & E & Hl & Hm)].
      * left. split; auto. intros [|j] Hj; [lra|]. apply Hm. lia.
      * right. exists (S q). split; [lia|]. split; [rewrite E; lia|]. split; [lra|].
        intros [|j] Hj; [lra|]. apply Hm. lia.
Qed.
Lemma argmin_spec l : l <> [] ->
  (argmin l < length l)%nat /\ forall j, (j < length l)%nat -> nth (argmin l) l 0 <= nth j l 0.
Proof.
  destruct l as [|x l]; [congruence|]. intros _. cbn [argmin].
  destruct (argmin_from_spec l 0%nat x 1%nat) as [[E Hm]|(q & Hq & E & Hl & Hm)]; rewrite E; cbn [length nth Nat.add].
  - split; [lia|]. intros [|j] Hj; [lra|]. apply Hm. lia.
  - split; [lia|]. intros [|j] Hj; [lra|]. apply Hm. lia.
Qed.

(** *** The sign table *)
Lemma is_vec_vset n v r x : is_vec n v -> is_vec n (vset v r x).
Proof. intros [_ Hs]. unfold vset. rewrite Hs. cbn [nth]. auto. Qed.
Lemma vget_vset n v r x i : is_vec n v -> (i < n)%nat ->
  vget (vset v r x) i = if Nat.eqb i r then x else vget v i.
Proof. intros [_ Hs] Hi. unfold vset. rewrite Hs. cbn [nth]. now rewrite vget_tab1. Qed.

Definition vdflt : nd := tab1 0 (fun _ => 0).

(** The sign given to mode m when the scores of one component are [col]. *)
Definition corrected (col : list R) (m : nat) : R :=
  if Req_EM_T (prodf col sgn) (-1) then
    if Nat.eqb m (argmin (map Rabs col)) then - sgn (nth m col 0) else sgn (nth m col 0)
  else sgn (nth m col 0).

Lemma nth_replace_at {A} (l : list A) n x d m : (n < length l)%nat ->
  nth m (replace_at n x l) d = if Nat.eqb m n then x else nth m l d.
Proof.
  revert n m; induction l; intros [|n] [|m] H; cbn in *; try lia; auto.
  rewrite IHl by lia. reflexivity.
Qed.
Lemma length_replace_at {A} (l : list A) n x : length (replace_at n x l) = length l.
Proof. revert n; induction l; intros [|n]; cbn; auto. Qed.

Lemma nth_map2 {A B C} (f : A * B -> C) l k m da db dc : length l = length k -> (m < length l)%nat ->
  nth m (map f (combine l k)) dc = f (nth m l da, nth m k db).
Proof.
  revert k m; induction l; intros [|b k] [|m] H Hm; cbn in *; try lia; auto.
  apply IHl; lia.
Qed.

Lemma kt_signs_step_spec R0 scores signs r : (r < R0)%nat ->
  length signs = length scores -> Forall (is_vec R0) signs ->
  let signs' := kt_signs_step scores signs r in
  length signs' = length scores /\ Forall (is_vec R0) signs' /\
  forall m q, (m < length scores)%nat -> (q < R0)%nat ->
    vget (nth m signs' vdflt) q =
    if Nat.eqb q r then corrected (map (fun s => vget s r) scores) m else vget (nth m signs vdflt) q.
Proof.
  intros Hr Hl Hv. cbn zeta. unfold kt_signs_step.
  set (single := map (fun s => vget s r) scores).
  assert (Hls : length single = length scores) by (unfold single; now rewrite map_length).
  set (signs1 := map (fun p => vset (fst p) r (sgn (snd p))) (combine signs single)).
  assert (Hl1 : length signs1 = length scores).
  { unfold signs1. rewrite map_length, combine_length. lia. }
  assert (Hn1 : forall m, (m < length scores)%nat ->
     nth m signs1 vdflt = vset (nth m signs vdflt) r (sgn (nth m single 0))).
  { intros m Hm. unfold signs1. rewrite (nth_map2 _ vdflt 0) by lia. reflexivity. }
  assert (Hvn : forall m, (m < length scores)%nat -> is_vec R0 (nth m signs vdflt)).
  { intros m Hm. rewrite Forall_forall in Hv. apply Hv, nth_In. lia. }
  assert (Hv1 : Forall (is_vec R0) signs1).
  { apply Forall_forall. intros s Hs. apply (In_nth _ _ vdflt) in Hs as (m & Hm & <-).
    rewrite Hl1 in Hm. rewrite Hn1 by auto. apply is_vec_vset. auto. }
  assert (Hg1 : forall m q, (m < length scores)%nat -> (q < R0)%nat ->
     vget (nth m signs1 vdflt) q = if Nat.eqb q r then sgn (nth m single 0) else vget (nth m signs vdflt) q).
  { intros m q Hm Hq. rewrite Hn1 by auto. now rewrite (vget_vset _ _ (Hvn m Hm)). }
  destruct (Req_EM_T (prodf single sgn) (-1)) as [E|E].
  - assert (Hne : map Rabs single <> []).
    { intros Hn. apply map_eq_nil in Hn. rewrite Hn in E. cbn in E. lra. }
    destruct (argmin_spec Hne) as [Ha _]. rewrite map_length in Ha.
    change (tab1 0 (fun _ => 0)) with vdflt.
    set (w := argmin (map Rabs single)) in *.
    split; [now rewrite length_replace_at|]. split.
    + apply Forall_forall. intros s Hs. apply (In_nth _ _ vdflt) in Hs as (m & Hm & <-).
      rewrite length_replace_at in Hm. rewrite nth_replace_at by lia.
      rewrite Forall_forall in Hv1.
      destruct (Nat.eqb m w); [apply is_vec_vset|]; apply Hv1, nth_In; lia.
    + intros m q Hm Hq. rewrite nth_replace_at by lia. unfold corrected.
      destruct (Req_EM_T (prodf single sgn) (-1)); [|lra]. fold w.
      destruct (Nat.eqb_spec m w) as [->|Hmw].
      * assert (Hvw : is_vec R0 (nth w signs1 vdflt)) by (rewrite Forall_forall in Hv1; apply Hv1, nth_In; lia).
        rewrite (vget_vset _ _ Hvw) by auto. destruct (Nat.eqb_spec q r) as [->|].
        -- rewrite Hg1 by auto. rewrite Nat.eqb_refl. ring.
        -- rewrite Hg1 by auto. destruct (Nat.eqb_spec q r); [lia|auto].
      * now rewrite Hg1.
  - split; auto. split; auto. intros m q Hm Hq. rewrite Hg1 by auto. unfold corrected.
    destruct (Req_EM_T (prodf single sgn) (-1)); [contradiction|]. reflexivity.
Qed.

Lemma kt_signs_spec R0 scores :
  let signs := kt_signs_of_scores R0 scores in
  length signs = length scores /\ Forall (is_vec R0) signs /\
  forall m r, (m < length scores)%nat -> (r < R0)%nat ->
    vget (nth m signs vdflt) r = corrected (map (fun s => vget s r) scores) m.
Proof.
  cbn zeta. unfold kt_signs_of_scores.
  set (init := map (fun _ => np_ones [R0]) scores).
  assert (H : forall n, (n <= R0)%nat ->
    let signs := fold_left (kt_signs_step scores) (seq 0 n) init in
    length signs = length scores /\ Forall (is_vec R0) signs /\
    forall m r, (m < length scores)%nat -> (r < n)%nat ->
      vget (nth m signs vdflt) r = corrected (map (fun s => vget s r) scores) m).
  { induction n; intros Hn; cbn zeta.
    - cbn. unfold init. split; [now rewrite map_length|]. split; [|intros; lia].
      rewrite Forall_map. apply Forall_forall. intros x _. split; [apply wf_tab|reflexivity].
    - destruct IHn as (H1 & H2 & H3); [lia|]. rewrite seq_S, fold_left_app. cbn [fold_left Nat.add].
      destruct (@kt_signs_step_spec R0 scores (fold_left (kt_signs_step scores) (seq 0 n) init) n) as (H4 & H5 & H6);
        [lia|auto|auto|].
      split; auto. split; auto. intros m r Hm Hr. rewrite H6 by lia.
      destruct (Nat.eqb_spec r n) as [->|]; auto. apply H3; lia. }
  apply H. lia.
Qed.

(** *** The correction makes the product +1 *)
Lemma prodf_pm l : (forall x : R, In x l -> x <> 0) -> prodf l sgn = 1 \/ prodf l sgn = -1.
Proof.
  induction l; cbn; intros H; [auto|].
  destruct (sgn_pm (H a (or_introl eq_refl))) as [-> | ->]; destruct IHl as [-> | ->]; auto; [left|right|right|left]; lra.
Qed.

Lemma prodf_flip n f k : (k < n)%nat ->
  prodf (seq 0 n) (fun m => if Nat.eqb m k then - f m else f m) = - prodf (seq 0 n) f.
Proof.
  assert (H : forall n a, (a <= k < a + n)%nat ->
    prodf (seq a n) (fun m => if Nat.eqb m k then - f m else f m) = - prodf (seq a n) f).
  { induction n0; intros a Ha; [lia|]. cbn. destruct (Nat.eqb_spec a k) as [->|Hn].
    - rewrite (@prodf_ext _ (seq (S k) n0) _ f); [ring|].
      intros i Hi. apply in_seq in Hi. destruct (Nat.eqb_spec i k); [lia|auto].
    - rewrite IHn0 by lia. ring. }
  intros Hk. apply H. lia.
Qed.

Lemma prodf_nth_seq (l : list R) f : prodf l f = prodf (seq 0 (length l)) (fun m => f (nth m l 0)).
Proof.
  induction l; cbn; auto. rewrite IHl. f_equal. rewrite <- seq_shift, prodf_map. reflexivity.
Qed.

Lemma corrected_prod col : (forall x, In x col -> x <> 0) ->
  prodf (seq 0 (length col)) (corrected col) = 1.
Proof.
  intros H. unfold corrected. destruct (Req_EM_T (prodf col sgn) (-1)) as [E|E].
  - assert (Hne : map Rabs col <> []).
    { intros Hn. apply map_eq_nil in Hn. subst. cbn in E. lra. }
    destruct (argmin_spec Hne) as [Ha _]. rewrite map_length in Ha.
    rewrite (@prodf_flip (length col) (fun m => sgn (nth m col 0))) by auto.
    rewrite <- (prodf_nth_seq col sgn). lra.
  - rewrite <- (prodf_nth_seq col sgn). destruct (prodf_pm H); lra.
Qed.

Lemma corrected_pm col m : (m < length col)%nat -> (forall x, In x col -> x <> 0) ->
  corrected col m = 1 \/ corrected col m = -1.
Proof.
  intros Hm H. assert (Hx : nth m col 0 <> 0) by (apply H, nth_In; auto).
  unfold corrected. destruct (Req_EM_T _ _); [destruct (Nat.eqb _ _)|];
    destruct (sgn_pm Hx) as [-> | ->]; lra.
Qed.

Lemma corrected_differs col m : (m < length col)%nat -> nth m col 0 <> 0 ->
  corrected col m <> sgn (nth m col 0) ->
  m = argmin (map Rabs col) /\ forall j, (j < length col)%nat -> Rabs (nth m col 0) <= Rabs (nth j col 0).
Proof.
  intros Hm H0 H. unfold corrected in H. destruct (Req_EM_T _ _); [|congruence].
  destruct (Nat.eqb_spec m (argmin (map Rabs col))) as [E|]; [|congruence]. split; auto.
  intros j Hj. assert (Hne : map Rabs col <> []) by (destruct col; cbn in *; [lia|discriminate]).
  destruct (argmin_spec Hne) as [Ha Hmin]. rewrite <- E, map_length in *.
  specialize (Hmin j Hj).
  rewrite !(nth_indep _ 0 (Rabs 0)) in Hmin by (rewrite map_length; auto).
  now rewrite !map_nth in Hmin.
Qed.

Lemma prodf_zero {I} (l : list I) f i : In i l -> f i = 0 -> prodf l f = 0.
Proof. induction l; cbn; intros []; intros E; [subst; rewrite E; ring|rewrite IHl; auto; ring]. Qed.

Lemma corrected_zero col m : (exists x, In x col /\ x = 0) -> corrected col m = sgn (nth m col 0).
Proof.
  intros (x & Hx & ->). unfold corrected.
  assert (E : prodf col sgn = 0) by (apply (prodf_zero Hx); apply sgn_0).
  destruct (Req_EM_T _ _); auto. lra.
Qed.

(** *** Multiplying columns *)
Definition colscaled (K : nat) (s : nat -> R) (U : nd) : nd :=
  tab2 (nrows U) K (fun i r => mget U i r * s r).

Lemma broadcast_into_mat_vec n m U s : is_mat n m U -> is_vec m s ->
  broadcast_into Rmult U s = Ok (tab2 n m (fun i r => mget U i r * vget s r)).
Proof.
  intros HU Hs. unfold broadcast_into. destruct HU as [HU HUs], Hs as [Hs Hss].
  rewrite HUs, Hss. unfold bshape. cbn [rev app bshape_rev]. rewrite Nat.eqb_refl. cbn [option_map rev app].
  destruct (list_eq_dec _ _ _); [|congruence].
  apply (broadcast_mat_vec Rmult); split; auto.
Qed.

(** Factors times their sign vectors: [factor_matrices[m] * signs[m]]. *)
Definition apply_signs (Us signs : list nd) : res (list nd) :=
  mapM (fun p => broadcast_into Rmult (fst p) (snd p)) (combine Us signs).

Lemma apply_signs_ok K Us signs : mats K Us -> Forall (is_vec K) signs -> length signs = length Us ->
  exists Vs, apply_signs Us signs = Ok Vs /\ mats K Vs /\ rows Vs = rows Us /\
    forall idx r, valid idx (rows Us) -> (r < K)%nat ->
      colprod Vs idx r = colprod Us idx r * prodf signs (fun s => vget s r).
Proof.
  intros HU. revert signs. induction HU as [|U Us H0 HU IH]; intros [|s signs] Hs Hl; cbn in Hl; try lia.
  - exists []. repeat split; auto. + constructor. + intros. cbn. ring.
  - inversion Hs as [|? ? Hs1 Hs2]; subst. destruct (IH signs) as (Vs & E & HV & HR & He); auto.
    unfold apply_signs in *. cbn [combine mapM fst snd].
    rewrite (broadcast_into_mat_vec H0 Hs1). cbn [bind]. rewrite E. cbn [bind].
    set (V := tab2 _ _ _). assert (HVm : is_mat (nrows U) K V) by (unfold V; auto).
    exists (V :: Vs). split; auto. split.
    { apply (proj2 (@mats_cons K V Vs)). split; auto. }
    split. { cbn [rows map]. f_equal. exact HR. }
    intros idx r Hv Hr. cbn in Hv. apply valid_cons_inv in Hv as (i & idx' & -> & Hi & Hv).
    cbn [colprod prodf]. rewrite He by auto. unfold V. rewrite mget_tab2 by auto. ring.
Qed.

(** *** Single components *)
Lemma take_col_ok n m U z c : is_mat n m U -> py_index m z = Some c ->
  take_col U z = Ok (tab2 n 1 (fun i _ => mget U i c)).
Proof. intros [_ Hs] E. unfold take_col. rewrite Hs. now rewrite E. Qed.

Lemma kt_single_ok K Us w z c : mats K Us -> Us <> [] -> is_vec K w -> py_index K z = Some c ->
  kt_single {| kt_rank := K; kt_fms := Us; kt_w := w |} z =
  Ok {| kt_rank := 1; kt_fms := map (fun U => tab2 (nrows U) 1 (fun i _ => mget U i c)) Us;
        kt_w := tab1 1 (fun _ => vget w c) |}.
Proof.
  intros HU Hne Hw Hz. unfold kt_single. cbn [kt_fms kt_w].
  rewrite (@mapM_ok nd nd _ (fun U => tab2 (nrows U) 1 (fun i _ => mget U i c))).
  2:{ intros U HIn. apply (take_col_ok (mats_in HU HIn) Hz). }
  cbn [bind]. destruct Hw as [Hw Hs]. unfold np_len. rewrite Hs. cbn [bind]. rewrite Hz. cbn [bind].
  apply kt_init_mats; auto.
  - unfold mats. rewrite Forall_map. apply Forall_forall. intros U _.
    assert (H : is_mat (nrows U) 1 (tab2 (nrows U) 1 (fun i _ => mget U i c))) by auto.
    now rewrite (is_mat_nrows H).
  - intros E. apply map_eq_nil in E. auto.
Qed.

Lemma colprod_single Us c idx K : mats K Us -> valid idx (rows Us) ->
  colprod (map (fun U => tab2 (nrows U) 1 (fun i _ => mget U i c)) Us) idx 0 = colprod Us idx c.
Proof.
  intros HU. revert idx. induction HU; intros idx Hv; auto.
  cbn in Hv. apply valid_cons_inv in Hv as (i & idx' & -> & Hi & Hv). cbn [map colprod].
  rewrite IHHU by auto. now rewrite mget_tab2 by auto.
Qed.

(** *** Permutations *)
Lemma is_perm_Permutation K p : is_perm K p -> Permutation p (seq 0 K).
Proof.
  intros (Hl & Hn & Hb). apply NoDup_Permutation_bis; auto.
  - rewrite seq_length. lia.
  - intros x Hx. apply in_seq. specialize (Hb x Hx). lia.
Qed.

Lemma sumf_perm {I} (l l' : list I) f : Permutation l l' -> sumf l f = sumf l' f.
Proof. induction 1; cbn; lra. Qed.

Lemma sum_nth_perm K p f : is_perm K p -> sum K (fun r => f (nth r p 0%nat)) = sum K f.
Proof.
  intros H. rewrite <- (sumf_perm f (is_perm_Permutation H)).
  destruct H as (<- & _). clear. induction p; cbn; auto.
  rewrite <- seq_shift, sumf_map. now rewrite IHp.
Qed.

Definition colperm (p : list nat) (U : nd) : nd := tab2 (nrows U) (length p) (fun i j => mget U i (nth j p 0%nat)).

Lemma take_cols_ok n m U p : is_mat n m U -> (forall x, In x p -> (x < m)%nat) ->
  take_cols U p = Ok (colperm p U).
Proof.
  intros HU Hp. unfold take_cols, colperm. rewrite (is_mat_nrows HU). destruct HU as [_ ->].
  assert (E : forallb (fun p => Nat.ltb p m) p = true).
  { apply forallb_forall. intros x Hx. apply Nat.ltb_lt. auto. }
  now rewrite E.
Qed.

Lemma permute_factors_ok K Us p : mats K Us -> (forall x, In x p -> (x < K)%nat) ->
  permute_factors p Us = Ok (map (colperm p) Us).
Proof. intros HU Hp. apply mapM_ok. intros U HI. eapply take_cols_ok; eauto. eapply mats_in; eauto. Qed.

Lemma mats_colperm Us p : mats (length p) (map (colperm p) Us).
Proof.
  unfold mats. rewrite Forall_map. apply Forall_forall. intros U _.
  assert (H : is_mat (nrows U) (length p) (colperm p U)) by (unfold colperm; auto).
  now rewrite (is_mat_nrows H).
Qed.
Lemma rows_colperm Us p : rows (map (colperm p) Us) = rows Us.
Proof. unfold rows. rewrite map_map. apply map_ext. reflexivity. Qed.

Lemma colprod_colperm Us p idx r : valid idx (rows Us) -> (r < length p)%nat ->
  colprod (map (colperm p) Us) idx r = colprod Us idx (nth r p 0%nat).
Proof.
  intros Hv Hr. revert idx Hv. induction Us as [|U Us IH]; intros idx Hv; auto.
  cbn in Hv. apply valid_cons_inv in Hv as (i & idx' & -> & Hi & Hv). cbn [map colprod].
  rewrite IH by auto. unfold colperm at 1. now rewrite mget_tab2 by auto.
Qed.

Lemma take_vec_ok n w p : is_vec n w -> (forall x, In x p -> (x < n)%nat) ->
  take_vec w p = Ok (tab1 (length p) (fun j => vget w (nth j p 0%nat))).
Proof.
  intros [_ Hs] Hp. unfold take_vec. rewrite Hs.
  assert (E : forallb (fun p => Nat.ltb p n) p = true).
  { apply forallb_forall. intros x Hx. apply Nat.ltb_lt. auto. }
  now rewrite E.
Qed.

Lemma cp_entry_perm K Us w p idx : is_perm K p -> valid idx (rows Us) ->
  cp_entry (map (colperm p) Us) (fun j => w (nth j p 0%nat)) K idx = cp_entry Us w K idx.
Proof.
  intros Hp Hv. unfold cp_entry. rewrite <- (@sum_nth_perm K p (fun r => w r * colprod Us idx r)) by auto.
  apply sum_ext. intros r Hr. rewrite colprod_colperm; auto. destruct Hp as (-> & _). auto.
Qed.
