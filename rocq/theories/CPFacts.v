(** Lemmas about the sum of squared errors and the updates of CP_ALS. *)
From Verif Require Export CP CPSpec Gram Solves Mttkrp KruskalFacts.
Set Implicit Arguments.
Unset Strict Implicit.
Local Open Scope R_scope.

(** *** Splitting one mode off *)
Lemma colprod_insert Us : forall n i c r, (n < length Us)%nat -> (length Us = S (length c))%nat ->
  colprod Us (insert_at n i c) r = mget (nth n Us m0) i r * colprod (remove_at n Us) c r.
Proof.
  induction Us as [|U Us IH]; intros [|n] i c r Hn Hl; cbn in Hn, Hl; try lia.
  - reflexivity.
  - destruct c as [|j c]; [cbn in Hl; lia|]. cbn [insert_at colprod nth remove_at].
    rewrite IH by (cbn in Hl; lia). ring.
Qed.

Lemma gramprod_indices Us r s :
  sumf (indices (rows Us)) (fun c => colprod Us c r * colprod Us c s) = gramprod Us r s.
Proof.
  induction Us as [|U Us IH].
  - cbn. ring.
  - cbn [rows map]. rewrite sumf_indices_cons. cbn [colprod]. unfold gramprod. cbn [prodf].
    fold (gramprod Us r s). rewrite <- IH. unfold gram. rewrite <- sum_scal_r. apply sum_ext. intros i Hi.
    rewrite <- sumf_scal_l. apply sumf_ext. intros; ring.
Qed.

Section Mode.
Variables (X : nd) (Us : list nd) (K n : nat).
Hypothesis (Hr : rows Us = shape X) (Hn : (n < length (shape X))%nat).
Let C := prodl (remove_at n (shape X)).
Let ix (c : nat) : list nat := nth c (indices (remove_at n (shape X))) [].
Definition mode_A (r c : nat) : R := colprod (remove_at n Us) (ix c) r.
Definition mode_B (i c : nat) : R := get X (insert_at n i (ix c)).

Lemma mode_len : length Us = length (shape X).
Proof. rewrite <- Hr. unfold rows. now rewrite map_length. Qed.

Lemma mode_gV r s : gV C mode_A r s = normal_lhs Us n r s.
Proof.
  unfold normal_lhs. rewrite <- gramprod_indices. unfold rows. rewrite map_remove_at. fold (rows Us). rewrite Hr.
  rewrite sumf_indices_seq. reflexivity.
Qed.
Lemma mode_gM i r : (i < nth n (shape X) 0)%nat -> gM C mode_A mode_B i r = normal_rhs X Us n i r.
Proof.
  intros Hi. unfold normal_rhs. rewrite mttkrp_entry_split by auto.
  rewrite sumf_indices_seq. reflexivity.
Qed.

Lemma mode_ix_length c : (c < C)%nat -> (length (shape X) = S (length (ix c)))%nat.
Proof.
  intros Hc. unfold ix. rewrite (valid_length (valid_nth_indices Hc)).
  rewrite length_remove_at by auto. lia.
Qed.

Lemma mode_sse Z : sse X (with_factor n Z Us) unit_weights K =
  dist2 (nth n (shape X) 0%nat) C (mprod K (mget Z) mode_A) mode_B.
Proof.
  unfold sse, dist2. rewrite (sumf_indices_axis _ Hn). apply sum_ext. intros i Hi.
  rewrite sumf_indices_seq. apply sum_ext. intros c Hc.
  fold (ix c). change (get X (insert_at n i (ix c))) with (mode_B i c).
  assert (E : cp_entry (with_factor n Z Us) unit_weights K (insert_at n i (ix c)) = mprod K (mget Z) mode_A i c).
  { unfold cp_entry, mprod. apply sum_ext. intros r Hrk. unfold unit_weights, with_factor.
    rewrite colprod_insert.
    - rewrite nth_replace_at_eq by (now rewrite mode_len). rewrite remove_replace_at. unfold mode_A. ring.
    - rewrite length_replace_at, mode_len. exact Hn.
    - rewrite length_replace_at, mode_len. now apply mode_ix_length. }
  rewrite E. ring.
Qed.

(** <X, Y> through the cached product *)
Lemma mode_inner w : (n < length Us)%nat ->
  sumf (indices (shape X)) (fun idx => get X idx * cp_entry Us w K idx) =
  sum K (fun r => w r * sum (nth n (shape X) 0%nat) (fun i => mget (nth n Us m0) i r * mttkrp_entry X Us n i r)).
Proof.
  intros Hlt. rewrite (sumf_indices_axis _ Hn).
  transitivity (sum (nth n (shape X) 0%nat) (fun i => sum K (fun r =>
     w r * (mget (nth n Us m0) i r * mttkrp_entry X Us n i r)))).
  - apply sum_ext. intros i Hi. rewrite sumf_indices_seq.
    transitivity (sum C (fun c => sum K (fun r => w r * (mget (nth n Us m0) i r * (mode_B i c * mode_A r c))))).
    + apply sum_ext. intros c Hc. fold (ix c). unfold cp_entry. rewrite <- sum_scal_l.
      apply sum_ext. intros r Hrk. rewrite colprod_insert; [|auto|rewrite mode_len; now apply mode_ix_length].
      unfold mode_B, mode_A. ring.
    + rewrite sum_swap. apply sum_ext. intros r Hrk. rewrite !sum_scal_l. do 2 f_equal.
      change (mttkrp_entry X Us n i r) with (normal_rhs X Us n i r).
      rewrite <- mode_gM by auto. reflexivity.
  - rewrite sum_swap. apply sum_ext. intros r Hrk. now rewrite sum_scal_l.
Qed.
End Mode.

(** *** The left-hand side *)
Lemma broadcast_into_mat op n m a b : is_mat n m a -> is_mat n m b ->
  broadcast_into op a b = Ok (tab2 n m (fun i j => op (mget a i j) (mget b i j))).
Proof.
  intros Ha Hb. unfold broadcast_into. rewrite (broadcast_mat op Ha Hb).
  destruct Ha as [Ha Sa], Hb as [Hb Sb]. rewrite Sa, Sb, bshape_same.
  destruct (list_eq_dec Nat.eq_dec [n; m] [n; m]) as [_|N]; [reflexivity|congruence].
Qed.

Lemma als_lhs_fold K Us : mats K Us -> forall skip a V, is_mat K K V ->
  exists V', foldM (fun V '(i, U) =>
           if (i =? skip)%nat then Ok V else
           do G <- matmul (transp U) U ; broadcast_into Rmult V G)
        (combine (seq a (length Us)) Us) V = Ok V' /\ is_mat K K V' /\
    forall r s, (r < K)%nat -> (s < K)%nat ->
      mget V' r s = mget V r s * gramprod (if (skip <? a)%nat then Us else remove_at (skip - a) Us) r s.
Proof.
  intros HU skip. induction HU as [|U Us HU0 HU IH]; intros a V HV.
  - exists V. split; [reflexivity|]. split; [auto|]. intros. destruct (skip <? a)%nat, (skip - a)%nat; cbn; ring.
  - cbn [length seq combine foldM]. destruct (Nat.eqb_spec a skip) as [->|Hne].
    + cbn [bind]. destruct (IH (S skip) V HV) as (V' & E & HV' & Hent). exists V'. rewrite E.
      split; [reflexivity|]. split; [auto|]. intros r s Hr Hs. rewrite Hent by auto.
      rewrite (proj2 (Nat.ltb_lt _ _)) by lia. rewrite (proj2 (Nat.ltb_ge _ _)) by lia.
      now rewrite Nat.sub_diag.
    + rewrite (matmul_ok (is_mat_transp HU0) HU0). cbn [bind].
      rewrite (broadcast_into_mat Rmult HV (is_mat_tab2 _ _ _)). cbn [bind].
      match goal with |- context [foldM _ _ ?W] => destruct (IH (S a) W (is_mat_tab2 _ _ _)) as (V' & E & HV' & Hent) end.
      exists V'. rewrite E. split; [reflexivity|]. split; [auto|]. intros r s Hr Hs. rewrite Hent by auto.
      rewrite !mget_tab2 by auto.
      assert (EG : sum (nrows U) (fun k => mget (transp U) r k * mget U k s) = gram U r s).
      { apply sum_ext. intros k Hk. now rewrite (mget_transp HU0). }
      rewrite EG. destruct (Nat.ltb_spec skip (S a)), (Nat.ltb_spec skip a); try lia.
      * unfold gramprod. cbn [prodf]. ring.
      * replace (skip - a)%nat with (S (skip - S a)) by lia. cbn [remove_at].
        unfold gramprod. cbn [prodf]. ring.
Qed.

Lemma is_mat_ones n m : is_mat n m (np_ones [n; m]).
Proof. split; [apply wf_tab|apply shape_tab]. Qed.
Lemma mget_ones n m i j : (i < n)%nat -> (j < m)%nat -> mget (np_ones [n; m]) i j = 1.
Proof. intros. unfold mget, np_ones. now rewrite get_tab by (now apply valid2). Qed.

Lemma als_lhs_ok cs K Us skip : mats K Us -> cs_rank cs = K ->
  exists V, als_lhs cs Us skip = Ok V /\ is_mat K K V /\
    forall r s, (r < K)%nat -> (s < K)%nat -> mget V r s = normal_lhs Us skip r s.
Proof.
  intros HU HK. unfold als_lhs. rewrite HK.
  destruct (als_lhs_fold HU skip 0 (is_mat_ones K K)) as (V & E & HV & Hent).
  exists V. rewrite E. split; [reflexivity|]. split; [auto|]. intros r s Hr Hs.
  rewrite Hent, mget_ones by auto. cbn [Nat.ltb Nat.leb]. rewrite Nat.sub_0_r. unfold normal_lhs. ring.
Qed.

(** *** Coherent states *)
Record cp_coherent (K : nat) (s : cp_state) : Prop :=
  { co_data : data_ok (cp_X s);
    co_norm : cp_norm s = norm (cp_X s);
    co_fac : factors_ok K (cp_X s) (kt_fms (cp_dec s));
    co_w : is_vec K (kt_w (cp_dec s));
    co_cache : forall m, cp_last s = Some m ->
      (m < length (shape (cp_X s)))%nat /\
      exists C, cp_cache s = Some C /\ is_mat (nth m (shape (cp_X s)) 0%nat) K C /\
        forall i r, (i < nth m (shape (cp_X s)) 0%nat)%nat -> (r < K)%nat ->
          mget C i r = mttkrp_entry (cp_X s) (kt_fms (cp_dec s)) m i r }.

Lemma coherent_len K s : cp_coherent K s -> length (kt_fms (cp_dec s)) = length (shape (cp_X s)).
Proof. intros H. destruct (co_fac H) as [_ E]. now apply mode_len. Qed.
Lemma shape_nonzero X n : data_ok X -> (n < length (shape X))%nat -> nth n (shape X) 0%nat <> 0%nat.
Proof. intros (_ & _ & H) Hn. eapply Forall_forall in H; [exact H|]. now apply nth_In. Qed.

Lemma kt_construct_of junk K k : mats K (kt_fms k) -> is_vec K (kt_w k) -> (2 <= length (kt_fms k))%nat ->
  exists T, kt_construct junk k = Ok T /\ wf T /\ shape T = rows (kt_fms k) /\
    forall idx, valid idx (rows (kt_fms k)) -> get T idx = cp_entry (kt_fms k) (vget (kt_w k)) K idx.
Proof. intros H1 H2 H3. apply (@kt_construct_ok junk K (kt_fms k) (kt_w k)); auto. Qed.

Lemma rows_nth K Us X n : factors_ok K X Us -> (n < length (shape X))%nat ->
  is_mat (nth n (shape X) 0%nat) K (nth n Us m0).
Proof.
  intros [HU Hr] Hn. assert (Hl := mode_len Hr). rewrite <- Hr. unfold rows.
  rewrite (nth_indep _ 0%nat (nrows m0)) by (rewrite map_length; lia). rewrite map_nth.
  eapply Forall_forall in HU; [exact HU|]. apply nth_In. lia.
Qed.

Lemma list_get_nth {A} (l : list A) n d : (n < length l)%nat -> list_get l n = Ok (nth n l d).
Proof. intros H. unfold list_get. rewrite (nth_error_nth' l d H). reflexivity. Qed.

Lemma norm2_sq a : wf a -> norm a ^ 2 = sumf (indices (shape a)) (fun idx => get a idx ^ 2).
Proof. intros H. rewrite norm_pow2, norm2_get by auto. apply sumf_ext. intros; ring. Qed.

Lemma np_sum_vec n a : is_vec n a -> np_sum a = sum n (vget a).
Proof.
  intros [H Hs]. unfold np_sum. rewrite sumf_data by auto. rewrite Hs, sumf_indices1. reflexivity.
Qed.

Lemma broadcast_vec op n a b : is_vec n a -> is_vec n b ->
  broadcast op a b = Ok (tab1 n (fun i => op (vget a i) (vget b i))).
Proof.
  intros [Ha Hsa] [Hb Hsb]. unfold broadcast. rewrite Hsa, Hsb, bshape_same. f_equal.
  apply tab_ext. intros idx Hv. rewrite !bidx_same by auto.
  apply valid_cons_inv in Hv as (i & idx' & -> & Hi & Hv). apply valid_nil_inv in Hv. subst. reflexivity.
Qed.

Lemma is_vec_sum_axis0 n m a : is_mat n m a -> is_vec m (sum_axis0 a).
Proof. intros [_ Hs]. unfold sum_axis0, ncols. rewrite Hs. apply is_vec_tab1. Qed.
Lemma vget_sum_axis0 n m a r : is_mat n m a -> (r < m)%nat ->
  vget (sum_axis0 a) r = sum n (fun i => mget a i r).
Proof. intros [_ Hs] Hr. unfold sum_axis0, ncols, nrows. rewrite Hs. cbn [nth]. now rewrite vget_tab1. Qed.

Lemma cp_SSE_ok env K s : cp_coherent K s ->
  cp_SSE env s = Ok (sse (cp_X s) (kt_fms (cp_dec s)) (vget (kt_w (cp_dec s))) K).
Proof.
  intros H. pose proof (co_fac H) as HF. pose proof HF as [HU Hr]. pose proof (coherent_len H) as Hl.
  pose proof (co_data H) as HD. destruct (co_data H) as (HX & H2 & _). unfold cp_SSE.
  destruct (@kt_construct_of (env_junk env) K (cp_dec s)) as (Y & EY & HY & HYs & HYe); auto.
  { apply (co_w H). } { now rewrite Hl. }
  rewrite EY. cbn [bind]. rewrite Hr in HYs, HYe.
  destruct (cp_last s) as [m|] eqn:Em.
  - destruct (co_cache H Em) as (Hm & C & EC & HC & HCe).
    pose proof (rows_nth HF Hm) as HUm.
    unfold cp_inner. rewrite (@list_get_nth _ _ m m0) by (rewrite Hl; auto). rewrite EC. cbn [bind not_none].
    unfold np_mul. rewrite (broadcast_mat Rmult HUm HC). cbn [bind].
    rewrite (broadcast_vec Rmult (co_w H) (is_vec_sum_axis0 (is_mat_tab2 _ _ _))). cbn [bind].
    f_equal. rewrite (np_sum_vec (is_vec_tab1 _ _)). rewrite (co_norm H), !norm2_sq by auto.
    unfold sse. rewrite HYs.
    transitivity (sumf (indices (shape (cp_X s))) (fun idx => get (cp_X s) idx ^ 2) +
       sumf (indices (shape (cp_X s))) (fun idx => cp_entry (kt_fms (cp_dec s)) (vget (kt_w (cp_dec s))) K idx ^ 2) -
       2 * sumf (indices (shape (cp_X s))) (fun idx => get (cp_X s) idx *
             cp_entry (kt_fms (cp_dec s)) (vget (kt_w (cp_dec s))) K idx)).
    + f_equal.
      * f_equal. apply sumf_ext. intros idx Hi. apply in_indices in Hi. now rewrite HYe.
      * f_equal. rewrite (@mode_inner (cp_X s) (kt_fms (cp_dec s)) K m) by (auto; rewrite Hl; auto).
        apply sum_ext. intros r Hrk. rewrite vget_tab1 by auto. f_equal.
        rewrite (vget_sum_axis0 (is_mat_tab2 _ _ _)) by auto.
        apply sum_ext. intros i Hi. rewrite mget_tab2 by auto. now rewrite HCe.
    + rewrite <- sumf_scal_l, <- sumf_plus, <- sumf_minus. apply sumf_ext. intros; ring.
  - unfold np_sub. rewrite broadcast_same by auto. cbn [bind]. f_equal.
    rewrite norm2_sq by apply wf_tab. rewrite shape_tab. unfold sse. apply sumf_ext. intros idx Hi.
    apply in_indices in Hi. rewrite get_tab by auto. now rewrite HYe.
Qed.
