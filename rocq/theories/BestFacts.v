(** Variance captured by orthonormal columns (Ky Fan) and the best approximation of a matrix (Eckart-Young). *)
From Verif Require Export BestSpec Exists CPFacts CPInit QualityFacts Parafac2Safe.
From Verif Require Import Prelude Lin.
Set Implicit Arguments.
Unset Strict Implicit.
Local Open Scope R_scope.

Lemma bessel n k Q u : orth_cols n k Q -> sum k (fun r => sum n (fun i => u i * Q i r) ^ 2) <= sum n (fun i => u i ^ 2).
Proof.
  intros HO. set (a := fun r => sum n (fun i => u i * Q i r)).
  assert (H0 : 0 <= sum n (fun i => (u i - sum k (fun r => a r * Q i r)) ^ 2)) by (apply sum_nonneg; intros; apply pow2_ge_0).
  rewrite (@sum_ext n _ (fun i => u i ^ 2 - 2 * (u i * sum k (fun r => a r * Q i r)) +
    sum k (fun r => a r * Q i r) * sum k (fun r => a r * Q i r))) in H0 by (intros; ring).
  rewrite sum_plus, sum_minus, sum_scal_l, (parseval_cols _ _ HO) in H0.
  assert (E : sum n (fun i => u i * sum k (fun r => a r * Q i r)) = sum k (fun r => a r * a r)).
  { rewrite (@sum_ext n _ (fun i => sum k (fun r => a r * (u i * Q i r)))).
    - rewrite sum_swap. apply sum_ext. intros r Hr. now rewrite sum_scal_l.
    - intros i Hi. rewrite <- sum_scal_l. apply sum_ext. intros; ring. }
  rewrite E in H0. rewrite (@sum_ext k _ (fun r => a r * a r)) by (intros; unfold a; ring). lra.
Qed.

Lemma sum_split n k f : (k <= n)%nat -> sum n f = sum k f + sum (n - k) (fun t => f (k + t)%nat).
Proof.
  intros H. replace n with (k + (n - k))%nat at 1 by lia. generalize (n - k)%nat. intros d. clear H.
  rewrite seq_app. rewrite sumf_app. f_equal. rewrite Nat.add_0_l.
  assert (E : seq k d = map (fun t => (k + t)%nat) (seq 0 d)).
  { rewrite <- (Nat.add_0_r k) at 1. generalize 0%nat. induction d as [|d IH]; intros b; cbn [seq map]; [reflexivity|].
    now rewrite <- Nat.add_succ_r, IH. }
  rewrite E. now rewrite sumf_map.
Qed.

(** Weights at most 1 that add up to at most k are best placed on the first k values. *)
Lemma weighted_le p k (w c : nat -> R) : (forall r, (r < p)%nat -> 0 <= w r) -> (forall r s, (r <= s < p)%nat -> w s <= w r) ->
  (forall r, (r < p)%nat -> 0 <= c r <= 1) -> sum p c <= INR k ->
  sum p (fun r => w r * c r) <= sum (Nat.min k p) w.
Proof.
  intros Hw Hs Hc HS. destruct (Nat.le_gt_cases p k) as [Hpk|Hpk].
  - rewrite Nat.min_r by auto. apply sum_le. intros r Hr. specialize (Hw r Hr). specialize (Hc r Hr). nra.
  - rewrite Nat.min_l by lia. rewrite (@sum_split p k) in HS |- * by lia.
    assert (H1 : sum k (fun r => w r * c r) <= sum k w + w k * (sum k c - INR k)).
    { replace (sum k w + w k * (sum k c - INR k)) with (sum k (fun r => w r + w k * (c r - 1))).
      - apply sum_le. intros r Hr. specialize (Hs r k ltac:(lia)). specialize (Hc r ltac:(lia)). nra.
      - rewrite sum_plus, sum_scal_l, sum_minus, sum_const. ring. }
    assert (H2 : sum (p - k) (fun t => w (k + t)%nat * c (k + t)%nat) <= w k * sum (p - k) (fun t => c (k + t)%nat)).
    { rewrite <- sum_scal_l. apply sum_le. intros t Ht. specialize (Hs k (k + t)%nat ltac:(lia)). specialize (Hc (k + t)%nat ltac:(lia)). nra. }
    specialize (Hw k Hpk). nra.
Qed.

Section SVD.
Variables (n m p : nat) (A U V : nat -> nat -> R) (s : nat -> R).
Hypothesis HU : orth_cols n p U.
Hypothesis HV : orth_rows p m V.
Hypothesis Hs0 : forall r, (r < p)%nat -> 0 <= s r.
Hypothesis Hss : forall r t, (r <= t < p)%nat -> s t <= s r.
Hypothesis HA : forall i j, (i < n)%nat -> (j < m)%nat -> A i j = sum p (fun r => U i r * s r * V r j).

Lemma captured_coeff k Q : captured n m k A Q = sum p (fun r => s r ^ 2 * sum k (fun q => sum n (fun i => U i r * Q i q) ^ 2)).
Proof.
  unfold captured.
  transitivity (sum k (fun q => sum p (fun r => (s r * sum n (fun i => U i r * Q i q)) * (s r * sum n (fun i => U i r * Q i q))))).
  - apply sum_ext. intros q Hq. rewrite <- (parseval_rows _ _ HV). apply sum_ext. intros j Hj.
    assert (E : sum n (fun i => Q i q * A i j) = sum p (fun r => s r * sum n (fun i => U i r * Q i q) * V r j)).
    { rewrite (@sum_ext n _ (fun i => sum p (fun r => s r * V r j * (U i r * Q i q)))).
      - rewrite sum_swap. apply sum_ext. intros r Hr. rewrite sum_scal_l. ring.
      - intros i Hi. rewrite HA by auto. rewrite <- sum_scal_l. apply sum_ext. intros; ring. }
    rewrite E. ring.
  - rewrite sum_swap. apply sum_ext. intros r Hr. rewrite <- sum_scal_l. apply sum_ext. intros; ring.
Qed.

Lemma squares_sorted r t : (r <= t < p)%nat -> s t ^ 2 <= s r ^ 2.
Proof. intros H. specialize (Hss H). specialize (Hs0 (r := t) ltac:(lia)). nra. Qed.

Lemma captured_le k Q : orth_cols n k Q -> captured n m k A Q <= sum (Nat.min k p) (fun r => s r ^ 2).
Proof.
  intros HQ. rewrite captured_coeff. apply weighted_le with (w := fun r => s r ^ 2) (c := fun r => sum k (fun q => sum n (fun i => U i r * Q i q) ^ 2)).
  - intros. apply pow2_ge_0.
  - intros r t. apply squares_sorted.
  - intros r Hr. split; [apply sum_nonneg; intros; apply pow2_ge_0|].
    eapply Rle_trans; [apply (bessel (fun i => U i r) HQ)|]. rewrite (@sum_ext n _ (fun i => U i r * U i r)) by (intros; ring).
    rewrite HU by auto. rewrite delta_refl. lra.
  - rewrite sum_swap. replace (INR k) with (sum k (fun _ => 1)) by (rewrite sum_const; ring). apply sum_le. intros q Hq.
    rewrite (@sum_ext p _ (fun r => sum n (fun i => Q i q * U i r) ^ 2)) by (intros; f_equal; apply sum_ext; intros; ring).
    eapply Rle_trans; [apply (bessel (fun i => Q i q) HU)|]. rewrite (@sum_ext n _ (fun i => Q i q * Q i q)) by (intros; ring).
    rewrite HQ by auto. rewrite delta_refl. lra.
Qed.

Lemma all_captured : frob2 n m A = sum p (fun r => s r ^ 2).
Proof.
  unfold frob2. transitivity (sum n (fun i => sum p (fun r => (s r * U i r) * (s r * U i r)))).
  - apply sum_ext. intros i Hi. rewrite <- (parseval_rows _ _ HV). apply sum_ext. intros j Hj. rewrite HA by auto.
    assert (E : sum p (fun r => U i r * s r * V r j) = sum p (fun r => s r * U i r * V r j)) by (apply sum_ext; intros; ring).
    rewrite E. ring.
  - rewrite sum_swap. apply sum_ext. intros r Hr. rewrite (@sum_ext n _ (fun i => s r ^ 2 * (U i r * U i r))) by (intros; ring).
    rewrite sum_scal_l, HU by auto. rewrite delta_refl. ring.
Qed.

Lemma projection_best k Q T : orth_cols n k Q -> frob2 n m A - captured n m k A Q <= dist2 n m (mprod k Q T) A.
Proof.
  intros HQ. unfold frob2, captured, dist2. rewrite (sum_swap n m (fun i j => A i j ^ 2)), (sum_swap n m), (sum_swap k m).
  rewrite <- sum_minus. apply sum_le. intros j Hj. set (a := fun q => sum n (fun i => Q i q * A i j)).
  assert (E : sum n (fun i => (mprod k Q T i j - A i j) ^ 2) =
    sum k (fun q => T q j * T q j) - 2 * sum k (fun q => T q j * a q) + sum n (fun i => A i j ^ 2)).
  { rewrite (@sum_ext n _ (fun i => sum k (fun q => T q j * Q i q) * sum k (fun q => T q j * Q i q) -
      2 * sum k (fun q => T q j * (Q i q * A i j)) + A i j ^ 2)).
    - rewrite sum_plus, sum_minus, (parseval_cols _ _ HQ), sum_scal_l, sum_swap. do 3 f_equal.
      apply sum_ext. intros q Hq. now rewrite sum_scal_l.
    - intros i Hi. unfold mprod.
      assert (E1 : sum k (fun q => Q i q * T q j) = sum k (fun q => T q j * Q i q)) by (apply sum_ext; intros; ring).
      assert (E2 : sum k (fun q => T q j * (Q i q * A i j)) = sum k (fun q => T q j * Q i q) * A i j).
      { rewrite <- sum_scal_r. apply sum_ext. intros; ring. }
      rewrite E1, E2. ring. }
  rewrite E. assert (H0 : 0 <= sum k (fun q => (T q j - a q) ^ 2)) by (apply sum_nonneg; intros; apply pow2_ge_0).
  rewrite (@sum_ext k _ (fun q => T q j * T q j - 2 * (T q j * a q) + a q ^ 2)) in H0 by (intros; ring).
  rewrite sum_plus, sum_minus, sum_scal_l in H0.
  change (sum k (fun q => sum n (fun i => Q i q * A i j) ^ 2)) with (sum k (fun q => a q ^ 2)). lra.
Qed.

Lemma eckart_young k P W : (p <= n)%nat -> sum (p - k) (fun t => s (k + t)%nat ^ 2) <= dist2 n m (mprod k P W) A.
Proof.
  intros Hpn. destruct (svd_exists_fun n k P) as (Q & d & Y & HQ & HY & _ & _ & HP). set (l := Nat.min n k) in *.
  rewrite (@dist2_ext n m _ _ (mprod l Q (mprod k (fun r c => d r * Y r c) W)) A); auto.
  - eapply Rle_trans; [|apply (projection_best _ HQ)]. rewrite all_captured.
    pose proof (captured_le HQ) as HC. rewrite (@sum_split p (Nat.min l p)) by lia.
    assert (E : sum (p - k) (fun t => s (k + t)%nat ^ 2) = sum (p - Nat.min l p) (fun t => s (Nat.min l p + t)%nat ^ 2)).
    { unfold l. destruct (Nat.le_gt_cases p k) as [H|H].
      - replace (p - k)%nat with 0%nat by lia. replace (p - Nat.min (Nat.min n k) p)%nat with 0%nat by lia. reflexivity.
      - replace (Nat.min (Nat.min n k) p) with k by lia. reflexivity. }
    rewrite E. lra.
  - intros i j Hi Hj. rewrite <- mprod_assoc. apply mprod_ext; auto. intros r Hr. rewrite HP by auto. unfold mprod.
    apply sum_ext. intros; ring.
Qed.
End SVD.

Lemma tail_reached n m p k A U V s : orth_cols n p U -> orth_rows p m V -> (k <= p)%nat ->
  (forall i j, (i < n)%nat -> (j < m)%nat -> A i j = sum p (fun r => U i r * s r * V r j)) ->
  dist2 n m (mprod k (fun i r => U i r * s r) V) A = sum (p - k) (fun t => s (k + t)%nat ^ 2).
Proof.
  intros HU HV Hk HA.
  assert (HD : dist2 n m (mprod k (fun i r => U i r * s r) V) A =
    frob2 n m (fun i j => sum (p - k) (fun t => U i (k + t)%nat * s (k + t)%nat * V (k + t)%nat j))).
  { unfold dist2, frob2. apply sum_ext. intros i Hi. apply sum_ext. intros j Hj. rewrite HA by auto.
    rewrite (@sum_split p k) by auto. unfold mprod. ring. }
  rewrite HD. apply all_captured with (U := fun i t => U i (k + t)%nat) (V := fun t j => V (k + t)%nat j); auto.
  - intros a b Ha Hb. rewrite HU by lia. unfold delta.
    destruct (Nat.eqb_spec (k + a) (k + b)), (Nat.eqb_spec a b); auto; lia.
  - intros a b Ha Hb. rewrite HV by lia. unfold delta.
    destruct (Nat.eqb_spec (k + a) (k + b)), (Nat.eqb_spec a b); auto; lia.
Qed.

(** *** From the full decomposition to the thin one *)
Lemma thin_U n m A U S Vh : is_full_svd n m A U S Vh -> orth_cols n (Nat.min n m) (mget U).
Proof. intros H a b Ha Hb. apply (fsvd_U_orth H); lia. Qed.
Lemma thin_V n m A U S Vh : is_full_svd n m A U S Vh -> orth_rows (Nat.min n m) m (mget Vh).
Proof. intros H a b Ha Hb. apply (fsvd_V_orth H); lia. Qed.

Lemma captured_first n m k A U S Vh : is_full_svd n m A U S Vh -> (k <= n)%nat ->
  captured n m k (mget A) (mget U) = sum (Nat.min k (Nat.min n m)) (fun r => vget S r ^ 2).
Proof.
  intros H Hk. rewrite (captured_coeff (thin_V H) (fsvd_product H)). set (p := Nat.min n m).
  transitivity (sum p (fun r => if (r <? k)%nat then vget S r ^ 2 else 0)).
  - apply sum_ext. intros r Hr. unfold p in Hr.
    rewrite (@sum_ext k _ (fun q => delta r q * delta r q)).
    2:{ intros q Hq. rewrite (fsvd_U_orth H) by lia. ring. }
    destruct (Nat.ltb_spec r k).
    + rewrite (sum_delta_l (fun q => delta r q)) by auto. rewrite delta_refl. ring.
    + rewrite sum_zero; [ring|]. intros q Hq. unfold delta. destruct (Nat.eqb_spec r q); [lia|ring].
  - rewrite (@sum_split p (Nat.min k p)) by lia. rewrite (@sum_zero (p - Nat.min k p)).
    + rewrite Rplus_0_r. apply sum_ext. intros r Hr. destruct (Nat.ltb_spec r k); auto; lia.
    + intros t Ht. destruct (Nat.ltb_spec (Nat.min k p + t) k); auto; lia.
Qed.

Lemma first_columns_best n m k A U S Vh : is_full_svd n m A U S Vh -> (k <= n)%nat -> forall Q, orth_cols n k Q ->
  captured n m k (mget A) Q <= captured n m k (mget A) (mget U).
Proof.
  intros H Hk Q HQ. rewrite (captured_first H Hk).
  apply (captured_le (thin_U H) (thin_V H) (fsvd_S_nonneg H)); auto; [apply (fsvd_S_sorted H)|apply (fsvd_product H)].
Qed.

(** *** PCA loadings *)
Lemma pca_ok svd n m Y U S Vh rank : is_mat n m Y -> svd Y = Ok (U, S, Vh) -> is_full_svd n m Y U S Vh -> (m <= n)%nat ->
  exists A, get_pca_loadings svd Y rank = Ok A /\ is_mat m (Nat.min rank m) A /\
    forall j a, (j < m)%nat -> (a < Nat.min rank m)%nat -> mget A j a = vget S a * mget Vh a j.
Proof.
  intros HY E H Hm. pose proof (fsvd_S_shape H) as HS. pose proof (fsvd_V_shape H) as HV. rewrite Nat.min_r in HS by auto.
  unfold get_pca_loadings. rewrite E. cbn [bind]. unfold shape1. rewrite (proj2 HS). cbn [bind].
  rewrite (matmul_ok (is_mat_transp HV) (is_mat_tab2 m m _)). cbn [bind]. unfold shape2. cbn [shape tab2 tab fst snd bind].
  eexists. split; [reflexivity|]. split; [apply is_mat_tab2|]. intros j a Hj Ha. rewrite mget_tab2 by auto.
  rewrite mget_tab2 by lia. rewrite (@sum_ext m _ (fun k => mget Vh k j * vget S k * delta k a)).
  - rewrite (sum_delta_r (fun k => mget Vh k j * vget S k)) by lia. ring.
  - intros k Hk. rewrite (mget_transp HV) by auto. rewrite mget_tab2 by lia. unfold delta. destruct (Nat.eqb k a); ring.
Qed.

Lemma pca_wide svd n m Y U S Vh rank : svd Y = Ok (U, S, Vh) -> is_full_svd n m Y U S Vh -> (n < m)%nat ->
  get_pca_loadings svd Y rank = Err ValueError.
Proof.
  intros E H Hm. pose proof (fsvd_S_shape H) as HS. pose proof (fsvd_V_shape H) as HV. rewrite Nat.min_l in HS by lia.
  unfold get_pca_loadings. rewrite E. cbn [bind]. unfold shape1. rewrite (proj2 HS). cbn [bind].
  unfold matmul. rewrite (proj2 (is_mat_transp HV)). cbn [shape tab2 tab]. destruct (Nat.eqb_spec m n); [lia|reflexivity].
Qed.

Section PCA.
Variables (n m : nat) (Y U S Vh : nd).
Hypotheses (H : is_full_svd n m Y U S Vh) (Hm : (m <= n)%nat).

Lemma pca_cov j j' : (j < m)%nat -> (j' < m)%nat ->
  sum n (fun i => mget Y i j * mget Y i j') = sum m (fun r => vget S r ^ 2 * (mget Vh r j * mget Vh r j')).
Proof.
  intros Hj Hj'. pose proof (fsvd_product H) as HP. rewrite Nat.min_r in HP by auto.
  assert (HU : orth_cols n m (mget U)) by (intros a b Ha Hb; apply (fsvd_U_orth H); lia).
  rewrite (@sum_ext n _ (fun i => sum m (fun r => (vget S r * mget Vh r j) * mget U i r) * sum m (fun r => (vget S r * mget Vh r j') * mget U i r))).
  - rewrite (parseval_cols _ _ HU). apply sum_ext. intros; ring.
  - intros i Hi. rewrite !HP by auto. f_equal; apply sum_ext; intros; ring.
Qed.

Lemma pca_facts svd rank : is_mat n m Y -> svd Y = Ok (U, S, Vh) ->
  let k := Nat.min rank m in
  exists A, get_pca_loadings svd Y rank = Ok A /\ is_mat m k A /\
    (forall a b, (a < k)%nat -> (b < k)%nat -> sum m (fun j => mget A j a * mget A j b) = delta a b * vget S a ^ 2) /\
    (forall j a, (j < m)%nat -> (a < k)%nat ->
       sum m (fun j' => sum n (fun i => mget Y i j * mget Y i j') * mget A j' a) = vget S a ^ 2 * mget A j a) /\
    ((m <= rank)%nat -> forall j j', (j < m)%nat -> (j' < m)%nat ->
       sum k (fun a => mget A j a * mget A j' a) = sum n (fun i => mget Y i j * mget Y i j')) /\
    (forall Q, orth_cols m k Q -> captured m n k (fun j i => mget Y i j) Q <= frob2 m k (mget A)) /\
    exists Q, orth_cols m k Q /\ captured m n k (fun j i => mget Y i j) Q = frob2 m k (mget A) /\
      forall j a, (j < m)%nat -> (a < k)%nat -> mget A j a = Q j a * vget S a.
Proof.
  intros HY E k. destruct (pca_ok rank HY E H Hm) as (A & EA & HA & HAe). fold k in HA, HAe.
  pose proof (fsvd_V_orth H) as HV. assert (Hk : (k <= m)%nat) by (unfold k; lia).
  pose proof (fsvd_product H) as HP. pose proof (fsvd_S_nonneg H) as H0. pose proof (fsvd_S_sorted H) as HSo.
  rewrite Nat.min_r in HP, H0, HSo by auto.
  assert (HVc : orth_cols m m (fun j r => mget Vh r j)) by (intros a b Ha Hb; apply HV; auto).
  assert (HUr : orth_rows m n (fun r i => mget U i r)) by (intros a b Ha Hb; apply (fsvd_U_orth H); lia).
  assert (HPt : forall j i, (j < m)%nat -> (i < n)%nat -> mget Y i j = sum m (fun r => mget Vh r j * vget S r * mget U i r)).
  { intros j i Hj Hi. rewrite HP by auto. apply sum_ext. intros; ring. }
  assert (HF : frob2 m k (mget A) = sum k (fun r => vget S r ^ 2)).
  { unfold frob2. rewrite sum_swap. apply sum_ext. intros a Ha.
    rewrite (@sum_ext m _ (fun j => vget S a ^ 2 * (mget Vh a j * mget Vh a j))).
    - rewrite sum_scal_l, HV by lia. rewrite delta_refl. ring.
    - intros j Hj. rewrite HAe by auto. ring. }
  exists A. split; auto. split; auto. split.
  { intros a b Ha Hb. rewrite (@sum_ext m _ (fun j => vget S a * vget S b * (mget Vh a j * mget Vh b j))).
    - rewrite sum_scal_l, HV by lia. unfold delta. destruct (Nat.eqb_spec a b) as [->|]; ring.
    - intros j Hj. rewrite !HAe by auto. ring. }
  split.
  { intros j a Hj Ha. rewrite HAe by auto.
    rewrite (@sum_ext m _ (fun j' => sum m (fun r => (vget S r ^ 2 * mget Vh r j * vget S a) * (mget Vh r j' * mget Vh a j')))).
    - rewrite sum_swap. rewrite (@sum_ext m _ (fun r => vget S r ^ 2 * mget Vh r j * vget S a * delta r a)).
      + rewrite (sum_delta_r (fun r => vget S r ^ 2 * mget Vh r j * vget S a)) by lia. ring.
      + intros r Hr. rewrite sum_scal_l, HV by lia. reflexivity.
    - intros j' Hj'. rewrite pca_cov, HAe by auto. rewrite <- sum_scal_r. apply sum_ext. intros; ring. }
  split.
  { intros Hr j j' Hj Hj'. assert (Ek : k = m) by (unfold k; lia). rewrite pca_cov by auto. rewrite Ek in *.
    apply sum_ext. intros r Hr'. rewrite !HAe by auto. ring. }
  split.
  { intros Q HQ. rewrite HF. replace k with (Nat.min k m) at 2 by lia.
    apply (captured_le HVc HUr H0 HSo HPt HQ). }
  exists (fun j r => mget Vh r j). split; [intros a b Ha Hb; apply HV; lia|]. split.
  { rewrite HF, (captured_coeff HUr HPt). rewrite (@sum_split m k) by auto.
    rewrite (@sum_zero (m - k)). 2:{ intros t Ht. rewrite sum_zero; [ring|]. intros q Hq. rewrite HV by lia. unfold delta.
      destruct (Nat.eqb_spec (k + t) q); [lia|ring]. }
    rewrite Rplus_0_r. apply sum_ext. intros r Hr. rewrite (@sum_ext k _ (fun q => delta r q * delta r q)).
    - rewrite (sum_delta_l (fun q => delta r q)) by auto. rewrite delta_refl. ring.
    - intros q Hq. rewrite HV by lia. ring. }
  intros j a Hj Ha. rewrite HAe by auto. ring.
Qed.
End PCA.

(** *** Tensors *)
Lemma nth_indices1 n j : (j < n)%nat -> nth j (indices [n]) [] = [j].
Proof.
  intros Hj. assert (Hp : (j < prodl [n])%nat) by (cbn; lia). pose proof (ravel_nth_indices Hp) as HR.
  pose proof (valid_nth_indices Hp) as Hv. apply valid_cons_inv in Hv as (i & t & E & Hi & Hv). apply valid_nil_inv in Hv; subst.
  rewrite E in HR |- *. cbn in HR. f_equal. lia.
Qed.
Lemma is_mat_mode X n : is_mat (nth n (shape X) 0%nat) (mode_width X n) (mode_matrix X n).
Proof. apply is_mat_tab2. Qed.

Lemma unfold_mode X n : wf X -> (n < length (shape X))%nat -> nth n (shape X) 0%nat <> 0%nat ->
  unfold X (Z.of_nat n) = Ok (mode_matrix X n).
Proof.
  intros HX Hn Hz. destruct (@unfold_ok X (Z.of_nat n) n) as (M & EM & HM & HMe); auto.
  { unfold py_index, ndim. destruct (Z.leb_spec 0 (Z.of_nat n)); [|lia].
    destruct (Z.ltb_spec (Z.of_nat n) (Z.of_nat (length (shape X)))); [|lia]. cbn. now rewrite Nat2Z.id. }
  rewrite EM. f_equal. destruct HM as [HM1 HM2]. apply nd_ext; [exact HM1|apply (is_mat_mode X n)|rewrite HM2; reflexivity|].
  intros idx Hv. rewrite HM2 in Hv. apply valid_cons_inv in Hv as (i & t & -> & Hi & Hv).
  apply valid_cons_inv in Hv as (c & t' & -> & Hc & Hv). apply valid_nil_inv in Hv; subst.
  change (mget M i c = mget (mode_matrix X n) i c). unfold mode_matrix. rewrite mget_tab2 by (unfold mode_width; auto).
  set (rest := nth c (indices (remove_at n (shape X))) []).
  assert (Hvr : valid rest (remove_at n (shape X))) by now apply valid_nth_indices.
  assert (Hle : (n <= length rest)%nat) by (rewrite (valid_length Hvr), length_remove_at by auto; lia).
  rewrite <- (HMe (insert_at n i rest)) by now apply valid_insert_at.
  rewrite nth_insert_at, remove_insert_at by auto. unfold rest. now rewrite ravel_nth_indices.
Qed.

Lemma sse_mode X Us K n w : rows Us = shape X -> (n < length (shape X))%nat ->
  sse X Us w K = dist2 (nth n (shape X) 0%nat) (mode_width X n)
    (mprod K (fun i r => w r * mget (nth n Us m0) i r) (mode_A X Us n)) (mget (mode_matrix X n)).
Proof.
  intros Hr Hn. pose proof (mode_len Hr) as Hl. unfold sse, dist2. rewrite (sumf_indices_axis _ Hn). apply sum_ext. intros i Hi.
  rewrite sumf_indices_seq. apply sum_ext. intros c Hc. unfold mode_matrix. rewrite mget_tab2 by auto.
  set (ix := nth c (indices (remove_at n (shape X))) []).
  assert (E : cp_entry Us w K (insert_at n i ix) = mprod K (fun i r => w r * mget (nth n Us m0) i r) (mode_A X Us n) i c).
  { unfold cp_entry, mprod. apply sum_ext. intros r Hrk. rewrite colprod_insert by (try lia; rewrite Hl; now apply mode_ix_length).
    unfold mode_A. fold ix. ring. }
  rewrite E. ring.
Qed.

Lemma no_model_beats X Us w K n U S Vh : rows Us = shape X -> (n < length (shape X))%nat ->
  let N := nth n (shape X) 0%nat in let M := mode_width X n in
  is_svd N M (mode_matrix X n) U S Vh -> left_out (Nat.min N M) K S <= sse X Us w K.
Proof.
  intros Hr Hn N M H. rewrite (sse_mode K w Hr Hn). fold N M. unfold left_out.
  apply (eckart_young (svd_U_orth H) (svd_V_orth H) (svd_S_nonneg H)); [apply (svd_S_sorted H)|apply (svd_product H)|lia].
Qed.

Lemma matrix_reached X N M K U S Vh : wf X -> shape X = [N; M] -> is_svd N M X U S Vh ->
  exists Us, factors_ok K X Us /\ sse X Us unit_weights K = left_out (Nat.min N M) K S.
Proof.
  intros HX HS H. set (p := Nat.min N M). set (k := Nat.min K p).
  set (P := tab2 N K (fun i r => if (r <? k)%nat then mget U i r * vget S r else 0)).
  set (Q := tab2 M K (fun j r => if (r <? k)%nat then mget Vh r j else 0)).
  assert (HP : is_mat N K P) by apply is_mat_tab2. assert (HQ : is_mat M K Q) by apply is_mat_tab2.
  exists [P; Q]. split.
  { split; [|now rewrite HS]. constructor; [exact HP|constructor; [exact HQ|constructor]]. }
  rewrite (@sse_mode X [P; Q] K 0 unit_weights) by (rewrite HS; cbn; auto). rewrite HS. cbn [nth].
  assert (EM : mode_width X 0 = M) by (unfold mode_width; rewrite HS; cbn; lia). rewrite EM.
  transitivity (dist2 N M (mprod k (fun i r => mget U i r * vget S r) (mget Vh)) (mget X)).
  - apply dist2_ext.
    + intros i j Hi Hj. unfold mprod. rewrite (@sum_split K k) by lia. rewrite (@sum_zero (K - k)).
      * rewrite Rplus_0_r. apply sum_ext. intros r Hr. unfold mode_A, unit_weights. rewrite HS. cbn [remove_at nth].
        unfold P. rewrite mget_tab2 by lia. rewrite (proj2 (Nat.ltb_lt r k)) by auto.
        assert (Ej : nth j (indices [M]) [] = [j]) by now apply nth_indices1. rewrite Ej. unfold colprod. cbn [combine prodf map fold_right].
        unfold Q. rewrite mget_tab2 by lia. rewrite (proj2 (Nat.ltb_lt r k)) by auto. ring.
      * intros t Ht. unfold P. rewrite mget_tab2 by lia. rewrite (proj2 (Nat.ltb_ge (k + t) k)) by lia. ring.
    + intros i j Hi Hj. unfold mode_matrix. rewrite EM, HS. cbn [nth remove_at]. rewrite mget_tab2 by auto.
      now rewrite nth_indices1.
  - rewrite (tail_reached (svd_U_orth H) (svd_V_orth H)); [|lia|apply (svd_product H)].
    unfold left_out. fold p. destruct (Nat.le_gt_cases p K).
    + replace (p - K)%nat with 0%nat by lia. replace (p - k)%nat with 0%nat by lia. reflexivity.
    + replace k with K by lia. reflexivity.
Qed.

(** *** Slices *)
Lemma sumf_nth_sum {I : Type} (l : list I) d (f : I -> R) : sumf l f = sum (length l) (fun c => f (nth c l d)).
Proof.
  induction l as [|x l IH]; [reflexivity|]. cbn [length]. rewrite sum_S_first. cbn [nth]. rewrite <- IH. reflexivity.
Qed.
Lemma sum_columns Xs (f : nat * nat -> R) :
  sum (length (columns Xs)) (fun c => f (nth c (columns Xs) (0, 0)%nat)) =
  sum (length Xs) (fun k => sum (width Xs k) (fun j => f (k, j))).
Proof.
  rewrite <- (sumf_nth_sum (columns Xs) (0, 0)%nat f). unfold columns. rewrite sumf_flat_map. apply sumf_ext. intros k _. now rewrite sumf_map.
Qed.

Lemma parafac2_side K nI A B C Xs Ps : pf_sse K nI A B C Xs Ps =
  dist2 nI (length (columns Xs))
    (mprod K (mget A) (fun r c => let (k, j) := nth c (columns Xs) (0, 0)%nat in mget C k r * mprod K (mget (nth k Ps m0)) (mget B) j r))
    (mget (side_by_side nI Xs)).
Proof.
  set (g := fun i (kj : nat * nat) => let (k, j) := kj in (pf_entry K A B C k (mget (nth k Ps m0)) i j - mget (nth k Xs m0) i j) ^ 2).
  transitivity (sum nI (fun i => sum (length (columns Xs)) (fun c => g i (nth c (columns Xs) (0, 0)%nat)))).
  - unfold pf_sse, slice_err, dist2. rewrite sum_swap. apply sum_ext. intros i Hi. now rewrite sum_columns.
  - unfold dist2. apply sum_ext. intros i Hi. apply sum_ext. intros c Hc. unfold side_by_side. rewrite mget_tab2 by auto.
    unfold g, mprod at 1. destruct (nth c (columns Xs) (0, 0)%nat) as [k j]. unfold pf_entry. do 2 f_equal. apply sum_ext. intros; ring.
Qed.

Lemma no_parafac2_beats K nI A B C Xs Ps U S Vh : let M := length (columns Xs) in
  is_svd nI M (side_by_side nI Xs) U S Vh -> left_out (Nat.min nI M) K S <= pf_sse K nI A B C Xs Ps.
Proof.
  intros M H. rewrite parafac2_side. fold M.
  apply (eckart_young (svd_U_orth H) (svd_V_orth H) (svd_S_nonneg H)); [apply (svd_S_sorted H)|apply (svd_product H)|lia].
Qed.

(** *** The start init='svd' *)
Lemma svd_start env cs disk draws ds : lower (cs_init cs) = "svd"%string ->
  let X := cp_X (ds_num ds) in let K := cs_rank cs in mode_left_vectors (env_svd_u env) X ->
  wf X -> shape X <> [] -> (0 < K)%nat -> (forall n, In n (shape X) -> (K <= n)%nat) ->
  exists d, cp_init_components env cs disk draws NoArg ds = (with_num (cp_with_dec d (ds_num ds)) ds, None) /\
    factors_ok K X (kt_fms d) /\ forall n, (n < length (shape X))%nat ->
    let N := nth n (shape X) 0%nat in let M := mode_width X n in let A := mget (mode_matrix X n) in
    let F := mget (nth n (kt_fms d) m0) in
    orth_cols N K F /\ (forall Q, orth_cols N K Q -> captured N M K A Q <= captured N M K A F) /\
    forall U S Vh, is_svd N M (mode_matrix X n) U S Vh -> frob2 N M A - captured N M K A F = left_out (Nat.min N M) K S.
Proof.
  intros Hk X K HL HX Hne HK Hall.
  assert (Hf : forall l, (forall i, In i l -> (i < length (shape X))%nat) ->
    exists Us, mapM (fun i => do M <- unfold X (Z.of_nat i) ; do u <- env_svd_u env M ; first_columns u K) l = Ok Us /\
      length Us = length l /\ forall t, (t < length l)%nat -> let n := nth t l 0%nat in let N := nth n (shape X) 0%nat in
      is_mat N K (nth t Us m0) /\ exists U S Vh, is_full_svd N (mode_width X n) (mode_matrix X n) U S Vh /\
      orth_cols N K (mget (nth t Us m0)) /\
      forall i r, (i < N)%nat -> (r < K)%nat -> mget (nth t Us m0) i r = mget U i r).
  { induction l as [|i l IH]; intros Hl.
    - exists []. split; [reflexivity|]. split; [reflexivity|]. cbn. intros; lia.
    - destruct IH as (Us & E & HU & Ht). { intros; apply Hl; now right. }
      assert (Hi : (i < length (shape X))%nat) by (apply Hl; now left).
      assert (Hn : (K <= nth i (shape X) 0)%nat) by (apply Hall, nth_In; auto).
      destruct (HL i Hi) as (U & S & Vh & EU & HF).
      destruct (first_columns_ok (fsvd_U_shape HF) (fsvd_U_orth HF) Hn) as (Q & EQ & HQ & HQo & HQe).
      exists (Q :: Us). cbn [mapM]. rewrite (unfold_mode HX Hi) by lia. cbn [bind]. rewrite EU. cbn [bind]. rewrite EQ. cbn [bind].
      rewrite E. cbn [bind]. split; [reflexivity|]. split; [cbn; now rewrite HU|].
      intros [|t] Hlt; cbn in Hlt; cbn [nth].
      + split; auto. exists U, S, Vh. auto.
      + apply Ht. lia. }
  destruct (Hf (seq 0 (ndim X))) as (Us & E & HU & Ht).
  { intros i Hi. apply in_seq in Hi. unfold ndim in Hi. lia. }
  rewrite seq_length in HU, Ht. unfold ndim in HU, Ht.
  assert (Ht' : forall n, (n < length (shape X))%nat -> let N := nth n (shape X) 0%nat in
      is_mat N K (nth n Us m0) /\ exists U S Vh, is_full_svd N (mode_width X n) (mode_matrix X n) U S Vh /\
      orth_cols N K (mget (nth n Us m0)) /\
      forall i r, (i < N)%nat -> (r < K)%nat -> mget (nth n Us m0) i r = mget U i r).
  { intros n Hn. specialize (Ht n Hn). rewrite seq_nth in Ht by auto. exact Ht. }
  assert (HrX : rows Us = shape X).
  { apply nth_ext with (d := 0%nat) (d' := 0%nat); unfold rows; rewrite map_length; auto.
    intros n Hn. rewrite HU in Hn. rewrite (nth_indep _ 0%nat (nrows m0)) by (now rewrite map_length, HU).
    rewrite map_nth. destruct (Ht' n Hn) as [[_ Hs] _]. unfold nrows. now rewrite Hs. }
  assert (HM : mats K Us).
  { apply Forall_forall. intros V HV. destruct (In_nth _ _ m0 HV) as (n & Hn & <-). rewrite HU in Hn.
    destruct (Ht' n Hn) as [H _]. destruct H as [Hw Hs]. split; auto. unfold nrows. rewrite Hs. reflexivity. }
  exists {| kt_rank := K; kt_fms := Us; kt_w := np_ones [K] |}. split; [|split; [split; auto|]].
  { unfold cp_init_components. rewrite Hk. cbn -[cp_init_svd]. unfold cp_init_svd. fold X K.
    destruct (shape X) as [|x l] eqn:Es; [congruence|]. cbn [py_min bind].
    assert (HKm : (K <= fold_left Nat.min l x)%nat).
    { apply Hall. destruct (fold_min_in l x) as [->|]; [now left|now right]. }
    rewrite (proj2 (Nat.ltb_ge _ _)) by lia.
    rewrite E. cbn [bind]. rewrite (@kt_init_mats_none K Us); auto.
    intros ->. cbn in HrX. discriminate. }
  intros n Hn N M A F. destruct (Ht' n Hn) as (_ & U & S & Vh & HF & HO & He). fold N M in HF, HO, He. cbn [kt_fms] in F. fold F in HO, He.
  assert (HKN : (K <= N)%nat) by (apply Hall, nth_In; auto).
  assert (EC : captured N M K A F = captured N M K A (mget U)).
  { unfold captured. apply sum_ext. intros q Hq. apply sum_ext. intros j Hj. f_equal. apply sum_ext. intros i Hi. now rewrite He. }
  split; auto. rewrite EC. split.
  - intros Q HQ. apply (first_columns_best HF); auto.
  - intros U' S' Vh' H'.
    assert (HB : captured N M K A (mget U) <= sum (Nat.min K (Nat.min N M)) (fun r => vget S' r ^ 2)).
    { rewrite <- EC. apply (captured_le (svd_U_orth H') (svd_V_orth H') (svd_S_nonneg H')); auto; [apply (svd_S_sorted H')|apply (svd_product H')]. }
    pose proof (all_captured (svd_U_orth H') (svd_V_orth H') (svd_product H')) as HA'. fold A in HA'.
    assert (HB' : sum (Nat.min K (Nat.min N M)) (fun r => vget S' r ^ 2) <= captured N M K A (mget U)).
    { unfold A; rewrite (captured_first HF HKN).
      pose proof (@tail_reached N M (Nat.min N M) (Nat.min K (Nat.min N M)) A (mget U') (mget Vh') (vget S')
        (svd_U_orth H') (svd_V_orth H') ltac:(lia) (svd_product H')) as HT.
      pose proof (@eckart_young _ _ _ _ _ _ _ (thin_U HF) (thin_V HF) (fsvd_S_nonneg HF) (fsvd_S_sorted HF) (fsvd_product HF)
        (Nat.min K (Nat.min N M)) (fun i r => mget U' i r * vget S' r) (mget Vh') ltac:(lia)) as HY.
      fold A in HY. rewrite HT in HY.
      pose proof (all_captured (thin_U HF) (thin_V HF) (fsvd_product HF)) as HA2. fold A in HA2. rewrite HA2 in HA'.
      rewrite !(@sum_split (Nat.min N M) (Nat.min K (Nat.min N M))) in HA' by lia. lra. }
    unfold left_out. rewrite HA'. rewrite (@sum_split (Nat.min N M) (Nat.min K (Nat.min N M))) by lia.
    assert (EL : sum (Nat.min N M - Nat.min K (Nat.min N M)) (fun t => vget S' (Nat.min K (Nat.min N M) + t) ^ 2) =
                 sum (Nat.min N M - K) (fun t => vget S' (K + t) ^ 2)).
    { destruct (Nat.le_gt_cases (Nat.min N M) K).
      - replace (Nat.min N M - K)%nat with 0%nat by lia. replace (Nat.min N M - Nat.min K (Nat.min N M))%nat with 0%nat by lia. reflexivity.
      - replace (Nat.min K (Nat.min N M)) with K by lia. reflexivity. }
    rewrite EL. lra.
Qed.

(** *** What is reported *)
Lemma reported_limit env K s n U S Vh : cp_coherent K s -> (n < length (shape (cp_X s)))%nat ->
  let N := nth n (shape (cp_X s)) 0%nat in let M := mode_width (cp_X s) n in
  is_svd N M (mode_matrix (cp_X s) n) U S Vh ->
  exists e, cp_SSE env s = Ok e /\ left_out (Nat.min N M) K S <= e /\
    (energy (cp_X s) <> 0 -> exists v, cp_explained env s = Ok (Fin v) /\ v <= 1 - left_out (Nat.min N M) K S / energy (cp_X s)).
Proof.
  intros HC Hn N M H. eexists. split; [apply (cp_SSE_ok env HC)|].
  assert (HL : left_out (Nat.min N M) K S <= sse (cp_X s) (kt_fms (cp_dec s)) (vget (kt_w (cp_dec s))) K).
  { apply no_model_beats with (1 := proj2 (co_fac HC)) (2 := Hn) (3 := H). }
  split; auto. intros HE. pose proof (@cp_metric_ok env {| cs_rank := K; cs_init := ""; cs_ridge := None |} K KExplained s HC eq_refl (fun _ => HE)) as EV.
  cbn [cp_metric measure] in EV. eexists. split; [exact EV|].
  assert (H0 : 0 < energy (cp_X s)).
  { assert (0 <= energy (cp_X s)) by (apply sumf_nonneg; intros; apply pow2_ge_0). lra. }
  unfold Rdiv. apply Rplus_le_compat_l, Ropp_le_contravar, Rmult_le_compat_r; auto. left. now apply Rinv_0_lt_compat.
Qed.

Lemma fit_limit env cs K cf disk draws X max_its arg ds :
  cs_rank cs = K -> cs_ridge cs = None -> svd_works_on K K (env_svd env) -> data_ok X -> usable_start env cs K X draws arg ->
  cp_last (ds_num ds) = None -> free_flags (cp_nn (ds_num ds)) (length (shape X)) ->
  free_flags (cp_orth (ds_num ds)) (length (shape X)) ->
  let budget := match max_its with Some m => m | None => ds_max ds end in
  (0 < budget)%Z -> (forall lg, In lg (ds_logs ds) -> exists k, code_logger env cs k lg) -> checkpoints_fit cf budget ds ->
  exists ds' e, cp_fit env cs cf disk draws X max_its arg ds = (ds', None) /\ cp_SSE env (ds_num ds') = Ok e /\
    forall n U S Vh, (n < length (shape X))%nat ->
      let N := nth n (shape X) 0%nat in let M := mode_width X n in
      is_svd N M (mode_matrix X n) U S Vh -> left_out (Nat.min N M) K S <= e.
Proof.
  intros H1 H2 H3 H4 H5 H6 H7 H8 budget H9 H10 H11.
  destruct (@fit_completes env cs K cf disk draws X max_its arg ds H1 H2 H3 H4 H5 H6 H7 H8 H9 H10 H11)
    as (ds1 & ds' & _ & E & HF & _ & ES & _).
  exists ds'. eexists. split; [exact E|]. split; [exact ES|]. intros n U S Vh Hn N M H.
  apply no_model_beats with (1 := proj2 HF) (2 := Hn) (3 := H).
Qed.

Lemma parafac2_limit K nI s U S Vh : p2_ok K nI s -> let M := length (columns (p2_X s)) in
  is_svd nI M (side_by_side nI (p2_X s)) U S Vh -> exists e, p2_SSE s = Ok e /\ left_out (Nat.min nI M) K S <= e.
Proof. intros HO M H. eexists. split; [apply (p2_SSE_ok HO)|]. now apply no_parafac2_beats with (1 := H). Qed.
