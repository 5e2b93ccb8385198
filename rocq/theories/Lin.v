(** Linear algebra on matrices given as functions nat -> nat -> R with explicit lengths. *)
From Verif Require Export NumPyFacts Spec.
Set Implicit Arguments.
Unset Strict Implicit.
Local Open Scope R_scope.

Lemma sum_nonneg n f : (forall i, (i < n)%nat -> 0 <= f i) -> 0 <= sum n f.
Proof. intros H. apply sumf_nonneg. intros i Hi. apply in_seq in Hi. apply H; lia. Qed.

Lemma sum_le n f g : (forall i, (i < n)%nat -> f i <= g i) -> sum n f <= sum n g.
Proof. intros H. apply sumf_le. intros i Hi. apply in_seq in Hi. apply H; lia. Qed.

Lemma sum_zero n f : (forall i, (i < n)%nat -> f i = 0) -> sum n f = 0.
Proof. intros H. apply sumf_zero. intros i Hi. apply in_seq in Hi. apply H; lia. Qed.

Lemma sum_nonneg_zero n f : (forall i, (i < n)%nat -> 0 <= f i) -> sum n f = 0 ->
  forall i, (i < n)%nat -> f i = 0.
Proof.
  intros H Hs i Hi. apply (@sumf_nonneg_zero nat (seq 0 n)); auto.
  - intros j Hj. apply in_seq in Hj. apply H; lia.
  - apply in_seq; lia.
Qed.

Lemma sum_term_le n f i : (forall j, (j < n)%nat -> 0 <= f j) -> (i < n)%nat -> f i <= sum n f.
Proof.
  intros H Hi. apply sumf_term_le.
  - intros j Hj. apply in_seq in Hj. apply H; lia.
  - apply in_seq; lia.
Qed.

Lemma sum_plus n f g : sum n (fun i => f i + g i) = sum n f + sum n g.
Proof. apply sumf_plus. Qed.
Lemma sum_minus n f g : sum n (fun i => f i - g i) = sum n f - sum n g.
Proof. apply sumf_minus. Qed.
Lemma sum_scal_l n c f : sum n (fun i => c * f i) = c * sum n f.
Proof. apply sumf_scal_l. Qed.
Lemma sum_scal_r n c f : sum n (fun i => f i * c) = sum n f * c.
Proof. apply sumf_scal_r. Qed.
Lemma sum_swap n m (f : nat -> nat -> R) :
  sum n (fun i => sum m (fun j => f i j)) = sum m (fun j => sum n (fun i => f i j)).
Proof. apply sumf_swap. Qed.
Lemma sum_mul n m f g : sum n f * sum m g = sum n (fun i => sum m (fun j => f i * g j)).
Proof. apply prodf_sumf_l. Qed.

Lemma delta_refl i : delta i i = 1.
Proof. unfold delta. now rewrite Nat.eqb_refl. Qed.
Lemma delta_neq i j : i <> j -> delta i j = 0.
Proof. unfold delta. intros H. destruct (Nat.eqb_spec i j); congruence. Qed.
Lemma delta_sym i j : delta i j = delta j i.
Proof. unfold delta. now rewrite Nat.eqb_sym. Qed.

Lemma sum_delta_l n i f : (i < n)%nat -> sum n (fun k => delta i k * f k) = f i.
Proof.
  intros H. rewrite (@sumf_single _ i); auto.
  - rewrite delta_refl. ring.
  - intros j Hj Hne. rewrite delta_neq by auto. ring.
Qed.
Lemma sum_delta_r n i f : (i < n)%nat -> sum n (fun k => f k * delta k i) = f i.
Proof.
  intros H. rewrite (@sumf_single _ i); auto.
  - rewrite delta_refl. ring.
  - intros j Hj Hne. rewrite delta_neq by auto. ring.
Qed.

(** Parseval: combining orthonormal columns (rows) preserves inner products. *)
Lemma parseval_cols n k Q f g : orth_cols n k Q ->
  sum n (fun i => sum k (fun r => f r * Q i r) * sum k (fun r => g r * Q i r)) = sum k (fun r => f r * g r).
Proof.
  intros H.
  transitivity (sum k (fun r => sum k (fun s => f r * g s * delta r s))).
  - transitivity (sum n (fun i => sum k (fun r => sum k (fun s => (f r * Q i r) * (g s * Q i s))))).
    { apply sum_ext. intros. apply sum_mul. }
    rewrite sum_swap. apply sum_ext. intros r Hr. rewrite sum_swap. apply sum_ext. intros s Hs.
    rewrite <- (H r s) by auto. rewrite <- sum_scal_l. apply sum_ext. intros. ring.
  - apply sum_ext. intros r Hr.
    transitivity (sum k (fun s => delta r s * (f r * g s))).
    + apply sum_ext. intros. ring.
    + now rewrite sum_delta_l.
Qed.

Lemma parseval_rows k m Q f g : orth_rows k m Q ->
  sum m (fun j => sum k (fun r => f r * Q r j) * sum k (fun r => g r * Q r j)) = sum k (fun r => f r * g r).
Proof. intros H. apply (@parseval_cols m k (fun j r => Q r j)). exact H. Qed.

(** Coefficients with respect to orthonormal columns. *)
Lemma orth_cols_coeff n k Q f s : orth_cols n k Q -> (s < k)%nat ->
  sum n (fun i => sum k (fun r => f r * Q i r) * Q i s) = f s.
Proof.
  intros H Hs.
  transitivity (sum n (fun i => sum k (fun r => f r * Q i r) * sum k (fun r => delta s r * Q i r))).
  - apply sum_ext. intros i Hi. now rewrite sum_delta_l.
  - rewrite (parseval_cols _ _ H).
    transitivity (sum k (fun r => delta s r * f r)); [apply sum_ext; intros; ring|].
    now apply sum_delta_l.
Qed.

Lemma orth_rows_coeff k m Q f s : orth_rows k m Q -> (s < k)%nat ->
  sum m (fun j => sum k (fun r => f r * Q r j) * Q s j) = f s.
Proof. intros H Hs. apply (@orth_cols_coeff m k (fun j r => Q r j)); auto. Qed.

(** Cauchy-Schwarz *)
Lemma cauchy_schwarz n f g :
  sum n (fun i => f i * g i) ^ 2 <= sum n (fun i => f i ^ 2) * sum n (fun i => g i ^ 2).
Proof.
  set (a := sum n (fun i => f i ^ 2)). set (b := sum n (fun i => f i * g i)).
  set (c := sum n (fun i => g i ^ 2)).
  assert (Q : forall t, 0 <= a + 2 * t * b + t ^ 2 * c).
  { intros t.
    replace (a + 2 * t * b + t ^ 2 * c) with (sum n (fun i => (f i + t * g i) ^ 2)).
    - apply sum_nonneg. intros. apply pow2_ge_0.
    - unfold a, b, c. rewrite <- !sum_scal_l, <- !sum_plus. apply sum_ext. intros. ring. }
  assert (Hc : 0 <= c) by (apply sum_nonneg; intros; apply pow2_ge_0).
  assert (Ha : 0 <= a) by (apply sum_nonneg; intros; apply pow2_ge_0).
  destruct (Req_dec c 0) as [Hz|Hz].
  - rewrite Hz in *. assert (b = 0).
    { unfold b. apply sum_zero. intros i Hi.
      assert (Hg : g i ^ 2 = 0).
      { apply (@sum_nonneg_zero n (fun i => g i ^ 2)); auto. intros. apply pow2_ge_0. }
      assert (g i = 0) by nra. rewrite H. ring. }
    rewrite H. nra.
  - specialize (Q (- b / c)).
    assert (E : a + 2 * (- b / c) * b + (- b / c) ^ 2 * c = a - b ^ 2 / c) by (field; auto).
    rewrite E in Q. assert (Hc' : 0 < c) by lra.
    assert (b ^ 2 / c * c <= a * c) by (apply Rmult_le_compat_r; lra).
    assert (E2 : b ^ 2 / c * c = b ^ 2) by (field; auto). lra.
Qed.

Lemma frob2_nonneg n m A : 0 <= frob2 n m A.
Proof. apply sum_nonneg; intros. apply sum_nonneg; intros. apply pow2_ge_0. Qed.

Lemma frob2_zero n m A : frob2 n m A = 0 -> forall i j, (i < n)%nat -> (j < m)%nat -> A i j = 0.
Proof.
  intros H i j Hi Hj.
  assert (H1 : sum m (fun j => A i j ^ 2) = 0).
  { apply (@sum_nonneg_zero n (fun i => sum m (fun j => A i j ^ 2))); auto.
    intros. apply sum_nonneg; intros. apply pow2_ge_0. }
  assert (H2 : A i j ^ 2 = 0).
  { apply (@sum_nonneg_zero m (fun j => A i j ^ 2)); auto. intros. apply pow2_ge_0. }
  nra.
Qed.

Lemma dist2_nonneg n m A B : 0 <= dist2 n m A B.
Proof. apply sum_nonneg; intros. apply sum_nonneg; intros. apply pow2_ge_0. Qed.

Lemma frob2_ext n m A B : (forall i j, (i < n)%nat -> (j < m)%nat -> A i j = B i j) ->
  frob2 n m A = frob2 n m B.
Proof. intros H. apply sum_ext; intros. apply sum_ext; intros. now rewrite H. Qed.

Lemma dist2_ext n m A B A' B' : (forall i j, (i < n)%nat -> (j < m)%nat -> A i j = A' i j) ->
  (forall i j, (i < n)%nat -> (j < m)%nat -> B i j = B' i j) ->
  dist2 n m A B = dist2 n m A' B'.
Proof. intros H H'. apply sum_ext; intros. apply sum_ext; intros. now rewrite H, H'. Qed.

Lemma mprod_ext p A B A' B' i j : (forall k, (k < p)%nat -> A i k = A' i k) ->
  (forall k, (k < p)%nat -> B k j = B' k j) -> mprod p A B i j = mprod p A' B' i j.
Proof. intros H H'. apply sum_ext. intros. now rewrite H, H'. Qed.

Lemma mprod_assoc p q A B C i j : mprod q (mprod p A B) C i j = mprod p A (mprod q B C) i j.
Proof.
  unfold mprod.
  transitivity (sum q (fun l => sum p (fun k => A i k * B k l * C l j))).
  - apply sum_ext. intros. now rewrite <- sum_scal_r.
  - rewrite sum_swap. apply sum_ext. intros k Hk. rewrite <- sum_scal_l.
    apply sum_ext. intros. ring.
Qed.

(** Least squares from the normal equations:  X A - B orthogonal to the rows of A. *)
Definition normal_eq (p n m : nat) (X A B : nat -> nat -> R) : Prop :=
  forall i a, (i < p)%nat -> (a < n)%nat ->
    sum m (fun j => (mprod n X A i j - B i j) * A a j) = 0.

Lemma ls_pythagoras p n m X A B Y : normal_eq p n m X A B ->
  dist2 p m (mprod n Y A) B =
  dist2 p m (mprod n X A) B + frob2 p m (mprod n (fun i a => Y i a - X i a) A).
Proof.
  intros H. unfold dist2, frob2. rewrite <- sum_plus. apply sum_ext. intros i Hi.
  rewrite <- sum_plus.
  transitivity (sum m (fun j => ((mprod n X A i j - B i j) ^ 2 + mprod n (fun i a => Y i a - X i a) A i j ^ 2)
      + 2 * ((mprod n X A i j - B i j) * mprod n (fun i a => Y i a - X i a) A i j))).
  - apply sum_ext. intros j Hj.
    assert (E : mprod n (fun i a => Y i a - X i a) A i j = mprod n Y A i j - mprod n X A i j).
    { unfold mprod. rewrite <- sum_minus. apply sum_ext. intros; ring. }
    rewrite E. ring.
  - rewrite sum_plus, sum_scal_l.
    assert (E : sum m (fun j => (mprod n X A i j - B i j) * mprod n (fun i a => Y i a - X i a) A i j) = 0).
    { transitivity (sum n (fun a => (Y i a - X i a) * sum m (fun j => (mprod n X A i j - B i j) * A a j))).
      - transitivity (sum n (fun a => sum m (fun j => (Y i a - X i a) * ((mprod n X A i j - B i j) * A a j)))).
        + rewrite sum_swap. apply sum_ext. intros j Hj. unfold mprod at 2.
          rewrite <- sum_scal_l. apply sum_ext. intros. ring.
        + apply sum_ext. intros. now rewrite sum_scal_l.
      - apply sum_zero. intros a Ha. rewrite H by auto. ring. }
    rewrite E. ring.
Qed.

Lemma ls_optimal p n m X A B : normal_eq p n m X A B ->
  forall Y, dist2 p m (mprod n X A) B <= dist2 p m (mprod n Y A) B.
Proof.
  intros H Y. rewrite (ls_pythagoras Y H).
  pose proof (frob2_nonneg p m (mprod n (fun i a => Y i a - X i a) A)). lra.
Qed.

(** n orthonormal vectors of length n are complete. *)
Lemma sum_const n c : sum n (fun _ => c) = INR n * c.
Proof. rewrite sumf_const. now rewrite seq_length. Qed.

Lemma orth_square n Q : orth_rows n n Q -> orth_cols n n Q.
Proof.
  intros H.
  set (G := fun a b => sum n (fun r => Q r a * Q r b)).
  assert (Hdiag : sum n (fun a => G a a) = INR n).
  { unfold G. rewrite sum_swap. transitivity (sum n (fun _ => 1)).
    - apply sum_ext. intros r Hr. rewrite H by auto. apply delta_refl.
    - rewrite sum_const. ring. }
  assert (Hsq : sum n (fun a => sum n (fun b => G a b * G a b)) = INR n).
  { transitivity (sum n (fun r => sum n (fun a => Q r a * Q r a))).
    - transitivity (sum n (fun a => sum n (fun r => Q r a * Q r a))); [|apply sum_swap].
      apply sum_ext. intros a Ha.
      transitivity (sum n (fun b => sum n (fun r => Q r a * Q r b) * sum n (fun r => Q r a * Q r b))).
      + reflexivity.
      + apply (@parseval_rows n n Q (fun r => Q r a) (fun r => Q r a) H).
    - transitivity (sum n (fun _ => 1)).
      + apply sum_ext. intros r Hr. rewrite H by auto. apply delta_refl.
      + rewrite sum_const. ring. }
  assert (Hd : sum n (fun a => sum n (fun b => delta a b * G a b)) = INR n).
  { rewrite <- Hdiag. apply sum_ext. intros a Ha. now rewrite sum_delta_l. }
  assert (Hdd : sum n (fun a => sum n (fun b => delta a b * delta a b)) = INR n).
  { transitivity (sum n (fun _ => 1)).
    - apply sum_ext. intros a Ha. rewrite sum_delta_l by auto. apply delta_refl.
    - rewrite sum_const. ring. }
  assert (Z : frob2 n n (fun a b => delta a b - G a b) = 0).
  { unfold frob2.
    transitivity (sum n (fun a => sum n (fun b => delta a b * delta a b)) +
       sum n (fun a => sum n (fun b => G a b * G a b)) - 2 * sum n (fun a => sum n (fun b => delta a b * G a b))).
    - rewrite <- sum_scal_l, <- sum_plus, <- sum_minus. apply sum_ext. intros.
      rewrite <- sum_scal_l, <- sum_plus, <- sum_minus. apply sum_ext. intros. ring.
    - rewrite Hdd, Hsq, Hd. ring. }
  intros a b Ha Hb. pose proof (frob2_zero Z Ha Hb) as E. cbv beta in E. unfold G in E. lra.
Qed.

Lemma orth_square' n Q : orth_cols n n Q -> orth_rows n n Q.
Proof. intros H. apply (@orth_square n (fun i j => Q j i)). exact H. Qed.

Lemma sumf_Rabs {I} (l : list I) f : Rabs (sumf l f) <= sumf l (fun i => Rabs (f i)).
Proof.
  induction l; cbn; [rewrite Rabs_R0; lra|]. eapply Rle_trans; [apply Rabs_triang|]. lra.
Qed.
Lemma sum_Rabs n f : Rabs (sum n f) <= sum n (fun i => Rabs (f i)).
Proof. apply sumf_Rabs. Qed.
