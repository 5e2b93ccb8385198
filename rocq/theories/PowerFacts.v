(** Rank-one CP_ALS on matrices: lemmas for C110. *)
From Verif Require Export PowerSpec LimitFacts SvdFacts.
From Verif Require Import Prelude Lin.
Set Implicit Arguments.
Unset Strict Implicit.
Local Open Scope R_scope.

(** *** Rank-one least squares *)
Lemma ls1 n m (X : nat -> nat -> R) (z b : nat -> R) :
  let N := sum m (fun j => b j ^ 2) in let y i := sum m (fun j => X i j * b j) in
  N * sum n (fun i => sum m (fun j => (X i j - z i * b j) ^ 2)) =
  N * sum n (fun i => sum m (fun j => X i j ^ 2)) - sum n (fun i => y i ^ 2) + sum n (fun i => (z i * N - y i) ^ 2).
Proof.
  intros N y.
  transitivity (sum n (fun i => N * sum m (fun j => X i j ^ 2) - y i ^ 2 + (z i * N - y i) ^ 2)).
  2: { rewrite sum_plus, sum_minus. now rewrite <- sum_scal_l. }
  rewrite <- sum_scal_l. apply sum_ext. intros i Hi.
  assert (E : sum m (fun j => (X i j - z i * b j) ^ 2) = sum m (fun j => X i j ^ 2) - 2 * z i * y i + z i ^ 2 * N).
  { unfold y, N. rewrite <- !sum_scal_l, <- sum_minus, <- sum_plus. apply sum_ext. intros; ring. }
  rewrite E. ring.
Qed.

(** A best factor of smallest size solves the normal equations and is zero where the other factor is. *)
Lemma ls1_best n m (X : nat -> nat -> R) (z b : nat -> R) :
  let N := sum m (fun j => b j ^ 2) in let y i := sum m (fun j => X i j * b j) in
  let f z := sum n (fun i => sum m (fun j => (X i j - z i * b j) ^ 2)) in
  (forall w, f z <= f w) -> (forall w, f w <= f z -> sum n (fun i => z i ^ 2) <= sum n (fun i => w i ^ 2)) ->
  forall i, (i < n)%nat -> z i * N = y i /\ (N = 0 -> z i = 0).
Proof.
  intros N y f H1 H2 i Hi. assert (HN : 0 <= N) by (apply sum_nonneg; intros; apply pow2_ge_0).
  destruct (Req_dec N 0) as [E|E].
  - assert (Hb : forall j, (j < m)%nat -> b j = 0).
    { intros j Hj. assert (Hs : b j ^ 2 = 0) by (apply (@sum_nonneg_zero m (fun j => b j ^ 2)); [intros; apply pow2_ge_0|exact E|exact Hj]).
      apply Rsqr_0_uniq. unfold Rsqr. lra. }
    assert (Ey : y i = 0) by (apply sum_zero; intros j Hj; rewrite Hb by auto; ring).
    assert (Hz : sum n (fun i => z i ^ 2) <= 0).
    { assert (Z0 : sum n (fun i => (fun _ : nat => 0) i ^ 2) = 0) by (apply sum_zero; intros; ring). rewrite <- Z0.
      apply (H2 (fun _ => 0)). unfold f. apply Req_le. apply sum_ext. intros i' Hi'. apply sum_ext. intros j Hj. rewrite Hb by auto. ring. }
    assert (Hz0 : z i = 0).
    { assert (Hs : z i ^ 2 = 0). { apply (@sum_nonneg_zero n (fun i => z i ^ 2)); [intros; apply pow2_ge_0| |exact Hi].
        apply Rle_antisym; [exact Hz|apply sum_nonneg; intros; apply pow2_ge_0]. }
      apply Rsqr_0_uniq. unfold Rsqr. lra. }
    rewrite E, Ey. split; [ring|]. intros _. exact Hz0.
  - split; [|intros E0; contradiction].
    pose proof (H1 (fun i => y i / N)) as H. apply (Rmult_le_compat_l N) in H; [|exact HN].
    unfold f, N, y in H. rewrite !ls1 in H. fold N in H. fold (y) in H.
    assert (Z0 : sum n (fun i => (y i / N * N - y i) ^ 2) = 0) by (apply sum_zero; intros; field; exact E).
    change (N * sum n (fun i => sum m (fun j => X i j ^ 2)) - sum n (fun i => y i ^ 2) + sum n (fun i => (z i * N - y i) ^ 2) <=
            N * sum n (fun i => sum m (fun j => X i j ^ 2)) - sum n (fun i => y i ^ 2) + sum n (fun i => (y i / N * N - y i) ^ 2)) in H.
    rewrite Z0 in H.
    assert (Hs : (z i * N - y i) ^ 2 = 0).
    { apply (@sum_nonneg_zero n (fun i => (z i * N - y i) ^ 2)); [intros; apply pow2_ge_0| |exact Hi].
      apply Rle_antisym; [lra|apply sum_nonneg; intros; apply pow2_ge_0]. }
    assert (z i * N - y i = 0) by (apply Rsqr_0_uniq; unfold Rsqr; lra). lra.
Qed.

(** *** The iteration in singular coordinates *)
Section Power.
Variables (n m : nat) (A U Sv Vh : nd).
Hypothesis G : is_svd n m A U Sv Vh.
Let p := Nat.min n m.
Notation s j := (vget Sv j).
Variables a b : nat -> nat -> R.
Let N2 l (v : nat -> R) := sum l (fun i => v i ^ 2).
Let al k j := sum n (fun i => mget U i j * a k i).
Let be k j := sum m (fun i => mget Vh j i * b k i).
Hypothesis step_a : forall k i, (i < n)%nat ->
  a (S k) i * N2 m (b k) = sum m (fun j => mget A i j * b k j) /\ (N2 m (b k) = 0 -> a (S k) i = 0).
Hypothesis step_b : forall k j, (j < m)%nat ->
  b (S k) j * N2 n (a (S k)) = sum n (fun i => mget A i j * a (S k) i) /\ (N2 n (a (S k)) = 0 -> b (S k) j = 0).

Lemma N2_nonneg l v : 0 <= N2 l v.
Proof. apply sum_nonneg. intros; apply pow2_ge_0. Qed.
Lemma N2_zero l v : N2 l v = 0 -> forall i, (i < l)%nat -> v i = 0.
Proof.
  intros E i Hi. assert (Hs : v i ^ 2 = 0) by (apply (@sum_nonneg_zero l (fun i => v i ^ 2)); [intros; apply pow2_ge_0|exact E|exact Hi]).
  apply Rsqr_0_uniq. unfold Rsqr. lra.
Qed.

Lemma coord_a k j : (j < p)%nat -> al (S k) j * N2 m (b k) = s j * be k j.
Proof.
  intros Hj. unfold al, be. rewrite <- sum_scal_r, <- sum_scal_l.
  transitivity (sum n (fun i => sum m (fun c => mget U i j * mget A i c * b k c))).
  - apply sum_ext. intros i Hi. rewrite Rmult_assoc, (proj1 (step_a k Hi)), <- sum_scal_l. apply sum_ext. intros; ring.
  - rewrite sum_swap. apply sum_ext. intros c Hc. rewrite sum_scal_r, (svd_left G Hj Hc). ring.
Qed.
Lemma coord_b k j : (j < p)%nat -> be (S k) j * N2 n (a (S k)) = s j * al (S k) j.
Proof.
  intros Hj. unfold al, be. rewrite <- sum_scal_r, <- sum_scal_l.
  transitivity (sum m (fun c => sum n (fun i => mget A i c * mget Vh j c * a (S k) i))).
  - apply sum_ext. intros c Hc. rewrite Rmult_assoc, (proj1 (step_b k Hc)), <- sum_scal_l. apply sum_ext. intros; ring.
  - rewrite sum_swap. apply sum_ext. intros i Hi. rewrite sum_scal_r, (svd_right G Hj Hi). ring.
Qed.
Lemma be_zero k j : N2 m (b k) = 0 -> be k j = 0.
Proof. intros E. apply sum_zero. intros i Hi. rewrite (N2_zero E Hi). ring. Qed.
Lemma al_zero k j : N2 n (a k) = 0 -> al k j = 0.
Proof. intros E. apply sum_zero. intros i Hi. rewrite (N2_zero E Hi). ring. Qed.

(** The first factor lies in the span of the left singular vectors. *)
Lemma span_a k i : (i < n)%nat -> a (S k) i = sum p (fun j => al (S k) j * mget U i j).
Proof.
  intros Hi. destruct (Req_dec (N2 m (b k)) 0) as [E|E].
  - rewrite (proj2 (step_a k Hi) E). symmetry. apply sum_zero. intros j Hj.
    replace (al (S k) j) with 0; [ring|]. symmetry. apply sum_zero. intros i' Hi'. rewrite (proj2 (step_a k Hi') E). ring.
  - apply (Rmult_eq_reg_r (N2 m (b k))); [|exact E]. rewrite (proj1 (step_a k Hi)), <- sum_scal_r.
    transitivity (sum m (fun c => sum p (fun j => mget U i j * s j * (mget Vh j c * b k c)))).
    + apply sum_ext. intros c Hc. rewrite (svd_product G Hi Hc), <- sum_scal_r. apply sum_ext. intros; ring.
    + rewrite sum_swap. apply sum_ext. intros j Hj. rewrite sum_scal_l.
      replace (al (S k) j * mget U i j * N2 m (b k)) with (mget U i j * (al (S k) j * N2 m (b k))) by ring.
      rewrite (coord_a k Hj). unfold be. ring.
Qed.
Lemma orth_norm l (Q : nat -> nat -> R) c : orth_cols l p Q -> sum l (fun i => sum p (fun j => c j * Q i j) ^ 2) = sum p (fun j => c j ^ 2).
Proof.
  intros HQ. transitivity (sum l (fun i => sum p (fun j => sum p (fun j' => c j * c j' * (Q i j * Q i j'))))).
  - apply sum_ext. intros i Hi. replace (sum p (fun j => c j * Q i j) ^ 2) with (sum p (fun j => c j * Q i j) * sum p (fun j => c j * Q i j)) by ring.
    rewrite sum_mul. apply sum_ext. intros j Hj. apply sum_ext. intros; ring.
  - rewrite sum_swap. apply sum_ext. intros j Hj. rewrite sum_swap.
    transitivity (sum p (fun j' => delta j j' * (c j * c j'))).
    + apply sum_ext. intros j' Hj'. rewrite sum_scal_l, (HQ j j' Hj Hj'). ring.
    + rewrite (@sum_delta_l p j (fun j' => c j * c j')) by auto. ring.
Qed.
Lemma norm_a k : N2 n (a (S k)) = sum p (fun j => al (S k) j ^ 2).
Proof.
  rewrite <- (@orth_norm n (mget U) (fun j => al (S k) j) (svd_U_orth G)). apply sum_ext. intros i Hi. now rewrite <- (span_a k Hi).
Qed.

(** The error after a pass *)
Let X2 := sum n (fun i => sum m (fun j => mget A i j ^ 2)).
Let L k := sum n (fun i => sum m (fun j => (mget A i j - a k i * b k j) ^ 2)).
Lemma error_after k : N2 n (a (S k)) * (X2 - L (S k)) = sum p (fun j => s j ^ 2 * al (S k) j ^ 2).
Proof.
  assert (E : L (S k) = sum m (fun j => sum n (fun i => (mget A i j - b (S k) j * a (S k) i) ^ 2))).
  { unfold L. rewrite sum_swap. apply sum_ext. intros j Hj. apply sum_ext. intros; ring. }
  rewrite Rmult_minus_distr_l, E. pose proof (@ls1 m n (fun j i => mget A i j) (b (S k)) (a (S k))) as H. cbn zeta in H.
  fold (N2 n (a (S k))) in H. rewrite H. clear H.
  rewrite (@sum_zero m (fun i => (b (S k) i * N2 n (a (S k)) - sum n (fun j => mget A j i * a (S k) j)) ^ 2)).
  2: { intros j Hj. rewrite (proj1 (step_b k Hj)). ring. }
  replace (sum m (fun i => sum n (fun j => mget A j i ^ 2))) with X2 by (unfold X2; apply sum_swap).
  replace (N2 n (a (S k)) * X2 - (N2 n (a (S k)) * X2 - sum m (fun i => sum n (fun j => mget A j i * a (S k) j) ^ 2) + 0))
    with (sum m (fun i => sum n (fun j => mget A j i * a (S k) j) ^ 2)) by ring.
  transitivity (sum m (fun i => sum p (fun j => s j * al (S k) j * mget Vh j i) ^ 2)).
  - apply sum_ext. intros c Hc. f_equal.
    transitivity (sum n (fun i => sum p (fun j => s j * mget Vh j c * (mget U i j * a (S k) i)))).
    + apply sum_ext. intros i Hi. rewrite (svd_product G Hi Hc), <- sum_scal_r. apply sum_ext. intros; ring.
    + rewrite sum_swap. apply sum_ext. intros j Hj. rewrite sum_scal_l. unfold al. ring.
  - transitivity (sum p (fun j => (s j * al (S k) j) ^ 2)); [|apply sum_ext; intros; ring].
    apply (@orth_norm m (fun i j => mget Vh j i) (fun j => s j * al (S k) j)).
    intros x y Hx Hy. now apply (svd_V_orth G).
Qed.

(** *** Blind starts *)
Lemma stays_zero j : (j < p)%nat -> be 0 j = 0 -> forall k, al (S k) j = 0 /\ be k j = 0.
Proof.
  intros Hj H0.
  assert (Ha : forall k, be k j = 0 -> al (S k) j = 0).
  { intros k Hb. destruct (Req_dec (N2 m (b k)) 0) as [E|E].
    - apply sum_zero. intros i Hi. rewrite (proj2 (step_a k Hi) E). ring.
    - apply (Rmult_eq_reg_r (N2 m (b k))); [|exact E]. rewrite (coord_a k Hj), Hb. ring. }
  assert (Hk : forall k, be k j = 0).
  { induction k as [|k IH]; [exact H0|]. destruct (Req_dec (N2 n (a (S k))) 0) as [E|E].
    - apply sum_zero. intros i Hi. rewrite (proj2 (step_b k Hi) E). ring.
    - apply (Rmult_eq_reg_r (N2 n (a (S k)))); [|exact E]. rewrite (coord_b k Hj), (Ha k IH). ring. }
  intros k. auto.
Qed.
Lemma blind c : 0 <= c -> (forall j, (j < p)%nat -> c < s j -> be 0 j = 0) -> forall k, X2 - c ^ 2 <= L (S k).
Proof.
  intros Hc H k. destruct (Req_dec (N2 n (a (S k))) 0) as [E|E].
  - assert (EL : L (S k) = X2).
    { apply sum_ext. intros i Hi. apply sum_ext. intros j Hj. rewrite (N2_zero E Hi). ring. }
    rewrite EL. pose proof (pow2_ge_0 c). lra.
  - assert (HN : 0 < N2 n (a (S k))) by (pose proof (N2_nonneg n (a (S k))); lra).
    assert (HX : N2 n (a (S k)) * (X2 - L (S k)) <= N2 n (a (S k)) * c ^ 2).
    { rewrite error_after, norm_a, Rmult_comm, <- sum_scal_l. apply sum_le. intros j Hj.
      destruct (Rlt_le_dec c (s j)) as [Hlt|Hle].
      - destruct (@stays_zero j Hj (H j Hj Hlt) k) as [Z _]. rewrite Z. lra.
      - apply Rmult_le_compat_r; [apply pow2_ge_0|]. pose proof (svd_S_nonneg G Hj). now apply pow_incr. }
    apply Rmult_le_reg_l in HX; [|exact HN]. lra.
Qed.

(** *** Convergence *)
Variable t : nat.
Hypothesis (Ht : (t < p)%nat) (Htop : s t = s 0) (Hpos : 0 < s 0) (Hsee : be 0 t <> 0).
Lemma top_max j : (j < p)%nat -> s j <= s t.
Proof. intros Hj. rewrite Htop. apply (svd_S_sorted G). fold p. lia. Qed.

Lemma alive k : al (S k) t <> 0 /\ be k t <> 0.
Proof.
  assert (Hs : s t <> 0) by (rewrite Htop; lra).
  assert (Ha : forall k, be k t <> 0 -> al (S k) t <> 0).
  { intros k' Hb Ea. pose proof (coord_a k' Ht) as E. rewrite Ea, Rmult_0_l in E. symmetry in E.
    apply Rmult_integral in E. tauto. }
  assert (Hb : forall k, be k t <> 0).
  { induction k0 as [|k0 IH]; [exact Hsee|]. intros Eb. pose proof (coord_b k0 Ht) as E. rewrite Eb, Rmult_0_l in E.
    symmetry in E. apply Rmult_integral in E. destruct E as [E|E]; [tauto|]. now apply (Ha k0 IH). }
  auto.
Qed.
Lemma norms k : 0 < N2 m (b k) /\ 0 < N2 n (a (S k)).
Proof.
  destruct (alive k) as [Ha Hb]. split.
  - destruct (Req_dec (N2 m (b k)) 0) as [E|E]; [|pose proof (N2_nonneg m (b k)); lra]. destruct Hb. now apply be_zero.
  - destruct (Req_dec (N2 n (a (S k))) 0) as [E|E]; [|pose proof (N2_nonneg n (a (S k))); lra]. destruct Ha. now apply al_zero.
Qed.
Lemma rates j k : (j < p)%nat -> al (S k) j * (s t ^ (2 * k + 1) * be 0 t) = al (S k) t * (s j ^ (2 * k + 1) * be 0 j).
Proof.
  intros Hj. assert (Ha : forall k, al (S k) j * (s t * be k t) = al (S k) t * (s j * be k j)).
  { intros k'. rewrite <- (coord_a k' Hj), <- (coord_a k' Ht). ring. }
  assert (Hb : forall k, be (S k) j * (s t * al (S k) t) = be (S k) t * (s j * al (S k) j)).
  { intros k'. rewrite <- (coord_b k' Hj), <- (coord_b k' Ht). ring. }
  assert (Hk : forall k, be k j * (s t ^ (2 * k) * be 0 t) = be k t * (s j ^ (2 * k) * be 0 j)).
  { induction k0 as [|k0 IH]; [cbn; ring|].
    replace (2 * S k0)%nat with (S (S (2 * k0))) by lia. cbn [pow].
    destruct (alive k0) as [A1 A2].
    apply (Rmult_eq_reg_r (al (S k0) t * be k0 t)); [|now apply Rmult_integral_contrapositive].
    transitivity ((be (S k0) j * (s t * al (S k0) t)) * (s t * be k0 t * s t ^ (2 * k0) * be 0 t)); [ring|].
    rewrite (Hb k0).
    transitivity (be (S k0) t * s j * (al (S k0) j * (s t * be k0 t)) * (s t ^ (2 * k0) * be 0 t)); [ring|].
    rewrite (Ha k0).
    transitivity (be (S k0) t * s j * al (S k0) t * s j * (be k0 j * (s t ^ (2 * k0) * be 0 t))); [ring|].
    rewrite IH. ring. }
  replace (2 * k + 1)%nat with (S (2 * k)) by lia. cbn [pow].
  destruct (alive k) as [A1 A2]. apply (Rmult_eq_reg_r (be k t)); [|exact A2].
  transitivity (al (S k) j * (s t * be k t) * (s t ^ (2 * k) * be 0 t)); [ring|]. rewrite (Ha k).
  transitivity (al (S k) t * s j * (be k j * (s t ^ (2 * k) * be 0 t))); [ring|]. rewrite (Hk k). ring.
Qed.

Lemma power_rate q k : 0 <= q -> (forall j, (j < p)%nat -> s j = s 0 \/ s j <= q * s 0) ->
  L (S k) - (X2 - s 0 ^ 2) <= q ^ (4 * k + 2) * (s 0 ^ 2 * N2 m (b 0) / be 0 t ^ 2).
Proof.
  intros Hq Hgap. destruct (norms k) as [_ HN]. destruct (alive k) as [A1 _].
  assert (Hbt : 0 < be 0 t ^ 2) by (assert (0 < be 0 t * be 0 t) by (now apply Rsqr_pos_lt); lra).
  assert (Ha2 : 0 < al (S k) t ^ 2) by (assert (0 < al (S k) t * al (S k) t) by (now apply Rsqr_pos_lt); lra).
  assert (HaN : al (S k) t ^ 2 <= N2 n (a (S k))).
  { rewrite norm_a. apply (@sum_term_le p (fun j => al (S k) j ^ 2)); [intros; apply pow2_ge_0|exact Ht]. }
  assert (E : N2 n (a (S k)) * (L (S k) - (X2 - s 0 ^ 2)) = sum p (fun j => (s 0 ^ 2 - s j ^ 2) * al (S k) j ^ 2)).
  { replace (N2 n (a (S k)) * (L (S k) - (X2 - s 0 ^ 2))) with (s 0 ^ 2 * N2 n (a (S k)) - N2 n (a (S k)) * (X2 - L (S k))) by ring.
    rewrite error_after, norm_a, <- sum_scal_l, <- sum_minus. apply sum_ext. intros; ring. }
  set (Q := q ^ (4 * k + 2)). assert (HQ : 0 <= Q) by (now apply pow_le).
  assert (Hj : forall j, (j < p)%nat -> (s 0 ^ 2 - s j ^ 2) * al (S k) j ^ 2 <= al (S k) t ^ 2 * (Q * (s 0 ^ 2 / be 0 t ^ 2)) * be 0 j ^ 2).
  { intros j Hj. pose proof (rates k Hj) as Er. rewrite Htop in Er.
    assert (Hsp : 0 < s 0 ^ (2 * k + 1)) by (now apply pow_lt).
    assert (Ea : al (S k) j ^ 2 = al (S k) t ^ 2 * ((s j ^ (2 * k + 1)) ^ 2 / (s 0 ^ (2 * k + 1)) ^ 2) * be 0 j ^ 2 / be 0 t ^ 2).
    { assert (Ea : al (S k) j = al (S k) t * (s j ^ (2 * k + 1) * be 0 j) / (s 0 ^ (2 * k + 1) * be 0 t)).
      { rewrite <- Er. field. split; [exact Hsee|lra]. }
      rewrite Ea. field. split; [lra|exact Hsee]. }
    pose proof (svd_S_nonneg G Hj) as Hs0. destruct (Hgap j Hj) as [Et|Et].
    - rewrite Et. replace ((s 0 ^ 2 - s 0 ^ 2) * al (S k) j ^ 2) with 0 by ring.
      apply Rmult_le_pos; [|apply pow2_ge_0]. apply Rmult_le_pos; [lra|]. apply Rmult_le_pos; [exact HQ|].
      apply Rmult_le_pos; [apply pow2_ge_0|]. left. now apply Rinv_0_lt_compat.
    - assert (Hr : (s j ^ (2 * k + 1)) ^ 2 / (s 0 ^ (2 * k + 1)) ^ 2 <= Q).
      { apply (Rmult_le_reg_r ((s 0 ^ (2 * k + 1)) ^ 2)); [apply pow_lt; lra|].
        unfold Rdiv. rewrite Rmult_assoc, Rinv_l, Rmult_1_r by (apply Rgt_not_eq; apply pow_lt; lra).
        unfold Q. rewrite <- !pow_mult. replace ((2 * k + 1) * 2)%nat with (4 * k + 2)%nat by lia.
        rewrite <- Rpow_mult_distr. apply pow_incr. lra. }
      rewrite Ea.
      apply Rle_trans with (s 0 ^ 2 * (al (S k) t ^ 2 * Q * be 0 j ^ 2 / be 0 t ^ 2)); [|right; field; exact Hsee].
      apply Rle_trans with (s 0 ^ 2 * (al (S k) t ^ 2 * ((s j ^ (2 * k + 1)) ^ 2 / (s 0 ^ (2 * k + 1)) ^ 2) * be 0 j ^ 2 / be 0 t ^ 2)).
      + apply Rmult_le_compat_r; [rewrite <- Ea; apply pow2_ge_0|]. pose proof (pow2_ge_0 (s j)). lra.
      + apply Rmult_le_compat_l; [apply pow2_ge_0|]. apply Rmult_le_compat_r; [left; now apply Rinv_0_lt_compat|].
        apply Rmult_le_compat_r; [apply pow2_ge_0|]. apply Rmult_le_compat_l; [lra|exact Hr]. }
  assert (Hbes : sum p (fun j => be 0 j ^ 2) <= N2 m (b 0)).
  { eapply Rle_trans; [|apply (@bessel m p (fun i j => mget Vh j i) (b 0))].
    - right. apply sum_ext. intros j Hj'. f_equal. unfold be. apply sum_ext. intros; ring.
    - intros x y Hx Hy. now apply (svd_V_orth G). }
  set (C := Q * (s 0 ^ 2 / be 0 t ^ 2)) in *.
  assert (HC : 0 <= C). { apply Rmult_le_pos; [exact HQ|]. apply Rmult_le_pos; [apply pow2_ge_0|]. left. now apply Rinv_0_lt_compat. }
  replace (Q * (s 0 ^ 2 * N2 m (b 0) / be 0 t ^ 2)) with (C * N2 m (b 0)) by (unfold C; field; exact Hsee).
  apply (Rmult_le_reg_l (N2 n (a (S k)))); [exact HN|]. rewrite E.
  apply Rle_trans with (al (S k) t ^ 2 * (C * N2 m (b 0))).
  - eapply Rle_trans; [apply sum_le; exact Hj|]. rewrite sum_scal_l, Rmult_assoc. apply Rmult_le_compat_l; [lra|].
    apply Rmult_le_compat_l; [exact HC|exact Hbes].
  - apply Rmult_le_compat_r; [|exact HaN]. apply Rmult_le_pos; [exact HC|apply N2_nonneg].
Qed.
End Power.

Lemma cv_shift f l : Un_cv (fun k => f (S k)) l -> Un_cv f l.
Proof.
  intros H e He. destruct (H e He) as (N & HN). exists (S N). intros k Hk. destruct k as [|k]; [lia|]. apply HN. lia.
Qed.
(** *** The limit of the models *)
Lemma cv_inv f l : l <> 0 -> Un_cv f l -> Un_cv (fun k => / f k) (/ l).
Proof.
  intros Hl H. apply (@continuity_seq (fun x => / x) f l); [|exact H].
  apply (continuity_pt_inv id); [apply derivable_continuous_pt, derivable_pt_id|exact Hl].
Qed.
Section Models.
Variables (n m : nat) (A U Sv Vh : nd).
Hypothesis G : is_svd n m A U Sv Vh.
Let p := Nat.min n m.
Notation s j := (vget Sv j).
Variables a b : nat -> nat -> R.
Let N2 l (v : nat -> R) := sum l (fun i => v i ^ 2).
Let al k j := sum n (fun i => mget U i j * a k i).
Let be k j := sum m (fun i => mget Vh j i * b k i).
Hypothesis step_a : forall k i, (i < n)%nat ->
  a (S k) i * N2 m (b k) = sum m (fun j => mget A i j * b k j) /\ (N2 m (b k) = 0 -> a (S k) i = 0).
Hypothesis step_b : forall k j, (j < m)%nat ->
  b (S k) j * N2 n (a (S k)) = sum n (fun i => mget A i j * a (S k) i) /\ (N2 n (a (S k)) = 0 -> b (S k) j = 0).
Hypothesis (Hp : (0 < p)%nat) (Hpos : 0 < s 0) (Hsee : be 0 0 <> 0) (Hsimple : forall j, (0 < j < p)%nat -> s j < s 0).

Let rho k j := al (S k) j / al (S k) 0.
Lemma rho_tends j : (j < p)%nat -> Un_cv (fun k => rho k j) (delta 0 j).
Proof.
  intros Hj. assert (A0 : forall k, al (S k) 0 <> 0) by (intros k; apply (@alive n m A U Sv Vh G a b step_a step_b 0 Hp eq_refl Hpos Hsee k)).
  destruct (Nat.eq_dec j 0) as [->|Hne].
  - apply (@cv_ext (fun _ => 1)); [|apply cv_const]. intros k. unfold rho. field. apply A0.
  - assert (Hq : 0 <= s j / s 0 < 1).
    { split; [apply Rmult_le_pos; [now apply (svd_S_nonneg G)|left; now apply Rinv_0_lt_compat]|].
      apply (Rmult_lt_reg_r (s 0)); [exact Hpos|]. unfold Rdiv. rewrite Rmult_assoc, Rinv_l by lra.
      assert (s j < s 0) by (apply Hsimple; lia). lra. }
    apply (@cv_ext (fun k => (s j / s 0) ^ (2 * k + 1) * (be 0 j / be 0 0))).
    + intros k. pose proof (@rates n m A U Sv Vh G a b step_a step_b 0 Hp eq_refl Hpos Hsee j k Hj) as E.
      change (al (S k) j * (s 0 ^ (2 * k + 1) * be 0 0) = al (S k) 0 * (s j ^ (2 * k + 1) * be 0 j)) in E.
      assert (Hs : s 0 ^ (2 * k + 1) <> 0) by (apply pow_nonzero; lra).
      assert (Ep : (s j / s 0) ^ (2 * k + 1) = s j ^ (2 * k + 1) / s 0 ^ (2 * k + 1)).
      { unfold Rdiv. rewrite Rpow_mult_distr, pow_inv. reflexivity. }
      rewrite Ep. unfold rho. apply (Rmult_eq_reg_r (s 0 ^ (2 * k + 1) * be 0 0 * al (S k) 0)).
      * transitivity (al (S k) 0 * (s j ^ (2 * k + 1) * be 0 j)); [field; auto|]. rewrite <- E. field. apply A0.
      * apply Rmult_integral_contrapositive. split; [now apply Rmult_integral_contrapositive|apply A0].
    + replace (delta 0 j) with (0 * (be 0 j / be 0 0)) by (unfold delta; destruct (Nat.eqb_spec 0 j); [lia|ring]).
      apply CV_mult; [|apply cv_const]. assert (Ha : Rabs (s j / s 0) < 1) by (rewrite Rabs_right; lra).
      intros e He. destruct (pow_lt_1_zero _ Ha e He) as (N & HN). exists N. intros k Hk. unfold R_dist. rewrite Rminus_0_r. apply HN. lia.
Qed.
Lemma models_tend i j : (i < n)%nat -> (j < m)%nat ->
  Un_cv (fun k => a k i * b k j) (mget U i 0 * s 0 * mget Vh 0 j).
Proof.
  intros Hi Hj. apply (@cv_shift (fun k => a k i * b k j)).
  assert (A0 : forall k, al (S k) 0 <> 0) by (intros k; apply (@alive n m A U Sv Vh G a b step_a step_b 0 Hp eq_refl Hpos Hsee k)).
  set (u := fun k => sum p (fun l => rho k l * mget U i l)).
  set (v := fun k => sum p (fun l => rho k l * (s l * mget Vh l j))).
  set (w := fun k => sum p (fun l => rho k l * rho k l)).
  assert (Tu : Un_cv u (mget U i 0)).
  { replace (mget U i 0) with (sum p (fun l => delta 0 l * mget U i l)) by (apply (@sum_delta_l p 0 (mget U i)); exact Hp).
    apply cv_sumf. intros l Hl. apply in_seq in Hl. apply CV_mult; [apply rho_tends; lia|apply cv_const]. }
  assert (Tv : Un_cv v (s 0 * mget Vh 0 j)).
  { replace (s 0 * mget Vh 0 j) with (sum p (fun l => delta 0 l * (s l * mget Vh l j)))
      by (apply (@sum_delta_l p 0 (fun l => s l * mget Vh l j)); exact Hp).
    apply cv_sumf. intros l Hl. apply in_seq in Hl. apply CV_mult; [apply rho_tends; lia|apply cv_const]. }
  assert (Tw : Un_cv w 1).
  { replace 1 with (sum p (fun l => delta 0 l * delta 0 l)) by (rewrite (@sum_delta_l p 0 (fun l => delta 0 l)) by exact Hp; reflexivity).
    apply cv_sumf. intros l Hl. apply in_seq in Hl. apply CV_mult; apply rho_tends; lia. }
  replace (mget U i 0 * s 0 * mget Vh 0 j) with (mget U i 0 * (s 0 * mget Vh 0 j) * / 1) by field.
  apply (@cv_ext (fun k => u k * v k * / w k)).
  2: { apply CV_mult; [now apply CV_mult|]. apply cv_inv; [lra|exact Tw]. }
  intros k. pose proof (@span_a n m A U Sv Vh G a b step_a k i Hi) as Ea. change (a (S k) i = sum p (fun j => al (S k) j * mget U i j)) in Ea.
  pose proof (@norm_a n m A U Sv Vh G a b step_a k) as EN. change (N2 n (a (S k)) = sum p (fun j => al (S k) j ^ 2)) in EN.
  destruct (@norms n m A U Sv Vh G a b step_a step_b 0 Hp eq_refl Hpos Hsee k) as [_ HN]. change (0 < N2 n (a (S k))) in HN.
  assert (Eb : b (S k) j * N2 n (a (S k)) = sum p (fun l => al (S k) l * (s l * mget Vh l j))).
  { rewrite (proj1 (step_b k Hj)).
    transitivity (sum n (fun i => sum p (fun l => s l * mget Vh l j * (mget U i l * a (S k) i)))).
    - apply sum_ext. intros i' Hi'. rewrite (svd_product G Hi' Hj), <- sum_scal_r. apply sum_ext. intros; ring.
    - rewrite sum_swap. apply sum_ext. intros l Hl. rewrite sum_scal_l. unfold al. ring. }
  set (c := al (S k) 0). assert (Hc : c <> 0) by apply A0.
  assert (Eu : u k = a (S k) i / c).
  { rewrite Ea. unfold u, Rdiv. rewrite <- sum_scal_r. apply sum_ext. intros l Hl. unfold rho. fold c. unfold al. field. exact Hc. }
  assert (Ev : v k = b (S k) j * N2 n (a (S k)) / c).
  { rewrite Eb. unfold v, Rdiv. rewrite <- sum_scal_r. apply sum_ext. intros l Hl. unfold rho. fold c. field. exact Hc. }
  assert (Ew : w k = N2 n (a (S k)) / c ^ 2).
  { rewrite EN. unfold w, Rdiv. rewrite <- sum_scal_r. apply sum_ext. intros l Hl. unfold rho. fold c. unfold al. field. exact Hc. }
  rewrite Eu, Ev, Ew. field. split; [exact Hc|]. apply Rgt_not_eq. exact HN.
Qed.
End Models.

(** *** The iterations of CP_ALS *)
Section Iterate.
Variables (env : cp_env) (cs : cp_settings) (s : cp_state) (n m : nat).
Hypothesis (HK : cs_rank cs = 1%nat) (Hsvd : svd_works_on 1 1 (env_svd env)) (HC : cp_coherent 1 s) (HF : free_fit cs s)
  (HX : shape (cp_X s) = [n; m]).
Notation X := (cp_X s).
Notation Us k := (kt_fms (cp_dec (state_after (cp_model env cs) s k))).
Notation A k := (nth 0 (Us k) m0).
Notation B k := (nth 1 (Us k) m0).

Lemma two_factors l : factors_ok 1 X l -> exists F1 F2, l = [F1; F2] /\ is_mat n 1 F1 /\ is_mat m 1 F2.
Proof.
  intros [HU Hr]. rewrite HX in Hr. destruct l as [|F1 [|F2 [|F3 l]]]; try discriminate.
  exists F1, F2. split; [reflexivity|]. cbn in Hr. injection Hr as E1 E2.
  apply Forall_cons_iff in HU. destruct HU as [H1 HU]. apply Forall_cons_iff in HU. destruct HU as [H2 _].
  split; [rewrite <- E1|rewrite <- E2]; assumption.
Qed.
Lemma sse_two F1 F2 : sse X [F1; F2] unit_weights 1 =
  sum n (fun i => sum m (fun j => (mget X i j - mget F1 i 0 * mget F2 j 0) ^ 2)).
Proof.
  unfold sse. rewrite HX, sumf_indices2. apply sum_ext. intros i Hi. apply sum_ext. intros j Hj.
  unfold cp_entry, unit_weights. cbn [seq sumf colprod]. unfold mget. f_equal. ring.
Qed.
Lemma frob_col l F : frob2 l 1 (mget F) = sum l (fun i => mget F i 0 ^ 2).
Proof. unfold frob2. apply sum_ext. intros i Hi. cbn [seq sumf]. ring. Qed.

Lemma one_pass k : exists F1 F2 G1 G2 : nd, Us k = [F1; F2] /\ Us (S k) = [G1; G2] /\
  is_mat n 1 F1 /\ is_mat m 1 F2 /\ is_mat n 1 G1 /\ is_mat m 1 G2 /\
  least_best 1 X [F1; F2] 0 G1 /\ least_best 1 X [G1; F2] 1 G2.
Proof.
  destruct (@after_coherent env cs 1 s k HC) as [HCk HSk]. pose proof (free_fit_same HSk HF) as HFk.
  set (u := state_after (cp_model env cs) s k) in *. pose proof (sp_X HSk) as EX.
  assert (H0 : (0 < length (shape (cp_X u)))%nat) by (rewrite EX, HX; cbn; lia).
  destruct (update_least HCk HK H0 (HFk 0%nat H0) Hsvd) as (v & G1 & Ev & Fv & HSv & HCv & HL1).
  pose proof (free_fit_same HSv HFk) as HFv. assert (EXv : cp_X v = X) by (now rewrite (sp_X HSv)).
  assert (H1 : (1 < length (shape (cp_X v)))%nat) by (rewrite EXv, HX; cbn; lia).
  destruct (update_least HCv HK H1 (HFv 1%nat H1) Hsvd) as (w & G2 & Ew & Fw & HSw & HCw & HL2).
  pose proof (co_fac HCk) as HFa. rewrite EX in HFa, HL1. rewrite EXv in HL2.
  destruct (two_factors HFa) as (F1 & F2 & EF & M1 & M2). rewrite EF in Fv, HL1. rewrite Fv in Fw, HL2.
  unfold with_factor in Fv, Fw, HL2. cbn [replace_at] in Fv, Fw, HL2.
  exists F1, F2, G1, G2. split; [exact EF|]. split.
  { cbn [state_after cp_model md_update]. fold (cp_model env cs). fold u. unfold cp_update_factors, ndim. rewrite EX, HX.
    cbn [length seq cp_update_modes]. rewrite Ev, Ew. exact Fw. }
  split; [exact M1|]. split; [exact M2|].
  pose proof HL1 as (N1 & _). pose proof HL2 as (N2 & _). rewrite HX in N1, N2. cbn [nth] in N1, N2. auto.
Qed.

Lemma pass_a k i : (i < n)%nat ->
  mget (A (S k)) i 0 * sum m (fun j => mget (B k) j 0 ^ 2) = sum m (fun j => mget X i j * mget (B k) j 0) /\
  (sum m (fun j => mget (B k) j 0 ^ 2) = 0 -> mget (A (S k)) i 0 = 0).
Proof.
  intros Hi. destruct (one_pass k) as (F1 & F2 & G1 & G2 & E0 & E1 & _ & _ & N1 & _ & (_ & L1 & L2) & _).
  rewrite E0, E1. cbn [nth]. rewrite HX in L1, L2. cbn [nth] in L1, L2. unfold with_factor in L1, L2. cbn [replace_at] in L1, L2.
  set (W := fun w : nat -> R => tab2 n 1 (fun i _ => w i)).
  assert (EW : forall w i, (i < n)%nat -> mget (W w) i 0 = w i) by (intros; unfold W; now rewrite mget_tab2 by lia).
  assert (ES : forall w, sse X [W w; F2] unit_weights 1 = sum n (fun i => sum m (fun j => (mget X i j - w i * mget F2 j 0) ^ 2))).
  { intros w. rewrite sse_two. apply sum_ext. intros i' Hi'. now rewrite EW by auto. }
  apply (@ls1_best n m (mget X) (fun i => mget G1 i 0) (fun j => mget F2 j 0)); [| |exact Hi].
  - intros w. rewrite <- sse_two, <- ES. apply L1. apply is_mat_tab2.
  - intros w Hw. rewrite <- sse_two, <- ES in Hw. apply (L2 (W w) (is_mat_tab2 _ _ _)) in Hw. rewrite !frob_col in Hw.
    eapply Rle_trans; [exact Hw|]. right. apply sum_ext. intros i' Hi'. now rewrite EW by auto.
Qed.
Lemma pass_b k j : (j < m)%nat ->
  mget (B (S k)) j 0 * sum n (fun i => mget (A (S k)) i 0 ^ 2) = sum n (fun i => mget X i j * mget (A (S k)) i 0) /\
  (sum n (fun i => mget (A (S k)) i 0 ^ 2) = 0 -> mget (B (S k)) j 0 = 0).
Proof.
  intros Hj. destruct (one_pass k) as (F1 & F2 & G1 & G2 & E0 & E1 & _ & _ & N1 & _ & _ & (_ & L1 & L2)).
  rewrite E1. cbn [nth]. rewrite HX in L1, L2. cbn [nth] in L1, L2. unfold with_factor in L1, L2. cbn [replace_at] in L1, L2.
  set (W := fun w : nat -> R => tab2 m 1 (fun i _ => w i)).
  assert (EW : forall w i, (i < m)%nat -> mget (W w) i 0 = w i) by (intros; unfold W; now rewrite mget_tab2 by lia).
  assert (ET : forall F, sse X [G1; F] unit_weights 1 = sum m (fun j => sum n (fun i => (mget X i j - mget F j 0 * mget G1 i 0) ^ 2))).
  { intros F. rewrite sse_two, sum_swap. apply sum_ext. intros j' Hj'. apply sum_ext. intros; ring. }
  assert (ES : forall w, sse X [G1; W w] unit_weights 1 = sum m (fun j => sum n (fun i => (mget X i j - w j * mget G1 i 0) ^ 2))).
  { intros w. rewrite ET. apply sum_ext. intros i' Hi'. now rewrite EW by auto. }
  apply (@ls1_best m n (fun j i => mget X i j) (fun i => mget G2 i 0) (fun j => mget G1 j 0)); [| |exact Hj].
  - intros w. rewrite <- ET, <- ES. apply L1. apply is_mat_tab2.
  - intros w Hw. rewrite <- ET, <- ES in Hw. apply (L2 (W w) (is_mat_tab2 _ _ _)) in Hw. rewrite !frob_col in Hw.
    eapply Rle_trans; [exact Hw|]. right. apply sum_ext. intros i' Hi'. now rewrite EW by auto.
Qed.

Lemma heights k : nrows (A k) = n /\ nrows (B k) = m /\ is_mat n 1 (A k) /\ is_mat m 1 (B k) /\ Us k = [A k; B k].
Proof.
  destruct (one_pass k) as (F1 & F2 & G1 & G2 & E0 & _ & M1 & M2 & _). rewrite E0. cbn [nth].
  unfold nrows. rewrite (proj2 M1), (proj2 M2). auto.
Qed.
Lemma energy_two : energy X = sum n (fun i => sum m (fun j => mget X i j ^ 2)).
Proof. unfold energy. now rewrite HX, sumf_indices2. Qed.

Variables U Sv Vh : nd.
Hypothesis G : is_svd n m X U Sv Vh.
Notation p := (Nat.min n m).
Notation L k := (sse X (Us k) unit_weights 1).

Lemma L_two k : L k = sum n (fun i => sum m (fun j => (mget X i j - mget (A k) i 0 * mget (B k) j 0) ^ 2)).
Proof. destruct (heights k) as (_ & _ & _ & _ & E). rewrite E at 1. apply sse_two. Qed.
Lemma energy_values : energy X = sum p (fun j => vget Sv j ^ 2).
Proof.
  rewrite energy_two. apply (all_captured (svd_U_orth G) (svd_V_orth G) (svd_product G)).
Qed.
Lemma best_value : (0 < p)%nat -> energy X - vget Sv 0 ^ 2 = left_out p 1 Sv.
Proof. intros Hp. rewrite energy_values, (@sum_split p 1) by lia. unfold left_out. cbn [seq sumf]. ring. Qed.

Lemma coords k j : (j < p)%nat ->
  left_coord U (A (S k)) j * col2 (B k) = vget Sv j * right_coord Vh (B k) j /\
  right_coord Vh (B (S k)) j * col2 (A (S k)) = vget Sv j * left_coord U (A (S k)) j.
Proof.
  intros Hj. unfold left_coord, right_coord, col2. destruct (heights k) as (E1 & E2 & _). destruct (heights (S k)) as (E3 & E4 & _).
  rewrite E2, E3, E4.
  exact (conj (@coord_a n m X U Sv Vh G (fun k i => mget (A k) i 0) (fun k i => mget (B k) i 0) pass_a k j Hj)
    (@coord_b n m X U Sv Vh G (fun k i => mget (A k) i 0) (fun k i => mget (B k) i 0) pass_b k j Hj)).
Qed.

Lemma blind_start c : 0 <= c -> (forall j, (j < p)%nat -> c < vget Sv j -> right_coord Vh (B 0) j = 0) ->
  forall k, energy X - c ^ 2 <= L (S k) /\ forall j, (j < p)%nat -> c < vget Sv j -> left_coord U (A (S k)) j = 0 /\ right_coord Vh (B (S k)) j = 0.
Proof.
  intros Hc H k. rewrite L_two, energy_two. unfold left_coord, right_coord in *. destruct (heights 0) as (_ & E0 & _).
  destruct (heights (S k)) as (E3 & E4 & _). rewrite E0 in H. rewrite E3, E4. split.
  - exact (@blind n m X U Sv Vh G (fun k i => mget (A k) i 0) (fun k i => mget (B k) i 0) pass_a pass_b c Hc H k).
  - intros j Hj Hlt.
    pose proof (@stays_zero n m X U Sv Vh G (fun k i => mget (A k) i 0) (fun k i => mget (B k) i 0) pass_a pass_b j Hj (H j Hj Hlt)) as Hz.
    split; [exact (proj1 (Hz k))|exact (proj2 (Hz (S k)))].
Qed.

Lemma rate t q : (t < p)%nat -> vget Sv t = vget Sv 0 -> 0 < vget Sv 0 -> right_coord Vh (B 0) t <> 0 ->
  0 <= q -> gap_ratio p Sv q -> forall k,
  L (S k) - left_out p 1 Sv <= q ^ (4 * k + 2) * (vget Sv 0 ^ 2 * col2 (B 0) / right_coord Vh (B 0) t ^ 2).
Proof.
  intros Ht Et Hp H0 Hq Hg k. rewrite <- best_value by lia. rewrite L_two, energy_two. unfold right_coord, col2 in *.
  destruct (heights 0) as (_ & E0 & _). rewrite E0 in *.
  exact (@power_rate n m X U Sv Vh G (fun k i => mget (A k) i 0) (fun k i => mget (B k) i 0) pass_a pass_b t Ht Et Hp H0 q k Hq Hg).
Qed.
Lemma not_below k : (0 < p)%nat -> left_out p 1 Sv <= L k.
Proof.
  intros Hp. destruct (heights k) as (E1 & E2 & _ & _ & E). rewrite E.
  rewrite sse_two. unfold left_out.
  pose proof (@eckart_young n m p (mget X) (mget U) (mget Vh) (vget Sv) (svd_U_orth G) (svd_V_orth G) (svd_S_nonneg G)
    (svd_S_sorted G) (svd_product G) 1 (fun i _ => mget (A k) i 0) (fun _ j => mget (B k) j 0)) as H.
  eapply Rle_trans; [apply H; lia|]. right. unfold dist2, mprod. apply sum_ext. intros i Hi. apply sum_ext. intros j Hj. cbn [seq sumf]. ring.
Qed.

(** A ratio below one exists. *)
Lemma ratio_exists l : 0 < vget Sv 0 -> (forall j, (j < l)%nat -> vget Sv j <= vget Sv 0) ->
  exists q, 0 <= q < 1 /\ gap_ratio l Sv q.
Proof.
  intros Hp. induction l as [|l IH]; intros H.
  - exists 0. split; [lra|]. intros j Hj. lia.
  - destruct IH as (q & Hq & Hg); [intros; apply H; lia|].
    destruct (Req_dec (vget Sv l) (vget Sv 0)) as [E|E].
    + exists q. split; [exact Hq|]. intros j Hj. destruct (Nat.eq_dec j l) as [->|Hne]; [now left|apply Hg; lia].
    + assert (Hlt : vget Sv l < vget Sv 0) by (pose proof (H l); assert (vget Sv l <= vget Sv 0) by (apply H; lia); lra).
      exists (Rmax q (vget Sv l / vget Sv 0)).
      assert (Hd : vget Sv l / vget Sv 0 < 1).
      { apply (Rmult_lt_reg_r (vget Sv 0)); [exact Hp|]. unfold Rdiv. rewrite Rmult_assoc, Rinv_l by lra. lra. }
      split; [split|].
      * eapply Rle_trans; [apply Hq|apply Rmax_l].
      * apply Rmax_lub_lt; lra.
      * intros j Hj. destruct (Nat.eq_dec j l) as [->|Hne].
        -- right. apply Rle_trans with (vget Sv l / vget Sv 0 * vget Sv 0); [right; field; lra|].
           apply Rmult_le_compat_r; [lra|apply Rmax_r].
        -- destruct (Hg j) as [Hl|Hl]; [lia|now left|]. right. eapply Rle_trans; [exact Hl|].
           apply Rmult_le_compat_r; [lra|apply Rmax_l].
Qed.
Lemma squeeze f g l : (forall k, l <= f k) -> (forall k, f k - l <= g k) -> Un_cv g 0 -> Un_cv f l.
Proof.
  intros H1 H2 H e He. destruct (H e He) as (N & HN). exists N. intros k Hk. specialize (HN k Hk). unfold R_dist in *.
  specialize (H1 k). specialize (H2 k). rewrite Rminus_0_r in HN. pose proof (Rle_abs (g k)).
  rewrite Rabs_right by lra. lra.
Qed.
Lemma power_tends q C : 0 <= q < 1 -> Un_cv (fun k => q ^ (4 * k + 2) * C) 0.
Proof.
  intros Hq. rewrite <- (Rmult_0_l C). apply CV_mult; [|apply cv_const].
  assert (Ha : Rabs q < 1) by (rewrite Rabs_right; lra).
  intros e He. destruct (pow_lt_1_zero q Ha e He) as (N & HN). exists N. intros k Hk. unfold R_dist. rewrite Rminus_0_r. apply HN. lia.
Qed.
Lemma tends_to_best t : (t < p)%nat -> vget Sv t = vget Sv 0 -> right_coord Vh (B 0) t <> 0 ->
  Un_cv (fun k => L k) (left_out p 1 Sv).
Proof.
  intros Ht Et H0. destruct (Rlt_le_dec 0 (vget Sv 0)) as [Hp|Hp].
  - destruct (@ratio_exists p Hp) as (q & Hq & Hg); [intros j Hj; apply (svd_S_sorted G); lia|].
    apply cv_shift. apply (@squeeze _ (fun k => q ^ (4 * k + 2) * (vget Sv 0 ^ 2 * col2 (B 0) / right_coord Vh (B 0) t ^ 2))).
    + intros k. apply not_below. lia.
    + apply (@rate t q); auto. apply Hq.
    + now apply power_tends.
  - assert (Hz : forall j, (j < p)%nat -> vget Sv j = 0).
    { intros j Hj. pose proof (svd_S_nonneg G Hj). assert (vget Sv j <= vget Sv 0) by (apply (svd_S_sorted G); lia). lra. }
    assert (E0 : energy X = 0) by (rewrite energy_values; apply sum_zero; intros j Hj; rewrite Hz by auto; ring).
    assert (EL : left_out p 1 Sv = 0) by (rewrite <- best_value by lia; rewrite E0, Hz by lia; ring).
    apply cv_shift. rewrite EL. apply (@cv_ext (fun _ => 0)); [|apply cv_const]. intros k.
    assert (Hx : forall i j, (i < n)%nat -> (j < m)%nat -> mget X i j = 0).
    { intros i j Hi Hj. rewrite (svd_product G Hi Hj). apply sum_zero. intros r Hr. rewrite Hz by auto. ring. }
    rewrite L_two. symmetry. apply sum_zero. intros i Hi. apply sum_zero. intros j Hj. rewrite Hx by auto.
    destruct (pass_b k Hj) as [Hb Hb0]. rewrite (@sum_zero n (fun i => mget X i j * mget (A (S k)) i 0)) in Hb
      by (intros; rewrite Hx by auto; ring).
    assert (Z : mget (B (S k)) j 0 = 0). { apply Rmult_integral in Hb. destruct Hb as [Hb|Hb]; auto. }
    rewrite Z. ring.
Qed.
Lemma fits_tend i j : (0 < p)%nat -> 0 < vget Sv 0 -> (forall j, (0 < j < p)%nat -> vget Sv j < vget Sv 0) ->
  right_coord Vh (B 0) 0 <> 0 -> (i < n)%nat -> (j < m)%nat ->
  Un_cv (fun k => cp_entry (Us k) unit_weights 1 [i; j]) (mget U i 0 * vget Sv 0 * mget Vh 0 j).
Proof.
  intros Hp Hpos Hs H0 Hi Hj. unfold right_coord in H0. destruct (heights 0) as (_ & E0 & _). rewrite E0 in H0.
  apply (@cv_ext (fun k => mget (A k) i 0 * mget (B k) j 0)).
  - intros k. destruct (heights k) as (_ & _ & _ & _ & E). rewrite E at 3. unfold cp_entry, unit_weights. cbn [seq sumf colprod]. ring.
  - exact (@models_tend n m X U Sv Vh G (fun k i => mget (A k) i 0) (fun k i => mget (B k) i 0) pass_a pass_b Hp Hpos H0 Hs i j Hi Hj).
Qed.
End Iterate.

Lemma matrix_bound X n m U Sv Vh Vs w : shape X = [n; m] -> is_svd n m X U Sv Vh -> rows Vs = shape X ->
  left_out (Nat.min n m) 1 Sv <= sse X Vs w 1.
Proof.
  intros HX G Hr. assert (E : exists F1 F2, Vs = [F1; F2]).
  { rewrite HX in Hr. destruct Vs as [|F1 [|F2 [|F3 l]]]; try discriminate. eauto. }
  destruct E as (F1 & F2 & ->).
  pose proof (@eckart_young n m (Nat.min n m) (mget X) (mget U) (mget Vh) (vget Sv) (svd_U_orth G) (svd_V_orth G) (svd_S_nonneg G)
    (svd_S_sorted G) (svd_product G) 1 (fun i _ => w 0%nat * mget F1 i 0) (fun _ j => mget F2 j 0)) as H.
  unfold left_out. eapply Rle_trans; [apply H; lia|]. right. unfold sse. rewrite HX, sumf_indices2.
  unfold dist2, mprod. apply sum_ext. intros i Hi. apply sum_ext. intros j Hj. unfold cp_entry. cbn [seq sumf colprod]. unfold mget. ring.
Qed.

Lemma fit_rate env cs cf disk draws X max_its arg ds ds1 n m U Sv Vh t q :
  let budget := match max_its with Some m => m | None => ds_max ds end in
  plain_call env cs 1 cf draws X budget arg ds ->
  cp_init_fit env cs disk draws X max_its arg ds = (ds1, None) -> energy X <> 0 -> 0 < cf_tol cf < 1 ->
  shape X = [n; m] -> is_svd n m X U Sv Vh ->
  let B := nth 1 (kt_fms (cp_dec (ds_num ds1))) m0 in
  (t < Nat.min n m)%nat -> vget Sv t = vget Sv 0 -> right_coord Vh B t <> 0 -> 0 <= q -> gap_ratio (Nat.min n m) Sv q ->
  exists d, cp_fit env cs cf disk draws X max_its arg ds = (d, None) /\
    forall k, ds_it d = Z.of_nat (S k) ->
      let e := sse X (kt_fms (cp_dec (ds_num d))) unit_weights 1 in
      left_out (Nat.min n m) 1 Sv <= e <=
        left_out (Nat.min n m) 1 Sv + q ^ (4 * k + 2) * (vget Sv 0 ^ 2 * col2 B / right_coord Vh B t ^ 2).
Proof.
  intros budget HP E1 He Htol HX G B Ht Et H0 Hq Hg.
  destruct (@fit_moves env cs 1 cf disk draws X max_its arg ds ds1 HP E1 He Htol) as (d & N & F & EN & EU & _).
  exists d. split; [exact F|]. intros k Ek. rewrite EN in Ek. apply Nat2Z.inj in Ek. subst N. cbv zeta. rewrite EU.
  destruct HP as (A1 & A2 & A3 & A4 & A5 & A6 & A7 & A8 & A9 & A10 & A11).
  destruct (@complete_fit env cs 1 cf disk draws X max_its arg ds A1 A2 A3 A4 A5 A6 A7 A8 A9 A10 A11)
    as (x1 & d' & G1 & _ & _ & HC & HU & HF & EX & _). rewrite E1 in G1. injection G1 as <-.
  assert (HX' : shape (cp_X (ds_num ds1)) = [n; m]) by (now rewrite EX).
  assert (G' : is_svd n m (cp_X (ds_num ds1)) U Sv Vh) by (now rewrite EX).
  assert (Hpos : 0 < vget Sv 0).
  { assert (Hp0 : (0 < Nat.min n m)%nat) by lia. destruct (svd_S_nonneg G Hp0) as [H|H]; [exact H|]. destruct He.
    pose proof (@energy_values (ds_num ds1) n m HX' U Sv Vh G') as E. rewrite EX in E. rewrite E. apply sum_zero. intros j Hj.
    pose proof (svd_S_nonneg G Hj). assert (vget Sv j <= vget Sv 0) by (apply (svd_S_sorted G); lia).
    replace (vget Sv j) with 0 by lra. ring. }
  split.
  - pose proof (@not_below env cs (ds_num ds1) n m A1 A3 HC HF HX' U Sv Vh G' (S k)) as H. rewrite EX in H. apply H. lia.
  - pose proof (@rate env cs (ds_num ds1) n m A1 A3 HC HF HX' U Sv Vh G' t q Ht Et Hpos H0 Hq Hg k) as H. rewrite EX in H.
    change (state_after (cp_model env cs) (ds_num ds1) 0) with (ds_num ds1) in H. fold B in H. lra.
Qed.
