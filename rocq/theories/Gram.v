(** Least squares through the normal equations  Z V = M,  V = A A^T,  M = B A^T. *)
From Verif Require Export Lin.
Set Implicit Arguments.
Unset Strict Implicit.
Local Open Scope R_scope.

Section Gram.
Variables (p K C : nat) (A B : nat -> nat -> R).
Definition gV (r s : nat) : R := sum C (fun c => A r c * A s c).
Definition gM (i r : nat) : R := sum C (fun c => B i c * A r c).

Lemma gram_residual Z i r :
  sum C (fun c => (mprod K Z A i c - B i c) * A r c) = mprod K Z gV i r - gM i r.
Proof.
  unfold mprod, gV, gM.
  transitivity (sum C (fun c => sum K (fun k => Z i k * (A k c * A r c))) - sum C (fun c => B i c * A r c)).
  - rewrite <- sum_minus. apply sum_ext. intros c Hc. rewrite Rmult_minus_distr_r. f_equal.
    rewrite <- sum_scal_r. apply sum_ext. intros; ring.
  - f_equal. rewrite sum_swap. apply sum_ext. intros k Hk. now rewrite sum_scal_l.
Qed.

Lemma gram_normal Z :
  (forall i r, (i < p)%nat -> (r < K)%nat -> mprod K Z gV i r = gM i r) <-> normal_eq p K C Z A B.
Proof.
  split; intros H i r Hi Hr.
  - rewrite gram_residual, H by auto. ring.
  - specialize (H i r Hi Hr). rewrite gram_residual in H. lra.
Qed.

(** A vector annihilated by V = A A^T is annihilated by A^T. *)
Lemma gram_kernel e : (forall a, (a < K)%nat -> sum K (fun j => e j * gV a j) = 0) ->
  forall c, (c < C)%nat -> sum K (fun a => e a * A a c) = 0.
Proof.
  intros H.
  assert (Z : sum C (fun c => sum K (fun a => e a * A a c) ^ 2) = 0).
  { transitivity (sum K (fun a => e a * sum K (fun j => e j * gV a j))).
    - unfold gV.
      transitivity (sum K (fun a => sum K (fun j => sum C (fun c => e a * A a c * (e j * A j c))))).
      + transitivity (sum C (fun c => sum K (fun a => sum K (fun j => e a * A a c * (e j * A j c))))).
        * apply sum_ext. intros c Hc. rewrite <- sum_mul. ring.
        * rewrite sum_swap. apply sum_ext. intros a Ha. apply sum_swap.
      + apply sum_ext. intros a Ha. rewrite <- sum_scal_l. apply sum_ext. intros j Hj.
        rewrite <- !sum_scal_l. apply sum_ext. intros; ring.
    - apply sum_zero. intros a Ha. rewrite H by auto. ring. }
  intros c Hc.
  assert (E : sum K (fun a => e a * A a c) ^ 2 = 0).
  { apply (@sum_nonneg_zero C (fun c => sum K (fun a => e a * A a c) ^ 2)); auto. intros. apply pow2_ge_0. }
  apply Rsqr_0_uniq. unfold Rsqr. rewrite <- E. ring.
Qed.

(** The least-squares solution of  Z V = M  solves it exactly, whatever the rank of A. *)
Lemma gram_exact Z : normal_eq p K K Z gV gM ->
  forall i r, (i < p)%nat -> (r < K)%nat -> mprod K Z gV i r = gM i r.
Proof.
  intros H i r Hi Hr. set (e := fun j => mprod K Z gV i j - gM i j).
  assert (He : forall a, (a < K)%nat -> sum K (fun j => e j * gV a j) = 0) by (intros; apply H; auto).
  pose proof (gram_kernel He) as Hk.
  assert (Z0 : sum K (fun j => e j * e j) = 0).
  { transitivity (sum K (fun j => e j * mprod K Z gV i j) - sum K (fun j => e j * gM i j)).
    { rewrite <- sum_minus. apply sum_ext. intros; unfold e; ring. }
    assert (E1 : sum K (fun j => e j * mprod K Z gV i j) = 0).
    { unfold mprod. transitivity (sum K (fun k => Z i k * sum K (fun j => e j * gV k j))).
      - transitivity (sum K (fun j => sum K (fun k => Z i k * (e j * gV k j)))).
        + apply sum_ext. intros. rewrite <- sum_scal_l. apply sum_ext. intros; ring.
        + rewrite sum_swap. apply sum_ext. intros. now rewrite sum_scal_l.
      - apply sum_zero. intros. rewrite He by auto. ring. }
    assert (E2 : sum K (fun j => e j * gM i j) = 0).
    { unfold gM. transitivity (sum C (fun c => B i c * sum K (fun j => e j * A j c))).
      - transitivity (sum K (fun j => sum C (fun c => B i c * (e j * A j c)))).
        + apply sum_ext. intros. rewrite <- sum_scal_l. apply sum_ext. intros; ring.
        + rewrite sum_swap. apply sum_ext. intros. now rewrite sum_scal_l.
      - apply sum_zero. intros. rewrite Hk by auto. ring. }
    rewrite E1, E2. ring. }
  assert (E : e r * e r = 0).
  { apply (@sum_nonneg_zero K (fun j => e j * e j)); auto. intros. apply Rle_0_sqr. }
  apply Rmult_integral in E. unfold e in E. destruct E; lra.
Qed.

Lemma gram_optimal Z : normal_eq p K K Z gV gM ->
  forall Y, dist2 p C (mprod K Z A) B <= dist2 p C (mprod K Y A) B.
Proof. intros H. apply ls_optimal. apply gram_normal. now apply gram_exact. Qed.
End Gram.
