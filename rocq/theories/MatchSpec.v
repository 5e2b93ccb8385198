(** Vocabulary for what a factor match score says about the components (C87), independent of the code. *)
From Verif Require Export MetricsSpec CPSpec.
Set Implicit Arguments.
Unset Strict Implicit.
Local Open Scope R_scope.

(** Squared distance of the rank-one tensors a T_c and b E_d *)
Definition comp_dist2 (a : R) (Ts : list nd) (c : nat) (b : R) (Es : list nd) (d : nat) : R :=
  sumf (indices (rows Ts)) (fun idx => (a * colprod Ts idx c - b * colprod Es idx d) ^ 2).
(** ... of T_c and sg E_d relative to the square of the longer one *)
Definition rel_dist2 (Ts : list nd) (c : nat) (sg : R) (Es : list nd) (d : nat) : R :=
  comp_dist2 1 Ts c sg Es d / (Rmax (cweight Ts c) (cweight Es d)) ^ 2.
(** Inner product of the two rank-one tensors *)
Definition comp_cross (Ts Es : list nd) (c d : nat) : R :=
  sumf (indices (rows Ts)) (fun idx => colprod Ts idx c * colprod Es idx d).
Definition signs (K : nat) (sg : nat -> R) : Prop := forall c, (c < K)%nat -> sg c = 1 \/ sg c = -1.
(** What the regularisation takes away at most, when N matrices have columns of length at least l *)
Definition kept_share (l : R) (N : nat) : R := (l / (l + tiny)) ^ (2 * N).
