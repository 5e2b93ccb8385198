(** Vocabulary for the unused update of CMTF_ALS (C92), independent of its code. *)
From Verif Require Export CMTFSpec.
Set Implicit Arguments.
Unset Strict Implicit.
Local Open Scope R_scope.

(** No singular value is so small beside another that numpy.linalg.pinv takes it for zero. *)
Definition well_scaled (n m : nat) (A : nd) : Prop :=
  forall U Sv Vh, is_svd n m A U Sv Vh -> forall r q, (r < Nat.min n m)%nat -> (q < Nat.min n m)%nat ->
    vget Sv r = 0 \/ / 10 ^ 15 * vget Sv q < vget Sv r.

(** U has the columns of Z scaled to length 1. *)
Definition unit_columns (n K : nat) (Z U : nd) : Prop :=
  is_mat n K U /\
  forall i r, (i < n)%nat -> (r < K)%nat -> mget U i r * clen Z r = mget Z i r.

(** X_[m] and Y side by side, explained by Z times the Khatri-Rao product and V one above the other *)
Definition joint_sse (K : nat) (X : nd) (Us : list nd) (m : nat) (V Y Z : nd) : R :=
  sse X (with_factor m Z Us) unit_weights K + mat_sse K Z V Y.
