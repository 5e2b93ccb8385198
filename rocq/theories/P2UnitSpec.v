(** Vocabulary for PARAFAC2 models in other units and with the components in another order (C101). *)
From Verif Require Export PenalisedSpec SymSpec.
Set Implicit Arguments.
Unset Strict Implicit.
Local Open Scope R_scope.

(** Neither constraints nor penalties *)
Definition free_settings (ps : p2_settings) : Prop := ps_nn ps = [false; false; false] /\ ps_ridge ps = None.

(** Y_k = c X_k *)
Definition multiplied (nI : nat) (c : R) (Xs Ys : list nd) : Prop :=
  length Ys = length Xs /\ forall k, (k < length Xs)%nat -> width Ys k = width Xs k /\
    forall i j, (i < nI)%nat -> (j < width Xs k)%nat -> mget (nth k Ys m0) i j = c * mget (nth k Xs m0) i j.

(** Component r of the one model is component (pi r) of the other, A, B and C are multiplied by a, b and d, and row q of the
    blueprint is row (rho q). *)
Record other_units (K nI n : nat) (a b d : R) (rho pi : nat -> nat) (s t : p2_state) : Prop :=
  { ou_A : forall i r, (i < nI)%nat -> (r < K)%nat -> mget (p2_A t) i (pi r) = a * mget (p2_A s) i r;
    ou_B : forall q r, (q < K)%nat -> (r < K)%nat -> mget (p2_B t) (rho q) (pi r) = b * mget (p2_B s) q r;
    ou_C : forall k r, (k < n)%nat -> (r < K)%nat -> mget (p2_C t) k (pi r) = d * mget (p2_C s) k r }.

(** The columns of the projections in the order rho, with the sign sg *)
Definition other_columns (K : nat) (Xs : list nd) (sg : R) (rho : nat -> nat) (Ps Qs : list nd) : Prop :=
  forall k j q, (k < length Xs)%nat -> (j < width Xs k)%nat -> (q < K)%nat ->
    mget (nth k Qs m0) j (rho q) = sg * mget (nth k Ps m0) j q.
