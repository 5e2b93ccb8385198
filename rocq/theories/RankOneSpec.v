(** Vocabulary for C111: rank-one fits of non-negative data. *)
From Verif Require Export PowerSpec PenFixSpec TuckerSpec CPConstrained.
Set Implicit Arguments.
Unset Strict Implicit.
Local Open Scope R_scope.

(** No entry of the data, of the factors is negative. *)
Definition nonneg_data (X : nd) : Prop := forall idx, valid idx (shape X) -> 0 <= get X idx.
Definition nonneg_factors (K : nat) (Us : list nd) : Prop :=
  forall n i r, (n < length Us)%nat -> (i < nrows (nth n Us m0))%nat -> (r < K)%nat -> 0 <= mget (nth n Us m0) i r.
(** No mode is asked to be orthonormal; [nn] says which are asked to be non-negative. *)
Definition only_nonneg (s : cp_state) (nn : nat -> bool) : Prop :=
  forall m, (m < length (shape (cp_X s)))%nat -> flag (cp_nn s) m (nn m) /\ flag (cp_orth s) m false.
(** There is a non-negative penalty for every mode, or none at all. *)
Definition penalised_by (cs : cp_settings) (N : nat) (lam : nat -> R) : Prop :=
  forall m, (m < N)%nat -> penalty cs m (lam m) /\ 0 <= lam m.

(** All entries of all factors but the first are positive (random starts of non-negative modes are absolute values of normal draws). *)
Definition positive_start (Us : list nd) : Prop :=
  forall n i, (0 < n < length Us)%nat -> (i < nrows (nth n Us m0))%nat -> 0 < mget (nth n Us m0) i 0.
(** Absolute values of all entries *)
Definition nd_abs (A : nd) : nd := mk (shape A) (map Rabs (data A)).
