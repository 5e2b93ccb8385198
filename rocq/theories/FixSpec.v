(** Vocabulary for C80: where the iteration of CP_ALS stands still. *)
From Verif Require Export QualitySpec SymSpec.
Set Implicit Arguments.
Unset Strict Implicit.
Local Open Scope R_scope.

(** Given the other factors, no other matrix in place of factor m has a smaller error, and none that is as good is smaller. *)
Definition smallest_best (K : nat) (X : nd) (Us : list nd) (m : nat) : Prop :=
  let N := nth m (shape X) 0%nat in
  (forall W, is_mat N K W -> sse X Us unit_weights K <= sse X (with_factor m W Us) unit_weights K) /\
  (forall W, is_mat N K W -> sse X (with_factor m W Us) unit_weights K <= sse X Us unit_weights K ->
     frob2 N K (mget (nth m Us m0)) <= frob2 N K (mget W)).

(** U + t D, and: the error does not change to first order when factor m moves in any direction D. *)
Definition step_to (N K : nat) (U D : nd) (t : R) : nd := tab2 N K (fun i r => mget U i r + t * mget D i r).
Definition stationary_in (K : nat) (X : nd) (Us : list nd) (m : nat) : Prop :=
  forall D, derivable_pt_lim
    (fun t => sse X (with_factor m (step_to (nth m (shape X) 0%nat) K (nth m Us m0) D t) Us) unit_weights K) 0 0.

(** All entries of all factors are zero. *)
Definition all_zero (K : nat) (Us : list nd) : Prop :=
  forall n i r, (n < length Us)%nat -> (i < nrows (nth n Us m0))%nat -> (r < K)%nat -> mget (nth n Us m0) i r = 0.
(** The components of Us without their mode-0 factor are orthogonal to the data. *)
Definition orthogonal_start (K : nat) (X : nd) (Us : list nd) : Prop :=
  forall i r, (i < nth 0 (shape X) 0%nat)%nat -> (r < K)%nat -> mttkrp_entry X Us 0 i r = 0.
