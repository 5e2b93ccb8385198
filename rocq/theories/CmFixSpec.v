(** Vocabulary for C104: where the iteration of CMTF_ALS stands still. *)
From Verif Require Export FixSpec CMTFSpec.
Set Implicit Arguments.
Unset Strict Implicit.
Local Open Scope R_scope.

(** No N x K matrix has a smaller value than U, and none that is as good is smaller. *)
Definition smallest_minimiser (N K : nat) (f : nd -> R) (U : nd) : Prop :=
  (forall W, is_mat N K W -> f U <= f W) /\
  (forall W, is_mat N K W -> f W <= f U -> frob2 N K (mget U) <= frob2 N K (mget W)).
(** The value does not change to first order when U moves in any direction D. *)
Definition flat_at (N K : nat) (f : nd -> R) (U : nd) : Prop := forall D, derivable_pt_lim (fun t => f (step_to N K U D t)) 0 0.

(** The objective as a function of the factor of mode m, and of the factor that belongs to matrix i alone *)
Definition in_mode (K : nat) (X : nd) (Us : list nd) (ms : list nat) (Vs Ys : list nd) (m : nat) (W : nd) : R :=
  coupled_loss K X (with_factor m W Us) unit_weights ms Vs Ys.
Definition in_matrix (K : nat) (X : nd) (Us : list nd) (ms : list nat) (Vs Ys : list nd) (i : nat) (W : nd) : R :=
  coupled_loss K X Us unit_weights ms (with_factor i W Vs) Ys.

(** Given all the others, each of these matrices is the smallest of the best; each can be moved without a first-order change. *)
Definition coupled_still (K : nat) (X : nd) (Us : list nd) (ms : list nat) (Vs Ys : list nd) : Prop :=
  (forall m, (m < length (shape X))%nat ->
     smallest_minimiser (nth m (shape X) 0%nat) K (in_mode K X Us ms Vs Ys m) (nth m Us m0)) /\
  (forall i, (i < length ms)%nat ->
     smallest_minimiser (ncols (nth i Ys m0)) K (in_matrix K X Us ms Vs Ys i) (nth i Vs m0)).
Definition coupled_flat (K : nat) (X : nd) (Us : list nd) (ms : list nat) (Vs Ys : list nd) : Prop :=
  (forall m, (m < length (shape X))%nat -> flat_at (nth m (shape X) 0%nat) K (in_mode K X Us ms Vs Ys m) (nth m Us m0)) /\
  (forall i, (i < length ms)%nat -> flat_at (ncols (nth i Ys m0)) K (in_matrix K X Us ms Vs Ys i) (nth i Vs m0)).
