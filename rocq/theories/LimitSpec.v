(** Vocabulary for C105: how far the iterations of CP_ALS move and what they tend to. *)
From Verif Require Export FixSpec.
Set Implicit Arguments.
Unset Strict Implicit.
Local Open Scope R_scope.

(** Squared distance between the tensors of two models of the size of X *)
Definition change2 (K : nat) (X : nd) (Us Vs : list nd) : R :=
  sumf (indices (shape X)) (fun idx => (cp_entry Us unit_weights K idx - cp_entry Vs unit_weights K idx) ^ 2).

(** Every entry of every factor tends to that of Ls. *)
Definition tends (K : nat) (Us : nat -> list nd) (Ls : list nd) : Prop :=
  forall n i r, (n < length Ls)%nat -> (i < nrows (nth n Ls m0))%nat -> (r < K)%nat ->
    Un_cv (fun k => mget (nth n (Us k) m0) i r) (mget (nth n Ls m0) i r).

(** Given the other factors, no other matrix in place of factor m has a smaller error. *)
Definition best_in (K : nat) (X : nd) (Us : list nd) (m : nat) : Prop :=
  forall W, is_mat (nth m (shape X) 0%nat) K W -> sse X Us unit_weights K <= sse X (with_factor m W Us) unit_weights K.
