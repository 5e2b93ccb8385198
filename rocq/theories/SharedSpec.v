(** Vocabulary for Kruskal tensors whose arrays are shared (C98). *)
From Verif Require Export CPShared ViewSim.
Set Implicit Arguments.
Unset Strict Implicit.
Local Open Scope R_scope.

(** The arrays of a Kruskal tensor: all in memory, no two of them the same *)
Definition own_arrays (h : heap) (r : kref) : Prop :=
  NoDup (kr_w r :: kr_fms r) /\ Forall (fun a => (a < length h)%nat) (kr_w r :: kr_fms r).
(** The orthonormality flag of a mode; None means no mode *)
Definition orth_mode (c : option (list bool)) (m : nat) : bool := match c with Some l => nth m l false | None => false end.
