(** Vocabulary for C81. *)
From Verif Require Export BestSpec.
Set Implicit Arguments.
Unset Strict Implicit.
(** Draws have the shape that is asked for. *)
Definition rand_ok (draw : nat -> list nat -> nd) : Prop := forall k sh, wf (draw k sh) /\ shape (draw k sh) = sh.
