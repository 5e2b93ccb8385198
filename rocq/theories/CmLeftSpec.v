(** Vocabulary for C106: what a normalisation that raises leaves behind. *)
From Verif Require Export CMTFSpec.
Set Implicit Arguments.
Unset Strict Implicit.
Local Open Scope R_scope.

(** V' is V with its columns multiplied by the lengths of the columns of U. *)
Definition times_lengths (K : nat) (U V V' : nd) : Prop :=
  is_mat (nrows V) K V' /\ forall b r, (b < nrows V)%nat -> (r < K)%nat -> mget V' b r = mget V b r * clen U r.
(** U' is U with its columns divided by their lengths (plus eps). *)
Definition over_lengths (eps : R) (K : nat) (U U' : nd) : Prop :=
  is_mat (nrows U) K U' /\ forall i r, (i < nrows U)%nat -> (r < K)%nat -> mget U' i r = mget U i r / (clen U r + eps).
