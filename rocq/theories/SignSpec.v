(** Vocabulary for the sign scores. *)
From Verif Require Export Spec.
Set Implicit Arguments.
Unset Strict Implicit.
Local Open Scope R_scope.

(** What numpy.linalg.lstsq documents for its first result, in exact arithmetic: D minimises |A D - B|, and of all
    minimisers has the smallest norm. *)
Definition is_lstsq (n k m : nat) (A B D : nd) : Prop :=
  is_mat k m D /\
  (forall E, dist2 n m (mprod k (mget A) (mget D)) (mget B) <= dist2 n m (mprod k (mget A) E) (mget B)) /\
  (forall E, dist2 n m (mprod k (mget A) E) (mget B) <= dist2 n m (mprod k (mget A) (mget D)) (mget B) ->
     frob2 k m (mget D) <= frob2 k m E).
Definition lstsq_contract (lstsq : nd -> nd -> res nd) : Prop :=
  forall n k m A B, is_mat n k A -> is_mat n m B -> exists D, lstsq A B = Ok D /\ is_lstsq n k m A B D.

(** No column is a combination of the others. *)
Definition independent_columns (n k : nat) (A : nd) : Prop :=
  forall c, (forall i, (i < n)%nat -> sum k (fun r => mget A i r * c r) = 0) -> forall r, (r < k)%nat -> c r = 0.

(** V is U with column r multiplied by s r. *)
Definition column_signs (n k : nat) (s : nat -> R) (U V : nd) : Prop :=
  (forall r, (r < k)%nat -> s r = 1 \/ s r = -1) /\
  forall i r, (i < n)%nat -> (r < k)%nat -> mget V i r = mget U i r * s r.

(** Sum of the squares, each with the sign of its root *)
Definition signed_sum (m : nat) (row : nat -> R) : R := sum m (fun j => row j * Rabs (row j)).
