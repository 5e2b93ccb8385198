(** Vocabulary for C110: rank-one CP_ALS on matrices. *)
From Verif Require Export LimitSpec BestSpec.
Set Implicit Arguments.
Unset Strict Implicit.
Local Open Scope R_scope.

(** Coordinates of the single column of F along the left singular vector U[:, j] and the right singular vector Vh[j, :];
    squared length of the column *)
Definition left_coord (U F : nd) (j : nat) : R := sum (nrows F) (fun i => mget U i j * mget F i 0).
Definition right_coord (Vh F : nd) (j : nat) : R := sum (nrows F) (fun i => mget Vh j i * mget F i 0).
Definition col2 (F : nd) : R := sum (nrows F) (fun i => mget F i 0 ^ 2).

(** Singular values below the largest one are at most q times as large as that. *)
Definition gap_ratio (p : nat) (S : nd) (q : R) : Prop :=
  forall j, (j < p)%nat -> vget S j = vget S 0 \/ vget S j <= q * vget S 0.
