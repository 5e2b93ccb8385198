(** Vocabulary for C113: data without a best model of rank two. *)
From Verif Require Export CPSpec CompareSpec.
Set Implicit Arguments.
Unset Strict Implicit.
Local Open Scope R_scope.

(** e0 e0 e1 + e0 e1 e0 + e1 e0 e0 *)
Definition W3 : nd := mk [2; 2; 2]%nat [0; 1; 1; 0; 1; 0; 0; 0].

(** Length of component r as a tensor *)
Definition comp_length (Us : list nd) (w : nat -> R) (r : nat) : R := Rabs (w r) * sqrt (comp_inner Us r r).

(** n (1, 1/n) (1, 1/n) (1, 1/n) - n e0 e0 e0 *)
Definition near_W3 (n : R) : list nd :=
  [mk [2; 2]%nat [n; - n; 1; 0]; mk [2; 2]%nat [1; 1; / n; 0]; mk [2; 2]%nat [1; 1; / n; 0]].

(** Errors at which components of length L or less are ruled out *)
Definition too_good (L e : R) : Prop := (1472 * L ^ 4) ^ 2 * e < 1.
