(** Vocabulary for C107: how far the iterations of CMTF_ALS move and what they tend to. *)
From Verif Require Export LimitSpec CmFixSpec.
Set Implicit Arguments.
Unset Strict Implicit.
Local Open Scope R_scope.

(** Squared distance between two coupled models: that between their tensors and those between their matrices *)
Definition coupled_change2 (K : nat) (X : nd) (ms : list nat) (Ys Us Vs Us' Vs' : list nd) : R :=
  change2 K X Us Us' +
  sum (length ms) (fun i => sum (nrows (nth i Ys m0)) (fun x => sum (ncols (nth i Ys m0)) (fun y =>
    (sum K (fun r => mget (nth (nth i ms 0%nat) Us m0) x r * mget (nth i Vs m0) y r) -
     sum K (fun r => mget (nth (nth i ms 0%nat) Us' m0) x r * mget (nth i Vs' m0) y r)) ^ 2))).

(** None of the factors and of the matrices' own factors can be replaced with gain while all others are kept. *)
Definition coupled_best (K : nat) (X : nd) (Us : list nd) (ms : list nat) (Vs Ys : list nd) : Prop :=
  (forall m W, (m < length (shape X))%nat -> is_mat (nth m (shape X) 0%nat) K W ->
     coupled_loss K X Us unit_weights ms Vs Ys <= in_mode K X Us ms Vs Ys m W) /\
  (forall i W, (i < length ms)%nat -> is_mat (ncols (nth i Ys m0)) K W ->
     coupled_loss K X Us unit_weights ms Vs Ys <= in_matrix K X Us ms Vs Ys i W).
