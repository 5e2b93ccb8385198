(** Vocabulary for constrained CMTF_ALS fits and for malformed couplings (C90, C91), independent of the code. *)
From Verif Require Export CoupledSpec ConstrainedSpec SignSpec.
Set Implicit Arguments.
Unset Strict Implicit.
Local Open Scope R_scope.

(** z names mode m of n: counted from the front or, negative, from the end. *)
Definition names (n : nat) (z : Z) (m : nat) : Prop := (m < n)%nat /\ (z = Z.of_nat m \/ z = Z.of_nat m - Z.of_nat n)%Z.
(** z names no mode. *)
Definition no_mode (n : nat) (z : Z) : Prop := forall m, ~ names n z m.

(** The Y_i are matrices; the random matrices V_i have one row for every column of Y_i and no column of zeros. *)
Definition drawn (K : nat) (Ys Vs : list nd) : Prop :=
  forall i, (i < length Ys)%nat ->
    is_mat (nrows (nth i Ys m0)) (ncols (nth i Ys m0)) (nth i Ys m0) /\
    is_mat (ncols (nth i Ys m0)) K (nth i Vs m0) /\
    forall r, (r < K)%nat -> clen (nth i Vs m0) r <> 0.

(** Numbers of rows that cannot be told apart from the right number by subtracting: NumPy repeats a single row. *)
Definition hidden (rows n : nat) : Prop := rows = n \/ rows = 1%nat \/ n = 1%nat.

(** The same state with further coupled matrices appended *)
Definition with_more (Y' : list nd) (s : cmtf_state) : cmtf_state :=
  {| cm_cp := cm_cp s; cm_Y := cm_Y s ++ Y'; cm_modes := cm_modes s; cm_V := cm_V s |}.
