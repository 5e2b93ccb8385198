(** Vocabulary for the property of complete CMTF_ALS fits (C84), independent of its code. *)
From Verif Require Export QualitySpec CMTFSpec.
Set Implicit Arguments.
Unset Strict Implicit.
Local Open Scope R_scope.

(** One matrix Y_i for every coupling mode ms_i, with as many rows as X is long along that mode, and a random matrix V_i with
    one row for every column of Y_i and no column of zeros *)
Definition coupled_start (K : nat) (X : nd) (ms : list nat) (Ys Vs : list nd) : Prop :=
  length Ys = length ms /\ (length ms <= length Vs)%nat /\
  forall i, (i < length ms)%nat ->
    (nth i ms 0 < length (shape X))%nat /\
    is_mat (nth (nth i ms 0) (shape X) 0)%nat (ncols (nth i Ys m0)) (nth i Ys m0) /\
    is_mat (ncols (nth i Ys m0)) K (nth i Vs m0) /\
    forall r, (r < K)%nat -> clen (nth i Vs m0) r <> 0.

(** One of the loggers of logger.py:61-79 *)
Definition coupled_logger (env : cp_env) (k : logger_kind) (lg : logger cmtf_state) : Prop :=
  lg_class lg = kind_class k /\ lg_metric lg = cmtf_metric env k.
