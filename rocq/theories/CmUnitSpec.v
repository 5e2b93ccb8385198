(** Vocabulary for C112: coupled data in other units, components in another order. *)
From Verif Require Export SymSpec CoupledSpec.
Set Implicit Arguments.
Unset Strict Implicit.
Local Open Scope R_scope.

(** Each matrix of Ys' is c times the matrix of Ys. *)
Definition scaled_matrices (c : R) (Ys Ys' : list nd) : Prop :=
  length Ys' = length Ys /\
  forall i, (i < length Ys)%nat -> shape (nth i Ys' m0) = shape (nth i Ys m0) /\
    forall a b, (a < nrows (nth i Ys m0))%nat -> (b < ncols (nth i Ys m0))%nat -> mget (nth i Ys' m0) a b = c * mget (nth i Ys m0) a b.

(** State t is state s with all data multiplied by c, the components in the order pi, factor n multiplied by a n and the factor of
    coupled matrix i by d i. *)
Record rescaled (K : nat) (c : R) (pi : nat -> nat) (a d : nat -> R) (s t : cmtf_state) : Prop :=
  { re_data : same_data c (fun _ i => i) (cp_X (cm_cp s)) (cp_X (cm_cp t));
    re_norm : cp_norm (cm_cp t) ^ 2 = c ^ 2 * cp_norm (cm_cp s) ^ 2;
    re_Y : scaled_matrices c (cm_Y s) (cm_Y t);
    re_fac : same_factors K a (fun _ i => i) pi (cm_fms s) (cm_fms t);
    re_V : same_factors K d (fun _ i => i) pi (cm_V s) (cm_V t);
    re_w : forall r, (r < K)%nat -> vget (kt_w (cm_dec t)) (pi r) = vget (kt_w (cm_dec s)) r }.

(** The factors of a model and of each coupled matrix are scaled like the data. *)
Definition scales_match (N : nat) (ms : list nat) (c : R) (a d : nat -> R) : Prop :=
  scale_prod N a = c /\ (forall n, (n < N)%nat -> a n <> 0) /\ forall i, (i < length ms)%nat -> a (nth i ms 0%nat) * d i = c.

(** A loop of iterations is about to begin: x is the last error, loggers and checkpoints fit. *)
Record loop_begins (env : cp_env) (K : nat) (cf : config) (x : R) (ds : dstate cmtf_state) : Prop :=
  { lb_rank : kt_rank (cm_dec (ds_num ds)) = K;
    lb_it : ds_it ds = 0%Z;
    lb_max : (0 < ds_max ds)%Z;
    lb_rel : ds_rel ds = PInf;
    lb_prev : ds_prev ds = Fin x;
    lb_logs : forall lg, In lg (ds_logs ds) -> exists k, coupled_logger env k lg;
    lb_files : checkpoints_fit cf (ds_max ds) ds }.
