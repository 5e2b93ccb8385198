(** Vocabulary for C79: the same data written in other units and in another order. *)
From Verif Require Export QualitySpec.
Set Implicit Arguments.
Unset Strict Implicit.
Local Open Scope R_scope.

(** f puts 0, ..., n-1 in some order *)
Definition permutes (n : nat) (f : nat -> nat) : Prop :=
  (forall i, (i < n)%nat -> (f i < n)%nat) /\
  (forall i j, (i < n)%nat -> (j < n)%nat -> f i = f j -> i = j).

(** The position of entry idx when the entries of mode n are reordered by sg n *)
Fixpoint moved (sg : nat -> nat -> nat) (idx : list nat) : list nat :=
  match idx with
  | [] => []
  | i :: t => sg 0%nat i :: moved (fun n => sg (S n)) t
  end.

(** X' is c X with the entries of every mode n reordered by sg n. *)
Definition same_data (c : R) (sg : nat -> nat -> nat) (X X' : nd) : Prop :=
  shape X' = shape X /\
  (forall n, (n < length (shape X))%nat -> permutes (nth n (shape X) 0%nat) (sg n)) /\
  (forall idx, valid idx (shape X) -> get X' (moved sg idx) = c * get X idx).

(** The factors Us' are the factors Us with rows reordered by sg, components reordered by pi
    and matrix n multiplied by a n. *)
Definition same_factors (K : nat) (a : nat -> R) (sg : nat -> nat -> nat) (pi : nat -> nat)
    (Us Us' : list nd) : Prop :=
  length Us' = length Us /\
  forall n i r, (n < length Us)%nat -> (i < nrows (nth n Us m0))%nat -> (r < K)%nat ->
    mget (nth n Us' m0) (sg n i) (pi r) = a n * mget (nth n Us m0) i r.

(** a 0 * ... * a (N-1) *)
Fixpoint scale_prod (N : nat) (a : nat -> R) : R :=
  match N with O => 1 | S k => a 0%nat * scale_prod k (fun n => a (S n)) end.

(** A call of fit without constraints or penalty, from a usable start, with loggers and checkpoints that fit *)
Definition plain_call (env : cp_env) (cs : cp_settings) (K : nat) (cf : config) (draws : list nd) (X : nd) (budget : Z)
    (arg : init_arg) (ds : dstate cp_state) : Prop :=
  cs_rank cs = K /\ cs_ridge cs = None /\ svd_works_on K K (env_svd env) /\ data_ok X /\ usable_start env cs K X draws arg /\
  cp_last (ds_num ds) = None /\ free_flags (cp_nn (ds_num ds)) (length (shape X)) /\
  free_flags (cp_orth (ds_num ds)) (length (shape X)) /\ (0 < budget)%Z /\
  (forall lg, In lg (ds_logs ds) -> exists k, code_logger env cs k lg) /\ checkpoints_fit cf budget ds.
