(** Vocabulary for unconstrained Parafac2_ALS fits to any data (C75, C76). *)
From Verif Require Export Parafac2Spec QualitySpec.
Set Implicit Arguments.
Unset Strict Implicit.
Local Open Scope R_scope.

(** numpy's singular value decomposition works on the matrices that occur: no slice is without columns. *)
Definition workable (svd : nd -> res (nd * nd * nd)) (K : nat) (Xs : list nd) : Prop :=
  forall k, (k < length Xs)%nat -> (0 < width Xs k)%nat /\ svd_works_on (width Xs k) K svd.

(** Slice k holds nothing but zeros. *)
Definition zero_slice (nI : nat) (Xs : list nd) (k : nat) : Prop :=
  forall i j, (i < nI)%nat -> (j < width Xs k)%nat -> mget (nth k Xs m0) i j = 0.

(** One of the loggers of logger.py:61-79 for PARAFAC2, with anything logged before *)
Definition p2_code_logger (ps : p2_settings) (k : logger_kind) (lg : logger p2_state) : Prop :=
  lg_class lg = kind_class k /\ lg_metric lg = p2_metric ps k.

(** sum_k ||X_k P_k - A diag(C[k]) B^T||^2, the error of the inner CP problem *)
Definition projected_err (K nI : nat) (A B C : nd) (Xs Ps : list nd) : R :=
  sum (length Xs) (fun k => dist2 nI K (fun i q => sum K (fun r => mget C k r * mget A i r * mget B q r))
                                       (fun i q => projected_entry Xs Ps i q k)).

(** Entry (a, b) of B_k^T B_k with B_k = P B for a projection P with w rows *)
Definition slice_gram (K w : nat) (P B : nd) (a b : nat) : R :=
  sum w (fun j => mprod K (mget P) (mget B) j a * mprod K (mget P) (mget B) j b).

(** An unconstrained decomposer with a random start: settings, data, draws and numpy's decompositions *)
Record plain_fit (env : p2_env) (ps : p2_settings) (K nI : nat) (draws Xs : list nd) : Prop :=
  { pl_init : lower (ps_init ps) = "random"%string;
    pl_nn : ps_nn ps = [false; false; false];
    pl_orth : ps_orth ps = None \/ ps_orth ps = Some [false; false; false];
    pl_rank : ps_rank ps = K;
    pl_ridge : ps_ridge ps = None;
    pl_pos : (0 < nI)%nat /\ (0 < K)%nat;
    pl_data : slices_ok nI Xs;
    pl_draws : draws_ok K nI Xs draws;
    pl_qr : forall k, (k < length Xs)%nat -> qr_works_on (width Xs k) K (env_qr (pe_cp env));
    pl_svd : svd_works_on K K (env_svd (pe_cp env));
    pl_work : workable (env_svd (pe_cp env)) K Xs }.
(** The loop's surroundings: a budget, the code's loggers, a checkpoint file without anything in the way *)
Record plain_run (ps : p2_settings) (cf : config) (budget : Z) (ds : dstate p2_state) : Prop :=
  { pn_budget : (0 < budget)%Z;
    pn_logs : forall lg, In lg (ds_logs ds) -> exists k, p2_code_logger ps k lg;
    pn_print : cf_print cf <> 0%Z;
    pn_ckpts : checkpoints_fit cf budget ds }.

(** All slices have at least K columns. *)
Definition wide (K : nat) (Xs : list nd) : Prop := forall k, (k < length Xs)%nat -> (K <= width Xs k)%nat.
