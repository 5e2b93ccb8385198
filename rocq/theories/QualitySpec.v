(** Vocabulary for the properties of the quality measures and of complete CP_ALS fits (C70-C72). *)
From Verif Require Export CPSpec CMTFSpec FitSpec Quality.
Set Implicit Arguments.
Unset Strict Implicit.
Local Open Scope R_scope.

(** ||X||^2 and the number of entries *)
Definition energy (X : nd) : R := sumf (indices (shape X)) (fun idx => get X idx ^ 2).
Definition entry_count (X : nd) : R := INR (length (indices (shape X))).

(** No mode is constrained: no list was passed, or one False per mode. *)
Definition free_flags (c : option (list bool)) (n : nat) : Prop := c = None \/ c = Some (repeat false n).

(** numpy.linalg.svd(M)[0] of a matrix with r rows: an r x r matrix with orthonormal columns *)
Definition left_vectors (svd_u : nd -> res nd) : Prop :=
  forall n m A, is_mat n m A -> exists U, svd_u A = Ok U /\ is_mat n n U /\ orth_cols n n (mget U).

(** A start that fits the data: random matrices of the right sizes, left singular vectors of data whose sides
    all have at least K entries, or a Kruskal tensor of the right shape. *)
Definition usable_start (env : cp_env) (cs : cp_settings) (K : nat) (X : nd) (draws : list nd) (arg : init_arg) : Prop :=
  (lower (cs_init cs) = "random"%string /\ arg = NoArg /\ factors_ok K X draws) \/
  (lower (cs_init cs) = "svd"%string /\ arg = NoArg /\ left_vectors (env_svd_u env) /\ (0 < K)%nat /\
   forall n, In n (shape X) -> (K <= n)%nat) \/
  (lower (cs_init cs) = "precomputed"%string /\ exists d, arg = DecArg d /\ factors_ok K X (kt_fms d) /\
   is_vec K (kt_w d) /\ kt_rank d = K).

(** One of the loggers of logger.py:61-79, with anything logged before *)
Definition code_logger (env : cp_env) (cs : cp_settings) (k : logger_kind) (lg : logger cp_state) : Prop :=
  lg_class lg = kind_class k /\ lg_metric lg = cp_metric env cs k.

(** The measures in terms of the sum of squared errors [e]: mean, root mean, share of ||X||^2 explained *)
Definition measure (X : nd) (k : logger_kind) (e : R) : R :=
  match k with
  | KLoss | KSSE => e
  | KMSE => e / entry_count X
  | KRMSE => sqrt (e / entry_count X)
  | KExplained => 1 - e / energy X
  end.

(** The same measures by the names of the loggers' classes *)
Definition named_measure (X : nd) (name : string) (e : R) : option R :=
  if String.eqb name "LossLogger" then Some e
  else if String.eqb name "SSELogger" then Some e
  else if String.eqb name "MSELogger" then Some (e / entry_count X)
  else if String.eqb name "RMSELogger" then Some (sqrt (e / entry_count X))
  else if String.eqb name "ExplainedVarianceLogger" then Some (1 - e / energy X)
  else None.

(** Where checkpoints go, if they are written: a file without anything in the way *)
Definition checkpoints_fit {St : Type} (cf : config) (budget : Z) (ds : dstate St) : Prop :=
  (cf_freq cf < 0)%Z \/
  ((0 < cf_freq cf)%Z /\ exists f, ds_file ds = Some f /\ ready_file (classes_of (ds_logs ds)) f /\
     forall i, (0 <= i <= budget)%Z -> ~ has_ckpt f i).

(** Later entries are not larger (not smaller). *)
Definition falling (vs : list R) : Prop := forall i j, (i <= j < length vs)%nat -> nth j vs 0 <= nth i vs 0.
Definition rising (vs : list R) : Prop := forall i j, (i <= j < length vs)%nat -> nth i vs 0 <= nth j vs 0.

(** Explained variance should go up, the other measures down. *)
Definition goes_up (k : logger_kind) : bool := match k with KExplained => true | _ => false end.
(** What a fit of [n] iterations has made of a logger [a]: numbers 0..n-1 and as many values, monotone, not negative, and at most 1
    for the explained variance *)
Definition recorded_fit (env : cp_env) (cs : cp_settings) (X : nd) (n : nat) (a b : logger cp_state) : Prop :=
  lg_class b = lg_class a /\ lg_its b = lg_its a ++ its_of 0 n /\
  forall k, code_logger env cs k a -> (k = KExplained -> energy X <> 0) ->
  exists vs, lg_vals b = lg_vals a ++ map Fin vs /\ length vs = n /\ (if goes_up k then rising vs else falling vs) /\
    forall v, In v vs -> 0 <= v /\ (k = KExplained -> v <= 1).

(** The settings of a decomposer that continues from a checkpoint file *)
Definition from_checkpoint (cs : cp_settings) : cp_settings :=
  {| cs_rank := cs_rank cs; cs_init := "from_checkpoint"; cs_ridge := cs_ridge cs |}.

(** sum_k ||X_k||^2 *)
Definition slices_energy (Xs : list nd) : R := sumf Xs energy.
