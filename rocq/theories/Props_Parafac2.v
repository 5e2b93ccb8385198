(** Properties C54-C58: Parafac2_ALS. *)
From Verif Require Import Parafac2Examples.
Local Open Scope R_scope.

(** *** C54.  [p2_ok]: A, B, C and the P_k are arrays of fitting shapes, each its own object.  [solvable]: in every slice
    the cross product has full rank up to the code's tolerance, and numpy's svd works on it.  [slice_err]: the squared error
    of one slice. *)
Theorem C54_projection_update_is_optimal : forall env K nI s,
  p2_ok K nI s -> solvable env K nI s ->
  exists s', p2_update_projections env s = (s', None) /\ p2_ok K nI s' /\
    p2_A s' = p2_A s /\ p2_B s' = p2_B s /\ p2_C s' = p2_C s /\ p2_X s' = p2_X s /\
    forall k, (k < length (p2_X s))%nat ->
      orth_cols (width (p2_X s) k) K (mget (nth k (p2_Ps s') m0)) /\
      forall Q, orth_cols (width (p2_X s) k) K Q ->
        slice_err K nI (p2_A s) (p2_B s) (p2_C s) (p2_X s) k (mget (nth k (p2_Ps s') m0)) <=
        slice_err K nI (p2_A s) (p2_B s) (p2_C s) (p2_X s) k Q.
Proof.
  intros env K nI s H HS. destruct (projections_ok H HS) as (s' & E & H' & HF & _ & EA & EB & EC & HP).
  exists s'. repeat (split; [solve [auto | apply HF]|]). intros k Hk. now destruct (HP k Hk).
Qed.
Print Assumptions C54_projection_update_is_optimal.
Example C54_hypotheses_hold : p2_ok 1 1 ex_p2 /\ solvable p2_ex_env 1 1 ex_p2.
Proof. split; [apply ex_p2_ok|apply ex_p2_solvable]. Qed.

(** *** C55 *)
Theorem C55_sse_splits : forall K nI A B C Xs Ps PX,
  orth_projections K Xs Ps -> shape PX = [nI; K; length Xs] ->
  (forall i q k, (i < nI)%nat -> (q < K)%nat -> (k < length Xs)%nat -> get PX [i; q; k] = projected_entry Xs Ps i q k) ->
  pf_sse K nI A B C Xs Ps =
  sum (length Xs) (fun k => frob2 nI (width Xs k) (mget (nth k Xs m0)) - frob2 nI K (fun i q => projected_entry Xs Ps i q k)) +
  sse PX [A; B; C] unit_weights K.
Proof. intros. now apply pf_sse_split. Qed.
Print Assumptions C55_sse_splits.

(** The tensor the inner decomposer is given is the PX of the identity above, and the SSE the code reports is [pf_sse]. *)
Theorem C55_projected_tensor : forall env ps K nI s, p2_ok K nI s -> ps_rank ps = K ->
  exists PX, p2_projected_X env ps s = Ok PX /\ shape PX = [nI; K; length (p2_X s)] /\
    forall i q k, (i < nI)%nat -> (q < K)%nat -> (k < length (p2_X s))%nat ->
      get PX [i; q; k] = projected_entry (p2_X s) (p2_Ps s) i q k.
Proof. intros env ps K nI s H HK. destruct (projected_ok env H HK) as (PX & A & _ & B & C). eauto. Qed.
Print Assumptions C55_projected_tensor.
Theorem C55_reported_sse : forall K nI s, p2_ok K nI s ->
  p2_SSE s = Ok (pf_sse K nI (p2_A s) (p2_B s) (p2_C s) (p2_X s) (p2_Ps s)).
Proof. intros K nI s H. now apply p2_SSE_ok. Qed.
Print Assumptions C55_reported_sse.

(** [linked]: the inner decomposer holds the decomposition's own A, B, C, unit weights and no constraints. *)
Theorem C55_iteration_never_increases : forall env ps K nI s,
  p2_ok K nI s -> linked K s -> orth_projections K (p2_X s) (p2_Ps s) -> solvable env K nI s ->
  ps_rank ps = K -> ps_ridge ps = None -> svd_works_on K K (env_svd (pe_cp env)) ->
  (0 < nI)%nat -> (0 < length (p2_X s))%nat ->
  exists s', p2_update env ps s = (s', None) /\ p2_ok K nI s' /\ linked K s' /\ orth_projections K (p2_X s') (p2_Ps s') /\
    p2_X s' = p2_X s /\
    pf_sse K nI (p2_A s') (p2_B s') (p2_C s') (p2_X s) (p2_Ps s') <= pf_sse K nI (p2_A s) (p2_B s) (p2_C s) (p2_X s) (p2_Ps s).
Proof.
  intros env ps K nI s H HL HO HS HK HR Hs H1 H2.
  destruct (@iteration_ok env ps K nI s H HL HS HO HK HR Hs H1 H2) as (s' & E & A & B & C & EX & _ & _ & D).
  rewrite EX in D. exists s'. auto 10.
Qed.
Print Assumptions C55_iteration_never_increases.

(** A whole fit from a random start; full rank is asked of the states before each of the allowed iterations. *)
Theorem C55_fit_never_increases : forall env ps K nI cf disk draws Xs max_its arg ds ds1 ds' e,
  lower (ps_init ps) = "random"%string -> unconstrained ps -> ps_rank ps = K -> ps_ridge ps = None ->
  (0 < nI)%nat -> (0 < K)%nat -> slices_ok nI Xs -> draws_ok K nI Xs draws ->
  (forall k, (k < length Xs)%nat -> (K <= width Xs k)%nat /\ qr_works_on (width Xs k) K (env_qr (pe_cp env))) ->
  svd_works_on K K (env_svd (pe_cp env)) ->
  p2_init_fit env ps disk draws (Slices Xs) max_its arg ds = (ds1, None) ->
  (forall k, (k < Z.to_nat (ds_max ds1 - ds_it ds1))%nat ->
     solvable env K nI (state_after (p2_model env ps) (fst (p2_prepare env ps (ds_num ds1))) k)) ->
  p2_fit env ps cf disk draws (Slices Xs) max_its arg ds = (ds', e) ->
  p2_X (ds_num ds') = Xs /\ orth_projections K Xs (p2_Ps (ds_num ds')) /\
  exists l, p2_SSE (ds_num ds1) = Ok l /\ exists l', p2_SSE (ds_num ds') = Ok l' /\ l' <= l.
Proof.
  intros env ps K nI cf disk draws Xs max_its arg ds ds1 ds' e Hi HU HK HR HnI HK0 HX HD Hqr Hsvd E1 Hsol E.
  destruct (@random_fit_decreases env ps K nI cf disk draws Xs max_its arg ds ds1 ds' e) as (H1 & H2 & H3 & H4 & _ & H6); auto.
  destruct (@random_init_fit_ok env ps K nI disk draws Xs max_its arg ds) as (d & Ed & Hok & _); auto.
  rewrite E1 in Ed. injection Ed as <-. split; auto. split; auto. eexists. split; [exact (p2_SSE_ok Hok)|]. eauto.
Qed.
Print Assumptions C55_fit_never_increases.
Example C55_iteration_hypotheses_hold :
  p2_ok 1 1 ex_p2 /\ linked 1 ex_p2 /\ orth_projections 1 (p2_X ex_p2) (p2_Ps ex_p2) /\ solvable p2_ex_env 1 1 ex_p2 /\
  svd_works_on 1 1 (env_svd (pe_cp p2_ex_env)).
Proof.
  split; [apply ex_p2_ok|]. split; [apply ex_p2_linked|]. split; [apply ex_p2_orth|]. split; [apply ex_p2_solvable|].
  apply svd_col_works. lia.
Qed.
Example C55_fit_hypotheses_hold : unconstrained ex_ps /\ slices_ok 1 ex_Xs /\ draws_ok 1 1 ex_Xs ex_draws /\
  (forall k, (k < length ex_Xs)%nat -> (1 <= width ex_Xs k)%nat /\ qr_works_on (width ex_Xs k) 1 (env_qr (pe_cp p2_ex_env))) /\
  exists ds1, p2_init_fit p2_ex_env ex_ps no_disk ex_draws (Slices ex_Xs) (Some 1%Z) P2None ex_ds = (ds1, None) /\
    forall k, (k < Z.to_nat (ds_max ds1 - ds_it ds1))%nat ->
      solvable p2_ex_env 1 1 (state_after (p2_model p2_ex_env ex_ps) (fst (p2_prepare p2_ex_env ex_ps (ds_num ds1))) k).
Proof.
  split; [now apply ex_unconstrained|]. split; [apply ex_slices|]. split; [apply ex_draws_ok|]. split; [apply ex_qr|].
  apply ex_random_start.
Qed.

(** *** C56.  Whatever the outcome of the fit. *)
Theorem C56_projections_are_equal : forall env ps cf disk draws X max_its arg ds ds1 ds' e,
  lower (ps_init ps) = "cp"%string ->
  p2_init_fit env ps disk draws X max_its arg ds = (ds1, None) ->
  p2_fit env ps cf disk draws X max_its arg ds = (ds', e) ->
  exists P, p2_Ps (ds_num ds') = repeat P (length (p2_X (ds_num ds'))).
Proof. intros. eapply cp_fit_shares; eassumption. Qed.
Print Assumptions C56_projections_are_equal.

(** CP initialisation works and produces one projection object. *)
Theorem C56_cp_initialisation_shares : forall env ps K nI w s C A B,
  ps_rank ps = K -> (0 < K <= w)%nat -> (0 < nI)%nat -> p2_X s <> [] ->
  (forall k, (k < length (p2_X s))%nat -> is_mat nI w (nth k (p2_X s) m0)) ->
  is_mat (length (p2_X s)) K C -> is_mat nI K A -> is_mat w K B ->
  svd_works_on K K (env_svd (pe_cp env)) -> qr_full_works_on w K (pe_qr env) ->
  exists s' a, p2_init_cp env ps [C; A; B] s = Ok s' /\ p2_shaped K nI s' /\ p2_X s' = p2_X s /\
    pr_P (p2_ref s') = repeat a (length (p2_X s)) /\ ~ In a [pr_A (p2_ref s'); pr_B (p2_ref s'); pr_C (p2_ref s')].
Proof. intros. eapply init_cp_ok; eauto. Qed.
Print Assumptions C56_cp_initialisation_shares.

(** With one projection object, an update leaves the optimum of the last slice in every slice. *)
Theorem C56_last_slice_wins : forall env K nI w s a,
  p2_shaped K nI s -> (0 < length (p2_X s))%nat -> pr_P (p2_ref s) = repeat a (length (p2_X s)) ->
  ~ In a [pr_A (p2_ref s); pr_B (p2_ref s); pr_C (p2_ref s)] ->
  (forall k, (k < length (p2_X s))%nat -> width (p2_X s) k = w) -> solvable env K nI s ->
  exists s' P, p2_update_projections env s = (s', None) /\ p2_Ps s' = repeat P (length (p2_X s)) /\
    orth_cols w K (mget P) /\
    forall Q, orth_cols w K Q ->
      slice_err K nI (p2_A s) (p2_B s) (p2_C s) (p2_X s) (length (p2_X s) - 1) (mget P) <=
      slice_err K nI (p2_A s) (p2_B s) (p2_C s) (p2_X s) (length (p2_X s) - 1) Q.
Proof. intros. eapply shared_update; eauto. Qed.
Print Assumptions C56_last_slice_wins.

(** So the update of the projections can raise the error, which C54 rules out for separate objects. *)
Theorem C56_update_can_raise_the_error : exists env s s',
  p2_shaped 1 1 s /\ solvable env 1 1 s /\ orth_projections 1 (p2_X s) (p2_Ps s) /\ p2_update_projections env s = (s', None) /\
  pf_sse 1 1 (p2_A s) (p2_B s) (p2_C s) (p2_X s) (p2_Ps s) < pf_sse 1 1 (p2_A s) (p2_B s) (p2_C s) (p2_X s) (p2_Ps s').
Proof.
  destruct shared_can_raise as (s' & P & E & _ & E1 & E2). exists p2_ex_env, sh_p2, s'.
  split; [apply sh_p2_shaped|]. split; [apply sh_p2_solvable|]. split.
  - change (orth_projections 1 sh_Xs (p2_Ps sh_p2)). intros k Hk. revert k Hk. change (length sh_Xs) with 2%nat.
    slices; intros a b Ha Hb; replace a with 0%nat by lia; replace b with 0%nat by lia; ev; ring.
  - split; [exact E|]. change (p2_X sh_p2) with sh_Xs. rewrite E1, E2. lra.
Qed.
Print Assumptions C56_update_can_raise_the_error.
Example C56_cp_start_exists : exists s', p2_init_cp p2_ex_env cp_ps sh_draws sh_p2 = Ok s'.
Proof. apply sh_init_cp. Qed.
Example C56_hypotheses_hold : p2_shaped 1 1 sh_p2 /\ pr_P (p2_ref sh_p2) = repeat 3%nat (length (p2_X sh_p2)) /\
  (forall k, (k < length (p2_X sh_p2))%nat -> width (p2_X sh_p2) k = 2%nat) /\ solvable p2_ex_env 1 1 sh_p2.
Proof. split; [apply sh_p2_shaped|]. split; [reflexivity|]. split; [apply sh_width|apply sh_p2_solvable]. Qed.

(** *** C57.  [orth_flags]: the constraint flags; [separate]: the decomposition's arrays are different objects. *)
Theorem C57_constrained_factor_never_changes : forall env ps s s0 k,
  separate s -> p2_prepare env ps s = (s0, None) ->
  (nth 0 (orth_flags ps) false = true -> p2_A (state_after (p2_model env ps) s0 k) = p2_A s) /\
  (nth 2 (orth_flags ps) false = true -> p2_C (state_after (p2_model env ps) s0 k) = p2_C s).
Proof. intros env ps s s0 k HS E. split; intros Hf; [eapply orth_A_frozen|eapply orth_C_frozen]; eauto. Qed.
Print Assumptions C57_constrained_factor_never_changes.

(** In particular the fitted A (or C) is the random draw, however the fit ends. *)
Theorem C57_fit_returns_the_draw : forall env ps cf disk A C Ns X max_its arg ds ds1 ds' e,
  lower (ps_init ps) = "random"%string ->
  p2_init_fit env ps disk (A :: C :: Ns) X max_its arg ds = (ds1, None) ->
  p2_fit env ps cf disk (A :: C :: Ns) X max_its arg ds = (ds', e) ->
  (nth 0 (orth_flags ps) false = true -> p2_A (ds_num ds') = A) /\
  (nth 2 (orth_flags ps) false = true -> p2_C (ds_num ds') = np_map (fun x => x + / 10) C).
Proof. intros. eapply random_orth_fit; eassumption. Qed.
Print Assumptions C57_fit_returns_the_draw.

(** So a fit with mode 0 constrained need not return an orthonormal A. *)
Theorem C57_result_need_not_be_orthonormal : exists env ps disk draws Xs max_its ds,
  nth 0 (orth_flags ps) false = true /\
  (exists ds1, p2_init_fit env ps disk draws (Slices Xs) max_its P2None ds = (ds1, None)) /\
  forall cf ds' e, p2_fit env ps cf disk draws (Slices Xs) max_its P2None ds = (ds', e) ->
    ~ orth_cols 1 1 (mget (p2_A (ds_num ds'))).
Proof.
  exists p2_ex_env, or_ps, no_disk, or_draws, ex_Xs, (Some 1%Z), ex_ds. split; [reflexivity|]. split; [apply or_start|].
  intros cf ds' e E HO. destruct or_start as [ds1 E1].
  destruct (@random_orth_fit p2_ex_env or_ps cf no_disk _ _ _ (Slices ex_Xs) (Some 1%Z) P2None ex_ds ds1 ds' e eq_refl E1 E) as [HA _].
  rewrite (HA eq_refl) in HO. specialize (HO 0%nat 0%nat ltac:(lia) ltac:(lia)). ev_in HO. lra.
Qed.
Print Assumptions C57_result_need_not_be_orthonormal.

(** Without constraints the inner decomposer's factors are the decomposition's, at every iteration. *)
Theorem C57_free_modes_stay_linked : forall env ps s s0 k,
  orth_flags ps = [] \/ orth_flags ps = [false; false; false] -> p2_prepare env ps s = (s0, None) ->
  kt_fms (cp_dec (p2_view (state_after (p2_model env ps) s0 k))) =
  [p2_A (state_after (p2_model env ps) s0 k); p2_B (state_after (p2_model env ps) s0 k); p2_C (state_after (p2_model env ps) s0 k)].
Proof. intros. eapply free_modes_linked; eassumption. Qed.
Print Assumptions C57_free_modes_stay_linked.
Example C57_hypotheses_hold : separate ex_p2 /\ (exists s0, p2_prepare p2_ex_env or_ps ex_p2 = (s0, None)) /\
  exists s0, p2_prepare p2_ex_env ex_ps ex_p2 = (s0, None).
Proof.
  split; [split; [apply (ok_distinct ex_p2_ok)|apply (ok_range ex_p2_ok)]|]. split; [apply or_prepare|].
  destruct (@prepare_ok p2_ex_env ex_ps 1 1 ex_p2 ex_p2_ok) as (c & E & _); auto; [now apply ex_unconstrained|cbn; lia|eauto].
Qed.

(** *** C58 *)
Theorem C58_fit_transform_cannot_use_precomputed : forall env ps cf disk draws X max_its arg ds,
  lower (ps_init ps) = "precomputed"%string ->
  exists ds' e, p2_fit_transform env ps cf disk draws X max_its arg ds = (ds', Err e) /\
    ((exists s, p2_set_target X (ds_num ds) = Ok s) -> e = AttributeError).
Proof. intros. now apply fit_transform_precomputed. Qed.
Print Assumptions C58_fit_transform_cannot_use_precomputed.
Theorem C58_fit_transform_ignores_arguments : forall env ps cf disk draws X max_its arg max_its' arg' ds,
  p2_fit_transform env ps cf disk draws X max_its arg ds = p2_fit_transform env ps cf disk draws X max_its' arg' ds.
Proof. reflexivity. Qed.
Print Assumptions C58_fit_transform_ignores_arguments.
Theorem C58_svd_always_raises : forall env ps cf disk draws X max_its arg ds,
  lower (ps_init ps) = "svd"%string ->
  exists ds' e, p2_fit env ps cf disk draws X max_its arg ds = (ds', Some e) /\
    ((exists s, p2_set_target X (ds_num ds) = Ok s) -> e = TypeError).
Proof. intros. now apply svd_raises. Qed.
Print Assumptions C58_svd_always_raises.

(** [entries]: the number of data entries, nI * (J_0 + ... + J_{n-1}).  MSE is nI times the mean squared error. *)
Theorem C58_MSE_is_not_the_mean : forall env ps K nI cf disk draws Xs max_its arg ds ds' e,
  lower (ps_init ps) = "random"%string -> ps_rank ps = K -> (0 < K)%nat -> (0 < nI)%nat -> ps_ridge ps = None ->
  slices_ok nI Xs -> draws_ok K nI Xs draws ->
  (forall k, (k < length Xs)%nat -> (K <= width Xs k)%nat /\ qr_works_on (width Xs k) K (env_qr (pe_cp env))) ->
  p2_fit env ps cf disk draws (Slices Xs) max_its arg ds = (ds', e) ->
  forall l, p2_SSE (ds_num ds') = Ok l -> p2_MSE (ds_num ds') = Ok (Fin (INR nI * (l / INR (entries nI Xs)))).
Proof. intros. eapply random_mse; eauto. Qed.
Print Assumptions C58_MSE_is_not_the_mean.
Definition tall_Xs : list nd := [mk [2; 1]%nat [3; 4]].
Example C58_MSE_hypotheses_hold : slices_ok 2 tall_Xs /\
  draws_ok 1 2 tall_Xs [mk [2; 1]%nat [1; 2]; mk [1; 1]%nat [1]; mk [1; 1]%nat [5]] /\
  (forall k, (k < length tall_Xs)%nat -> (1 <= width tall_Xs k)%nat /\ qr_works_on (width tall_Xs k) 1 (env_qr (pe_cp p2_ex_env))) /\
  entries 2 tall_Xs = 2%nat.
Proof.
  split; [split; [discriminate|]; intros [|k] Hk; cbn in Hk; [split; reflexivity|lia]|].
  split.
  { do 3 eexists. split; [reflexivity|]. split; [split; reflexivity|]. split; [split; reflexivity|]. split; [reflexivity|].
    intros [|k] Hk; cbn in Hk; [split; reflexivity|lia]. }
  split; [|reflexivity]. intros [|k] Hk; cbn in Hk; [|lia]. split; [cbn; lia|]. apply qr_col. cbn. lia.
Qed.
Example C58_target_works : exists s, p2_set_target (Slices ex_Xs) ex_p2 = Ok s.
Proof. eexists. reflexivity. Qed.
