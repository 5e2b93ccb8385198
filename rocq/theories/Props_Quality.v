(** Properties C70-C72: quality measures, complete and resumed fits. *)
From Verif Require Import QualityFacts CMTFWitness Parafac2Examples.
Local Open Scope R_scope.

(** A rank-one model of a 2x2 tensor *)
Definition q_X : nd := mk [2; 2]%nat [1; 2; 3; 4].
Definition q_draws : list nd := [mk [2; 1]%nat [1; 1]; mk [2; 1]%nat [1; 2]].
Definition q_env : cp_env :=
  {| env_svd := svd_row; env_svd_u := fun A => Ok (np_identity (nrows A)); env_qr := fun A => Ok A;
     env_nnls := fun A b => Ok b; env_junk := fun _ _ => 0 |}.
Definition q_cs : cp_settings := {| cs_rank := 1; cs_init := "random"; cs_ridge := None |}.
Definition q_cf : config := {| cf_freq := 2; cf_tol := 0; cf_rel_tol := 0; cf_print := 10 |}.
Definition q_state : cp_state :=
  {| cp_X := q_X; cp_norm := norm q_X; cp_dec := {| kt_rank := 1; kt_fms := q_draws; kt_w := np_ones [1%nat] |};
     cp_last := None; cp_cache := None; cp_nn := None; cp_orth := None |}.
Definition q_ds : dstate cp_state :=
  {| ds_num := q_state; ds_it := 0; ds_max := 100; ds_rel := PInf; ds_prev := PInf;
     ds_logs := map (cp_logger q_env q_cs) [KLoss; KMSE; KSSE; KRMSE; KExplained]; ds_file := Some empty_file |}.
Lemma q_data : data_ok q_X.
Proof. split; [reflexivity|]. split; [cbn; lia|]. repeat constructor; discriminate. Qed.
Lemma q_factors : factors_ok 1 q_X q_draws.
Proof. split; [repeat constructor|reflexivity]. Qed.
Lemma q_coherent : cp_coherent 1 q_state.
Proof. constructor; [apply q_data|reflexivity|apply q_factors|apply is_vec_ones|discriminate]. Qed.
Lemma q_start : usable_start q_env q_cs 1 q_X q_draws NoArg.
Proof. left. split; [reflexivity|]. split; [reflexivity|]. apply q_factors. Qed.
Lemma q_logs : forall lg, In lg (ds_logs q_ds) -> exists k, code_logger q_env q_cs k lg.
Proof. intros lg H. apply in_map_iff in H as (k & <- & _). exists k. split; reflexivity. Qed.
Lemma q_energy : energy q_X = 30.
Proof. ev. lra. Qed.
Lemma empty_ready c : ready_file c empty_file.
Proof. split; [reflexivity|]. split; [now left|]. discriminate. Qed.
Lemma empty_none i : ~ has_ckpt empty_file i.
Proof. intros H. now apply H. Qed.
Lemma q_ckpts : checkpoints_fit q_cf 5 q_ds.
Proof.
  right. split; [reflexivity|]. exists empty_file. split; [reflexivity|]. split; [apply empty_ready|].
  intros. apply empty_none.
Qed.

(** *** C70.  [measure X k e]: e, e/n, sqrt(e/n) or 1 - e/||X||^2 for the loss and SSE, MSE, RMSE and explained variance. *)
Theorem C70_measures : forall env cs K k s, cp_coherent K s -> cs_ridge cs = None ->
  (k = KExplained -> energy (cp_X s) <> 0) ->
  cp_metric env cs k s = Ok (Fin (measure (cp_X s) k (sse (cp_X s) (kt_fms (cp_dec s)) (vget (kt_w (cp_dec s))) K))).
Proof. exact cp_metric_ok. Qed.
Print Assumptions C70_measures.
Example C70_values : forall env,
  cp_metric env q_cs KSSE q_state = Ok (Fin 8) /\ cp_metric env q_cs KMSE q_state = Ok (Fin 2) /\
  cp_metric env q_cs KRMSE q_state = Ok (Fin (sqrt 2)) /\ cp_metric env q_cs KExplained q_state = Ok (Fin (11 / 15)).
Proof.
  intros env. pose proof q_energy as HE.
  assert (E : sse q_X q_draws (vget (np_ones [1%nat])) 1 = 8) by (ev; lra).
  assert (EC : entry_count q_X = 4) by (ev; lra).
  assert (H : forall k, cp_metric env q_cs k q_state = Ok (Fin (measure q_X k 8))).
  { intros k. rewrite (C70_measures env q_cs 1 k q_state q_coherent eq_refl); [|intros _; change (energy q_X <> 0); rewrite HE; lra].
    change (Ok (Fin (measure q_X k (sse q_X q_draws (vget (np_ones [1%nat])) 1))) = Ok (Fin (measure q_X k 8))). now rewrite E. }
  rewrite !H. cbn [measure]. rewrite EC, HE. replace (8 / 4) with 2 by lra. replace (1 - 8 / 30) with (11 / 15) by lra. auto.
Qed.

(** What a logger logs is the measure its class (and its group in a checkpoint) is named after. *)
Theorem C70_named_after : forall env cs K lg s, cp_coherent K s -> cs_ridge cs = None -> energy (cp_X s) <> 0 ->
  (exists k, code_logger env cs k lg) ->
  exists x, named_measure (cp_X s) (lg_class lg) (sse (cp_X s) (kt_fms (cp_dec s)) (vget (kt_w (cp_dec s))) K) = Some x /\
    lg_metric lg s = Ok (Fin x).
Proof.
  intros env cs K lg s H Hr He (k & Ec & Em). rewrite Ec, Em, (@cp_metric_ok env cs K k s H Hr ltac:(auto)).
  eexists. split; [|reflexivity]. destruct k; reflexivity.
Qed.
Print Assumptions C70_named_after.
Example C70_name_example : forall env, exists lg, In lg (map (cp_logger env q_cs) [KLoss; KMSE]) /\ lg_class lg = "MSELogger"%string /\
  (exists k, code_logger env q_cs k lg) /\ lg_metric lg q_state = Ok (Fin 2).
Proof.
  intros env. exists (cp_logger env q_cs KMSE). split; [cbn; auto|]. split; [reflexivity|]. split; [exists KMSE; split; reflexivity|].
  apply C70_values.
Qed.

(** Data without any signal: the explained variance is nan (perfect fit) or -inf (any other), but never raises. *)
Theorem C70_zero_data : forall env K s, cp_coherent K s -> energy (cp_X s) = 0 ->
  cp_explained env s =
    Ok (if Req_EM_T (sse (cp_X s) (kt_fms (cp_dec s)) (vget (kt_w (cp_dec s))) K) 0 then NaN else NInf).
Proof. exact cp_explained_zero. Qed.
Print Assumptions C70_zero_data.
Definition z_state : cp_state :=
  {| cp_X := mk [2; 2]%nat [0; 0; 0; 0]; cp_norm := norm (mk [2; 2]%nat [0; 0; 0; 0]);
     cp_dec := {| kt_rank := 1; kt_fms := q_draws; kt_w := np_ones [1%nat] |};
     cp_last := None; cp_cache := None; cp_nn := None; cp_orth := None |}.
Example C70_zero_data_example : cp_coherent 1 z_state /\ energy (cp_X z_state) = 0 /\ cp_explained q_env z_state = Ok NInf.
Proof.
  assert (HC : cp_coherent 1 z_state).
  { constructor; [|reflexivity|split; [repeat constructor|reflexivity]|apply is_vec_ones|discriminate].
    split; [reflexivity|]. split; [cbn; lia|]. repeat constructor; discriminate. }
  assert (HE : energy (cp_X z_state) = 0) by (ev; lra).
  split; [exact HC|]. split; [exact HE|]. rewrite (C70_zero_data q_env 1 z_state HC HE).
  destruct (Req_EM_T _ 0) as [E|]; [|reflexivity]. exfalso. ev_in E. lra.
Qed.

(** In every fit of an unconstrained model the logged losses, errors and root errors only go down, the logged explained
    variance goes up and stays between 0 and 1. *)
Theorem C70_logged_monotone : forall env cs K cf disk draws X max_its arg ds,
  cs_rank cs = K -> cs_ridge cs = None -> svd_works_on K K (env_svd env) -> data_ok X -> usable_start env cs K X draws arg ->
  cp_last (ds_num ds) = None -> free_flags (cp_nn (ds_num ds)) (length (shape X)) ->
  free_flags (cp_orth (ds_num ds)) (length (shape X)) ->
  let budget := match max_its with Some m => m | None => ds_max ds end in
  (0 < budget)%Z -> (forall lg, In lg (ds_logs ds) -> exists k, code_logger env cs k lg) -> checkpoints_fit cf budget ds ->
  exists ds', cp_fit env cs cf disk draws X max_its arg ds = (ds', None) /\
    Forall2 (recorded_fit env cs X (Z.to_nat (ds_it ds'))) (ds_logs ds) (ds_logs ds').
Proof. exact fit_recorded. Qed.
Print Assumptions C70_logged_monotone.
Example C70_logged_example : exists ds', cp_fit q_env q_cs q_cf no_disk q_draws q_X (Some 5%Z) NoArg q_ds = (ds', None) /\
  Forall2 (recorded_fit q_env q_cs q_X (Z.to_nat (ds_it ds'))) (ds_logs q_ds) (ds_logs ds').
Proof.
  apply (C70_logged_monotone q_env q_cs 1); auto using q_data, q_start, q_logs, q_ckpts.
  - apply svd_row_works. lia.
  - now left.
  - now left.
  - reflexivity.
Qed.

(** CMTF: the error of the coupled matrices is measured against the norm of the tensor alone. *)
Theorem C70_cmtf_explained : forall env K ms s, cm_ok K ms s -> cp_norm (cm_cp s) = norm (cp_X (cm_cp s)) ->
  energy (cp_X (cm_cp s)) <> 0 ->
  cmtf_explained env s = Ok (Fin (1 - (sse (cp_X (cm_cp s)) (cm_fms s) (vget (kt_w (cm_dec s))) K +
    mats_sse K (cm_fms s) ms (cm_V s) (cm_Y s)) / energy (cp_X (cm_cp s)))).
Proof. exact cmtf_explained_ok. Qed.
Print Assumptions C70_cmtf_explained.
(** A tensor that is fitted exactly and a matrix of which most is explained, with an explained variance below zero *)
Definition cmq : cmtf_state :=
  {| cm_cp := start 1 (mk [1; 1]%nat [1]) [mk [1; 1]%nat [1]; mk [1; 1]%nat [1]] [false; false] [false; false];
     cm_Y := [mk [1; 3]%nat [10; 20; 30]]; cm_modes := [0%Z]; cm_V := [mk [3; 1]%nat [10; 20; 28]] |}.
Theorem C70_cmtf_share_refuted : forall env, exists v, cm_ok 1 [0%nat] cmq /\
  sse (cp_X (cm_cp cmq)) (cm_fms cmq) (vget (kt_w (cm_dec cmq))) 1 = 0 /\
  mats_sse 1 (cm_fms cmq) [0%nat] (cm_V cmq) (cm_Y cmq) < energy (nth 0 (cm_Y cmq) m0) / 100 /\
  cmtf_explained env cmq = Ok (Fin v) /\ v < 0.
Proof.
  intros env. exists (-3).
  assert (HC : cm_ok 1 [0%nat] cmq).
  { constructor; try reflexivity.
    - apply data11.
    - apply fac11.
    - apply is_vec_ones.
    - split; [reflexivity|]. split; [reflexivity|]. intros [|i] Hi; cbn in Hi; [|lia]. cbn.
      split; [lia|]. split; split; reflexivity. }
  assert (E1 : sse (cp_X (cm_cp cmq)) (cm_fms cmq) (vget (kt_w (cm_dec cmq))) 1 = 0) by (ev; lra).
  assert (E2 : mats_sse 1 (cm_fms cmq) [0%nat] (cm_V cmq) (cm_Y cmq) = 4) by (ev; lra).
  assert (E3 : energy (cp_X (cm_cp cmq)) = 1) by (ev; lra).
  assert (E4 : energy (nth 0 (cm_Y cmq) m0) = 1400) by (ev; lra).
  split; [exact HC|]. split; [exact E1|]. split; [rewrite E2, E4; lra|]. split; [|lra].
  rewrite (C70_cmtf_explained env 1 [0%nat] cmq HC eq_refl) by (rewrite E3; lra). rewrite E1, E2, E3. do 2 f_equal. lra.
Qed.
Print Assumptions C70_cmtf_share_refuted.

(** CMTF: the measures are made from the coupled loss; the mean counts the entries of the tensor and of the coupled factors. *)
Theorem C70_cmtf_measures : forall env K ms s, cm_ok K ms s ->
  let l := coupled_loss K (cp_X (cm_cp s)) (cm_fms s) (vget (kt_w (cm_dec s))) ms (cm_V s) (cm_Y s) in
  let n := INR (prodl (shape (cp_X (cm_cp s))) + list_sum (map (fun m => nth m (shape (cp_X (cm_cp s))) 0 * K)%nat ms)) in
  cmtf_metric env KLoss s = Ok (Fin l) /\ cmtf_metric env KSSE s = Ok (Fin l) /\
  cmtf_metric env KMSE s = Ok (Fin (l / n)) /\ cmtf_metric env KRMSE s = Ok (Fin (sqrt (l / n))).
Proof. exact cmtf_metric_ok. Qed.
Print Assumptions C70_cmtf_measures.
Lemma cmq_ok : cm_ok 1 [0%nat] cmq.
Proof.
  constructor; try reflexivity.
  - apply data11.
  - apply fac11.
  - apply is_vec_ones.
  - split; [reflexivity|]. split; [reflexivity|]. intros [|i] Hi; cbn in Hi; [|lia]. cbn.
    split; [lia|]. split; split; reflexivity.
Qed.
Example C70_cmtf_values : forall env, cmtf_metric env KLoss cmq = Ok (Fin 4) /\ cmtf_metric env KSSE cmq = Ok (Fin 4) /\
  cmtf_metric env KMSE cmq = Ok (Fin 2) /\ cmtf_metric env KRMSE cmq = Ok (Fin (sqrt 2)).
Proof.
  intros env. destruct (C70_cmtf_measures env 1 [0%nat] cmq cmq_ok) as (H1 & H2 & H3 & H4). rewrite H1, H2, H3, H4.
  assert (E : coupled_loss 1 (cp_X (cm_cp cmq)) (cm_fms cmq) (vget (kt_w (cm_dec cmq))) [0%nat] (cm_V cmq) (cm_Y cmq) = 4) by (ev; lra).
  rewrite E. change (prodl (shape (cp_X (cm_cp cmq))) + list_sum (map (fun m => nth m (shape (cp_X (cm_cp cmq))) 0 * 1) [0]))%nat with 2%nat.
  replace (4 / INR 2) with 2 by (cbn; lra). auto.
Qed.

(** PARAFAC2: the loss alone contains the ridge penalties; the mean counts the entries of all slices as the model stores them. *)
Theorem C70_parafac2_measures : forall ps K nI s, p2_ok K nI s -> (0 < pr_num (p2_ref s))%nat ->
  let e := pf_sse K nI (p2_A s) (p2_B s) (p2_C s) (p2_X s) (p2_Ps s) in
  let n := INR (pr_num (p2_ref s)) in
  p2_metric ps KLoss s = Ok (Fin (e + match ps_ridge ps with
    | None => 0
    | Some lams => nth 0 lams 0 * frob2 nI K (mget (p2_A s)) + nth 1 lams 0 * frob2 K K (mget (p2_B s)) +
                   nth 2 lams 0 * frob2 (length (p2_X s)) K (mget (p2_C s))
    end)) /\
  p2_metric ps KSSE s = Ok (Fin e) /\ p2_metric ps KMSE s = Ok (Fin (e / n)) /\ p2_metric ps KRMSE s = Ok (Fin (sqrt (e / n))).
Proof. exact p2_metric_ok. Qed.
Print Assumptions C70_parafac2_measures.
Definition q_ps : p2_settings :=
  {| ps_rank := 1; ps_init := "random"; ps_updates := 2; ps_nn := [false; false; false]; ps_ridge := Some [1; 0; 0]; ps_orth := None |}.
Example C70_parafac2_values : p2_metric q_ps KLoss ex_p2 = Ok (Fin 22) /\ p2_metric q_ps KSSE ex_p2 = Ok (Fin 21) /\
  p2_metric q_ps KMSE ex_p2 = Ok (Fin 7) /\ p2_metric q_ps KRMSE ex_p2 = Ok (Fin (sqrt 7)).
Proof.
  destruct (C70_parafac2_measures q_ps 1 1 ex_p2 ex_p2_ok) as (H1 & H2 & H3 & H4); [cbn; lia|]. rewrite H1, H2, H3, H4.
  assert (E : pf_sse 1 1 (p2_A ex_p2) (p2_B ex_p2) (p2_C ex_p2) (p2_X ex_p2) (p2_Ps ex_p2) = 21) by (ev; lra).
  assert (EA : frob2 1 1 (mget (p2_A ex_p2)) = 1) by (ev; lra).
  rewrite E. cbn [ps_ridge q_ps nth]. rewrite EA. change (pr_num (p2_ref ex_p2)) with 3%nat.
  replace (21 / INR 3) with 7 by (cbn; lra). repeat split; do 2 f_equal; lra.
Qed.

(** A PARAFAC2 logger records the measure that its class is named after. *)
Theorem C70_parafac2_named_after : forall ps K nI k s, p2_ok K nI s -> (0 < pr_num (p2_ref s))%nat -> ps_ridge ps = None ->
  let e := pf_sse K nI (p2_A s) (p2_B s) (p2_C s) (p2_X s) (p2_Ps s) in
  let n := INR (pr_num (p2_ref s)) in let lg := p2_logger ps k in
  (lg_class lg = "LossLogger"%string -> lg_metric lg s = Ok (Fin e)) /\ (lg_class lg = "SSELogger"%string -> lg_metric lg s = Ok (Fin e)) /\
  (lg_class lg = "MSELogger"%string -> lg_metric lg s = Ok (Fin (e / n))) /\
  (lg_class lg = "RMSELogger"%string -> lg_metric lg s = Ok (Fin (sqrt (e / n)))) /\
  (lg_class lg = "ExplainedVarianceLogger"%string -> lg_metric lg s = p2_explained s).
Proof.
  intros ps K nI k s H Hn Hr e n lg. destruct (@p2_metric_ok ps K nI s H Hn) as (H1 & H2 & H3 & H4). rewrite Hr, Rplus_0_r in H1.
  unfold lg. repeat split; intros E; destruct k; try discriminate E; assumption || reflexivity.
Qed.
Print Assumptions C70_parafac2_named_after.
Example C70_parafac2_name_example : forall ps, ps_ridge ps = None -> exists lg, In lg (map (p2_logger ps) [KLoss; KMSE; KExplained]) /\
  lg_class lg = "MSELogger"%string /\ lg_metric lg ex_p2 = Ok (Fin 7).
Proof.
  intros ps Hr. exists (p2_logger ps KMSE). split; [cbn; auto|]. split; [reflexivity|].
  destruct (C70_parafac2_named_after ps 1 1 KMSE ex_p2 ex_p2_ok) as (_ & _ & H & _); [cbn; lia|exact Hr|]. rewrite H by reflexivity.
  assert (E : pf_sse 1 1 (p2_A ex_p2) (p2_B ex_p2) (p2_C ex_p2) (p2_X ex_p2) (p2_Ps ex_p2) = 21) by (ev; lra).
  rewrite E. do 2 f_equal. cbn. lra.
Qed.

(** PARAFAC2: after a fit from a random start the explained variance is the share of the sum of squares of all slices,
    and not below that of the start. *)
Theorem C70_parafac2_explained : forall env ps K nI cf disk draws Xs max_its arg ds ds1 ds' e,
  lower (ps_init ps) = "random"%string -> unconstrained ps -> ps_rank ps = K -> ps_ridge ps = None ->
  (0 < nI)%nat -> (0 < K)%nat -> slices_ok nI Xs -> draws_ok K nI Xs draws ->
  (forall k, (k < length Xs)%nat -> (K <= width Xs k)%nat /\ qr_works_on (width Xs k) K (env_qr (pe_cp env))) ->
  svd_works_on K K (env_svd (pe_cp env)) -> slices_energy Xs <> 0 ->
  p2_init_fit env ps disk draws (Slices Xs) max_its arg ds = (ds1, None) ->
  (forall k, (k < Z.to_nat (ds_max ds1 - ds_it ds1))%nat ->
     solvable env K nI (state_after (p2_model env ps) (fst (p2_prepare env ps (ds_num ds1))) k)) ->
  p2_fit env ps cf disk draws (Slices Xs) max_its arg ds = (ds', e) ->
  exists v v1, p2_explained (ds_num ds') = Ok (Fin v) /\ p2_explained (ds_num ds1) = Ok (Fin v1) /\
    v = 1 - total_err K nI (ds_num ds') / slices_energy Xs /\ v1 <= v <= 1.
Proof. exact p2_fit_explained. Qed.
Print Assumptions C70_parafac2_explained.
Example C70_parafac2_hypotheses_hold : slices_energy ex_Xs <> 0 /\ unconstrained ex_ps /\ slices_ok 1 ex_Xs /\
  draws_ok 1 1 ex_Xs ex_draws /\ exists ds1,
  p2_init_fit p2_ex_env ex_ps no_disk ex_draws (Slices ex_Xs) (Some 1%Z) P2None ex_ds = (ds1, None) /\
  forall k, (k < Z.to_nat (ds_max ds1 - ds_it ds1))%nat ->
    solvable p2_ex_env 1 1 (state_after (p2_model p2_ex_env ex_ps) (fst (p2_prepare p2_ex_env ex_ps (ds_num ds1))) k).
Proof.
  split; [ev; lra|]. split; [now apply ex_unconstrained|]. split; [apply ex_slices|]. split; [apply ex_draws_ok|].
  apply ex_random_start.
Qed.

(** *** C71.  A fit without constraints always completes, whatever the data, the start, the loggers and the checkpoints.
    [cp_stops]: the stopping rule, evaluated on the losses of the run. *)
Theorem C71_fit_completes : forall env cs K cf disk draws X max_its arg ds,
  cs_rank cs = K -> cs_ridge cs = None -> svd_works_on K K (env_svd env) -> data_ok X -> usable_start env cs K X draws arg ->
  cp_last (ds_num ds) = None -> free_flags (cp_nn (ds_num ds)) (length (shape X)) ->
  free_flags (cp_orth (ds_num ds)) (length (shape X)) ->
  let budget := match max_its with Some m => m | None => ds_max ds end in
  (0 < budget)%Z -> (forall lg, In lg (ds_logs ds) -> exists k, code_logger env cs k lg) -> checkpoints_fit cf budget ds ->
  exists ds1 ds', cp_init_fit env cs disk draws X max_its arg ds = (ds1, None) /\
    cp_fit env cs cf disk draws X max_its arg ds = (ds', None) /\
    factors_ok K X (kt_fms (cp_dec (ds_num ds'))) /\ (forall r, (r < K)%nat -> vget (kt_w (cp_dec (ds_num ds'))) r = 1) /\
    cp_SSE env (ds_num ds') = Ok (sse X (kt_fms (cp_dec (ds_num ds'))) unit_weights K) /\
    sse X (kt_fms (cp_dec (ds_num ds'))) unit_weights K <= sse X (kt_fms (cp_dec (ds_num ds1))) unit_weights K /\
    (0 <= ds_it ds' <= budget)%Z /\
    ((ds_it ds' < budget)%Z ->
     cp_stops (cp_model env cs) cf (ds_prev ds1) PInf (ds_num ds1) (Z.to_nat (ds_it ds')) = Ok true).
Proof. exact fit_completes. Qed.
Print Assumptions C71_fit_completes.
Example C71_hypotheses_hold : svd_works_on 1 1 (env_svd q_env) /\ data_ok q_X /\ usable_start q_env q_cs 1 q_X q_draws NoArg /\
  cp_last (ds_num q_ds) = None /\ free_flags (cp_nn (ds_num q_ds)) 2 /\ free_flags (cp_orth (ds_num q_ds)) 2 /\
  (forall lg, In lg (ds_logs q_ds) -> exists k, code_logger q_env q_cs k lg) /\ checkpoints_fit q_cf 5 q_ds.
Proof.
  split; [apply svd_row_works; lia|]. split; [apply q_data|]. split; [apply q_start|]. split; [reflexivity|].
  split; [now left|]. split; [now left|]. split; [apply q_logs|apply q_ckpts].
Qed.
(** The other two kinds of start *)
Example C71_svd_start : usable_start q_env {| cs_rank := 2; cs_init := "SVD"; cs_ridge := None |} 2 q_X [] NoArg.
Proof.
  right. left. split; [reflexivity|]. split; [reflexivity|]. split; [|split; [lia|]].
  - intros n m A HA. exists (np_identity n). cbn [q_env env_svd_u]. rewrite (is_mat_nrows HA). split; [reflexivity|].
    split; [apply is_mat_tab2|]. intros a b Ha Hb.
    transitivity (sum n (fun i => delta a i * delta i b)); [|now rewrite sum_delta_l].
    apply sum_ext. intros i Hi. unfold np_identity. rewrite !mget_tab2 by lia. unfold delta. now rewrite (Nat.eqb_sym a i).
  - cbn. intros n [<-|[<-|[]]]; lia.
Qed.
Example C71_precomputed_start :
  usable_start q_env {| cs_rank := 1; cs_init := "precomputed"; cs_ridge := None |} 1 q_X [] (DecArg (cp_dec q_state)).
Proof.
  right. right. split; [reflexivity|]. exists (cp_dec q_state). split; [reflexivity|]. split; [apply q_factors|].
  split; [apply is_vec_ones|reflexivity].
Qed.

(** *** C72.  A fit resumed from the checkpoint file with budget m does what the uninterrupted fit with budget m - i + u
    does, i being the number of the checkpoint and u the number of updates its contents had had.  Non-negativity and
    ridge penalties allowed; neither run may stop early. *)
Theorem C72_cp_resume : forall env cs K cf cf' disk disk' draws draws' X arg ds dsB f i u m d2 d3,
  cs_rank cs = K -> data_ok X -> usable_start env cs K X draws arg ->
  cp_last (ds_num ds) = None -> cp_last (ds_num dsB) = None ->
  (match cp_nn (ds_num ds) with Some l => (length l <= length (shape X))%nat | None => True end) ->
  cp_nn (ds_num dsB) = cp_nn (ds_num ds) ->
  free_flags (cp_orth (ds_num ds)) (length (shape X)) -> free_flags (cp_orth (ds_num dsB)) (length (shape X)) ->
  (0 <= i < m)%Z -> let budget := (m - i + Z.of_nat u)%Z in
  (forall ds1, cp_init_fit env cs disk draws X (Some budget) arg ds = (ds1, None) ->
     stored_at (cp_model env cs) f i (cp_dec (state_after (cp_model env cs) (ds_num ds1) u))) ->
  final_attr f = Some (DInt i) ->
  cp_fit env (from_checkpoint cs) cf' disk' draws' X (Some m) (PathArg (Some f)) dsB = (d2, None) -> ds_it d2 = m ->
  cp_fit env cs cf disk draws X (Some budget) arg ds = (d3, None) -> ds_it d3 = budget ->
  cp_dec (ds_num d2) = cp_dec (ds_num d3).
Proof. exact resume_cp. Qed.
Print Assumptions C72_cp_resume.

(** The same with the run that wrote the file: interrupted after its budget of a iterations and resumed with budget m,
    it ends where the uninterrupted run with budget m ends -- or m + 1, if a is a multiple of the checkpoint frequency. *)
Theorem C72_interrupted_fit : forall env cs K cf cf' cf3 disk disk' draws draws' X arg ds dsB f0 f a m d1 d2 d3,
  cs_rank cs = K -> data_ok X -> usable_start env cs K X draws arg ->
  cp_last (ds_num ds) = None -> cp_last (ds_num dsB) = None ->
  (match cp_nn (ds_num ds) with Some l => (length l <= length (shape X))%nat | None => True end) ->
  cp_nn (ds_num dsB) = cp_nn (ds_num ds) ->
  free_flags (cp_orth (ds_num ds)) (length (shape X)) -> free_flags (cp_orth (ds_num dsB)) (length (shape X)) ->
  (forall lg, In lg (ds_logs ds) -> exists k, code_logger env cs k lg) ->
  (0 < cf_freq cf)%Z -> ds_file ds = Some f0 -> ready_file (classes_of (ds_logs ds)) f0 ->
  (forall i, (0 <= i <= a)%Z -> ~ has_ckpt f0 i) -> (0 < a < m)%Z ->
  let budget := (if a mod cf_freq cf =? 0 then m + 1 else m)%Z in
  cp_fit env cs cf disk draws X (Some a) arg ds = (d1, None) -> ds_it d1 = a -> ds_file d1 = Some f ->
  cp_fit env (from_checkpoint cs) cf' disk' draws' X (Some m) (PathArg (Some f)) dsB = (d2, None) -> ds_it d2 = m ->
  cp_fit env cs cf3 disk draws X (Some budget) arg ds = (d3, None) -> ds_it d3 = budget ->
  cp_dec (ds_num d2) = cp_dec (ds_num d3).
Proof. exact interrupted_cp. Qed.
Print Assumptions C72_interrupted_fit.

(** Without constraints and with tolerances that never stop a fit all three runs complete. *)
Theorem C72_interrupted_fit_completes : forall env cs K cf cf' cf3 disk disk' draws draws' X arg ds dsB f0 a m,
  cs_rank cs = K -> cs_ridge cs = None -> svd_works_on K K (env_svd env) -> data_ok X -> usable_start env cs K X draws arg ->
  cp_last (ds_num ds) = None -> cp_last (ds_num dsB) = None ->
  cp_nn (ds_num dsB) = cp_nn (ds_num ds) -> free_flags (cp_nn (ds_num ds)) (length (shape X)) ->
  free_flags (cp_orth (ds_num ds)) (length (shape X)) -> free_flags (cp_orth (ds_num dsB)) (length (shape X)) ->
  (forall lg, In lg (ds_logs ds ++ ds_logs dsB) -> exists k, code_logger env cs k lg) ->
  (forall c, In c [cf; cf'; cf3] -> cf_tol c <= 0 /\ cf_rel_tol c <= 0) ->
  (0 < cf_freq cf)%Z -> ds_file ds = Some f0 -> ready_file (classes_of (ds_logs ds)) f0 ->
  (forall i, (0 <= i <= a)%Z -> ~ has_ckpt f0 i) -> (0 < a < m)%Z ->
  let budget := (if a mod cf_freq cf =? 0 then m + 1 else m)%Z in
  checkpoints_fit cf' m dsB -> checkpoints_fit cf3 budget ds ->
  exists d1 f d2 d3,
    cp_fit env cs cf disk draws X (Some a) arg ds = (d1, None) /\ ds_it d1 = a /\ ds_file d1 = Some f /\
    cp_fit env (from_checkpoint cs) cf' disk' draws' X (Some m) (PathArg (Some f)) dsB = (d2, None) /\ ds_it d2 = m /\
    cp_fit env cs cf3 disk draws X (Some budget) arg ds = (d3, None) /\ ds_it d3 = budget /\
    cp_dec (ds_num d2) = cp_dec (ds_num d3).
Proof. exact interrupted_complete. Qed.
Print Assumptions C72_interrupted_fit_completes.
(** Interrupted after 3 (a final checkpoint) or 4 (a periodic one) of 6 iterations *)
Example C72_example : exists d1 f d2 d3 e1 g e2 e3,
  cp_fit q_env q_cs q_cf no_disk q_draws q_X (Some 3%Z) NoArg q_ds = (d1, None) /\ ds_file d1 = Some f /\
  cp_fit q_env (from_checkpoint q_cs) q_cf no_disk [] q_X (Some 6%Z) (PathArg (Some f)) q_ds = (d2, None) /\
  cp_fit q_env q_cs q_cf no_disk q_draws q_X (Some 6%Z) NoArg q_ds = (d3, None) /\
  cp_dec (ds_num d2) = cp_dec (ds_num d3) /\
  cp_fit q_env q_cs q_cf no_disk q_draws q_X (Some 4%Z) NoArg q_ds = (e1, None) /\ ds_file e1 = Some g /\
  cp_fit q_env (from_checkpoint q_cs) q_cf no_disk [] q_X (Some 6%Z) (PathArg (Some g)) q_ds = (e2, None) /\
  cp_fit q_env q_cs q_cf no_disk q_draws q_X (Some 7%Z) NoArg q_ds = (e3, None) /\
  cp_dec (ds_num e2) = cp_dec (ds_num e3).
Proof.
  assert (H : forall a, (0 < a < 6)%Z -> let budget := (if a mod 2 =? 0 then 6 + 1 else 6)%Z in
    exists d1 f d2 d3, cp_fit q_env q_cs q_cf no_disk q_draws q_X (Some a) NoArg q_ds = (d1, None) /\ ds_it d1 = a /\ ds_file d1 = Some f /\
    cp_fit q_env (from_checkpoint q_cs) q_cf no_disk [] q_X (Some 6%Z) (PathArg (Some f)) q_ds = (d2, None) /\ ds_it d2 = 6%Z /\
    cp_fit q_env q_cs q_cf no_disk q_draws q_X (Some budget) NoArg q_ds = (d3, None) /\ ds_it d3 = budget /\
    cp_dec (ds_num d2) = cp_dec (ds_num d3)).
  { intros a Ha. apply (C72_interrupted_fit_completes q_env q_cs 1 q_cf q_cf q_cf no_disk no_disk q_draws [] q_X NoArg q_ds q_ds empty_file a 6);
      auto using q_data, q_start, empty_ready, empty_none.
    - apply svd_row_works. lia.
    - now left.
    - now left.
    - now left.
    - intros lg Hl. apply in_app_or in Hl as [Hl|Hl]; now apply q_logs.
    - cbn. intros c [<-|[<-|[<-|[]]]]; cbn; lra.
    - reflexivity.
    - right. split; [reflexivity|]. exists empty_file. auto using empty_ready, empty_none.
    - right. split; [reflexivity|]. exists empty_file. auto using empty_ready, empty_none. }
  destruct (H 3%Z ltac:(lia)) as (d1 & f & d2 & d3 & A1 & _ & A2 & A3 & _ & A4 & _ & A5).
  destruct (H 4%Z ltac:(lia)) as (e1 & g & e2 & e3 & B1 & _ & B2 & B3 & _ & B4 & _ & B5).
  exists d1, f, d2, d3, e1, g, e2, e3. auto 12.
Qed.
