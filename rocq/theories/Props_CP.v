(** Properties C42-C50: CP_ALS. *)
From Verif Require Import CPFit Exists.
Local Open Scope R_scope.

(** Singular value decompositions for the examples below: exact for one-row matrices. *)
Definition ex_env : cp_env :=
  {| env_svd := svd_row; env_svd_u := fun A => Ok (np_identity (nrows A)); env_qr := fun A => Ok A;
     env_nnls := fun A b => Ok b; env_junk := fun _ _ => 0 |}.
Definition ex_ds (s : cp_state) : dstate cp_state :=
  {| ds_num := s; ds_it := 0; ds_max := 5; ds_rel := PInf; ds_prev := PInf; ds_logs := []; ds_file := None |}.
Definition ex_cf : config := {| cf_freq := -1; cf_tol := 0; cf_rel_tol := 0; cf_print := -1 |}.
Definition no_disk : string -> option file := fun _ => None.
Definition ex_k : kruskal :=
  {| kt_rank := 1; kt_fms := [mk [1; 1]%nat [7]; mk [1; 1]%nat [1 / 2]]; kt_w := mk [1]%nat [3] |}.
Definition pre_cs : cp_settings := {| cs_rank := 1; cs_init := "Precomputed"; cs_ridge := None |}.
Lemma ex_data : data_ok (mk [1; 1]%nat [1]).
Proof. split; [reflexivity|]. split; [cbn; lia|]. repeat constructor; discriminate. Qed.
Lemma ex_factors : factors_ok 1 (mk [1; 1]%nat [1]) (kt_fms ex_k).
Proof. split; [repeat constructor|reflexivity]. Qed.

(** *** C42.  [cp_last s <> None]: at least one factor has been updated. *)
Theorem C42_update_is_remembered : forall env cs s m s',
  cp_update_factor env cs s m = (s', None) -> cp_last s' <> None.
Proof. exact update_success_touches. Qed.
Print Assumptions C42_update_is_remembered.

Theorem C42_fit_is_remembered : forall env cs cf ds ds' e,
  cp_fit_loop (cp_model env cs) cf ds = (ds', e) ->
  ds_num ds' = ds_num ds \/ cp_last (ds_num ds') <> None.
Proof. exact fit_loop_touches. Qed.
Print Assumptions C42_fit_is_remembered.

(** No second call of fit returns; if it gets past its initialisation it raises TypeError (UnboundLocalError
    when the budget is zero) with the state exactly as the initialisation left it. *)
Theorem C42_second_fit_raises : forall env cs cf disk draws X max_its arg ds,
  cp_last (ds_num ds) <> None ->
  (forall ds', cp_fit env cs cf disk draws X max_its arg ds <> (ds', None)) /\
  forall ds1, cp_init_fit env cs disk draws X max_its arg ds = (ds1, None) ->
    cp_fit env cs cf disk draws X max_its arg ds =
      (ds1, Some (if (ds_it ds1 <? ds_max ds1)%Z then TypeError else UnboundLocalError)).
Proof.
  intros env cs cf disk draws X max_its arg ds HT. split.
  - intros ds' E. destruct (cp_init_fit env cs disk draws X max_its arg ds) as [ds1 [e|]] eqn:EI.
    + unfold cp_fit in E. rewrite EI in E. discriminate.
    + rewrite (second_fit cf HT EI) in E. discriminate.
  - intros ds1 EI. now apply second_fit.
Qed.
Print Assumptions C42_second_fit_raises.

(** With data of the same shape the initialisation succeeds, so that it is the TypeError that is raised, and
    the factors, the iteration count, the loggers and the checkpoint file are as the initialisation left them. *)
Theorem C42_same_shape_type_error : forall env cs cf disk draws X max_its arg ds K m d1,
  cp_coherent K (ds_num ds) -> cp_last (ds_num ds) = Some m ->
  data_ok X -> shape X = shape (cp_X (ds_num ds)) ->
  cp_init_components env cs disk draws arg (targeted X ds) = (d1, None) ->
  factors_ok K X (kt_fms (cp_dec (ds_num d1))) -> is_vec K (kt_w (cp_dec (ds_num d1))) ->
  all_false (cp_orth (ds_num ds)) (length (shape X)) ->
  (ds_it d1 < match max_its with Some m => m | None => ds_max d1 end)%Z ->
  exists ds', cp_fit env cs cf disk draws X max_its arg ds = (ds', Some TypeError) /\
    kt_fms (cp_dec (ds_num ds')) = kt_fms (cp_dec (ds_num d1)) /\ ds_it ds' = ds_it d1 /\
    ds_logs ds' = ds_logs d1 /\ ds_file ds' = ds_file d1.
Proof. exact second_fit_same_shape. Qed.
Print Assumptions C42_same_shape_type_error.

Example C42_example : exists s' ds', cp_update_factor ex_env sse_cs sse_state 0 = (s', None) /\
  cp_fit ex_env pre_cs ex_cf no_disk [] (mk [1; 1]%nat [9]) None (DecArg ex_k) (ex_ds s') = (ds', Some TypeError).
Proof.
  destruct (@update_optimal ex_env sse_cs 1 sse_state 0 sse_coherent eq_refl ltac:(cbn; lia) (@sse_free 0%nat ltac:(cbn; lia)))
    as (s' & Z & E & HZ & Hfm & HSP & HC & _).
  { now apply svd_row_works. }
  exists s'.
  assert (HL : exists m, cp_last s' = Some m).
  { pose proof (C42_update_is_remembered _ _ _ _ _ E). destruct (cp_last s'); [eauto|congruence]. }
  destruct HL as [m HL].
  assert (Hd : data_ok (mk [1; 1]%nat [9])) by (split; [reflexivity|]; split; [cbn; lia|]; repeat constructor; discriminate).
  destruct (@init_precomputed ex_env pre_cs no_disk [] (targeted (mk [1; 1]%nat [9]) (ex_ds s')) ex_k eq_refl) as [Hacc _].
  destruct (@second_fit_same_shape ex_env pre_cs ex_cf no_disk [] (mk [1; 1]%nat [9]) None (DecArg ex_k) (ex_ds s') 1 m
      (with_num (cp_with_dec ex_k (ds_num (targeted (mk [1; 1]%nat [9]) (ex_ds s')))) (targeted (mk [1; 1]%nat [9]) (ex_ds s')))
      HC HL Hd)
    as (ds' & EF & _).
  - cbn. now rewrite (sp_X HSP).
  - apply Hacc. apply factors_fit. split; [repeat constructor|reflexivity].
  - split; [repeat constructor|reflexivity].
  - split; reflexivity.
  - cbn. rewrite (sp_orth HSP). cbn. split; [repeat constructor|lia].
  - cbn. lia.
  - eauto.
Qed.

(** *** C43.  [cp_coherent K s]: data, norm, factors and weights belong together and the cache is the one of
    the last updated mode; a fit starts in such a state (C50_precomputed) and no update, successful or
    not, leaves it. *)
Theorem C43_reported_sse_is_true : forall env cs K modes s s' e,
  cp_coherent K s -> Forall (fun m => (m < length (shape (cp_X s)))%nat) modes ->
  cp_update_modes env cs modes s = (s', e) ->
  cp_coherent K s' /\ cp_X s' = cp_X s /\
  cp_SSE env s' = Ok (sse (cp_X s) (kt_fms (cp_dec s')) (vget (kt_w (cp_dec s))) K).
Proof.
  intros env cs K modes s s' e H Hm E. destruct (modes_coherent H Hm E) as [H1 H2].
  split; auto. split; [apply H2|]. rewrite (cp_SSE_ok env H1). now rewrite (sp_X H2), (sp_w H2).
Qed.
Print Assumptions C43_reported_sse_is_true.

Theorem C43_throughout_a_fit : forall env cs cf K ds ds' e,
  cp_coherent K (ds_num ds) -> cp_fit_loop (cp_model env cs) cf ds = (ds', e) ->
  cp_coherent K (ds_num ds') /\
  cp_SSE env (ds_num ds') = Ok (sse (cp_X (ds_num ds)) (kt_fms (cp_dec (ds_num ds'))) (vget (kt_w (cp_dec (ds_num ds)))) K).
Proof.
  intros env cs cf K ds ds' e H E. destruct (fit_reported_true H E) as [H1 H2]. split; auto.
  rewrite (cp_SSE_ok env H1). now rewrite (sp_X H2), (sp_w H2).
Qed.
Print Assumptions C43_throughout_a_fit.

Theorem C43_reported_loss : forall env cs K s,
  cp_coherent K s -> (forall r, (r < K)%nat -> vget (kt_w (cp_dec s)) r = 1) ->
  cp_loss env cs s = Ok (sse (cp_X s) (kt_fms (cp_dec s)) unit_weights K +
    match cs_ridge cs with None => 0 | Some lams => ridge_terms lams (kt_fms (cp_dec s)) end).
Proof. exact cp_loss_ok. Qed.
Print Assumptions C43_reported_loss.

(** Normalising the decomposition in place (eps as in the code or smaller) makes the reported SSE wrong. *)
Theorem C43_after_normalising_refuted : forall env eps,
  svd_works_on 1 1 (env_svd env) -> 0 <= eps < 1 / 2 ->
  exists s' k' l, cp_update_factor env sse_cs sse_state 0 = (s', None) /\
    kt_normalize true eps (cp_dec s') = Ok k' /\
    cp_SSE env (cp_with_dec k' s') = Ok l /\
    l <> sse (cp_X s') (kt_fms k') (vget (kt_w k')) 1.
Proof. exact sse_after_normalising. Qed.
Print Assumptions C43_after_normalising_refuted.

Example C43_example : cp_coherent 1 sse_state /\
  cp_SSE ex_env sse_state = Ok (sse (mk [1; 1]%nat [1]) [mk [1; 1]%nat [7]; mk [1; 1]%nat [1 / 2]] unit_weights 1) /\
  sse (mk [1; 1]%nat [1]) [mk [1; 1]%nat [7]; mk [1; 1]%nat [1 / 2]] unit_weights 1 = 25 / 4 /\
  svd_works_on 1 1 (env_svd ex_env).
Proof.
  split; [exact sse_coherent|]. split.
  { rewrite (cp_SSE_ok ex_env sse_coherent), (@unit_sse 1 sse_state (start_unit _ _ _ _)). reflexivity. }
  split; [|now apply svd_row_works]. ev. lra.
Qed.

(** *** C44.  [free_mode]: no constraint on mode m and no penalties. *)
Theorem C44_update_is_optimal : forall env cs K s m,
  cp_coherent K s -> cs_rank cs = K -> (m < length (shape (cp_X s)))%nat -> free_mode cs s m ->
  svd_works_on K K (env_svd env) ->
  exists s' Z, cp_update_factor env cs s m = (s', None) /\ is_mat (nth m (shape (cp_X s)) 0%nat) K Z /\
    kt_fms (cp_dec s') = with_factor m Z (kt_fms (cp_dec s)) /\ kt_w (cp_dec s') = kt_w (cp_dec s) /\
    forall Z', sse (cp_X s) (with_factor m Z (kt_fms (cp_dec s))) unit_weights K <=
               sse (cp_X s) (with_factor m Z' (kt_fms (cp_dec s))) unit_weights K.
Proof.
  intros env cs K s m H HK Hm HF HN.
  destruct (update_optimal H HK Hm HF HN) as (s' & Z & E & HZ & Hfm & HSP & _ & Hopt).
  exists s', Z. split; [exact E|]. split; [exact HZ|]. split; [exact Hfm|]. split; [apply HSP|exact Hopt].
Qed.
Print Assumptions C44_update_is_optimal.

Example C44_example : cp_coherent 1 sse_state /\ free_mode sse_cs sse_state 0 /\ svd_works_on 1 1 (env_svd ex_env).
Proof. split; [exact sse_coherent|]. split; [apply sse_free; cbn; lia|now apply svd_row_works]. Qed.

(** *** C45 *)
Theorem C45_sse_never_increases : forall env cs K s,
  svd_works_on K K (env_svd env) -> cs_rank cs = K -> cp_coherent K s -> free_fit cs s ->
  let L k := sse (cp_X s) (kt_fms (cp_dec (state_after (cp_model env cs) s k))) unit_weights K in
  (forall k, snd (md_update (cp_model env cs) (state_after (cp_model env cs) s k)) = None) /\
  forall j k, (j <= k)%nat -> L k <= L j.
Proof.
  intros env cs K s HN HK H HF L. split; [now apply free_never_raises with (K := K)|].
  now apply sse_antitone.
Qed.
Print Assumptions C45_sse_never_increases.

Theorem C45_fit_never_worse : forall env cs K cf ds ds' e,
  svd_works_on K K (env_svd env) -> cs_rank cs = K -> cp_coherent K (ds_num ds) -> free_fit cs (ds_num ds) ->
  cp_fit_loop (cp_model env cs) cf ds = (ds', e) ->
  sse (cp_X (ds_num ds)) (kt_fms (cp_dec (ds_num ds'))) unit_weights K <=
  sse (cp_X (ds_num ds)) (kt_fms (cp_dec (ds_num ds))) unit_weights K.
Proof. exact fit_sse_le. Qed.
Print Assumptions C45_fit_never_worse.

(** The relative change is NaN if the SSE was zero already and otherwise lies between 0 and 1. *)
Theorem C45_relative_change : forall env cs K s,
  svd_works_on K K (env_svd env) -> cs_rank cs = K -> cp_coherent K s ->
  (forall r, (r < K)%nat -> vget (kt_w (cp_dec s)) r = 1) -> free_fit cs s ->
  forall k r0, let L j := sse (cp_X s) (kt_fms (cp_dec (state_after (cp_model env cs) s j))) unit_weights K in
  exists r, rel_at (cp_model env cs) (Fin (L 0%nat)) r0 s (S k) = Ok r /\
    ((L k = 0 /\ r = NaN) \/ (0 < L k /\ exists q, r = Fin q /\ 0 <= q <= 1)).
Proof. exact rel_nonneg. Qed.
Print Assumptions C45_relative_change.

Example C45_example : cp_coherent 1 sse_state /\ free_fit sse_cs sse_state /\ svd_works_on 1 1 (env_svd ex_env) /\
  unit_w 1 sse_state.
Proof.
  split; [exact sse_coherent|]. split; [exact sse_free|]. split; [now apply svd_row_works|apply start_unit].
Qed.

(** *** C46 *)
Theorem C46_update_is_nonnegative : forall env cs K s m lam,
  cp_coherent K s -> cs_rank cs = K -> (m < length (shape (cp_X s)))%nat ->
  flag (cp_nn s) m true -> flag (cp_orth s) m false -> penalty cs m lam -> 0 <= lam ->
  nnls_contract (env_nnls env) ->
  let n := nth m (shape (cp_X s)) 0%nat in
  let D := normal_dist K (cp_X s) (kt_fms (cp_dec s)) m in
  exists s' Z, cp_update_factor env cs s m = (s', None) /\ is_mat n K Z /\
    kt_fms (cp_dec s') = with_factor m Z (kt_fms (cp_dec s)) /\ nonneg_mat n K (mget Z) /\
    forall Y, nonneg_mat n K Y -> D (mget Z) + lam * frob2 n K (mget Z) <= D Y + lam * frob2 n K Y.
Proof.
  intros env cs K s m lam H HK Hm H1 H2 H3 Hl HN n D.
  destruct (update_nonneg H HK Hm H1 H2 H3 Hl HN) as (s' & Z & E & HZ & Hfm & _ & _ & Hnn & Hopt).
  exists s', Z. split; [exact E|]. split; [exact HZ|]. split; [exact Hfm|]. split; [exact Hnn|exact Hopt].
Qed.
Print Assumptions C46_update_is_nonnegative.

(** Every non-negative mode, from the first completed iteration on; or from the start, if it is then. *)
Theorem C46_fit_stays_nonnegative : forall env cs K s m,
  cs_rank cs = K -> nnls_contract (env_nnls env) -> penalties_ok cs ->
  cp_coherent K s -> flag (cp_nn s) m true -> (m < length (shape (cp_X s)))%nat ->
  forall k, (forall j, (j < k)%nat -> snd (md_update (cp_model env cs) (state_after (cp_model env cs) s j)) = None) ->
  (0 < k)%nat \/ nonneg_factor K s m -> nonneg_factor K (state_after (cp_model env cs) s k) m.
Proof. exact after_nonneg. Qed.
Print Assumptions C46_fit_stays_nonnegative.

Theorem C46_optimal_refuted : forall env, nnls_contract (env_nnls env) ->
  exists s', cp_update_factor env nn_cs nn_state 0 = (s', None) /\
    sse nn_X (kt_fms (cp_dec nn_state)) unit_weights 2 < sse nn_X (kt_fms (cp_dec s')) unit_weights 2.
Proof. exact nonneg_not_optimal. Qed.
Print Assumptions C46_optimal_refuted.

Example C46_example : cp_coherent 2 nn_state /\ flag (cp_nn nn_state) 0 true /\ flag (cp_orth nn_state) 0 false /\
  penalty nn_cs 0 0 /\ penalties_ok nn_cs /\ nonneg_factor 2 nn_state 0.
Proof.
  split; [exact nn_coherent|]. split; [exists [true; false]; auto|]. split; [exists [false; false]; auto|].
  split; [reflexivity|]. split; [intros m lam ->; lra|].
  intros i r Hi Hr. cbn in Hi. replace i with 0%nat by lia. destruct r as [|[|r]]; [| |lia]; ev; lra.
Qed.

(** Environments meeting all the contracts used in C42-C50 exist. *)
Example C46_environment_exists : exists env, svd_contract (env_svd env) /\ nnls_contract (env_nnls env) /\
  forall n m, svd_works_on n m (env_svd env).
Proof.
  destruct svd_contract_satisfiable as (svd & Hs). destruct nnls_contract_satisfiable as (nnls & Hn).
  exists {| env_svd := svd; env_svd_u := fun A => do (U, _, _) <- svd A ; Ok U; env_qr := fun A => do (U, _, _) <- svd A ; Ok U;
            env_nnls := nnls; env_junk := fun _ _ => 0 |}.
  split; [exact Hs|]. split; [exact Hn|]. intros n m A HA. exact (Hs n m A HA).
Qed.

(** *** C47 *)
Theorem C47_what_the_update_minimises : forall env cs K s m lam,
  cp_coherent K s -> cs_rank cs = K -> (m < length (shape (cp_X s)))%nat ->
  flag (cp_nn s) m false -> flag (cp_orth s) m false -> cs_ridge cs <> None -> penalty cs m lam -> 0 <= lam ->
  svd_works_on K (K + K) (env_svd env) ->
  let n := nth m (shape (cp_X s)) 0%nat in
  let D := normal_dist K (cp_X s) (kt_fms (cp_dec s)) m in
  exists s' Z, cp_update_factor env cs s m = (s', None) /\ is_mat n K Z /\
    kt_fms (cp_dec s') = with_factor m Z (kt_fms (cp_dec s)) /\
    forall Y, D (mget Z) + lam * frob2 n K (mget Z) <= D Y + lam * frob2 n K Y.
Proof.
  intros env cs K s m lam H HK Hm H1 H2 H0 H3 Hl HN n D.
  destruct (update_ridge H HK Hm H1 H2 H0 H3 Hl HN) as (s' & Z & E & HZ & Hfm & _ & _ & Hopt).
  exists s', Z. split; [exact E|]. split; [exact HZ|]. split; [exact Hfm|exact Hopt].
Qed.
Print Assumptions C47_what_the_update_minimises.

Theorem C47_documented_loss_refuted : forall env, svd_works_on 1 2 (env_svd env) ->
  exists s' l l', cp_update_factor env ridge_cs ridge_state 0 = (s', None) /\
    cp_loss env ridge_cs ridge_state = Ok l /\ cp_loss env ridge_cs s' = Ok l' /\ l < l'.
Proof. exact ridge_not_optimal. Qed.
Print Assumptions C47_documented_loss_refuted.

Example C47_example : cp_coherent 1 ridge_state /\ flag (cp_nn ridge_state) 0 false /\ flag (cp_orth ridge_state) 0 false /\
  cs_ridge ridge_cs <> None /\ penalty ridge_cs 0 1 /\ svd_works_on 1 2 (env_svd ex_env).
Proof.
  split; [exact ridge_coherent|]. split; [exists [false; false]; auto|]. split; [exists [false; false]; auto|].
  split; [discriminate|]. split; [reflexivity|]. apply svd_row_works. lia.
Qed.

(** *** C48.  [MV]: the product M V. *)
Theorem C48_update_is_orthonormal : forall env cs K s m lam U Sv Vh,
  cp_coherent K s -> cs_rank cs = K -> (m < length (shape (cp_X s)))%nat ->
  flag (cp_nn s) m false -> flag (cp_orth s) m true -> penalty cs m lam -> 0 <= lam ->
  let n := nth m (shape (cp_X s)) 0%nat in
  let N := tab2 n K (MV K s m) in
  let D := normal_dist K (cp_X s) (kt_fms (cp_dec s)) m in
  (0 < K <= n)%nat -> env_svd env N = Ok (U, Sv, Vh) -> is_svd n K N U Sv Vh ->
  (forall r, (r < K)%nat -> INR n * vget Sv 0 * / 10 ^ 16 < vget Sv r) ->
  exists s' Z, cp_update_factor env cs s m = (s', None) /\ is_mat n K Z /\
    kt_fms (cp_dec s') = with_factor m Z (kt_fms (cp_dec s)) /\ orth_cols n K (mget Z) /\
    forall Y, orth_cols n K Y -> D (mget Z) <= D Y.
Proof.
  intros env cs K s m lam U Sv Vh H HK Hm H1 H2 H3 Hl n N D Hk ES HS Htr.
  destruct (update_orth H HK Hm H1 H2 H3 Hl Hk ES HS Htr) as (s' & Z & E & HZ & Hfm & _ & _ & HO & Hopt).
  exists s', Z. split; [exact E|]. split; [exact HZ|]. split; [exact Hfm|]. split; [exact HO|exact Hopt].
Qed.
Print Assumptions C48_update_is_orthonormal.

Theorem C48_optimal_refuted : forall env, svd_works_on 2 2 (env_svd env) ->
  exists s', cp_update_factor env orth_cs orth_state 0 = (s', None) /\
    orth_cols 2 2 (mget (nth 0 (kt_fms (cp_dec s')) m0)) /\
    sse orth_X (kt_fms (cp_dec orth_state)) unit_weights 2 < sse orth_X (kt_fms (cp_dec s')) unit_weights 2.
Proof. exact orth_not_optimal. Qed.
Print Assumptions C48_optimal_refuted.

Theorem C48_both_constraints_raise : forall env cs K s m,
  cp_coherent K s -> cs_rank cs = K -> (m < length (shape (cp_X s)))%nat ->
  flag (cp_nn s) m true -> flag (cp_orth s) m true ->
  cp_update_factor env cs s m = (s, Some ValueError).
Proof. exact both_constraints. Qed.
Print Assumptions C48_both_constraints_raise.

Example C48_example : cp_coherent 2 orth_state /\ flag (cp_nn orth_state) 0 false /\ flag (cp_orth orth_state) 0 true /\
  penalty orth_cs 0 0 /\ orth_cols 2 2 (mget (nth 0 (kt_fms (cp_dec orth_state)) m0)).
Proof.
  split; [exact orth_coherent|]. split; [exists [false; false]; auto|]. split; [exists [true; false]; auto|].
  split; [reflexivity|exact orth_start_ok].
Qed.

(** *** C49 *)
Theorem C49_case_insensitive : forall env cs cs' disk draws arg ds,
  cs_rank cs = cs_rank cs' -> cs_ridge cs = cs_ridge cs' -> lower (cs_init cs) = lower (cs_init cs') ->
  In (lower (cs_init cs)) ["random"; "svd"; "from_checkpoint"; "precomputed"]%string ->
  cp_init_components env cs disk draws arg ds = cp_init_components env cs' disk draws arg ds.
Proof. exact init_case_insensitive. Qed.
Print Assumptions C49_case_insensitive.

Theorem C49_warns : forall env cs disk draws arg ds,
  arg <> NoArg -> lower (cs_init cs) <> "precomputed"%string -> lower (cs_init cs) <> "from_checkpoint"%string ->
  cp_init_components env cs disk draws arg ds = (ds, Some WarningExc).
Proof. exact init_warning. Qed.
Print Assumptions C49_warns.

Theorem C49_unknown_init : forall env cs disk draws ds,
  ~ In (lower (cs_init cs)) ["random"; "svd"; "from_checkpoint"; "precomputed"]%string -> disk (cs_init cs) = None ->
  cp_init_components env cs disk draws NoArg ds = (ds, Some ValueError).
Proof. exact init_unknown. Qed.
Print Assumptions C49_unknown_init.

Theorem C49_svd_rank_too_large : forall env cs disk draws ds,
  lower (cs_init cs) = "svd"%string -> (exists n, In n (shape (cp_X (ds_num ds))) /\ (n < cs_rank cs)%nat) ->
  cp_init_components env cs disk draws NoArg ds = (ds, Some ValueError).
Proof. exact init_svd_rank. Qed.
Print Assumptions C49_svd_rank_too_large.

Theorem C49_svd_orthonormal : forall env cs disk draws ds,
  lower (cs_init cs) = "svd"%string -> svd_u_contract (env_svd_u env) ->
  let X := cp_X (ds_num ds) in
  wf X -> shape X <> [] -> (0 < cs_rank cs)%nat -> (forall n, In n (shape X) -> (cs_rank cs <= n)%nat) ->
  exists d, cp_init_components env cs disk draws NoArg ds = (with_num (cp_with_dec d (ds_num ds)) ds, None) /\
    factors_ok (cs_rank cs) X (kt_fms d) /\ kt_w d = np_ones [cs_rank cs] /\ kt_rank d = cs_rank cs /\
    forall U, In U (kt_fms d) -> orth_cols (nrows U) (cs_rank cs) (mget U).
Proof. exact init_svd_ok. Qed.
Print Assumptions C49_svd_orthonormal.

Theorem C49_precomputed_accepts_exactly : forall env cs disk draws ds d,
  lower (cs_init cs) = "precomputed"%string ->
  let fits := forall i U, nth_error (kt_fms d) i = Some U ->
                exists n, nth_error (shape (cp_X (ds_num ds))) i = Some n /\ shape U = [n; cs_rank cs] in
  (fits -> cp_init_components env cs disk draws (DecArg d) ds = (with_num (cp_with_dec d (ds_num ds)) ds, None)) /\
  (~ fits -> exists e, cp_init_components env cs disk draws (DecArg d) ds = (ds, Some e)).
Proof. exact init_precomputed. Qed.
Print Assumptions C49_precomputed_accepts_exactly.

(** Fewer modes than the data: accepted. *)
Theorem C49_fewer_modes_accepted : exists cs ds d, lower (cs_init cs) = "precomputed"%string /\
  length (kt_fms d) = 2%nat /\ length (shape (cp_X (ds_num ds))) = 3%nat /\
  forall env disk draws,
    cp_init_components env cs disk draws (DecArg d) ds = (with_num (cp_with_dec d (ds_num ds)) ds, None).
Proof.
  exists pre_cs, (ex_ds (start 1 (mk [1; 1; 4]%nat [1; 2; 3; 4]) [] [] [])), ex_k.
  split; [reflexivity|]. split; [reflexivity|]. split; [reflexivity|]. intros env disk draws. reflexivity.
Qed.
Print Assumptions C49_fewer_modes_accepted.

Example C49_example : svd_u_contract (fun A => Ok (np_identity (nrows A))) /\
  lower "Precomputed" = "precomputed"%string /\ lower "sVD" = "svd"%string.
Proof.
  split; [|split; reflexivity]. intros n m A HA. eexists. split; [reflexivity|].
  assert (Hn : nrows A = n) by (unfold nrows; now rewrite (proj2 HA)). rewrite Hn.
  split; [apply is_mat_tab2|]. intros a b Ha Hb.
  transitivity (sum n (fun i => delta a i * delta i b)).
  - apply sum_ext. intros i Hi. unfold np_identity. rewrite !mget_tab2 by auto. unfold delta.
    rewrite (Nat.eqb_sym a i). reflexivity.
  - now rewrite sum_delta_l.
Qed.

(** *** C50 *)
Theorem C50_precomputed : forall env cs disk draws X max_its ds K d,
  lower (cs_init cs) = "precomputed"%string -> cs_rank cs = K -> cp_last (ds_num ds) = None ->
  data_ok X -> factors_ok K X (kt_fms d) -> is_vec K (kt_w d) ->
  all_false (cp_orth (ds_num ds)) (length (shape X)) ->
  exists ds1, cp_init_fit env cs disk draws X max_its (DecArg d) ds = (ds1, None) /\
    kt_fms (cp_dec (ds_num ds1)) = kt_fms d /\ is_vec K (kt_w (cp_dec (ds_num ds1))) /\
    (forall r, (r < K)%nat -> vget (kt_w (cp_dec (ds_num ds1))) r = 1) /\
    cp_coherent K (ds_num ds1) /\ ds_prev ds1 = Fin (sse X (kt_fms d) unit_weights K).
Proof. exact precomputed_weights. Qed.
Print Assumptions C50_precomputed.

(** Entry by entry, what resetting the weights does to the tensor: nothing if they were one. *)
Theorem C50_change_of_the_tensor : forall Us w K idx,
  cp_entry Us unit_weights K idx - cp_entry Us w K idx = sum K (fun r => (1 - w r) * colprod Us idx r).
Proof. exact entry_change. Qed.
Print Assumptions C50_change_of_the_tensor.

(** The caller's object: whatever happens in the fit, its weights are one afterwards. *)
Theorem C50_callers_object : forall env cs cf disk draws X max_its a objs ds K objs' ds' e,
  lower (cs_init cs) = "precomputed"%string -> cs_rank cs = K -> cp_last (ds_num ds) = None ->
  data_ok X -> factors_ok K X (kt_fms (objs a)) -> is_vec K (kt_w (objs a)) ->
  all_false (cp_orth (ds_num ds)) (length (shape X)) ->
  cp_fit_ref env cs cf disk draws X max_its a objs ds = (objs', ds', e) ->
  (forall r, (r < K)%nat -> vget (kt_w (objs' a)) r = 1) /\ (forall b, b <> a -> objs' b = objs b).
Proof. exact fit_ref_weights. Qed.
Print Assumptions C50_callers_object.

(** A decomposition of the data, with weights, is not one after the reset. *)
Theorem C50_same_tensor_refuted : exists X d, data_ok X /\ factors_ok 1 X (kt_fms d) /\ is_vec 1 (kt_w d) /\
  sse X (kt_fms d) (vget (kt_w d)) 1 = 0 /\ 0 < sse X (kt_fms d) unit_weights 1 /\
  forall env disk draws, exists ds1,
    cp_init_fit env pre_cs disk draws X None (DecArg d) (ex_ds (fresh_cp None None)) = (ds1, None) /\
    cp_SSE env (ds_num ds1) = Ok (sse X (kt_fms d) unit_weights 1).
Proof.
  exists (mk [1; 1]%nat [21 / 2]), ex_k.
  assert (HX : data_ok (mk [1; 1]%nat [21 / 2])) by (split; [reflexivity|]; split; [cbn; lia|]; repeat constructor; discriminate).
  assert (HF : factors_ok 1 (mk [1; 1]%nat [21 / 2]) (kt_fms ex_k)) by (split; [repeat constructor|reflexivity]).
  split; [exact HX|]. split; [exact HF|]. split; [split; reflexivity|].
  split; [ev; lra|]. split; [ev; lra|]. intros env disk draws.
  destruct (@precomputed_weights env pre_cs disk draws _ None (ex_ds (fresh_cp None None)) 1 ex_k eq_refl eq_refl eq_refl HX HF)
    as (ds1 & E & Hfm & Hw & Hu & HC & _); [split; reflexivity|exact I|].
  exists ds1. split; [exact E|]. rewrite (cp_SSE_ok env HC), (unit_sse Hu), Hfm.
  assert (EX : cp_X (ds_num ds1) = mk [1; 1]%nat [21 / 2]).
  { unfold cp_init_fit in E. destruct (cp_init_components _ _ _ _ _ _) as [d1 [e1|]] eqn:E1; [discriminate|].
    destruct (init_keeps_last E1) as (_ & _ & HX1 & _). cbn in HX1.
    destruct (cp_orthonormalise _ _) as [s2|] eqn:EO; [|discriminate].
    destruct (cp_SSE _ _) as [l|]; [|discriminate]. injection E as <-. cbn.
    unfold cp_orthonormalise in EO. destruct (not_none _); cbn [bind] in EO; [|discriminate].
    destruct (foldM _ _ _); cbn [bind] in EO; [|discriminate]. injection EO as <-. cbn. exact HX1. }
  now rewrite EX.
Qed.
Print Assumptions C50_same_tensor_refuted.

Example C50_example : lower (cs_init pre_cs) = "precomputed"%string /\ data_ok (mk [1; 1]%nat [1]) /\
  factors_ok 1 (mk [1; 1]%nat [1]) (kt_fms ex_k) /\ is_vec 1 (kt_w ex_k) /\ all_false None 2 /\ vget (kt_w ex_k) 0 = 3.
Proof.
  split; [reflexivity|]. split; [exact ex_data|]. split; [exact ex_factors|]. split; [split; reflexivity|].
  split; [exact I|]. reflexivity.
Qed.
