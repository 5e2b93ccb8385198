(** Properties C30-C39: the fit loops, checkpoint files and loggers of decomposers. *)
From Verif Require Import FitExamples.
Local Open Scope nat_scope.

(** *** C30 *)
(** Whatever happens (an exception included), the numeric state is the one after some number [n] of
    updates; [n] is at most the budget, no stopping rule held before any of these updates, and a fit
    without exception has used its budget or its rule holds now. *)
Theorem C30_cp_loop : forall St D (md : model St D) cf ds ds' e,
  cp_fit_loop md cf ds = (ds', e) ->
  let stops := cp_stops md cf (ds_prev ds) (ds_rel ds) (ds_num ds) in
  let budget := Z.to_nat (ds_max ds - ds_it ds) in
  exists n, n <= budget /\ ds_num ds' = state_after md (ds_num ds) n /\
    (forall k, k < n -> stops k = Ok false) /\
    (e = None -> (n = budget \/ stops n = Ok true) /\ ds_it ds' = (ds_it ds + Z.of_nat n)%Z).
Proof. exact @cp_fit_lemma. Qed.
Print Assumptions C30_cp_loop.

Theorem C30_parafac2_loop : forall St D (md : model St D) cf ds ds' e s,
  md_prepare md (ds_num ds) = (s, None) -> pf_fit_loop md cf ds = (ds', e) ->
  let stops := pf_stops md cf (ds_prev ds) (ds_rel ds) s in
  let budget := Z.to_nat (ds_max ds - ds_it ds) in
  exists n, n <= budget /\ ds_num ds' = state_after md s n /\
    (forall k, k < n -> stops k = Ok false) /\
    (e = None -> (n = budget \/ stops n = Ok true) /\ ds_it ds' = (ds_it ds + Z.of_nat n)%Z).
Proof. exact @pf_fit_lemma. Qed.
Print Assumptions C30_parafac2_loop.

(** The loops add no exceptions of their own (without checkpoints; for checkpoints see C32). *)
Theorem C30_cp_no_exception : forall St D (md : model St D) cf ds,
  (cf_freq cf < 0)%Z -> (ds_it ds < ds_max ds)%Z -> quiet md ds (Z.to_nat (ds_max ds - ds_it ds)) ->
  snd (cp_fit_loop md cf ds) = None.
Proof. exact @cp_quiet_neg. Qed.
Print Assumptions C30_cp_no_exception.
Theorem C30_parafac2_no_exception : forall St D (md : model St D) cf ds s,
  (cf_freq cf < 0)%Z -> cf_print cf <> 0%Z -> md_prepare md (ds_num ds) = (s, None) ->
  quiet md (with_num s ds) (Z.to_nat (ds_max ds - ds_it ds)) -> snd (pf_fit_loop md cf ds) = None.
Proof. exact @pf_quiet_neg. Qed.
Print Assumptions C30_parafac2_no_exception.

(** A fit that stops by its rule after 2 of 5 updates; one that uses its budget; one of PARAFAC2. *)
Example C30_example_stops :
  exists d, cp_fit_loop two_steps (ex_cf (-1)) (start 0%Z NaN 0 5 [toy_log "LossLogger"] None) = (d, None) /\
    ds_num d = 2%Z /\ ds_it d = 2%Z /\ cp_stops two_steps (ex_cf (-1)) NaN PInf 0%Z 2 = Ok true.
Proof.
  eexists. run. destruct (Rlt_dec 1 0); [exfalso; lra|]. repeat split.
Qed.
Example C30_example_budget :
  exists d, cp_fit_loop endless (ex_cf (-1)) (start 0%Z NaN 2 5 [toy_log "LossLogger"] None) = (d, None) /\
    ds_num d = 3%Z /\ ds_it d = 5%Z.
Proof. by_run. Qed.
Example C30_example_parafac2 :
  exists d, pf_fit_loop flat (ex_cf (-1)) (start 0%Z NaN 0 9 [] None) = (d, None) /\ ds_num d = 3%Z.
Proof.
  eexists. run.
  destruct (Req_EM_T 1 0); [exfalso; lra|].
  destruct (Rlt_dec (Rabs ((1 - 1) / 1)) 1) as [|H].
  2:{ exfalso. apply H. replace ((1 - 1) / 1)%R with 0%R by lra. rewrite Rabs_R0. lra. }
  repeat split.
Qed.

(** *** C31 *)
Theorem C31_cp_without_budget : forall St D (md : model St D) cf ds,
  (ds_max ds <= ds_it ds)%Z -> cp_fit_loop md cf ds = (ds, Some UnboundLocalError).
Proof. exact @cp_no_budget. Qed.
Print Assumptions C31_cp_without_budget.

(** fit(max_its <= 0); resuming at or past the budget; continuing when the budget has been used up *)
Theorem C31_cp_fit_zero : forall St D (md : model St D) cf s prev max logs f,
  (max <= 0)%Z -> snd (cp_fit_loop md cf (start s prev 0 max logs f)) = Some UnboundLocalError.
Proof. intros. rewrite cp_no_budget; [reflexivity|]. exact H. Qed.
Print Assumptions C31_cp_fit_zero.
Theorem C31_cp_resume : forall St D (md : model St D) cf f i d dl prev max logs file,
  stored_at md f i d -> final_attr f <> None -> md_check md (ds_num dl) d = Ok tt -> (max <= i)%Z ->
  let d1 := fst (load_checkpoint md f (Some i) dl) in
  snd (cp_fit_loop md cf (start (ds_num d1) prev (ds_it d1) max logs file)) = Some UnboundLocalError.
Proof.
  intros St D md cf f i d dl prev max logs file H1 H2 H3 H4 d1. rewrite cp_no_budget; [reflexivity|].
  unfold d1. rewrite (load_at H1 H2 H3). exact H4.
Qed.
Print Assumptions C31_cp_resume.
Theorem C31_cp_continue : forall St D (md : model St D) cf ds d1,
  cp_fit_loop md cf ds = (d1, None) -> ds_it d1 = ds_max d1 ->
  cp_continue_fit md cf None d1 = (d1, Some UnboundLocalError).
Proof. intros St D md cf ds d1 _ H. apply cp_no_budget. rewrite H. apply Z.le_refl. Qed.
Print Assumptions C31_cp_continue.

(** PARAFAC2: no update is made; the only thing that happens is the final checkpoint, if one is due *)
Theorem C31_parafac2_without_budget : forall St D (md : model St D) cf ds s,
  (ds_max ds <= ds_it ds)%Z -> md_prepare md (ds_num ds) = (s, None) -> cf_freq cf <> 0%Z ->
  pf_fit_loop md cf ds =
    if ((0 <? cf_freq cf) && negb ((ds_it ds + 1) mod cf_freq cf =? 0))%Z
    then store_checkpoint md (with_num s ds) else (with_num s ds, None).
Proof.
  intros St D md cf ds s H1 H2 H3. rewrite (pf_no_budget _ H1 H2). apply Z.eqb_neq in H3. rewrite H3.
  rewrite Bool.andb_comm. reflexivity.
Qed.
Print Assumptions C31_parafac2_without_budget.

Example C31_example :
  snd (cp_fit_loop endless (ex_cf (-1)) (start 0%Z NaN 0 0 [] None)) = Some UnboundLocalError /\
  (exists d, cp_fit_loop endless (ex_cf (-1)) (start 0%Z NaN 0 3 [] None) = (d, None) /\ ds_it d = ds_max d /\
     snd (cp_continue_fit endless (ex_cf (-1)) None d) = Some UnboundLocalError) /\
  snd (pf_fit_loop endless (ex_cf (-1)) (start 0%Z NaN 0 0 [] None)) = None.
Proof. by_run. Qed.

(** *** C32 *)
Theorem C32_cp_checkpoints : forall St D (md : model St D) cf ds f0 ds' e,
  checkpointed md cf ds (ds_num ds) f0 -> unused ds f0 -> cp_fit_loop md cf ds = (ds', e) ->
  (e = None -> exists n last f,
    ds_num ds' = state_after md (ds_num ds) n /\ ds_it ds' = (ds_it ds + Z.of_nat n)%Z /\
    ((n = Z.to_nat (ds_max ds - ds_it ds) /\ n = S last) \/
     (n < Z.to_nat (ds_max ds - ds_it ds) /\
      cp_stops md cf (ds_prev ds) (ds_rel ds) (ds_num ds) n = Ok true /\ last = n)) /\
    ds_file ds' = Some f /\
    run_file md cf (ds_num ds) (ds_it ds) f0 f n (negb ((Z.of_nat last + 1) mod cf_freq cf =? 0)%Z)) /\
  ((ds_it ds < ds_max ds)%Z -> quiet md ds (Z.to_nat (ds_max ds - ds_it ds)) -> e = None).
Proof.
  intros St D md cf ds f0 ds' e (H1 & H2 & H3 & H4 & H5 & H6) HU HF.
  destruct (cp_run_lemma H1 H2 H3 H4 H5 H6 HU HF) as [K1 K2]. split; [|exact K2].
  intros He. destruct (K1 He) as (n & last & f & A & B & C & E & _ & _ & F). exists n, last, f. tauto.
Qed.
Print Assumptions C32_cp_checkpoints.

Theorem C32_parafac2_checkpoints : forall St D (md : model St D) cf ds s f0 ds' e,
  md_prepare md (ds_num ds) = (s, None) -> checkpointed md cf ds s f0 -> unused ds f0 ->
  pf_fit_loop md cf ds = (ds', e) ->
  (e = None -> exists n f,
    ds_num ds' = state_after md s n /\ ds_it ds' = (ds_it ds + Z.of_nat n)%Z /\
    (n = Z.to_nat (ds_max ds - ds_it ds) \/
     (n < Z.to_nat (ds_max ds - ds_it ds) /\ pf_stops md cf (ds_prev ds) (ds_rel ds) s n = Ok true)) /\
    ds_file ds' = Some f /\
    run_file md cf s (ds_it ds) f0 f n (negb ((ds_it ds + Z.of_nat n + 1) mod cf_freq cf =? 0)%Z)) /\
  (quiet md (with_num s ds) (Z.to_nat (ds_max ds - ds_it ds)) -> cf_print cf <> 0%Z -> e = None).
Proof.
  intros St D md cf ds s f0 ds' e Hp (H1 & H2 & H3 & H4 & H5 & H6) HU HF.
  destruct (pf_run_lemma H1 H2 Hp H3 H4 H5 H6 HU HF) as [K1 K2]. split; [|exact K2].
  intros He. destruct (K1 He) as (n & f & A & B & C & E & _ & _ & F). exists n, f. tauto.
Qed.
Print Assumptions C32_parafac2_checkpoints.

Theorem C32_nothing_written : forall St D (md : model St D) cf ds ds' e,
  (cf_freq cf <= 0)%Z ->
  (cp_fit_loop md cf ds = (ds', e) -> ds_file ds' = ds_file ds) /\
  (pf_fit_loop md cf ds = (ds', e) -> ds_file ds' = ds_file ds).
Proof. intros St D md cf ds ds' e H. split; [exact (cp_nothing_written H)|exact (pf_nothing_written H)]. Qed.
Print Assumptions C32_nothing_written.

Theorem C32_frequency_zero : forall St D (md : model St D) cf ds,
  cf_freq cf = 0%Z -> (ds_it ds < ds_max ds)%Z -> quiet md ds 1 ->
  snd (cp_fit_loop md cf ds) = Some ZeroDivisionError.
Proof. exact @cp_freq_zero. Qed.
Print Assumptions C32_frequency_zero.

(** Budget 5, frequency 2: the periodic checkpoints 1 and 3 (after 2 and 4 updates) and the final
    one, which is named 5 and holds the fifth iterate. *)
Example C32_example :
  checkpointed endless (ex_cf 2) (start 0%Z NaN 0 5 [toy_log "LossLogger"] (Some empty_file)) 0%Z empty_file /\
  unused (start 0%Z NaN 0 5 [toy_log "LossLogger"] (Some empty_file)) empty_file /\
  exists d f, cp_fit_loop endless (ex_cf 2) (start 0%Z NaN 0 5 [toy_log "LossLogger"] (Some empty_file)) = (d, None) /\
    ds_file d = Some f /\ its_attr f = [1; 3; 5]%Z /\ stored_at endless f 1 2%Z /\ stored_at endless f 5 5%Z.
Proof.
  split; [now apply toy_checkpointed|]. split; [apply toy_unused|]. by_run.
Qed.

(** *** C33 *)
Theorem C33_cp_budget_keeps : forall St D (md : model St D) cf ds f0 ds',
  checkpointed md cf ds (ds_num ds) f0 -> (forall i, ~ has_ckpt f0 i) -> ds_it ds = 0%Z ->
  cp_fit_loop md cf ds = (ds', None) -> ds_it ds' = ds_max ds ->
  exists f, ds_file ds' = Some f /\ keeps_final md f (ds_num ds) (Z.to_nat (ds_max ds)).
Proof. exact @C33_cp_budget_lemma. Qed.
Print Assumptions C33_cp_budget_keeps.

Theorem C33_cp_stopped : forall St D (md : model St D) cf ds f0 ds',
  checkpointed md cf ds (ds_num ds) f0 -> (forall i, ~ has_ckpt f0 i) -> ds_it ds = 0%Z ->
  cp_fit_loop md cf ds = (ds', None) -> (ds_it ds' < ds_max ds)%Z ->
  let n := Z.to_nat (ds_it ds') in
  let f := cf_freq cf in
  exists file, ds_file ds' = Some file /\
    ((((Z.of_nat n + 1) mod f = 0 /\ (1 < f \/ n = 0%nat))%Z -> loses_final file n) /\
     (~ ((Z.of_nat n + 1) mod f = 0 /\ (1 < f \/ n = 0%nat))%Z -> keeps_final md file (ds_num ds) n)).
Proof. exact @C33_cp_stopped_lemma. Qed.
Print Assumptions C33_cp_stopped.

Theorem C33_parafac2 : forall St D (md : model St D) cf ds s f0 ds',
  md_prepare md (ds_num ds) = (s, None) ->
  checkpointed md cf ds s f0 -> (forall i, ~ has_ckpt f0 i) -> ds_it ds = 0%Z ->
  pf_fit_loop md cf ds = (ds', None) ->
  let n := Z.to_nat (ds_it ds') in
  let f := cf_freq cf in
  exists file, ds_file ds' = Some file /\
    ((((Z.of_nat n + 1) mod f = 0 /\ (1 < f \/ n = 0%nat))%Z -> loses_final file n) /\
     (~ ((Z.of_nat n + 1) mod f = 0 /\ (1 < f \/ n = 0%nat))%Z -> keeps_final md file s n)).
Proof. exact @C33_pf_lemma. Qed.
Print Assumptions C33_parafac2.

(** Keeping and losing exclude each other. *)
Theorem C33_exclusive : forall St D (md : model St D) f s n, keeps_final md f s n -> ~ loses_final f n.
Proof. exact @keeps_loses. Qed.
Print Assumptions C33_exclusive.

(** CP stopping after 2 updates with frequency 3 leaves an empty file; PARAFAC2 using its budget of 5
    with frequency 3 leaves the iterate after 3 updates only. *)
Example C33_example_cp :
  exists d, cp_fit_loop two_steps (ex_cf 3) (start 0%Z NaN 0 5 [toy_log "LossLogger"] (Some empty_file)) = (d, None) /\
    ds_num d = 2%Z /\ ds_file d = Some empty_file.
Proof.
  eexists. run. destruct (Rlt_dec 1 0); [exfalso; lra|]. repeat split.
Qed.
Example C33_example_parafac2 :
  exists d f, pf_fit_loop endless (ex_cf 3) (start 0%Z NaN 0 5 [toy_log "LossLogger"] (Some empty_file)) = (d, None) /\
    ds_file d = Some f /\ ds_num d = 5%Z /\ its_attr f = [2%Z] /\ stored_at endless f 2 3%Z.
Proof. by_run. Qed.

(** *** C34 *)
(** What can be loaded from the file of an error-free fit from iteration 0 into a new file *)
Theorem C34_load_periodic : forall St D (md : model St D) cf s f0 f n final j dl,
  run_file md cf s 0 f0 f n final -> (0 < cf_freq cf)%Z -> j < n -> ((Z.of_nat j + 1) mod cf_freq cf = 0)%Z ->
  md_check md (ds_num dl) (md_dec md (state_after md s (S j))) = Ok tt ->
  load_checkpoint md f (Some (Z.of_nat j)) dl =
    (with_num (md_set md (ds_num dl) (md_dec md (state_after md s (S j)))) (with_it (Z.of_nat j) dl), None).
Proof. exact @C34_periodic_lemma. Qed.
Print Assumptions C34_load_periodic.
Theorem C34_load_final : forall St D (md : model St D) cf s f0 f n dl,
  run_file md cf s 0 f0 f n true -> md_check md (ds_num dl) (md_dec md (state_after md s n)) = Ok tt ->
  load_checkpoint md f (Some (Z.of_nat n)) dl =
    (with_num (md_set md (ds_num dl) (md_dec md (state_after md s n))) (with_it (Z.of_nat n) dl), None) /\
  load_checkpoint md f None dl = load_checkpoint md f (Some (Z.of_nat n)) dl.
Proof. exact @C34_final_lemma. Qed.
Print Assumptions C34_load_final.
(** Without a number the checkpoint with the greatest number is loaded. *)
Theorem C34_load_latest : forall St D (md : model St D) cf s f0 f n final dl,
  run_file md cf s 0 f0 f n final -> (forall i, ~ has_ckpt f0 i) -> (0 < cf_freq cf)%Z ->
  (exists i, has_ckpt f i) ->
  exists i, has_ckpt f i /\ (forall j, has_ckpt f j -> (j <= i)%Z) /\
    load_checkpoint md f None dl = load_checkpoint md f (Some i) dl.
Proof. exact @C34_latest_lemma. Qed.
Print Assumptions C34_load_latest.
Theorem C34_missing_iteration : forall St D (md : model St D) f i dl,
  ~ has_ckpt f i -> g_data (f_root f) = [] -> snd (load_checkpoint md f (Some i) dl) = Some ValueError.
Proof. exact @load_missing. Qed.
Print Assumptions C34_missing_iteration.
Theorem C34_not_a_checkpoint_file : forall St D (md : model St D) f it dl,
  final_attr f = None -> load_checkpoint md f it dl = (dl, Some ValueError).
Proof. exact @load_no_file. Qed.
Print Assumptions C34_not_a_checkpoint_file.

Example C34_example :
  exists d f, cp_fit_loop endless (ex_cf 2) (start 0%Z NaN 0 5 [toy_log "LossLogger"] (Some empty_file)) = (d, None) /\
    ds_file d = Some f /\
    ds_num (fst (load_checkpoint endless f (Some 3%Z) (start 77%Z NaN 0 9 [] None))) = 4%Z /\
    ds_it (fst (load_checkpoint endless f (Some 3%Z) (start 77%Z NaN 0 9 [] None))) = 3%Z /\
    ds_num (fst (load_checkpoint endless f None (start 77%Z NaN 0 9 [] None))) = 5%Z /\
    snd (load_checkpoint endless f (Some 4%Z) (start 77%Z NaN 0 9 [] None)) = Some ValueError /\
    snd (load_checkpoint endless empty_file None (start 77%Z NaN 0 9 [] None)) = Some ValueError.
Proof. by_run. Qed.

(** *** C35 *)
(** A run interrupted after checkpoint [i] and resumed with budget [m] ends with the decomposition of
    an uninterrupted run with budget [m + 1]; the interrupted run had logged 0..i, the resumed one
    logs i..m-1, so number [i] occurs in both.  [Rel] relates states in which updates do the same; the
    state that loading the checkpoint gives must be related to the one that was stored.
    (C72_cp_resume: such a relation for CP_ALS.) *)
Theorem C35_resume_shift : forall St D (md : model St D) (Rel : St -> St -> Prop)
    cf s0 f i m dl prev logs file d2 prev' logs' file' d3,
  (forall a b, Rel a b -> md_dec md a = md_dec md b /\ Rel (fst (md_update md a)) (fst (md_update md b))) ->
  Rel (md_set md (ds_num dl) (md_dec md (state_after md s0 (S (Z.to_nat i))))) (state_after md s0 (S (Z.to_nat i))) ->
  (0 <= i < m)%Z ->
  stored_at md f i (md_dec md (state_after md s0 (S (Z.to_nat i)))) -> final_attr f <> None ->
  md_check md (ds_num dl) (md_dec md (state_after md s0 (S (Z.to_nat i)))) = Ok tt ->
  let d1 := fst (load_checkpoint md f (Some i) dl) in
  cp_fit_loop md cf (start (ds_num d1) prev (ds_it d1) m logs file) = (d2, None) ->
  (forall k, k < Z.to_nat (m - i) -> cp_stops md cf prev PInf (ds_num d1) k <> Ok true) ->
  cp_fit_loop md cf (start s0 prev' 0 (m + 1) logs' file') = (d3, None) ->
  (forall k, k < Z.to_nat (m + 1) -> cp_stops md cf prev' PInf s0 k <> Ok true) ->
  md_dec md (ds_num d2) = md_dec md (ds_num d3) /\ ds_it d2 = m /\ ds_it d3 = (m + 1)%Z /\
  Forall2 (fun a b => lg_its b = lg_its a ++ its_of i (Z.to_nat (m - i))) logs (ds_logs d2).
Proof. exact (fun St D md Rel cf => @C35_lemma St D md cf Rel). Qed.
Print Assumptions C35_resume_shift.

Theorem C35_logs_before : forall St D (md : model St D) cf s0 prev logs file m d1,
  cp_fit_loop md cf (start s0 prev 0 m logs file) = (d1, None) ->
  (forall k, k < Z.to_nat m -> cp_stops md cf prev PInf s0 k <> Ok true) ->
  Forall2 (fun a b => lg_its b = lg_its a ++ its_of 0 (Z.to_nat m)) logs (ds_logs d1).
Proof. intros. now destruct (uninterrupted_lemma H H0). Qed.
Print Assumptions C35_logs_before.

Definition ex_file35 : option file :=
  ds_file (fst (cp_fit_loop endless (ex_cf 2) (start 0%Z NaN 0 4 [toy_log "LossLogger"] (Some empty_file)))).
(** Budget 6: the uninterrupted fit makes 6 updates; resumed from checkpoint 3 it makes 7 in total. *)
Theorem C35_same_budget_refuted : exists (f : file) (d2 d3 : dstate Z),
  ex_file35 = Some f /\
  cp_fit_loop endless (ex_cf (-1))
    (let d1 := fst (load_checkpoint endless f (Some 3%Z) (start 77%Z NaN 0 6 [] None)) in
     start (ds_num d1) NaN (ds_it d1) 6 [toy_log "LossLogger"] None) = (d2, None) /\
  cp_fit_loop endless (ex_cf (-1)) (start 0%Z NaN 0 6 [toy_log "LossLogger"] None) = (d3, None) /\
  md_dec endless (ds_num d2) = 7%Z /\ md_dec endless (ds_num d3) = 6%Z /\
  map (@lg_its Z) (ds_logs d2) = [[3; 4; 5]%Z] /\ map (@lg_its Z) (ds_logs d3) = [[0; 1; 2; 3; 4; 5]%Z].
Proof. by_run. Qed.
Print Assumptions C35_same_budget_refuted.

(** *** C36 *)
(** The checkpoint of the first iteration exists already. *)
Theorem C36_cp_collision : forall St D (md : model St D) cf ds f,
  ds_file ds = Some f -> known_root md -> ready_file (classes_of (ds_logs ds)) f ->
  has_ckpt f (ds_it ds) -> (0 < cf_freq cf)%Z -> (ds_it ds < ds_max ds)%Z -> quiet md ds 1 ->
  let stops := cp_stops md cf (ds_prev ds) (ds_rel ds) (ds_num ds) 0 in
  (stops = Ok false /\ ((ds_it ds + 1) mod cf_freq cf = 0)%Z) \/ (stops = Ok true /\ (1 < cf_freq cf)%Z) ->
  exists ds' f', cp_fit_loop md cf ds = (ds', Some NameExists) /\ ds_file ds' = Some f' /\
    f_groups f' = f_groups f /\ final_attr f' = Some (DInt (ds_it ds)) /\
    ((exists c, md_root md = base_root c) -> its_attr f' = its_attr f ++ [ds_it ds]).
Proof. exact @collide_lemma. Qed.
Print Assumptions C36_cp_collision.

Theorem C36_parafac2_collision : forall St D (md : model St D) cf ds s f,
  ds_file ds = Some f -> known_root md -> ready_file (classes_of (ds_logs ds)) f ->
  has_ckpt f (ds_it ds) -> (0 < cf_freq cf)%Z -> cf_print cf <> 0%Z -> (ds_it ds < ds_max ds)%Z ->
  md_prepare md (ds_num ds) = (s, None) -> quiet md (with_num s ds) 1 ->
  let stops := pf_stops md cf (ds_prev ds) (ds_rel ds) s 0 in
  (stops = Ok false /\ ((ds_it ds + 1) mod cf_freq cf = 0)%Z) \/
  (stops = Ok true /\ ((ds_it ds + 1) mod cf_freq cf <> 0)%Z) ->
  exists ds' f', pf_fit_loop md cf ds = (ds', Some NameExists) /\ ds_file ds' = Some f' /\
    f_groups f' = f_groups f /\ final_attr f' = Some (DInt (ds_it ds)) /\
    ((exists c, md_root md = base_root c) -> its_attr f' = its_attr f ++ [ds_it ds]).
Proof. exact @pf_collide_lemma. Qed.
Print Assumptions C36_parafac2_collision.

(** Resuming from the periodic checkpoint [i] of a run into the file of that run *)
Theorem C36_resume_same_file : forall St D (md : model St D) cf s0 c f0 f n final i dl prev max logs,
  run_file md cf s0 0 f0 f n final -> md_root md = base_root c -> (0 < cf_freq cf)%Z ->
  i < n -> ((Z.of_nat i + 1) mod cf_freq cf = 0)%Z ->
  md_check md (ds_num dl) (md_dec md (state_after md s0 (S i))) = Ok tt ->
  ready_file (classes_of logs) f -> (Z.of_nat i < max)%Z ->
  let d1 := fst (load_checkpoint md f (Some (Z.of_nat i)) dl) in
  let ds := start (ds_num d1) prev (ds_it d1) max logs (Some f) in
  quiet md ds 1 -> cp_stops md cf prev PInf (ds_num d1) 0 = Ok false ->
  exists ds' f', cp_fit_loop md cf ds = (ds', Some NameExists) /\ ds_file ds' = Some f' /\
    f_groups f' = f_groups f /\ 2 <= count_occ Z.eq_dec (its_attr f') (Z.of_nat i).
Proof. exact @C36_resume_lemma. Qed.
Print Assumptions C36_resume_same_file.

(** Frequency 2, resumed from checkpoint 3 into the same file; and continue_fit after a final
    checkpoint 3 (budget 3, frequency 4: the next iteration, 3, is due). *)
Example C36_example :
  exists d f d', cp_fit_loop endless (ex_cf 2) (start 0%Z NaN 0 4 [toy_log "LossLogger"] (Some empty_file)) = (d, None) /\
    ds_file d = Some f /\
    cp_fit_loop endless (ex_cf 2)
      (let d1 := fst (load_checkpoint endless f (Some 3%Z) (start 77%Z NaN 0 9 [] None)) in
       start (ds_num d1) NaN (ds_it d1) 9 [toy_log "LossLogger"] (Some f)) = (d', Some NameExists) /\
    (exists f', ds_file d' = Some f' /\ its_attr f' = [1; 3; 3]%Z /\ stored_at endless f' 3 4%Z).
Proof. by_run. Qed.
Example C36_example_continue :
  exists d d', cp_fit_loop endless (ex_cf 4) (start 0%Z NaN 0 3 [toy_log "LossLogger"] (Some empty_file)) = (d, None) /\
    cp_continue_fit endless (ex_cf 4) (Some 9%Z) d = (d', Some NameExists) /\ ds_num d' = 4%Z.
Proof. by_run. Qed.

(** *** C37 *)
(** The process dies after any number [k] of the primitive writes of store_checkpoint. *)
Theorem C37_interrupted_write : forall St D (md : model St D) (ds : dstate St) f k j,
  known_root md -> plain_classes (classes_of (ds_logs ds)) -> has_ckpt f j ->
  let f' := fst (run_steps (firstn k (all_steps md ds)) f) in
  lookup (ckpt_name j) (f_groups f') = lookup (ckpt_name j) (f_groups f) /\
  (final_attr f <> None -> forall dl, load_checkpoint md f' (Some j) dl = load_checkpoint md f (Some j) dl).
Proof.
  intros St D md ds f k j H1 H2 H3. cbn zeta. split; [now apply crash_lemma|].
  intros H4 dl. now apply crash_load_lemma.
Qed.
Print Assumptions C37_interrupted_write.
(** [all_steps] is what store_checkpoint executes. *)
Theorem C37_steps_complete : forall St D (md : model St D) (ds ds' : dstate St) f e,
  ds_file ds = Some f -> store_checkpoint md ds = (ds', e) ->
  ds_file ds' = Some (fst (run_steps (all_steps md ds) f)) /\ e = snd (run_steps (all_steps md ds) f).
Proof. exact @store_all_steps. Qed.
Print Assumptions C37_steps_complete.
(** After two or three of the writes the latest checkpoint cannot be found. *)
Theorem C37_latest_hidden : forall St D (md : model St D) (ds dl : dstate St) f c k,
  md_root md = base_root c -> ~ has_ckpt f (ds_it ds) -> ready_file (classes_of (ds_logs ds)) f ->
  k = 2 \/ k = 3 ->
  snd (load_checkpoint md (fst (run_steps (firstn k (all_steps md ds)) f)) None dl) = Some ValueError.
Proof. exact @hidden_lemma. Qed.
Print Assumptions C37_latest_hidden.

Example C37_example :
  exists d f, cp_fit_loop endless (ex_cf 2) (start 0%Z NaN 0 4 [toy_log "LossLogger"] (Some empty_file)) = (d, None) /\
    ds_file d = Some f /\ ds_it d = 4%Z /\
    let f2 := fst (run_steps (firstn 2 (all_steps endless d)) f) in
    ds_num (fst (load_checkpoint endless f None (start 77%Z NaN 0 9 [] None))) = 4%Z /\
    ds_num (fst (load_checkpoint endless f2 (Some 3%Z) (start 77%Z NaN 0 9 [] None))) = 4%Z /\
    snd (load_checkpoint endless f2 None (start 77%Z NaN 0 9 [] None)) = Some ValueError.
Proof. by_run. Qed.

(** *** C38 *)
Theorem C38_continue_is_longer_fit : forall St D (md : model St D) cf ds n m d1,
  (cf_freq cf < 0)%Z -> (ds_it ds < n)%Z -> (n < m)%Z ->
  cp_fit_loop md cf (with_max n ds) = (d1, None) ->
  cp_continue_fit md cf (Some m) d1 = cp_fit_loop md cf (with_max m ds).
Proof. exact @continue_lemma. Qed.
Print Assumptions C38_continue_is_longer_fit.

Example C38_example :
  (exists d, cp_fit_loop endless (ex_cf (-1)) (start 0%Z NaN 0 3 [toy_log "LossLogger"] None) = (d, None) /\
     ds_num (fst (cp_continue_fit endless (ex_cf (-1)) (Some 5%Z) d)) = 5%Z) /\
  (exists d, cp_fit_loop two_steps (ex_cf (-1)) (start 0%Z NaN 0 3 [toy_log "LossLogger"] None) = (d, None) /\
     ds_num (fst (cp_continue_fit two_steps (ex_cf (-1)) (Some 5%Z) d)) = 2%Z).
Proof.
  split; [by_run|]. eexists. run. destruct (Rlt_dec 1 0); [exfalso; lra|]. split; [reflexivity|].
  run. destruct (Rlt_dec 1 0); [exfalso; lra|]. reflexivity.
Qed.

(** *** C39 *)
Theorem C39_entries_once : forall St D (md : model St D) h1 it d h2 logs f logs' f' lg,
  known_root md -> plain_classes (classes_of logs) -> NoDup (classes_of logs) -> Forall (@fresh St) logs ->
  ready_file (classes_of logs) f -> In lg logs -> lookup (lg_class lg) (f_groups f) = None ->
  do_events md (h1 ++ EStore it d :: h2) logs f = (logs', f', None) -> existsb is_store h2 = false ->
  its_in f' (lg_class lg) = map snd (logged h1) /\
  Forall2 (fun s v => lg_metric lg s = Ok v) (map fst (logged h1)) (vals_in f' (lg_class lg)).
Proof. exact @C39_lemma. Qed.
Print Assumptions C39_entries_once.
Theorem C39_nothing_before_a_checkpoint : forall St D (md : model St D) h logs f logs' f' c,
  known_root md -> plain_classes (classes_of logs) -> Forall (@fresh St) logs ->
  ready_file (classes_of logs) f -> In c (classes_of logs) ->
  do_events md h logs f = (logs', f', None) -> existsb is_store h = false ->
  lookup c (f_groups f') = lookup c (f_groups f).
Proof. exact @C39_none_lemma. Qed.
Print Assumptions C39_nothing_before_a_checkpoint.
(** Two loggers of the same class: the entries between two checkpoints appear twice in a row. *)
Theorem C39_shared_class : forall St D (md : model St D) h lgA lgB f logs' f',
  known_root md -> plain_classes [lg_class lgA] -> lg_class lgB = lg_class lgA -> fresh lgA -> fresh lgB ->
  ready_file [lg_class lgA] f -> lookup (lg_class lgA) (f_groups f) = None ->
  do_events md h [lgA; lgB] f = (logs', f', None) ->
  its_in f' (lg_class lgA) = content (fun seg => map snd seg ++ map snd seg) [] h.
Proof. exact @C39_shared_lemma. Qed.
Print Assumptions C39_shared_class.
(** In a CP fit: the file holds the first [m] entries in order, and none of the later ones was due
    for a checkpoint. *)
Theorem C39_cp_fit : forall St D (md : model St D) cf ds ds' f lg,
  (0 < cf_freq cf)%Z -> known_root md -> ds_file ds = Some f ->
  plain_classes (classes_of (ds_logs ds)) -> NoDup (classes_of (ds_logs ds)) -> Forall (@fresh St) (ds_logs ds) ->
  ready_file (classes_of (ds_logs ds)) f -> In lg (ds_logs ds) -> lookup (lg_class lg) (f_groups f) = None ->
  cp_fit_loop md cf ds = (ds', None) ->
  exists f' n m, ds_file ds' = Some f' /\ ds_it ds' = (ds_it ds + Z.of_nat n)%Z /\ m <= n /\
    its_in f' (lg_class lg) = its_of (ds_it ds) m /\
    Forall2 (fun s v => lg_metric lg s = Ok v)
      (map (fun j => state_after md (ds_num ds) (S j)) (seq 0 m)) (vals_in f' (lg_class lg)) /\
    (forall j, m <= j < n -> ((ds_it ds + Z.of_nat j + 1) mod cf_freq cf <> 0)%Z).
Proof. exact @fit_logs_lemma. Qed.
Print Assumptions C39_cp_fit.
(** The same without a word about the loggers' state: they have just been made. *)
Theorem C39_new_loggers : forall St D (md : model St D) cf ds ds' f (l : list (string * (St -> res xr))) c g,
  (0 < cf_freq cf)%Z -> known_root md -> ds_file ds = Some f -> ds_logs ds = map (fun p => new_logger (fst p) (snd p)) l ->
  plain_classes (map fst l) -> NoDup (map fst l) -> ready_file (map fst l) f -> In (c, g) l -> lookup c (f_groups f) = None ->
  cp_fit_loop md cf ds = (ds', None) ->
  exists f' n m, ds_file ds' = Some f' /\ ds_it ds' = (ds_it ds + Z.of_nat n)%Z /\ m <= n /\
    its_in f' c = its_of (ds_it ds) m /\
    Forall2 (fun s v => g s = Ok v) (map (fun j => state_after md (ds_num ds) (S j)) (seq 0 m)) (vals_in f' c) /\
    (forall j, m <= j < n -> ((ds_it ds + Z.of_nat j + 1) mod cf_freq cf <> 0)%Z).
Proof.
  intros St D md cf ds ds' f l c g H1 H2 H3 EL H4 H5 H6 Hin H7 H8.
  assert (EC : classes_of (ds_logs ds) = map fst l) by (rewrite EL; unfold classes_of; rewrite map_map; reflexivity).
  rewrite <- EC in H4, H5, H6.
  apply (@C39_cp_fit St D md cf ds ds' f (new_logger c g)); auto; rewrite EL.
  - apply Forall_forall. intros lg Hlg. apply in_map_iff in Hlg as (p & <- & _). repeat split.
  - apply in_map_iff. now exists (c, g).
Qed.
Print Assumptions C39_new_loggers.

Example C39_example :
  exists logs f, do_events endless
      [ELog 10%Z 0%Z; ELog 11%Z 1%Z; EStore 1%Z 11%Z; ELog 12%Z 2%Z; EStore 2%Z 12%Z; ELog 13%Z 3%Z]
      [toy_log "LossLogger"; toy_log "Other"] empty_file = (logs, f, None) /\
    its_in f "LossLogger" = [0; 1; 2]%Z /\ its_in f "Other" = [0; 1; 2]%Z.
Proof. by_run. Qed.
Example C39_example_shared :
  exists logs f, do_events endless
      [ELog 10%Z 0%Z; ELog 11%Z 1%Z; EStore 1%Z 11%Z; ELog 12%Z 2%Z; EStore 2%Z 12%Z; ELog 13%Z 3%Z]
      [toy_log "LossLogger"; toy_log "LossLogger"] empty_file = (logs, f, None) /\
    its_in f "LossLogger" = [0; 1; 0; 1; 2; 2]%Z.
Proof. by_run. Qed.
