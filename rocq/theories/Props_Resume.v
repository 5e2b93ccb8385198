(** Property C77: PARAFAC2 fits that are continued, or interrupted and resumed. *)
From Verif Require Import ResumeExamples.
Local Open Scope R_scope.

(** *** C77.  [no_orth]: no orthonormality constraint.  [same_arrays]: the same data, A, B, C and projections, wherever they are kept. *)
(** Nothing a fit carries along besides these arrays matters: from equal arrays the preparation succeeds, and every update yields
    equal arrays, an equal loss and an equal exception. *)
Theorem C77_only_arrays_matter : forall env ps K nI a b, ps_rank ps = K -> no_orth ps -> (0 < nI)%nat -> (0 < K)%nat ->
  p2_ok K nI a -> p2_ok K nI b -> (0 < length (p2_X a))%nat -> same_arrays a b ->
  exists a0 b0, p2_prepare env ps a = (a0, None) /\ p2_prepare env ps b = (b0, None) /\ forall n,
    let a' := state_after (p2_model env ps) a0 n in let b' := state_after (p2_model env ps) b0 n in
    same_arrays a' b' /\ p2_loss ps a' = p2_loss ps b' /\ snd (p2_update env ps a') = snd (p2_update env ps b').
Proof. exact values_matter. Qed.
Print Assumptions C77_only_arrays_matter.

(** A fit with budget n followed by continue_fit with budget m is a fit with budget m: arrays, iteration count, loss history and records. *)
Theorem C77_continue : forall env ps K nI cf disk draws Xs arg ds n m d1 d2 d3,
  drawn_start env ps K nI draws Xs -> (0 <= n <= m)%Z ->
  p2_fit env ps cf disk draws (Slices Xs) (Some n) arg ds = (d1, None) ->
  pf_continue_fit (p2_model env ps) cf (Some m) d1 = (d2, None) ->
  p2_fit env ps cf disk draws (Slices Xs) (Some m) arg ds = (d3, None) ->
  (forall lg, In lg (ds_logs ds) -> exists k, p2_code_logger ps k lg) ->
  same_arrays (ds_num d2) (ds_num d3) /\ ds_it d2 = ds_it d3 /\ ds_prev d2 = ds_prev d3 /\ ds_rel d2 = ds_rel d3 /\
    Forall2 same_record (ds_logs d2) (ds_logs d3).
Proof. exact continue_fit_p2. Qed.
Print Assumptions C77_continue.

(** An unconstrained fit does continue without exception when no checkpoints are taken. *)
Theorem C77_continue_completes : forall env ps K nI cf disk draws Xs arg ds n m,
  plain_fit env ps K nI draws Xs -> wide K Xs -> (0 < n <= m)%Z -> plain_run ps cf m ds -> (cf_freq cf < 0)%Z ->
  exists d1 d2 d3,
    p2_fit env ps cf disk draws (Slices Xs) (Some n) arg ds = (d1, None) /\
    pf_continue_fit (p2_model env ps) cf (Some m) d1 = (d2, None) /\
    p2_fit env ps cf disk draws (Slices Xs) (Some m) arg ds = (d3, None) /\
    same_arrays (ds_num d2) (ds_num d3) /\ ds_it d2 = ds_it d3 /\ ds_prev d2 = ds_prev d3 /\ ds_rel d2 = ds_rel d3 /\
    Forall2 same_record (ds_logs d2) (ds_logs d3).
Proof. exact plain_continue. Qed.
Print Assumptions C77_continue_completes.
Example C77_continue_example : exists d1 d2 d3,
  p2_fit p2_ex_env ex_ps z_cf_off no_disk z_draws (Slices z_Xs) (Some 2%Z) P2None z_ds = (d1, None) /\
  pf_continue_fit (p2_model p2_ex_env ex_ps) z_cf_off (Some 5%Z) d1 = (d2, None) /\
  p2_fit p2_ex_env ex_ps z_cf_off no_disk z_draws (Slices z_Xs) (Some 5%Z) P2None z_ds = (d3, None) /\
  same_arrays (ds_num d2) (ds_num d3) /\ Forall2 same_record (ds_logs d2) (ds_logs d3).
Proof.
  destruct (@C77_continue_completes p2_ex_env ex_ps 1 1 z_cf_off no_disk z_draws z_Xs P2None z_ds 2 5 z_plain z_wide)
    as (d1 & d2 & d3 & E1 & E2 & E3 & H1 & _ & _ & _ & H2); [lia|apply z_run_off; lia|reflexivity|].
  exists d1, d2, d3. auto.
Qed.

(** A fit with budget a and checkpoints in file f, then a new decomposer that resumes from f with budget m, both to the end of their
    budgets: the result is that of one fit with budget m - or m + 1, when the first fit ends at a number whose successor is a multiple
    of the checkpoint frequency.  Then no final checkpoint is stored, and the last checkpoint holds one update more than its number. *)
Theorem C77_interrupted : forall env ps K nI cf cf' cf3 disk disk' disk3 draws draws' Xs arg arg3 ds dsB ds3 f0 f a m d1 d2 d3,
  drawn_start env ps K nI draws Xs ->
  (forall lg, In lg (ds_logs ds) -> exists k, p2_code_logger ps k lg) ->
  (0 < cf_freq cf)%Z -> ds_file ds = Some f0 -> ready_file (classes_of (ds_logs ds)) f0 ->
  (forall i, (0 <= i <= a)%Z -> ~ has_ckpt f0 i) -> (0 < a < m)%Z ->
  let lost := ((a + 1) mod cf_freq cf =? 0)%Z in (lost = true -> (cf_freq cf <= a)%Z) ->
  let budget := (if lost then m + 1 else m)%Z in
  p2_fit env ps cf disk draws (Slices Xs) (Some a) arg ds = (d1, None) -> ds_it d1 = a -> ds_file d1 = Some f ->
  p2_fit env (p2_resuming ps) cf' disk' draws' (Slices Xs) (Some m) (P2Path (Some f)) dsB = (d2, None) -> ds_it d2 = m ->
  p2_fit env ps cf3 disk3 draws (Slices Xs) (Some budget) arg3 ds3 = (d3, None) -> ds_it d3 = budget ->
  same_arrays (ds_num d2) (ds_num d3).
Proof. exact interrupted_p2. Qed.
Print Assumptions C77_interrupted.

(** For unconstrained fits with tolerance zero all of this happens: no exception, and every budget is used up. *)
Theorem C77_interrupted_completes : forall env ps K nI cf cf' cf3 disk disk' disk3 draws draws' Xs arg arg3 ds dsB ds3 a m,
  plain_fit env ps K nI draws Xs -> wide K Xs -> (0 < cf_freq cf)%Z -> (0 < a < m)%Z ->
  let lost := ((a + 1) mod cf_freq cf =? 0)%Z in (lost = true -> (cf_freq cf <= a)%Z) ->
  let budget := (if lost then m + 1 else m)%Z in
  plain_run ps cf a ds -> plain_run ps cf' m dsB -> plain_run ps cf3 budget ds3 ->
  cf_tol cf <= 0 -> cf_tol cf' <= 0 -> cf_tol cf3 <= 0 ->
  exists d1 f d2 d3,
    p2_fit env ps cf disk draws (Slices Xs) (Some a) arg ds = (d1, None) /\ ds_file d1 = Some f /\
    p2_fit env (p2_resuming ps) cf' disk' draws' (Slices Xs) (Some m) (P2Path (Some f)) dsB = (d2, None) /\
    p2_fit env ps cf3 disk3 draws (Slices Xs) (Some budget) arg3 ds3 = (d3, None) /\
    ds_it d2 = m /\ ds_it d3 = budget /\ same_arrays (ds_num d2) (ds_num d3).
Proof. exact plain_interrupted. Qed.
Print Assumptions C77_interrupted_completes.
(** Checkpoints every 2 updates: 2 updates and a resumed fit up to 5 are 5 updates, 3 updates and a resumed fit up to 5 are 6. *)
Example C77_interrupted_example : forall a budget, (a = 2 /\ budget = 5 \/ a = 3 /\ budget = 6)%Z -> exists d1 f d2 d3,
  p2_fit p2_ex_env ex_ps z_cf no_disk z_draws (Slices z_Xs) (Some a) P2None z_ds = (d1, None) /\ ds_file d1 = Some f /\
  p2_fit p2_ex_env (p2_resuming ex_ps) z_cf no_disk [] (Slices z_Xs) (Some 5%Z) (P2Path (Some f)) z_ds = (d2, None) /\
  p2_fit p2_ex_env ex_ps z_cf no_disk z_draws (Slices z_Xs) (Some budget) P2None z_ds = (d3, None) /\
  ds_it d2 = 5%Z /\ ds_it d3 = budget /\ same_arrays (ds_num d2) (ds_num d3).
Proof.
  intros a budget H. assert (Hb : budget = if ((a + 1) mod cf_freq z_cf =? 0)%Z then (5 + 1)%Z else 5%Z).
  { destruct H as [[-> ->]|[-> ->]]; reflexivity. }
  rewrite Hb. assert (T : cf_tol z_cf <= 0) by (cbn; lra).
  eapply (@C77_interrupted_completes p2_ex_env ex_ps 1 1 z_cf z_cf z_cf no_disk no_disk no_disk z_draws [] z_Xs P2None P2None z_ds z_ds z_ds a 5);
    auto using z_plain, z_wide; try apply z_run_any; try lia.
  - reflexivity.
  - destruct H as [[-> _]|[-> _]]; cbn; intros; [discriminate|lia].
Qed.
