(** Property C79: fits do not depend on units, order, or the svd routine. *)
From Verif Require Import SymFacts SymWitness CMTFWitness Parafac2Examples Props_Quality Props_Best.
Local Open Scope R_scope.

(** *** C79.  [same_data c sg X X']: X' is c X with the entries of mode n reordered by sg n.
    [same_factors K a sg pi Us Us']: Us' is Us with rows reordered by sg, components by pi, and matrix n multiplied by a n. *)
(** Unconstrained runs of CP_ALS from corresponding starts - whatever the scales a of the start, and with any two svd routines -
    correspond after every iteration: the other modes keep their scales and mode 0 takes up the rest of c. *)
Theorem C79_runs : forall env env' cs cs' K c sg pi a s s', cs_rank cs = K -> cs_rank cs' = K ->
  svd_works_on K K (env_svd env) -> svd_works_on K K (env_svd env') -> c <> 0 -> permutes K pi ->
  cp_coherent K s -> cp_coherent K s' -> free_fit cs s -> free_fit cs' s' ->
  same_data c sg (cp_X s) (cp_X s') -> same_factors K a sg pi (kt_fms (cp_dec s)) (kt_fms (cp_dec s')) ->
  (forall n, (n < length (shape (cp_X s)))%nat -> a n <> 0) ->
  exists b, (forall n, (0 < n)%nat -> b n = a n) /\ scale_prod (length (shape (cp_X s))) b = c /\
    forall k, let t := state_after (cp_model env cs) s (S k) in let t' := state_after (cp_model env' cs') s' (S k) in
      same_factors K b sg pi (kt_fms (cp_dec t)) (kt_fms (cp_dec t')) /\
      sse (cp_X s') (kt_fms (cp_dec t')) unit_weights K = c ^ 2 * sse (cp_X s) (kt_fms (cp_dec t)) unit_weights K.
Proof. exact runs_same. Qed.
Print Assumptions C79_runs.
(** Two components exchanged, rows of mode 0 exchanged, data times 6 *)
Definition two_Us : list nd := [mk [2; 2]%nat [1; 2; 3; 4]; mk [2; 2]%nat [5; 6; 7; 8]].
Definition two_Us' : list nd := [mk [2; 2]%nat [8; 6; 4; 2]; mk [2; 2]%nat [18; 15; 24; 21]].
Example C79_runs_hypotheses_hold : permutes 2 (fun r => 1 - r)%nat /\ same_data 6 y_flip q_X y_X6 /\
  same_factors 2 y_a y_flip (fun r => 1 - r)%nat two_Us two_Us' /\ (forall n, y_a n <> 0) /\
  exists env, svd_works_on 2 2 (env_svd env).
Proof.
  split; [split; [intros; lia|intros; lia]|]. split; [apply y_flipped|]. split.
  { split; [reflexivity|]. intros [|[|n]] [|[|i]] [|[|r]] Hn Hi Hr; cbn in Hn, Hi; try lia; ev; lra. }
  split. { intros [|n]; cbn; lra. }
  destruct svd_contract_satisfiable as (svd & H).
  exists {| env_svd := svd; env_svd_u := fun A => Ok A; env_qr := fun A => Ok A; env_nnls := fun A b => Ok b; env_junk := fun _ _ => 0 |}.
  intros A HA. exact (H 2%nat 2%nat A HA).
Qed.

(** Complete fits: if the scales of the start multiply to c, both fits complete, after the same number of iterations,
    with corresponding factors, errors that differ by c^2, and the same explained variance. *)
Theorem C79_fits : forall env env' cs cs' K cf cf' disk disk' draws draws' X X' max_its max_its' arg arg' ds dsB ds1 dsB1 c sg pi a,
  let budget := match max_its with Some m => m | None => ds_max ds end in
  let budget' := match max_its' with Some m => m | None => ds_max dsB end in
  plain_call env cs K cf draws X budget arg ds -> plain_call env' cs' K cf' draws' X' budget' arg' dsB ->
  budget' = budget -> cf_tol cf' = cf_tol cf -> cf_rel_tol cf' = cf_rel_tol cf ->
  cp_init_fit env cs disk draws X max_its arg ds = (ds1, None) ->
  cp_init_fit env' cs' disk' draws' X' max_its' arg' dsB = (dsB1, None) ->
  c <> 0 -> permutes K pi -> same_data c sg X X' ->
  same_factors K a sg pi (kt_fms (cp_dec (ds_num ds1))) (kt_fms (cp_dec (ds_num dsB1))) ->
  scale_prod (length (shape X)) a = c ->
  exists d d' e, cp_fit env cs cf disk draws X max_its arg ds = (d, None) /\
    cp_fit env' cs' cf' disk' draws' X' max_its' arg' dsB = (d', None) /\
    ds_it d' = ds_it d /\
    same_factors K a sg pi (kt_fms (cp_dec (ds_num d))) (kt_fms (cp_dec (ds_num d'))) /\
    cp_SSE env (ds_num d) = Ok e /\ cp_SSE env' (ds_num d') = Ok (c ^ 2 * e) /\
    cp_metric env' cs' KExplained (ds_num d') = cp_metric env cs KExplained (ds_num d).
Proof. exact fits_same. Qed.
Print Assumptions C79_fits.
Example C79_fits_example : exists d d', cp_fit q_env y_cs y_cf no_disk [] q_X (Some 5%Z) (y_arg y_start1) y_ds = (d, None) /\
  cp_fit neg_env y_cs y_cf no_disk [] y_X6 (Some 5%Z) (y_arg y_start6) y_ds = (d', None) /\ ds_it d' = ds_it d /\
  same_factors 1 y_a y_flip (fun r => r) (kt_fms (cp_dec (ds_num d))) (kt_fms (cp_dec (ds_num d'))).
Proof.
  destruct (y_start q_env no_disk q_X y_start1 q_data y_start1_ok) as (d1 & E1 & F1).
  destruct (y_start neg_env no_disk y_X6 y_start6 y_X6_data y_start6_ok) as (d2 & E2 & F2).
  destruct (C79_fits q_env neg_env y_cs y_cs 1 y_cf y_cf no_disk no_disk [] [] q_X y_X6 (Some 5%Z) (Some 5%Z) (y_arg y_start1) (y_arg y_start6)
    y_ds y_ds d1 d2 6 y_flip (fun r => r) y_a (y_call _ _ q_data y_start1_ok) (y_call_neg _ _ y_X6_data y_start6_ok))
    as (d & d' & e & A & B & C & D & _); auto; try lra.
  - apply permutes_id.
  - apply y_flipped.
  - rewrite F1, F2. apply y_starts.
  - cbn. lra.
  - exists d, d'. auto.
Qed.

(** In particular the svd routine used by the least-squares solver does not matter, only what the routine promises. *)
Theorem C79_svd_routine : forall env env' cs K cf cf' disk disk' draws X max_its arg ds dsB,
  let budget := match max_its with Some m => m | None => ds_max ds end in
  plain_call env cs K cf draws X budget arg ds -> plain_call env' cs K cf' draws X budget arg dsB ->
  env_svd_u env' = env_svd_u env -> ds_num dsB = ds_num ds -> ds_max dsB = ds_max ds ->
  cf_tol cf' = cf_tol cf -> cf_rel_tol cf' = cf_rel_tol cf ->
  exists d d', cp_fit env cs cf disk draws X max_its arg ds = (d, None) /\
    cp_fit env' cs cf' disk' draws X max_its arg dsB = (d', None) /\
    ds_it d' = ds_it d /\ kt_fms (cp_dec (ds_num d')) = kt_fms (cp_dec (ds_num d)) /\
    kt_w (cp_dec (ds_num d')) = kt_w (cp_dec (ds_num d)) /\ cp_SSE env' (ds_num d') = cp_SSE env (ds_num d).
Proof. exact svd_same. Qed.
Print Assumptions C79_svd_routine.
Example C79_svd_example : svd_row (mk [1; 1]%nat [3]) <> svd_neg (mk [1; 1]%nat [3]) /\
  exists d d', cp_fit q_env y_cs y_cf no_disk [] q_X (Some 5%Z) (y_arg y_start1) y_ds = (d, None) /\
    cp_fit neg_env y_cs y_cf no_disk [] q_X (Some 5%Z) (y_arg y_start1) y_ds = (d', None) /\
    ds_it d' = ds_it d /\ kt_fms (cp_dec (ds_num d')) = kt_fms (cp_dec (ds_num d)).
Proof.
  split.
  - unfold svd_neg. intros E. unfold svd_row in E at 1. cbn [bind] in E.
    apply (f_equal (fun r => match r with Ok (U, _, _) => mget U 0 0 | _ => 5 end)) in E.
    cbv beta iota in E. ev_in E. lra.
  - destruct (C79_svd_routine q_env neg_env y_cs 1 y_cf y_cf no_disk no_disk [] q_X (Some 5%Z) (y_arg y_start1) y_ds y_ds
      (y_call _ _ q_data y_start1_ok) (y_call_neg _ _ q_data y_start1_ok)) as (d & d' & A & B & C & D & _); auto.
    exists d, d'. auto.
Qed.

(** The condition on the scales of the start is needed: one and the same start for a matrix and for ten times the matrix -
    one iteration in the one case, at least two in the other. *)
Theorem C79_units_refuted : exists env cs cf X X' arg ds d d', same_data 10 (fun _ i => i) X X' /\
  plain_call env cs 1 cf [] X 5 arg ds /\ plain_call env cs 1 cf [] X' 5 arg ds /\
  cp_fit env cs cf no_disk [] X (Some 5%Z) arg ds = (d, None) /\ cp_fit env cs cf no_disk [] X' (Some 5%Z) arg ds = (d', None) /\
  ds_it d = 1%Z /\ (2 <= ds_it d')%Z.
Proof.
  destruct units_matter as (d & d' & H).
  exists q_env, y_cs, y_cf, b_X, y_X, (y_arg y_Us), y_ds, d, d'.
  split; [apply y_same|]. split; [apply (y_call _ _ b_data), y_Us_ok; reflexivity|].
  split; [apply (y_call _ _ y_data), y_Us_ok; reflexivity|exact H].
Qed.
Print Assumptions C79_units_refuted.
