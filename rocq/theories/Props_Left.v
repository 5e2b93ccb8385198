(** Property of CP_ALS: what a call of fit that raises while preparing leaves behind (C96). *)
From Verif Require Import LeftSpec LeftFacts CPExamples CMTFWitness Parafac2Examples FixWitness SymWitness Props_Quality.
From Verif Require Import Prelude Lin.
Local Open Scope R_scope.

(** *** C96.  If fit raises before the first iteration, loggers, checkpoint file and the remembered mode are as before;
    the data are those of the failed call, and missing constraint lists may have been filled in for the number of factors
    of the start. *)
Theorem C96_what_is_left : forall env cs disk draws X max_its arg ds ds1 e,
  cp_init_fit env cs disk draws X max_its arg ds = (ds1, Some e) -> only_prepared X max_its ds ds1.
Proof. exact left_behind. Qed.
Print Assumptions C96_what_is_left.

(** When the QR factorisation of the start fails at one mode, the factors before it have been replaced and the others
    have not. *)
Theorem C96_qr_failure : forall env cs cf disk draws X max_its arg ds d l m e,
  cp_init_components env cs disk draws arg (with_num (cp_with_target X (ds_num ds)) (with_it 0%Z ds)) = (d, None) ->
  cp_orth (ds_num ds) = Some l -> nth_error l m = Some true -> (m < n_factors d)%nat ->
  let start := kt_fms (cp_dec (ds_num d)) in
  (forall j, (j < m)%nat -> nth_error l j = Some true -> exists Q, env_qr env (nth j start m0) = Ok Q) ->
  env_qr env (nth m start m0) = Err e ->
  exists ds1, cp_fit env cs cf disk draws X max_its arg ds = (ds1, Some e) /\
    n_factors ds1 = n_factors d /\
    (forall j, (j < m)%nat -> nth_error l j = Some true ->
       env_qr env (nth j start m0) = Ok (nth j (kt_fms (cp_dec (ds_num ds1))) m0)) /\
    (forall j, (m <= j)%nat \/ nth_error l j <> Some true -> nth j (kt_fms (cp_dec (ds_num ds1))) m0 = nth j start m0) /\
    kt_w (cp_dec (ds_num ds1)) = kt_w (kt_reset_weights (cp_dec (ds_num d))).
Proof. exact qr_failure. Qed.
Print Assumptions C96_qr_failure.

(** The next call of fit does what it would have done without the failed one, if no list was filled in or the number of
    factors is the same, and the budget does not come from the failed call. *)
Theorem C96_next_fit : forall env cs cf disk draws X max_its arg ds ds1 e disk' draws' X' max_its' arg' ds2,
  cp_init_fit env cs disk draws X max_its arg ds = (ds1, Some e) ->
  cp_init_fit env cs disk' draws' X' max_its' arg' ds = (ds2, None) ->
  (cp_nn (ds_num ds1) = cp_nn (ds_num ds) /\ cp_orth (ds_num ds1) = cp_orth (ds_num ds)) \/ n_factors ds2 = n_factors ds1 ->
  max_its = None \/ max_its' <> None ->
  cp_fit env cs cf disk' draws' X' max_its' arg' ds1 = cp_fit env cs cf disk' draws' X' max_its' arg' ds.
Proof. exact next_fit. Qed.
Print Assumptions C96_next_fit.

(** With lists for too many modes no fit gets past the preparation; with lists for n modes, too few, every fit raises in
    its first iteration when it comes to mode n. *)
Theorem C96_fewer_modes : forall env cs K cf disk draws X max_its arg ds n n',
  cs_rank cs = K -> data_ok X -> usable_start env cs K X draws arg ->
  cp_orth (ds_num ds) = Some (repeat false n) -> (length (shape X) < n)%nat -> free_flags (cp_nn (ds_num ds)) n' ->
  exists ds', cp_fit env cs cf disk draws X max_its arg ds = (ds', Some IndexError).
Proof. exact fewer_modes. Qed.
Print Assumptions C96_fewer_modes.
Theorem C96_more_modes : forall env cs K cf disk draws X max_its arg ds n,
  cs_rank cs = K -> cs_ridge cs = None -> svd_works_on K K (env_svd env) -> data_ok X -> usable_start env cs K X draws arg ->
  cp_last (ds_num ds) = None -> cp_orth (ds_num ds) = Some (repeat false n) -> (n < length (shape X))%nat ->
  free_flags (cp_nn (ds_num ds)) n ->
  (0 < match max_its with Some m => m | None => ds_max ds end)%Z -> cf_rel_tol cf <= 0 ->
  exists ds1 ds', cp_init_fit env cs disk draws X max_its arg ds = (ds1, None) /\
    cp_fit env cs cf disk draws X max_its arg ds = (ds', Some IndexError) /\ ds_it ds' = 0%Z /\
    ds_logs ds' = ds_logs ds /\ ds_file ds' = ds_file ds /\
    (forall m, (n <= m)%nat -> nth m (kt_fms (cp_dec (ds_num ds'))) m0 = nth m (kt_fms (cp_dec (ds_num ds1))) m0) /\
    cp_last (ds_num ds') = match n with O => None | S m => Some m end.
Proof. exact more_modes. Qed.
Print Assumptions C96_more_modes.

(** So an unconstrained decomposer whose preparation failed after filling in the lists can only be fitted to data with as
    many modes as the failed start had factors. *)
Theorem C96_retry : forall env cs K cf disk draws X max_its arg ds ds1 e disk' draws' X' max_its' arg',
  cs_rank cs = K -> cs_ridge cs = None -> svd_works_on K K (env_svd env) ->
  cp_last (ds_num ds) = None -> cp_nn (ds_num ds) = None -> cp_orth (ds_num ds) = None ->
  cp_init_fit env cs disk draws X max_its arg ds = (ds1, Some e) ->
  data_ok X' -> usable_start env cs K X' draws' arg' ->
  (0 < match max_its' with Some m => m | None => ds_max ds1 end)%Z -> cf_rel_tol cf <= 0 ->
  cp_orth (ds_num ds1) <> None -> n_factors ds1 <> length (shape X') ->
  exists ds', cp_fit env cs cf disk' draws' X' max_its' arg' ds1 = (ds', Some IndexError).
Proof. exact retry. Qed.
Print Assumptions C96_retry.

(** Data with three modes; the start of the first call lacks the third factor. *)
Definition lf_X : nd := mk [2; 3; 2]%nat [1; 2; 3; 4; 5; 6; 7; 8; 9; 10; 11; 12].
Definition lf_two : list nd := [mk [2; 1]%nat [1; 1]; mk [3; 1]%nat [1; 1; 1]].
Definition lf_three : list nd := lf_two ++ [mk [2; 1]%nat [1; 2]].
Lemma lf_data : data_ok lf_X.
Proof. split; [reflexivity|]. split; [cbn; lia|]. repeat constructor; discriminate. Qed.
Lemma lf_factors : factors_ok 1 lf_X lf_three.
Proof. split; [repeat constructor|reflexivity]. Qed.
Lemma lf_first : exists ds1, cp_init_fit q_env y_cs no_disk [] lf_X (Some 5%Z) (y_arg lf_two) y_ds = (ds1, Some ValueError) /\
  cp_orth (ds_num ds1) = Some [false; false] /\ n_factors ds1 = 2%nat.
Proof. eexists. split; [reflexivity|]. split; reflexivity. Qed.

(** A failed call does leave a trace: the same call with the complete start would succeed on a new decomposer and raises
    on the one on which the incomplete start has been tried. *)
Theorem C96_no_trace_refuted : ~ (forall env cs cf disk draws X max_its arg ds ds1 e arg',
  cp_fit env cs cf disk draws X max_its arg ds = (ds1, Some e) ->
  snd (cp_fit env cs cf disk draws X max_its arg' ds) = None -> snd (cp_fit env cs cf disk draws X max_its arg' ds1) = None).
Proof.
  intros H. destruct lf_first as (ds1 & E1 & O1 & N1).
  assert (F1 : cp_fit q_env y_cs y_cf no_disk [] lf_X (Some 5%Z) (y_arg lf_two) y_ds = (ds1, Some ValueError)) by (unfold cp_fit; now rewrite E1).
  assert (U : usable_start q_env y_cs 1 lf_X [] (y_arg lf_three)).
  { right. right. split; [reflexivity|]. eexists. split; [reflexivity|]. split; [apply lf_factors|]. split; [apply is_vec_ones|reflexivity]. }
  destruct (@C71_fit_completes q_env y_cs 1 y_cf no_disk [] lf_X (Some 5%Z) (y_arg lf_three) y_ds) as (d1 & d2 & _ & E2 & _); auto.
  { apply y_svd. } { apply lf_data. } { now left. } { now left. } { lia. } { intros lg []. } { left. reflexivity. }
  destruct (@C96_retry q_env y_cs 1 y_cf no_disk [] lf_X (Some 5%Z) (y_arg lf_two) y_ds ds1 ValueError no_disk [] lf_X (Some 5%Z) (y_arg lf_three))
    as (d3 & E3); auto.
  { apply y_svd. } { apply lf_data. } { lia. } { cbn. lra. } { rewrite O1. discriminate. } { rewrite N1. discriminate. }
  specialize (H _ _ _ _ _ _ _ _ _ _ _ (y_arg lf_three) F1). rewrite E2, E3 in H. discriminate (H eq_refl).
Qed.
Print Assumptions C96_no_trace_refuted.

(** The hypotheses of C96_next_fit hold: a start of the wrong rank is refused, a correct one is then used. *)
Example C96_next_example : exists ds1 ds2,
  cp_init_fit q_env y_cs no_disk [] lf_X None (y_arg [mk [2; 2]%nat [1; 1; 1; 1]]) y_ds = (ds1, Some ValueError) /\
  cp_init_fit q_env y_cs no_disk [] lf_X (Some 5%Z) (y_arg lf_three) y_ds = (ds2, None) /\
  cp_nn (ds_num ds1) = None /\ cp_orth (ds_num ds1) = None.
Proof.
  destruct (y_start q_env no_disk lf_X lf_three lf_data lf_factors) as (ds2 & E & _).
  eexists. exists ds2. split; [reflexivity|]. split; [exact E|]. split; reflexivity.
Qed.
(** A QR factorisation that fails for matrices with three rows: the first factor has been replaced, the second not. *)
Definition lf_env : cp_env :=
  {| env_svd := svd_row; env_svd_u := fun A => Ok (np_identity (nrows A));
     env_qr := fun A => if (nrows A =? 3)%nat then Err LinAlgError else Ok (np_map (Rmult 2) A);
     env_nnls := fun A b => Ok b; env_junk := fun _ _ => 0 |}.
Example C96_qr_example :
  let ds := with_num (fresh_cp None (Some [true; true; true])) y_ds in
  exists d ds1, cp_init_components lf_env y_cs no_disk [] (y_arg lf_three) (with_num (cp_with_target lf_X (ds_num ds)) (with_it 0%Z ds)) = (d, None) /\
    env_qr lf_env (nth 1 (kt_fms (cp_dec (ds_num d))) m0) = Err LinAlgError /\
    cp_fit lf_env y_cs y_cf no_disk [] lf_X (Some 5%Z) (y_arg lf_three) ds = (ds1, Some LinAlgError) /\
    kt_fms (cp_dec (ds_num ds1)) = [mk [2; 1]%nat [2 * 1; 2 * 1]; mk [3; 1]%nat [1; 1; 1]; mk [2; 1]%nat [1; 2]].
Proof. intros ds. do 2 eexists. split; [reflexivity|]. split; [reflexivity|]. split; reflexivity. Qed.
(** Lists for three modes, data with two *)
Example C96_fewer_example : exists ds', cp_fit q_env q_cs q_cf no_disk q_draws q_X (Some 5%Z) NoArg
    (with_num (fresh_cp None (Some [false; false; false])) q_ds) = (ds', Some IndexError).
Proof. apply (@C96_fewer_modes q_env q_cs 1 q_cf no_disk q_draws q_X (Some 5%Z) NoArg _ 3 0); auto using q_data, q_start. now left. Qed.
