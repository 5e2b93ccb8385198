(** Property C85: complete CP_ALS fits with constraints and penalties. *)
From Verif Require Import ShortMode ConstrainedFit Exists Decomposer.
Local Open Scope R_scope.

(** *** C85.  Fits with any allowed combination of constraints and penalties complete. *)
Theorem C85_fits_complete : forall env cs K X nn orth, constrained env cs K X nn orth ->
  forall cf disk draws max_its arg ds, usable_start env cs K X draws arg ->
  cp_nn (ds_num ds) = nn -> cp_orth (ds_num ds) = orth -> cp_last (ds_num ds) = None ->
  let budget := match max_its with Some m => m | None => ds_max ds end in
  (0 < budget)%Z -> (forall lg, In lg (ds_logs ds) -> exists k, code_logger env cs k lg) -> checkpoints_fit cf budget ds ->
  exists ds1 ds', cp_init_fit env cs disk draws X max_its arg ds = (ds1, None) /\
    cp_fit env cs cf disk draws X max_its arg ds = (ds', None) /\
    factors_ok K X (kt_fms (cp_dec (ds_num ds'))) /\ (forall r, (r < K)%nat -> vget (kt_w (cp_dec (ds_num ds'))) r = 1) /\
    cp_SSE env (ds_num ds') = Ok (sse X (kt_fms (cp_dec (ds_num ds'))) unit_weights K) /\
    (0 <= ds_it ds' <= budget)%Z /\
    ((ds_it ds' < budget)%Z ->
     cp_stops (cp_model env cs) cf (ds_prev ds1) PInf (ds_num ds1) (Z.to_nat (ds_it ds')) = Ok true) /\
    (forall m, asked nn m -> (0 < ds_it ds')%Z \/ arg = NoArg /\ lower (cs_init cs) = "random"%string ->
       nonneg_mat (nth m (shape X) 0%nat) K (mget (nth m (kt_fms (cp_dec (ds_num ds'))) m0))) /\
    (forall m, asked orth m -> partial_isometry (nth m (shape X) 0%nat) K (mget (nth m (kt_fms (cp_dec (ds_num ds'))) m0))) /\
    (forall m, asked orth m -> orth_cols (nth m (shape X) 0%nat) K (mget (nth m (kt_fms (cp_dec (ds_num ds1))) m0))).
Proof. exact constrained_fit_completes. Qed.
Print Assumptions C85_fits_complete.

(** A mode asked to be orthonormal that has fewer entries than there are components (but more than one) makes the fit
    raise before the first iteration. *)
Theorem C85_short_mode_raises : forall env cs K cf disk draws X max_its arg ds l m,
  cs_rank cs = K -> data_ok X -> usable_start env cs K X draws arg -> cp_last (ds_num ds) = None ->
  (match cp_nn (ds_num ds) with Some l => (length l <= length (shape X))%nat | None => True end) ->
  cp_orth (ds_num ds) = Some l -> (length l <= length (shape X))%nat ->
  (forall m', nth_error l m' = Some true -> qr_works_on (nth m' (shape X) 0%nat) K (env_qr env)) ->
  nth_error l m = Some true -> (1 < nth m (shape X) 0 < K)%nat ->
  exists ds', cp_fit env cs cf disk draws X max_its arg ds = (ds', Some ValueError) /\ ds_logs ds' = ds_logs ds /\ ds_file ds' = ds_file ds.
Proof. exact short_mode_raises. Qed.
Print Assumptions C85_short_mode_raises.

(** Two components for a 2x3 matrix: mode 0 non-negative with penalty 1, mode 1 orthonormal *)
Example C85_example : let X := mk [2; 3]%nat [1; 2; 3; 4; 5; 6] in
  let cs := {| cs_rank := 2; cs_init := "Random"; cs_ridge := Some [1; 0] |} in
  let draws := [mk [2; 2]%nat [1; 1; 0; 1]; mk [3; 2]%nat [1; 1; 0; 1; 2; 2]] in
  exists env, constrained env cs 2 X (Some [true; false]) (Some [false; true]) /\ usable_start env cs 2 X draws NoArg.
Proof.
  intros X cs draws.
  destruct svd_contract_satisfiable as (svd & Hs). destruct nnls_contract_satisfiable as (nnls & Hn).
  exists {| env_svd := svd; env_svd_u := fun A => do (U, _, _) <- svd A ; Ok U; env_qr := fun A => do (U, _, _) <- svd A ; Ok U;
            env_nnls := nnls; env_junk := fun _ _ => 0 |}.
  assert (Ha : forall m, asked (Some [true; false]) m -> m = 0%nat).
  { intros m (l & E & F). injection E as <-. destruct m as [|[|m]]; try discriminate; auto. now destruct m. }
  assert (Hb : forall m, asked (Some [false; true]) m -> m = 1%nat).
  { intros m (l & E & F). injection E as <-. destruct m as [|[|m]]; try discriminate; auto. now destruct m. }
  split.
  - constructor.
    + reflexivity.
    + lia.
    + split; [reflexivity|]. split; [cbn; lia|]. repeat constructor; discriminate.
    + right. eexists. split; reflexivity.
    + right. eexists. split; reflexivity.
    + intros m H1 H2. apply Ha in H1. apply Hb in H2. lia.
    + intros m H. apply Hb in H as ->. cbn. lia.
    + split; [cbn; lia|]. repeat constructor; lra.
    + exact Hs.
    + exact Hn.
    + intros m H. apply Hb in H as ->. intros A HA. exact (qr_of_svd Hs HA).
  - left. split; [reflexivity|]. split; [reflexivity|]. split; [repeat constructor|reflexivity].
Qed.
(** Three components, but mode 0 has two entries *)
Example C85_short_example : let X := mk [2; 3]%nat [1; 2; 3; 4; 5; 6] in
  let cs := {| cs_rank := 3; cs_init := "random"; cs_ridge := None |} in
  let draws := [mk [2; 3]%nat [1; 1; 0; 1; 2; 3]; mk [3; 3]%nat [1; 1; 0; 1; 2; 2; 1; 0; 1]] in
  exists env, data_ok X /\ usable_start env cs 3 X draws NoArg /\
    (forall m', nth_error [true; false] m' = Some true -> qr_works_on (nth m' (shape X) 0%nat) 3 (env_qr env)) /\
    (1 < nth 0 (shape X) 0 < 3)%nat.
Proof.
  intros X cs draws. destruct svd_contract_satisfiable as (svd & Hs).
  exists {| env_svd := svd; env_svd_u := fun A => do (U, _, _) <- svd A ; Ok U; env_qr := fun A => do (U, _, _) <- svd A ; Ok U;
            env_nnls := fun A b => Ok b; env_junk := fun _ _ => 0 |}.
  split. { split; [reflexivity|]. split; [cbn; lia|]. repeat constructor; discriminate. }
  split. { left. split; [reflexivity|]. split; [reflexivity|]. split; [repeat constructor|reflexivity]. }
  split; [|cbn; lia]. intros m _ A HA. exact (qr_of_svd Hs HA).
Qed.
