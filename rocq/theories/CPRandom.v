(** A CP_ALS fit from a random start runs to its end. *)
From Verif Require Export CPInit CPFit FitLemmas.
Set Implicit Arguments.
Unset Strict Implicit.
Local Open Scope R_scope.

Section Random.
Variables (env : cp_env) (cs : cp_settings) (K : nat).
Let md := cp_model env cs.

(** The draws with their columns normalised *)
Definition normalised (draws : list nd) : list nd := map (fun U => scaled eps15 (nrows U) K U) draws.

Lemma random_init_ok X draws : data_ok X -> factors_ok K X draws ->
  exists k, kt_random_init draws = Ok k /\ kt_rank k = K /\ kt_fms k = normalised draws /\ is_vec K (kt_w k) /\
    factors_ok K X (kt_fms k).
Proof.
  intros HX HF. assert (Hlen : length draws = length (shape X)) by (apply mode_len; apply HF).
  assert (Hne : draws <> []) by (intros ->; destruct HX as (_ & H2 & _); cbn in *; lia).
  unfold kt_random_init. rewrite (kt_init_mats_none (proj1 HF) Hne). cbn [bind].
  destruct (@kt_normalize_ok false eps15 K draws (np_ones [K]) (proj1 HF) (is_vec_ones K)) as (w' & E & Hw' & _).
  { intros U r _ _. apply colnorm_eps_pos. apply eps15_pos. }
  rewrite E. eexists. split; [reflexivity|]. split; [reflexivity|]. split; [reflexivity|]. split; [exact Hw'|]. cbn [kt_fms]. destruct HF as [HM Hr]. split.
  - unfold mats. rewrite Forall_map. apply Forall_forall. intros U _. rewrite (is_mat_nrows (is_mat_scaled eps15 (nrows U) K U)).
    apply is_mat_scaled.
  - rewrite <- Hr. unfold rows. rewrite map_map. apply map_ext. intros U. apply (is_mat_nrows (is_mat_scaled eps15 (nrows U) K U)).
Qed.

Lemma random_start_ok disk draws X max_its ds : lower (cs_init cs) = "random"%string ->
  data_ok X -> factors_ok K X draws -> cp_nn (ds_num ds) = None -> cp_orth (ds_num ds) = None -> cp_last (ds_num ds) = None ->
  exists ds1, cp_init_fit env cs disk draws X max_its NoArg ds = (ds1, None) /\
    cp_coherent K (ds_num ds1) /\ unit_w K (ds_num ds1) /\ kt_fms (cp_dec (ds_num ds1)) = normalised draws /\ cp_X (ds_num ds1) = X /\
    cp_nn (ds_num ds1) = Some (repeat false (length draws)) /\ cp_orth (ds_num ds1) = Some (repeat false (length draws)) /\
    ds_it ds1 = 0%Z /\ ds_max ds1 = (match max_its with Some m => m | None => ds_max ds end) /\
    ds_logs ds1 = ds_logs ds /\ ds_prev ds1 = Fin (sse X (normalised draws) unit_weights K).
Proof.
  intros Hi HX HF Hnn Hor Hlast. destruct (random_init_ok HX HF) as (k & Ek & _ & Efm & Hw & HF').
  set (d1 := with_num (cp_with_dec k (ds_num (targeted X ds))) (targeted X ds)).
  assert (E1 : cp_init_components env cs disk draws NoArg (targeted X ds) = (d1, None)).
  { unfold cp_init_components. rewrite Hi. cbn [andb String.eqb Ascii.eqb Bool.eqb]. unfold cp_init_random.
    rewrite Ek. cbn [bind]. cbn [targeted ds_num with_num cp_with_target cp_nn]. rewrite Hnn. reflexivity. }
  destruct (reset_weights_ok Hw) as [HW1 HW2].
  assert (HC : cp_coherent K (cp_with_dec (kt_reset_weights (cp_dec (ds_num d1))) (ds_num d1))).
  { constructor; auto. cbn. rewrite Hlast. discriminate. }
  destruct (@init_fit_prepared env cs disk draws X max_its NoArg ds d1 E1) as (l & El).
  { now rewrite Hor. }
  { eexists. apply (cp_SSE_ok env HC). }
  assert (Hl : l = sse X (normalised draws) unit_weights K).
  { clear - El E1 HC HW2 Hor Efm. unfold cp_init_fit in El. fold (targeted X ds) in El. rewrite E1 in El.
    assert (En : ds_num (match max_its with Some m => with_max m d1 | None => d1 end) = ds_num d1) by (destruct max_its; reflexivity).
    rewrite En in El. rewrite orthonormalise_false in El.
    - change (cp_SSE env (cp_with_constraints ?a ?b ?s)) with (cp_SSE env s) in El.
      rewrite (cp_SSE_ok env HC) in El. apply (f_equal (fun p => match ds_prev (fst p) with Fin x => x | _ => 0 end)) in El.
      cbn [fst ds_prev with_conv prepared] in El. rewrite <- El, <- Efm. apply sse_ext. exact HW2.
    - cbn. rewrite Hor. discriminate.
    - cbn. rewrite Hor. cbn. split; [|rewrite repeat_length; lia]. apply Forall_forall. intros b Hb. now apply repeat_spec in Hb. }
  assert (Hlen : length (kt_fms k) = length draws) by (rewrite Efm; apply map_length).
  exists (prepared max_its d1 l). split; [exact El|]. split; [destruct HC; constructor; auto; cbn; rewrite Hlast; discriminate|].
  split; [exact HW2|]. split; [exact Efm|]. split; [reflexivity|]. cbn. rewrite Hnn, Hor, Hl. cbn. rewrite Hlen.
  repeat split; now destruct max_its.
Qed.

Lemma repeat_free c n m : c = Some (repeat false n) -> (m < n)%nat -> exists l, c = Some l /\ nth_error l m = Some false.
Proof. intros -> Hm. exists (repeat false n). split; auto. now apply nth_error_repeat. Qed.

Lemma random_cp_fit cf disk draws X max_its ds : lower (cs_init cs) = "random"%string -> cs_rank cs = K -> cs_ridge cs = None ->
  svd_works_on K K (env_svd env) -> data_ok X -> factors_ok K X draws ->
  cp_nn (ds_num ds) = None -> cp_orth (ds_num ds) = None -> cp_last (ds_num ds) = None -> ds_logs ds = [] ->
  (cf_freq cf < 0)%Z -> (0 < match max_its with Some m => m | None => ds_max ds end)%Z ->
  exists ds', cp_fit env cs cf disk draws X max_its NoArg ds = (ds', None) /\ cp_coherent K (ds_num ds') /\
    cp_X (ds_num ds') = X /\
    sse X (kt_fms (cp_dec (ds_num ds'))) unit_weights K <= sse X (normalised draws) unit_weights K.
Proof.
  intros Hi HK HR Hsvd HX HF Hnn Hor Hlast Hlogs Hfreq Hmax.
  destruct (@random_start_ok disk draws X max_its ds Hi HX HF Hnn Hor Hlast)
    as (ds1 & E1 & HC & HU & Hfm & EX & Enn & Eor & Eit & Emax & Elogs & _).
  assert (HFree : free_fit cs (ds_num ds1)).
  { intros m Hm. rewrite EX in Hm. rewrite <- (mode_len (proj2 HF)) in Hm. split; [exact HR|].
    split; eapply repeat_free; eauto. }
  assert (HQ : snd (cp_fit_loop md cf ds1) = None).
  { apply cp_quiet_neg; auto; [rewrite Eit, Emax; exact Hmax|]. split; [|split].
    - intros k _. eexists. apply (@loss_is_sse env cs K (ds_num ds1) k HC HU).
    - intros k _. apply (free_never_raises Hsvd HK HC HFree).
    - intros k lg _ Hin. rewrite Elogs, Hlogs in Hin. destruct Hin. }
  destruct (cp_fit_loop md cf ds1) as [ds' e] eqn:E. cbn in HQ. subst e.
  exists ds'. split. { unfold cp_fit. rewrite E1. exact E. }
  destruct (fit_reported_true HC E) as [H1 H2]. split; auto. split; [rewrite (sp_X H2); exact EX|].
  pose proof (fit_sse_le Hsvd HK HC HFree E) as Hle. now rewrite EX, Hfm in Hle.
Qed.
End Random.
