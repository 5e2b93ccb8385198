(** Complete fits of CMTF_ALS (C84). *)
From Verif Require Import CoupledSpec CMTFUpdate CMTFNorm CMTFLoss QualityFacts CPComplete RunFacts FitFacts.
From Verif Require Import Prelude Lin.
Set Implicit Arguments.
Unset Strict Implicit.
Local Open Scope R_scope.

Lemma Forall2_same_len {A B} (P : A -> B -> Prop) l k : Forall2 P l k -> length l = length k.
Proof. induction 1; cbn; auto. Qed.

Section Complete.
Variables (env : cp_env) (cs : cp_settings) (K : nat).
Let md := cmtf_model env cs.

Lemma coupled_begin disk draws vdraws X Y ms max_its arg ds :
  cs_rank cs = K -> cs_ridge cs = None -> data_ok X -> usable_start env cs K X draws arg -> coupled_start K X ms Y vdraws ->
  free_flags (cp_nn (cm_cp (ds_num ds))) (length (shape X)) -> free_flags (cp_orth (cm_cp (ds_num ds))) (length (shape X)) ->
  exists ds1 Us, cmtf_init_fit env cs disk draws vdraws X Y (map Z.of_nat ms) max_its arg ds = (ds1, None) /\
    factors_ok K X Us /\ (forall d, arg = DecArg d -> Us = kt_fms d) /\
    ds_it ds1 = 0%Z /\ ds_max ds1 = (match max_its with Some m => m | None => ds_max ds end) /\ ds_logs ds1 = ds_logs ds /\
    ds_file ds1 = ds_file ds /\ ds_rel ds1 = PInf /\
    cm_ok K ms (ds_num ds1) /\ cp_X (cm_cp (ds_num ds1)) = X /\ cm_Y (ds_num ds1) = Y /\ kt_rank (cm_dec (ds_num ds1)) = K /\
    free_fit cs (cm_cp (ds_num ds1)) /\ cp_norm (cm_cp (ds_num ds1)) = norm X /\
    cm_fms (ds_num ds1) = map (fun U => scaled eps15 (nrows U) K U) Us /\
    (forall r, (r < K)%nat -> vget (kt_w (cm_dec (ds_num ds1))) r = prodf Us (fun U => clen U r)) /\
    (forall i b r, (i < length ms)%nat -> (b < ncols (nth i Y m0))%nat -> (r < K)%nat ->
      mget (nth i (cm_V (ds_num ds1)) m0) b r = mget (nth i vdraws m0) b r / clen (nth i vdraws m0) r) /\
    ds_prev ds1 = Fin (coupled_loss K X Us unit_weights ms (cm_V (ds_num ds1)) Y).
Proof.
  intros HK HR HX HU HCS Hnn Hor.
  set (d0 := {| ds_num := cm_cp (ds_num ds); ds_it := ds_it ds; ds_max := ds_max ds; ds_rel := ds_rel ds;
                ds_prev := ds_prev ds; ds_logs := []; ds_file := ds_file ds |}).
  destruct (@usable_begun env cs K disk draws X arg d0 HK HX HU) as (d & EB & HF & Hw & Hrk).
  { unfold d0; cbn [ds_num]. destruct Hnn as [-> | ->]; auto. rewrite repeat_length. lia. }
  assert (Hd : forall d', arg = DecArg d' -> kt_fms d = kt_fms d').
  { intros d' ->. destruct HU as [(_ & HU & _)|[(_ & HU & _)|(Hi & d2 & HU & HF2 & _)]]; try discriminate. injection HU as <-.
    destruct (@init_precomputed env cs disk draws (targeted X d0) d' Hi) as [Hacc _]. rewrite Hacc in EB.
    - apply (f_equal (fun p => kt_fms (cp_dec (ds_num (fst p))))) in EB. cbn in EB. now symmetry.
    - rewrite HK. now apply factors_fit. }
  pose proof HF as [HM Hr]. pose proof (mode_len Hr) as Hlen. destruct (reset_weights_ok Hw) as [Hw1 Hw2].
  destruct HCS as (HY & HV & HC).
  destruct (@init_coupled_ok vdraws K X ms (cm_with_cp (cp_with_dec d (cp_with_target X (cm_cp (ds_num ds))))
                        (cm_with_coupling Y (map Z.of_nat ms) (ds_num ds))) eq_refl HY HV) as (s1 & EI & HCO & HVe).
  { intros i Hi. destruct (HC i Hi) as (A & B & C & D). split; [exact A|]. split; [exact B|]. split; [exact C|]. split; [exact D|].
    cbn. destruct Hnn as [-> | ->]; auto. now rewrite repeat_length. }
  pose proof (init_coupled_only_V EI) as E1.
  change (cm_Y (cm_with_cp (cp_with_dec d (cp_with_target X (cm_cp (ds_num ds)))) (cm_with_coupling Y (map Z.of_nat ms) (ds_num ds)))) with Y in *.
  unfold cmtf_init_fit, on_cp. cbn [ds_num with_num with_it ds_it ds_max ds_rel ds_prev ds_logs ds_file].
  match goal with |- context [cp_init_components env cs disk draws arg ?x] => change x with (targeted X d0) end.
  rewrite EB.
  cbn [begun targeted ds_num with_num ds_it ds_max ds_rel ds_prev ds_logs ds_file with_it d0].
  change (cm_with_cp (cp_with_dec d (cp_with_target X (cm_cp (ds_num ds))))
      (cm_with_cp (cp_with_target X (cm_cp (cm_with_coupling Y (map Z.of_nat ms) (ds_num ds)))) (cm_with_coupling Y (map Z.of_nat ms) (ds_num ds))))
    with (cm_with_cp (cp_with_dec d (cp_with_target X (cm_cp (ds_num ds)))) (cm_with_coupling Y (map Z.of_nat ms) (ds_num ds))).
  rewrite EI. rewrite E1. cbn [cm_with_V cm_dec cm_cp cm_with_cp cp_dec cp_with_dec cp_nn cp_orth cp_with_target].
  set (c := cp_with_constraints _ _ _).
  assert (Hc : cp_orthonormalise env c = Ok c).
  { apply orthonormalise_false; subst c; cbn.
    - destruct (cp_orth (cm_cp (ds_num ds))); discriminate.
    - destruct Hor as [-> | ->]; cbn; (split; [|rewrite repeat_length; lia]); apply Forall_forall; intros b Hb; now apply repeat_spec in Hb. }
  rewrite Hc. cbn [cm_with_V cm_with_cp cm_Y cm_modes cm_V cm_cp].
  set (s2 := {| cm_cp := c; cm_Y := Y; cm_modes := map Z.of_nat ms; cm_V := cm_V s1 |}).
  assert (H2 : cm_ok K ms s2) by (constructor; auto).
  match goal with |- context [cmtf_SSE env ?x] => change x with s2 end.
  rewrite (cmtf_SSE_ok env H2).
  destruct (@kt_normalize_of eps15 K (cm_dec s2) HM) as (k' & EK & HRk & Ef & Hw' & He); auto.
  { intros U r _ _. pose proof (clen_nonneg U r). pose proof eps15_pos. lra. }
  match goal with |- context [kt_normalize true eps15 ?x] => change x with (cm_dec s2) end. rewrite EK.
  eexists. exists (kt_fms d). split; [reflexivity|]. split; [exact HF|]. split; [exact Hd|].
  assert (EP : coupled_loss K X (kt_fms d) (vget (kt_w (cm_dec s2))) ms (cm_V s1) Y =
               coupled_loss K X (kt_fms d) unit_weights ms (cm_V s1) Y).
  { apply coupled_loss_unit. exact Hw2. }
  change (kt_fms (cm_dec s2)) with (kt_fms d) in *.
  assert (HF' : factors_ok K X (kt_fms k')).
  { rewrite Ef. split; [apply mats_scaled|]. now rewrite rows_scaled. }
  destruct max_its as [mi|]; cbn [ds_num with_num with_conv with_max ds_prev ds_it ds_max ds_logs ds_file ds_rel].
  all: do 5 (split; [reflexivity|]).
  all: split; [constructor; [exact HX | exact HF' | exact Hw' | reflexivity | exact HCO]|].
  all: do 2 (split; [reflexivity|]). all: split; [exact HRk|].
  all: split; [intros m Hm; split; [exact HR|]; split; eapply free_flag; eauto|].
  all: split; [reflexivity|]. all: split; [exact Ef|].
  all: split; [|split; [exact HVe|f_equal; exact EP]].
  all: intros r Hrk'; cbn [cm_with_dec cm_with_cp cm_dec cm_cp cp_with_dec cp_dec]; rewrite He by auto.
  all: change (vget (kt_w (cm_dec s2)) r) with (vget (kt_w (kt_reset_weights d)) r); rewrite Hw2 by auto; ring.
Qed.

Lemma coupled_plain (l : list (logger cmtf_state)) : (forall lg, In lg l -> exists k, coupled_logger env k lg) -> plain_classes (classes_of l).
Proof.
  intros H c i Hin E. apply in_map_iff in Hin as (lg & <- & Hlg). destruct (H lg Hlg) as (k & Hc & _). rewrite Hc in E.
  destruct k; discriminate.
Qed.
Lemma coupled_metric_total k ms s : cm_ok K ms s -> exists v, cmtf_metric env k s = Ok v.
Proof.
  intros H. pose proof (cmtf_SSE_ok env H) as E. pose proof (cm_MSE_ok env H) as E2.
  destruct k; cbn [cmtf_metric]; unfold as_metric, cmtf_RMSE, root_of, cmtf_explained, explained_of; rewrite ?E, ?E2; cbn [bind]; eauto.
Qed.
Lemma after_coupled_rank s k : kt_rank (cm_dec (state_after md s k)) = kt_rank (cm_dec s).
Proof.
  induction k as [|k IH]; [reflexivity|]. cbn [state_after md cmtf_model md_update].
  destruct (cmtf_update_factors env cs _) as [s' e] eqn:E. cbn [fst]. now rewrite (factors_keep_rank E).
Qed.
Lemma coupled_storable ms s : cm_ok K ms s -> kt_rank (cm_dec s) = K -> storable md (cm_dec s).
Proof.
  intros H HR. destruct (ck_fac H) as [HM Hr]. change (kt_fms (cm_dec s)) with (cm_fms s) in *.
  assert (Hne : cm_fms s <> []).
  { intros E. pose proof (ck_len H) as El. rewrite E in El. destruct (ck_data H) as (_ & H2 & _). cbn in El. lia. }
  pose proof (@kt_init_mats K (cm_fms s) (kt_w (cm_dec s)) HM Hne (ck_w H)) as E.
  destruct (@kt_roundtrip_lemma (cm_fms s) (Some (kt_w (cm_dec s))) (cm_dec s) empty_group) as (g & A & B).
  - rewrite E. unfold cm_fms in *. destruct (cm_dec s); cbn in *. now rewrite HR.
  - apply no_clash_empty.
  - exists g. auto.
Qed.

Lemma coupled_quiet ms cf ds : cs_rank cs = K -> (1 <= K)%nat -> NoDup ms -> svd_works_rows K (env_svd env) ->
  cm_ok K ms (ds_num ds) -> free_fit cs (cm_cp (ds_num ds)) -> kt_rank (cm_dec (ds_num ds)) = K -> ds_it ds = 0%Z -> (0 < ds_max ds)%Z ->
  (forall lg, In lg (ds_logs ds) -> exists k, coupled_logger env k lg) -> checkpoints_fit cf (ds_max ds) ds ->
  snd (cp_fit_loop md cf ds) = None.
Proof.
  intros HK HK1 HN HS H HF HR Eit Hb Hlg Hck.
  assert (Hst : forall k, cm_ok K ms (state_after md (ds_num ds) k) /\ snd (cmtf_update_factors env cs (state_after md (ds_num ds) k)) = None).
  { intros k. destruct (cm_iterations HS HK HK1 HN H HF k) as (A & _ & B & _). auto. }
  assert (HQ : quiet md ds (Z.to_nat (ds_max ds - ds_it ds))).
  { split; [|split].
    - intros k _. destruct (Hst k) as [A _]. cbn [md cmtf_model md_loss]. fold md. rewrite (cmtf_SSE_ok env A). cbn [bind]. eauto.
    - intros k _. apply Hst.
    - intros k lg _ Hin. destruct (Hlg lg Hin) as (kd & _ & ->). destruct (Hst (Datatypes.S k)) as [A _]. now apply (coupled_metric_total kd A). }
  destruct Hck as [Hf|(Hf & f & Hfile & Hready & Hun)].
  - apply cp_quiet_neg; auto. lia.
  - destruct (cp_fit_loop md cf ds) as [ds' e] eqn:EL. cbn [snd].
    destruct (@cp_run_lemma _ _ md cf ds f ds' e Hf) as [_ K2]; auto.
    + right. reflexivity.
    + now apply coupled_plain.
    + intros k. destruct (Hst k) as [A _]. apply (coupled_storable A). now rewrite after_coupled_rank.
    + intros j Hj. rewrite Eit. apply Hun. lia.
    + apply K2; auto. lia.
Qed.

Lemma coupled_complete cf disk draws vdraws X Y ms max_its arg ds :
  cs_rank cs = K -> (1 <= K)%nat -> cs_ridge cs = None -> NoDup ms -> svd_works_rows K (env_svd env) ->
  data_ok X -> usable_start env cs K X draws arg -> coupled_start K X ms Y vdraws ->
  free_flags (cp_nn (cm_cp (ds_num ds))) (length (shape X)) -> free_flags (cp_orth (cm_cp (ds_num ds))) (length (shape X)) ->
  let budget := match max_its with Some m => m | None => ds_max ds end in
  (0 < budget)%Z -> (forall lg, In lg (ds_logs ds) -> exists k, coupled_logger env k lg) -> checkpoints_fit cf budget ds ->
  exists ds1 ds' Us n, let t := state_after md (ds_num ds1) n in let s' := ds_num ds' in
    cmtf_init_fit env cs disk draws vdraws X Y (map Z.of_nat ms) max_its arg ds = (ds1, None) /\
    cmtf_fit env cs cf disk draws vdraws X Y (map Z.of_nat ms) max_its arg ds = (ds', None) /\
    factors_ok K X Us /\ (forall d, arg = DecArg d -> Us = kt_fms d) /\
    ds_it ds' = Z.of_nat n /\ (Z.of_nat n <= budget)%Z /\
    Forall2 (fun a b => lg_its b = lg_its a ++ its_of 0 n /\ length (lg_vals b) = (length (lg_vals a) + n)%nat) (ds_logs ds) (ds_logs ds') /\
    factors_ok K X (cm_fms s') /\ coupling_ok K X ms (cm_V s') Y /\ cp_X (cm_cp s') = X /\ cm_Y s' = Y /\
    coupled_loss K X (cm_fms t) unit_weights ms (cm_V t) Y <=
      coupled_loss K X (cm_fms (ds_num ds1)) unit_weights ms (cm_V (ds_num ds1)) Y /\
    (forall m a r, (m < length (shape X))%nat -> (a < nth m (shape X) 0)%nat -> (r < K)%nat ->
      mget (nth m (cm_fms (ds_num ds1)) m0) a r = mget (nth m Us m0) a r / (clen (nth m Us m0) r + eps15)) /\
    (forall m a r, (m < length (shape X))%nat -> (a < nth m (shape X) 0)%nat -> (r < K)%nat ->
      mget (nth m (cm_fms s') m0) a r = mget (nth m (cm_fms t) m0) a r / (clen (nth m (cm_fms t) m0) r + eps15)) /\
    (forall i b r, (i < length ms)%nat -> (b < ncols (nth i Y m0))%nat -> (r < K)%nat ->
      mget (nth i (cm_V s') m0) b r = mget (nth i (cm_V t) m0) b r * clen (nth (nth i ms 0%nat) (cm_fms t) m0) r) /\
    forall idx, valid idx (shape X) ->
      cp_entry (cm_fms s') (vget (kt_w (cm_dec s'))) K idx =
      sum K (fun r => prodf Us (fun U => clen U r) * colprod (cm_fms t) idx r *
                      prodf (cm_fms t) (fun U => clen U r / (clen U r + eps15))).
Proof.
  intros HK HK1 HR HN HS HX HU HCS Hnn Hor budget Hb Hlg Hck.
  destruct (@coupled_begin disk draws vdraws X Y ms max_its arg ds HK HR HX HU HCS Hnn Hor)
    as (ds1 & Us & EI & HF & Hd & Eit & Emax & Elog & Efile & _ & HOK & EX & EY & Erk & HFree & _ & Ef & Ew & _ & _).
  fold budget in Emax.
  assert (HC1 : checkpoints_fit cf (ds_max ds1) ds1).
  { rewrite Emax. destruct Hck as [Hf|Hf]; [left; exact Hf|right]. now rewrite Efile, Elog. }
  assert (HE : snd (cp_fit_loop md cf ds1) = None).
  { apply (@coupled_quiet ms); auto. - lia. - now rewrite Elog. }
  destruct (cp_fit_loop md cf ds1) as [ds2 e] eqn:EL. cbn [snd] in HE. subst e.
  destruct (cp_fit_lemma EL) as (n & Hn & En & _ & Hend). destruct (Hend eq_refl) as [_ Hit].
  destruct (cm_iterations HS HK HK1 HN HOK HFree n) as (HT & HST & _). fold md in HT, HST.
  set (t := state_after md (ds_num ds1) n) in *.
  assert (Hle : coupled_loss K X (cm_fms t) unit_weights ms (cm_V t) Y <=
      coupled_loss K X (cm_fms (ds_num ds1)) unit_weights ms (cm_V (ds_num ds1)) Y).
  { unfold t. clear - HS HK HK1 HN HOK HFree EX EY. induction n as [|n IH]; [cbn; lra|].
    destruct (cm_iterations HS HK HK1 HN HOK HFree n) as (_ & _ & _ & _ & H). fold md in H. rewrite EX, EY in H. lra. }
  assert (Erkt : kt_rank (cm_dec t) = K) by (unfold t; now rewrite after_coupled_rank).
  assert (HXt : cp_X (cm_cp t) = X) by now rewrite (sp_X (sc_cp HST)).
  assert (HYt : cm_Y t = Y) by now rewrite (sc_Y HST).
  destruct (@cm_normalize_ok eps15 K ms t HT Erkt) as (s' & ES & HOK' & EX' & EY' & Hf' & HV' & Hent).
  { intros U r _ _. pose proof (clen_nonneg U r). pose proof eps15_pos. lra. }
  rewrite HXt in *. rewrite HYt in *.
  exists ds1, (with_num s' ds2), Us, n. cbn zeta. split; [exact EI|]. split.
  { unfold cmtf_fit. rewrite EI. unfold cmtf_fit_loop. fold md. rewrite EL, En. fold t. now rewrite ES. }
  split; [exact HF|]. split; [exact Hd|]. cbn [ds_num with_num ds_it ds_logs]. fold t. split; [lia|]. split; [lia|]. split.
  { pose proof (cp_fit_logs EL) as HL. rewrite Eit, Elog in HL. eapply Forall2_impl; [|exact HL].
    intros a b (_ & _ & B3 & vs & B4 & B5).
    replace (Z.to_nat (ds_it ds2 - 0)) with n in * by lia. split; [exact B3|]. rewrite B4, app_length. f_equal.
    rewrite <- (Forall2_same_len B5). apply seq_length. }
  split; [rewrite <- EX' ; apply (ck_fac HOK')|]. split; [rewrite <- EX', <- EY'; apply (ck_coup HOK')|].
  split; [exact EX'|]. split; [exact EY'|]. split; [exact Hle|]. pose proof HF as [HM Hr]. pose proof (mode_len Hr) as Hlen. split.
  { intros m a r Hm Ha Hrk. rewrite Ef. rewrite (nth_map_in (fun U => scaled eps15 (nrows U) K U) m0) by (rewrite Hlen; auto).
    unfold scaled. rewrite mget_tab2; auto; [now rewrite clen_colnorm|]. now rewrite (is_mat_nrows (rows_nth HF Hm)). }
  split.
  { intros m a r Hm Ha Hrk. apply Hf'; auto; [rewrite (ck_len HT), HXt; auto|].
    pose proof (ck_fac HT) as HFt. rewrite HXt in HFt. now rewrite (is_mat_nrows (rows_nth HFt Hm)). }
  split; [exact HV'|]. intros idx Hv. rewrite (Hent idx Hv). apply sum_ext. intros r Hrk. do 2 f_equal.
  unfold cm_dec. rewrite (sp_w (sc_cp HST)). now apply Ew.
Qed.
End Complete.
