(** Normalisation, weights and negative coupling modes of CMTF_ALS: lemmas for C53, C61, C62. *)
From Verif Require Export CMTFMore FlipFacts.
Set Implicit Arguments.
Unset Strict Implicit.
Local Open Scope R_scope.

(** *** Reconstructed coupled matrices *)
Lemma reconstructed_ok K ms s : cm_ok K ms s ->
  exists Rs, reconstructed_coupled_matrices s = Ok Rs /\ length Rs = length ms /\
    forall i, (i < length ms)%nat ->
      is_mat (nrows (nth i (cm_Y s) m0)) (ncols (nth i (cm_Y s) m0)) (nth i Rs m0) /\
      forall a b, (a < nrows (nth i (cm_Y s) m0))%nat -> (b < ncols (nth i (cm_Y s) m0))%nat ->
        mget (nth i Rs m0) a b =
        sum K (fun r => mget (nth (nth i ms 0%nat) (cm_fms s) m0) a r * mget (nth i (cm_V s) m0) b r).
Proof.
  intros H. unfold reconstructed_coupled_matrices. rewrite (coupled_factors_ok H). cbn [bind].
  destruct (ck_coup H) as (HV & HY & HC).
  assert (G : forall n a, (a + n = length ms)%nat ->
    exists Rs, mapM (fun '(scores, loadings) => matmul scores (transp loadings))
      (combine (map (fun m => nth m (cm_fms s) m0) (skipn a ms)) (skipn a (cm_V s))) = Ok Rs /\ length Rs = n /\
    forall i, (i < n)%nat ->
      is_mat (nrows (nth (a + i) (cm_Y s) m0)) (ncols (nth (a + i) (cm_Y s) m0)) (nth i Rs m0) /\
      forall x y, (x < nrows (nth (a + i) (cm_Y s) m0))%nat -> (y < ncols (nth (a + i) (cm_Y s) m0))%nat ->
        mget (nth i Rs m0) x y =
        sum K (fun r => mget (nth (nth (a + i) ms 0%nat) (cm_fms s) m0) x r * mget (nth (a + i) (cm_V s) m0) y r)).
  { induction n as [|n IH]; intros a Ha.
    - exists []. rewrite !skipn_all2 by lia. cbn [map combine mapM]. split; [reflexivity|]. split; [reflexivity|]. lia.
    - destruct (HC a ltac:(lia)) as (Hm & HYa & HVa).
      rewrite (@nth_skip _ ms 0%nat a), (@nth_skip _ (cm_V s) m0 a) by lia.
      destruct (IH (S a) ltac:(lia)) as (Rs & EM & EL & EF).
      pose proof (rows_nth (ck_fac H) Hm) as HU. pose proof (is_mat_transp HVa) as HVt.
      cbn [map combine mapM]. rewrite (matmul_ok HU HVt). cbn [bind]. rewrite EM. cbn [bind].
      eexists. split; [reflexivity|]. split; [cbn; lia|].
      intros [|i] Hi; cbn [nth].
      + replace (a + 0)%nat with a by lia. rewrite (is_mat_nrows HYa). split; [apply is_mat_tab2|].
        intros x y Hx Hy. rewrite mget_tab2 by auto. apply sum_ext. intros r Hr. now rewrite (mget_transp HVa).
      + replace (a + S i)%nat with (S a + i)%nat by lia. apply EF. lia. }
  destruct (G (length ms) 0%nat ltac:(lia)) as (Rs & EM & EL & EF). cbn [skipn Nat.add] in EM, EF. eauto.
Qed.

(** *** C53 *)
Lemma scale_uncoupled_ok K ms s : cm_ok K ms s ->
  exists Vs, scale_uncoupled s = Ok Vs /\ coupling_ok K (cp_X (cm_cp s)) ms Vs (cm_Y s) /\
    forall i b r, (i < length ms)%nat -> (b < ncols (nth i (cm_Y s) m0))%nat -> (r < K)%nat ->
      mget (nth i Vs m0) b r = mget (nth i (cm_V s) m0) b r * clen (nth (nth i ms 0%nat) (cm_fms s) m0) r.
Proof.
  intros H. unfold scale_uncoupled. rewrite (ck_modes H). destruct (ck_coup H) as (HV & HY & HC).
  assert (G : forall n a, (a + n = length ms)%nat ->
    exists Vs, mapM (scale_one s) (combine (skipn a (cm_V s)) (map Z.of_nat (skipn a ms))) = Ok Vs /\ length Vs = n /\
    forall i, (i < n)%nat -> is_mat (ncols (nth (a + i) (cm_Y s) m0)) K (nth i Vs m0) /\
      forall b r, (b < ncols (nth (a + i) (cm_Y s) m0))%nat -> (r < K)%nat ->
      mget (nth i Vs m0) b r = mget (nth (a + i) (cm_V s) m0) b r * clen (nth (nth (a + i) ms 0%nat) (cm_fms s) m0) r).
  { induction n as [|n IH]; intros a Ha.
    - exists []. rewrite !skipn_all2 by lia. cbn [map combine mapM]. split; [reflexivity|]. split; [reflexivity|]. lia.
    - destruct (HC a ltac:(lia)) as (Hm & HYa & HVa).
      rewrite (@nth_skip _ ms 0%nat a), (@nth_skip _ (cm_V s) m0 a) by lia.
      destruct (IH (S a) ltac:(lia)) as (Vs & EM & EL & EF).
      pose proof (rows_nth (ck_fac H) Hm) as HU. pose proof (is_mat_norm_keep HU) as [HN1 HN2].
      cbn [map combine mapM scale_one]. rewrite (@py_get_nat _ _ _ m0) by (rewrite (ck_len H); auto). cbn [bind].
      pose proof (broadcast_mat_row Rmult HVa HN1 HN2) as EB. change (broadcast Rmult) with np_mul in EB. rewrite EB. cbn [bind].
      rewrite (assign_full_mat HVa (is_mat_tab2 _ _ _)). cbn [bind]. rewrite EM. cbn [bind].
      eexists. split; [reflexivity|]. split; [cbn; lia|].
      intros [|i] Hi; cbn [nth].
      + replace (a + 0)%nat with a by lia. split; [apply is_mat_tab2|].
        intros b r Hb Hr. rewrite mget_tab2 by auto. now rewrite (mget_norm_keep HU), clen_colnorm by auto.
      + replace (a + S i)%nat with (S a + i)%nat by lia. apply EF. lia. }
  destruct (G (length ms) 0%nat ltac:(lia)) as (Vs & EM & EL & EF). cbn [skipn Nat.add] in EM, EF. rewrite EM. cbn [bind].
  rewrite skipn_all2 by lia. rewrite app_nil_r. exists Vs. split; [reflexivity|]. split.
  - split; [auto|]. split; [auto|]. intros i Hi. destruct (HC i Hi) as (A & B & _). split; auto. split; auto. now apply EF.
  - intros i b r Hi. now apply EF.
Qed.

Lemma kt_normalize_of eps K k : mats K (kt_fms k) -> is_vec K (kt_w k) -> kt_rank k = K ->
  (forall U r, In U (kt_fms k) -> (r < K)%nat -> clen U r + eps <> 0) ->
  exists k', kt_normalize true eps k = Ok k' /\ kt_rank k' = K /\
    kt_fms k' = map (fun U => scaled eps (nrows U) K U) (kt_fms k) /\ is_vec K (kt_w k') /\
    forall r, (r < K)%nat -> vget (kt_w k') r = vget (kt_w k) r * prodf (kt_fms k) (fun U => clen U r).
Proof.
  intros HU Hw HR Hz. destruct k as [k0 Us w]. cbn [kt_fms kt_w kt_rank] in *. subst k0.
  destruct (@kt_normalize_ok true eps K Us w HU Hw) as (w' & E & Hw' & He).
  { intros U r HI Hr. rewrite <- clen_colnorm. auto. }
  eexists. split; [exact E|]. cbn [kt_rank kt_fms kt_w]. repeat (split; [solve [auto]|]).
  intros r Hr. rewrite He by auto. f_equal. apply prodf_ext. intros. symmetry. apply clen_colnorm.
Qed.

Lemma cm_normalize_ok eps K ms s : cm_ok K ms s -> kt_rank (cm_dec s) = K ->
  (forall U r, In U (cm_fms s) -> (r < K)%nat -> clen U r + eps <> 0) ->
  exists s', cmtf_normalize eps s = Ok s' /\ cm_ok K ms s' /\ cp_X (cm_cp s') = cp_X (cm_cp s) /\ cm_Y s' = cm_Y s /\
    (forall m a r, (m < length (cm_fms s))%nat -> (a < nrows (nth m (cm_fms s) m0))%nat -> (r < K)%nat ->
      mget (nth m (cm_fms s') m0) a r = mget (nth m (cm_fms s) m0) a r / (clen (nth m (cm_fms s) m0) r + eps)) /\
    (forall i b r, (i < length ms)%nat -> (b < ncols (nth i (cm_Y s) m0))%nat -> (r < K)%nat ->
      mget (nth i (cm_V s') m0) b r = mget (nth i (cm_V s) m0) b r * clen (nth (nth i ms 0%nat) (cm_fms s) m0) r) /\
    forall idx, valid idx (shape (cp_X (cm_cp s))) ->
      cp_entry (cm_fms s') (vget (kt_w (cm_dec s'))) K idx =
      sum K (fun r => vget (kt_w (cm_dec s)) r * colprod (cm_fms s) idx r *
                      prodf (cm_fms s) (fun U => clen U r / (clen U r + eps))).
Proof.
  intros H HR Hz. destruct (scale_uncoupled_ok H) as (Vs & EV & HV & HVe).
  pose proof (ck_fac H) as [HU Hr].
  destruct (@kt_normalize_of eps K (cm_dec s) HU (ck_w H) HR Hz) as (k' & EK & _ & Ef & Hw' & He).
  unfold cmtf_normalize. rewrite EV. cbn [bind]. rewrite EK. cbn [bind].
  eexists. split; [reflexivity|].
  change (kt_fms (cm_dec s)) with (cm_fms s) in *.
  assert (Ef' : cm_fms (cm_with_dec k' (cm_with_V Vs s)) = map (fun U => scaled eps (nrows U) K U) (cm_fms s)) by exact Ef.
  split.
  { constructor; try apply H; auto. rewrite Ef'. split; [apply mats_scaled|]. cbn [cm_with_dec cm_with_cp cm_cp cp_with_dec cp_X].
    now rewrite rows_scaled. }
  split; [reflexivity|]. split; [reflexivity|]. split.
  { intros m a r Hm Ha Hrk. rewrite Ef'. rewrite (nth_map_in (fun U => scaled eps (nrows U) K U) m0) by auto.
    unfold scaled. rewrite mget_tab2 by auto. now rewrite clen_colnorm. }
  split; [exact HVe|]. intros idx Hv. rewrite Ef'. cbn [cm_with_dec cm_with_cp cm_dec cm_cp cp_with_dec cp_dec].
  rewrite (@cp_entry_normalized eps K (cm_fms s) (vget (kt_w (cm_dec s))) (vget (kt_w k'))); auto.
  - apply sum_ext. intros r _. f_equal. apply prodf_ext. intros. now rewrite clen_colnorm.
  - now rewrite Hr.
  - intros r Hrk. rewrite He by auto. f_equal. apply prodf_ext. intros. apply clen_colnorm.
Qed.

Lemma cm_normalize_reconstructs eps K ms s : cm_ok K ms s -> kt_rank (cm_dec s) = K ->
  (forall U r, In U (cm_fms s) -> (r < K)%nat -> clen U r + eps <> 0) ->
  exists s' Rs', cmtf_normalize eps s = Ok s' /\ reconstructed_coupled_matrices s' = Ok Rs' /\
    forall i a b, (i < length ms)%nat ->
      (a < nrows (nth i (cm_Y s) m0))%nat -> (b < ncols (nth i (cm_Y s) m0))%nat ->
      mget (nth i Rs' m0) a b =
      sum K (fun r => mget (nth (nth i ms 0%nat) (cm_fms s) m0) a r * mget (nth i (cm_V s) m0) b r *
        (clen (nth (nth i ms 0%nat) (cm_fms s) m0) r / (clen (nth (nth i ms 0%nat) (cm_fms s) m0) r + eps))).
Proof.
  intros H HR Hz. destruct (cm_normalize_ok H HR Hz) as (s' & E & H' & EX & EY & Ef & EV & _).
  destruct (reconstructed_ok H') as (Rs' & ER & _ & HRe). exists s', Rs'. split; auto. split; auto.
  intros i a b Hi Ha Hb. rewrite EY in HRe. destruct (HRe i Hi) as [_ HRi]. rewrite HRi by auto.
  destruct (ck_coup H) as (_ & _ & HC). destruct (HC i Hi) as (Hm & HYi & _).
  apply sum_ext. intros r Hrk. rewrite EV by auto. rewrite Ef; auto.
  - unfold Rdiv. ring.
  - rewrite (ck_len H). auto.
  - rewrite (is_mat_nrows (rows_nth (ck_fac H) Hm)). now rewrite (is_mat_nrows HYi) in Ha.
Qed.

Lemma cm_normalize_exact env K ms s : cm_ok K ms s -> kt_rank (cm_dec s) = K ->
  (forall U r, In U (cm_fms s) -> (r < K)%nat -> clen U r <> 0) ->
  exists s' Rs Rs', cmtf_normalize 0 s = Ok s' /\ reconstructed_coupled_matrices s = Ok Rs /\
    reconstructed_coupled_matrices s' = Ok Rs' /\
    (forall i a b, (i < length ms)%nat ->
      (a < nrows (nth i (cm_Y s) m0))%nat -> (b < ncols (nth i (cm_Y s) m0))%nat ->
      mget (nth i Rs' m0) a b = mget (nth i Rs m0) a b) /\
    cmtf_SSE env s' = cmtf_SSE env s.
Proof.
  intros H HR Hz.
  assert (Hz0 : forall U r, In U (cm_fms s) -> (r < K)%nat -> clen U r + 0 <> 0) by (intros; rewrite Rplus_0_r; auto).
  destruct (cm_normalize_reconstructs H HR Hz0) as (s' & Rs' & E & ER & HRe).
  destruct (reconstructed_ok H) as (Rs & ER0 & _ & HR0).
  exists s', Rs, Rs'. repeat (split; [solve [auto]|]).
  assert (HUn : forall i r, (i < length ms)%nat -> (r < K)%nat ->
    clen (nth (nth i ms 0%nat) (cm_fms s) m0) r / (clen (nth (nth i ms 0%nat) (cm_fms s) m0) r + 0) = 1).
  { intros i r Hi Hr. rewrite Rplus_0_r. apply Rinv_r. apply Hz; auto. apply nth_In. rewrite (ck_len H).
    destruct (ck_coup H) as (_ & _ & HC). now destruct (HC i Hi). }
  split.
  { intros i a b Hi Ha Hb. rewrite HRe by auto. destruct (HR0 i Hi) as [_ HRi]. rewrite HRi by auto.
    apply sum_ext. intros r Hr. rewrite HUn by auto. ring. }
  destruct (cm_normalize_ok H HR Hz0) as (s2 & E2 & H' & EX & EY & Ef & EV & EN). rewrite E in E2. injection E2 as <-.
  rewrite (cmtf_SSE_ok env H), (cmtf_SSE_ok env H'). f_equal. unfold coupled_loss. rewrite EX, EY. f_equal.
  - unfold sse. apply sumf_ext. intros idx Hi. apply in_indices in Hi. rewrite EN by auto. do 2 f_equal.
    unfold cp_entry. apply sum_ext. intros r Hr.
    rewrite (@prodf_ext _ (cm_fms s) _ (fun _ => 1)).
    + assert (E1 : forall l : list nd, prodf l (fun _ => 1) = 1) by (induction l; cbn; lra). rewrite E1. ring.
    + intros U HI. rewrite Rplus_0_r. apply Rinv_r. auto.
  - unfold mats_sse. apply sum_ext. intros i Hi. unfold mat_sse. apply sum_ext. intros a Ha. apply sum_ext. intros b Hb.
    do 2 f_equal. apply sum_ext. intros r Hr. rewrite EV by auto.
    destruct (ck_coup H) as (_ & _ & HC). destruct (HC i Hi) as (Hm & HYi & _). rewrite Ef; auto.
    + transitivity (mget (nth (nth i ms 0%nat) (cm_fms s) m0) a r * mget (nth i (cm_V s) m0) b r * 1); [|ring].
      rewrite <- (HUn i r) by auto. unfold Rdiv. ring.
    + rewrite (ck_len H). auto.
    + rewrite (is_mat_nrows (rows_nth (ck_fac H) Hm)). now rewrite (is_mat_nrows HYi) in Ha.
Qed.

(** *** C61: updates do not look at the weights *)
Definition kt_set_w (w : nd) (k : kruskal) : kruskal := {| kt_rank := kt_rank k; kt_fms := kt_fms k; kt_w := w |}.
Definition with_weights (w : nd) (s : cmtf_state) : cmtf_state := cm_with_dec (kt_set_w w (cm_dec s)) s.

Lemma weights_update_factor env cs w s m :
  cmtf_update_factor env cs (with_weights w s) m =
  let (s', e) := cmtf_update_factor env cs s m in (with_weights w s', e).
Proof.
  unfold cmtf_update_factor.
  change (cmtf_lhs env cs (with_weights w s) m) with (cmtf_lhs env cs s m).
  change (cmtf_rhs env (with_weights w s) m) with (cmtf_rhs env s m).
  change (cm_fms (with_weights w s)) with (cm_fms s).
  change (cp_nn (cm_cp (with_weights w s))) with (cp_nn (cm_cp s)).
  change (cp_orth (cm_cp (with_weights w s))) with (cp_orth (cm_cp s)).
  destruct (do lhs <- cmtf_lhs env cs s m ; _) as [[[V P] solve]|e0]; [|reflexivity].
  destruct (do Z <- solve V P ; _) as [U'|e0]; reflexivity.
Qed.
Lemma weights_update_modes env cs w l : forall s,
  cmtf_update_modes env cs l (with_weights w s) =
  let (s', e) := cmtf_update_modes env cs l s in (with_weights w s', e).
Proof.
  induction l as [|m l IH]; intros s; cbn [cmtf_update_modes]; [reflexivity|].
  change (cp_nn (cm_cp (with_weights w s))) with (cp_nn (cm_cp s)).
  destruct (do nn <- not_none _ ; _) as [[|]|]; try reflexivity.
  rewrite weights_update_factor. destruct (cmtf_update_factor env cs s m) as [s1 [e1|]]; [reflexivity|]. apply IH.
Qed.
Lemma weights_step env w s mode idxs V :
  uncoupled_step env (with_weights w s) mode idxs V = uncoupled_step env s mode idxs V.
Proof. reflexivity. Qed.
Lemma weights_loop env w s d : forall V,
  uncoupled_loop env (with_weights w s) d V = uncoupled_loop env s d V.
Proof.
  induction d as [|[mode idxs] d IH]; intros V; cbn [uncoupled_loop]; [reflexivity|]. rewrite weights_step.
  destruct (uncoupled_step env s mode idxs V) as [V' [e|]]; auto.
Qed.
Lemma weights_update env cs w s :
  cmtf_update_factors env cs (with_weights w s) =
  let (s', e) := cmtf_update_factors env cs s in (with_weights w s', e).
Proof.
  unfold cmtf_update_factors. change (cp_X (cm_cp (with_weights w s))) with (cp_X (cm_cp s)).
  rewrite weights_update_modes. destruct (cmtf_update_modes env cs _ s) as [s1 [e1|]]; [reflexivity|].
  unfold update_uncoupled. change (cm_modes (with_weights w s1)) with (cm_modes s1).
  change (cm_V (with_weights w s1)) with (cm_V s1). rewrite weights_loop.
  destruct (uncoupled_loop env s1 _ (cm_V s1)) as [V e]. reflexivity.
Qed.

(** *** C61: the weights a fit with precomputed components works with *)
Lemma init_coupled_only_V vdraws s s' : init_coupled vdraws s = Ok s' -> s' = cm_with_V (cm_V s') s.
Proof. unfold init_coupled. destruct (mapM _ _); cbn [bind]; [|discriminate]. intros E; injection E as <-. reflexivity. Qed.

Lemma cm_init_precomputed env cs disk draws vdraws X Y ms max_its d ds K s1 :
  lower (cs_init cs) = "precomputed"%string -> cs_rank cs = K ->
  data_ok X -> factors_ok K X (kt_fms d) -> is_vec K (kt_w d) -> kt_rank d = K ->
  all_false (cp_orth (cm_cp (ds_num ds))) (length (shape X)) ->
  init_coupled vdraws (cm_with_cp (cp_with_dec d (cp_with_target X (cm_cp (ds_num ds))))
                        (cm_with_coupling Y (map Z.of_nat ms) (ds_num ds))) = Ok s1 ->
  coupling_ok K X ms (cm_V s1) Y ->
  exists ds', cmtf_init_fit env cs disk draws vdraws X Y (map Z.of_nat ms) max_its (DecArg d) ds = (ds', None) /\
    ds_prev ds' = Fin (coupled_loss K X (kt_fms d) unit_weights ms (cm_V s1) Y) /\
    cm_ok K ms (ds_num ds') /\ cp_X (cm_cp (ds_num ds')) = X /\ cm_V (ds_num ds') = cm_V s1 /\ cm_Y (ds_num ds') = Y /\
    cm_fms (ds_num ds') = map (fun U => scaled eps15 (nrows U) K U) (kt_fms d) /\
    cp_nn (cm_cp (ds_num ds')) = match cp_nn (cm_cp (ds_num ds)) with Some l => Some l
                                 | None => Some (repeat false (length (kt_fms d))) end /\
    cp_orth (cm_cp (ds_num ds')) = match cp_orth (cm_cp (ds_num ds)) with Some l => Some l
                                 | None => Some (repeat false (length (kt_fms d))) end /\
    forall r, (r < K)%nat -> vget (kt_w (cm_dec (ds_num ds'))) r = prodf (kt_fms d) (fun U => clen U r).
Proof.
  intros Hk HK HX HF Hw HR HO EI HC. pose proof HF as [HU Hr]. pose proof (mode_len Hr) as Hlen.
  pose proof (init_coupled_only_V EI) as E1. destruct (reset_weights_ok Hw) as [Hw1 Hw2].
  unfold cmtf_init_fit, on_cp. cbn [ds_num with_num with_it ds_it ds_max ds_rel ds_prev ds_logs ds_file].
  match goal with |- context [cp_init_components env cs disk draws (DecArg d) ?x] =>
    destruct (@init_precomputed env cs disk draws x d Hk) as [Hacc _] end.
  rewrite Hacc; clear Hacc.
  2:{ rewrite HK. now apply factors_fit. }
  cbn [ds_num with_num ds_it ds_max ds_rel ds_prev ds_logs ds_file].
  change (cm_with_cp (cp_with_dec d (cm_cp (cm_with_cp (cp_with_target X (cm_cp (cm_with_coupling Y (map Z.of_nat ms) (ds_num ds)))) (cm_with_coupling Y (map Z.of_nat ms) (ds_num ds)))))
      (cm_with_cp (cp_with_target X (cm_cp (cm_with_coupling Y (map Z.of_nat ms) (ds_num ds)))) (cm_with_coupling Y (map Z.of_nat ms) (ds_num ds))))
    with (cm_with_cp (cp_with_dec d (cp_with_target X (cm_cp (ds_num ds)))) (cm_with_coupling Y (map Z.of_nat ms) (ds_num ds))).
  rewrite EI. rewrite E1. cbn [cm_with_V cm_dec cm_cp cm_with_cp cp_dec cp_with_dec cp_nn cp_orth cp_with_target].
  set (c := cp_with_constraints _ _ _).
  assert (Hc : cp_orthonormalise env c = Ok c).
  { apply orthonormalise_false; subst c; cbn.
    - destruct (cp_orth (cm_cp (ds_num ds))); discriminate.
    - destruct (cp_orth (cm_cp (ds_num ds))) as [l|] eqn:EO; cbn in HO |- *.
      + now rewrite Hlen.
      + split; [|rewrite repeat_length; lia]. apply Forall_forall. intros b Hb. now apply repeat_spec in Hb. }
  rewrite Hc. cbn [cm_with_V cm_with_cp cm_Y cm_modes cm_V cm_cp].
  set (s2 := {| cm_cp := c; cm_Y := Y; cm_modes := map Z.of_nat ms; cm_V := cm_V s1 |}).
  assert (H2 : cm_ok K ms s2) by (constructor; auto).
  match goal with |- context [cmtf_SSE env ?x] => change x with s2 end.
  rewrite (cmtf_SSE_ok env H2).
  destruct (@kt_normalize_of eps15 K (cm_dec s2) HU) as (k' & EK & HRk & Ef & Hw' & He); auto.
  { intros U r _ _. pose proof (clen_nonneg U r). pose proof eps15_pos. lra. }
  match goal with |- context [kt_normalize true eps15 ?x] => change x with (cm_dec s2) end. rewrite EK.
  eexists. split; [reflexivity|].
  assert (EP : coupled_loss K X (kt_fms d) (vget (kt_w (cm_dec s2))) ms (cm_V s1) Y =
               coupled_loss K X (kt_fms d) unit_weights ms (cm_V s1) Y).
  { apply coupled_loss_unit. exact Hw2. }
  change (kt_fms (cm_dec s2)) with (kt_fms d) in *.
  assert (HF' : factors_ok K X (kt_fms k')).
  { rewrite Ef. split; [apply mats_scaled|]. now rewrite rows_scaled. }
  destruct max_its as [mi|]; cbn [ds_num with_num with_conv with_max ds_prev].
  all: split; [f_equal; exact EP|].
  all: split; [constructor; [exact HX | exact HF' | exact Hw' | reflexivity | exact HC]|].
  all: repeat (split; [first [reflexivity | exact Ef]|]).
  all: intros r Hrk; cbn [cm_with_dec cm_with_cp cm_dec cm_cp cp_with_dec cp_dec]; rewrite He by auto.
  all: change (vget (kt_w (cm_dec s2)) r) with (vget (kt_w (kt_reset_weights d)) r); rewrite Hw2 by auto; ring.
Qed.

(** The matrices drawn at random fit, and have columns of length 1 *)
Lemma init_coupled_ok vdraws K X ms s : cm_modes s = map Z.of_nat ms -> length (cm_Y s) = length ms ->
  (length ms <= length vdraws)%nat ->
  (forall i, (i < length ms)%nat -> (nth i ms 0 < length (shape X))%nat /\
     is_mat (nth (nth i ms 0) (shape X) 0)%nat (ncols (nth i (cm_Y s) m0)) (nth i (cm_Y s) m0) /\
     is_mat (ncols (nth i (cm_Y s) m0)) K (nth i vdraws m0) /\
     (forall r, (r < K)%nat -> clen (nth i vdraws m0) r <> 0) /\
     match cp_nn (cm_cp s) with None => True | Some nn => (nth i ms 0 < length nn)%nat end) ->
  exists s1, init_coupled vdraws s = Ok s1 /\ coupling_ok K X ms (cm_V s1) (cm_Y s) /\
    forall i b r, (i < length ms)%nat -> (b < ncols (nth i (cm_Y s) m0))%nat -> (r < K)%nat ->
      mget (nth i (cm_V s1) m0) b r = mget (nth i vdraws m0) b r / clen (nth i vdraws m0) r.
Proof.
  intros Hm HY HD H. unfold init_coupled. rewrite Hm, map_length.
  assert (G : forall n a, (a + n = length ms)%nat ->
    exists Vs, mapM (fun '(i, mode) =>
                  do Y <- list_get (cm_Y s) i ;
                  do _ <- shape_at Y 1 ;
                  do _ <- (match cp_nn (cm_cp s) with None => Ok true | Some nn => py_get nn mode end) ;
                  do V <- list_get vdraws i ;
                  do Q <- np_div V (norm_axis0 V) ;
                  assign_full V Q) (combine (seq a n) (map Z.of_nat (skipn a ms))) = Ok Vs /\ length Vs = n /\
    forall i, (i < n)%nat -> is_mat (ncols (nth (a + i) (cm_Y s) m0)) K (nth i Vs m0) /\
      forall b r, (b < ncols (nth (a + i) (cm_Y s) m0))%nat -> (r < K)%nat ->
      mget (nth i Vs m0) b r = mget (nth (a + i) vdraws m0) b r / clen (nth (a + i) vdraws m0) r).
  { induction n as [|n IH]; intros a Ha.
    - exists []. rewrite !skipn_all2 by lia. cbn [map combine mapM seq]. split; [reflexivity|]. split; [reflexivity|]. lia.
    - destruct (H a ltac:(lia)) as (H1 & HYa & HVa & Hz & Hn).
      rewrite (@nth_skip _ ms 0%nat a) by lia. destruct (IH (S a) ltac:(lia)) as (Vs & EM & EL & EF).
      cbn [map combine mapM seq]. rewrite (@list_get_nth _ (cm_Y s) a m0) by lia. cbn [bind].
      rewrite (shape_at_1 HYa). cbn [bind].
      assert (En : exists b, (match cp_nn (cm_cp s) with None => Ok true | Some nn => py_get nn (Z.of_nat (nth a ms 0%nat)) end) = Ok b).
      { destruct (cp_nn (cm_cp s)) as [nn|]; [|eauto]. rewrite (@py_get_nat _ nn _ false) by auto. eauto. }
      destruct En as [b0 ->]. cbn [bind]. rewrite (@list_get_nth _ vdraws a m0) by lia. cbn [bind].
      pose proof (is_vec_norm_axis0 HVa) as HN.
      pose proof (broadcast_mat_vec Rdiv HVa HN) as EB.
      assert (ED : np_div (nth a vdraws m0) (norm_axis0 (nth a vdraws m0)) = broadcast Rdiv (nth a vdraws m0) (norm_axis0 (nth a vdraws m0))).
      { unfold np_div. replace (has_zero (norm_axis0 (nth a vdraws m0))) with false; [reflexivity|].
        symmetry. apply (has_zero_vec HN). intros r Hr. rewrite (vget_norm_axis0 HVa) by auto. rewrite <- clen_colnorm. auto. }
      rewrite ED, EB. cbn [bind]. rewrite (assign_full_mat HVa (is_mat_tab2 _ _ _)). cbn [bind].
      rewrite EM. cbn [bind]. eexists. split; [reflexivity|]. split; [cbn; lia|].
      intros [|i] Hi; cbn [nth].
      + replace (a + 0)%nat with a by lia. split; [apply is_mat_tab2|]. intros b r Hb Hr. rewrite mget_tab2 by auto.
        now rewrite (vget_norm_axis0 HVa), clen_colnorm by auto.
      + replace (a + S i)%nat with (S a + i)%nat by lia. apply EF. lia. }
  destruct (G (length ms) 0%nat ltac:(lia)) as (Vs & EM & EL & EF). cbn [skipn Nat.add] in EM, EF. rewrite EM. cbn [bind].
  eexists. split; [reflexivity|]. cbn [cm_with_V cm_V]. split.
  - split; [auto|]. split; [auto|]. intros i Hi. destruct (H i Hi) as (A & B & _). split; auto. split; auto. now apply EF.
  - intros i b r Hi. now apply EF.
Qed.
