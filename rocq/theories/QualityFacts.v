(** Lemmas for C70-C72: quality measures, complete fits, resumed fits. *)
From Verif Require Export CPComplete CMTFMore Parafac2Init CPExamples StartFacts.
Set Implicit Arguments.
Unset Strict Implicit.
Local Open Scope R_scope.

(** ** Numbers *)
Lemma energy_nonneg X : 0 <= energy X.
Proof. unfold energy. induction (indices (shape X)) as [|i l IH]; cbn [sumf]; [lra|]. pose proof (pow2_ge_0 (get X i)). lra. Qed.
Lemma norm_energy X : wf X -> norm X ^ 2 = energy X.
Proof. exact (@norm2_sq X). Qed.
Lemma entry_count_prod X : entry_count X = INR (prodl (shape X)).
Proof. unfold entry_count. now rewrite length_indices. Qed.
Lemma entry_count_pos X : data_ok X -> 0 < entry_count X.
Proof.
  intros (_ & _ & H). rewrite entry_count_prod. apply lt_0_INR. induction (shape X) as [|n l IH]; cbn; [lia|].
  inversion H; subst. specialize (IH H3). nia.
Qed.
Lemma xdivR_pos a b : b <> 0 -> xdivR a b = Fin (a / b).
Proof. intros H. unfold xdivR. destruct (Req_EM_T b 0); [contradiction|reflexivity]. Qed.
Lemma xsqrt_pos a : 0 <= a -> xsqrt (Fin a) = Fin (sqrt a).
Proof. intros H. unfold xsqrt. destruct (Rlt_dec a 0); [lra|reflexivity]. Qed.
Lemma xdivR_zero a : 0 <= a -> xsub (Fin 1) (xdivR a 0) = if Req_EM_T a 0 then NaN else NInf.
Proof.
  intros H. unfold xdivR. destruct (Req_EM_T 0 0); [|lra]. destruct (Rlt_dec a 0); [lra|].
  destruct (Rlt_dec 0 a), (Req_EM_T a 0); try reflexivity; lra.
Qed.
Lemma div_le_mono a b c : 0 < c -> a <= b -> a / c <= b / c.
Proof. intros Hc H. apply Rmult_le_compat_r; [left; now apply Rinv_0_lt_compat|exact H]. Qed.


Section CPQ.
Variables (env : cp_env) (cs : cp_settings) (K : nat).
Let md := cp_model env cs.

Lemma cp_metric_ok k s : cp_coherent K s -> cs_ridge cs = None -> (k = KExplained -> energy (cp_X s) <> 0) ->
  cp_metric env cs k s = Ok (Fin (measure (cp_X s) k (sse (cp_X s) (kt_fms (cp_dec s)) (vget (kt_w (cp_dec s))) K))).
Proof.
  intros H HR Hz. pose proof (entry_count_pos (co_data H)) as Hp. pose proof (cp_SSE_ok env H) as E.
  assert (He : 0 <= sse (cp_X s) (kt_fms (cp_dec s)) (vget (kt_w (cp_dec s))) K) by apply sse_nonneg.
  assert (EM : cp_MSE env s = Ok (Fin (sse (cp_X s) (kt_fms (cp_dec s)) (vget (kt_w (cp_dec s))) K / entry_count (cp_X s)))).
  { unfold cp_MSE. rewrite E. cbn [bind]. rewrite <- entry_count_prod, xdivR_pos by lra. reflexivity. }
  destruct k; cbn [cp_metric measure].
  - unfold as_metric, cp_loss. rewrite E, HR. reflexivity.
  - exact EM.
  - unfold as_metric. rewrite E. reflexivity.
  - unfold cp_RMSE, root_of. rewrite EM. cbn [bind]. rewrite xsqrt_pos; [reflexivity|].
    apply Rmult_le_pos; [exact He|]. left. now apply Rinv_0_lt_compat.
  - unfold cp_explained, explained_of. rewrite E. cbn [bind]. rewrite (co_norm H), norm_energy by apply (co_data H).
    rewrite xdivR_pos by auto. reflexivity.
Qed.
Lemma cp_metric_total k s : cp_coherent K s -> exists v, cp_metric env cs k s = Ok v.
Proof.
  intros H. pose proof (cp_SSE_ok env H) as E.
  destruct k; cbn [cp_metric]; unfold as_metric, cp_loss, cp_RMSE, root_of, cp_explained, explained_of, cp_MSE; rewrite E; cbn [bind]; eauto.
Qed.
Lemma measure_mono X k a b : data_ok X -> (k = KExplained -> energy X <> 0) -> 0 <= a <= b ->
  if goes_up k then measure X k b <= measure X k a else measure X k a <= measure X k b.
Proof.
  intros HX Hz [Ha Hb]. pose proof (entry_count_pos HX) as Hp. destruct k; cbn [measure goes_up]; try lra.
  - now apply div_le_mono.
  - apply sqrt_le_1_alt. now apply div_le_mono.
  - assert (Hp' : 0 < energy X). { pose proof (energy_nonneg X). specialize (Hz eq_refl). lra. }
    pose proof (div_le_mono Hp' Hb). lra.
Qed.

Lemma measure_range X k a : data_ok X -> (k = KExplained -> energy X <> 0) -> 0 <= a -> a <= energy X ->
  0 <= measure X k a /\ (k = KExplained -> measure X k a <= 1).
Proof.
  intros HX Hz Ha Hb. pose proof (entry_count_pos HX) as Hp.
  assert (Hd : 0 <= a / entry_count X) by (apply Rmult_le_pos; [exact Ha|left; now apply Rinv_0_lt_compat]).
  destruct k; cbn [measure]; try (split; [assumption|discriminate]).
  - split; [apply sqrt_pos|discriminate].
  - assert (Hp' : 0 < energy X). { pose proof (energy_nonneg X). specialize (Hz eq_refl). lra. }
    pose proof (div_le_mono Hp' Hb) as H1. unfold Rdiv in H1 at 2. rewrite Rinv_r in H1 by lra.
    assert (0 <= a / energy X) by (apply Rmult_le_pos; [exact Ha|left; now apply Rinv_0_lt_compat]). lra.
Qed.

(** ** The rank kept in the decomposition *)
Lemma update_rank l : forall s, kt_rank (cp_dec (fst (cp_update_modes env cs l s))) = kt_rank (cp_dec s).
Proof.
  induction l as [|m l IH]; intros s; cbn [cp_update_modes]; [reflexivity|].
  assert (E : kt_rank (cp_dec (fst (cp_update_factor env cs s m))) = kt_rank (cp_dec s)).
  { unfold cp_update_factor. destruct (do lhs <- _ ; _) as [[[V P] solve]|]; [|reflexivity].
    destruct (do Z <- _ ; _) as [U|]; reflexivity. }
  destruct (cp_update_factor env cs s m) as [s1 [e|]]; cbn [fst] in *; [exact E|]. now rewrite IH.
Qed.
Lemma after_rank s k : kt_rank (cp_dec (state_after md s k)) = kt_rank (cp_dec s).
Proof. induction k as [|k IH]; [reflexivity|]. cbn [state_after md cp_model md_update]. unfold cp_update_factors. now rewrite update_rank. Qed.

Lemma after_storable s k : cp_coherent K s -> kt_rank (cp_dec s) = K -> storable md (cp_dec (state_after md s k)).
Proof.
  intros H HR. destruct (@after_coherent env cs K s k H) as [H1 _].
  apply kt_storable with (K := K); [apply H1| |apply H1|now rewrite after_rank].
  intros E. pose proof (coherent_len H1) as El. unfold md in E. rewrite E in El. destruct (co_data H1) as (_ & H2 & _). cbn in El. lia.
Qed.

Lemma kinds_plain (l : list (logger cp_state)) : (forall lg, In lg l -> exists k, code_logger env cs k lg) -> plain_classes (classes_of l).
Proof.
  intros H c i Hin E. apply in_map_iff in Hin as (lg & <- & Hlg). destruct (H lg Hlg) as (k & Hc & _). rewrite Hc in E.
  destruct k; discriminate.
Qed.

Lemma complete_from cf disk draws X max_its arg ds k i :
  cp_init_components env cs disk draws arg (targeted X ds) = (begun X ds k i, None) ->
  factors_ok K X (kt_fms k) -> is_vec K (kt_w k) -> kt_rank k = K ->
  cs_rank cs = K -> cs_ridge cs = None -> svd_works_on K K (env_svd env) -> data_ok X ->
  cp_last (ds_num ds) = None -> free_flags (cp_nn (ds_num ds)) (length (shape X)) -> free_flags (cp_orth (ds_num ds)) (length (shape X)) ->
  let budget := match max_its with Some m => m | None => ds_max ds end in
  (0 <= i < budget)%Z -> (forall lg, In lg (ds_logs ds) -> exists k, code_logger env cs k lg) -> checkpoints_fit cf budget ds ->
  exists ds1 ds', cp_init_fit env cs disk draws X max_its arg ds = (ds1, None) /\
    cp_fit env cs cf disk draws X max_its arg ds = (ds', None) /\ cp_fit_loop md cf ds1 = (ds', None) /\
    cp_coherent K (ds_num ds1) /\ unit_w K (ds_num ds1) /\ free_fit cs (ds_num ds1) /\
    cp_X (ds_num ds1) = X /\ ds_it ds1 = i /\ ds_max ds1 = budget /\ ds_logs ds1 = ds_logs ds /\
    ds_prev ds1 = Fin (sse X (kt_fms (cp_dec (ds_num ds1))) unit_weights K) /\ ds_rel ds1 = PInf.
Proof.
  intros E HF Hw Hrk HK HR HS HX HL Hnn Hor budget Hb Hlg Hck.
  pose proof HF as [HM Hr]. pose proof (mode_len Hr) as Hlen.
  destruct (@start_ok env cs K disk draws X max_its arg ds k i E HX HF Hw (free_all_false Hor) HL) as (EI & HC & HUw).
  set (ds1 := prepared max_its (begun X ds k i) (sse X (kt_fms k) unit_weights K)) in *.
  assert (EX : cp_X (ds_num ds1) = X) by reflexivity.
  assert (Eit : ds_it ds1 = i) by (unfold ds1, prepared; destruct max_its; reflexivity).
  assert (Emax : ds_max ds1 = budget) by (unfold ds1, prepared, budget; destruct max_its; reflexivity).
  assert (Elog : ds_logs ds1 = ds_logs ds) by (unfold ds1, prepared; destruct max_its; reflexivity).
  assert (Efile : ds_file ds1 = ds_file ds) by (unfold ds1, prepared; destruct max_its; reflexivity).
  assert (HFree : free_fit cs (ds_num ds1)).
  { intros m Hm. rewrite EX in Hm. split; [exact HR|]. split; eapply free_flag; eauto. }
  assert (HQ : quiet md ds1 (Z.to_nat (ds_max ds1 - ds_it ds1))).
  { split; [|split].
    - intros j _. eexists. apply (@loss_is_sse env cs K (ds_num ds1) j HC HUw).
    - intros j _. apply (free_never_raises HS HK HC HFree).
    - intros j lg _ Hin. rewrite Elog in Hin. destruct (Hlg lg Hin) as (kd & _ & ->).
      apply cp_metric_total. now apply after_coherent. }
  assert (HN : snd (cp_fit_loop md cf ds1) = None).
  { destruct Hck as [Hf|(Hf & f & Hfile & Hready & Hun)].
    - apply cp_quiet_neg; auto. lia.
    - destruct (cp_fit_loop md cf ds1) as [ds' e] eqn:EL. cbn [snd].
      destruct (@cp_run_lemma _ _ md cf ds1 f ds' e Hf) as [_ K2]; auto.
      + left. exists "CP_ALS"%string. reflexivity.
      + now rewrite Efile.
      + now rewrite Elog.
      + apply kinds_plain. now rewrite Elog.
      + intros j. now apply after_storable.
      + intros j Hj. rewrite Eit. apply Hun. lia.
      + apply K2; auto. lia. }
  destruct (cp_fit_loop md cf ds1) as [ds' e] eqn:EL. cbn [snd] in HN. subst e.
  exists ds1, ds'. split; [exact EI|]. split; [unfold cp_fit; rewrite EI; exact EL|]. do 8 (split; [now auto|]).
  split; reflexivity.
Qed.
Lemma complete_fit cf disk draws X max_its arg ds :
  cs_rank cs = K -> cs_ridge cs = None -> svd_works_on K K (env_svd env) -> data_ok X -> usable_start env cs K X draws arg ->
  cp_last (ds_num ds) = None -> free_flags (cp_nn (ds_num ds)) (length (shape X)) -> free_flags (cp_orth (ds_num ds)) (length (shape X)) ->
  let budget := match max_its with Some m => m | None => ds_max ds end in
  (0 < budget)%Z -> (forall lg, In lg (ds_logs ds) -> exists k, code_logger env cs k lg) -> checkpoints_fit cf budget ds ->
  exists ds1 ds', cp_init_fit env cs disk draws X max_its arg ds = (ds1, None) /\
    cp_fit env cs cf disk draws X max_its arg ds = (ds', None) /\ cp_fit_loop md cf ds1 = (ds', None) /\
    cp_coherent K (ds_num ds1) /\ unit_w K (ds_num ds1) /\ free_fit cs (ds_num ds1) /\
    cp_X (ds_num ds1) = X /\ ds_it ds1 = 0%Z /\ ds_max ds1 = budget /\ ds_logs ds1 = ds_logs ds /\
    ds_prev ds1 = Fin (sse X (kt_fms (cp_dec (ds_num ds1))) unit_weights K) /\ ds_rel ds1 = PInf.
Proof.
  intros HK HR HS HX HU HL Hnn Hor budget Hb Hlg Hck.
  destruct (@usable_begun env cs K disk draws X arg ds HK HX HU) as (k & E & HF & Hw & Hrk).
  { destruct Hnn as [-> | ->]; auto. rewrite repeat_length. lia. }
  apply (@complete_from cf disk draws X max_its arg ds k 0%Z); auto. split; [lia|exact Hb].
Qed.

(** Nothing stops a fit with non-positive tolerances. *)
Lemma never_stops cf s p r k : cp_coherent K s -> unit_w K s -> cf_tol cf <= 0 -> cf_rel_tol cf <= 0 -> 
  cp_stops md cf p r s k <> Ok true.
Proof.
  intros HC HU H1 H2. unfold cp_stops, md. rewrite (@loss_is_sse env cs K s k HC HU). fold md. cbn [bind].
  destruct (rel_at md p r s k) as [x|]; [|discriminate]. cbn [bind]. intros E. injection E as E. apply Bool.orb_true_iff in E as [E|E].
  - destruct x; cbn in E; try discriminate. destruct (Rlt_dec (Rabs r0) (cf_tol cf)) as [Hlt|]; [|discriminate].
    pose proof (Rabs_pos r0). lra.
  - set (e := sse _ _ _ _) in E. assert (He : 0 <= e) by apply sse_nonneg. clearbody e.
    set (q := cp_norm _ * (cp_norm _ * 1)) in E. assert (Hq : 0 <= q) by apply pow2_ge_0. clearbody q.
    unfold xdiv, xdivR in E. destruct (Req_EM_T q 0) as [->|Hq0].
    + destruct (Rlt_dec e 0); [lra|]. destruct (Rlt_dec 0 e); cbn in E; discriminate.
    + cbn in E. destruct (Rlt_dec (e / q) (cf_rel_tol cf)) as [Hlt|]; [|discriminate].
      assert (0 <= e / q) by (apply Rmult_le_pos; [exact He|left; apply Rinv_0_lt_compat; lra]). lra.
Qed.
Lemma runs_out cf ds1 ds' : cp_coherent K (ds_num ds1) -> unit_w K (ds_num ds1) -> cf_tol cf <= 0 -> cf_rel_tol cf <= 0 ->
  (ds_it ds1 <= ds_max ds1)%Z -> cp_fit_loop md cf ds1 = (ds', None) -> ds_it ds' = ds_max ds1.
Proof.
  intros HC HU H1 H2 Hle E. destruct (cp_fit_lemma E) as (n & Hn & _ & _ & Hend). destruct (Hend eq_refl) as [[->|Hst] Hi].
  - rewrite Hi. lia.
  - exfalso. eapply never_stops; eauto.
Qed.

(** ** After an iteration the error is at most ||X||^2. *)
Lemma mget_m0 i r : mget m0 i r = 0.
Proof. unfold mget, get, m0. cbn. now destruct (_ + _)%nat. Qed.
Lemma sse_no_first X Us : shape X <> [] -> Us <> [] -> sse X (with_factor 0 m0 Us) unit_weights K = energy X.
Proof.
  intros HX HU. destruct Us as [|U Us]; [congruence|]. unfold sse, energy, cp_entry, with_factor. cbn [replace_at].
  apply sumf_ext. intros idx Hi. apply in_indices in Hi. destruct (shape X) as [|n sh]; [congruence|].
  destruct idx as [|i idx]; [inversion Hi|]. cbn [colprod].
  rewrite sum_zero; [ring|]. intros r _. rewrite mget_m0. ring.
Qed.
Lemma sse_energy s j : svd_works_on K K (env_svd env) -> cs_rank cs = K -> cp_coherent K s -> free_fit cs s ->
  sse (cp_X s) (kt_fms (cp_dec (state_after md s (S j)))) unit_weights K <= energy (cp_X s).
Proof.
  intros HS HK H HFree. destruct (iterations_decrease HS HK H HFree j) as (H1 & H2 & _).
  cbn [state_after]. fold md in H1, H2. set (s1 := state_after md s j) in *. cbn [md cp_model md_update].
  pose proof (free_fit_same H2 HFree) as HF1. rewrite <- (sp_X H2). clearbody s1. clear H2.
  unfold cp_update_factors, ndim. destruct (co_data H1) as (_ & Hn & _).
  destruct (length (shape (cp_X s1))) as [|n] eqn:En; [lia|]. cbn [seq cp_update_modes].
  assert (Hm : (0 < length (shape (cp_X s1)))%nat) by lia.
  destruct (update_optimal H1 HK Hm (HF1 0%nat Hm) HS) as (s2 & Z & E2 & HZ & Hfm & HS2 & HC2 & Hopt). rewrite E2.
  destruct (@modes_decrease env cs K (seq 1 n) HS HK s2 HC2) as (s3 & E3 & _ & _ & Hle).
  { now apply (free_fit_same HS2). } { apply Forall_forall. intros x Hx. apply in_seq in Hx. rewrite (sp_X HS2). lia. }
  rewrite E3. cbn [fst]. rewrite (sp_X HS2) in Hle. eapply Rle_trans; [exact Hle|]. rewrite Hfm.
  eapply Rle_trans; [apply (Hopt m0)|].
  rewrite sse_no_first; [lra| |].
  - intros E0. rewrite E0 in En. discriminate.
  - intros E0. pose proof (coherent_len H1) as El. rewrite E0, En in El. discriminate.
Qed.

(** ** Loggers of a complete fit *)

Lemma Forall2_seq_map {A} (f : nat -> A) (P : nat -> A -> Prop) n : forall a vs,
  Forall2 P (seq a n) vs -> (forall j v, (a <= j < a + n)%nat -> P j v -> v = f j) -> vs = map f (seq a n).
Proof.
  induction n as [|n IH]; intros a vs H Hf; inversion H; subst; [reflexivity|]. cbn [seq map]. f_equal; [apply Hf; auto; lia|].
  apply IH; auto. intros j v Hj. apply Hf. lia.
Qed.
Lemma fit_logged cf ds ds' X : svd_works_on K K (env_svd env) -> cs_rank cs = K -> cs_ridge cs = None ->
  cp_coherent K (ds_num ds) -> unit_w K (ds_num ds) -> free_fit cs (ds_num ds) -> cp_X (ds_num ds) = X -> ds_it ds = 0%Z ->
  cp_fit_loop md cf ds = (ds', None) -> Forall2 (recorded_fit env cs X (Z.to_nat (ds_it ds'))) (ds_logs ds) (ds_logs ds').
Proof.
  intros HS HK HR HC HU HFree EX Eit E. pose proof (cp_fit_logs E) as HL. rewrite Eit, Z.sub_0_r in HL.
  set (n := Z.to_nat (ds_it ds')) in *. eapply Forall2_impl; [|exact HL].
  intros a b (B1 & B2 & B3 & vs & B4 & B5). split; auto. split; auto. intros k [Hc Hm] Hz.
  set (e := fun j => sse X (kt_fms (cp_dec (state_after md (ds_num ds) j))) unit_weights K).
  assert (Hmono : forall i j, (i <= j)%nat -> 0 <= e j <= e i).
  { intros i j Hij. split; [apply sse_nonneg|]. pose proof (sse_antitone HS HK HC HFree Hij) as H. now rewrite EX in H. }
  exists (map (fun j => measure X k (e (S j))) (seq 0 n)).
  assert (Ev : vs = map (fun j => Fin (measure X k (e (S j)))) (seq 0 n)).
  { eapply Forall2_seq_map; [exact B5|]. intros j v _ Hv. rewrite Hm in Hv.
    destruct (@after_coherent env cs K (ds_num ds) (S j) HC) as [H1 H2]. fold md in H1, H2.
    assert (Ee : e (S j) = sse X (kt_fms (cp_dec (state_after md (ds_num ds) (S j)))) unit_weights K) by reflexivity.
    set (sj := state_after md (ds_num ds) (S j)) in *. clearbody sj.
    assert (EXj : cp_X sj = X) by (rewrite (sp_X H2); exact EX).
    rewrite (@cp_metric_ok k _ H1) in Hv; auto; [|now rewrite EXj].
    injection Hv as <-. rewrite EXj, Ee. do 2 f_equal. apply sse_ext. apply (unit_w_same H2 HU). }
  assert (Hn : forall i, (i < n)%nat -> nth i (map (fun j => measure X k (e (S j))) (seq 0 n)) 0 = measure X k (e (S i))).
  { intros i Hi. rewrite (nth_indep _ 0 (measure X k (e (S 0)))) by (now rewrite map_length, seq_length).
    rewrite (map_nth (fun j => measure X k (e (S j)))). now rewrite seq_nth. }
  split; [rewrite B4, Ev, map_map; reflexivity|]. split; [now rewrite map_length, seq_length|].
  assert (HX : data_ok X) by (rewrite <- EX; apply HC).
  assert (HM : forall i j, (i <= j < n)%nat -> _) by (intros i j Hij; exact (@measure_mono X k _ _ HX Hz (Hmono (S i) (S j) ltac:(lia)))).
  split; [destruct k; intros i j Hij; rewrite map_length, seq_length in Hij; rewrite !Hn by lia; exact (HM i j Hij)|].
  intros v Hv. apply in_map_iff in Hv as (j & <- & _). apply measure_range; auto; [apply sse_nonneg|]. subst e. cbn beta.
  rewrite <- EX. now apply sse_energy.
Qed.

Lemma fit_recorded cf disk draws X max_its arg ds :
  cs_rank cs = K -> cs_ridge cs = None -> svd_works_on K K (env_svd env) -> data_ok X -> usable_start env cs K X draws arg ->
  cp_last (ds_num ds) = None -> free_flags (cp_nn (ds_num ds)) (length (shape X)) -> free_flags (cp_orth (ds_num ds)) (length (shape X)) ->
  let budget := match max_its with Some m => m | None => ds_max ds end in
  (0 < budget)%Z -> (forall lg, In lg (ds_logs ds) -> exists k, code_logger env cs k lg) -> checkpoints_fit cf budget ds ->
  exists ds', cp_fit env cs cf disk draws X max_its arg ds = (ds', None) /\
    Forall2 (recorded_fit env cs X (Z.to_nat (ds_it ds'))) (ds_logs ds) (ds_logs ds').
Proof.
  intros HK HR HS HX HU HL Hnn Hor budget Hb Hlg Hck.
  destruct (@complete_fit cf disk draws X max_its arg ds HK HR HS HX HU HL Hnn Hor Hb Hlg Hck)
    as (ds1 & ds' & E1 & E & EL & HC & HUw & HF & EX & Eit & _ & Elog & _).
  exists ds'. split; [exact E|]. rewrite <- Elog. eapply fit_logged; eauto.
Qed.
Lemma fit_completes cf disk draws X max_its arg ds :
  cs_rank cs = K -> cs_ridge cs = None -> svd_works_on K K (env_svd env) -> data_ok X -> usable_start env cs K X draws arg ->
  cp_last (ds_num ds) = None -> free_flags (cp_nn (ds_num ds)) (length (shape X)) -> free_flags (cp_orth (ds_num ds)) (length (shape X)) ->
  let budget := match max_its with Some m => m | None => ds_max ds end in
  (0 < budget)%Z -> (forall lg, In lg (ds_logs ds) -> exists k, code_logger env cs k lg) -> checkpoints_fit cf budget ds ->
  exists ds1 ds', cp_init_fit env cs disk draws X max_its arg ds = (ds1, None) /\
    cp_fit env cs cf disk draws X max_its arg ds = (ds', None) /\
    factors_ok K X (kt_fms (cp_dec (ds_num ds'))) /\ (forall r, (r < K)%nat -> vget (kt_w (cp_dec (ds_num ds'))) r = 1) /\
    cp_SSE env (ds_num ds') = Ok (sse X (kt_fms (cp_dec (ds_num ds'))) unit_weights K) /\
    sse X (kt_fms (cp_dec (ds_num ds'))) unit_weights K <= sse X (kt_fms (cp_dec (ds_num ds1))) unit_weights K /\
    (0 <= ds_it ds' <= budget)%Z /\
    ((ds_it ds' < budget)%Z ->
     cp_stops (cp_model env cs) cf (ds_prev ds1) PInf (ds_num ds1) (Z.to_nat (ds_it ds')) = Ok true).
Proof.
  intros HK HR HS HX HU HL Hnn Hor budget Hb Hlg Hck.
  destruct (@complete_fit cf disk draws X max_its arg ds HK HR HS HX HU HL Hnn Hor Hb Hlg Hck)
    as (ds1 & ds' & E1 & E & EL & HC & HUw & HF & EX & Eit & Emax & _ & _ & Erel).
  exists ds1, ds'. split; [exact E1|]. split; [exact E|].
  destruct (fit_reported_true HC EL) as [HC' HSP]. pose proof (co_fac HC') as HF'. rewrite (sp_X HSP), EX in HF'.
  pose proof (unit_w_same HSP HUw) as HU'. split; [exact HF'|]. split; [exact HU'|].
  split. { rewrite (cp_SSE_ok env HC'), (unit_sse HU'), (sp_X HSP), EX. reflexivity. }
  split. { pose proof (fit_sse_le HS HK HC HF EL) as H. now rewrite EX in H. }
  destruct (cp_fit_lemma EL) as (n & Hn & _ & _ & Hend). destruct (Hend eq_refl) as [Hst Hi].
  rewrite Eit, Emax in *. rewrite Erel in Hst. split; [lia|]. intros Hlt. destruct Hst as [->|Hst]; [lia|].
  replace (Z.to_nat (ds_it ds')) with n by lia. exact Hst.
Qed.

(** ** Updates see the data, the decomposition and the constraints only *)
Record same_inputs (a b : cp_state) : Prop :=
  { si_X : cp_X a = cp_X b; si_dec : cp_dec a = cp_dec b; si_nn : cp_nn a = cp_nn b; si_orth : cp_orth a = cp_orth b }.
Lemma same_factor a b m : same_inputs a b ->
  same_inputs (fst (cp_update_factor env cs a m)) (fst (cp_update_factor env cs b m)) /\
  snd (cp_update_factor env cs a m) = snd (cp_update_factor env cs b m).
Proof.
  intros [H1 H2 H3 H4]. unfold cp_update_factor. rewrite H1, H2, H3, H4.
  destruct (do lhs <- _ ; _) as [[[V P] solve]|]; cbn [fst snd]; [|split; [constructor; auto|auto]].
  destruct (do Z <- _ ; _) as [U|]; cbn [fst snd cp_with_cache cp_with_dec cp_dec]; (split; [constructor; cbn; auto|auto]).
  now rewrite H2.
Qed.
Lemma same_modes l : forall a b, same_inputs a b ->
  same_inputs (fst (cp_update_modes env cs l a)) (fst (cp_update_modes env cs l b)).
Proof.
  induction l as [|m l IH]; intros a b H; cbn [cp_update_modes]; [exact H|].
  destruct (@same_factor a b m H) as [A B].
  destruct (cp_update_factor env cs a m) as [a1 ea], (cp_update_factor env cs b m) as [b1 eb]. cbn [fst snd] in *. subst eb.
  destruct ea; auto.
Qed.
Lemma same_update a b : same_inputs a b -> cp_dec a = cp_dec b /\ same_inputs (fst (md_update md a)) (fst (md_update md b)).
Proof.
  intros H. split; [apply H|]. cbn [md cp_model md_update]. unfold cp_update_factors. rewrite (si_X H). now apply same_modes.
Qed.

(** ** Resuming from the file *)
Lemma reset_ones k : is_vec K (kt_w k) -> (forall r, (r < K)%nat -> vget (kt_w k) r = 1) -> kt_reset_weights k = k.
Proof.
  intros HW H1. destruct (reset_weights_ok HW) as [HW' H1']. destruct k as [rk fs w]. unfold kt_reset_weights. cbn [kt_reset_weights kt_w kt_fms kt_rank] in *. f_equal.
  apply vec_ext with (n := K); auto. intros r Hr. now rewrite H1, H1'.
Qed.

Lemma free_or c n (s : cp_state) : free_flags c n -> length (kt_fms (cp_dec s)) = n -> or_unconstrained c s = Some (repeat false n).
Proof. intros [->| ->] Hl; cbn [or_unconstrained]; [now rewrite Hl|reflexivity]. Qed.
End CPQ.


Section Resume.
Variables (env : cp_env) (cs : cp_settings) (K : nat).
Let md := cp_model env cs.

Lemma exhausted cf (ds ds' : dstate cp_state) : cp_fit_loop md cf ds = (ds', None) -> ds_it ds' = ds_max ds -> (ds_it ds <= ds_max ds)%Z ->
  ds_num ds' = state_after md (ds_num ds) (Z.to_nat (ds_max ds - ds_it ds)).
Proof.
  intros E Hit Hle. destruct (cp_fit_lemma E) as (n & Hn & Hnum & _ & Hend). destruct (Hend eq_refl) as [_ Hi].
  rewrite Hnum. f_equal. lia.
Qed.

Lemma resume_cp cf cf' disk disk' draws draws' X arg ds dsB f i u m d2 d3 :
  cs_rank cs = K -> data_ok X -> usable_start env cs K X draws arg ->
  cp_last (ds_num ds) = None -> cp_last (ds_num dsB) = None ->
  (match cp_nn (ds_num ds) with Some l => (length l <= length (shape X))%nat | None => True end) ->
  cp_nn (ds_num dsB) = cp_nn (ds_num ds) ->
  free_flags (cp_orth (ds_num ds)) (length (shape X)) -> free_flags (cp_orth (ds_num dsB)) (length (shape X)) ->
  (0 <= i < m)%Z -> let budget := (m - i + Z.of_nat u)%Z in
  (forall ds1, cp_init_fit env cs disk draws X (Some budget) arg ds = (ds1, None) ->
     stored_at md f i (cp_dec (state_after md (ds_num ds1) u))) ->
  final_attr f = Some (DInt i) ->
  cp_fit env (from_checkpoint cs) cf' disk' draws' X (Some m) (PathArg (Some f)) dsB = (d2, None) -> ds_it d2 = m ->
  cp_fit env cs cf disk draws X (Some budget) arg ds = (d3, None) -> ds_it d3 = budget ->
  cp_dec (ds_num d2) = cp_dec (ds_num d3).
Proof.
  intros HK HX HU HL HLB Hnn EnnB Hor HorB Him budget Hst Hfin E2 Hit2 E3 Hit3.
  destruct (@usable_begun env cs K disk draws X arg ds HK HX HU Hnn) as (k & E & HF & Hw & Hrk).
  pose proof HF as [HM Hr]. pose proof (mode_len Hr) as Hlen.
  destruct (@start_ok env cs K disk draws X (Some budget) arg ds k 0%Z E HX HF Hw (free_all_false Hor) HL) as (EI & HC & HUw).
  set (ds1 := prepared (Some budget) (begun X ds k 0) (sse X (kt_fms k) unit_weights K)) in *.
  specialize (Hst ds1 EI). set (s1 := state_after md (ds_num ds1) u) in *.
  destruct (@after_coherent env cs K (ds_num ds1) u HC) as [HC1 HSP]. fold md in HC1, HSP. fold s1 in HC1, HSP.
  assert (Hlen1 : length (kt_fms (cp_dec s1)) = length (shape X)) by (rewrite (coherent_len HC1), (sp_X HSP); reflexivity).
  assert (HF1 : factors_ok K X (kt_fms (cp_dec s1))) by (pose proof (co_fac HC1) as H; now rewrite (sp_X HSP) in H).
  (* the loaded start *)
  assert (EB : cp_init_components env (from_checkpoint cs) disk' draws' (PathArg (Some f)) (targeted X dsB) = (begun X dsB (cp_dec s1) i, None)).
  { unfold cp_init_components. cbn -[load_checkpoint targeted begun cp_model]. 
    change (cp_model env (from_checkpoint cs)) with md.
    assert (EL : load_checkpoint md f None (targeted X dsB) = load_checkpoint md f (Some i) (targeted X dsB)).
    { unfold load_checkpoint. unfold final_attr in Hfin. rewrite Hfin. reflexivity. }
    rewrite EL. refine (eq_trans (load_at Hst _ _) eq_refl); [rewrite Hfin; discriminate|].
    cbn [md cp_model md_check]. apply cp_check_iff. rewrite HK. now apply factors_fit. }
  destruct (@start_ok env (from_checkpoint cs) K disk' draws' X (Some m) (PathArg (Some f)) dsB (cp_dec s1) i EB HX HF1 (co_w HC1)
     (free_all_false HorB) HLB) as (EIB & HCB & HUB).
  set (dsB1 := prepared (Some m) (begun X dsB (cp_dec s1) i) (sse X (kt_fms (cp_dec s1)) unit_weights K)) in *.
  unfold cp_fit in E2, E3. rewrite EI in E3. rewrite EIB in E2. change (cp_model env (from_checkpoint cs)) with md in E2. fold md in E3.
  rewrite (exhausted E2) by (cbn; lia). rewrite (exhausted E3) by (cbn; unfold budget; lia).
  change (ds_max dsB1) with m. change (ds_it dsB1) with i. change (ds_max ds1) with budget. change (ds_it ds1) with 0%Z.
  replace (Z.to_nat (budget - 0)) with (u + Z.to_nat (m - i))%nat by (unfold budget; lia). rewrite <- state_after_add. fold s1.
  assert (HRel : same_inputs (ds_num dsB1) s1).
  { constructor.
    - rewrite (sp_X HSP). reflexivity.
    - apply reset_ones with (K := K); [apply HC1|apply (unit_w_same HSP HUw)].
    - rewrite (sp_nn HSP). cbn. rewrite EnnB. destruct (cp_nn (ds_num ds)); [reflexivity|]. cbn. now rewrite Hlen1, Hlen.
    - rewrite (sp_orth HSP). cbn. etransitivity; [apply free_or; [exact HorB|exact Hlen1]|]. symmetry. apply free_or; [exact Hor|exact Hlen]. }
  apply si_dec. apply related_after with (Rel := same_inputs); [|exact HRel].
  intros a b H. now apply same_update.
Qed.

Lemma interrupted_cp cf cf' cf3 disk disk' draws draws' X arg ds dsB f0 f a m d1 d2 d3 :
  cs_rank cs = K -> data_ok X -> usable_start env cs K X draws arg ->
  cp_last (ds_num ds) = None -> cp_last (ds_num dsB) = None ->
  (match cp_nn (ds_num ds) with Some l => (length l <= length (shape X))%nat | None => True end) ->
  cp_nn (ds_num dsB) = cp_nn (ds_num ds) ->
  free_flags (cp_orth (ds_num ds)) (length (shape X)) -> free_flags (cp_orth (ds_num dsB)) (length (shape X)) ->
  (forall lg, In lg (ds_logs ds) -> exists k, code_logger env cs k lg) ->
  (0 < cf_freq cf)%Z -> ds_file ds = Some f0 -> ready_file (classes_of (ds_logs ds)) f0 ->
  (forall i, (0 <= i <= a)%Z -> ~ has_ckpt f0 i) -> (0 < a < m)%Z ->
  let budget := (if a mod cf_freq cf =? 0 then m + 1 else m)%Z in
  cp_fit env cs cf disk draws X (Some a) arg ds = (d1, None) -> ds_it d1 = a -> ds_file d1 = Some f ->
  cp_fit env (from_checkpoint cs) cf' disk' draws' X (Some m) (PathArg (Some f)) dsB = (d2, None) -> ds_it d2 = m ->
  cp_fit env cs cf3 disk draws X (Some budget) arg ds = (d3, None) -> ds_it d3 = budget ->
  cp_dec (ds_num d2) = cp_dec (ds_num d3).
Proof.
  intros HK HX HU HL HLB Hnn EnnB Hor HorB Hlg Hf Hfile Hready Hun Ham budget E1 Hit1 Hf1 E2 Hit2 E3 Hit3.
  destruct (@usable_begun env cs K disk draws X arg ds HK HX HU Hnn) as (k & E & HF & Hw & Hrk).
  destruct (@start_ok env cs K disk draws X (Some a) arg ds k 0%Z E HX HF Hw (free_all_false Hor) HL) as (EI & HC & HUw).
  set (ds1 := prepared (Some a) (begun X ds k 0) (sse X (kt_fms k) unit_weights K)) in *.
  unfold cp_fit in E1. rewrite EI in E1. fold md in E1.
  assert (Hrk1 : kt_rank (cp_dec (ds_num ds1)) = K) by exact Hrk.
  destruct (@cp_run_lemma _ _ md cf ds1 f0 d1 None Hf) as [K1 _]; auto.
  { left. exists "CP_ALS"%string. reflexivity. }
  { apply (@kinds_plain env cs). exact Hlg. }
  { intros j. now apply (@after_storable env cs K). }
  { intros j Hj. apply Hun. change (ds_max ds1) with a in Hj. change (ds_it ds1) with 0%Z in Hj |- *. lia. }
  destruct (K1 eq_refl) as (n & last & f' & Hnum & Hit & Hcase & Hf' & _ & _ & HR).
  change (ds_max ds1) with a in *. change (ds_it ds1) with 0%Z in *.
  assert (f' = f) by congruence. subst f'. assert (Hn : n = Z.to_nat a) by lia.
  assert (Hlast : last = (n - 1)%nat) by (destruct Hcase as [[_ ->]|[Hlt _]]; lia).
  assert (El : (Z.of_nat last + 1)%Z = a) by lia. rewrite El in HR.
  destruct HR as (R1 & R2 & _ & _ & R5).
  assert (EIm : forall ds2, cp_init_fit env cs disk draws X (Some budget) arg ds = (ds2, None) -> ds_num ds2 = ds_num ds1).
  { intros ds2 EI2. destruct (@start_ok env cs K disk draws X (Some budget) arg ds k 0%Z E HX HF Hw (free_all_false Hor) HL) as (EI' & _).
    rewrite EI' in EI2. injection EI2 as <-. reflexivity. }
  destruct (a mod cf_freq cf =? 0)%Z eqn:Em; cbn [negb] in *.
  - apply Z.eqb_eq in Em.
    refine (@resume_cp cf3 cf' disk disk' draws draws' X arg ds dsB f (a - 1)%Z (Z.to_nat a) m d2 d3
      HK HX HU HL HLB Hnn EnnB Hor HorB _ _ _ E2 Hit2 _ _); [lia| | | |].
    + intros ds2 EI2. replace (m - (a - 1) + Z.of_nat (Z.to_nat a))%Z with budget in EI2 by (unfold budget; lia).
      rewrite (EIm ds2 EI2). specialize (R1 last ltac:(lia)). rewrite Z.add_0_l in R1.
      replace (Z.of_nat last) with (a - 1)%Z in R1 by lia. replace (S last) with (Z.to_nat a) in R1 by lia.
      apply R1. now replace (a - 1 + 1)%Z with a by lia.
    + rewrite R5. unfold all_its. rewrite app_nil_r. replace n with (S last) by lia. rewrite periodic_S.
      rewrite Z.add_0_l, El, Em. cbn [Z.eqb]. rewrite rev_app_distr. cbn. do 2 f_equal. lia.
    + replace (m - (a - 1) + Z.of_nat (Z.to_nat a))%Z with budget by (unfold budget; lia). exact E3.
    + rewrite Hit3. unfold budget. lia.
  - apply Z.eqb_neq in Em.
    refine (@resume_cp cf3 cf' disk disk' draws draws' X arg ds dsB f a (Z.to_nat a) m d2 d3
      HK HX HU HL HLB Hnn EnnB Hor HorB _ _ _ E2 Hit2 _ _); [lia| | | |].
    + intros ds2 EI2. replace (m - a + Z.of_nat (Z.to_nat a))%Z with budget in EI2 by (unfold budget; lia).
      rewrite (EIm ds2 EI2). specialize (R2 eq_refl). rewrite Z.add_0_l in R2.
      replace (Z.of_nat n) with a in R2 by lia. rewrite Hn in R2. exact R2.
    + rewrite R5. unfold all_its. rewrite rev_app_distr. cbn. do 2 f_equal. lia.
    + replace (m - a + Z.of_nat (Z.to_nat a))%Z with budget by (unfold budget; lia). exact E3.
    + rewrite Hit3. unfold budget. lia.
Qed.

(** *** Everything completes *)
Lemma resumed_start disk draws X ds f i k : cs_rank cs = K -> stored_at md f i k -> final_attr f = Some (DInt i) ->
  factors_ok K X (kt_fms k) ->
  cp_init_components env (from_checkpoint cs) disk draws (PathArg (Some f)) (targeted X ds) = (begun X ds k i, None).
Proof.
  intros HK Hst Hfin HF. unfold cp_init_components. cbn -[load_checkpoint targeted begun cp_model].
  change (cp_model env (from_checkpoint cs)) with md.
  assert (EL : load_checkpoint md f None (targeted X ds) = load_checkpoint md f (Some i) (targeted X ds)).
  { unfold load_checkpoint. unfold final_attr in Hfin. rewrite Hfin. reflexivity. }
  rewrite EL. refine (eq_trans (load_at Hst _ _) eq_refl); [rewrite Hfin; discriminate|].
  cbn [md cp_model md_check]. apply cp_check_iff. rewrite HK. now apply factors_fit.
Qed.
Lemma run_leaves cf ds1 f0 d1 a : (0 < cf_freq cf)%Z -> cp_coherent K (ds_num ds1) -> kt_rank (cp_dec (ds_num ds1)) = K ->
  ds_file ds1 = Some f0 -> ready_file (classes_of (ds_logs ds1)) f0 ->
  (forall lg, In lg (ds_logs ds1) -> exists k, code_logger env cs k lg) ->
  (forall i, (0 <= i <= a)%Z -> ~ has_ckpt f0 i) -> (0 < a)%Z -> ds_it ds1 = 0%Z -> ds_max ds1 = a ->
  cp_fit_loop md cf ds1 = (d1, None) -> ds_it d1 = a ->
  exists f, ds_file d1 = Some f /\ let i := (if a mod cf_freq cf =? 0 then a - 1 else a)%Z in
    stored_at md f i (cp_dec (ds_num d1)) /\ final_attr f = Some (DInt i).
Proof.
  intros Hf HC Hrk Hfile Hready Hlg Hun Ha Eit Emax E1 Hit1.
  destruct (@cp_run_lemma _ _ md cf ds1 f0 d1 None Hf) as [K1 _]; auto.
  { left. exists "CP_ALS"%string. reflexivity. }
  { apply (@kinds_plain env cs). exact Hlg. }
  { intros j. now apply (@after_storable env cs K). }
  { intros j Hj. apply Hun. lia. }
  destruct (K1 eq_refl) as (n & last & f & Hnum & Hit & Hcase & Hf' & _ & _ & HR).
  rewrite Eit, Emax in *. assert (Hn : n = Z.to_nat a) by lia.
  assert (Hlast : last = (n - 1)%nat) by (destruct Hcase as [[_ ->]|[Hlt _]]; lia).
  assert (El : (Z.of_nat last + 1)%Z = a) by lia. rewrite El in HR.
  destruct HR as (R1 & R2 & _ & _ & R5). exists f. split; [exact Hf'|]. rewrite Hnum.
  destruct (a mod cf_freq cf =? 0)%Z eqn:Em; cbn [negb] in *; cbn zeta.
  - apply Z.eqb_eq in Em. split.
    + specialize (R1 last ltac:(lia)). rewrite Z.add_0_l in R1.
      replace (Z.of_nat last) with (a - 1)%Z in R1 by lia. replace (S last) with n in R1 by lia.
      apply R1. now replace (a - 1 + 1)%Z with a by lia.
    + rewrite R5. unfold all_its. rewrite app_nil_r. replace n with (S last) by lia. rewrite periodic_S.
      rewrite Z.add_0_l, El, Em. cbn [Z.eqb]. rewrite rev_app_distr. cbn. do 2 f_equal. lia.
  - split.
    + specialize (R2 eq_refl). rewrite Z.add_0_l in R2. replace (Z.of_nat n) with a in R2 by lia. exact R2.
    + rewrite R5. unfold all_its. rewrite rev_app_distr. cbn. do 2 f_equal. lia.
Qed.
Lemma interrupted_complete cf cf' cf3 disk disk' draws draws' X arg ds dsB f0 a m :
  cs_rank cs = K -> cs_ridge cs = None -> svd_works_on K K (env_svd env) -> data_ok X -> usable_start env cs K X draws arg ->
  cp_last (ds_num ds) = None -> cp_last (ds_num dsB) = None ->
  cp_nn (ds_num dsB) = cp_nn (ds_num ds) -> free_flags (cp_nn (ds_num ds)) (length (shape X)) ->
  free_flags (cp_orth (ds_num ds)) (length (shape X)) -> free_flags (cp_orth (ds_num dsB)) (length (shape X)) ->
  (forall lg, In lg (ds_logs ds ++ ds_logs dsB) -> exists k, code_logger env cs k lg) ->
  (forall c, In c [cf; cf'; cf3] -> cf_tol c <= 0 /\ cf_rel_tol c <= 0) ->
  (0 < cf_freq cf)%Z -> ds_file ds = Some f0 -> ready_file (classes_of (ds_logs ds)) f0 ->
  (forall i, (0 <= i <= a)%Z -> ~ has_ckpt f0 i) -> (0 < a < m)%Z ->
  let budget := (if a mod cf_freq cf =? 0 then m + 1 else m)%Z in
  checkpoints_fit cf' m dsB -> checkpoints_fit cf3 budget ds ->
  exists d1 f d2 d3,
    cp_fit env cs cf disk draws X (Some a) arg ds = (d1, None) /\ ds_it d1 = a /\ ds_file d1 = Some f /\
    cp_fit env (from_checkpoint cs) cf' disk' draws' X (Some m) (PathArg (Some f)) dsB = (d2, None) /\ ds_it d2 = m /\
    cp_fit env cs cf3 disk draws X (Some budget) arg ds = (d3, None) /\ ds_it d3 = budget /\
    cp_dec (ds_num d2) = cp_dec (ds_num d3).
Proof.
  intros HK HR HS HX HU HL HLB EnnB Hnn Hor HorB Hlg Htol Hf Hfile Hready Hun Ham budget Hck' Hck3.
  assert (Hlg1 : forall lg, In lg (ds_logs ds) -> exists k, code_logger env cs k lg) by (intros; apply Hlg, in_or_app; auto).
  assert (HlgB : forall lg, In lg (ds_logs dsB) -> exists k, code_logger env cs k lg) by (intros; apply Hlg, in_or_app; auto).
  assert (Hck : checkpoints_fit cf a ds) by (right; split; [exact Hf|]; exists f0; auto).
  destruct (@complete_fit env cs K cf disk draws X (Some a) arg ds HK HR HS HX HU HL Hnn Hor ltac:(lia) Hlg1 Hck)
    as (ds1 & d1 & E1 & EA & EL & HC & HUw & HF & EX & Eit & Emax & Elog & _ & _).
  assert (Hb : (0 < budget)%Z) by (unfold budget; destruct (_ =? 0)%Z; lia).
  destruct (@complete_fit env cs K cf3 disk draws X (Some budget) arg ds HK HR HS HX HU HL Hnn Hor Hb Hlg1 Hck3)
    as (ds3 & d3 & _ & E3 & EL3 & HC3 & HUw3 & _ & _ & Eit3 & Emax3 & _).
  assert (T1 : ds_it d1 = a).
  { destruct (Htol cf); [now left|]. rewrite (@runs_out env cs K cf ds1 d1); auto. lia. }
  assert (T3 : ds_it d3 = budget).
  { destruct (Htol cf3); [cbn; tauto|]. rewrite (@runs_out env cs K cf3 ds3 d3); auto. rewrite Eit3, Emax3. lia. }
  assert (Efile : ds_file ds1 = Some f0 /\ kt_rank (cp_dec (ds_num ds1)) = K).
  { destruct (@usable_begun env cs K disk draws X arg ds HK HX HU) as (k & E & HFk & Hw & Hrk).
    { destruct Hnn as [-> | ->]; auto. rewrite repeat_length. lia. }
    destruct (@start_ok env cs K disk draws X (Some a) arg ds k 0%Z E HX HFk Hw (free_all_false Hor) HL) as (EI & _ & _).
    rewrite EI in E1. injection E1 as <-. split; [exact Hfile|exact Hrk]. }
  destruct Efile as [Efile Hrk].
  destruct (@run_leaves cf ds1 f0 d1 a) as (f & Ef & Hst & Hfin); auto; try lia.
  { now rewrite Elog. } { now rewrite Elog. }
  exists d1, f. set (i := (if a mod cf_freq cf =? 0 then a - 1 else a)%Z) in *.
  destruct (fit_reported_true HC EL) as [HC' HSP]. pose proof (co_fac HC') as HF'. rewrite (sp_X HSP), EX in HF'.
  assert (Hrk' : kt_rank (cp_dec (ds_num d1)) = K).
  { destruct (cp_fit_lemma EL) as (n & _ & -> & _). rewrite <- Hrk. apply (@after_rank env cs). }
  assert (EB : cp_init_components env (from_checkpoint cs) disk' draws' (PathArg (Some f)) (targeted X dsB) =
    (begun X dsB (cp_dec (ds_num d1)) i, None)) by now apply resumed_start.
  assert (Hi : (0 <= i < m)%Z) by (unfold i; destruct (_ =? 0)%Z; lia).
  assert (HnnB : free_flags (cp_nn (ds_num dsB)) (length (shape X))) by now rewrite EnnB.
  destruct (@complete_from env (from_checkpoint cs) K cf' disk' draws' X (Some m) (PathArg (Some f)) dsB (cp_dec (ds_num d1)) i
    EB HF' (co_w HC') Hrk' HK HR HS HX HLB HnnB HorB Hi HlgB Hck')
    as (ds2 & d2 & _ & E2 & EL2 & HC2 & HUw2 & _ & _ & Eit2 & Emax2 & _).
  assert (T2 : ds_it d2 = m).
  { destruct (Htol cf'); [cbn; tauto|]. rewrite (@runs_out env (from_checkpoint cs) K cf' ds2 d2); auto. rewrite Eit2, Emax2. lia. }
  exists d2, d3. do 7 (split; [assumption|]).
  eapply (@interrupted_cp cf cf' cf3 disk disk' draws draws' X arg ds dsB f0 f a m d1 d2 d3); eauto.
  destruct Hnn as [-> | ->]; auto. rewrite repeat_length. lia.
Qed.
End Resume.

Lemma cp_explained_zero env K s : cp_coherent K s -> energy (cp_X s) = 0 ->
  cp_explained env s =
    Ok (if Req_EM_T (sse (cp_X s) (kt_fms (cp_dec s)) (vget (kt_w (cp_dec s))) K) 0 then NaN else NInf).
Proof.
  intros H E. unfold cp_explained, explained_of. rewrite (cp_SSE_ok env H). cbn [bind].
  rewrite (co_norm H), norm_energy by apply (co_data H). rewrite E. f_equal. apply xdivR_zero. apply sse_nonneg.
Qed.

(** ** CMTF *)
Lemma cmtf_explained_ok env K ms s : cm_ok K ms s -> cp_norm (cm_cp s) = norm (cp_X (cm_cp s)) -> energy (cp_X (cm_cp s)) <> 0 ->
  cmtf_explained env s = Ok (Fin (1 - (sse (cp_X (cm_cp s)) (cm_fms s) (vget (kt_w (cm_dec s))) K +
    mats_sse K (cm_fms s) ms (cm_V s) (cm_Y s)) / energy (cp_X (cm_cp s)))).
Proof.
  intros H HN Hz. unfold cmtf_explained, explained_of. rewrite (cmtf_SSE_ok env H). cbn [bind].
  rewrite HN, norm_energy by apply (ck_data H). now rewrite xdivR_pos by auto.
Qed.

(** ** PARAFAC2 *)
Lemma sumf_pos {A} (l : list A) f : (forall x, In x l -> 0 <= f x) -> 0 <= sumf l f.
Proof. induction l as [|x l IH]; intros H; cbn [sumf]; [lra|]. pose proof (H x (or_introl eq_refl)). specialize (IH (fun y Hy => H y (or_intror Hy))). lra. Qed.
Lemma slices_energy_norm Xs : Forall wf Xs -> sqrt (sumf Xs (fun Xk => norm Xk ^ 2)) ^ 2 = slices_energy Xs.
Proof.
  intros H. assert (E : sumf Xs (fun Xk => norm Xk ^ 2) = slices_energy Xs).
  { unfold slices_energy. induction H as [|x l Hx Hl IH]; cbn [sumf]; [reflexivity|]. now rewrite (norm_energy Hx), IH. }
  rewrite E. apply pow2_sqrt. apply sumf_pos. intros. apply energy_nonneg.
Qed.
Lemma pf_sse_nonneg K nI A B C Xs Ps : 0 <= pf_sse K nI A B C Xs Ps.
Proof. apply sum_nonneg. intros k Hk. apply sum_nonneg. intros i Hi. apply sum_nonneg. intros j Hj. apply pow2_ge_0. Qed.
Section P2Q.
Variables (env : p2_env) (ps : p2_settings).
Lemma p2_fit_norm cf ds ds' e : pf_fit_loop (p2_model env ps) cf ds = (ds', e) -> p2_norm (ds_num ds') = p2_norm (ds_num ds).
Proof.
  intros E. destruct (fit_state E) as [[x Ex]|(s0 & n & E0 & ->)].
  - now rewrite (prepare_fails Ex).
  - pose proof (after_frame env ps s0 n) as HF. rewrite (fr_norm HF).
    unfold p2_prepare in E0. destruct (do k <- _ ; _) as [c|]; [|discriminate]. destruct (rebind _ _). now injection E0 as <-.
Qed.
Lemma init_random_norm draws s s' : p2_init_random env ps draws s = Ok s' -> p2_norm s' = p2_norm s.
Proof.
  unfold p2_init_random. destruct draws as [|A [|C Ns]]; try discriminate.
  destruct (mapM _ _) as [Ps|]; [|discriminate]. cbn [bind]. destruct (pf_init _ _ _ _ _) as [d|] eqn:Ed; [|discriminate].
  cbn [bind]. intros E. now injection E as <-.
Qed.
Lemma random_fit_norm cf disk draws Xs max_its arg ds ds1 ds' e : lower (ps_init ps) = "random"%string ->
  p2_init_fit env ps disk draws (Slices Xs) max_its arg ds = (ds1, None) ->
  p2_fit env ps cf disk draws (Slices Xs) max_its arg ds = (ds', e) -> Forall wf Xs ->
  p2_norm (ds_num ds') ^ 2 = slices_energy Xs /\ p2_norm (ds_num ds1) ^ 2 = slices_energy Xs.
Proof.
  intros Hi E1 E HX. destruct (init_fit_random Hi E1) as (s & ET & ER).
  assert (EN : p2_norm (ds_num ds1) ^ 2 = slices_energy Xs).
  { rewrite (init_random_norm ER). unfold p2_set_target in ET. cbn [bind] in ET. destruct (p2_X_shape Xs); [|discriminate].
    cbn [bind] in ET. injection ET as <-. cbn [p2_norm p2_with_data]. now apply slices_energy_norm. }
  unfold p2_fit in E. rewrite E1 in E. now rewrite (p2_fit_norm E).
Qed.
Lemma p2_explained_ok K nI s Xs : p2_ok K nI s -> p2_norm s ^ 2 = slices_energy Xs -> slices_energy Xs <> 0 ->
  p2_explained s = Ok (Fin (1 - total_err K nI s / slices_energy Xs)).
Proof.
  intros H HN Hz. unfold p2_explained, explained_of. rewrite (p2_SSE_ok H). cbn [bind]. rewrite HN.
  now rewrite xdivR_pos by auto.
Qed.

Lemma p2_fit_explained K nI cf disk draws Xs max_its arg ds ds1 ds' e :
  lower (ps_init ps) = "random"%string -> unconstrained ps -> ps_rank ps = K -> ps_ridge ps = None ->
  (0 < nI)%nat -> (0 < K)%nat -> slices_ok nI Xs -> draws_ok K nI Xs draws ->
  (forall k, (k < length Xs)%nat -> (K <= width Xs k)%nat /\ qr_works_on (width Xs k) K (env_qr (pe_cp env))) ->
  svd_works_on K K (env_svd (pe_cp env)) -> slices_energy Xs <> 0 ->
  p2_init_fit env ps disk draws (Slices Xs) max_its arg ds = (ds1, None) ->
  (forall k, (k < Z.to_nat (ds_max ds1 - ds_it ds1))%nat ->
     solvable env K nI (state_after (p2_model env ps) (fst (p2_prepare env ps (ds_num ds1))) k)) ->
  p2_fit env ps cf disk draws (Slices Xs) max_its arg ds = (ds', e) ->
  exists v v1, p2_explained (ds_num ds') = Ok (Fin v) /\ p2_explained (ds_num ds1) = Ok (Fin v1) /\
    v = 1 - total_err K nI (ds_num ds') / slices_energy Xs /\ v1 <= v <= 1.
Proof.
  intros Hi HU HK HR HnI HK0 HX HD Hqr Hsvd Hz E1 Hsol E.
  destruct (random_fit_decreases Hi HU HK HR HnI HK0 HX HD Hqr Hsvd E1 Hsol E) as (H1 & _ & _ & _ & _ & Hle).
  assert (HW : Forall wf Xs).
  { destruct HX as [_ HX]. apply Forall_forall. intros x Hx. destruct (In_nth _ _ m0 Hx) as (k & Hk & <-). now apply (HX k Hk). }
  destruct (random_fit_norm Hi E1 E HW) as [N1 N2].
  destruct (init_fit_random Hi E1) as (s & ET & ER). pose proof (set_target_X ET) as EX.
  destruct (@random_ok env ps K nI s draws HK HK0) as (s1 & Es1 & Hok & _); rewrite ?EX; auto.
  rewrite Es1 in ER. injection ER as ER. rewrite ER in Hok.
  rewrite (p2_explained_ok H1 N1 Hz), (p2_explained_ok Hok N2 Hz). do 2 eexists. split; [reflexivity|]. split; [reflexivity|].
  split; [reflexivity|].
  assert (Hp : 0 < slices_energy Xs).
  { assert (0 <= slices_energy Xs) by (apply sumf_pos; intros; apply energy_nonneg). lra. }
  pose proof (div_le_mono Hp Hle). assert (0 <= total_err K nI (ds_num ds') / slices_energy Xs); [|lra].
  apply Rmult_le_pos; [apply pf_sse_nonneg|left; now apply Rinv_0_lt_compat].
Qed.
End P2Q.

(** All measures of CMTF and PARAFAC2 decomposers *)
Lemma root_div l d : 0 <= l -> 0 < d -> root_of (Ok (xdivR l d)) = Ok (Fin (sqrt (l / d))).
Proof.
  intros Hl Hd. unfold root_of. cbn [bind]. rewrite xdivR_pos by lra. f_equal. apply xsqrt_pos.
  apply Rmult_le_pos; [exact Hl|]. left. now apply Rinv_0_lt_compat.
Qed.
Lemma coupled_nonneg K X Us w ms Vs Ys : 0 <= coupled_loss K X Us w ms Vs Ys.
Proof.
  unfold coupled_loss. apply Rplus_le_le_0_compat; [apply sse_nonneg|].
  apply sumf_pos. intros i _. apply sumf_pos. intros a _. apply sumf_pos. intros b _. apply pow2_ge_0.
Qed.
Lemma cmtf_metric_ok env K ms s : cm_ok K ms s ->
  let l := coupled_loss K (cp_X (cm_cp s)) (cm_fms s) (vget (kt_w (cm_dec s))) ms (cm_V s) (cm_Y s) in
  let n := INR (prodl (shape (cp_X (cm_cp s))) + list_sum (map (fun m => nth m (shape (cp_X (cm_cp s))) 0 * K)%nat ms)) in
  cmtf_metric env KLoss s = Ok (Fin l) /\ cmtf_metric env KSSE s = Ok (Fin l) /\
  cmtf_metric env KMSE s = Ok (Fin (l / n)) /\ cmtf_metric env KRMSE s = Ok (Fin (sqrt (l / n))).
Proof.
  intros H l n. assert (Hn : 0 < n).
  { unfold n. rewrite plus_INR. pose proof (entry_count_pos (ck_data H)) as Hp. rewrite entry_count_prod in Hp.
    pose proof (pos_INR (list_sum (map (fun m => nth m (shape (cp_X (cm_cp s))) 0 * K)%nat ms))). lra. }
  cbn [cmtf_metric]. unfold cmtf_RMSE. rewrite (cm_MSE_ok env H), (cmtf_SSE_ok env H). fold l n.
  split; [reflexivity|]. split; [reflexivity|]. split; [now rewrite xdivR_pos by lra|]. apply root_div; [apply coupled_nonneg|exact Hn].
Qed.
Lemma p2_metric_ok ps K nI s : p2_ok K nI s -> (0 < pr_num (p2_ref s))%nat ->
  let e := pf_sse K nI (p2_A s) (p2_B s) (p2_C s) (p2_X s) (p2_Ps s) in
  let n := INR (pr_num (p2_ref s)) in
  p2_metric ps KLoss s = Ok (Fin (e + match ps_ridge ps with
    | None => 0
    | Some lams => nth 0 lams 0 * frob2 nI K (mget (p2_A s)) + nth 1 lams 0 * frob2 K K (mget (p2_B s)) +
                   nth 2 lams 0 * frob2 (length (p2_X s)) K (mget (p2_C s))
    end)) /\
  p2_metric ps KSSE s = Ok (Fin e) /\ p2_metric ps KMSE s = Ok (Fin (e / n)) /\ p2_metric ps KRMSE s = Ok (Fin (sqrt (e / n))).
Proof.
  intros H Hn0 e n. assert (Hn : 0 < n) by (apply lt_0_INR; exact Hn0).
  cbn [p2_metric]. unfold p2_RMSE, p2_MSE. rewrite (p2_loss_ok ps H), (p2_SSE_ok H). cbn [bind as_metric]. fold e n.
  split; [reflexivity|]. split; [reflexivity|]. split; [now rewrite xdivR_pos by lra|]. apply root_div; [apply pf_sse_nonneg|exact Hn].
Qed.
