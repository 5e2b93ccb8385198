(** What the loss of CMTF_ALS is while the weights differ from one: lemmas for C63. *)
From Verif Require Export CMTFWitness.
Set Implicit Arguments.
Unset Strict Implicit.
Local Open Scope R_scope.

(** If p t <= q t^2 / 2 for all t then p = 0. *)
Lemma no_linear_part p q : (forall t, 0 <= q * (t * t) - 2 * t * p) -> p = 0.
Proof.
  intros H. destruct (Req_dec q 0) as [->|Hq].
  - pose proof (H p) as H1. assert (0 <= p * p) by apply Rle_0_sqr. assert (p * p = 0) by lra.
    now apply Rmult_integral in H2 as [|].
  - pose proof (H (p / q)) as H1. pose proof (H 1) as Ha. pose proof (H (-1)) as Hb.
    assert (Hp : 0 < q) by lra.
    replace (q * (p / q * (p / q)) - 2 * (p / q) * p) with (- (p * p * / q)) in H1 by (field; auto).
    assert (0 <= p * p) by apply Rle_0_sqr. pose proof (Rinv_0_lt_compat q Hp) as Hi.
    assert (0 <= p * p * / q) by (apply Rmult_le_pos; lra). assert (p * p * / q = 0) by lra.
    apply Rmult_integral in H3 as [H3|H3]; [|lra]. now apply Rmult_integral in H3 as [|].
Qed.

(** Z with column r multiplied by c r *)
Definition cols_times (n K : nat) (c : nat -> R) (Z : nd) : nd := tab2 n K (fun i r => c r * mget Z i r).
Lemma colprod_cols_times K c Z Us : forall m n idx r, (m < length Us)%nat -> (nth m idx 0 < n)%nat -> (r < K)%nat ->
  length idx = length Us ->
  colprod (replace_at m (cols_times n K c Z) Us) idx r = c r * colprod (replace_at m Z Us) idx r.
Proof.
  induction Us as [|U Us IH]; intros m n idx r Hm Hi Hr Hl; [cbn in Hm; lia|].
  destruct idx as [|i idx]; [discriminate|]. destruct m as [|m]; cbn [replace_at colprod].
  - cbn in Hi. unfold cols_times. rewrite mget_tab2 by auto. ring.
  - rewrite (@IH m n); auto; [ring|cbn in Hm; lia].
Qed.

(** Where no other choice of factor m fits better with unit weights, weights w cost exactly the squared norm of the
    components weighted by w - 1. *)
Lemma optimal_pythagoras X Us m Z K w : rows Us = shape X -> (m < length (shape X))%nat ->
  (forall Z', sse X (with_factor m Z Us) unit_weights K <= sse X (with_factor m Z' Us) unit_weights K) ->
  sse X (with_factor m Z Us) w K =
  sse X (with_factor m Z Us) unit_weights K +
  sumf (indices (shape X)) (fun idx => cp_entry (with_factor m Z Us) (fun r => w r - 1) K idx ^ 2).
Proof.
  intros Hr Hm Hopt. set (n := nth m (shape X) 0%nat).
  set (T := fun idx => cp_entry (with_factor m Z Us) unit_weights K idx).
  set (D := fun idx => cp_entry (with_factor m Z Us) (fun r => w r - 1) K idx).
  assert (HL : length Us = length (shape X)) by now apply mode_len.
  assert (EL : forall c idx, cp_entry (with_factor m Z Us) (fun r => 1 + c * (w r - 1)) K idx = T idx + c * D idx).
  { intros c idx. unfold T, D, cp_entry. rewrite <- sum_scal_l, <- sum_plus. apply sum_ext. intros r _.
    unfold unit_weights. ring. }
  assert (EZ : forall c idx, In idx (indices (shape X)) ->
    cp_entry (with_factor m (cols_times n K (fun r => 1 + c * (w r - 1)) Z) Us) unit_weights K idx = T idx + c * D idx).
  { intros c idx Hi. rewrite <- EL. unfold cp_entry. apply sum_ext. intros r Hrk. unfold with_factor.
    apply in_indices in Hi.
    rewrite colprod_cols_times; auto; [unfold unit_weights; ring|lia| |].
    - unfold n. now apply valid_nth.
    - rewrite HL. now apply valid_length. }
  set (p := sumf (indices (shape X)) (fun idx => (get X idx - T idx) * D idx)).
  set (q := sumf (indices (shape X)) (fun idx => D idx ^ 2)).
  assert (Eq : forall c, sumf (indices (shape X)) (fun idx => (get X idx - (T idx + c * D idx)) ^ 2) =
                         sse X (with_factor m Z Us) unit_weights K + (q * (c * c) - 2 * c * p)).
  { intros c.
    change (sse X (with_factor m Z Us) unit_weights K) with (sumf (indices (shape X)) (fun idx => (get X idx - T idx) ^ 2)).
    unfold p, q.
    transitivity (sumf (indices (shape X)) (fun idx => (get X idx - T idx) ^ 2 +
      (c * c * D idx ^ 2 + (- 2 * c) * ((get X idx - T idx) * D idx)))).
    - apply sumf_ext. intros idx _. ring.
    - rewrite !sumf_plus, !sumf_scal_l. ring. }
  assert (Hp : p = 0).
  { apply (@no_linear_part p q). intros c.
    specialize (Hopt (cols_times n K (fun r => 1 + c * (w r - 1)) Z)).
    assert (E : sse X (with_factor m (cols_times n K (fun r => 1 + c * (w r - 1)) Z) Us) unit_weights K =
                sumf (indices (shape X)) (fun idx => (get X idx - (T idx + c * D idx)) ^ 2)).
    { apply sumf_ext. intros idx Hi. now rewrite EZ. }
    rewrite E, Eq in Hopt. lra. }
  transitivity (sumf (indices (shape X)) (fun idx => (get X idx - (T idx + 1 * D idx)) ^ 2)).
  - apply sumf_ext. intros idx _. rewrite <- EL. do 2 f_equal. unfold cp_entry. apply sum_ext. intros r _. f_equal. ring.
  - rewrite Eq, Hp. fold q. unfold D in q. fold q. ring.
Qed.

(** The state after a whole iteration, when the last mode is not coupled *)
Lemma cm_iteration_loss env cs K ms s : svd_works_rows K (env_svd env) -> cs_rank cs = K -> (1 <= K)%nat -> NoDup ms ->
  cm_ok K ms s -> free_fit cs (cm_cp s) -> ~ In (length (shape (cp_X (cm_cp s))) - 1)%nat ms ->
  exists s', cmtf_update_factors env cs s = (s', None) /\ cm_ok K ms s' /\ same_coupled s s' /\
    forall w, sse (cp_X (cm_cp s)) (cm_fms s') w K =
      sse (cp_X (cm_cp s)) (cm_fms s') unit_weights K +
      sumf (indices (shape (cp_X (cm_cp s)))) (fun idx => cp_entry (cm_fms s') (fun r => w r - 1) K idx ^ 2).
Proof.
  intros Hsvd HK HK1 HN H Hfree Hlast. destruct (ck_data H) as (_ & HN2 & _).
  set (N := length (shape (cp_X (cm_cp s)))) in *.
  assert (Eseq : seq 0 (ndim (cp_X (cm_cp s))) = seq 0 (N - 1) ++ [N - 1]%nat).
  { unfold ndim. fold N. replace N with (S (N - 1)) at 1 by lia. now rewrite seq_S. }
  destruct (@cm_modes_decrease env cs K ms (seq 0 (N - 1)) Hsvd HK HK1 s H) as (s1 & E1 & H1 & HS1 & HV1 & _).
  { apply Forall_forall. intros j Hj. apply in_seq in Hj. fold N. split; [lia|]. apply Hfree. fold N. lia. }
  assert (EX1 : cp_X (cm_cp s1) = cp_X (cm_cp s)) by apply (sp_X (sc_cp HS1)).
  assert (Hf1 : free_mode cs (cm_cp s1) (N - 1)%nat).
  { apply (free_mode_same (sc_cp HS1)). apply Hfree. fold N. lia. }
  destruct (@cm_update_optimal env cs K ms s1 (N - 1)%nat H1 HK HK1) as (s2 & Z & E2 & HZ & Ef2 & EV2 & HS2 & H2 & Hopt); auto.
  { rewrite EX1. fold N. lia. }
  specialize (Hopt HN). rewrite EX1 in *.
  destruct (@update_uncoupled_ok env K ms s2 H2 HN) as (s3 & E3 & Hcp & HS3 & H3 & _); auto.
  { apply free_fit_nn with (cs := cs); [|apply (ck_data H2)]. apply (free_fit_same (sc_cp HS2)).
    now apply (free_fit_same (sc_cp HS1)). }
  assert (E : cmtf_update_factors env cs s = (s3, None)).
  { unfold cmtf_update_factors. rewrite Eseq, (cm_modes_app _ E1). cbn [cmtf_update_modes].
    destruct Hf1 as (_ & (nn & En & Enm) & _). rewrite En. cbn [not_none bind]. unfold list_get at 1. rewrite Enm, E2. exact E3. }
  exists s3. split; [exact E|]. split; [exact H3|]. split.
  { eapply same_coupled_trans; [exact HS1|]. eapply same_coupled_trans; eauto. }
  assert (Ef3 : cm_fms s3 = with_factor (N - 1) Z (cm_fms s1)).
  { unfold cm_fms, cm_dec. rewrite Hcp. exact Ef2. }
  intros w. rewrite Ef3. apply optimal_pythagoras.
  - destruct (ck_fac H1) as [_ Hr]. now rewrite Hr, EX1.
  - fold N. lia.
  - intros Z'. specialize (Hopt Z'). unfold coupled_loss in Hopt. rewrite !mats_sse_uncoupled in Hopt by auto. lra.
Qed.

Lemma cm_reported_loss env cs K ms s n : svd_works_rows K (env_svd env) -> cs_rank cs = K -> (1 <= K)%nat -> NoDup ms ->
  cm_ok K ms s -> free_fit cs (cm_cp s) -> ~ In (length (shape (cp_X (cm_cp s))) - 1)%nat ms ->
  let s' := state_after (cmtf_model env cs) s (S n) in
  kt_w (cm_dec s') = kt_w (cm_dec s) /\
  cmtf_SSE env s' = Ok
    (coupled_loss K (cp_X (cm_cp s)) (cm_fms s') unit_weights ms (cm_V s') (cm_Y s) +
     sumf (indices (shape (cp_X (cm_cp s)))) (fun idx => cp_entry (cm_fms s') (fun r => vget (kt_w (cm_dec s)) r - 1) K idx ^ 2)).
Proof.
  intros Hsvd HK HK1 HN H Hfree Hlast s'.
  destruct (cm_iterations Hsvd HK HK1 HN H Hfree n) as (H1 & HS1 & _).
  destruct (cm_iterations Hsvd HK HK1 HN H Hfree (S n)) as (H2 & HS2 & _). fold s' in H2, HS2.
  assert (Ew : kt_w (cm_dec s') = kt_w (cm_dec s)) by apply (sp_w (sc_cp HS2)).
  split; [exact Ew|].
  set (s1 := state_after (cmtf_model env cs) s n) in *.
  destruct (@cm_iteration_loss env cs K ms s1 Hsvd HK HK1 HN H1) as (s2 & E2 & _ & _ & HE).
  { now apply (free_fit_same (sc_cp HS1)). } { now rewrite (sp_X (sc_cp HS1)). }
  assert (E : s' = s2).
  { unfold s'. cbn [state_after md_update cmtf_model]. fold s1. now rewrite E2. }
  rewrite (cmtf_SSE_ok env H2). f_equal. unfold coupled_loss. rewrite Ew.
  rewrite (sc_Y HS2), (sp_X (sc_cp HS2)).
  rewrite (sp_X (sc_cp HS1)) in HE. rewrite E. rewrite HE. ring.
Qed.

(** *** A one-entry tensor, one component, no coupled matrices: everything can be computed. *)
Lemma update_keeps_rank env cs s m s' e : cmtf_update_factor env cs s m = (s', e) -> kt_rank (cm_dec s') = kt_rank (cm_dec s).
Proof.
  unfold cmtf_update_factor. destruct (do lhs <- _ ; _) as [[[lhs rhs] solve]|e0].
  - destruct (do Z <- _ ; _) as [U'|e0]; intros E; injection E as <- _; reflexivity.
  - intros E; injection E as <- _; reflexivity.
Qed.
Lemma modes_keep_rank env cs l : forall s s' e, cmtf_update_modes env cs l s = (s', e) -> kt_rank (cm_dec s') = kt_rank (cm_dec s).
Proof.
  induction l as [|m l IH]; intros s s' e; cbn [cmtf_update_modes].
  - intros E; injection E as <- _; reflexivity.
  - destruct (do nn <- _ ; _) as [[|]|]; try (intros E; injection E as <- _; reflexivity).
    destruct (cmtf_update_factor env cs s m) as [s1 [e1|]] eqn:E1; intros E.
    + injection E as <- _. eapply update_keeps_rank; eauto.
    + rewrite (IH _ _ _ E). eapply update_keeps_rank; eauto.
Qed.
Lemma factors_keep_rank env cs s s' e : cmtf_update_factors env cs s = (s', e) -> kt_rank (cm_dec s') = kt_rank (cm_dec s).
Proof.
  unfold cmtf_update_factors. destruct (cmtf_update_modes env cs _ s) as [s1 [e1|]] eqn:E1; intros E.
  - injection E as <- _. eapply modes_keep_rank; eauto.
  - unfold update_uncoupled in E. destruct (uncoupled_loop env _ _ _) as [V e2]. injection E as <- _.
    change (cm_dec (cm_with_V V s1)) with (cm_dec s1). eapply modes_keep_rank; eauto.
Qed.

Lemma step_keeps_rank upd eps k i k' : kt_normalize_step upd eps k i = Ok k' -> kt_rank k' = kt_rank k.
Proof.
  unfold kt_normalize_step. destruct (list_get _ _) as [U|]; cbn [bind]; [|discriminate].
  destruct (np_div _ _) as [q|]; cbn [bind]; [|discriminate]. destruct (assign_full U q) as [U'|]; cbn [bind]; [|discriminate].
  destruct (if upd then _ else _) as [w'|]; cbn [bind]; [|discriminate]. intros E; injection E as <-. reflexivity.
Qed.
Lemma normalize_keeps_rank upd eps k k' : kt_normalize upd eps k = Ok k' -> kt_rank k' = kt_rank k.
Proof.
  unfold kt_normalize. generalize (seq 0 (length (kt_fms k))) as l. intros l. revert k.
  induction l as [|i l IH]; intros k; cbn [foldM].
  - intros E; injection E as <-. reflexivity.
  - destruct (kt_normalize_step upd eps k i) as [k1|] eqn:E1; cbn [bind]; [|discriminate].
    intros E. rewrite (IH _ E). eapply step_keeps_rank; eauto.
Qed.

Record at11 (x a b w : R) (s : cmtf_state) : Prop :=
  { at_ok : cm_ok 1 [] s; at_rank : kt_rank (cm_dec s) = 1%nat; at_X : cp_X (cm_cp s) = mk [1; 1]%nat [x];
    at_fms : cm_fms s = [mk [1; 1]%nat [a]; mk [1; 1]%nat [b]]; at_w : vget (kt_w (cm_dec s)) 0 = w;
    at_V : cm_V s = []; at_Y : cm_Y s = [];
    at_nn : cp_nn (cm_cp s) = Some [false; false]; at_orth : cp_orth (cm_cp s) = Some [false; false] }.
Lemma at_free x a b w s m : at11 x a b w s -> (m < 2)%nat -> free_mode w_cs (cm_cp s) m.
Proof.
  intros H Hm. split; [reflexivity|]. rewrite (at_nn H), (at_orth H).
  split; exists [false; false]; (split; [reflexivity|]); destruct m as [|[|m]]; [reflexivity|reflexivity|lia|reflexivity|reflexivity|lia].
Qed.
Lemma at_loss env x a b w s : at11 x a b w s -> cmtf_SSE env s = Ok ((x - w * a * b) * (x - w * a * b)).
Proof.
  intros H. rewrite (cmtf_SSE_ok env (at_ok H)), (at_X H), (at_fms H), (at_V H), (at_Y H), loss11, (at_w H). reflexivity.
Qed.
Lemma at_update env x a b w s : svd_works_rows 1 (env_svd env) -> at11 x a b w s -> x <> 0 -> b <> 0 ->
  exists s', cmtf_update_factors env w_cs s = (s', None) /\ at11 x (x / b) b w s' /\ cp_norm (cm_cp s') = cp_norm (cm_cp s).
Proof.
  intros Hsvd H Hx Hb. pose proof (at_ok H) as HOK.
  assert (HKs : shape (cp_X (cm_cp s)) = [1; 1]%nat) by now rewrite (at_X H).
  destruct (@cm_update_optimal env w_cs 1 [] s 0 HOK eq_refl (le_n 1)) as (s1 & Z0 & E1 & HZ0 & Ef1 & EV1 & HS1 & HOK1 & Hopt1); auto.
  { rewrite HKs. cbn. lia. } { apply (at_free H). lia. }
  rewrite HKs in HZ0. destruct (mat11 HZ0) as (z & ->). specialize (Hopt1 (NoDup_nil _) (mk [1; 1]%nat [x / b])).
  rewrite (at_X H), (at_V H), (at_Y H), (at_fms H) in Hopt1.
  unfold with_factor in Hopt1. cbn [replace_at] in Hopt1. rewrite !loss11 in Hopt1. unfold unit_weights in Hopt1.
  assert (Hz : z * b = x).
  { replace (x - 1 * (x / b) * b) with 0 in Hopt1 by (field; auto). rewrite Rmult_0_l in Hopt1.
    apply sq_zero in Hopt1. lra. }
  assert (Hz0 : z <> 0) by (intros ->; lra).
  rewrite (at_fms H) in Ef1. unfold with_factor in Ef1. cbn [replace_at] in Ef1.
  destruct (@cm_update_optimal env w_cs 1 [] s1 1 HOK1 eq_refl (le_n 1)) as (s2 & Z1 & E2 & HZ1 & Ef2 & EV2 & HS2 & HOK2 & Hopt2); auto.
  { rewrite (sp_X (sc_cp HS1)), HKs. cbn. lia. }
  { apply (free_mode_same (sc_cp HS1)). apply (at_free H). lia. }
  rewrite (sp_X (sc_cp HS1)), HKs in HZ1. destruct (mat11 HZ1) as (v & ->). specialize (Hopt2 (NoDup_nil _) (mk [1; 1]%nat [b])).
  rewrite (sp_X (sc_cp HS1)), (sc_Y HS1), EV1, (at_X H), (at_V H), (at_Y H), Ef1 in Hopt2.
  unfold with_factor in Hopt2. cbn [replace_at] in Hopt2. rewrite !loss11 in Hopt2. unfold unit_weights in Hopt2.
  assert (Hv : z * v = x).
  { replace (x - 1 * z * b) with 0 in Hopt2 by lra. rewrite Rmult_0_l in Hopt2. apply sq_zero in Hopt2. lra. }
  assert (Ez : z = x / b) by (rewrite <- Hz; field; auto).
  assert (Ev : v = b). { apply (Rmult_eq_reg_l z); auto. lra. }
  rewrite Ef1 in Ef2. unfold with_factor in Ef2. cbn [replace_at] in Ef2.
  assert (HS : same_coupled s s2) by (eapply same_coupled_trans; eauto).
  assert (Em : cm_modes s2 = []) by exact (ck_modes HOK2).
  assert (EU : cmtf_update_factors env w_cs s = (cm_with_V (cm_V s2) s2, None)).
  { unfold cmtf_update_factors, ndim. rewrite HKs. cbn [length seq cmtf_update_modes].
    rewrite (at_nn H). cbn [not_none bind list_get nth_error].
    rewrite E1. rewrite (sp_nn (sc_cp HS1)), (at_nn H). cbn [not_none bind list_get nth_error].
    rewrite E2. unfold update_uncoupled. rewrite Em. reflexivity. }
  eexists. split; [exact EU|]. split.
  2:{ change (cm_cp (cm_with_V (cm_V s2) s2)) with (cm_cp s2). apply (sp_norm (sc_cp HS)). }
  constructor.
  - constructor; apply HOK2.
  - rewrite (factors_keep_rank EU). apply (at_rank H).
  - change (cm_cp (cm_with_V (cm_V s2) s2)) with (cm_cp s2). rewrite (sp_X (sc_cp HS)). apply (at_X H).
  - change (cm_fms (cm_with_V (cm_V s2) s2)) with (cm_fms s2). now rewrite Ef2, Ez, Ev.
  - change (cm_dec (cm_with_V (cm_V s2) s2)) with (cm_dec s2). unfold cm_dec. rewrite (sp_w (sc_cp HS)). apply (at_w H).
  - cbn [cm_with_V cm_V]. now rewrite EV2, EV1, (at_V H).
  - cbn [cm_with_V cm_Y]. now rewrite (sc_Y HS), (at_Y H).
  - change (cm_cp (cm_with_V (cm_V s2) s2)) with (cm_cp s2). rewrite (sp_nn (sc_cp HS)). apply (at_nn H).
  - change (cm_cp (cm_with_V (cm_V s2) s2)) with (cm_cp s2). rewrite (sp_orth (sc_cp HS)). apply (at_orth H).
Qed.
Lemma at_normalize x a b w s : at11 x a b w s -> 0 <= a -> 0 <= b ->
  exists s', cmtf_normalize eps15 s = Ok s' /\ at11 x (a / (a + eps15)) (b / (b + eps15)) (w * (a * b)) s' /\
    cp_norm (cm_cp s') = cp_norm (cm_cp s).
Proof.
  intros H Ha Hb. pose proof (at_ok H) as HOK. pose proof eps15_pos as He.
  destruct (scale_uncoupled_ok HOK) as (Vs & EV & HV & _). pose proof (ck_fac HOK) as [HU _].
  destruct (@kt_normalize_of eps15 1 (cm_dec s) HU (ck_w HOK) (at_rank H)) as (k' & EK & HR & Ef & Hw' & Hwe).
  { intros U r _ _. pose proof (clen_nonneg U r). lra. }
  change (kt_fms (cm_dec s)) with (cm_fms s) in *. rewrite (at_fms H) in Ef, Hwe. cbn [map nrows shape nth] in Ef.
  rewrite !scaled11 in Ef by auto.
  assert (EVs : Vs = []). { destruct HV as (E & _). destruct Vs; [reflexivity|discriminate]. }
  unfold cmtf_normalize. rewrite EV. cbn [bind]. rewrite EK. cbn [bind]. eexists. split; [reflexivity|].
  split; [|reflexivity]. constructor; try apply H.
  - constructor; try apply HOK; auto.
    + change (factors_ok 1 (cp_X (cm_cp s)) (kt_fms k')). rewrite Ef, (at_X H). apply fac11.
  - exact HR.
  - exact Ef.
  - change (vget (kt_w k') 0 = w * (a * b)). rewrite Hwe by lia. cbn [prodf]. rewrite !clen11 by auto. rewrite (at_w H). ring.
  - exact EVs.
Qed.

(** One pass of a fit without tolerance, loggers or checkpoints *)
Definition plain_cf : config := {| cf_freq := (-1)%Z; cf_tol := 0; cf_rel_tol := 0; cf_print := (-1)%Z |}.
Lemma one_pass {St D} (md : model St D) ds s' l l' : (ds_max ds - ds_it ds = 1)%Z -> ds_logs ds = [] ->
  md_loss md (ds_num ds) = Ok (Fin l) -> 0 <= l -> 0 < md_norm2 md (ds_num ds) ->
  md_update md (ds_num ds) = (s', None) -> md_loss md s' = Ok (Fin l') ->
  exists ds', cp_fit_loop md plain_cf ds = (ds', None) /\ ds_num ds' = s' /\ ds_it ds' = (ds_it ds + 1)%Z /\ ds_logs ds' = [].
Proof.
  intros Hm Hl Hloss H0 Hn Hu Hloss'. unfold cp_fit_loop. rewrite Hm. change (Z.to_nat 1) with 1%nat. cbn [cp_loop].
  unfold cp_stop. rewrite Hloss. cbn [bind plain_cf cf_tol cf_rel_tol xdiv].
  assert (E1 : xltb (xabs (ds_rel ds)) (Fin 0) = false).
  { destruct (ds_rel ds) as [r| | |]; cbn; try reflexivity. destruct (Rlt_dec (Rabs r) 0) as [Hr|]; [|reflexivity].
    pose proof (Rabs_pos r). lra. }
  assert (E2 : xltb (xdivR l (md_norm2 md (ds_num ds))) (Fin 0) = false).
  { unfold xdivR. destruct (Req_EM_T _ _) as [Hr|_]; [lra|]. cbn. destruct (Rlt_dec _ _) as [Hr|]; [|reflexivity].
    assert (0 <= l / md_norm2 md (ds_num ds)).
    { apply Rmult_le_pos; [auto|]. left. now apply Rinv_0_lt_compat. } lra. }
  rewrite E1, E2. cbn [orb]. rewrite Hu. unfold update_convergence. cbn [ds_num with_num]. rewrite Hloss'. cbn [bind].
  unfold after_iteration. cbn [ds_logs with_conv with_num with_logs]. rewrite Hl. cbn [log_all].
  cbn [plain_cf cf_freq Z.eqb ds_it with_logs with_conv with_num]. rewrite Bool.andb_false_r.
  cbn [cf_freq plain_cf]. cbn. eexists. split; [reflexivity|]. auto.
Qed.

(** Weight 3 from a start of length 3: the fitted tensor is exact after every iteration, the reported one is three
    times the data. *)
Lemma at_iterations env x a b w s n : svd_works_rows 1 (env_svd env) -> at11 x a b w s -> x <> 0 -> b <> 0 ->
  at11 x (x / b) b w (state_after (cmtf_model env w_cs) s (S n)).
Proof.
  intros Hsvd H Hx Hb. induction n as [|n IH].
  - destruct (at_update Hsvd H Hx Hb) as (s' & E & H' & _). cbn [state_after md_update cmtf_model]. now rewrite E.
  - destruct (at_update Hsvd IH Hx Hb) as (s' & E & H' & _). cbn [state_after md_update cmtf_model] in *. now rewrite E.
Qed.

Definition dec11 (a b : R) : kruskal := {| kt_rank := 1; kt_fms := [mk [1; 1]%nat [a]; mk [1; 1]%nat [b]]; kt_w := mk [1]%nat [1] |}.
Lemma at_init env x a b max_its : 0 <= a -> 0 <= b ->
  exists ds, cmtf_init_fit env w_cs (fun _ => None) [] [] (mk [1; 1]%nat [x]) [] [] max_its (DecArg (dec11 a b)) unfitted = (ds, None) /\
    at11 x (a / (a + eps15)) (b / (b + eps15)) (a * b) (ds_num ds) /\ cp_norm (cm_cp (ds_num ds)) = norm (mk [1; 1]%nat [x]) /\
    ds_logs ds = [] /\ ds_it ds = 0%Z /\ ds_max ds = match max_its with Some m => m | None => 10%Z end.
Proof.
  intros Ha Hb. pose proof eps15_pos as He.
  destruct (@cm_init_precomputed env w_cs (fun _ => None) [] [] (mk [1; 1]%nat [x]) [] [] max_its (dec11 a b) unfitted 1
    (cm_with_cp (cp_with_dec (dec11 a b) (cp_with_target (mk [1; 1]%nat [x]) (cm_cp (ds_num unfitted)))) (cm_with_coupling [] [] (ds_num unfitted))))
    as (ds' & EI & EP & HOK & EX & EV & EY & Ef & En & Eo & Ew); try reflexivity.
  { apply data11. } { apply fac11. } { split; reflexivity. } { split; [reflexivity|]. split; [reflexivity|]. cbn. lia. }
  exists ds'. split; [exact EI|].
  cbn [dec11 kt_fms map nrows shape nth] in Ef. rewrite !scaled11 in Ef by auto.
  specialize (Ew 0%nat ltac:(lia)). cbn [dec11 kt_fms prodf] in Ew. rewrite !clen11 in Ew by auto.
  assert (HN : kt_rank (cm_dec (ds_num ds')) = 1%nat /\ cp_norm (cm_cp (ds_num ds')) = norm (mk [1; 1]%nat [x]) /\
               ds_logs ds' = [] /\ ds_it ds' = 0%Z /\ ds_max ds' = match max_its with Some m => m | None => 10%Z end).
  { clear - EI. unfold cmtf_init_fit in EI.
    match type of EI with (match on_cp ?f ?d with _ => _ end) = _ =>
      replace (on_cp f d) with (with_num (cm_with_cp (cp_with_dec (dec11 a b) (cp_with_target (mk [1; 1]%nat [x]) (cm_cp (ds_num unfitted)))) (cm_with_coupling [] [] (ds_num unfitted))) d, @None exn) in EI end.
    2:{ unfold on_cp. cbn [ds_num with_num with_it]. unfold cp_init_components.
        change (lower (cs_init w_cs)) with "precomputed"%string. cbn. reflexivity. }
    cbn [ds_num with_num init_coupled cm_modes cm_with_cp cm_with_coupling length seq combine mapM bind] in EI.
    match type of EI with (match cp_orthonormalise env ?c with _ => _ end) = _ =>
      replace (cp_orthonormalise env c) with (Ok c) in EI by (destruct max_its; reflexivity) end.
    destruct (cmtf_SSE env _) as [l|]; [|discriminate].
    destruct (kt_normalize true eps15 _) as [d|] eqn:EK; [|discriminate].
    assert (HR : kt_rank d = 1%nat).
    { rewrite (normalize_keeps_rank EK). reflexivity. }
    injection EI as <-. destruct max_its; cbn; repeat split; auto. }
  destruct HN as (HR & HN & HL & HI & HM). split; [|auto].
  constructor; auto. rewrite Ew. ring.
Qed.

(** An exact fit of [[2]] is lost by continuing it. *)
Lemma continue_undoes env : svd_works_rows 1 (env_svd env) ->
  exists ds1 ds2 l1 l2,
    cmtf_fit env w_cs plain_cf (fun _ => None) [] [] w_X [] [] (Some 1%Z) (DecArg (dec11 1 1)) unfitted = (ds1, None) /\
    cmtf_SSE env (ds_num ds1) = Ok l1 /\ l1 < / 1000 /\
    cmtf_continue_fit env w_cs plain_cf (Some 2%Z) ds1 = (ds2, None) /\ cmtf_SSE env (ds_num ds2) = Ok l2 /\ 3 < l2.
Proof.
  intros Hsvd. pose proof eps15_pos as He. assert (He' : eps15 < / 1000).
  { unfold eps15. apply Rinv_lt_contravar; lra. }
  destruct (@at_init env 2 1 1 (Some 1%Z)) as (ds0 & E0 & H0 & HN0 & HL0 & HI0 & HM0); try lra.
  set (u := 1 / (1 + eps15)) in *.
  assert (Hu : 0 < u) by (unfold u, Rdiv; rewrite Rmult_1_l; apply Rinv_0_lt_compat; lra).
  assert (Hu1 : u * (1 + eps15) = 1) by (unfold u; field; lra).
  destruct (at_update Hsvd H0) as (s1 & E1 & H1 & HN1); try lra.
  assert (Hnorm : norm (mk [1; 1]%nat [2]) ^ 2 = 4).
  { rewrite norm_pow2. ev. ring. }
  destruct (@one_pass _ _ (cmtf_model env w_cs) ds0 s1 ((2 - 1 * 1 * u * u) * (2 - 1 * 1 * u * u))
     ((2 - 1 * 1 * (2 / u) * u) * (2 - 1 * 1 * (2 / u) * u))) as (ds1 & EL1 & ES1 & EI1 & ELg1); auto.
  { rewrite HM0, HI0. reflexivity. }
  { cbn [cmtf_model md_loss]. rewrite (at_loss env H0). reflexivity. }
  { apply Rle_0_sqr. }
  { cbn [cmtf_model md_norm2]. rewrite HN0, Hnorm. lra. }
  { cbn [cmtf_model md_loss]. rewrite (at_loss env H1). reflexivity. }
  assert (Hz : 0 < 2 / u) by (apply Rmult_lt_0_compat; [lra|now apply Rinv_0_lt_compat]).
  destruct (at_normalize H1) as (s2 & E2 & H2 & HN2); try lra.
  set (z := 2 / u) in *. set (p := z / (z + eps15)) in *. set (q := u / (u + eps15)) in *.
  assert (Hzu : z * u = 2) by (unfold z; field; lra).
  assert (Hz2 : 1 < z).
  { apply (Rmult_lt_reg_r u); auto. rewrite Hzu. assert (u < 1); [|lra]. assert (0 < u * eps15) by (apply Rmult_lt_0_compat; auto). lra. }
  assert (Hu2 : 9 / 10 < u).
  { apply (Rmult_lt_reg_r (1 + eps15)); [lra|]. rewrite Hu1. lra. }
  assert (Hp : 998 / 1000 < p < 1).
  { assert (Ep : p * (z + eps15) = z) by (unfold p; field; lra). split.
    - apply (Rmult_lt_reg_r (z + eps15)); [lra|]. rewrite Ep. lra.
    - apply (Rmult_lt_reg_r (z + eps15)); [lra|]. rewrite Ep. lra. }
  assert (Hq : 998 / 1000 < q < 1).
  { assert (Ep : q * (u + eps15) = u) by (unfold q; field; lra). split.
    - apply (Rmult_lt_reg_r (u + eps15)); [lra|]. rewrite Ep. lra.
    - apply (Rmult_lt_reg_r (u + eps15)); [lra|]. rewrite Ep. lra. }
  assert (Hpq : 996 / 1000 < p * q < 1).
  { split.
    - assert (0 < (p - 998 / 1000) * q) by (apply Rmult_lt_0_compat; lra). lra.
    - assert (0 < (1 - p) * q) by (apply Rmult_lt_0_compat; lra). lra. }
  destruct (at_update Hsvd H2) as (s3 & E3 & H3 & HN3); try lra.
  set (ds1' := with_num s2 ds1).
  destruct (@one_pass _ _ (cmtf_model env w_cs) (with_max 2%Z ds1') s3
     ((2 - 1 * 1 * (z * u) * p * q) * (2 - 1 * 1 * (z * u) * p * q))
     ((2 - 1 * 1 * (z * u) * (2 / q) * q) * (2 - 1 * 1 * (z * u) * (2 / q) * q))) as (ds2 & EL2 & ES2 & EI2 & ELg2).
  { cbn. rewrite EI1, HI0. reflexivity. }
  { exact ELg1. }
  { cbn [cmtf_model md_loss with_max ds1' with_num ds_num]. rewrite (at_loss env H2). reflexivity. }
  { apply Rle_0_sqr. }
  { cbn [cmtf_model md_norm2 with_max ds1' with_num ds_num]. rewrite HN2, HN1, HN0, Hnorm. lra. }
  { cbn [cmtf_model md_update with_max ds1' with_num ds_num]. exact E3. }
  { cbn [cmtf_model md_loss]. rewrite (at_loss env H3). reflexivity. }
  assert (Hr : 0 < 2 / q) by (apply Rmult_lt_0_compat; [lra|apply Rinv_0_lt_compat; lra]).
  destruct (at_normalize H3) as (s4 & E4 & H4 & _); try lra.
  exists ds1', (with_num s4 ds2). do 2 eexists. split.
  { unfold cmtf_fit, w_X. rewrite E0. unfold cmtf_fit_loop. rewrite EL1, ES1, E2. reflexivity. }
  split; [exact (at_loss env H2)|]. split.
  { rewrite Hzu. replace (2 - 1 * 1 * 2 * p * q) with (2 * (1 - p * q)) by ring. set (d := 1 - p * q).
    assert (0 < d < 4 / 1000) by (unfold d; lra).
    assert (d * d < 4 / 1000 * (4 / 1000)) by (apply Rmult_le_0_lt_compat; lra). lra. }
  split.
  { unfold cmtf_continue_fit, cmtf_fit_loop. rewrite EL2, ES2, E4. reflexivity. }
  split; [exact (at_loss env H4)|].
  set (c := 2 / q) in *. assert (Hcq : c * q = 2) by (unfold c; field; lra).
  assert (Hc : 2 < c).
  { apply (Rmult_lt_reg_r q); lra. }
  replace (2 - 1 * 1 * (z * u) * (c * q) * (c / (c + eps15)) * (q / (q + eps15)))
    with (2 - 4 * (c / (c + eps15) * (q / (q + eps15)))) by (rewrite Hzu, Hcq; ring).
  assert (Ha : 99 / 100 < c / (c + eps15)).
  { apply (Rmult_lt_reg_r (c + eps15)); [lra|]. replace (c / (c + eps15) * (c + eps15)) with c by (field; lra). lra. }
  assert (Hb : 99 / 100 < q / (q + eps15)).
  { apply (Rmult_lt_reg_r (q + eps15)); [lra|]. replace (q / (q + eps15) * (q + eps15)) with q by (field; lra). lra. }
  set (g := c / (c + eps15)) in *. set (h := q / (q + eps15)) in *.
  assert (98 / 100 < g * h) by (assert (99 / 100 * (99 / 100) < g * h) by (apply Rmult_le_0_lt_compat; lra); lra).
  set (t := 4 * (g * h) - 2). replace ((2 - 4 * (g * h)) * (2 - 4 * (g * h))) with (t * t) by (unfold t; ring).
  assert (Ht : 19 / 10 < t) by (unfold t; lra). assert (19 / 10 * (19 / 10) < t * t) by (apply Rmult_le_0_lt_compat; lra). lra.
Qed.
