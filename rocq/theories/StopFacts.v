(** How long fits run (C74): consequences of the stopping rules for losses that only go down. *)
From Verif Require Export QualityFacts StartFacts.
Set Implicit Arguments.
Unset Strict Implicit.
Local Open Scope R_scope.

Section Stop.
Context {St D : Type} (md : model St D) (cf : config) (s : St) (L : nat -> R) (B : nat).
Hypothesis HL : forall k, (k <= B)%nat -> loss_at md s k = Ok (Fin (L k)).
Hypothesis Hmono : forall k, (k < B)%nat -> L (S k) <= L k.
Hypothesis Hpos : forall k, 0 <= L k.

Lemma rel_value k r0 : (k < B)%nat -> rel_at md (Fin (L 0)) r0 s (S k) =
  Ok (if Req_EM_T (L k) 0 then NaN else Fin ((L k - L (S k)) / L k)).
Proof.
  intros HB. assert (EP : prev_at md (Fin (L 0)) s k = Ok (Fin (L k))) by (destruct k; [reflexivity|apply HL; lia]).
  unfold rel_at. rewrite EP. cbn [bind]. rewrite HL by lia. cbn [bind xsub xdiv]. f_equal. unfold xdivR.
  destruct (Req_EM_T (L k) 0) as [E|]; [|reflexivity]. pose proof (Hmono HB). pose proof (Hpos (S k)).
  destruct (Rlt_dec (L k - L (S k)) 0); [lra|]. destruct (Rlt_dec 0 (L k - L (S k))); [lra|]. reflexivity.
Qed.
(** A loop that goes on has gained at least the tolerance. *)
Lemma step_gain k r0 : (k < B)%nat -> 0 < cf_tol cf ->
  (do r <- rel_at md (Fin (L 0)) r0 s (S k) ; Ok (xltb (xabs r) (Fin (cf_tol cf)))) = Ok false ->
  L (S k) <= (1 - cf_tol cf) * L k.
Proof.
  intros HB Ht. rewrite rel_value by exact HB. cbn [bind]. destruct (Req_EM_T (L k) 0) as [E|E].
  - intros _. pose proof (Hmono HB). pose proof (Hpos (S k)). rewrite E in *. lra.
  - cbn [xabs xltb]. pose proof (Hpos k). pose proof (Hmono HB).
    assert (Hq : 0 <= (L k - L (S k)) / L k). { apply Rmult_le_pos; [lra|]. left. apply Rinv_0_lt_compat. lra. }
    rewrite (Rabs_pos_eq _ Hq). destruct (Rlt_dec _ _) as [|H1]; [discriminate|]. intros _. apply Rnot_lt_le in H1.
    apply (Rmult_le_compat_r (L k)) in H1; [|lra]. unfold Rdiv in H1. rewrite Rmult_assoc, Rinv_l in H1 by lra. lra.
Qed.
Lemma geometric n : 0 < cf_tol cf < 1 -> (forall k, (k < n)%nat -> L (S k) <= (1 - cf_tol cf) * L k) ->
  L n <= (1 - cf_tol cf) ^ n * L 0.
Proof.
  intros Ht H. induction n as [|n IH]; [cbn; lra|]. pose proof (H n ltac:(lia)). specialize (IH ltac:(intros; apply H; lia)).
  cbn [pow]. rewrite Rmult_assoc. eapply Rle_trans; [exact H0|]. apply Rmult_le_compat_l; lra.
Qed.
Lemma pf_gain n r0 : (n <= B)%nat -> 0 < cf_tol cf < 1 -> (forall k, (k < S n)%nat -> pf_stops md cf (Fin (L 0)) r0 s k = Ok false) ->
  L n <= (1 - cf_tol cf) ^ n * L 0.
Proof.
  intros HB Ht H. apply geometric; [exact Ht|]. intros k Hk. apply (@step_gain k r0); [lia|lra|]. exact (H (S k) ltac:(lia)).
Qed.
Lemma cp_gain N2 n r0 : (n <= B)%nat -> (forall k, md_norm2 md (state_after md s k) = N2) -> 0 < N2 ->
  0 < cf_tol cf < 1 -> (forall k, (k < S n)%nat -> cp_stops md cf (Fin (L 0)) r0 s k = Ok false) ->
  L n <= (1 - cf_tol cf) ^ n * L 0 /\ cf_rel_tol cf * N2 <= L n.
Proof.
  intros HB HN H2 Ht H.
  assert (Hboth : forall k, (k < S n)%nat ->
    (do r <- rel_at md (Fin (L 0)) r0 s k ; Ok (xltb (xabs r) (Fin (cf_tol cf)))) = Ok false /\ cf_rel_tol cf * N2 <= L k).
  { intros k Hk. specialize (H k Hk). unfold cp_stops in H. rewrite HL in H by lia. cbn [bind] in H.
    destruct (rel_at md (Fin (L 0)) r0 s k) as [r|]; [|discriminate]. cbn [bind] in *.
    injection H as H. apply Bool.orb_false_elim in H as [-> H]. split; [reflexivity|]. rewrite HN in H.
    cbn [xdiv] in H. unfold xdivR in H. destruct (Req_EM_T N2 0); [lra|]. cbn [xltb] in H.
    destruct (Rlt_dec _ _) as [|H1]; [discriminate|]. apply Rnot_lt_le in H1.
    apply (Rmult_le_compat_r N2) in H1; [|lra]. unfold Rdiv in H1. rewrite Rmult_assoc, Rinv_l in H1 by lra. lra. }
  split; [|apply Hboth; lia]. apply geometric; [exact Ht|]. intros k Hk. apply (@step_gain k r0); [lia|lra|]. apply Hboth. lia.
Qed.
End Stop.

(** Powers of a number below 1 get arbitrarily small. *)
Lemma pow_small q a b : 0 < q < 1 -> 0 < b -> exists N, q ^ N * a < b.
Proof.
  intros Hq Hb. destruct (Rle_lt_dec a 0) as [Ha|Ha].
  - exists 0%nat. cbn. lra.
  - destruct (pow_lt_1_zero q) with (y := b / a) as (N & HN); [rewrite Rabs_pos_eq; lra|apply Rdiv_lt_0_compat; lra|].
    exists N. specialize (HN N (le_n N)). rewrite Rabs_pos_eq in HN by (apply pow_le; lra).
    apply (Rmult_lt_compat_r a) in HN; [|exact Ha]. unfold Rdiv in HN. rewrite Rmult_assoc, Rinv_l in HN by lra. lra.
Qed.

(** Bound on the number of passes of a loop whose loss is bounded below by the second stopping rule *)
Lemma few_passes q a b n : 0 < q < 1 -> 0 <= a -> b <= q ^ n * a -> forall N, q ^ N * a < b -> (n < N)%nat.
Proof.
  intros Hq Ha Hb N HN. destruct (Nat.lt_ge_cases n N) as [|Hge]; [assumption|exfalso].
  assert (q ^ n <= q ^ N).
  { replace n with (N + (n - N))%nat by lia. rewrite pow_add. rewrite <- (Rmult_1_r (q ^ N)) at 2.
    apply Rmult_le_compat_l; [apply pow_le; lra|]. rewrite <- (pow1 (n - N)). apply pow_incr. lra. }
  apply (Rmult_le_compat_r a) in H; [lra|exact Ha].
Qed.
Lemma cp_passes {St D} (md : model St D) cf ds ds' e (L : nat -> R) E2 N :
  (forall k, loss_at md (ds_num ds) k = Ok (Fin (L k))) -> (forall k, L (S k) <= L k) -> (forall k, 0 <= L k) ->
  (forall k, md_norm2 md (state_after md (ds_num ds) k) = E2) -> 0 < E2 ->
  0 < cf_tol cf < 1 -> ds_prev ds = Fin (L 0%nat) ->
  (1 - cf_tol cf) ^ N * L 0%nat < cf_rel_tol cf * E2 -> cp_fit_loop md cf ds = (ds', e) ->
  exists n, (n <= N)%nat /\ ds_num ds' = state_after md (ds_num ds) n /\ (e = None -> ds_it ds' = (ds_it ds + Z.of_nat n)%Z).
Proof.
  intros HL Hm Hp HN H2 Ht HP Hq E. destruct (cp_fit_lemma E) as (n & Hn & En & Hs & He). exists n.
  split; [|split; [exact En|intros ->; now apply He]]. rewrite HP in Hs. destruct n as [|n]; [lia|].
  destruct (@cp_gain _ _ md cf (ds_num ds) L n (fun k _ => HL k) (fun k _ => Hm k) Hp E2 n (ds_rel ds) (le_n n) HN H2 Ht Hs) as [G1 G2].
  assert ((n < N)%nat); [|lia]. apply (@few_passes (1 - cf_tol cf) (L 0%nat) (cf_rel_tol cf * E2)); auto; lra.
Qed.

(** ** CP *)
Section CP.
Variables (env : cp_env) (cs : cp_settings) (K : nat).
Let md := cp_model env cs.
Lemma cp_run_length cf ds ds' e N : svd_works_on K K (env_svd env) -> cs_rank cs = K -> cp_coherent K (ds_num ds) -> unit_w K (ds_num ds) ->
  free_fit cs (ds_num ds) -> energy (cp_X (ds_num ds)) <> 0 -> 0 < cf_tol cf < 1 ->
  ds_prev ds = Fin (sse (cp_X (ds_num ds)) (kt_fms (cp_dec (ds_num ds))) unit_weights K) ->
  (1 - cf_tol cf) ^ N * sse (cp_X (ds_num ds)) (kt_fms (cp_dec (ds_num ds))) unit_weights K < cf_rel_tol cf * energy (cp_X (ds_num ds)) ->
  cp_fit_loop md cf ds = (ds', e) ->
  exists n, (n <= N)%nat /\ ds_num ds' = state_after md (ds_num ds) n /\ (e = None -> ds_it ds' = (ds_it ds + Z.of_nat n)%Z).
Proof.
  intros HS HK HC HU HF HE Ht HP HN E.
  apply (@cp_passes _ _ md cf ds ds' e (fun k => sse (cp_X (ds_num ds)) (kt_fms (cp_dec (state_after md (ds_num ds) k))) unit_weights K) (energy (cp_X (ds_num ds))) N); auto.
  - intros k. now apply loss_is_sse.
  - intros k. apply sse_antitone; auto.
  - intros k. apply sse_nonneg.
  - intros k. destruct (@after_coherent env cs K (ds_num ds) k HC) as [H1 H2]. fold md in H1, H2.
    change (cp_norm (state_after md (ds_num ds) k) ^ 2 = energy (cp_X (ds_num ds))). 
    rewrite (co_norm H1), (sp_X H2). apply norm_energy. apply (co_data HC).
  - pose proof (energy_nonneg (cp_X (ds_num ds))). lra.
Qed.
Lemma cp_fit_length cf disk draws X arg ds :
  cs_rank cs = K -> cs_ridge cs = None -> svd_works_on K K (env_svd env) -> data_ok X -> energy X <> 0 -> usable_start env cs K X draws arg ->
  cp_last (ds_num ds) = None -> free_flags (cp_nn (ds_num ds)) (length (shape X)) -> free_flags (cp_orth (ds_num ds)) (length (shape X)) ->
  (forall lg, In lg (ds_logs ds) -> exists k, code_logger env cs k lg) ->
  0 < cf_tol cf < 1 -> 0 < cf_rel_tol cf ->
  exists N, forall m, (0 < m)%Z -> checkpoints_fit cf m ds ->
    exists ds', cp_fit env cs cf disk draws X (Some m) arg ds = (ds', None) /\ (ds_it ds' <= N)%Z.
Proof.
  intros HK HR HS HX HE HU HL Hnn Hor Hlg Ht Hr.
  destruct (@usable_begun env cs K disk draws X arg ds HK HX HU) as (k & EB & HF & Hw & Hrk).
  { destruct Hnn as [-> | ->]; auto. rewrite repeat_length. lia. }
  pose proof (energy_nonneg X) as HE0.
  destruct (@pow_small (1 - cf_tol cf) (sse X (kt_fms k) unit_weights K) (cf_rel_tol cf * energy X)) as (N & HN).
  { lra. } { apply Rmult_lt_0_compat; lra. }
  exists (Z.of_nat N). intros m Hm Hck.
  destruct (@complete_fit env cs K cf disk draws X (Some m) arg ds HK HR HS HX HU HL Hnn Hor Hm Hlg Hck)
    as (ds1 & ds' & E1 & E & EL & HC & HUw & HFr & EX & Eit & Emax & _ & EP & Erel).
  destruct (@start_ok env cs K disk draws X (Some m) arg ds k 0%Z EB HX HF Hw (free_all_false Hor) HL) as (EI & _).
  rewrite EI in E1. injection E1 as E1.
  exists ds'. split; [exact E|].
  assert (EP' : ds_prev ds1 = Fin (sse X (kt_fms k) unit_weights K)) by (rewrite <- E1; reflexivity).
  rewrite EP in EP'. injection EP' as EP'. rewrite <- EP' in HN.
  destruct (@cp_run_length cf ds1 ds' None N HS HK HC HUw HFr) as (n & Hn & _ & Hi); rewrite ?EX; auto.
  rewrite (Hi eq_refl), Eit. lia.
Qed.
End CP.

(** ** CMTF *)
Lemma cmtf_run_length env cs cf K ms ds ds' e N : svd_works_rows K (env_svd env) -> cs_rank cs = K -> (1 <= K)%nat -> NoDup ms ->
  let s := ds_num ds in
  cm_ok K ms s -> free_fit cs (cm_cp s) -> (forall r, (r < K)%nat -> vget (kt_w (cm_dec s)) r = 1) ->
  cp_norm (cm_cp s) = norm (cp_X (cm_cp s)) -> energy (cp_X (cm_cp s)) <> 0 -> 0 < cf_tol cf < 1 ->
  let l := coupled_loss K (cp_X (cm_cp s)) (cm_fms s) unit_weights ms (cm_V s) (cm_Y s) in
  ds_prev ds = Fin l -> (1 - cf_tol cf) ^ N * l < cf_rel_tol cf * energy (cp_X (cm_cp s)) ->
  cp_fit_loop (cmtf_model env cs) cf ds = (ds', e) ->
  exists n, (n <= N)%nat /\ ds_num ds' = state_after (cmtf_model env cs) s n /\ (e = None -> ds_it ds' = (ds_it ds + Z.of_nat n)%Z).
Proof.
  intros HS HK HK1 HN s H Hfree Hw Hnm HE Ht l HP Hq E.
  set (md := cmtf_model env cs) in *.
  set (L := fun k => coupled_loss K (cp_X (cm_cp s)) (cm_fms (state_after md s k)) unit_weights ms (cm_V (state_after md s k)) (cm_Y s)).
  assert (G : forall k, _) by (intros k; exact (cm_iterations HS HK HK1 HN H Hfree k)). fold md in G.
  apply (@cp_passes _ _ md cf ds ds' e L (energy (cp_X (cm_cp s))) N); auto.
  - intros k. destruct (G k) as (G1 & G2 & _). unfold loss_at. fold s. cbn [md cmtf_model md_loss].
    rewrite (cmtf_SSE_ok env G1). cbn [bind]. rewrite (sp_X (sc_cp G2)), (sc_Y G2). unfold L.
    rewrite coupled_loss_unit; [reflexivity|]. intros r Hr. unfold cm_dec. rewrite (sp_w (sc_cp G2)). now apply Hw.
  - intros k. destruct (G k) as (_ & _ & _ & _ & Hle). exact Hle.
  - intros k. unfold L, coupled_loss. apply Rplus_le_le_0_compat; [apply sse_nonneg|].
    apply sumf_pos. intros i _. apply sumf_pos. intros a _. apply sumf_pos. intros b _. apply pow2_ge_0.
  - intros k. destruct (G k) as (_ & G2 & _). fold s. change (cp_norm (cm_cp (state_after md s k)) ^ 2 = energy (cp_X (cm_cp s))).
    rewrite (sp_norm (sc_cp G2)), Hnm. apply norm_energy. apply (ck_data H).
  - pose proof (energy_nonneg (cp_X (cm_cp s))). lra.
Qed.

(** ** PARAFAC2 *)
Lemma pf_perfect {St D} (md : model St D) cf ds ds' s : cf_tol cf <= 1 -> md_prepare md (ds_num ds) = (s, None) ->
  xltb (xabs (ds_rel ds)) (Fin (cf_tol cf)) = false -> (forall t l, md_loss md t = Ok l -> exists x, l = Fin x) ->
  pf_fit_loop md cf ds = (ds', None) -> md_loss md (ds_num ds') = Ok (Fin 0) -> (ds_max ds <= ds_it ds')%Z.
Proof.
  intros Ht EP Hr Hfin E HL. destruct (pf_fit_lemma EP E) as (n & Hn & En & _ & He). destruct (He eq_refl) as [[->|Hs] Hi]; [lia|].
  exfalso. rewrite En in HL. change (loss_at md s n = Ok (Fin 0)) in HL. destruct n as [|n].
  - cbn in Hs. congruence.
  - unfold pf_stops, rel_at in Hs. destruct (prev_at md (ds_prev ds) s n) as [p|] eqn:Ep; [|discriminate].
    cbn [bind] in Hs. rewrite HL in Hs. cbn [bind] in Hs. injection Hs as Hs.
    destruct p as [x| | |]; cbn in Hs; try discriminate. unfold xdivR in Hs. destruct (Req_EM_T x 0) as [->|Hx].
    + destruct (Rlt_dec (0 - 0) 0); [lra|]. destruct (Rlt_dec 0 (0 - 0)); [lra|]. discriminate.
    + cbn in Hs. replace ((x - 0) / x) with 1 in Hs by (field; exact Hx). rewrite Rabs_R1 in Hs.
      destruct (Rlt_dec 1 (cf_tol cf)); [lra|discriminate].
Qed.
Lemma p2_perfect env ps cf ds ds' s : cf_tol cf <= 1 -> p2_prepare env ps (ds_num ds) = (s, None) ->
  xltb (xabs (ds_rel ds)) (Fin (cf_tol cf)) = false -> pf_fit_loop (p2_model env ps) cf ds = (ds', None) -> p2_loss ps (ds_num ds') = Ok 0 -> (ds_max ds <= ds_it ds')%Z.
Proof.
  intros Ht EP Hr E HL. eapply (@pf_perfect _ _ (p2_model env ps)); eauto.
  - intros t l. cbn [p2_model md_loss]. destruct (p2_loss ps t); [|discriminate]. cbn [bind]. intros H. injection H as <-. eauto.
  - cbn [p2_model md_loss]. rewrite HL. reflexivity.
Qed.

Lemma p2_run_gain env ps K nI cf ds ds' : let s := ds_num ds in
  p2_ok K nI s -> orth_projections K (p2_X s) (p2_Ps s) -> unconstrained ps -> ps_rank ps = K -> ps_ridge ps = None ->
  svd_works_on K K (env_svd (pe_cp env)) -> (0 < nI)%nat -> (0 < K)%nat -> (0 < length (p2_X s))%nat ->
  (forall k, (k < Z.to_nat (ds_max ds - ds_it ds))%nat -> solvable env K nI (state_after (p2_model env ps) (fst (p2_prepare env ps s)) k)) ->
  0 < cf_tol cf < 1 -> ds_prev ds = Fin (total_err K nI s) ->
  pf_fit_loop (p2_model env ps) cf ds = (ds', None) -> (ds_it ds < ds_it ds')%Z ->
  total_err K nI (ds_num ds') <= (1 - cf_tol cf) ^ Z.to_nat (ds_it ds' - ds_it ds - 1) * total_err K nI s.
Proof.
  intros s H HO HU HK HR Hsvd HnI HK0 HnX Hsol Ht HP E Hit. set (md := p2_model env ps) in *.
  destruct (@prepare_ok env ps K nI s H HU HK HnI HK0 HnX) as (c & EP & HL). rewrite EP in Hsol. cbn [fst] in Hsol.
  set (s0 := p2_with_inner c (p2_with_cpf [pr_A (p2_ref s); pr_B (p2_ref s); pr_C (p2_ref s)] s)) in *.
  assert (Hg : good K nI s0). { constructor; auto. destruct H. constructor; auto. }
  destruct (@pf_fit_lemma _ _ md cf ds ds' None s0 EP E) as (n & Hn & En & Hst & He). destruct (He eq_refl) as [_ Hi].
  set (B := Z.to_nat (ds_max ds - ds_it ds)) in *.
  assert (G : forall j, (j <= B)%nat -> good K nI (state_after md s0 j) /\
    (forall k, (k < j)%nat -> snd (md_update md (state_after md s0 k)) = None /\
     total_err K nI (state_after md s0 (S k)) <= total_err K nI (state_after md s0 k))).
  { intros j Hj. destruct (@run_decreases env ps K nI s0 Hg HK HR Hsvd HnI HnX j) as (A1 & _ & _ & _ & A2); [intros; apply Hsol; lia|]. auto. }
  set (L := fun k => total_err K nI (state_after md s0 k)).
  assert (HLk : forall k, (k <= B)%nat -> loss_at md s0 k = Ok (Fin (L k))).
  { intros k Hk. destruct (G k Hk) as [Gk _]. unfold loss_at. cbn [md p2_model md_loss]. rewrite (p2_loss_ok ps (gd_ok Gk)), HR, Rplus_0_r. reflexivity. }
  assert (Hm : forall k, (k < B)%nat -> L (S k) <= L k) by (intros k Hk; destruct (G B (le_n B)) as [_ G2]; apply G2; exact Hk).
  assert (Hp : forall k, 0 <= L k) by (intros k; apply pf_sse_nonneg).
  destruct n as [|n]; [lia|]. replace (Z.to_nat (ds_it ds' - ds_it ds - 1)) with n by lia.
  rewrite En. fold (L (S n)). eapply Rle_trans; [apply Hm; lia|].
  change (total_err K nI s) with (L 0%nat) in HP |- *. rewrite HP in Hst.
  apply (@pf_gain _ _ md cf s0 L B HLk Hm Hp n (ds_rel ds)); auto. lia.
Qed.

Lemma p2_perfect_fit env ps cf disk draws X m arg ds ds' : cf_tol cf <= 1 ->
  p2_fit env ps cf disk draws X (Some m) arg ds = (ds', None) -> p2_loss ps (ds_num ds') = Ok 0 -> (m <= ds_it ds')%Z.
Proof.
  intros Ht E HL. unfold p2_fit, p2_init_fit in E.
  destruct (p2_set_target _ _) as [s|]; [|discriminate]. destruct (p2_init_components _ _ _ _ _ _) as [d [x|]]; [discriminate|].
  destruct (p2_loss ps _) as [l|] in E; [|discriminate].
  set (d1 := with_conv PInf (Fin l) (with_max m d)) in *.
  destruct (p2_prepare env ps (ds_num d1)) as [s0 [x|]] eqn:EP.
  { exfalso. unfold pf_fit_loop in E. cbn [p2_model md_prepare] in E. rewrite EP in E. discriminate. }
  change m with (ds_max d1). eapply p2_perfect; eauto.
Qed.

(** When a CP loop stops, in terms of the errors *)
Lemma cp_why_stopped env cs K cf ds ds' : svd_works_on K K (env_svd env) -> cs_rank cs = K -> cp_coherent K (ds_num ds) -> unit_w K (ds_num ds) ->
  free_fit cs (ds_num ds) -> energy (cp_X (ds_num ds)) <> 0 -> 0 < cf_tol cf < 1 ->
  let L k := sse (cp_X (ds_num ds)) (kt_fms (cp_dec (state_after (cp_model env cs) (ds_num ds) k))) unit_weights K in
  ds_prev ds = Fin (L 0%nat) -> ds_rel ds = PInf ->
  cp_fit_loop (cp_model env cs) cf ds = (ds', None) ->
  exists n, ds_it ds' = (ds_it ds + Z.of_nat n)%Z /\ ds_num ds' = state_after (cp_model env cs) (ds_num ds) n /\
    (forall k, (k < n)%nat -> cf_rel_tol cf * energy (cp_X (ds_num ds)) <= L k) /\
    (forall k, (S k < n)%nat -> cf_tol cf * L k <= L k - L (S k)) /\
    (n = Z.to_nat (ds_max ds - ds_it ds) \/ L n < cf_rel_tol cf * energy (cp_X (ds_num ds)) \/
     exists k, n = S k /\ L k - L n < cf_tol cf * L k /\ L k - L n < cf_tol cf / (1 - cf_tol cf) * L n).
Proof.
  intros HS HK HC HU HF HE Ht L HP Hr E. set (md := cp_model env cs) in *. set (X := cp_X (ds_num ds)) in *.
  pose proof (energy_nonneg X) as HE0.
  assert (HL : forall k, loss_at md (ds_num ds) k = Ok (Fin (L k))) by (intros k; now apply loss_is_sse).
  assert (Hm : forall k, L (S k) <= L k) by (intros k; apply sse_antitone; auto).
  assert (Hp : forall k, 0 <= L k) by (intros k; apply sse_nonneg).
  assert (HN : forall k, md_norm2 md (state_after md (ds_num ds) k) = energy X).
  { intros k. destruct (@after_coherent env cs K (ds_num ds) k HC) as [H1 H2]. fold md in H1, H2.
    change (cp_norm (state_after md (ds_num ds) k) ^ 2 = energy X).
    rewrite (co_norm H1), (sp_X H2). apply norm_energy. apply (co_data HC). }
  destruct (cp_fit_lemma E) as (n & Hn & En & Hs & He). destruct (He eq_refl) as [Hend Hi]. rewrite HP in Hs, Hend.
  exists n. split; [exact Hi|]. split; [exact En|]. split; [|split].
  - intros k Hk. apply (@cp_gain _ _ md cf (ds_num ds) L k (fun k _ => HL k) (fun k _ => Hm k) Hp _ k (ds_rel ds) (le_n k) HN); auto; [lra|].
    intros j Hj. apply Hs. lia.
  - intros k Hk. assert (L (S k) <= (1 - cf_tol cf) * L k); [|lra].
    apply (@step_gain _ _ md cf (ds_num ds) L (S k) (fun k _ => HL k) (fun k _ => Hm k) Hp k (ds_rel ds)); [lia|lra|].
    specialize (Hs (S k) Hk). unfold cp_stops in Hs. rewrite HL in Hs. cbn [bind] in Hs.
    destruct (rel_at md _ (ds_rel ds) (ds_num ds) (S k)) as [r|]; [|discriminate]. cbn [bind] in *. injection Hs as Hs.
    apply Bool.orb_false_elim in Hs as [-> _]. reflexivity.
  - destruct Hend as [Hend|Hend]; [now left|right]. unfold cp_stops in Hend. rewrite HL, HN in Hend. cbn [bind] in Hend.
    destruct n as [|k].
    + left. cbn [rel_at bind] in Hend. rewrite Hr in Hend. cbn [xabs xltb orb] in Hend. injection Hend as Hend.
      cbn [xdiv] in Hend. unfold xdivR in Hend. destruct (Req_EM_T (energy X) 0); [lra|]. cbn [xltb] in Hend.
      destruct (Rlt_dec _ _) as [H1|]; [|discriminate]. apply (Rmult_lt_compat_r (energy X)) in H1; [|lra].
      unfold Rdiv in H1. rewrite Rmult_assoc, Rinv_l in H1 by lra. lra.
    + rewrite (@rel_value _ _ md (ds_num ds) L (S k) (fun k _ => HL k) (fun k _ => Hm k) Hp k (ds_rel ds) (Nat.lt_succ_diag_r k)) in Hend.
      cbn [bind] in Hend. injection Hend as Hend. apply Bool.orb_true_iff in Hend as [Hend|Hend].
      * right. exists k. split; [reflexivity|]. destruct (Req_EM_T (L k) 0) as [|Hk]; [discriminate|].
        cbn [xabs xltb] in Hend. pose proof (Hp k). pose proof (Hm k).
        assert (Hq : 0 <= (L k - L (S k)) / L k). { apply Rmult_le_pos; [lra|]. left. apply Rinv_0_lt_compat. lra. }
        rewrite (Rabs_pos_eq _ Hq) in Hend. destruct (Rlt_dec _ _) as [H1|]; [|discriminate].
        apply (Rmult_lt_compat_r (L k)) in H1; [|lra]. unfold Rdiv in H1. rewrite Rmult_assoc, Rinv_l in H1 by lra.
        split; [lra|]. apply (Rmult_lt_reg_r (1 - cf_tol cf)); [lra|]. unfold Rdiv.
        replace (cf_tol cf * / (1 - cf_tol cf) * L (S k) * (1 - cf_tol cf)) with (cf_tol cf * L (S k)) by (field; lra). lra.
      * left. cbn [xdiv] in Hend. unfold xdivR in Hend. destruct (Req_EM_T (energy X) 0); [lra|]. cbn [xltb] in Hend.
        destruct (Rlt_dec _ _) as [H1|]; [|discriminate]. apply (Rmult_lt_compat_r (energy X)) in H1; [|lra].
        unfold Rdiv in H1. rewrite Rmult_assoc, Rinv_l in H1 by lra. lra.
Qed.
