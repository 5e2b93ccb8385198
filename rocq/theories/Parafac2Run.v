(** Whole runs of Parafac2_ALS: preparing the inner decomposer, monotonicity, what is written where. *)
From Verif Require Export Parafac2Fit FitFacts.
Set Implicit Arguments.
Unset Strict Implicit.
Local Open Scope R_scope.

Section Run.
Variables (env : p2_env) (ps : p2_settings).
Let ics := inner_settings ps.
Let cenv := pe_cp env.
Let md := p2_model env ps.

(** *** Preparing the inner decomposer *)
Lemma all_false_flags l : all_false (Some l) 3 -> length l = 3%nat -> flags_false (Some l).
Proof.
  intros [H _] Hl. exists l. split; auto. intros m Hm. rewrite (nth_error_nth' l false) by lia. f_equal.
  rewrite Forall_forall in H. apply H. apply nth_In. lia.
Qed.
Definition unconstrained : Prop :=
  ps_nn ps = [false; false; false] /\ (ps_orth ps = None \/ ps_orth ps = Some [false; false; false]).

Lemma prepare_ok K nI s : p2_ok K nI s -> unconstrained -> ps_rank ps = K ->
  (0 < nI)%nat -> (0 < K)%nat -> (0 < length (p2_X s))%nat ->
  exists c, p2_prepare env ps s = (p2_with_inner c (p2_with_cpf [pr_A (p2_ref s); pr_B (p2_ref s); pr_C (p2_ref s)] s), None) /\
    linked K (p2_with_inner c (p2_with_cpf [pr_A (p2_ref s); pr_B (p2_ref s); pr_C (p2_ref s)] s)).
Proof.
  intros H [Hnn Hor] HK HnI HK0 HnX.
  destruct (rows3 (ok_A H) (ok_B H) (ok_C H)) as [HM Hrows].
  destruct (projected_ok env H HK) as (PX & EPX & HPX & HPs & HPe).
  unfold p2_prepare. rewrite (kt_init_mats_none HM) by discriminate. cbn [bind]. rewrite EPX. cbn [bind].
  set (k := {| kt_rank := K; kt_fms := [p2_A s; p2_B s; p2_C s]; kt_w := np_ones [K] |}).
  assert (HFac : factors_ok K PX (kt_fms k)) by (split; [exact HM|rewrite HPs; exact Hrows]).
  assert (HData : data_ok PX) by (split; auto; rewrite HPs; split; [cbn; lia|repeat constructor; lia]).
  set (ds := inner_start ps). set (d1 := with_num (cp_with_dec k (ds_num (targeted PX ds))) (targeted PX ds)).
  assert (E1 : cp_init_components cenv ics (fun _ => None) [] (DecArg k) (targeted PX ds) = (d1, None)).
  { apply init_precomputed; [reflexivity|]. cbn [ics inner_settings cs_rank]. rewrite HK. apply (factors_fit HFac). }
  assert (Hw : is_vec K (kt_w k)) by apply is_vec_ones.
  destruct (reset_weights_ok Hw) as [HW1 HW2].
  destruct (@init_fit_prepared cenv ics (fun _ => None) [] PX None (DecArg k) ds d1 E1) as (l & El).
  { cbn. destruct Hor as [-> | ->]; cbn; auto. }
  { eexists. apply (@cp_SSE_ok cenv K). constructor; cbn; auto. discriminate. }
  change (cp_init_fit (pe_cp env) (inner_settings ps)) with (cp_init_fit cenv ics). rewrite El.
  set (c := ds_num (prepared None d1 l)).
  assert (Ho : cp_orth c = Some [false; false; false]).
  { unfold c. cbn. destruct Hor as [-> | ->]; reflexivity. }
  rewrite Ho. cbn [nth rebind]. exists c. split.
  - reflexivity.
  - constructor.
    + reflexivity.
    + exact HW1.
    + exact HW2.
    + change (flags_false (Some (ps_nn ps))). rewrite Hnn. apply all_false_flags; [|reflexivity]. cbn. repeat constructor.
    + change (flags_false (cp_orth c)). rewrite Ho. apply all_false_flags; [|reflexivity]. cbn. repeat constructor.
Qed.

(** *** Monotone runs *)
Record good (K nI : nat) (s : p2_state) : Prop :=
  { gd_ok : p2_ok K nI s; gd_linked : linked K s; gd_orth : orth_projections K (p2_X s) (p2_Ps s) }.
Definition total_err (K nI : nat) (s : p2_state) : R := pf_sse K nI (p2_A s) (p2_B s) (p2_C s) (p2_X s) (p2_Ps s).

Lemma run_decreases K nI s : good K nI s -> ps_rank ps = K -> ps_ridge ps = None -> svd_works_on K K (env_svd cenv) ->
  (0 < nI)%nat -> (0 < length (p2_X s))%nat ->
  forall n, (forall k, (k < n)%nat -> solvable env K nI (state_after md s k)) ->
  good K nI (state_after md s n) /\ p2_X (state_after md s n) = p2_X s /\
  p2_norm (state_after md s n) = p2_norm s /\ p2_ref (state_after md s n) = p2_ref s /\
  (forall k, (k < n)%nat -> snd (md_update md (state_after md s k)) = None /\
     total_err K nI (state_after md s (S k)) <= total_err K nI (state_after md s k)).
Proof.
  intros H HK HR Hsvd HnI HnX. induction n as [|n IH]; intros Hsol.
  { cbn [state_after]. repeat split; auto; try apply H; lia. }
  destruct IH as (Hg & EX & EN & ER & Hle); [intros k Hk; apply Hsol; lia|].
  destruct Hg as [G1 G2 G3].
  destruct (@iteration_ok env ps K nI (state_after md s n) G1 G2) as (s' & E & H1 & H2 & H3 & H4 & H5 & H6 & H7); auto.
  { now rewrite EX. }
  assert (ES : state_after md s (S n) = s') by (cbn [state_after md p2_model md_update]; now rewrite E).
  rewrite ES. split; [constructor; auto|]. split; [congruence|]. split; [congruence|]. split; [congruence|].
  intros k Hk. destruct (Nat.eq_dec k n) as [->|Hne].
  - rewrite ES. cbn [md p2_model md_update]. rewrite E. split; [reflexivity|exact H7].
  - apply Hle. lia.
Qed.

Lemma err_antitone K nI s n : (forall k, (k < n)%nat -> total_err K nI (state_after md s (S k)) <= total_err K nI (state_after md s k)) ->
  forall j k, (j <= k <= n)%nat -> total_err K nI (state_after md s k) <= total_err K nI (state_after md s j).
Proof.
  intros H j k [Hjk Hk]. induction Hjk as [|k Hjk IH]; [lra|]. eapply Rle_trans; [apply H; lia|]. apply IH. lia.
Qed.

Lemma fit_decreases K nI cf ds ds' e : let s := ds_num ds in
  p2_ok K nI s -> orth_projections K (p2_X s) (p2_Ps s) -> unconstrained -> ps_rank ps = K -> ps_ridge ps = None ->
  svd_works_on K K (env_svd cenv) -> (0 < nI)%nat -> (0 < K)%nat -> (0 < length (p2_X s))%nat ->
  (forall k, (k < Z.to_nat (ds_max ds - ds_it ds))%nat -> solvable env K nI (state_after md (fst (p2_prepare env ps s)) k)) ->
  pf_fit_loop md cf ds = (ds', e) ->
  p2_ok K nI (ds_num ds') /\ orth_projections K (p2_X s) (p2_Ps (ds_num ds')) /\ p2_X (ds_num ds') = p2_X s /\
  total_err K nI (ds_num ds') <= total_err K nI s.
Proof.
  intros s H HO HU HK HR Hsvd HnI HK0 HnX Hsol E.
  destruct (prepare_ok H HU HK HnI HK0 HnX) as (c & EP & HL). rewrite EP in Hsol. cbn [fst] in Hsol.
  set (s0 := p2_with_inner c (p2_with_cpf [pr_A (p2_ref s); pr_B (p2_ref s); pr_C (p2_ref s)] s)) in *.
  assert (Hg : good K nI s0).
  { constructor; auto. destruct H. constructor; auto. }
  destruct (@pf_fit_lemma _ _ md cf ds ds' e s0 EP E) as (n & Hn & En & _).
  destruct (@run_decreases K nI s0 Hg HK HR Hsvd HnI HnX n) as ([G1 _ G3] & EX & _ & _ & Hle); [intros; apply Hsol; lia|].
  rewrite En. split; auto. split; [rewrite EX in G3; exact G3|]. split; [exact EX|].
  change (total_err K nI s) with (total_err K nI (state_after md s0 0)).
  apply (@err_antitone K nI s0 n); [intros k Hk; apply Hle; auto|]. lia.
Qed.

(** *** What is written where, whatever the outcome *)
Definition writes (s : p2_state) : list nat := (pr_P (p2_ref s) ++ p2_cpf s ++ [pr_B (p2_ref s)])%list.
Lemma writes_frame W s s' : frame W s s' -> writes s' = writes s.
Proof. intros H. unfold writes. now rewrite (fr_ref H), (fr_cpf H). Qed.

Lemma projection_frame s k s' e : p2_update_projection env s k = (s', e) -> frame (pr_P (p2_ref s)) s s'.
Proof.
  unfold p2_update_projection.
  destruct (do T <- p2_target s k ; _) as [[a P]|x] eqn:E; intros E1; injection E1 as <- <-; [|apply frame_refl].
  apply frame_write. destruct (p2_target s k); [|discriminate]. cbn [bind] in E.
  destruct (list_get (p2_X s) k); [|discriminate]. cbn [bind] in E.
  destruct (orthogonal_solve _ _ _); [|discriminate]. cbn [bind] in E.
  destruct (list_get (pr_P (p2_ref s)) k) as [b|] eqn:Eb; [|discriminate]. cbn [bind] in E.
  destruct (assign_full _ _); [|discriminate]. injection E as <- _.
  unfold list_get in Eb. destruct (nth_error _ _) as [x|] eqn:Ex; [|discriminate]. injection Eb as <-.
  now apply nth_error_In in Ex.
Qed.
Lemma projections_frame s s' e : p2_update_projections env s = (s', e) -> frame (pr_P (p2_ref s)) s s'.
Proof.
  apply run_all_frame. intros t a t' e' _ HF E. apply projection_frame in E. now rewrite (fr_ref HF) in E.
Qed.
Lemma inner_frame W s c : frame W s (p2_with_inner c s).
Proof. constructor; auto. Qed.
Lemma cp_update_frame s m s' e : p2_cp_update env ps s m = (s', e) -> frame (p2_cpf s) s s'.
Proof.
  unfold p2_cp_update. destruct (cp_update_factor _ _ _ _) as [c x]. cbn [p2_with_inner p2_cpf].
  destruct (nth_error (p2_cpf s) m) as [a|] eqn:Ea; [|intros E; injection E as <- <-; apply inner_frame].
  destruct (nth_error (kt_fms (cp_dec c)) m) as [U|]; intros E; injection E as <- <-; [|apply inner_frame].
  eapply frame_trans with (t := p2_with_inner c s); [apply inner_frame|].
  apply (@frame_write (p2_cpf s) (p2_with_inner c s)). now apply nth_error_In in Ea.
Qed.
Lemma cp_sweep_frame s s' e : p2_cp_sweep env ps s = (s', e) -> frame (p2_cpf s) s s'.
Proof.
  apply run_all_frame. intros t a t' e' _ HF E. apply cp_update_frame in E. now rewrite (fr_cpf HF) in E.
Qed.
Lemma cp_sweeps_frame (l : list nat) s s' e : run_all (fun s _ => p2_cp_sweep env ps s) l s = (s', e) -> frame (p2_cpf s) s s'.
Proof.
  apply run_all_frame. intros t a t' e' _ HF E. apply cp_sweep_frame in E. now rewrite (fr_cpf HF) in E.
Qed.

Lemma update_frame s s' e : p2_update env ps s = (s', e) -> frame (writes s) s s'.
Proof.
  unfold p2_update, and_then. destruct (p2_update_projections env s) as [s1 e1] eqn:E1.
  assert (F1 : frame (writes s) s s1).
  { eapply frame_incl; [|apply (projections_frame E1)]. apply incl_appl, incl_refl. }
  destruct e1 as [e1|]; [intros E; injection E as <- <-; exact F1|].
  unfold p2_retarget at 1. destruct (p2_projected_X env ps s1) as [PX|x]; [|intros E; injection E as <- <-; exact F1].
  set (s2 := p2_with_inner _ s1).
  assert (F2 : frame (writes s) s s2) by (eapply frame_trans; [exact F1|apply inner_frame]).
  destruct (run_all _ _ s2) as [s3 e3] eqn:E3.
  assert (F3 : frame (writes s) s s3).
  { eapply frame_trans; [exact F2|]. eapply frame_incl; [|apply (cp_sweeps_frame E3)].
    rewrite (fr_cpf F2). apply incl_appr, incl_appl, incl_refl. }
  destruct e3 as [e3|]; [intros E; injection E as <- <-; exact F3|].
  unfold p2_scale_B. destruct (broadcast_into _ _ _) as [B|x]; [|intros E; injection E as <- <-; exact F3].
  intros E. injection E as <- <-. unfold p2_unit_weights. eapply frame_trans; [|apply inner_frame].
  eapply frame_trans; [exact F3|]. apply frame_write. rewrite (fr_ref F3). apply in_or_app. right. apply in_or_app. right. now left.
Qed.

Lemma after_frame s k : frame (writes s) s (state_after md s k).
Proof.
  induction k as [|k IH]; [apply frame_refl|]. cbn [state_after md p2_model md_update].
  destruct (p2_update env ps (state_after md s k)) as [s' e] eqn:E. cbn [fst]. eapply frame_trans; [exact IH|].
  apply update_frame in E. now rewrite (writes_frame IH) in E.
Qed.

(** *** C56: shared projections *)
Lemma map_repeat' {A B} (f : A -> B) x n : map f (repeat x n) = repeat (f x) n.
Proof. induction n as [|n IH]; cbn; congruence. Qed.
Lemma nth_repeat' {A} (x d : A) n k : (k < n)%nat -> nth k (repeat x n) d = x.
Proof. revert k. induction n as [|n IH]; intros [|k] Hk; cbn; auto; try lia. apply IH. lia. Qed.

Lemma shared_projections s k n a : pr_P (p2_ref s) = repeat a n ->
  p2_Ps (state_after md s k) = repeat (hread (p2_heap (state_after md s k)) a) n.
Proof. intros E. unfold p2_Ps. rewrite (fr_ref (after_frame s k)), E. apply map_repeat'. Qed.

Lemma shared_frame K nI s s' a : p2_shaped K nI s -> pr_P (p2_ref s) = repeat a (length (p2_X s)) ->
  ~ In a [pr_A (p2_ref s); pr_B (p2_ref s); pr_C (p2_ref s)] -> frame [a] s s' ->
  (forall k, (k < length (p2_X s))%nat -> is_mat (width (p2_X s) k) K (nth k (p2_Ps s') m0)) ->
  p2_shaped K nI s' /\ p2_A s' = p2_A s /\ p2_B s' = p2_B s /\ p2_C s' = p2_C s.
Proof.
  intros H HP Ha HF HPs. cbn [In] in Ha.
  assert (EA : p2_A s' = p2_A s) by (unfold p2_A; rewrite (fr_ref HF); apply HF; cbn; intuition).
  assert (EB : p2_B s' = p2_B s) by (unfold p2_B; rewrite (fr_ref HF); apply HF; cbn; intuition).
  assert (EC : p2_C s' = p2_C s) by (unfold p2_C; rewrite (fr_ref HF); apply HF; cbn; intuition).
  split; auto. constructor; rewrite ?EA, ?EB, ?EC, ?(fr_ref HF), ?(fr_X HF), ?(fr_len HF); try apply H; auto.
Qed.

Lemma shared_update K nI w s a : p2_shaped K nI s -> (0 < length (p2_X s))%nat ->
  pr_P (p2_ref s) = repeat a (length (p2_X s)) -> ~ In a [pr_A (p2_ref s); pr_B (p2_ref s); pr_C (p2_ref s)] ->
  (forall k, (k < length (p2_X s))%nat -> width (p2_X s) k = w) -> solvable env K nI s ->
  exists s' P, p2_update_projections env s = (s', None) /\ p2_Ps s' = repeat P (length (p2_X s)) /\
    orth_cols w K (mget P) /\
    forall Q, orth_cols w K Q ->
      slice_err K nI (p2_A s) (p2_B s) (p2_C s) (p2_X s) (length (p2_X s) - 1) (mget P) <=
      slice_err K nI (p2_A s) (p2_B s) (p2_C s) (p2_X s) (length (p2_X s) - 1) Q.
Proof.
  intros H Hn HP Ha Hw HS.
  assert (Hra : (a < length (p2_heap s))%nat).
  { pose proof (sh_range H) as HR. rewrite Forall_forall in HR. apply HR. do 3 right. rewrite HP.
    destruct (length (p2_X s)); [lia|now left]. }
  assert (Hloop : forall n, (0 < n <= length (p2_X s))%nat ->
    exists s' P, run_all (p2_update_projection env) (seq 0 n) s = (s', None) /\ frame [a] s s' /\
      hread (p2_heap s') a = P /\ is_mat w K P /\ orth_cols w K (mget P) /\
      forall Q, orth_cols w K Q ->
        slice_err K nI (p2_A s) (p2_B s) (p2_C s) (p2_X s) (n - 1) (mget P) <=
        slice_err K nI (p2_A s) (p2_B s) (p2_C s) (p2_X s) (n - 1) Q).
  { induction n as [|n IH]; intros Hle; [lia|].
    assert (Hpre : exists s1, run_all (p2_update_projection env) (seq 0 n) s = (s1, None) /\ frame [a] s s1 /\
              is_mat w K (hread (p2_heap s1) a)).
    { destruct n as [|n].
      - exists s. split; [reflexivity|]. split; [apply frame_refl|]. pose proof (@sh_P _ _ _ H 0%nat Hn) as HP0.
        rewrite Hw in HP0 by auto. unfold p2_Ps in HP0. rewrite HP, map_repeat' in HP0. now rewrite nth_repeat' in HP0.
      - destruct IH as (s1 & P1 & E1 & F1 & R1 & M1 & _); [lia|]. exists s1. split; auto. split; auto. now rewrite R1. }
    destruct Hpre as (s1 & E1 & F1 & M1).
    destruct (shared_frame H HP Ha F1) as (H1 & EA & EB & EC).
    { intros k Hk. rewrite Hw by auto. unfold p2_Ps. rewrite (fr_ref F1), HP, map_repeat'. now rewrite nth_repeat'. }
    destruct (HS n ltac:(lia)) as (HK & Hsvd & Hunt).
    destruct (@update_projection_ok env K nI s1 n H1) as (P & EP & HPm & HPo & HPopt);
      rewrite ?EA, ?EB, ?EC, ?(fr_X F1) in *; auto; [lia|].
    rewrite (fr_ref F1), HP, nth_repeat' in EP by lia. rewrite Hw in HPm, HPo, HPopt by lia.
    exists (p2_with_heap (hwrite (p2_heap s1) a P) s1), P. split.
    { rewrite seq_S, Nat.add_0_l. rewrite (run_all_snoc n E1). exact EP. }
    split. { apply (frame_trans F1). apply frame_write. now left. }
    split. { cbn [p2_with_heap p2_heap]. rewrite hread_write by (now rewrite (fr_len F1)). now rewrite Nat.eqb_refl. }
    split; auto. split; auto. intros Q HQ. replace (S n - 1)%nat with n by lia. now apply HPopt. }
  destruct (Hloop (length (p2_X s))) as (s' & P & E & F & R & M & O & Hopt); [lia|].
  exists s', P. split; [exact E|]. split; auto. unfold p2_Ps. rewrite (fr_ref F), HP, map_repeat'. now rewrite R.
Qed.

Lemma init_cp_shares draws s s' : p2_init_cp env ps draws s = Ok s' ->
  p2_X s' = p2_X s /\ exists a, pr_P (p2_ref s') = repeat a (length (p2_X s)) /\
    NoDup [pr_A (p2_ref s'); pr_B (p2_ref s'); pr_C (p2_ref s'); a] /\
    Forall (fun b => (length (p2_heap s) <= b < length (p2_heap s'))%nat) [pr_A (p2_ref s'); pr_B (p2_ref s'); pr_C (p2_ref s'); a].
Proof.
  unfold p2_init_cp. destruct (stack (p2_X s)) as [X|]; [|discriminate]. cbn [bind].
  destruct (cp_fit _ _ _ _ _ _ _ _ _) as [ds [e|]]; [discriminate|].
  destruct (kt_fms (cp_dec (ds_num ds))) as [|C [|A [|B [|]]]]; try discriminate.
  destruct (pe_qr env B) as [[Q R0]|]; [|discriminate]. cbn [bind].
  destruct (pf_init _ _ _ _ _) as [d|]; [|discriminate]. cbn [bind]. intros E. injection E as <-.
  cbn [p2_with_ref p2_with_heap p2_X p2_ref pr_A pr_B pr_C pr_P p2_heap]. split; [reflexivity|].
  eexists. split; [reflexivity|]. split.
  - repeat constructor; cbn [In]; lia.
  - rewrite app_length. cbn [length]. repeat constructor; lia.
Qed.

(** *** C57: constraints and sharing *)
Lemma orthonormalise_flags c c' : cp_orthonormalise cenv c = Ok c' -> cp_orth c' = cp_orth c /\ cp_nn c' = cp_nn c.
Proof.
  unfold cp_orthonormalise. destruct (not_none (cp_orth c)); [|discriminate]. cbn [bind].
  destruct (foldM _ _ _); [|discriminate]. cbn [bind]. intros E. injection E as <-. auto.
Qed.
Lemma init_fit_flags disk draws X max_its arg ds ds' : cp_init_fit cenv ics disk draws X max_its arg ds = (ds', None) ->
  forall l, cp_orth (ds_num ds) = Some l -> cp_orth (ds_num ds') = Some l.
Proof.
  intros E l Hl. unfold cp_init_fit in E. destruct (cp_init_components _ _ _ _ _ _) as [d1 [e|]] eqn:E1; [discriminate|].
  destruct (init_keeps_last E1) as (_ & _ & _ & _ & _ & HOr). cbn in HOr.
  assert (En : ds_num (match max_its with Some m => with_max m d1 | None => d1 end) = ds_num d1)
    by (destruct max_its; reflexivity).
  rewrite En in E. destruct (cp_orthonormalise _ _) as [c|] eqn:Ec; [|discriminate].
  destruct (orthonormalise_flags Ec) as [Ho _]. destruct (cp_SSE _ _); [|discriminate]. injection E as <-.
  cbn [ds_num with_conv with_num cp_with_cache cp_orth]. rewrite Ho. cbn. now rewrite HOr, Hl.
Qed.
Lemma init_fit_flags_none disk draws X max_its k ds ds' :
  cp_init_fit cenv ics disk draws X max_its (DecArg k) ds = (ds', None) ->
  cp_orth (ds_num ds) = None -> cp_orth (ds_num ds') = Some (repeat false (length (kt_fms k))).
Proof.
  intros E Hl. unfold cp_init_fit in E. destruct (cp_init_components _ _ _ _ _ _) as [d1 [e|]] eqn:E1; [discriminate|].
  destruct (init_keeps_last E1) as (_ & _ & _ & _ & _ & HOr). cbn in HOr.
  assert (Ek : cp_dec (ds_num d1) = k).
  { unfold cp_init_components in E1. cbn -[cp_check] in E1.
    match type of E1 with context [cp_check ?a ?b ?c] => destruct (cp_check a b c) end; [|discriminate].
    injection E1 as <-. reflexivity. }
  assert (En : ds_num (match max_its with Some m => with_max m d1 | None => d1 end) = ds_num d1)
    by (destruct max_its; reflexivity).
  rewrite En in E. destruct (cp_orthonormalise _ _) as [c|] eqn:Ec; [|discriminate].
  destruct (orthonormalise_flags Ec) as [Ho _]. destruct (cp_SSE _ _); [|discriminate]. injection E as <-.
  cbn [ds_num with_conv with_num cp_with_cache cp_orth]. rewrite Ho. cbn. now rewrite HOr, Hl, Ek.
Qed.

(** The orthonormality flags that the inner decomposer uses *)
Definition orth_flags : list bool := match ps_orth ps with Some l => l | None => [] end.

Lemma rebind_heap l : forall h h' l', rebind h l = (h', l') -> exists t, h' = (h ++ t)%list.
Proof.
  induction l as [|[[a o] U] l IH]; intros h h' l' E; cbn [rebind] in E.
  { injection E as <- <-. exists []. now rewrite app_nil_r. }
  destruct o.
  - destruct (rebind (h ++ [U]) l) as [h1 l1] eqn:E1. injection E as <- <-. destruct (IH _ _ _ E1) as [t ->].
    exists ([U] ++ t)%list. now rewrite app_assoc.
  - destruct (rebind h l) as [h1 l1] eqn:E1. injection E as <- <-. eauto.
Qed.

Lemma rebind_spec l : forall h h' l', rebind h l = (h', l') ->
  Forall2 (fun (x : nat * bool * nd) b => if snd (fst x) then (length h <= b < length h')%nat else b = fst (fst x)) l l'.
Proof.
  induction l as [|[[a o] U] l IH]; intros h h' l' E; cbn [rebind] in E.
  { injection E as <- <-. constructor. }
  destruct o.
  - destruct (rebind (h ++ [U]) l) as [h1 l1] eqn:E1. injection E as <- <-. destruct (rebind_heap E1) as [t Et].
    constructor.
    + cbn. rewrite Et, !app_length. cbn. lia.
    + pose proof (IH _ _ _ E1) as HF. clear -HF. induction HF as [|[[a o] V] b l l' Hx HF IHF]; constructor; auto.
      cbn in *. destruct o; auto. rewrite app_length in Hx. lia.
  - destruct (rebind h l) as [h1 l1] eqn:E1. injection E as <- <-. constructor; [reflexivity|]. eauto.
Qed.

(** After preparing, the inner decomposer's factor in a mode is the decomposition's own array unless the mode is
    constrained to be orthonormal; then it is a new one. *)
Definition mode_link (h : heap) (s' : p2_state) (flag : bool) (b a : nat) : Prop :=
  if flag then (length h <= b < length (p2_heap s'))%nat else b = a.
Lemma prepare_links s s' : p2_prepare env ps s = (s', None) ->
  p2_ref s' = p2_ref s /\ p2_X s' = p2_X s /\ (exists t, p2_heap s' = p2_heap s ++ t)%list /\
  exists a b c, p2_cpf s' = [a; b; c] /\ mode_link (p2_heap s) s' (nth 0 orth_flags false) a (pr_A (p2_ref s)) /\
    mode_link (p2_heap s) s' (nth 1 orth_flags false) b (pr_B (p2_ref s)) /\
    mode_link (p2_heap s) s' (nth 2 orth_flags false) c (pr_C (p2_ref s)).
Proof.
  unfold p2_prepare. destruct (kt_init _ None) as [k|] eqn:Ek; [|discriminate]. cbn [bind].
  destruct (p2_projected_X env ps s) as [PX|]; [|discriminate]. cbn [bind].
  change (cp_init_fit (pe_cp env) (inner_settings ps)) with (cp_init_fit cenv ics).
  destruct (cp_init_fit cenv ics _ _ _ _ _ _) as [ds [e|]] eqn:E; [discriminate|].
  assert (Hfl : forall i, nth i (match cp_orth (ds_num ds) with Some l => l | None => [] end) false = nth i orth_flags false).
  { intros i. unfold orth_flags. destruct (ps_orth ps) as [l|] eqn:El.
    - now rewrite (@init_fit_flags _ _ _ _ _ _ _ E l El).
    - rewrite (init_fit_flags_none E El). destruct (Nat.lt_ge_cases i (length (kt_fms k))) as [Hi|Hi].
      + rewrite nth_repeat' by auto. now destruct i.
      + rewrite (@nth_overflow bool (repeat false _)) by (now rewrite repeat_length). now destruct i. }
  rewrite !Hfl. destruct (rebind _ _) as [h cpf] eqn:Er. intros E1. injection E1 as <-.
  split; [reflexivity|]. split; [reflexivity|]. split; [apply (rebind_heap Er)|].
  apply rebind_spec in Er. inversion Er as [|? a ? l1 Ha H1]; subst. inversion H1 as [|? b ? l2 Hb H2]; subst.
  inversion H2 as [|? c ? l3 Hc H3]; subst. inversion H3; subst. exists a, b, c. auto.
Qed.

(** The decomposition's arrays are different objects. *)
Definition addresses (s : p2_state) : list nat := pr_A (p2_ref s) :: pr_B (p2_ref s) :: pr_C (p2_ref s) :: pr_P (p2_ref s).
Definition separate (s : p2_state) : Prop :=
  NoDup (addresses s) /\ Forall (fun a => (a < length (p2_heap s))%nat) (addresses s).

Lemma link_not h s' flag b a x : mode_link h s' flag b a -> x <> a -> (x < length h)%nat -> b <> x.
Proof. unfold mode_link. destruct flag; intros H H1 H2; lia. Qed.

Lemma orth_A_frozen s s0 k : separate s -> nth 0 orth_flags false = true -> p2_prepare env ps s = (s0, None) ->
  p2_A (state_after md s0 k) = p2_A s.
Proof.
  intros [HN HR] Hfl E. destruct (prepare_links E) as (Er & _ & [t Et] & a & b & c & Ec & Ha & Hb & Hc).
  rewrite Hfl in Ha. unfold mode_link in Ha at 1. unfold addresses in *.
  inversion HN as [|? ? N1 HN1]; subst. inversion HR as [|? ? R1 HR1]; subst. cbn [In] in N1.
  unfold p2_A. rewrite (fr_ref (after_frame s0 k)), Er, (fr_read (after_frame s0 k)).
  - rewrite Et. now apply hread_app.
  - unfold writes. rewrite Er, Ec. rewrite !in_app_iff. cbn [In].
    pose proof (@link_not _ _ _ _ _ (pr_A (p2_ref s)) Hb) as L1. pose proof (@link_not _ _ _ _ _ (pr_A (p2_ref s)) Hc) as L2.
    intuition congruence || (intuition; lia).
Qed.
Lemma orth_C_frozen s s0 k : separate s -> nth 2 orth_flags false = true -> p2_prepare env ps s = (s0, None) ->
  p2_C (state_after md s0 k) = p2_C s.
Proof.
  intros [HN HR] Hfl E. destruct (prepare_links E) as (Er & _ & [t Et] & a & b & c & Ec & Ha & Hb & Hc).
  rewrite Hfl in Hc. unfold mode_link in Hc at 1. unfold addresses in *.
  inversion HN as [|? ? N1 HN1]; subst. inversion HR as [|? ? R1 HR1]; subst.
  inversion HN1 as [|? ? N2 HN2]; subst. inversion HR1 as [|? ? R2 HR2]; subst.
  inversion HN2 as [|? ? N3 HN3]; subst. inversion HR2 as [|? ? R3 HR3]; subst. cbn [In] in *.
  unfold p2_C. rewrite (fr_ref (after_frame s0 k)), Er, (fr_read (after_frame s0 k)).
  - rewrite Et. now apply hread_app.
  - unfold writes. rewrite Er, Ec. rewrite !in_app_iff. cbn [In].
    pose proof (@link_not _ _ _ _ _ (pr_C (p2_ref s)) Ha) as L1. pose proof (@link_not _ _ _ _ _ (pr_C (p2_ref s)) Hb) as L2.
    intuition congruence || (intuition; lia).
Qed.

Lemma free_modes_linked s s0 k : orth_flags = [] \/ orth_flags = [false; false; false] -> p2_prepare env ps s = (s0, None) ->
  kt_fms (cp_dec (p2_view (state_after md s0 k))) =
  [p2_A (state_after md s0 k); p2_B (state_after md s0 k); p2_C (state_after md s0 k)].
Proof.
  intros Hfl E. destruct (prepare_links E) as (Er & _ & _ & a & b & c & Ec & Ha & Hb & Hc).
  assert (Hz : nth 0 orth_flags false = false /\ nth 1 orth_flags false = false /\ nth 2 orth_flags false = false)
    by (destruct Hfl as [-> | ->]; auto).
  destruct Hz as (Z1 & Z2 & Z3). rewrite Z1 in Ha. rewrite Z2 in Hb. rewrite Z3 in Hc. cbn in Ha, Hb, Hc. subst a b c.
  cbn. rewrite (fr_cpf (after_frame s0 k)), Ec. unfold p2_A, p2_B, p2_C. now rewrite (fr_ref (after_frame s0 k)), Er.
Qed.
End Run.
