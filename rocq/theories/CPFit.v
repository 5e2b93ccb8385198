(** Whole fits: the state at the end of a run of the loop, and what follows for CP_ALS. *)
From Verif Require Export CPExamples.
Set Implicit Arguments.
Unset Strict Implicit.
Local Open Scope R_scope.

(** The state reached after k updates, all but possibly the last successful *)
Definition reached {St D} (md : model St D) (s s' : St) (k : nat) : Prop :=
  s' = state_after md s k /\ forall j, (S j < k)%nat -> snd (md_update md (state_after md s j)) = None.

Lemma state_after_shift {St D} (md : model St D) s k : state_after md (fst (md_update md s)) k = state_after md s (S k).
Proof. induction k as [|k IH]; [reflexivity|]. cbn [state_after]. now rewrite IH. Qed.

Lemma loop_state {St D} (md : model St D) cf n : forall it i ds ds' it' e,
  cp_loop md cf n it i ds = (ds', it', e) ->
  exists k, (k <= n)%nat /\ reached md (ds_num ds) (ds_num ds') k /\
    (e = None -> forall j, (j < k)%nat -> snd (md_update md (state_after md (ds_num ds) j)) = None).
Proof.
  induction n as [|n IH]; intros it i ds ds' it' e E; cbn [cp_loop] in E.
  { injection E as <- <- <-. exists 0%nat. split; [lia|]. split; [split; [reflexivity|lia]|lia]. }
  destruct (cp_stop md cf ds) as [[|]|e1];
    try (injection E as <- <- <-; exists 0%nat; (split; [lia|]); (split; [split; [reflexivity|lia]|lia]); fail).
  destruct (md_update md (ds_num ds)) as [s1 e1] eqn:E1.
  assert (H1 : state_after md (ds_num ds) 1 = s1) by (cbn [state_after]; now rewrite E1).
  destruct e1 as [e1|].
  { injection E as <- <- <-. exists 1%nat. split; [lia|]. split; [split; [now rewrite H1|lia]|discriminate]. }
  assert (Hok : forall j, (j < 1)%nat -> snd (md_update md (state_after md (ds_num ds) j)) = None).
  { intros j Hj. replace j with 0%nat by lia. cbn [state_after]. now rewrite E1. }
  unfold update_convergence in E. cbn [ds_num with_num] in E.
  destruct (md_loss md s1) as [l|e1]; cbn [bind] in E.
  2:{ injection E as <- <- <-. exists 1%nat. split; [lia|]. split; [split; [now rewrite H1|lia]|discriminate]. }
  match type of E with context [after_iteration ?md ?cf ?d] =>
    destruct (after_iteration md cf d) as [ds2 e2] eqn:E2 end.
  pose proof (log_keeps_num E2) as Hn. cbn [ds_num with_conv with_num] in Hn.
  destruct e2 as [e2|].
  { injection E as <- <- <-. exists 1%nat. split; [lia|]. split; [split; [now rewrite H1|lia]|discriminate]. }
  destruct (IH _ _ _ _ _ _ E) as (k & Hk & [HR1 HR2] & HN).
  assert (HS : forall j, state_after md (ds_num ds2) j = state_after md (ds_num ds) (S j)).
  { intros j. rewrite Hn, <- H1. cbn [state_after]. apply state_after_shift. }
  exists (S k). split; [lia|]. split.
  - split; [now rewrite HR1, HS|]. intros [|j] Hj; [apply Hok; lia|]. rewrite <- HS. apply HR2. lia.
  - intros He [|j] Hj; [apply Hok; lia|]. rewrite <- HS. apply HN; auto. lia.
Qed.

Lemma fit_loop_state {St D} (md : model St D) cf ds ds' e : cp_fit_loop md cf ds = (ds', e) ->
  exists k, (Z.of_nat k <= Z.max 0 (ds_max ds - ds_it ds))%Z /\ reached md (ds_num ds) (ds_num ds') k /\
    (e = None -> forall j, (j < k)%nat -> snd (md_update md (state_after md (ds_num ds) j)) = None).
Proof.
  unfold cp_fit_loop. destruct (cp_loop _ _ _ _ _ _) as [[ds1 it] e1] eqn:E1. intros E.
  destruct (loop_state E1) as (k & Hk & HR & HN). exists k. split; [lia|].
  assert (Hsame : ds_num ds' = ds_num ds1 /\ (e = None -> e1 = None)).
  { destruct it as [it|], e1 as [e1|]; try (injection E as <- <-; split; [reflexivity|auto; congruence]; fail).
    destruct (cf_freq cf =? 0)%Z; [injection E as <- <-; auto|].
    destruct (_ && _); [|injection E as <- <-; auto]. split; auto. now rewrite (store_keeps_num E). }
  destruct Hsame as [-> He]. split; auto.
Qed.

Section Fit.
Variables (env : cp_env) (cs : cp_settings) (K : nat).
Let md := cp_model env cs.

Lemma after_coherent s k : cp_coherent K s -> cp_coherent K (state_after md s k) /\ same_problem s (state_after md s k).
Proof.
  intros H. induction k as [|k [IH1 IH2]]; [split; [auto|apply same_problem_refl]|].
  cbn [state_after md cp_model md_update]. unfold cp_update_factors.
  destruct (cp_update_modes env cs _ _) as [s' e] eqn:E.
  destruct (modes_coherent IH1 (all_modes _) E) as [H1 H2]. cbn [fst]. split; auto.
  eapply same_problem_trans; eauto.
Qed.

Lemma fit_reported_true cf ds ds' e : cp_coherent K (ds_num ds) -> cp_fit_loop md cf ds = (ds', e) ->
  cp_coherent K (ds_num ds') /\ same_problem (ds_num ds) (ds_num ds').
Proof.
  intros H E. destruct (fit_loop_state E) as (k & _ & [-> _] & _). now apply after_coherent.
Qed.

Lemma free_never_raises s : svd_works_on K K (env_svd env) -> cs_rank cs = K -> cp_coherent K s -> free_fit cs s ->
  forall k, snd (md_update md (state_after md s k)) = None.
Proof. intros HN HK H HF k. now destruct (iterations_decrease HN HK H HF k) as (_ & _ & E & _). Qed.

Lemma sse_antitone s : svd_works_on K K (env_svd env) -> cs_rank cs = K -> cp_coherent K s -> free_fit cs s ->
  forall j k, (j <= k)%nat ->
  sse (cp_X s) (kt_fms (cp_dec (state_after md s k))) unit_weights K <=
  sse (cp_X s) (kt_fms (cp_dec (state_after md s j))) unit_weights K.
Proof.
  intros HN HK H HF j k Hjk. induction Hjk as [|k Hjk IH]; [lra|].
  destruct (iterations_decrease HN HK H HF k) as (_ & _ & _ & _ & Hle). eapply Rle_trans; eauto.
Qed.

Lemma fit_sse_le cf ds ds' e : svd_works_on K K (env_svd env) -> cs_rank cs = K ->
  cp_coherent K (ds_num ds) -> free_fit cs (ds_num ds) ->
  cp_fit_loop md cf ds = (ds', e) ->
  sse (cp_X (ds_num ds)) (kt_fms (cp_dec (ds_num ds'))) unit_weights K <=
  sse (cp_X (ds_num ds)) (kt_fms (cp_dec (ds_num ds))) unit_weights K.
Proof.
  intros HN HK H HF E. destruct (fit_loop_state E) as (k & _ & [-> _] & _).
  apply (sse_antitone HN HK H HF (j := 0%nat)). lia.
Qed.

Lemma loss_is_sse s k : cp_coherent K s -> unit_w K s ->
  loss_at md s k = Ok (Fin (sse (cp_X s) (kt_fms (cp_dec (state_after md s k))) unit_weights K)).
Proof.
  intros H Hw. destruct (after_coherent k H) as [H1 H2]. unfold loss_at. cbn [md cp_model md_loss].
  rewrite (cp_SSE_ok env H1), (unit_sse (unit_w_same H2 Hw)). cbn [bind]. now rewrite (sp_X H2).
Qed.

Lemma sse_nonneg X Us w : 0 <= sse X Us w K.
Proof. unfold sse. induction (indices (shape X)) as [|i l IH]; cbn [sumf]; [lra|].
  apply Rplus_le_le_0_compat; [apply pow2_ge_0|exact IH]. Qed.

Lemma rel_nonneg s : svd_works_on K K (env_svd env) -> cs_rank cs = K -> cp_coherent K s -> unit_w K s -> free_fit cs s ->
  forall k r0, let L j := sse (cp_X s) (kt_fms (cp_dec (state_after md s j))) unit_weights K in
  exists r, rel_at md (Fin (L 0%nat)) r0 s (S k) = Ok r /\
    ((L k = 0 /\ r = NaN) \/ (0 < L k /\ exists q, r = Fin q /\ 0 <= q <= 1)).
Proof.
  intros HN HK H Hw HF k r0 L.
  assert (EP : prev_at md (Fin (L 0%nat)) s k = Ok (Fin (L k))) by (destruct k; [reflexivity|now apply loss_is_sse]).
  unfold rel_at. rewrite EP. cbn [bind]. rewrite loss_is_sse by auto. cbn [bind]. fold (L (S k)).
  eexists. split; [reflexivity|].
  assert (Hle : L (S k) <= L k) by (apply sse_antitone; auto).
  assert (H0 : 0 <= L (S k)) by apply sse_nonneg.
  cbn [xsub xdiv]. destruct (Rle_lt_or_eq_dec 0 (L k)) as [Hlt|Heq]; [lra| |].
  - right. split; auto. exists ((L k - L (S k)) / L k). split.
    + unfold xdivR. destruct (Req_EM_T (L k) 0); [lra|reflexivity].
    + split.
      * apply Rmult_le_pos; [lra|]. left. now apply Rinv_0_lt_compat.
      * apply Rmult_le_reg_r with (L k); auto. unfold Rdiv. rewrite Rmult_assoc, Rinv_l by lra. lra.
  - left. split; auto. assert (E0 : L (S k) = 0) by lra. rewrite <- Heq, E0. unfold xdivR.
    destruct (Req_EM_T 0 0); [|lra]. destruct (Rlt_dec (0 - 0) 0); [lra|]. destruct (Rlt_dec 0 (0 - 0)); [lra|reflexivity].
Qed.

Lemma after_nonneg s m : cs_rank cs = K -> nnls_contract (env_nnls env) -> penalties_ok cs ->
  cp_coherent K s -> flag (cp_nn s) m true -> (m < length (shape (cp_X s)))%nat ->
  forall k, (forall j, (j < k)%nat -> snd (md_update md (state_after md s j)) = None) ->
  (0 < k)%nat \/ nonneg_factor K s m -> nonneg_factor K (state_after md s k) m.
Proof.
  intros HK HN HP H HF Hm k. induction k as [|k IH]; intros Hok Hor; [destruct Hor; [lia|auto]|].
  destruct (after_coherent k H) as [H1 H2].
  pose proof (Hok k ltac:(lia)) as Ek. cbn [state_after].
  cbn [md cp_model md_update] in Ek |- *. unfold cp_update_factors in *.
  destruct (cp_update_modes env cs _ (state_after md s k)) as [s' e] eqn:E. cbn [snd fst] in *. subst e.
  apply (@modes_keep_nonneg env cs K _ HK HN HP _ _ m H1 (all_modes _)) in E; auto.
  - now rewrite (sp_nn H2).
  - left. apply in_seq. unfold ndim. rewrite (sp_X H2). lia.
Qed.
End Fit.

(** *** C50: the caller's object.  [objs]: the Kruskal tensors the caller holds, by reference.
    cp.py:154 stores the reference itself, so what fit does to its decomposition (cp.py:341-346, 394) it
    does to the caller's object. *)
Definition cp_fit_ref (env : cp_env) (cs : cp_settings) (cf : config) (disk : string -> option file) (draws : list nd)
    (X : nd) (max_its : option Z) (a : nat) (objs : nat -> kruskal) (ds : dstate cp_state)
    : (nat -> kruskal) * dstate cp_state * option exn :=
  match cp_init_components env cs disk draws (DecArg (objs a)) (targeted X ds) with
  | (_, Some _) => let (ds', e) := cp_fit env cs cf disk draws X max_its (DecArg (objs a)) ds in (objs, ds', e)
  | (_, None) =>
    let (ds', e) := cp_fit env cs cf disk draws X max_its (DecArg (objs a)) ds in
    ((fun b => if Nat.eqb b a then cp_dec (ds_num ds') else objs b), ds', e)
  end.

Lemma fit_ref_weights env cs cf disk draws X max_its a objs ds K objs' ds' e :
  lower (cs_init cs) = "precomputed"%string -> cs_rank cs = K -> cp_last (ds_num ds) = None ->
  data_ok X -> factors_ok K X (kt_fms (objs a)) -> is_vec K (kt_w (objs a)) ->
  all_false (cp_orth (ds_num ds)) (length (shape X)) ->
  cp_fit_ref env cs cf disk draws X max_its a objs ds = (objs', ds', e) ->
  (forall r, (r < K)%nat -> vget (kt_w (objs' a)) r = 1) /\ (forall b, b <> a -> objs' b = objs b).
Proof.
  intros Hk HK HL HX HF Hw HO E. unfold cp_fit_ref in E.
  destruct (@init_precomputed env cs disk draws (targeted X ds) (objs a) Hk) as [Hacc _].
  rewrite Hacc in E by (rewrite HK; now apply factors_fit).
  destruct (precomputed_weights env disk draws max_its Hk HK HL HX HF Hw HO)
    as (ds1 & EI & _ & Hw1 & Hu & HC & _).
  destruct (cp_fit env cs cf disk draws X max_its (DecArg (objs a)) ds) as [d2 e2] eqn:EF.
  injection E as <- <- <-. rewrite Nat.eqb_refl. split.
  - unfold cp_fit in EF. rewrite EI in EF.
    destruct (fit_reported_true HC EF) as [_ HSP]. intros r Hr. rewrite (sp_w HSP). auto.
  - intros b Hb. apply Nat.eqb_neq in Hb. now rewrite Hb.
Qed.

Lemma entry_change Us w K idx :
  cp_entry Us unit_weights K idx - cp_entry Us w K idx = sum K (fun r => (1 - w r) * colprod Us idx r).
Proof.
  unfold cp_entry, unit_weights. rewrite <- sum_minus. apply sum_ext. intros; ring.
Qed.
