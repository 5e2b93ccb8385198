(** Iterations of Parafac2_ALS. *)
From Verif Require Export Parafac2Sweep CPInit.
Set Implicit Arguments.
Unset Strict Implicit.
Local Open Scope R_scope.

(** *** One inner update is the value-level update on the arrays found at the addresses *)
Definition forget (c : cp_state) : cp_state := cp_with_cache None None c.
Lemma update_forget env cs c m c' : cp_update_factor env cs (forget c) m = (c', None) -> cp_update_factor env cs c m = (c', None).
Proof.
  unfold cp_update_factor. cbn [forget cp_with_cache cp_dec cp_X cp_nn cp_orth].
  destruct (do lhs <- als_lhs _ _ _ ; _) as [[[V P] solve]|]; [|discriminate].
  destruct (do Z <- solve V P ; _) as [U'|]; [|discriminate]. auto.
Qed.

Lemma map_read_write h l m U : NoDup l -> (m < length l)%nat -> (nth m l 0%nat < length h)%nat ->
  map (hread (hwrite h (nth m l 0%nat) U)) l = replace_at m U (map (hread h) l).
Proof.
  intros HN Hm Hr. apply (nth_ext _ _ m0 m0).
  - now rewrite length_replace_at, !map_length.
  - rewrite map_length. intros k Hk. rewrite nth_map_read by auto. rewrite hread_write by auto.
    destruct (Nat.eqb_spec (nth k l 0%nat) (nth m l 0%nat)) as [E|Hne].
    + assert (k = m) as -> by (apply (proj1 (NoDup_nth l 0%nat) HN); auto).
      rewrite nth_replace_at_eq; [reflexivity|now rewrite map_length].
    + rewrite nth_replace_at_neq by congruence. now rewrite nth_map_read.
Qed.

Lemma view_eta c fms : kt_fms (cp_dec c) = fms ->
  cp_with_dec {| kt_rank := kt_rank (cp_dec c); kt_fms := fms; kt_w := kt_w (cp_dec c) |} c = c.
Proof. intros <-. destruct c as [? ? [? ? ?] ? ? ? ?]. reflexivity. Qed.

Lemma tab2_mget n m a : is_mat n m a -> tab2 n m (mget a) = a.
Proof.
  intros Ha. apply nd_ext; [apply is_mat_tab2|apply Ha|rewrite (proj2 Ha); apply is_mat_tab2|].
  rewrite (proj2 (is_mat_tab2 n m (mget a))). intros idx Hv.
  apply valid_cons_inv in Hv as (i & idx' & -> & Hi & Hv).
  apply valid_cons_inv in Hv as (j & idx'' & -> & Hj & Hv). apply valid_nil_inv in Hv; subst.
  exact (mget_tab2 (mget a) Hi Hj).
Qed.

Section Fit.
Variables (env : p2_env) (ps : p2_settings).
Let ics := inner_settings ps.
Let cenv := pe_cp env.

Lemma cp_update_sim s m c' Z : NoDup (p2_cpf s) -> Forall (fun a => (a < length (p2_heap s))%nat) (p2_cpf s) ->
  (m < length (p2_cpf s))%nat ->
  cp_update_factor cenv ics (p2_view s) m = (c', None) ->
  kt_fms (cp_dec c') = with_factor m Z (kt_fms (cp_dec (p2_view s))) ->
  exists s', p2_cp_update env ps s m = (s', None) /\ p2_view s' = c' /\ frame (p2_cpf s) s s'.
Proof.
  intros HN HR Hm E Hf. unfold p2_cp_update. fold cenv ics. rewrite E. cbn [p2_with_inner p2_cpf].
  rewrite (nth_error_nth' (p2_cpf s) 0%nat Hm). rewrite Hf. cbn [p2_view cp_with_dec cp_dec kt_fms].
  unfold with_factor at 1. rewrite (nth_error_nth' (replace_at m Z (map (hread (p2_heap s)) (p2_cpf s))) m0)
    by (now rewrite length_replace_at, map_length).
  rewrite nth_replace_at_eq by (now rewrite map_length). cbn [p2_heap p2_with_inner].
  eexists. split; [reflexivity|]. split.
  - unfold p2_view. cbn [p2_with_heap p2_inner p2_heap p2_cpf p2_with_inner]. apply view_eta.
    rewrite Hf. symmetry. apply map_read_write; auto.
    rewrite Forall_forall in HR. apply HR. now apply nth_In.
  - eapply frame_trans with (t := p2_with_inner c' s); [constructor; auto|].
    match goal with |- frame ?W ?s (p2_with_heap ?h ?s') => apply (@frame_write W s') end. now apply nth_In.
Qed.

(** *** Sweeps *)
Record inner_ok (K : nat) (s : p2_state) : Prop :=
  { in_nodup : NoDup (p2_cpf s); in_range : Forall (fun a => (a < length (p2_heap s))%nat) (p2_cpf s);
    in_coh : cp_coherent K (forget (p2_view s)); in_free : free_fit ics (p2_view s) }.

Lemma view_len K s : inner_ok K s -> length (p2_cpf s) = length (shape (cp_X (p2_inner s))).
Proof. intros H. pose proof (coherent_len (in_coh H)) as E. cbn in E. now rewrite map_length in E. Qed.

Lemma cp_update_decreases K s m : inner_ok K s -> ps_rank ps = K -> svd_works_on K K (env_svd cenv) ->
  (m < length (shape (cp_X (p2_inner s))))%nat ->
  exists s', p2_cp_update env ps s m = (s', None) /\ inner_ok K s' /\ frame (p2_cpf s) s s' /\
    same_problem (p2_view s) (p2_view s') /\
    sse (cp_X (p2_inner s)) (kt_fms (cp_dec (p2_view s'))) unit_weights K <=
    sse (cp_X (p2_inner s)) (kt_fms (cp_dec (p2_view s))) unit_weights K.
Proof.
  intros H HK Hsvd Hm.
  destruct (@update_optimal cenv ics K (forget (p2_view s)) m (in_coh H)) as (c' & Z & E & HZ & Hf & HS & HC & Hopt); auto.
  { exact (in_free H Hm). }
  apply update_forget in E. cbn [forget cp_with_cache cp_dec] in Hf, Hopt.
  assert (Hm' : (m < length (p2_cpf s))%nat) by (rewrite (view_len H); exact Hm).
  destruct (@cp_update_sim s m c' Z (in_nodup H) (in_range H) Hm' E Hf) as (s' & Es & Hv & HF).
  assert (HSP : same_problem (p2_view s) (p2_view s')).
  { rewrite Hv. destruct HS. constructor; auto. }
  exists s'. split; auto. split.
  - constructor.
    + rewrite (fr_cpf HF). apply H.
    + rewrite (fr_cpf HF), (fr_len HF). apply H.
    + rewrite Hv. destruct HC as [H1 H2 H3 H4 H5]. constructor; auto. cbn. discriminate.
    + apply (free_fit_same HSP). apply H.
  - split; auto. split; auto. rewrite Hv, Hf.
    specialize (Hopt (nth m (kt_fms (cp_dec (p2_view s))) m0)). rewrite with_factor_self in Hopt; [exact Hopt|].
    cbn. now rewrite map_length.
Qed.

Lemma cp_modes_decrease K l : ps_rank ps = K -> svd_works_on K K (env_svd cenv) -> forall s, inner_ok K s ->
  Forall (fun m => (m < length (shape (cp_X (p2_inner s))))%nat) l ->
  exists s', run_all (p2_cp_update env ps) l s = (s', None) /\ inner_ok K s' /\ frame (p2_cpf s) s s' /\
    same_problem (p2_view s) (p2_view s') /\
    sse (cp_X (p2_inner s)) (kt_fms (cp_dec (p2_view s'))) unit_weights K <=
    sse (cp_X (p2_inner s)) (kt_fms (cp_dec (p2_view s))) unit_weights K.
Proof.
  intros HK Hsvd. induction l as [|m l IH]; intros s H Hl.
  - exists s. split; [reflexivity|]. split; auto. split; [apply frame_refl|]. split; [apply same_problem_refl|lra].
  - inversion Hl as [|? ? Hm Hl']; subst.
    destruct (cp_update_decreases H eq_refl Hsvd Hm) as (s1 & E1 & H1 & HF1 & HS1 & Hle1).
    pose proof (sp_X HS1) as EX. cbn in EX.
    destruct (IH s1 H1) as (s2 & E2 & H2 & HF2 & HS2 & Hle2); [now rewrite EX|].
    exists s2. cbn [run_all]. rewrite E1. split; auto. split; auto.
    split; [rewrite (fr_cpf HF1) in HF2; eapply frame_trans; eauto|].
    split; [eapply same_problem_trans; eauto|]. rewrite EX in Hle2. lra.
Qed.

Lemma cp_sweeps_decrease K n : ps_rank ps = K -> svd_works_on K K (env_svd cenv) -> forall (l : list nat) s, length l = n -> inner_ok K s ->
  exists s', run_all (fun s _ => p2_cp_sweep env ps s) l s = (s', None) /\ inner_ok K s' /\ frame (p2_cpf s) s s' /\
    same_problem (p2_view s) (p2_view s') /\
    sse (cp_X (p2_inner s)) (kt_fms (cp_dec (p2_view s'))) unit_weights K <=
    sse (cp_X (p2_inner s)) (kt_fms (cp_dec (p2_view s))) unit_weights K.
Proof.
  intros HK Hsvd. induction n as [|n IH]; intros [|x l] s Hl H; cbn in Hl; try lia.
  - exists s. split; [reflexivity|]. split; auto. split; [apply frame_refl|]. split; [apply same_problem_refl|lra].
  - cbn [run_all]. unfold p2_cp_sweep at 1.
    destruct (@cp_modes_decrease K (seq 0 (ndim (cp_X (p2_inner s)))) HK Hsvd s H) as (s1 & E1 & H1 & HF1 & HS1 & Hle1).
    { apply Forall_forall. intros m Hm. apply in_seq in Hm. unfold ndim in Hm. lia. }
    rewrite E1. pose proof (sp_X HS1) as EX. cbn in EX.
    destruct (IH l s1 ltac:(lia) H1) as (s2 & E2 & H2 & HF2 & HS2 & Hle2).
    exists s2. split; auto. split; auto.
    split; [rewrite (fr_cpf HF1) in HF2; eapply frame_trans; eauto|].
    split; [eapply same_problem_trans; eauto|]. rewrite EX in Hle2. lra.
Qed.

(** *** A whole iteration *)
(** The inner decomposer works on the arrays of the decomposition, unconstrained and with unit weights. *)
Definition flags_false (c : option (list bool)) : Prop :=
  exists l, c = Some l /\ forall m, (m < 3)%nat -> nth_error l m = Some false.
Record linked (K : nat) (s : p2_state) : Prop :=
  { lk_cpf : p2_cpf s = [pr_A (p2_ref s); pr_B (p2_ref s); pr_C (p2_ref s)];
    lk_w : is_vec K (kt_w (cp_dec (p2_inner s)));
    lk_unit : forall r, (r < K)%nat -> vget (kt_w (cp_dec (p2_inner s))) r = 1;
    lk_nn : flags_false (cp_nn (p2_inner s)); lk_orth : flags_false (cp_orth (p2_inner s)) }.

Lemma linked_fms K s : linked K s -> kt_fms (cp_dec (p2_view s)) = [p2_A s; p2_B s; p2_C s].
Proof. intros H. cbn. rewrite (lk_cpf H). reflexivity. Qed.

Lemma rows3 nA nB nC K A B C : is_mat nA K A -> is_mat nB K B -> is_mat nC K C ->
  mats K [A; B; C] /\ rows [A; B; C] = [nA; nB; nC].
Proof.
  intros HA HB HC. unfold rows, mats. cbn [map]. rewrite (is_mat_nrows HA), (is_mat_nrows HB), (is_mat_nrows HC).
  split; [|reflexivity]. repeat constructor; rewrite ?(is_mat_nrows HA), ?(is_mat_nrows HB), ?(is_mat_nrows HC); auto;
  try apply HA; try apply HB; try apply HC.
Qed.

Lemma retarget_ok K nI s : p2_ok K nI s -> linked K s -> ps_rank ps = K -> ps_ridge ps = None ->
  (0 < nI)%nat -> (0 < K)%nat -> (0 < length (p2_X s))%nat ->
  exists s' PX, p2_retarget env ps s = (s', None) /\ s' = p2_with_inner (cp_with_target PX (p2_inner s)) s /\
    p2_ok K nI s' /\ linked K s' /\ inner_ok K s' /\ shape PX = [nI; K; length (p2_X s)] /\
    forall i q k, (i < nI)%nat -> (q < K)%nat -> (k < length (p2_X s))%nat ->
      get PX [i; q; k] = projected_entry (p2_X s) (p2_Ps s) i q k.
Proof.
  intros H HL HK HR HnI HK0 HnX. destruct (projected_ok env H HK) as (PX & EPX & HPX & HPs & HPe).
  unfold p2_retarget. rewrite EPX. eexists. exists PX. split; [reflexivity|]. split; [reflexivity|].
  assert (H' : p2_ok K nI (p2_with_inner (cp_with_target PX (p2_inner s)) s)) by (destruct H; constructor; auto).
  assert (HL' : linked K (p2_with_inner (cp_with_target PX (p2_inner s)) s)) by (destruct HL; constructor; auto).
  split; [exact H'|]. split; [exact HL'|]. split; [|split; auto].
  pose proof (ok_distinct H) as HD. pose proof (ok_range H) as HRg.
  constructor.
  - cbn [p2_with_inner p2_cpf]. rewrite (lk_cpf HL).
    inversion HD as [|? ? N1 HD1]; subst. inversion HD1 as [|? ? N2 HD2]; subst. inversion HD2 as [|? ? N3 HD3]; subst.
    cbn [In] in *. repeat constructor; cbn [In]; intuition congruence.
  - cbn [p2_with_inner p2_cpf p2_heap]. rewrite (lk_cpf HL).
    inversion HRg as [|? ? N1 HD1]; subst. inversion HD1 as [|? ? N2 HD2]; subst. inversion HD2 as [|? ? N3 HD3]; subst. auto.
  - destruct (rows3 (ok_A H) (ok_B H) (ok_C H)) as [HM Hrows].
    constructor; cbn [forget cp_with_cache cp_last cp_X cp_dec cp_norm p2_view cp_with_dec p2_with_inner p2_inner
       cp_with_target kt_w kt_fms p2_heap p2_cpf].
    + split; auto. rewrite HPs. split; [cbn; lia|]. repeat constructor; lia.
    + reflexivity.
    + rewrite (lk_cpf HL). cbn [map]. split; [exact HM|]. rewrite HPs. exact Hrows.
    + apply HL.
    + discriminate.
  - intros m Hm. cbn [p2_view cp_with_dec cp_X p2_with_inner p2_inner cp_with_target] in Hm. rewrite HPs in Hm. cbn in Hm.
    split; [exact HR|]. cbn [p2_view cp_with_dec cp_nn cp_orth p2_with_inner p2_inner cp_with_target].
    destruct (lk_nn HL) as (l1 & E1 & F1). destruct (lk_orth HL) as (l2 & E2 & F2).
    split; [exists l1|exists l2]; auto.
Qed.

Lemma scale_B_ok K nI s : p2_ok K nI s -> linked K s -> p2_scale_B s = (p2_with_heap (hwrite (p2_heap s) (pr_B (p2_ref s)) (p2_B s)) s, None).
Proof.
  intros H HL. unfold p2_scale_B. pose proof (ok_B H) as HB. unfold broadcast_into.
  rewrite (broadcast_mat_vec Rmult HB (lk_w HL)). rewrite (proj2 HB), (proj2 (lk_w HL)).
  assert (Eb : bshape [K; K] [K] = Some [K; K]).
  { unfold bshape. cbn. rewrite Nat.eqb_refl. reflexivity. }
  rewrite Eb. destruct (list_eq_dec Nat.eq_dec [K; K] [K; K]) as [_|N]; [|congruence].
  rewrite (@tab2_ext K K _ (mget (p2_B s))).
  2:{ intros i j Hi Hj. rewrite (lk_unit HL) by auto. ring. }
  rewrite (tab2_mget HB). reflexivity.
Qed.

Lemma heap_same s a : (a < length (p2_heap s))%nat -> p2_with_heap (hwrite (p2_heap s) a (hread (p2_heap s) a)) s = s.
Proof.
  intros Ha. unfold hwrite, hread. rewrite replace_at_same by auto. destruct s. reflexivity.
Qed.

Lemma iteration_ok K nI s : p2_ok K nI s -> linked K s -> solvable env K nI s -> orth_projections K (p2_X s) (p2_Ps s) ->
  ps_rank ps = K -> ps_ridge ps = None -> svd_works_on K K (env_svd cenv) ->
  (0 < nI)%nat -> (0 < length (p2_X s))%nat ->
  exists s', p2_update env ps s = (s', None) /\ p2_ok K nI s' /\ linked K s' /\ orth_projections K (p2_X s') (p2_Ps s') /\
    p2_X s' = p2_X s /\ p2_norm s' = p2_norm s /\ p2_ref s' = p2_ref s /\
    pf_sse K nI (p2_A s') (p2_B s') (p2_C s') (p2_X s') (p2_Ps s') <=
    pf_sse K nI (p2_A s) (p2_B s) (p2_C s) (p2_X s) (p2_Ps s).
Proof.
  intros H HL Hsol HO HK HR Hsvd HnI HnX.
  assert (HK0 : (0 < K)%nat) by (apply (Hsol 0%nat HnX)).
  destruct (projections_ok H Hsol) as (s1 & E1 & H1 & HF1 & Hin1 & EA & EB & EC & HP1).
  assert (HL1 : linked K s1).
  { destruct HL. constructor; rewrite ?Hin1, ?(fr_cpf HF1), ?(fr_ref HF1); auto. }
  assert (HO1 : orth_projections K (p2_X s1) (p2_Ps s1)).
  { intros k Hk. rewrite (fr_X HF1) in Hk |- *. apply (HP1 k Hk). }
  assert (Hle1 : pf_sse K nI (p2_A s1) (p2_B s1) (p2_C s1) (p2_X s1) (p2_Ps s1) <=
                 pf_sse K nI (p2_A s) (p2_B s) (p2_C s) (p2_X s) (p2_Ps s)).
  { rewrite EA, EB, EC, (fr_X HF1). unfold pf_sse. apply sum_le. intros k Hk. apply (HP1 k Hk). apply HO. exact Hk. }
  assert (HnX1 : (0 < length (p2_X s1))%nat) by (now rewrite (fr_X HF1)).
  destruct (retarget_ok H1 HL1 HK HR HnI HK0 HnX1) as (s2 & PX & E2 & Es2 & H2 & HL2 & HI2 & HPs & HPe).
  assert (EX2 : cp_X (p2_inner s2) = PX) by (rewrite Es2; reflexivity).
  assert (ES2 : p2_X s2 = p2_X s1 /\ p2_norm s2 = p2_norm s1 /\ p2_ref s2 = p2_ref s1 /\ p2_Ps s2 = p2_Ps s1 /\
                p2_A s2 = p2_A s1 /\ p2_B s2 = p2_B s1 /\ p2_C s2 = p2_C s1) by (rewrite Es2; repeat split).
  destruct ES2 as (EXs & En2 & Er2 & EP2 & EA2 & EB2 & EC2).
  destruct (@cp_sweeps_decrease K (ps_updates ps) HK Hsvd (seq 0 (ps_updates ps)) s2 (seq_length _ _) HI2)
    as (s3 & E3 & HI3 & HF3 & HS3 & Hle3).
  pose proof (ok_distinct H2) as HD. pose proof (ok_range H2) as HRg.
  assert (EP3 : p2_Ps s3 = p2_Ps s2).
  { unfold p2_Ps. rewrite (fr_ref HF3). apply map_ext_in. intros a Ha. apply (fr_read HF3).
    rewrite (lk_cpf HL2). inversion HD as [|? ? N1 HD1]; subst. inversion HD1 as [|? ? N2 HD2]; subst.
    inversion HD2 as [|? ? N3 HD3]; subst. cbn [In] in *. intros [<-|[<-|[<-|[]]]]; tauto. }
  assert (Ec3 : p2_cpf s3 = [pr_A (p2_ref s3); pr_B (p2_ref s3); pr_C (p2_ref s3)]).
  { rewrite (fr_cpf HF3), (fr_ref HF3). apply HL2. }
  assert (Efm : kt_fms (cp_dec (p2_view s3)) = [p2_A s3; p2_B s3; p2_C s3]) by (cbn; rewrite Ec3; reflexivity).
  assert (EX3 : cp_X (p2_view s3) = PX) by (rewrite (sp_X HS3); cbn; exact EX2).
  destruct (co_fac (in_coh HI3)) as [HM3 Hr3]. cbn [forget cp_with_cache cp_dec cp_X] in HM3, Hr3.
  rewrite Efm in HM3, Hr3. rewrite EX3, HPs in Hr3.
  assert (HABC : is_mat nI K (p2_A s3) /\ is_mat K K (p2_B s3) /\ is_mat (length (p2_X s3)) K (p2_C s3)).
  { unfold rows in Hr3. cbn [map] in Hr3. injection Hr3 as R1 R2 R3. rewrite (fr_X HF3), EXs.
    pose proof (Forall_inv HM3) as M1. pose proof (Forall_inv (Forall_inv_tail HM3)) as M2.
    pose proof (Forall_inv (Forall_inv_tail (Forall_inv_tail HM3))) as M3. cbv beta in M1, M2, M3.
    rewrite R1 in M1. rewrite R2 in M2. rewrite R3 in M3. auto. }
  assert (H3 : p2_ok K nI s3).
  { destruct HABC as (MA & MB & MC). constructor; auto.
    - rewrite (fr_ref HF3), (fr_len HF3). apply HRg.
    - rewrite (fr_ref HF3). apply HD.
    - rewrite (fr_ref HF3), (fr_X HF3). apply H2.
    - intros k Hk. rewrite EP3. rewrite (fr_X HF3) in Hk |- *. now apply (ok_P H2).
    - intros k Hk. rewrite (fr_X HF3) in Hk |- *. now apply (ok_X H2).
    - rewrite (fr_ref HF3), (fr_X HF3). apply H2. }
  assert (HL3 : linked K s3).
  { constructor; auto.
    - pose proof (sp_w HS3) as E. cbn in E. rewrite E. apply HL2.
    - pose proof (sp_w HS3) as E. cbn in E. rewrite E. apply HL2.
    - pose proof (sp_nn HS3) as E. cbn in E. rewrite E. apply HL2.
    - pose proof (sp_orth HS3) as E. cbn in E. rewrite E. apply HL2. }
  assert (Hle : pf_sse K nI (p2_A s3) (p2_B s3) (p2_C s3) (p2_X s3) (p2_Ps s3) <=
                pf_sse K nI (p2_A s1) (p2_B s1) (p2_C s1) (p2_X s1) (p2_Ps s1)).
  { rewrite (fr_X HF3), EXs, EP3, EP2.
    rewrite (@pf_sse_split K nI (p2_A s3) (p2_B s3) (p2_C s3) (p2_X s1) (p2_Ps s1) PX) by auto.
    rewrite (@pf_sse_split K nI (p2_A s1) (p2_B s1) (p2_C s1) (p2_X s1) (p2_Ps s1) PX) by auto.
    rewrite EX2, Efm, (linked_fms HL2), EA2, EB2, EC2 in Hle3. lra. }
  exists (p2_unit_weights s3). split.
  { unfold p2_update, and_then. rewrite E1, E2, E3. rewrite (scale_B_ok H3 HL3). unfold p2_B at 1.
    rewrite heap_same; [reflexivity|].
    pose proof (ok_range H3) as R3. inversion R3 as [|? ? _ R4]; subst. now inversion R4. }
  assert (Hw : is_vec K (kt_w (cp_dec (p2_inner s3)))) by apply HL3.
  split; [destruct H3; constructor; auto|]. split.
  { destruct HL3 as [L1 L2 L3 L4 L5]. constructor; auto.
    - cbn. now apply is_vec_map.
    - intros r Hr. cbn [p2_unit_weights p2_with_inner p2_inner cp_with_dec cp_dec kt_w].
      rewrite (vget_map _ Hw Hr). rewrite L3 by auto. ring. }
  change (p2_Ps (p2_unit_weights s3)) with (p2_Ps s3). change (p2_X (p2_unit_weights s3)) with (p2_X s3).
  change (p2_A (p2_unit_weights s3)) with (p2_A s3). change (p2_B (p2_unit_weights s3)) with (p2_B s3).
  change (p2_C (p2_unit_weights s3)) with (p2_C s3).
  split; [rewrite EP3, EP2, (fr_X HF3), EXs; exact HO1|].
  split; [now rewrite (fr_X HF3), EXs, (fr_X HF1)|].
  split; [cbn; now rewrite (fr_norm HF3), En2, (fr_norm HF1)|].
  split; [cbn; now rewrite (fr_ref HF3), Er2, (fr_ref HF1)|].
  lra.
Qed.
End Fit.
