(** Runs of Parafac2_ALS on any data: no full rank needed to complete (C75), what the projections are without it (C76). *)
From Verif Require Export StopFacts SafeSpec.
Set Implicit Arguments.
Unset Strict Implicit.
Local Open Scope R_scope.

Section Safe.
Variables (env : p2_env) (ps : p2_settings).
Let cenv := pe_cp env.
Let svd := env_svd (pe_cp env).
Let md := p2_model env ps.

(** *** One projection *)
Record projected_from (K nI : nat) (s : p2_state) (k : nat) (P : nd) : Prop :=
  { pj_mat : is_mat (width (p2_X s) k) K P;
    pj_orth : (K <= width (p2_X s) k)%nat -> (orth_cols (width (p2_X s) k) K (mget P) <->
      untruncated svd (width (p2_X s) k) K (cross K nI (p2_A s) (p2_B s) (p2_C s) (p2_X s) k));
    pj_best : (K <= width (p2_X s) k)%nat ->
      untruncated svd (width (p2_X s) k) K (cross K nI (p2_A s) (p2_B s) (p2_C s) (p2_X s) k) ->
      forall Q, orth_cols (width (p2_X s) k) K Q -> slice_err K nI (p2_A s) (p2_B s) (p2_C s) (p2_X s) k (mget P) <=
        slice_err K nI (p2_A s) (p2_B s) (p2_C s) (p2_X s) k Q;
    pj_zero : zero_slice nI (p2_X s) k -> P = np_zeros [width (p2_X s) k; K];
    pj_solve : exists T Z, is_mat nI K T /\ (forall i a, (i < nI)%nat -> (a < K)%nat ->
        mget T i a = sum K (fun r => mget (p2_C s) k r * mget (p2_A s) i r * mget (p2_B s) a r)) /\
      orthogonal_solve svd T (nth k (p2_X s) m0) = Ok Z /\ P = transp Z }.

Lemma transp_zeros n m : transp (np_zeros [n; m]) = np_zeros [m; n].
Proof.
  apply (@mat_ext m n); [apply is_mat_transp, is_mat_zeros|apply is_mat_zeros|].
  intros i j Hi Hj. rewrite (mget_transp (is_mat_zeros n m)) by auto. now rewrite !mget_zeros.
Qed.

Lemma update_projection_safe K nI s k : p2_shaped K nI s -> (k < length (p2_X s))%nat -> (0 < K)%nat -> workable svd K (p2_X s) ->
  exists P, p2_update_projection env s k = (p2_with_heap (hwrite (p2_heap s) (nth k (pr_P (p2_ref s)) 0%nat) P) s, None) /\
    projected_from K nI s k P.
Proof.
  intros H Hk HK HW. set (J := width (p2_X s) k) in *. set (X := nth k (p2_X s) m0).
  destruct (HW k Hk) as [HJ Hsvd]. fold J in HJ, Hsvd.
  destruct (target_ok H Hk) as (T & ET & HT & HTe).
  pose proof (sh_X H Hk) as HX. fold J X in HX.
  set (BA := tab2 J K (fun j a => sum nI (fun t => mget (transp X) j t * mget T t a))).
  assert (HBA : is_mat J K BA) by apply is_mat_tab2.
  assert (HBe : forall j a, (j < J)%nat -> (a < K)%nat -> mget BA j a = cross K nI (p2_A s) (p2_B s) (p2_C s) (p2_X s) k j a).
  { intros j a Hj Ha. unfold BA. rewrite mget_tab2 by auto. unfold cross. fold X. apply sum_ext. intros i Hi.
    rewrite (mget_transp HX) by auto. now rewrite HTe. }
  destruct (Hsvd BA HBA) as (U & Sv & Vh & ES & HS).
  destruct (@orth_solve_entries nI K J T X U Sv Vh HT HX HS svd ES) as (Z & EZ & HZ & HZe); [lia|].
  unfold p2_update_projection. rewrite ET. cbn [bind]. rewrite (list_get_ok m0 Hk). cbn [bind]. fold X svd.
  rewrite EZ. cbn [bind]. rewrite (@list_get_ok _ _ k 0%nat) by (now rewrite (sh_nP H)). cbn [bind].
  pose proof (sh_P H Hk) as HP. fold J in HP. unfold p2_Ps in HP. rewrite nth_map_read in HP by (now rewrite (sh_nP H)).
  rewrite (assign_full_mat HP (is_mat_transp HZ)). cbn [bind].
  exists (transp Z). split; [reflexivity|]. constructor; fold J.
  - now apply is_mat_transp.
  - intros HKJ.
    assert (HO : orth_cols J K (mget (transp Z)) <-> orth_rows K J (mget Z)).
    { split; intros HO a b Ha Hb.
      - rewrite <- (HO a b Ha Hb). apply sum_ext. intros j Hj. now rewrite !(mget_transp HZ).
      - rewrite <- (HO a b Ha Hb). apply sum_ext. intros j Hj. now rewrite !(mget_transp HZ). }
    rewrite HO. split.
    + intros HO' BA' U' Sv' Vh' HBA' HBe' ES' r Hr.
      assert (BA' = BA) as ->. { apply (@mat_ext J K); auto. intros j a Hj Ha. rewrite HBe' by auto. now rewrite HBe. }
      rewrite ES in ES'. injection ES' as <- <- <-.
      destruct (Rlt_dec (INR J * vget Sv 0 * / 10 ^ 16) (vget Sv r)) as [|N]; [assumption|exfalso].
      destruct (@orthogonal_solve_truncated svd nI K J T X U Sv Vh r HT HX ltac:(lia) ES HS Hr) as (Z' & EZ' & _ & NO); [lra|].
      rewrite EZ in EZ'. injection EZ' as <-. now apply NO.
    + intros Hunt. destruct (@orthogonal_solve_ok svd nI K J T X U Sv Vh HT HX ltac:(lia) ES HS) as (Z' & EZ' & _ & HO' & _).
      { exact (Hunt BA U Sv Vh HBA HBe ES). }
      rewrite EZ in EZ'. injection EZ' as <-. exact HO'.
  - intros HKJ Hunt. destruct (@update_projection_ok env K nI s k H Hk ltac:(fold J; lia) Hsvd Hunt) as (P & EP & _ & _ & Hopt).
    unfold p2_update_projection in EP. rewrite ET in EP. cbn [bind] in EP. rewrite (list_get_ok m0 Hk) in EP. cbn [bind] in EP.
    fold X svd in EP. rewrite EZ in EP. cbn [bind] in EP. rewrite (@list_get_ok _ _ k 0%nat) in EP by (now rewrite (sh_nP H)).
    cbn [bind] in EP. rewrite (assign_full_mat HP (is_mat_transp HZ)) in EP. cbn [bind] in EP.
    assert (Hra : (nth k (pr_P (p2_ref s)) 0%nat < length (p2_heap s))%nat).
    { destruct (Nat.lt_ge_cases (nth k (pr_P (p2_ref s)) 0%nat) (length (p2_heap s))) as [|Hge]; [assumption|exfalso].
      unfold hread in HP. rewrite nth_overflow in HP by exact Hge. destruct HP as [_ HP]. discriminate HP. }
    apply (f_equal (fun x => hread (p2_heap (fst x)) (nth k (pr_P (p2_ref s)) 0%nat))) in EP.
    cbn [fst p2_with_heap p2_heap] in EP. rewrite !hread_write in EP by exact Hra. rewrite Nat.eqb_refl in EP. now rewrite EP.
  - intros HZs. unfold zero_slice in HZs. fold J X in HZs.
    assert (EZ0 : orthogonal_solve svd T X = Ok (np_zeros [K; J])).
    { apply (@orthogonal_solve_zero svd nI K J T X U Sv Vh HT HX ltac:(lia) ES HS).
      intros j a Hj Ha. apply sum_zero. intros t Ht. rewrite HZs by auto. ring. }
    rewrite EZ in EZ0. injection EZ0 as ->. apply transp_zeros.
  - exists T, Z. auto.
Qed.

Lemma projected_from_ext K nI s s' k P : p2_X s' = p2_X s -> p2_A s' = p2_A s -> p2_B s' = p2_B s -> p2_C s' = p2_C s ->
  projected_from K nI s' k P -> projected_from K nI s k P.
Proof. intros E1 E2 E3 E4 [H1 H2 H3 H4 H5]. rewrite ?E1, ?E2, ?E3, ?E4 in *. now constructor. Qed.

(** *** All projections *)
Lemma projections_loop_safe K nI s : p2_ok K nI s -> (0 < K)%nat -> workable svd K (p2_X s) -> forall n, (n <= length (p2_X s))%nat ->
  exists s', run_all (p2_update_projection env) (seq 0 n) s = (s', None) /\
    frame (pr_P (p2_ref s)) s s' /\ p2_inner s' = p2_inner s /\
    (forall k, (n <= k < length (p2_X s))%nat -> nth k (p2_Ps s') m0 = nth k (p2_Ps s) m0) /\
    forall k, (k < n)%nat -> projected_from K nI s k (nth k (p2_Ps s') m0).
Proof.
  intros H HK HW. induction n as [|n IH]; intros Hn.
  - exists s. cbn. split; [reflexivity|]. split; [apply frame_refl|]. split; [reflexivity|]. split; [reflexivity|]. lia.
  - destruct IH as (s1 & E1 & HF1 & Hin1 & Hrest & Hdone); [lia|].
    assert (HP1 : forall k, (k < length (p2_X s))%nat -> is_mat (width (p2_X s) k) K (nth k (p2_Ps s1) m0)).
    { intros k Hk. destruct (Nat.lt_ge_cases k n) as [Hlt|Hge].
      - now apply (pj_mat (Hdone k Hlt)).
      - rewrite Hrest by lia. now apply (ok_P H). }
    destruct (ok_frame H HF1 HP1) as (H1 & EA & EB & EC).
    destruct (@update_projection_safe K nI s1 n (ok_shaped H1)) as (P & EP & HPj); rewrite ?(fr_X HF1); auto.
    apply (projected_from_ext (fr_X HF1) EA EB EC) in HPj.
    rewrite (fr_ref HF1) in EP. set (a := nth n (pr_P (p2_ref s)) 0%nat) in *.
    assert (Ha : In a (pr_P (p2_ref s))) by (apply nth_In; rewrite (ok_nP H); lia).
    assert (Hra : (a < length (p2_heap s1))%nat).
    { rewrite (fr_len HF1). pose proof (ok_range H) as HR. rewrite Forall_forall in HR. apply HR. cbn [In]. tauto. }
    set (s2 := p2_with_heap (hwrite (p2_heap s1) a P) s1) in *.
    assert (Hread : forall k, (k < length (p2_X s))%nat -> nth k (p2_Ps s2) m0 = if Nat.eqb k n then P else nth k (p2_Ps s1) m0).
    { intros k Hk. unfold p2_Ps. change (p2_ref s2) with (p2_ref s1). rewrite (fr_ref HF1).
      rewrite !nth_map_read by (now rewrite (ok_nP H)). cbn [s2 p2_with_heap p2_heap].
      rewrite hread_write by auto. fold a. destruct (Nat.eqb_spec k n) as [->|Hne].
      - fold a. now rewrite Nat.eqb_refl.
      - destruct (Nat.eqb_spec (nth k (pr_P (p2_ref s)) 0%nat) a) as [E|]; [|reflexivity].
        exfalso. apply Hne. apply (nodup_nth_P H); auto. }
    exists s2. split.
    { rewrite seq_S, Nat.add_0_l. rewrite (run_all_snoc n E1). now rewrite EP. }
    split. { apply (frame_trans HF1). now apply frame_write. }
    split; [exact Hin1|]. split.
    + intros k Hk. rewrite Hread by lia. destruct (Nat.eqb_spec k n); [lia|]. apply Hrest. lia.
    + intros k Hk. rewrite Hread by lia. destruct (Nat.eqb_spec k n) as [->|]; [auto|]. apply Hdone. lia.
Qed.

Lemma projections_safe K nI s : p2_ok K nI s -> (0 < K)%nat -> workable svd K (p2_X s) ->
  exists s', p2_update_projections env s = (s', None) /\ p2_ok K nI s' /\
    frame (pr_P (p2_ref s)) s s' /\ p2_inner s' = p2_inner s /\
    forall k, (k < length (p2_X s))%nat -> projected_from K nI s k (nth k (p2_Ps s') m0).
Proof.
  intros H HK HW. destruct (projections_loop_safe H HK HW (le_n _)) as (s' & E & HF & Hin & _ & Hdone).
  destruct (ok_frame H HF) as (H' & _); [intros k Hk; now apply (pj_mat (Hdone k Hk))|].
  exists s'. auto 10.
Qed.

(** *** One iteration *)
Lemma iteration_safe K nI s : p2_ok K nI s -> linked K s -> workable svd K (p2_X s) ->
  ps_rank ps = K -> ps_ridge ps = None -> svd_works_on K K (env_svd cenv) ->
  (0 < nI)%nat -> (0 < K)%nat -> (0 < length (p2_X s))%nat ->
  exists s', p2_update env ps s = (s', None) /\ p2_ok K nI s' /\ linked K s' /\
    p2_X s' = p2_X s /\ p2_norm s' = p2_norm s /\ p2_ref s' = p2_ref s /\
    (forall k, (k < length (p2_X s))%nat -> projected_from K nI s k (nth k (p2_Ps s') m0)) /\
    projected_err K nI (p2_A s') (p2_B s') (p2_C s') (p2_X s) (p2_Ps s') <=
    projected_err K nI (p2_A s) (p2_B s) (p2_C s) (p2_X s) (p2_Ps s').
Proof.
  intros H HL HW HK HR Hsvd HnI HK0 HnX.
  destruct (projections_safe H HK0 HW) as (s1 & E1 & H1 & HF1 & Hin1 & HP1).
  assert (HL1 : linked K s1).
  { destruct HL. constructor; rewrite ?Hin1, ?(fr_cpf HF1), ?(fr_ref HF1); auto. }
  assert (HnX1 : (0 < length (p2_X s1))%nat) by (now rewrite (fr_X HF1)).
  destruct (retarget_ok env H1 HL1 HK HR HnI HK0 HnX1) as (s2 & PX & E2 & Es2 & H2 & HL2 & HI2 & HPs & HPe).
  assert (EX2 : cp_X (p2_inner s2) = PX) by (rewrite Es2; reflexivity).
  assert (ES2 : p2_X s2 = p2_X s1 /\ p2_norm s2 = p2_norm s1 /\ p2_ref s2 = p2_ref s1 /\ p2_Ps s2 = p2_Ps s1)
    by (rewrite Es2; repeat split).
  destruct ES2 as (EXs & En2 & Er2 & EP2).
  destruct (@cp_sweeps_decrease env ps K (ps_updates ps) HK Hsvd (seq 0 (ps_updates ps)) s2 (seq_length _ _) HI2)
    as (s3 & E3 & HI3 & HF3 & HS3 & Hle3).
  pose proof (ok_distinct H2) as HD. pose proof (ok_range H2) as HRg.
  assert (EP3 : p2_Ps s3 = p2_Ps s2).
  { unfold p2_Ps. rewrite (fr_ref HF3). apply map_ext_in. intros a Ha. apply (fr_read HF3).
    rewrite (lk_cpf HL2). inversion HD as [|? ? N1 HD1]; subst. inversion HD1 as [|? ? N2 HD2]; subst.
    inversion HD2 as [|? ? N3 HD3]; subst. cbn [In] in *. intros [<-|[<-|[<-|[]]]]; tauto. }
  assert (Ec3 : p2_cpf s3 = [pr_A (p2_ref s3); pr_B (p2_ref s3); pr_C (p2_ref s3)]).
  { rewrite (fr_cpf HF3), (fr_ref HF3). apply HL2. }
  assert (Efm : kt_fms (cp_dec (p2_view s3)) = [p2_A s3; p2_B s3; p2_C s3]) by (cbn; rewrite Ec3; reflexivity).
  assert (EX3 : cp_X (p2_view s3) = PX) by (rewrite (sp_X HS3); cbn; exact EX2).
  destruct (co_fac (in_coh HI3)) as [HM3 Hr3]. cbn [forget cp_with_cache cp_dec cp_X] in HM3, Hr3.
  rewrite Efm in HM3, Hr3. rewrite EX3, HPs in Hr3.
  assert (HABC : is_mat nI K (p2_A s3) /\ is_mat K K (p2_B s3) /\ is_mat (length (p2_X s3)) K (p2_C s3)).
  { unfold rows in Hr3. cbn [map] in Hr3. injection Hr3 as R1 R2 R3. rewrite (fr_X HF3), EXs.
    pose proof (Forall_inv HM3) as M1. pose proof (Forall_inv (Forall_inv_tail HM3)) as M2.
    pose proof (Forall_inv (Forall_inv_tail (Forall_inv_tail HM3))) as M3. cbv beta in M1, M2, M3.
    rewrite R1 in M1. rewrite R2 in M2. rewrite R3 in M3. auto. }
  assert (H3 : p2_ok K nI s3).
  { destruct HABC as (MA & MB & MC). constructor; auto.
    - rewrite (fr_ref HF3), (fr_len HF3). apply HRg.
    - rewrite (fr_ref HF3). apply HD.
    - rewrite (fr_ref HF3), (fr_X HF3). apply H2.
    - intros k Hk. rewrite EP3. rewrite (fr_X HF3) in Hk |- *. now apply (ok_P H2).
    - intros k Hk. rewrite (fr_X HF3) in Hk |- *. now apply (ok_X H2).
    - rewrite (fr_ref HF3), (fr_X HF3). apply H2. }
  assert (HL3 : linked K s3).
  { constructor; auto.
    - pose proof (sp_w HS3) as E. cbn in E. rewrite E. apply HL2.
    - pose proof (sp_w HS3) as E. cbn in E. rewrite E. apply HL2.
    - pose proof (sp_nn HS3) as E. cbn in E. rewrite E. apply HL2.
    - pose proof (sp_orth HS3) as E. cbn in E. rewrite E. apply HL2. }
  exists (p2_unit_weights s3). split.
  { unfold p2_update, and_then. rewrite E1, E2, E3. rewrite (scale_B_ok H3 HL3). unfold p2_B at 1.
    rewrite heap_same; [reflexivity|].
    pose proof (ok_range H3) as R3. inversion R3 as [|? ? _ R4]; subst. now inversion R4. }
  assert (Hw : is_vec K (kt_w (cp_dec (p2_inner s3)))) by apply HL3.
  split; [destruct H3; constructor; auto|]. split.
  { destruct HL3 as [L1 L2 L3 L4 L5]. constructor; auto.
    - cbn. now apply is_vec_map.
    - intros r Hr. cbn [p2_unit_weights p2_with_inner p2_inner cp_with_dec cp_dec kt_w].
      rewrite (vget_map _ Hw Hr). rewrite L3 by auto. ring. }
  change (p2_Ps (p2_unit_weights s3)) with (p2_Ps s3). change (p2_X (p2_unit_weights s3)) with (p2_X s3).
  split; [now rewrite (fr_X HF3), EXs, (fr_X HF1)|].
  split; [cbn; now rewrite (fr_norm HF3), En2, (fr_norm HF1)|].
  split; [cbn; now rewrite (fr_ref HF3), Er2, (fr_ref HF1)|].
  change (p2_A (p2_unit_weights s3)) with (p2_A s3). change (p2_B (p2_unit_weights s3)) with (p2_B s3).
  change (p2_C (p2_unit_weights s3)) with (p2_C s3). rewrite EP3, EP2. split; [exact HP1|].
  assert (Efm2 : kt_fms (cp_dec (p2_view s2)) = [p2_A s2; p2_B s2; p2_C s2]) by (cbn; rewrite (lk_cpf HL2); reflexivity).
  rewrite Efm, Efm2, EX2 in Hle3.
  destruct (ok_frame H HF1) as (_ & EA1 & EB1 & EC1); [intros k Hk; now apply (pj_mat (HP1 k Hk))|].
  assert (EA2 : p2_A s2 = p2_A s1 /\ p2_B s2 = p2_B s1 /\ p2_C s2 = p2_C s1) by (rewrite Es2; repeat split).
  destruct EA2 as (EA2 & EB2 & EC2). rewrite EA2, EB2, EC2, EA1, EB1, EC1 in Hle3.
  rewrite !(@sse_projected K nI (length (p2_X s1))) in Hle3 by exact HPs. rewrite (fr_X HF1) in Hle3, HPe.
  assert (Eerr : forall A B C, projected_err K nI A B C (p2_X s) (p2_Ps s1) =
    sum (length (p2_X s)) (fun k => dist2 nI K (model_T K A B C k) (fun i q => get PX [i; q; k]))).
  { intros A B C. unfold projected_err. apply sum_ext. intros k Hk. apply dist2_ext; [reflexivity|].
    intros i q Hi Hq. now rewrite HPe. }
  rewrite !Eerr. exact Hle3.
Qed.

(** *** Runs *)
Lemma run_safe K nI s : p2_ok K nI s -> linked K s -> workable svd K (p2_X s) ->
  ps_rank ps = K -> ps_ridge ps = None -> svd_works_on K K (env_svd cenv) ->
  (0 < nI)%nat -> (0 < K)%nat -> (0 < length (p2_X s))%nat ->
  forall n, p2_ok K nI (state_after md s n) /\ linked K (state_after md s n) /\ p2_X (state_after md s n) = p2_X s /\
  p2_norm (state_after md s n) = p2_norm s /\ p2_ref (state_after md s n) = p2_ref s /\
  snd (md_update md (state_after md s n)) = None /\
  (forall k, (k < length (p2_X s))%nat -> projected_from K nI (state_after md s n) k (nth k (p2_Ps (state_after md s (S n))) m0)) /\
  let t := state_after md s n in let t' := state_after md s (S n) in
  projected_err K nI (p2_A t') (p2_B t') (p2_C t') (p2_X s) (p2_Ps t') <= projected_err K nI (p2_A t) (p2_B t) (p2_C t) (p2_X s) (p2_Ps t').
Proof.
  intros H HL HW HK HR Hsvd HnI HK0 HnX.
  assert (step : forall t, p2_ok K nI t -> linked K t -> p2_X t = p2_X s ->
    p2_ok K nI (fst (md_update md t)) /\ linked K (fst (md_update md t)) /\ p2_X (fst (md_update md t)) = p2_X s /\
    p2_norm (fst (md_update md t)) = p2_norm t /\ p2_ref (fst (md_update md t)) = p2_ref t /\ snd (md_update md t) = None /\
    (forall k, (k < length (p2_X s))%nat -> projected_from K nI t k (nth k (p2_Ps (fst (md_update md t))) m0)) /\
    let t' := fst (md_update md t) in
    projected_err K nI (p2_A t') (p2_B t') (p2_C t') (p2_X s) (p2_Ps t') <= projected_err K nI (p2_A t) (p2_B t) (p2_C t) (p2_X s) (p2_Ps t')).
  { intros t Ht HLt EX.
    destruct (@iteration_safe K nI t Ht HLt) as (s' & E & H1 & H2 & H3 & H4 & H5 & H6 & H7); rewrite ?EX; auto.
    cbn [md p2_model md_update]. rewrite E. cbn [fst snd]. rewrite EX in H3, H6, H7. auto 10. }
  induction n as [|n IH].
  - cbn [state_after]. destruct (step s H HL eq_refl) as (_ & _ & _ & _ & _ & E & HP & Hle). auto 10.
  - destruct IH as (H1 & H2 & H3 & H4 & H5 & H6 & H7 & H8).
    destruct (step _ H1 H2 H3) as (K1 & K2 & K3 & K4 & K5 & _ & _ & _).
    change (fst (md_update md (state_after md s n))) with (state_after md s (S n)) in K1, K2, K3, K4, K5.
    destruct (step _ K1 K2 K3) as (_ & _ & _ & _ & _ & E & HP & Hle).
    repeat (split; [congruence||assumption|]). exact Hle.
Qed.

(** *** Everything that a fit evaluates and stores *)
Lemma p2_metric_total k K nI s : p2_ok K nI s -> exists v, p2_metric ps k s = Ok v.
Proof.
  intros H. pose proof (p2_SSE_ok H) as E. pose proof (p2_loss_ok ps H) as EL.
  destruct k; cbn [p2_metric]; unfold as_metric, p2_RMSE, root_of, p2_explained, explained_of, p2_MSE; rewrite ?EL, ?E; cbn [bind]; eauto.
Qed.

Record ref_fits (K nI : nat) (s : p2_state) : Prop :=
  { rf_rank : pr_rank (p2_ref s) = K;
    rf_same : pr_same (p2_ref s) = true <-> (forall k, (k < length (p2_X s))%nat -> width (p2_X s) k = width (p2_X s) 0);
    rf_shapes : pr_shapes (p2_ref s) = map (fun k => (nI, width (p2_X s) k)) (seq 0 (length (p2_X s)));
    rf_num : pr_num (p2_ref s) = list_sum (map (width (p2_X s)) (seq 0 (length (p2_X s)))) }.

Lemma p2_mats K nI s : p2_ok K nI s -> mats K (p2_Ps s) /\ length (p2_Ps s) = length (p2_X s) /\
  rows (p2_Ps s) = map (width (p2_X s)) (seq 0 (length (p2_X s))).
Proof.
  intros H. assert (HL : length (p2_Ps s) = length (p2_X s)) by (unfold p2_Ps; rewrite map_length; apply H).
  split; [|split; [exact HL|]].
  - apply Forall_forall. intros P Hin. apply (In_nth _ _ m0) in Hin as (k & Hk & <-). rewrite HL in Hk.
    pose proof (ok_P H Hk) as HP. now rewrite (is_mat_nrows HP).
  - unfold rows. apply (nth_ext _ _ 0%nat 0%nat); [rewrite !map_length, seq_length; exact HL|].
    rewrite map_length, HL. intros k Hk. rewrite (nth_indep _ 0%nat (nrows m0)) by (now rewrite map_length, HL).
    rewrite map_nth. rewrite (is_mat_nrows (ok_P H Hk)).
    rewrite (nth_indep _ 0%nat (width (p2_X s) 0)) by (now rewrite map_length, seq_length).
    rewrite map_nth, seq_nth by auto. reflexivity.
Qed.

Lemma p2_consistent K nI s : p2_ok K nI s -> ref_fits K nI s -> (0 < length (p2_X s))%nat ->
  pf_init (p2_A s) (p2_B s) (p2_C s) (p2_Ps s) (pr_warning (p2_ref s)) = Ok (p2_value s).
Proof.
  intros H [F1 F2 F3 F4] Hn. destruct (p2_mats H) as (HM & HL & Hrows).
  assert (Hne : p2_Ps s <> []) by (intros E; rewrite E in HL; cbn in HL; lia).
  destruct (@pf_init_ok nI K (p2_A s) (p2_B s) (p2_C s) (p2_Ps s) (pr_warning (p2_ref s)) K (ok_A H) (ok_B H) HM Hne) as (b & E & Hb).
  assert (Hr : forall k, (k < length (p2_X s))%nat -> nrows (nth k (p2_Ps s) m0) = width (p2_X s) k).
  { intros k Hk. apply (is_mat_nrows (ok_P H Hk)). }
  assert (Hhd : nrows (hd m0 (p2_Ps s)) = width (p2_X s) 0).
  { rewrite <- (Hr 0%nat Hn). destruct (p2_Ps s); reflexivity. }
  rewrite E. unfold p2_value. rewrite (projected_factor_ok (ok_B H) HM).
  assert (Es : b = pr_same (p2_ref s)).
  { apply Bool.eq_iff_eq_true. rewrite Hb, F2. unfold same_rows. rewrite Hhd. split.
    - intros HS k Hk. rewrite <- (Hr k Hk). apply HS. apply nth_In. now rewrite HL.
    - intros HS P Hin. apply (In_nth _ _ m0) in Hin as (k & Hk & <-). rewrite HL in Hk. rewrite (Hr k Hk). now apply HS. }
  assert (Eh : map (fun P => (nI, nrows P)) (p2_Ps s) = pr_shapes (p2_ref s)).
  { rewrite F3. transitivity (map (fun n => (nI, n)) (rows (p2_Ps s))); [unfold rows; now rewrite map_map|].
    rewrite Hrows, map_map. reflexivity. }
  rewrite Es, Eh, F1, F4, Hrows. reflexivity.
Qed.

Lemma p2_storable K nI s : p2_ok K nI s -> ref_fits K nI s -> (0 < length (p2_X s))%nat -> storable md (md_dec md s).
Proof.
  intros H HF Hn. destruct (@pf_roundtrip_lemma _ _ _ _ _ _ empty_group (p2_consistent H HF Hn)) as (g & E1 & E2).
  - apply no_clash_empty.
  - exists g. auto.
Qed.
Lemma ref_fits_same K nI s s' : p2_X s' = p2_X s -> p2_ref s' = p2_ref s -> ref_fits K nI s -> ref_fits K nI s'.
Proof. intros E1 E2 [F1 F2 F3 F4]. constructor; now rewrite ?E1, ?E2. Qed.

Lemma adopt_fits K nI A F C Ps w d s : pf_init A F C Ps w = Ok d -> p2_ok K nI (p2_adopt d s) -> (0 < length (p2_X s))%nat ->
  ref_fits K nI (p2_adopt d s).
Proof.
  intros E H Hn. apply pf_init_again in E. destruct (adopt_reads d s) as (RA & RB & RC & RP).
  rewrite <- RA, <- RB, <- RC, <- RP in E. set (s' := p2_adopt d s) in *.
  destruct (p2_mats H) as (HM & HL & Hrows). assert (Hn' : (0 < length (p2_X s'))%nat) by exact Hn. clear Hn. rename Hn' into Hn.
  assert (Hne : p2_Ps s' <> []) by (intros E0; rewrite E0 in HL; rewrite <- HL in Hn; cbn [length] in Hn; lia).
  destruct (@pf_init_ok nI K (p2_A s') (p2_B s') (p2_C s') (p2_Ps s') (ev_warning (pf_ev d)) K (ok_A H) (ok_B H) HM Hne) as (b & E' & Hb).
  rewrite E in E'. injection E' as Ed. 
  assert (Hr : forall k, (k < length (p2_X s'))%nat -> nrows (nth k (p2_Ps s') m0) = width (p2_X s') k).
  { intros k Hk. apply (is_mat_nrows (ok_P H Hk)). }
  assert (Hhd : nrows (hd m0 (p2_Ps s')) = width (p2_X s') 0).
  { rewrite <- (Hr 0%nat Hn). destruct (p2_Ps s'); reflexivity. }
  assert (ER : ev_rank (pf_ev d) = K) by (rewrite Ed; reflexivity).
  assert (ES : ev_same (pf_ev d) = b) by (rewrite Ed; reflexivity).
  assert (EH : ev_slice_shapes (pf_ev d) = map (fun P => (nI, nrows P)) (p2_Ps s')) by (rewrite Ed; reflexivity).
  assert (EN : ev_num_elements (pf_ev d) = list_sum (rows (p2_Ps s'))) by (rewrite Ed; reflexivity).
  constructor.
  - exact ER.
  - change (pr_same (p2_ref s')) with (ev_same (pf_ev d)). rewrite ES, Hb. unfold same_rows. rewrite Hhd. split.
    + intros HS k Hk. rewrite <- (Hr k Hk). apply HS. apply nth_In. now rewrite HL.
    + intros HS P Hin. apply (In_nth _ _ m0) in Hin as (k & Hk & <-). rewrite HL in Hk. rewrite (Hr k Hk). now apply HS.
  - change (pr_shapes (p2_ref s')) with (ev_slice_shapes (pf_ev d)). rewrite EH.
    transitivity (map (fun n => (nI, n)) (rows (p2_Ps s'))); [unfold rows; now rewrite map_map|].
    rewrite Hrows, map_map. reflexivity.
  - change (pr_num (p2_ref s')) with (ev_num_elements (pf_ev d)). now rewrite EN, Hrows.
Qed.

Lemma p2_kinds_plain (l : list (logger p2_state)) : (forall lg, In lg l -> exists k, p2_code_logger ps k lg) -> plain_classes (classes_of l).
Proof.
  intros H c i Hin E. apply in_map_iff in Hin as (lg & <- & Hlg). destruct (H lg Hlg) as (k & Hc & _). rewrite Hc in E.
  destruct k; discriminate.
Qed.

(** *** C75: every loop completes *)
Lemma loop_completes K nI cf ds : let s := ds_num ds in
  p2_ok K nI s -> ref_fits K nI s -> unconstrained ps -> ps_rank ps = K -> ps_ridge ps = None ->
  svd_works_on K K (env_svd cenv) -> workable svd K (p2_X s) -> (0 < nI)%nat -> (0 < K)%nat -> (0 < length (p2_X s))%nat ->
  (0 <= ds_it ds)%Z -> (forall lg, In lg (ds_logs ds) -> exists k, p2_code_logger ps k lg) ->
  cf_print cf <> 0%Z -> checkpoints_fit cf (Z.max (ds_it ds) (ds_max ds)) ds ->
  exists ds' s0 n, pf_fit_loop md cf ds = (ds', None) /\ p2_prepare env ps s = (s0, None) /\
    ds_num ds' = state_after md s0 n /\ ds_it ds' = (ds_it ds + Z.of_nat n)%Z /\ (n <= Z.to_nat (ds_max ds - ds_it ds))%nat /\
    (n = Z.to_nat (ds_max ds - ds_it ds) \/ pf_stops md cf (ds_prev ds) (ds_rel ds) s0 n = Ok true) /\
    p2_ok K nI s0 /\ linked K s0 /\ p2_X s0 = p2_X s /\ p2_A s0 = p2_A s /\ p2_B s0 = p2_B s /\ p2_C s0 = p2_C s /\
    p2_Ps s0 = p2_Ps s /\ p2_ok K nI (ds_num ds') /\ p2_X (ds_num ds') = p2_X s /\ p2_ref (ds_num ds') = p2_ref s.
Proof.
  intros s H HF HU HK HR Hsvd HW HnI HK0 HnX Hit Hlg Hpr Hck.
  destruct (prepare_ok env H HU HK HnI HK0 HnX) as (c & EP & HL).
  set (s0 := p2_with_inner c (p2_with_cpf [pr_A (p2_ref s); pr_B (p2_ref s); pr_C (p2_ref s)] s)) in *.
  assert (H0 : p2_ok K nI s0) by (destruct H; constructor; auto).
  pose proof (@run_safe K nI s0 H0 HL HW HK HR Hsvd HnI HK0 HnX) as HRun.
  assert (HQ : quiet md (with_num s0 ds) (Z.to_nat (ds_max ds - ds_it ds))).
  { cbn [with_num ds_num ds_logs]. split; [|split].
    - intros k _. destruct (HRun k) as (Hk & _). pose proof (p2_loss_ok ps Hk) as EL. eexists.
      exact (f_equal (fun r => bind r (fun l => Ok (Fin l))) EL).
    - intros k _. apply (HRun k).
    - intros k lg _ Hin. destruct (Hlg lg Hin) as (kd & _ & ->). destruct (HRun (S k)) as (Hk & _). apply (p2_metric_total kd Hk). }
  assert (HN : snd (pf_fit_loop md cf ds) = None).
  { destruct Hck as [Hf|(Hf & f & Hfile & Hready & Hun)].
    - apply (@pf_quiet_neg _ _ md cf ds s0); auto.
    - destruct (pf_fit_loop md cf ds) as [ds' e] eqn:EL. cbn [snd].
      destruct (@pf_run_lemma _ _ md cf ds s0 f ds' e Hf) as [_ K2]; auto.
      + left. exists "Parafac2_ALS"%string. reflexivity.
      + now apply p2_kinds_plain.
      + intros k. destruct (HRun k) as (Hk & _ & EX & _ & ER & _). apply (p2_storable Hk).
        * apply (ref_fits_same (s := s0)); auto. apply (ref_fits_same (s := s)); auto.
        * now rewrite EX.
      + intros j Hj. apply Hun. lia. }
  destruct (pf_fit_loop md cf ds) as [ds' e] eqn:EL. cbn [snd] in HN. subst e.
  destruct (@pf_fit_lemma _ _ md cf ds ds' None s0 EP EL) as (n & Hn & En & _ & Hc).
  destruct (Hc eq_refl) as [Hc1 Hc2]. destruct (HRun n) as (Hk & _ & EX & _ & ER & _).
  exists ds', s0, n. rewrite En, EX, ER. repeat (split; [first [assumption|reflexivity]|]). reflexivity.
Qed.

Lemma p2_random_completes K nI cf disk draws Xs max_its arg ds : lower (ps_init ps) = "random"%string ->
  unconstrained ps -> ps_rank ps = K -> ps_ridge ps = None -> (0 < nI)%nat -> (0 < K)%nat -> slices_ok nI Xs -> draws_ok K nI Xs draws ->
  (forall k, (k < length Xs)%nat -> (K <= width Xs k)%nat /\ qr_works_on (width Xs k) K (env_qr cenv)) ->
  svd_works_on K K (env_svd cenv) -> workable svd K Xs ->
  let budget := match max_its with Some m => m | None => ds_max ds end in
  (0 < budget)%Z -> (forall lg, In lg (ds_logs ds) -> exists k, p2_code_logger ps k lg) ->
  cf_print cf <> 0%Z -> checkpoints_fit cf budget ds ->
  exists ds1 ds' s0, p2_init_fit env ps disk draws (Slices Xs) max_its arg ds = (ds1, None) /\
    p2_fit env ps cf disk draws (Slices Xs) max_its arg ds = (ds', None) /\ p2_prepare env ps (ds_num ds1) = (s0, None) /\
    p2_ok K nI s0 /\ linked K s0 /\ p2_X s0 = Xs /\
    ds_num ds' = state_after md s0 (Z.to_nat (ds_it ds')) /\
    p2_ok K nI (ds_num ds') /\ p2_X (ds_num ds') = Xs /\ (0 <= ds_it ds' <= budget)%Z /\
    ((ds_it ds' < budget)%Z -> pf_stops md cf (ds_prev ds1) PInf s0 (Z.to_nat (ds_it ds')) = Ok true).
Proof.
  intros Hi HU HK HR HnI HK0 HX HD Hqr Hsvd HW budget Hb Hlg Hpr Hck.
  destruct (@random_init_fit_ok env ps K nI disk draws Xs max_its arg ds Hi HK HK0 HR HX HD Hqr)
    as (ds1 & E1 & H1 & _ & EX1 & _ & _ & _ & _ & Ei1 & Em1). fold budget in Em1.
  assert (HnX : (0 < length Xs)%nat) by (destruct HX as [Hne _]; destruct Xs; [congruence|cbn; lia]).
  assert (Hs1 : ds_logs ds1 = ds_logs ds /\ ds_file ds1 = ds_file ds /\ ds_rel ds1 = PInf /\
    exists d s A F C Ps w, ds_num ds1 = p2_adopt d s /\ pf_init A F C Ps w = Ok d /\ p2_X s = Xs).
  { revert E1. unfold p2_init_fit, p2_init_components. rewrite Hi. cbn [ds_num with_it with_num String.eqb Ascii.eqb Bool.eqb].
    destruct (p2_set_target (Slices Xs) (ds_num ds)) as [s|] eqn:ET; [|discriminate]. cbn [with_num ds_num].
    unfold p2_init_random. destruct draws as [|A [|C Ns]]; [discriminate|discriminate|].
    destruct (mapM _ Ns) as [Ps|]; [|discriminate]. cbn [bind].
    destruct (pf_init A _ _ Ps false) as [d|] eqn:Ed; [|discriminate]. cbn [bind].
    destruct (p2_loss ps _); [|discriminate]. intros E. injection E as <-.
    split; [destruct max_its; reflexivity|]. split; [destruct max_its; reflexivity|]. split; [reflexivity|].
    exists d, s, A. do 4 eexists. split; [destruct max_its; reflexivity|]. split; [exact Ed|].
    revert ET. unfold p2_set_target. cbn [bind]. destruct (p2_X_shape Xs); [|discriminate]. cbn [bind]. intros E. now injection E as <-. }
  destruct Hs1 as (Elog & Efile & Erel & d & s & A & F & C & Ps & w & Ea & Ed & Es).
  assert (HF : ref_fits K nI (ds_num ds1)).
  { rewrite Ea in H1 |- *. apply (adopt_fits Ed H1). now rewrite Es. }
  destruct (@loop_completes K nI cf ds1 H1 HF) as (ds' & s0 & n & EL & EP & En & Eit & Hn & Hc & G1 & G2 & G3 & _ & _ & _ & _ & G4 & G5 & _);
    rewrite ?EX1, ?Elog, ?Ei1, ?Em1; auto; try lia.
  { rewrite Z.max_r by lia. destruct Hck as [Hf|(Hf & f & Hfile & Hready & Hun)]; [now left|right].
    split; [exact Hf|]. exists f. rewrite Efile, Elog. auto. }
  rewrite Ei1, Em1 in *.
  exists ds1, ds', s0. split; [exact E1|]. split; [unfold p2_fit; rewrite E1; exact EL|]. split; [exact EP|].
  split; [exact G1|]. split; [exact G2|]. split; [congruence|].
  assert (Z.to_nat (ds_it ds') = n) as -> by lia. split; [exact En|]. split; [exact G4|]. split; [congruence|].
  split; [lia|]. intros Hlt. rewrite <- Erel. destruct Hc as [->|Hc]; [lia|exact Hc].
Qed.
End Safe.

(** *** C76: what the projections of a fit are *)
Lemma first_check env ps cf p0 s n : pf_stops (p2_model env ps) cf p0 PInf s n = Ok true -> (0 < n)%nat.
Proof. destruct n; [|lia]. unfold pf_stops. cbn. discriminate. Qed.

Lemma orth_gram K w P B a b : is_mat w K P -> orth_cols w K (mget P) -> (a < K)%nat -> (b < K)%nat ->
  slice_gram K w P B a b = sum K (fun r => mget B r a * mget B r b).
Proof.
  intros HP HO Ha Hb. pose proof (is_mat_nrows HP) as Hn. rewrite <- Hn in HO.
  rewrite <- (@projected_gram K K B P a b HO Ha Hb). rewrite Hn. unfold slice_gram. apply sum_ext. intros j Hj.
  unfold projected. rewrite Hn. now rewrite !mget_tab2 by auto.
Qed.
Lemma zero_gram K w B a b : slice_gram K w (np_zeros [w; K]) B a b = 0.
Proof.
  unfold slice_gram. apply sum_zero. intros j Hj. unfold mprod.
  rewrite (@sum_zero K (fun k => mget (np_zeros [w; K]) j k * mget B k a)); [ring|].
  intros r Hr. rewrite mget_zeros by auto. ring.
Qed.

(** *** Slices with fewer columns than components *)
Section Narrow.
Variables (env : p2_env) (ps : p2_settings).

Lemma mapM_fails {A B : Type} (f : A -> res B) e l : (forall x, In x l -> (exists y, f x = Ok y) \/ f x = Err e) ->
  (exists x, In x l /\ f x = Err e) -> mapM f l = Err e.
Proof.
  induction l as [|x l IH]; intros H (y & Hin & E); [destruct Hin|]. cbn [mapM].
  destruct (H x (or_introl eq_refl)) as [(z & Ez)|Ez]; rewrite Ez; cbn [bind]; [|reflexivity].
  destruct Hin as [->|Hin].
  - congruence.
  - rewrite IH; [reflexivity| |exists y; auto]. intros w Hw. apply H. now right.
Qed.
Lemma narrow_drawn K Ns Xs : length Ns = length Xs ->
  (forall k, (k < length Xs)%nat -> qr_works_on (width Xs k) K (env_qr (pe_cp env)) /\ is_mat (width Xs k) K (nth k Ns m0)) ->
  exists Ps, mapM (fun N => do Q <- env_qr (pe_cp env) N ; first_columns Q K) Ns = Ok Ps /\ length Ps = length Xs /\
    forall k, (k < length Xs)%nat -> is_mat (width Xs k) (Nat.min (width Xs k) K) (nth k Ps m0).
Proof.
  revert Xs. induction Ns as [|N Ns IH]; intros [|X Xs] Hl H; cbn in Hl; try lia.
  { exists []. split; [reflexivity|]. split; [reflexivity|]. cbn. lia. }
  destruct (IH Xs) as (Ps & E & El & HP); [lia| |].
  { intros k Hk. apply (H (S k)). cbn. lia. }
  destruct (H 0%nat) as (Hqr & HN); [cbn; lia|]. cbn [nth] in HN. set (w := width (X :: Xs) 0) in *.
  destruct (Hqr N HN) as (Q & EQ & HQ & HO).
  assert (EF : exists Q', first_columns Q K = Ok Q' /\ is_mat w (Nat.min w K) Q').
  { unfold first_columns. assert (Hc : ncols Q = Nat.min w K) by (unfold ncols; now rewrite (proj2 HQ)). rewrite Hc.
    rewrite (Nat.min_r K) by lia. unfold take_cols. rewrite (proj2 HQ). rewrite (proj2 (forallb_forall _ _)).
    2:{ intros x Hx. apply in_seq in Hx. apply Nat.ltb_lt. lia. }
    rewrite seq_length. eexists. split; [reflexivity|]. apply is_mat_tab2. }
  destruct EF as (Q' & EF & HQ').
  exists (Q' :: Ps). cbn [mapM]. rewrite EQ. cbn [bind]. rewrite EF. cbn [bind]. rewrite E. cbn [bind].
  split; [reflexivity|]. split; [cbn; lia|]. intros [|k] Hk; cbn [nth]; auto. apply HP. cbn in Hk. lia.
Qed.

Lemma narrow_raises K nI cf disk draws Xs max_its arg ds : lower (ps_init ps) = "random"%string -> ps_rank ps = K ->
  slices_ok nI Xs -> draws_ok K nI Xs draws ->
  (forall k, (k < length Xs)%nat -> qr_works_on (width Xs k) K (env_qr (pe_cp env))) ->
  (exists k, (k < length Xs)%nat /\ (width Xs k < K)%nat) ->
  snd (p2_fit env ps cf disk draws (Slices Xs) max_its arg ds) = Some ValueError.
Proof.
  intros Hi HK [Hne HX] (A & C & Ns & -> & HA & HC & HNl & HN) Hqr (k0 & Hk0 & Hw0).
  assert (H0 : (0 < length Xs)%nat) by lia.
  assert (ET : exists s, p2_set_target (Slices Xs) (ds_num ds) = Ok s).
  { unfold p2_set_target, p2_X_shape. cbn [bind].
    rewrite (@list_get_ok _ Xs 0%nat m0 H0). cbn [bind]. pose proof (HX 0%nat H0) as HX0.
    unfold np_len. rewrite (proj2 HX0). cbn [bind].
    rewrite (@mapM_ok nd nat (fun Xk => shape_at Xk 1) ncols).
    - cbn [bind]. eexists. reflexivity.
    - intros X Hin. apply (In_nth _ _ m0) in Hin as (k & Hk & <-). unfold shape_at, ncols. now rewrite (proj2 (HX k Hk)). }
  destruct ET as (s & ET).
  destruct (@narrow_drawn K Ns Xs HNl) as (Ps & EP & HPl & HP); [auto|].
  assert (ER : p2_init_random env ps (A :: C :: Ns) s = Err ValueError).
  { unfold p2_init_random. rewrite HK, EP. cbn [bind]. unfold pf_init, shape_at. rewrite (proj2 HA). cbn [nth_error bind].
    assert (HS : forall P, In P Ps -> exists n, shape P = [n; Nat.min n K]).
    { intros P Hin. apply (In_nth _ _ m0) in Hin as (k & Hk & <-). rewrite HPl in Hk. eexists. apply (HP k Hk). }
    assert (EC : exists b, check_all_same_size Ps = Ok b).
    { unfold check_all_same_size. rewrite (@list_get_ok _ Ps 0%nat m0) by lia. cbn [bind].
      destruct (HS (nth 0 Ps m0)) as (n & En); [apply nth_In; lia|].
      unfold shape_at at 1. rewrite En. cbn [nth_error bind].
      rewrite (@mapM_ok nd nat (fun B => shape_at B 0) nrows); [cbn [bind]; eauto|].
      intros P Hin. destruct (HS P Hin) as (m & Em). unfold shape_at, nrows. now rewrite Em. }
    destruct EC as (b & ->). cbn [bind].
    unfold projected_factor. rewrite (@mapM_fails nd nd (fun P => matmul P (np_identity K)) ValueError Ps); [reflexivity| |].
    - intros P Hin. destruct (HS P Hin) as (n & En). unfold matmul. rewrite En. change (shape (np_identity K)) with [K; K]. cbn beta iota.
      destruct (Nat.eqb (Nat.min n K) K); [left; eauto|now right].
    - exists (nth k0 Ps m0). split; [apply nth_In; lia|]. unfold matmul. rewrite (proj2 (HP k0 Hk0)). change (shape (np_identity K)) with [K; K]. cbn beta iota.
      destruct (Nat.eqb_spec (Nat.min (width Xs k0) K) K); [lia|reflexivity]. }
  unfold p2_fit, p2_init_fit. cbn [ds_num with_it]. rewrite ET. unfold p2_init_components. rewrite Hi.
  cbn [ds_num with_num String.eqb Ascii.eqb Bool.eqb]. rewrite ER. reflexivity.
Qed.
End Narrow.

Lemma not_wide K Xs : ~ wide K Xs -> exists k, (k < length Xs)%nat /\ (width Xs k < K)%nat.
Proof.
  intros H. destruct (existsb (fun k => Nat.ltb (width Xs k) K) (seq 0 (length Xs))) eqn:E.
  - apply existsb_exists in E as (k & Hin & Hlt). apply in_seq in Hin. apply Nat.ltb_lt in Hlt. exists k. split; [lia|exact Hlt].
  - exfalso. apply H. intros k Hk. destruct (Nat.ltb_spec (width Xs k) K) as [Hlt|]; [|assumption]. exfalso.
    apply Bool.not_true_iff_false in E. apply E. apply existsb_exists. exists k. split; [apply in_seq; lia|]. now apply Nat.ltb_lt.
Qed.

(** *** Whole fits *)
Lemma plain_completes env ps K nI cf disk draws Xs max_its arg ds :
  let budget := match max_its with Some m => m | None => ds_max ds end in
  plain_fit env ps K nI draws Xs -> plain_run ps cf budget ds -> wide K Xs ->
  exists ds' s0 n, p2_fit env ps cf disk draws (Slices Xs) max_its arg ds = (ds', None) /\
    ds_it ds' = Z.of_nat (S n) /\ (ds_it ds' <= budget)%Z /\ p2_ok K nI s0 /\ linked K s0 /\ p2_X s0 = Xs /\
    ds_num ds' = state_after (p2_model env ps) s0 (S n) /\ p2_ok K nI (ds_num ds') /\ p2_X (ds_num ds') = Xs /\
    Some (p2_A s0) = nth_error draws 0 /\ p2_B s0 = np_identity K /\
    Some (p2_C s0) = option_map (np_map (fun x => x + / 10)) (nth_error draws 1).
Proof.
  intros budget [Hi Hnn Ho Hr Hrd [HnI HK] HX HD Hqr Hsvd HW] [Hb Hlg Hpr Hck] Hwide.
  assert (HU : unconstrained ps) by (split; auto).
  destruct (@p2_random_completes env ps K nI cf disk draws Xs max_its arg ds Hi HU Hr Hrd HnI HK HX HD)
    as (ds1 & ds' & s0 & E1 & E & EP & H0 & HL & EX & En & H' & EX' & Hit & Hst); auto.
  assert (Hpos : (0 < ds_it ds')%Z).
  { destruct (Z.eq_dec (ds_it ds') budget) as [->|Hne]; [exact Hb|].
    assert (Hlt : (ds_it ds' < budget)%Z) by (unfold budget; lia). apply first_check in Hst; auto. lia. }
  destruct (@random_init_fit_ok env ps K nI disk draws Xs max_its arg ds Hi Hr HK Hrd HX HD)
    as (ds1' & E1' & H1 & _ & EX1 & _ & EA & EB & EC & _); auto.
  rewrite E1 in E1'. injection E1' as <-.
  destruct (@prepare_ok env ps K nI (ds_num ds1) H1 HU Hr HnI HK) as (c & EP' & _).
  { rewrite EX1. destruct HX as [Hne _]. destruct Xs; [congruence|cbn; lia]. }
  rewrite EP in EP'. injection EP' as Es0.
  exists ds', s0, (Z.to_nat (ds_it ds') - 1)%nat.
  assert (Z.to_nat (ds_it ds') = S (Z.to_nat (ds_it ds') - 1)) as En' by lia. rewrite <- En'.
  split; [exact E|]. split; [lia|]. split; [apply Hit|]. repeat (split; [assumption|]).
  rewrite Es0. split; [exact EA|]. split; [exact EB|exact EC].
Qed.

Lemma plain_projections env ps K nI cf disk draws Xs max_its arg ds ds' e :
  let budget := match max_its with Some m => m | None => ds_max ds end in
  plain_fit env ps K nI draws Xs -> plain_run ps cf budget ds -> wide K Xs ->
  p2_fit env ps cf disk draws (Slices Xs) max_its arg ds = (ds', e) ->
  exists t, p2_update env ps t = (ds_num ds', None) /\ p2_X t = Xs /\
    (forall k, (k < length Xs)%nat -> let w := width Xs k in let P := nth k (p2_Ps (ds_num ds')) m0 in
      let M := cross K nI (p2_A t) (p2_B t) (p2_C t) Xs k in
      is_mat w K P /\ (orth_cols w K (mget P) <-> untruncated (env_svd (pe_cp env)) w K M) /\
      (untruncated (env_svd (pe_cp env)) w K M -> forall Q, orth_cols w K Q ->
         slice_err K nI (p2_A t) (p2_B t) (p2_C t) Xs k (mget P) <= slice_err K nI (p2_A t) (p2_B t) (p2_C t) Xs k Q) /\
      (zero_slice nI Xs k -> P = np_zeros [w; K])) /\
    projected_err K nI (p2_A (ds_num ds')) (p2_B (ds_num ds')) (p2_C (ds_num ds')) Xs (p2_Ps (ds_num ds')) <=
    projected_err K nI (p2_A t) (p2_B t) (p2_C t) Xs (p2_Ps (ds_num ds')).
Proof.
  intros budget HF HN HWd E.
  destruct (@plain_completes env ps K nI cf disk draws Xs max_its arg ds HF HN HWd)
    as (ds'' & s0 & n & E' & _ & _ & H0 & HL & EX & En & _). rewrite E in E'. injection E' as <- ->.
  destruct HF as [Hi Hnn Ho Hr Hrd [HnI HK] HX HD Hqr Hsvd HW].
  assert (HnX : (0 < length Xs)%nat) by (destruct HX as [Hne _]; destruct Xs; [congruence|cbn; lia]).
  destruct (@run_safe env ps K nI s0 H0 HL) with (n := n) as (_ & _ & EXt & _ & _ & EU & HP & Hle); rewrite ?EX; auto.
  rewrite EX in EXt, HP, Hle.
  set (t := state_after (p2_model env ps) s0 n) in *. exists t. rewrite En. cbn [state_after]. fold t.
  change (state_after (p2_model env ps) s0 (S n)) with (fst (md_update (p2_model env ps) t)) in HP, Hle.
  change (md_update (p2_model env ps)) with (p2_update env ps) in *.
  split; [rewrite (surjective_pairing (p2_update env ps t)); now rewrite EU|]. split; [exact EXt|]. split; [|exact Hle].
  intros k Hk. destruct (HP k Hk) as [Q1 Q2 Q3 Q4]. rewrite EXt in Q1, Q2, Q3, Q4.
  pose proof (HWd k Hk) as Hw. auto.
Qed.
