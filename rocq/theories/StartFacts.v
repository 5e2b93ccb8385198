(** Starting values, checks and losses that the other files only use in special cases (C46, C48, C55, C58, C64). *)
From Verif Require Export CPComplete CMTFResume Parafac2Run.
Set Implicit Arguments.
Unset Strict Implicit.
Local Open Scope R_scope.

(** *** Random starts *)
Lemma random_start env cs K disk draws X ds : lower (cs_init cs) = "random"%string ->
  data_ok X -> factors_ok K X draws ->
  (match cp_nn (ds_num ds) with Some l => (length l <= length draws)%nat | None => True end) ->
  exists ds', cp_init_components env cs disk draws NoArg (targeted X ds) = (ds', None) /\
    factors_ok K X (kt_fms (cp_dec (ds_num ds'))) /\
    forall m, (m < length draws)%nat ->
    let D := nth m draws m0 in
    let U := nth m (kt_fms (cp_dec (ds_num ds'))) m0 in
    let isnn := match cp_nn (ds_num ds) with Some l => nth m l false | None => false end in
    forall i r, (i < nrows D)%nat -> (r < K)%nat ->
      mget U i r = if isnn then Rabs (mget D i r / (colnorm D r + eps15)) else mget D i r / (colnorm D r + eps15).
Proof.
  intros Hi HX HF Hnn. destruct (@random_components env cs K disk draws X ds Hi HX HF Hnn) as (k & E & HF' & _ & _ & Ef).
  exists (begun X ds k 0). split; [exact E|]. split; [exact HF'|]. intros m Hm D U isnn i r Hr Hk.
  unfold U. cbn [begun ds_num with_num cp_with_dec cp_dec]. rewrite Ef.
  rewrite (nth_indep _ _ (random_factor K (cp_nn (ds_num ds)) draws 0)) by (rewrite map_length, seq_length; exact Hm).
  rewrite map_nth, seq_nth by exact Hm. cbn [plus]. unfold random_factor. cbv zeta. unfold normalised.
  rewrite (nth_indep _ _ ((fun U => scaled eps15 (nrows U) K U) m0)) by (rewrite map_length; exact Hm).
  rewrite (map_nth (fun U => scaled eps15 (nrows U) K U)). fold D. fold isnn. unfold scaled.
  destruct isnn.
  - rewrite (@mget_map_abs (nrows D) K) by (auto; apply is_mat_tab2). now rewrite mget_tab2.
  - now rewrite mget_tab2.
Qed.

(** *** Orthonormal starts *)
Lemma orth_loop env K l : forall a d, (a + length l <= length (kt_fms d))%nat -> mats K (kt_fms d) ->
  (forall m, nth m l false = true -> let n := nrows (nth (a + m) (kt_fms d) m0) in (K <= n)%nat /\ qr_works_on n K (env_qr env)) ->
  exists d', foldM (cp_orthonormalise_step env) (combine (seq a (length l)) l) d = Ok d' /\
    kt_rank d' = kt_rank d /\ kt_w d' = kt_w d /\ length (kt_fms d') = length (kt_fms d) /\
    forall m, let U := nth m (kt_fms d) m0 in let Q := nth m (kt_fms d') m0 in
      if nth (m - a) l false && (a <=? m)%nat
      then env_qr env U = Ok Q /\ is_mat (nrows U) K Q /\ orth_cols (nrows U) K (mget Q) else Q = U.
Proof.
  induction l as [|b l IH]; intros a d Hle HU Hq.
  - exists d. cbn [length seq combine foldM]. repeat (split; [reflexivity|]). intros m. now destruct (m - a)%nat.
  - cbn [length] in Hle. cbn [length seq combine foldM cp_orthonormalise_step]. rewrite (@list_get_nth _ _ a m0) by lia. cbn [bind].
    assert (Hcase : exists d1, (if b then do Q <- env_qr env (nth a (kt_fms d) m0) ; Ok (kt_with_factor a Q d) else Ok d) = Ok d1 /\
      kt_rank d1 = kt_rank d /\ kt_w d1 = kt_w d /\ length (kt_fms d1) = length (kt_fms d) /\
      (forall m, m <> a -> nth m (kt_fms d1) m0 = nth m (kt_fms d) m0) /\
      let U := nth a (kt_fms d) m0 in let Q := nth a (kt_fms d1) m0 in
      if b then env_qr env U = Ok Q /\ is_mat (nrows U) K Q /\ orth_cols (nrows U) K (mget Q) else Q = U).
    { destruct b.
      - destruct (Hq 0%nat eq_refl) as [HK HQ]. rewrite Nat.add_0_r in *.
        destruct (HQ (nth a (kt_fms d) m0)) as (Q & EQ & HQ1 & HQ2); [apply nth_mats; [exact HU|lia]|].
        rewrite Nat.min_r in HQ1, HQ2 by exact HK.
        exists (kt_with_factor a Q d). rewrite EQ. cbn [bind]. split; [reflexivity|]. cbn [kt_with_factor kt_rank kt_w kt_fms].
        split; [reflexivity|]. split; [reflexivity|]. split; [apply length_replace_at|].
        split; [intros m Hm; apply nth_replace_at_neq; auto|]. cbv zeta. rewrite nth_replace_at_eq by lia. auto.
      - exists d. auto 10. }
    destruct Hcase as (d1 & E1 & Hr1 & Hw1 & Hl1 & Hne & Ha). rewrite E1. cbn [bind]. clear E1.
    destruct (IH (S a) d1) as (d' & E & Hr & Hw & Hl & HM).
    + rewrite Hl1. lia.
    + unfold mats in *. apply Forall_forall. intros V HV. apply (In_nth _ _ m0) in HV as (m & Hm & <-). rewrite Hl1 in Hm.
      destruct (Nat.eq_dec m a) as [->|Hma]; [|rewrite Hne by exact Hma; eapply Forall_forall in HU; [exact HU|now apply nth_In]].
      cbv zeta in Ha. destruct b; [|rewrite Ha; eapply Forall_forall in HU; [exact HU|now apply nth_In]].
      destruct Ha as (_ & Ha & _). now rewrite (is_mat_nrows Ha).
    + intros m Hm. specialize (Hq (S m) Hm). cbv zeta in *. rewrite Hne by lia. now replace (S a + m)%nat with (a + S m)%nat by lia.
    + exists d'. split; [exact E|]. split; [congruence|]. split; [congruence|]. split; [congruence|]. intros m. cbv zeta.
      specialize (HM m). cbv zeta in HM, Ha. destruct (Nat.leb_spec a m) as [H1|H1].
      * rewrite Bool.andb_true_r. destruct (Nat.eq_dec m a) as [->|Hma].
        -- rewrite Nat.sub_diag. cbn [nth]. replace (S a <=? a)%nat with false in HM by (symmetry; apply Nat.leb_gt; lia).
           rewrite Bool.andb_false_r in HM. rewrite HM. exact Ha.
        -- rewrite Hne in HM by exact Hma. replace (S a <=? m)%nat with true in HM by (symmetry; apply Nat.leb_le; lia).
           rewrite Bool.andb_true_r in HM. replace (m - a)%nat with (S (m - S a)) by lia. exact HM.
      * rewrite Bool.andb_false_r. replace (S a <=? m)%nat with false in HM by (symmetry; apply Nat.leb_gt; lia).
        rewrite Bool.andb_false_r in HM. rewrite HM. apply Hne. lia.
Qed.

Lemma orth_start env cs K disk draws X max_its arg ds l :
  cs_rank cs = K -> data_ok X -> usable_start env cs K X draws arg ->
  (match cp_nn (ds_num ds) with Some l => (length l <= length (shape X))%nat | None => True end) ->
  cp_orth (ds_num ds) = Some l -> (length l <= length (shape X))%nat -> cp_last (ds_num ds) = None ->
  (forall m, nth m l false = true -> (K <= nth m (shape X) 0)%nat /\ qr_works_on (nth m (shape X) 0%nat) K (env_qr env)) ->
  exists d0 ds1, cp_init_components env cs disk draws arg (targeted X ds) = (d0, None) /\
    cp_init_fit env cs disk draws X max_its arg ds = (ds1, None) /\ cp_coherent K (ds_num ds1) /\ unit_w K (ds_num ds1) /\
    (forall m, (m < length (shape X))%nat ->
      let n := nth m (shape X) 0%nat in
      let U := nth m (kt_fms (cp_dec (ds_num d0))) m0 in
      let Q := nth m (kt_fms (cp_dec (ds_num ds1))) m0 in
      if nth m l false then env_qr env U = Ok Q /\ orth_cols n K (mget Q) else Q = U) /\
    ds_prev ds1 = Fin (sse X (kt_fms (cp_dec (ds_num ds1))) unit_weights K).
Proof.
  intros HK HX HS Hnn HO Hlen HL Hq.
  destruct (@usable_begun env cs K disk draws X arg ds HK HX HS Hnn) as (k & E & HF & Hw & HR).
  destruct (reset_weights_ok Hw) as [HW1 HW2]. pose proof HF as [HU Hr]. pose proof (mode_len Hr) as Hml.
  assert (Hnr : forall m, (m < length (shape X))%nat -> nrows (nth m (kt_fms k) m0) = nth m (shape X) 0%nat).
  { intros m Hm. rewrite <- Hr. unfold rows. rewrite (nth_indep _ 0%nat (nrows m0)) by (rewrite map_length; lia). symmetry. apply map_nth. }
  destruct (@orth_loop env K l 0 (kt_reset_weights k)) as (d' & E' & Hr' & Hw' & Hl' & HM).
  { cbn [kt_reset_weights kt_fms]. lia. }
  { exact HU. }
  { intros m Hm. cbn [plus kt_reset_weights kt_fms]. cbv zeta.
    assert (Hlt : (m < length l)%nat). { destruct (Nat.lt_ge_cases m (length l)); auto. rewrite nth_overflow in Hm by auto. discriminate. }
    rewrite Hnr by lia. now apply Hq. }
  set (s0 := cp_with_dec (kt_reset_weights k) (ds_num (begun X ds k 0))).
  set (s1 := cp_with_constraints (or_unconstrained (cp_nn s0) s0) (or_unconstrained (cp_orth s0) s0) s0).
  assert (EO : cp_orthonormalise env s1 = Ok (cp_with_dec d' s1)).
  { unfold cp_orthonormalise. unfold s1 at 1, s0 at 1. cbn [cp_with_constraints cp_orth].
    unfold s0. cbn [cp_with_dec cp_orth begun ds_num with_num targeted cp_with_target]. rewrite HO. cbn [or_unconstrained not_none bind].
    change (cp_dec s1) with (kt_reset_weights k). rewrite E'. reflexivity. }
  assert (HMats : forall m, (m < length (shape X))%nat -> is_mat (nth m (shape X) 0%nat) K (nth m (kt_fms d') m0)).
  { intros m Hm. specialize (HM m). cbv zeta in HM. cbn [kt_reset_weights kt_fms] in HM.
    destruct (_ && _); [|rewrite HM]; rewrite <- Hnr by exact Hm; [apply HM|]. apply nth_mats; [exact HU|lia]. }
  assert (HF' : factors_ok K X (kt_fms d')).
  { cbn [kt_reset_weights kt_fms] in Hl'. split.
    - unfold mats. apply Forall_forall. intros V HV. apply (In_nth _ _ m0) in HV as (m & Hm & <-).
      specialize (HMats m ltac:(lia)). now rewrite (is_mat_nrows HMats).
    - apply (nth_ext _ _ 0%nat 0%nat); unfold rows; rewrite map_length; [lia|]. intros m Hm.
      rewrite (nth_indep _ 0%nat (nrows m0)) by (rewrite map_length; lia). rewrite map_nth.
      now rewrite (is_mat_nrows (HMats m ltac:(lia))). }
  set (s2 := cp_with_dec d' s1).
  assert (HC : cp_coherent K s2).
  { constructor; auto.
    - cbn. rewrite Hw'. exact HW1.
    - cbn. rewrite HL. discriminate. }
  set (l0 := sse X (kt_fms d') unit_weights K).
  assert (ES : cp_SSE env s2 = Ok l0).
  { rewrite (cp_SSE_ok env HC). f_equal. apply sse_ext. intros r Hr0. cbn. rewrite Hw'. now apply HW2. }
  exists (begun X ds k 0),
    (with_conv PInf (Fin l0) (with_num (cp_with_cache (cp_last s2) None s2)
       (match max_its with Some m => with_max m (begun X ds k 0) | None => begun X ds k 0 end))).
  split; [exact E|]. split; [|split; [|split; [|split]]].
  - unfold cp_init_fit. fold (targeted X ds). rewrite E.
    assert (En : ds_num (match max_its with Some m => with_max m (begun X ds k 0) | None => begun X ds k 0 end) = ds_num (begun X ds k 0))
      by (destruct max_its; reflexivity).
    rewrite En. change (kt_reset_weights (cp_dec (ds_num (begun X ds k 0)))) with (kt_reset_weights k).
    fold s0. fold s1. rewrite EO. fold s2. rewrite ES. reflexivity.
  - destruct HC; constructor; auto. cbn. rewrite HL. discriminate.
  - intros r Hr0. cbn. rewrite Hw'. now apply HW2.
  - intros m Hm. cbv zeta. specialize (HM m). cbv zeta in HM. rewrite Nat.sub_0_r in HM. cbn [Nat.leb] in HM.
    rewrite Bool.andb_true_r in HM. cbn [kt_reset_weights kt_fms] in HM.
    change (kt_fms (cp_dec (ds_num (begun X ds k 0)))) with (kt_fms k).
    change (kt_fms (cp_dec (ds_num (with_conv PInf (Fin l0) _)))) with (kt_fms d').
    rewrite Hnr in HM by exact Hm. destruct (nth m l false); [|exact HM]. split; apply HM.
  - reflexivity.
Qed.

(** *** Loading a CMTF checkpoint *)
Lemma cmtf_load_at env cs f i d ds : stored_at (cmtf_model env cs) f i d -> final_attr f <> None ->
  fits_shape (cs_rank cs) (cp_X (cm_cp (ds_num ds))) (kt_fms d) ->
  exists ds', load_checkpoint (cmtf_model env cs) f (Some i) ds = (ds', None) /\
    cm_dec (ds_num ds') = d /\ cm_V (ds_num ds') = cm_V (ds_num ds) /\ ds_it ds' = i.
Proof.
  intros Hs Hf Hc. apply cp_check_iff in Hc.
  eexists. split; [exact (@load_at _ _ (cmtf_model env cs) f i d ds Hs Hf Hc)|]. repeat split; reflexivity.
Qed.

(** *** PARAFAC2 *)
Lemma combine_nth_both (A B : Type) (l : list A) (l' : list B) k a b : (k < length l)%nat -> (k < length l')%nat ->
  nth k (combine l l') (a, b) = (nth k l a, nth k l' b).
Proof. revert l' k. induction l as [|x l IH]; intros [|y l'] [|k]; cbn; intros; try lia; auto. apply IH; lia. Qed.
Lemma shape_at_mat n m U : is_mat n m U -> shape_at U 0 = Ok n /\ shape_at U 1 = Ok m.
Proof. intros [_ Hs]. unfold shape_at. now rewrite Hs. Qed.
Definition some_mat (U : nd) : Prop := exists n m, is_mat n m U.
Lemma is_mat_iff n m U a b : is_mat n m U -> (is_mat a b U <-> n = a /\ m = b).
Proof.
  intros H. split; [|intros [<- <-]; exact H]. intros [_ H1]. destruct H as [_ H2]. rewrite H2 in H1. injection H1 as -> ->. auto.
Qed.

Section Check.
Variable K : nat.
Definition size_test (U : nd) (len : nat) : res unit :=
  do n <- shape_at U 0 ; if negb (n =? len)%nat then Err ValueError else
  do k <- shape_at U 1 ; if negb (k =? K)%nat then Err ValueError else Ok tt.
Lemma size_test_iff U len : some_mat U ->
  (size_test U len = Ok tt <-> is_mat len K U) /\ (size_test U len = Ok tt \/ size_test U len = Err ValueError).
Proof.
  intros (n & m & H). destruct (shape_at_mat H) as [E1 E2]. unfold size_test. rewrite E1. cbn [bind]. rewrite (is_mat_iff len K H).
  destruct (Nat.eqb_spec n len); cbn [negb]; [rewrite E2; cbn [bind]; destruct (Nat.eqb_spec m K); cbn [negb]|];
    (split; [|auto]); split; try discriminate; tauto.
Qed.

Lemma slices_test nI l : (forall B X, In (B, X) l -> some_mat B /\ is_mat nI (ncols X) X) ->
  let r := foldM (fun _ '(B, Xk) =>
            do n <- shape_at B 0 ;
            do j <- shape_at Xk 1 ;
            if negb (n =? j)%nat then Err ValueError else
            do k <- shape_at B 1 ;
            if negb (k =? K)%nat then Err ValueError else Ok tt) l tt in
  (r = Ok tt <-> forall B X, In (B, X) l -> is_mat (ncols X) K B) /\ (r = Ok tt \/ r = Err ValueError).
Proof.
  induction l as [|[B X] l IH]; intros H; cbv zeta; cbn [foldM].
  { split; [|now left]. split; [intros _ B X []|reflexivity]. }
  destruct (H B X (or_introl eq_refl)) as [(n & m & HB) HX]. destruct (shape_at_mat HB) as [E1 E2].
  destruct (shape_at_mat HX) as [_ E3]. rewrite E1. cbn [bind]. rewrite E3. cbn [bind].
  assert (Hh : is_mat (ncols X) K B <-> n = ncols X /\ m = K) by now apply is_mat_iff.
  destruct (Nat.eqb_spec n (ncols X)) as [En|En]; cbn [negb bind].
  2:{ split; [|now right]. split; [discriminate|]. intros HA. specialize (HA B X (or_introl eq_refl)). tauto. }
  rewrite E2. cbn [bind]. destruct (Nat.eqb_spec m K) as [Em|Em]; cbn [negb bind].
  2:{ split; [|now right]. split; [discriminate|]. intros HA. specialize (HA B X (or_introl eq_refl)). tauto. }
  destruct IH as [I1 I2]; [intros B' X' HI; apply H; now right|]. split; [|exact I2]. rewrite I1. split.
  - intros HA B' X' [HI|HI]; [injection HI as <- <-; tauto|now apply HA].
  - intros HA B' X' HI. apply HA. now right.
Qed.
End Check.

Lemma p2_check_iff ps nI s d : slices_ok nI (p2_X s) -> some_mat (ev_A (pf_ev d)) -> some_mat (ev_C (pf_ev d)) ->
  (forall B, In B (ev_B (pf_ev d)) -> some_mat B) ->
  let K := ps_rank ps in
  (p2_check ps s d = Ok tt <->
   is_mat nI K (ev_A (pf_ev d)) /\ is_mat (length (p2_X s)) K (ev_C (pf_ev d)) /\
   forall k, (k < length (ev_B (pf_ev d)))%nat -> (k < length (p2_X s))%nat ->
     is_mat (width (p2_X s) k) K (nth k (ev_B (pf_ev d)) m0)) /\
  (p2_check ps s d = Ok tt \/ p2_check ps s d = Err ValueError).
Proof.
  intros [Hne HX] HA HC HB K. unfold p2_check.
  assert (Hpos : (0 < length (p2_X s))%nat) by (destruct (p2_X s); [congruence|cbn; lia]).
  rewrite (@list_get_nth _ _ 0 m0) by exact Hpos. cbn [bind]. destruct (HX 0%nat Hpos) as [_ HX0].
  unfold np_len. rewrite HX0. cbn [bind].
  destruct (size_test_iff K nI HA) as [A1 A2]. destruct (size_test_iff K (length (p2_X s)) HC) as [C1 C2].
  cbn [foldM]. fold K. fold (size_test K (ev_A (pf_ev d)) nI). fold (size_test K (ev_C (pf_ev d)) (length (p2_X s))).
  destruct A2 as [A2|A2]; rewrite A2 in *; cbn [bind].
  2:{ split; [|now right]. split; [discriminate|]. intros (H & _). apply A1 in H. discriminate. }
  destruct C2 as [C2|C2]; rewrite C2 in *; cbn [bind].
  2:{ split; [|now right]. split; [discriminate|]. intros (_ & H & _). apply C1 in H. discriminate. }
  destruct (@slices_test K nI (combine (ev_B (pf_ev d)) (p2_X s))) as [S1 S2].
  { intros B X HI. split; [apply HB; eapply in_combine_l; eauto|]. apply in_combine_r in HI.
    apply (In_nth _ _ m0) in HI as (k & Hk & <-). now apply HX. }
  split; [|exact S2]. rewrite S1. split.
  - intros H. split; [now apply A1|]. split; [now apply C1|]. intros k H1 H2. unfold width. apply H.
    rewrite <- (@combine_nth_both _ _ (ev_B (pf_ev d)) (p2_X s) k m0 m0) by auto. apply nth_In. rewrite combine_length. lia.
  - intros (_ & _ & H) B X HI. apply (In_nth _ _ (m0, m0)) in HI as (k & Hk & E). rewrite combine_length in Hk.
    rewrite combine_nth_both in E by lia. injection E as <- <-. apply H; lia.
Qed.

Lemma frob2_norm n m U : is_mat n m U -> frob2 n m (mget U) = norm U ^ 2.
Proof.
  intros H. rewrite norm_pow2, (norm2_mat H). unfold frob2. apply sum_ext. intros. apply sum_ext. intros. ring.
Qed.
Lemma p2_loss_ok ps K nI s : p2_ok K nI s ->
  p2_loss ps s = Ok (pf_sse K nI (p2_A s) (p2_B s) (p2_C s) (p2_X s) (p2_Ps s) +
    match ps_ridge ps with
    | None => 0
    | Some lams => nth 0 lams 0 * frob2 nI K (mget (p2_A s)) + nth 1 lams 0 * frob2 K K (mget (p2_B s)) +
                   nth 2 lams 0 * frob2 (length (p2_X s)) K (mget (p2_C s))
    end).
Proof.
  intros H. unfold p2_loss. rewrite (p2_SSE_ok H). cbn [bind]. f_equal. destruct (ps_ridge ps) as [lams|]; [|lra].
  rewrite (frob2_norm (ok_A H)), (frob2_norm (ok_B H)), (frob2_norm (ok_C H)).
  destruct lams as [|a [|b [|c lams]]]; cbn [combine fold_left nth]; ring.
Qed.

Lemma update_unit_weights env ps s s' : p2_update env ps s = (s', None) ->
  Forall (fun w => w = 1) (data (kt_w (cp_dec (p2_inner s')))).
Proof.
  unfold p2_update, and_then. destruct (p2_update_projections env s) as [s1 [e|]]; [discriminate|].
  destruct (p2_retarget env ps s1) as [s2 [e|]]; [discriminate|].
  destruct (run_all _ _ s2) as [s3 [e|]]; [discriminate|]. destruct (p2_scale_B s3) as [s4 [e|]]; [discriminate|].
  intros E. injection E as <-. unfold p2_unit_weights. cbn. apply Forall_map. apply Forall_forall. intros x _. ring.
Qed.
