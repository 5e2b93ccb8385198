(** What normalisations of CMTF_ALS that raise leave behind: lemmas for C106. *)
From Verif Require Export CmLeftSpec CMTFNorm CPInit.
From Verif Require Import Prelude Lin.
Set Implicit Arguments.
Unset Strict Implicit.
Local Open Scope R_scope.

Lemma scale_one_times K s n U V z : py_get (cm_fms s) z = Ok U -> is_mat n K U -> is_mat (nrows V) K V ->
  exists V', scale_one s (V, z) = Ok V' /\ times_lengths K U V V'.
Proof.
  intros E HU HV. cbn [scale_one]. rewrite E. cbn [bind]. pose proof (is_mat_norm_keep HU) as [HN1 HN2].
  pose proof (broadcast_mat_row Rmult HV HN1 HN2) as EB. change (broadcast Rmult) with np_mul in EB. rewrite EB. cbn [bind].
  rewrite (assign_full_mat HV (is_mat_tab2 _ _ _)). eexists. split; [reflexivity|]. split; [apply is_mat_tab2|].
  intros b r Hb Hr. rewrite mget_tab2 by auto. now rewrite (mget_norm_keep HU), clen_colnorm by auto.
Qed.

Lemma fst_combine_skip {A B : Type} (l : list A) : forall l' : list B,
  map fst (combine l l') ++ skipn (length (map fst (combine l l'))) l = l.
Proof. induction l as [|x l IH]; intros [|y l']; [reflexivity|reflexivity|reflexivity|]. cbn. now rewrite IH. Qed.

Lemma scaled_before K s : forall j Vs zs e, (j < length Vs)%nat -> (j < length zs)%nat ->
  (forall i, (i < j)%nat -> exists n U, py_get (cm_fms s) (nth i zs 0%Z) = Ok U /\ is_mat n K U /\ is_mat (nrows (nth i Vs m0)) K (nth i Vs m0)) ->
  py_get (cm_fms s) (nth j zs 0%Z) = Err e ->
  let l := scale_left s (combine Vs zs) in
  let Rs := l ++ skipn (length l) Vs in
  mapM (scale_one s) (combine Vs zs) = Err e /\ length Rs = length Vs /\
  (forall i, (i < j)%nat -> exists U, py_get (cm_fms s) (nth i zs 0%Z) = Ok U /\ times_lengths K U (nth i Vs m0) (nth i Rs m0)) /\
  (forall i, (j <= i)%nat -> nth i Rs m0 = nth i Vs m0).
Proof.
  induction j as [|j IH]; intros [|V Vs] [|z zs] e Hj Hz Hb He; cbn in Hj, Hz; try lia.
  - cbn in He. assert (E : scale_one s (V, z) = Err e) by (cbn [scale_one]; now rewrite He).
    cbn [combine mapM scale_left]. rewrite E. cbn [bind].
    pose proof (@fst_combine_skip _ _ (V :: Vs) (z :: zs)) as HR. cbn [combine] in HR.
    cbv zeta. rewrite HR. split; [reflexivity|]. split; [reflexivity|]. split; [intros; lia|reflexivity].
  - destruct (Hb 0%nat ltac:(lia)) as (n & U & EU & HU & HV). cbn [nth] in EU, HV.
    destruct (scale_one_times EU HU HV) as (V' & E & HT).
    destruct (IH Vs zs e ltac:(lia) ltac:(lia)) as (A & B & C & D).
    + intros i Hi. apply (Hb (S i)). lia.
    + exact He.
    + cbn [combine mapM scale_left]. rewrite E. cbn [bind]. rewrite A. cbn [bind]. split; [reflexivity|].
      cbn [length app skipn]. split; [cbn [length]; now rewrite B|]. split.
      * intros [|i] Hi; cbn [nth]; [eauto|]. apply C. lia.
      * intros [|i] Hi; [lia|]. cbn [nth]. apply D. lia.
Qed.

Lemma left_by_mode eps K s j e : (j < length (cm_V s))%nat -> (j < length (cm_modes s))%nat ->
  (forall i, (i < j)%nat -> exists n U, py_get (cm_fms s) (nth i (cm_modes s) 0%Z) = Ok U /\ is_mat n K U /\
     is_mat (nrows (nth i (cm_V s) m0)) K (nth i (cm_V s) m0)) ->
  py_get (cm_fms s) (nth j (cm_modes s) 0%Z) = Err e ->
  let t := cmtf_normalize_left eps s in
  cmtf_normalize eps s = Err e /\ cm_cp t = cm_cp s /\ cm_Y t = cm_Y s /\ cm_modes t = cm_modes s /\ length (cm_V t) = length (cm_V s) /\
  (forall i, (i < j)%nat -> exists U, py_get (cm_fms s) (nth i (cm_modes s) 0%Z) = Ok U /\
     times_lengths K U (nth i (cm_V s) m0) (nth i (cm_V t) m0)) /\
  (forall i, (j <= i)%nat -> nth i (cm_V t) m0 = nth i (cm_V s) m0).
Proof.
  intros H1 H2 H3 H4. destruct (@scaled_before K s j (cm_V s) (cm_modes s) e H1 H2 H3 H4) as (A & B & C & D).
  unfold cmtf_normalize, cmtf_normalize_left, scale_uncoupled. rewrite A. cbn [bind]. cbn [cm_with_V cm_cp cm_Y cm_modes cm_V].
  unfold scale_uncoupled_left. repeat (split; [first [reflexivity|assumption]|]). exact D.
Qed.

(** One weight for several components *)
Lemma one_weight_product w v K : is_vec 1 w -> is_vec K v -> K <> 1%nat -> broadcast_into Rmult w v = Err ValueError.
Proof.
  intros [_ Hw] [_ Hv] HK. unfold broadcast_into. rewrite Hw, Hv. unfold bshape. cbn [rev app bshape_rev option_map].
  destruct K as [|[|K]]; [reflexivity|lia|reflexivity].
Qed.

Lemma one_weight_left eps K k U Us : kt_fms k = U :: Us -> is_mat (nrows U) K U -> is_vec 1 (kt_w k) -> K <> 1%nat -> 0 < eps ->
  kt_normalize true eps k = Err ValueError /\
  exists U', over_lengths eps K U U' /\ kt_normalize_left true eps k = {| kt_rank := kt_rank k; kt_fms := U' :: Us; kt_w := kt_w k |}.
Proof.
  intros EF HU Hw HK He.
  assert (ED : np_div U (np_map (fun x => x + eps) (newaxis0 (norm_axis0 U))) = Ok (scaled eps (nrows U) K U)).
  { change (newaxis0 (norm_axis0 U)) with (norm_axis0_keep U). apply (@div_norms_ok eps (nrows U) K U HU).
    intros r Hr. pose proof (sqrt_pos (colnorm2 U r)). unfold colnorm. lra. }
  assert (EA : assign_full U (scaled eps (nrows U) K U) = Ok (scaled eps (nrows U) K U)).
  { apply (assign_full_mat HU (is_mat_scaled eps (nrows U) K U)). }
  assert (EG : list_get (kt_fms k) 0 = Ok U) by (now rewrite EF).
  assert (ES : kt_normalize_step true eps k 0 = Err ValueError).
  { unfold kt_normalize_step. rewrite EG. cbn [bind]. rewrite ED. cbn [bind]. rewrite EA. cbn [bind].
    now rewrite (one_weight_product Hw (is_vec_norm_axis0 HU) HK). }
  assert (ELen : length (kt_fms k) = S (length Us)) by (now rewrite EF).
  unfold kt_normalize, kt_normalize_left. rewrite !ELen. cbn [length seq foldM foldL]. rewrite ES. cbn [bind]. split; [reflexivity|].
  exists (scaled eps (nrows U) K U). split.
  - split; [apply is_mat_scaled|]. intros i r Hi Hr. unfold scaled. rewrite mget_tab2 by auto. now rewrite clen_colnorm.
  - rewrite EG. cbn [bind]. rewrite ED. cbn [bind]. rewrite EA. now rewrite EF.
Qed.

Lemma left_by_weights eps K ms s : (1 < K)%nat -> 0 < eps -> data_ok (cp_X (cm_cp s)) -> factors_ok K (cp_X (cm_cp s)) (cm_fms s) ->
  is_vec 1 (kt_w (cm_dec s)) -> cm_modes s = map Z.of_nat ms -> coupling_ok K (cp_X (cm_cp s)) ms (cm_V s) (cm_Y s) ->
  let t := cmtf_normalize_left eps s in
  cmtf_normalize eps s = Err ValueError /\ kt_w (cm_dec t) = kt_w (cm_dec s) /\ length (cm_fms t) = length (cm_fms s) /\
  over_lengths eps K (nth 0 (cm_fms s) m0) (nth 0 (cm_fms t) m0) /\
  (forall m, (0 < m)%nat -> nth m (cm_fms t) m0 = nth m (cm_fms s) m0) /\
  (forall i, (i < length ms)%nat -> times_lengths K (nth (nth i ms 0%nat) (cm_fms s) m0) (nth i (cm_V s) m0) (nth i (cm_V t) m0)).
Proof.
  intros HK He HX HF Hw Hm HC. set (d := {| kt_rank := kt_rank (cm_dec s); kt_fms := cm_fms s; kt_w := tab1 K (fun _ => 1) |}).
  assert (HO : cm_ok K ms (cm_with_dec d s)).
  { constructor; try assumption. apply is_vec_tab1. }
  destruct (scale_uncoupled_ok HO) as (Vs & EV & HCV & HV). change (scale_uncoupled (cm_with_dec d s)) with (scale_uncoupled s) in EV.
  change (cm_fms (cm_with_dec d s)) with (cm_fms s) in HV. change (cm_V (cm_with_dec d s)) with (cm_V s) in HV.
  change (cm_Y (cm_with_dec d s)) with (cm_Y s) in HV, HCV. change (cp_X (cm_cp (cm_with_dec d s))) with (cp_X (cm_cp s)) in HCV.
  destruct HX as (_ & H2 & _). pose proof (mode_len (proj2 HF)) as Hl.
  destruct (cm_fms s) as [|U Us] eqn:EF; [cbn in Hl; lia|].
  assert (HU : is_mat (nrows U) K U) by (apply (proj1 (Forall_forall _ _) (proj1 HF)); now left).
  destruct (@one_weight_left eps K (cm_dec s) U Us EF HU Hw ltac:(lia) He) as (EN & U' & HO' & EL).
  unfold cmtf_normalize, cmtf_normalize_left. rewrite EV. cbn [bind]. rewrite EN. cbn [bind]. rewrite EL.
  cbv zeta. split; [reflexivity|]. split; [reflexivity|]. split; [reflexivity|]. split; [exact HO'|].
  split; [intros [|m] Hpos; [lia|reflexivity]|].
  intros i Hi. destruct HC as (_ & _ & HC). destruct HCV as (_ & _ & HCV). destruct (HC i Hi) as (_ & HY & HV1). destruct (HCV i Hi) as (_ & _ & HV2).
  assert (En : nrows (nth i (cm_V s) m0) = ncols (nth i (cm_Y s) m0)) by (apply (is_mat_nrows HV1)).
  split; [now rewrite En|]. intros b r Hb Hr. rewrite En in Hb. now apply HV.
Qed.

(** No fit of CMTF_ALS from such a start gets to its first iteration. *)
Lemma reset_one_vec k : is_vec 1 (kt_w k) -> is_vec 1 (kt_w (kt_reset_weights k)).
Proof. intros H. cbn [kt_reset_weights kt_w]. now repeat apply is_vec_map. Qed.

Lemma one_weight_start env cs cf disk draws vdraws X Y modes max_its arg ds d1 K U Us :
  let s0 := cm_with_coupling Y modes (ds_num ds) in
  on_cp (cp_init_components env cs disk draws arg) (with_num (cm_with_cp (cp_with_target X (cm_cp s0)) s0) (with_it 0%Z ds)) = (d1, None) ->
  cm_fms (ds_num d1) = U :: Us -> is_mat (nrows U) K U -> is_vec 1 (kt_w (cm_dec (ds_num d1))) -> K <> 1%nat ->
  all_false (cp_orth (cm_cp (ds_num d1))) (S (length Us)) ->
  exists d e, cmtf_fit env cs cf disk draws vdraws X Y modes max_its arg ds = (d, Some e) /\ ds_it d = ds_it d1 /\
    ((cm_fms (ds_num d) = U :: Us) \/
     (e = ValueError /\ exists U', over_lengths eps15 K U U' /\ cm_fms (ds_num d) = U' :: Us)).
Proof.
  intros s0 EI EF HU Hw HK HO. unfold cmtf_fit, cmtf_init_fit. fold s0. rewrite EI.
  destruct (init_coupled vdraws (ds_num d1)) as [s|e] eqn:EC; [|exists d1, e; auto].
  assert (Es : cm_cp s = cm_cp (ds_num d1)).
  { unfold init_coupled in EC. destruct (mapM _ _) as [V|]; [|discriminate]. cbn [bind] in EC. now injection EC as <-. }
  set (d2 := match max_its with Some m => with_max m d1 | None => d1 end).
  assert (Ei : ds_it d2 = ds_it d1) by (unfold d2; destruct max_its; reflexivity).
  set (c1 := cp_with_dec (kt_reset_weights (cm_dec s)) (cm_cp s)).
  set (c2 := cp_with_constraints (or_unconstrained (cp_nn c1) c1) (or_unconstrained (cp_orth c1) c1) c1).
  assert (Ef : kt_fms (cp_dec c2) = U :: Us).
  { unfold c2, c1. cbn. unfold cm_dec. rewrite Es. exact EF. }
  assert (EO : cp_orthonormalise env c2 = Ok c2).
  { apply orthonormalise_false.
    - change (or_unconstrained (cp_orth c1) c1 <> None). unfold or_unconstrained. destruct (cp_orth c1); discriminate.
    - change (cp_orth c2) with (or_unconstrained (cp_orth c1) c1). change (kt_fms (cp_dec c2)) with (kt_fms (cp_dec c1)).
      apply all_false_or. change (kt_fms (cp_dec c1)) with (kt_fms (cp_dec c2)). rewrite Ef.
      unfold c1. cbn [cp_with_dec cp_orth]. rewrite Es. exact HO. }
  rewrite EO. set (s2 := cm_with_cp c2 s). destruct (cmtf_SSE env s2) as [l|e] eqn:EL.
  - set (s3 := cm_with_cp (cp_with_cache (cp_last c2) None c2) s2).
    assert (Ef3 : kt_fms (cm_dec s3) = U :: Us) by exact Ef.
    assert (Hw3 : is_vec 1 (kt_w (cm_dec s3))).
    { change (kt_w (cm_dec s3)) with (kt_w (kt_reset_weights (cm_dec s))). apply reset_one_vec. unfold cm_dec. now rewrite Es. }
    destruct (@one_weight_left eps15 K (cm_dec s3) U Us Ef3 HU Hw3 HK eps15_pos) as (EN & U' & HU' & EK).
    rewrite EN. eexists. exists ValueError. split; [reflexivity|]. split; [exact Ei|]. right. split; [reflexivity|].
    exists U'. split; [exact HU'|]. cbn [with_num ds_num]. rewrite EK. reflexivity.
  - eexists. exists e. split; [reflexivity|]. split; [exact Ei|]. left. exact Ef.
Qed.
