(** Fixed points of CMTF_ALS: lemmas for C104. *)
From Verif Require Export CmFixSpec FixFacts CMTFUpdate CPExamples.
From Verif Require Import Prelude Lin.
Set Implicit Arguments.
Unset Strict Implicit.
Local Open Scope R_scope.

(** *** Functions of a matrix that are a distance of W A from B up to a constant *)
Definition ls_form (N K : nat) (f : nd -> R) : Prop :=
  exists C A B c, forall W, f W = dist2 N C (mprod K (mget W) A) B + c.
Lemma ls_unique N K f Y Z : ls_form N K f -> is_mat N K Y -> is_mat N K Z ->
  smallest_minimiser N K f Y -> smallest_minimiser N K f Z -> Y = Z.
Proof.
  intros (C & A & B & c & Ef) HY HZ [Y1 Y2] [Z1 Z2]. apply (mat_ext HY HZ).
  set (T := tab2 N K (mid (mget Y) (mget Z))). assert (HT : is_mat N K T) by apply is_mat_tab2.
  assert (ET : forall i j, (i < N)%nat -> (j < K)%nat -> mget T i j = mid (mget Y) (mget Z) i j)
    by (intros; unfold T; now rewrite mget_tab2).
  assert (Hsq : f Y = f Z) by (apply Rle_antisym; auto).
  assert (HTs : f T <= f Z).
  { rewrite !Ef in Hsq |- *. pose proof (@dist2_mid N K C A B (mget Y) (mget Z)) as M.
    assert (E : dist2 N C (mprod K (mget T) A) B = dist2 N C (mprod K (mid (mget Y) (mget Z)) A) B).
    { unfold dist2. apply sum_ext. intros i Hi. apply sum_ext. intros j Hj. do 2 f_equal.
      unfold mprod. apply sum_ext. intros r Hk. now rewrite ET. }
    rewrite E. lra. }
  pose proof (Z2 T HT HTs) as F. rewrite (frob2_ext ET), frob2_mid in F.
  assert (F1 : frob2 N K (mget Y) <= frob2 N K (mget Z)) by (apply Y2; auto; lra).
  apply dist2_eq0. pose proof (dist2_ge0 N K (mget Y) (mget Z)). lra.
Qed.
Lemma ls_flat N K f U : ls_form N K f -> (forall W, is_mat N K W -> f U <= f W) -> flat_at N K f U.
Proof.
  intros (C & A & B & c0 & Ef) HB D. set (P := mprod K (mget U) A). set (Q := mprod K (mget D) A).
  assert (E : forall t, f (step_to N K U D t) =
    f U + (2 * sum N (fun i => sum C (fun j => (P i j - B i j) * Q i j)) * t + frob2 N C Q * t ^ 2)).
  { intros t. rewrite !Ef. fold P.
    replace (dist2 N C (mprod K (mget (step_to N K U D t)) A) B) with (dist2 N C (fun i j => P i j + t * Q i j) B).
    - rewrite dist2_step. ring.
    - unfold dist2. apply sum_ext. intros i Hi. apply sum_ext. intros j Hj. do 2 f_equal. unfold P, Q, mprod.
      rewrite <- sum_scal_l, <- sum_plus. apply sum_ext. intros r Hk. unfold step_to. rewrite mget_tab2 by auto. ring. }
  set (b := 2 * sum N (fun i => sum C (fun j => (P i j - B i j) * Q i j))) in *. set (c := frob2 N C Q) in *.
  assert (Hq : forall t, 0 <= b * t + c * t ^ 2).
  { intros t. pose proof (HB (step_to N K U D t) (is_mat_tab2 _ _ _)) as H. rewrite E in H. lra. }
  assert (Hc : 0 <= c) by (apply frob2_nonneg).
  pose proof (@quadratic_flat (f U) b c Hq Hc) as HD. intros eps He. destruct (HD eps He) as (d & Hd). exists d.
  intros h Hh Hlt. rewrite !E. now apply Hd.
Qed.

(** The normal equations have the same smallest solution as the problem itself. *)
Lemma gram_least K X Us m V P Z : rows Us = shape X -> (m < length (shape X))%nat ->
  (forall a j, (a < K)%nat -> (j < K)%nat -> mget V a j = normal_lhs Us m a j) ->
  (forall i j, (i < nth m (shape X) 0)%nat -> (j < K)%nat -> mget P i j = normal_rhs X Us m i j) ->
  is_mat (nth m (shape X) 0%nat) K Z ->
  normal_eq (nth m (shape X) 0%nat) K K (mget Z) (mget V) (mget P) ->
  (forall Y, dist2 (nth m (shape X) 0%nat) K (mprod K Y (mget V)) (mget P) <=
     dist2 (nth m (shape X) 0%nat) K (mprod K (mget Z) (mget V)) (mget P) -> frob2 (nth m (shape X) 0%nat) K (mget Z) <= frob2 (nth m (shape X) 0%nat) K Y) ->
  least_best K X Us m Z.
Proof.
  intros Hr Hm HVe HPe HZ Hnormal Hmin. set (N := nth m (shape X) 0%nat) in *.
  set (C := prodl (remove_at m (shape X))). set (A := mode_A X Us m). set (B := mode_B X m).
  assert (EgV : forall a j, (a < K)%nat -> (j < K)%nat -> mget V a j = gV C A a j).
  { intros a j Ha Hj. rewrite HVe by auto. symmetry. apply mode_gV; auto. }
  assert (EgM : forall i j, (i < N)%nat -> (j < K)%nat -> mget P i j = gM C A B i j).
  { intros i j Hi Hj. rewrite HPe by auto. symmetry. apply mode_gM; auto. }
  assert (Nk : normal_eq N K K (mget Z) (gV C A) (gM C A B)).
  { intros i a Hi Ha. rewrite <- (Hnormal i a Hi Ha). apply sum_ext. intros j Hj.
    rewrite <- EgV, <- EgM by auto. do 2 f_equal. unfold mprod. apply sum_ext. intros k Hk. now rewrite EgV. }
  assert (NZ : normal_eq N K C (mget Z) A B) by (apply gram_normal; now apply gram_exact).
  split; [exact HZ|]. fold N. split.
  - intros W HW. rewrite !(mode_sse K Hr Hm). now apply gram_optimal.
  - intros W HW Hle. rewrite !(mode_sse K Hr Hm) in Hle. fold N C A B in Hle.
    rewrite (ls_pythagoras (mget W) NZ) in Hle.
    assert (E0 : forall i j, (i < N)%nat -> (j < C)%nat -> mprod K (mget W) A i j = mprod K (mget Z) A i j).
    { apply dist2_eq0. apply Rle_trans with (frob2 N C (mprod K (fun i a => mget W i a - mget Z i a) A)); [|lra].
      apply Req_le. unfold dist2, frob2. apply sum_ext. intros i Hi. apply sum_ext. intros j Hj. f_equal.
      unfold mprod. rewrite <- sum_minus. apply sum_ext. intros; ring. }
    assert (NW : normal_eq N K C (mget W) A B).
    { intros i r Hi Hk. rewrite <- (NZ i r Hi Hk). apply sum_ext. intros j Hj. now rewrite E0. }
    apply Hmin. pose proof (proj2 (@gram_normal N K C A B (mget W)) NW) as EW.
    replace (dist2 N K (mprod K (mget W) (mget V)) (mget P)) with 0; [apply dist2_ge0|].
    symmetry. apply sum_zero. intros i Hi. apply sum_zero. intros j Hj. rewrite EgM, <- EW by auto.
    replace (mprod K (mget W) (mget V) i j) with (mprod K (mget W) (gV C A) i j); [ring|].
    unfold mprod. apply sum_ext. intros k Hk. now rewrite EgV.
Qed.

(** *** The objective in one of its matrices *)
Lemma mats_sse_own K Us ms Vs Ys i Z Z' : length Vs = length ms -> (i < length ms)%nat ->
  mats_sse K Us ms (with_factor i Z Vs) Ys - mats_sse K Us ms (with_factor i Z' Vs) Ys =
  mat_sse K (nth (nth i ms 0%nat) Us m0) Z (nth i Ys m0) - mat_sse K (nth (nth i ms 0%nat) Us m0) Z' (nth i Ys m0).
Proof.
  intros HV Hi. unfold mats_sse. rewrite <- sum_minus.
  rewrite <- (@sum_delta_l (length ms) i (fun j => mat_sse K (nth (nth j ms 0%nat) Us m0) Z (nth j Ys m0) -
    mat_sse K (nth (nth j ms 0%nat) Us m0) Z' (nth j Ys m0))) by auto.
  apply sum_ext. intros j Hj. destruct (Nat.eq_dec i j) as [<-|Hne].
  - rewrite delta_refl. unfold with_factor. rewrite !nth_replace_at_eq by (now rewrite HV). ring.
  - rewrite delta_neq by auto. unfold with_factor. rewrite !nth_replace_at_neq by auto. ring.
Qed.

Section Block.
Variables (env : cp_env) (cs : cp_settings) (K : nat) (ms : list nat).
Hypothesis (HN : NoDup ms).
Notation loss_in s := (in_mode K (cp_X (cm_cp s)) (cm_fms s) ms (cm_V s) (cm_Y s)).
Notation loss_of s := (in_matrix K (cp_X (cm_cp s)) (cm_fms s) ms (cm_V s) (cm_Y s)).
Notation len s m := (nth m (shape (cp_X (cm_cp s))) 0%nat).

Lemma coupled_form s m idxs : cm_ok K ms s -> (m < length (shape (cp_X (cm_cp s))))%nat ->
  dict_find (Z.of_nat m) (mode_to_cm_idx (cm_modes s)) = Some idxs ->
  exists lhs rhs N c, (1 <= N)%nat /\ cmtf_lhs env cs s m = Ok lhs /\ cmtf_rhs env s m = Ok rhs /\
    is_mat K N lhs /\ is_mat (len s m) N rhs /\
    forall W, loss_in s m W = dist2 (len s m) N (mprod K (mget W) (mget lhs)) (mget rhs) + c.
Proof.
  intros H Hm EF. destruct (@coupled_sides env cs K ms s m idxs H Hm EF) as (i & lhs & rhs & N & Hi & Em & HN1 & EL & ER & HL & HR & Hd & _).
  set (U := nth m (cm_fms s) m0).
  exists lhs, rhs, N, (mats_sse K (with_factor m U (cm_fms s)) ms (cm_V s) (cm_Y s) - mat_sse K U (nth i (cm_V s) m0) (nth i (cm_Y s) m0)).
  do 5 (split; [assumption|]). intros W. rewrite Hd. unfold in_mode, coupled_loss.
  pose proof (@mats_sse_coupled K (cm_fms s) ms (cm_V s) (cm_Y s) i W U HN Hi) as HD. rewrite (ck_len H) in HD. rewrite Em in HD.
  specialize (HD Hm). lra.
Qed.
Lemma mode_form s m : cm_ok K ms s -> (m < length (shape (cp_X (cm_cp s))))%nat -> ls_form (len s m) K (loss_in s m).
Proof.
  intros H Hm. destruct (dict_find (Z.of_nat m) (mode_to_cm_idx (cm_modes s))) as [idxs|] eqn:EF.
  - destruct (coupled_form H Hm EF) as (lhs & rhs & N & c & _ & _ & _ & _ & _ & Hf). now exists N, (mget lhs), (mget rhs), c.
  - pose proof (find_uncoupled H EF) as Hnin. do 4 eexists. intros W. unfold in_mode, coupled_loss.
    rewrite mats_sse_uncoupled by auto. rewrite (mode_sse K (proj2 (ck_fac H)) Hm). reflexivity.
Qed.
Lemma matrix_form s i : cm_ok K ms s -> (i < length ms)%nat -> ls_form (ncols (nth i (cm_Y s) m0)) K (loss_of s i).
Proof.
  intros H Hi. destruct (ck_coup H) as (HlV & HlY & HC). destruct (HC i Hi) as (Hm & HY & _).
  pose proof (rows_nth (ck_fac H) Hm) as HU. set (U := nth (nth i ms 0%nat) (cm_fms s) m0) in *. set (V := nth i (cm_V s) m0).
  do 3 eexists. exists (sse (cp_X (cm_cp s)) (cm_fms s) unit_weights K +
    (mats_sse K (cm_fms s) ms (with_factor i V (cm_V s)) (cm_Y s) - mat_sse K U V (nth i (cm_Y s) m0))).
  intros W. rewrite <- (mat_sse_transp _ HU HY). unfold in_matrix, coupled_loss.
  pose proof (@mats_sse_own K (cm_fms s) ms (cm_V s) (cm_Y s) i W V HlV Hi) as HD. fold U in HD. lra.
Qed.

Lemma still_flat s : cm_ok K ms s -> coupled_still K (cp_X (cm_cp s)) (cm_fms s) ms (cm_V s) (cm_Y s) ->
  coupled_flat K (cp_X (cm_cp s)) (cm_fms s) ms (cm_V s) (cm_Y s).
Proof.
  intros H [H1 H2]. split.
  - intros m Hm. apply ls_flat; [now apply mode_form|now apply H1].
  - intros i Hi. apply ls_flat; [now apply matrix_form|now apply H2].
Qed.

(** *** The updates *)
Hypothesis (HK : cs_rank cs = K) (HK1 : (1 <= K)%nat) (Hsvd : svd_works_rows K (env_svd env)).

Lemma cm_update_least s m : cm_ok K ms s -> (m < length (shape (cp_X (cm_cp s))))%nat -> free_mode cs (cm_cp s) m ->
  exists s' Z, cmtf_update_factor env cs s m = (s', None) /\ is_mat (len s m) K Z /\
    cm_fms s' = with_factor m Z (cm_fms s) /\ cm_V s' = cm_V s /\ same_coupled s s' /\ cm_ok K ms s' /\
    smallest_minimiser (len s m) K (loss_in s m) Z.
Proof.
  intros H Hm Hfree. pose proof (ck_fac H) as [HU Hr].
  destruct (dict_find (Z.of_nat m) (mode_to_cm_idx (cm_modes s))) as [idxs|] eqn:EF.
  - destruct (coupled_form H Hm EF) as (lhs & rhs & N & c & HN1 & EL & ER & HL & HR & Hf).
    destruct (Hsvd HN1 HL) as (U & Sv & Vh & ES & HS).
    destruct (rightsolve_ok HL HR ES HS) as (Z & EZ & HZ & _ & Hopt & Hmin).
    destruct (cm_update_with H Hm EL ER (free_rightsolve env Hfree) EZ HZ) as (s' & Es & Hfm & HV & HSC & HC).
    exists s', Z. do 6 (split; [assumption|]). split.
    + intros W _. rewrite !Hf. specialize (Hopt (mget W)). lra.
    + intros W _. rewrite !Hf. intros Hle. apply Hmin. lra.
  - pose proof (find_uncoupled H EF) as Hnin.
    destruct (als_rhs_ok env (ck_data H) (ck_fac H) Hm) as (P & EP & HP & HPe).
    destruct (als_lhs_ok m HU HK) as (V & EV & HV & HVe).
    destruct (Hsvd HK1 HV) as (U & Sv & Vh & ES & HS).
    destruct (rightsolve_ok HV HP ES HS) as (Z & EZ & HZ & Hnormal & _ & Hmin).
    assert (EL : cmtf_lhs env cs s m = Ok V) by (unfold cmtf_lhs; now rewrite EF).
    assert (ER : cmtf_rhs env s m = Ok P) by (unfold cmtf_rhs; now rewrite EF).
    destruct (cm_update_with H Hm EL ER (free_rightsolve env Hfree) EZ HZ) as (s' & Es & Hf & HV' & HSC & HC).
    exists s', Z. do 6 (split; [assumption|]).
    assert (HL : least_best K (cp_X (cm_cp s)) (cm_fms s) m Z) by (now apply (@gram_least K (cp_X (cm_cp s)) (cm_fms s) m V P Z)).
    destruct HL as (_ & L1 & L2). split.
    + intros W HW. unfold in_mode, coupled_loss. rewrite !mats_sse_uncoupled by auto. specialize (L1 W HW). lra.
    + intros W HW. unfold in_mode, coupled_loss. rewrite !mats_sse_uncoupled by auto. intros Hle. apply L2; [exact HW|lra].
Qed.

Lemma own_step_least s i Vs : cm_ok K ms s -> (i < length ms)%nat -> free_nn s ->
  length Vs = length ms -> is_mat (ncols (nth i (cm_Y s) m0)) K (nth i Vs m0) ->
  exists W, uncoupled_step env s (Z.of_nat (nth i ms 0%nat)) [i] Vs = (replace_at i W Vs, None) /\
    is_mat (ncols (nth i (cm_Y s) m0)) K W /\ smallest_minimiser (ncols (nth i (cm_Y s) m0)) K (loss_of s i) W.
Proof.
  intros H Hi (l & El & Hl) HlV HVi.
  destruct (ck_coup H) as (HlW & HlY & HC). destruct (HC i Hi) as (Hm & HY & _).
  pose proof (rows_nth (ck_fac H) Hm) as HU. set (m := nth i ms 0%nat) in *.
  set (U := nth m (cm_fms s) m0) in *. set (Y := nth i (cm_Y s) m0) in *.
  assert (Hn1 : (1 <= nth m (shape (cp_X (cm_cp s))) 0)%nat).
  { pose proof (shape_nonzero (ck_data H) Hm). lia. }
  destruct (Hsvd Hn1 (is_mat_transp HU)) as (Us & Sv & Vh & ES & HS).
  destruct (rightsolve_ok (is_mat_transp HU) (is_mat_transp HY) ES HS) as (W & EW & HW & _ & Hopt & Hmin).
  exists W. split; [|split; [auto|]].
  - unfold uncoupled_step. cbn [list_get nth_error bind].
    rewrite (@py_get_nat _ (cm_fms s) m m0) by (rewrite (ck_len H); auto). cbn [bind].
    rewrite (@list_get_nth _ (cm_Y s) i m0), (@list_get_nth _ Vs i m0) by lia. cbn [bind].
    rewrite El. unfold py_get. assert (Hml : (m < length l)%nat) by (apply nth_error_Some; rewrite Hl by auto; discriminate).
    rewrite py_index_nat by auto. unfold list_get. rewrite Hl by auto. cbn [bind].
    fold U Y. rewrite EW. cbn [bind]. now rewrite (assign_full_mat HVi HW).
  - assert (HD : forall W' W'', loss_of s i W' - loss_of s i W'' = mat_sse K U W' Y - mat_sse K U W'' Y).
    { intros W' W''. unfold in_matrix, coupled_loss.
      pose proof (@mats_sse_own K (cm_fms s) ms (cm_V s) (cm_Y s) i W' W'' HlW Hi) as HD. fold m U Y in HD. lra. }
    split.
    + intros W' _. specialize (HD W W'). rewrite !(mat_sse_transp _ HU HY) in HD. specialize (Hopt (mget W')). lra.
    + intros W' _ Hle. specialize (HD W' W). rewrite !(mat_sse_transp _ HU HY) in HD. apply Hmin. lra.
Qed.

Lemma own_loop_least s : cm_ok K ms s -> free_nn s ->
  forall n a Vs, (a + n = length ms)%nat -> coupling_ok K (cp_X (cm_cp s)) ms Vs (cm_Y s) ->
  exists Vs', uncoupled_loop env s (combine (skipn a (map Z.of_nat ms)) (map (fun i => [i]) (seq a n))) Vs = (Vs', None) /\
    coupling_ok K (cp_X (cm_cp s)) ms Vs' (cm_Y s) /\
    (forall i, (i < a)%nat -> nth i Vs' m0 = nth i Vs m0) /\
    forall i, (a <= i < length ms)%nat -> smallest_minimiser (ncols (nth i (cm_Y s) m0)) K (loss_of s i) (nth i Vs' m0).
Proof.
  intros H Hfree. induction n as [|n IH]; intros a Vs Ha HC.
  - exists Vs. rewrite skipn_all2 by (rewrite map_length; lia). split; [reflexivity|]. split; auto. split; auto.
    intros; lia.
  - pose proof HC as (HlV & HlY & HC0). destruct (HC0 a ltac:(lia)) as (_ & _ & HVa).
    destruct (@own_step_least s a Vs H ltac:(lia) Hfree HlV HVa) as (W & EW & HW & Hopt).
    destruct (IH (S a) (replace_at a W Vs)) as (Vs' & E & HC' & Hsame & Hopt'); [lia| |].
    { split; [now rewrite length_replace_at|]. split; auto. intros i Hi. destruct (HC0 i Hi) as (A & B & C).
      split; auto. split; auto. destruct (Nat.eq_dec a i) as [<-|Hne].
      - rewrite nth_replace_at_eq by lia. exact HW.
      - rewrite nth_replace_at_neq by auto. exact C. }
    exists Vs'. rewrite (@nth_skip _ (map Z.of_nat ms) 0%Z a) by (rewrite map_length; lia).
    change 0%Z with (Z.of_nat 0). rewrite map_nth. cbn [seq map combine uncoupled_loop]. rewrite EW.
    split; [exact E|]. split; auto. split.
    + intros i Hi. rewrite Hsame by lia. apply nth_replace_at_neq. lia.
    + intros i Hi. destruct (Nat.eq_dec i a) as [->|]; [|apply Hopt'; lia].
      rewrite Hsame by lia. now rewrite nth_replace_at_eq by lia.
Qed.
Lemma own_least s : cm_ok K ms s -> free_nn s ->
  exists s', update_uncoupled env s = (s', None) /\ cm_cp s' = cm_cp s /\ same_coupled s s' /\ cm_ok K ms s' /\
    forall i, (i < length ms)%nat -> smallest_minimiser (ncols (nth i (cm_Y s) m0)) K (loss_of s i) (nth i (cm_V s') m0).
Proof.
  intros H Hfree.
  destruct (@own_loop_least s H Hfree (length ms) 0%nat (cm_V s) ltac:(lia) (ck_coup H)) as (Vs' & E & HC & _ & Hopt).
  unfold update_uncoupled. rewrite (dict_of_distinct (modes := cm_modes s)) by (rewrite (ck_modes H); now apply map_nat_nodup).
  rewrite (ck_modes H), map_length. cbn [skipn] in E. rewrite E.
  eexists. split; [reflexivity|]. split; [reflexivity|].
  split; [constructor; try reflexivity; apply same_problem_refl|].
  split; [|intros i Hi; apply Hopt; lia]. constructor; try apply H. exact HC.
Qed.

(** *** A pass *)
Notation still s := (coupled_still K (cp_X (cm_cp s)) (cm_fms s) ms (cm_V s) (cm_Y s)).
Definition free_modes (s : cmtf_state) (l : list nat) : Prop :=
  Forall (fun m => (m < length (shape (cp_X (cm_cp s))))%nat /\ free_mode cs (cm_cp s) m) l.
Lemma free_modes_same s s' l : same_coupled s s' -> free_modes s l -> free_modes s' l.
Proof.
  intros HS. apply Forall_impl. intros m [A B]. rewrite (sp_X (sc_cp HS)). split; auto. now apply (free_mode_same (sc_cp HS)).
Qed.
Lemma modes_step m l s : free_mode cs (cm_cp s) m -> cmtf_update_modes env cs (m :: l) s =
  match cmtf_update_factor env cs s m with (s', None) => cmtf_update_modes env cs l s' | (s', Some e) => (s', Some e) end.
Proof.
  intros (_ & (nn & En & Enm) & _). cbn [cmtf_update_modes]. rewrite En. cbn [not_none bind]. unfold list_get at 1. now rewrite Enm.
Qed.
Lemma mode_mat s m : cm_ok K ms s -> (m < length (shape (cp_X (cm_cp s))))%nat -> is_mat (len s m) K (nth m (cm_fms s) m0).
Proof. intros H Hm. exact (rows_nth (ck_fac H) Hm). Qed.

Lemma modes_keep l : forall s, cm_ok K ms s -> free_modes s l ->
  (forall m, In m l -> smallest_minimiser (len s m) K (loss_in s m) (nth m (cm_fms s) m0)) ->
  exists t, cmtf_update_modes env cs l s = (t, None) /\ cm_fms t = cm_fms s /\ cm_V t = cm_V s /\ same_coupled s t /\ cm_ok K ms t.
Proof.
  induction l as [|m l IH]; intros s H Hl HB.
  - exists s. split; [reflexivity|]. split; [reflexivity|]. split; [reflexivity|]. split; [apply same_coupled_refl|exact H].
  - apply Forall_cons_iff in Hl. destruct Hl as [[Hm Hf] Hl']. rewrite (modes_step l Hf).
    destruct (cm_update_least H Hm Hf) as (s1 & Z & E1 & HZ & Ef & EV & HS & H1 & HL). rewrite E1.
    assert (EZ : Z = nth m (cm_fms s) m0).
    { apply (ls_unique (mode_form H Hm) HZ (mode_mat H Hm) HL). apply HB. now left. }
    assert (Es : cm_fms s1 = cm_fms s).
    { rewrite Ef, EZ. apply with_factor_self. now rewrite (ck_len H). }
    destruct (IH s1 H1 (free_modes_same HS Hl')) as (t & Et & Eft & EVt & HSt & Ht).
    + intros m' Hm'. rewrite (sp_X (sc_cp HS)), Es, EV, (sc_Y HS). apply HB. now right.
    + exists t. split; [exact Et|]. split; [congruence|]. split; [congruence|]. split; [eapply same_coupled_trans; eauto|exact Ht].
Qed.
Lemma modes_leave l : forall s t m, cm_ok K ms s -> free_modes s l -> ~ In m l ->
  cmtf_update_modes env cs l s = (t, None) -> nth m (cm_fms t) m0 = nth m (cm_fms s) m0.
Proof.
  induction l as [|n l IH]; intros s t m H Hl Hin E.
  - now injection E as <-.
  - apply Forall_cons_iff in Hl. destruct Hl as [[Hn Hf] Hl']. rewrite (modes_step l Hf) in E.
    destruct (cm_update_least H Hn Hf) as (s1 & Z & E1 & HZ & Ef & EV & HS & H1 & HL). rewrite E1 in E.
    rewrite (IH s1 t m H1 (free_modes_same HS Hl')); auto.
    + rewrite Ef. unfold with_factor. apply nth_replace_at_neq. intros ->. apply Hin. now left.
    + intros Hi. apply Hin. now right.
Qed.
Lemma modes_kept l : forall s t, cm_ok K ms s -> free_modes s l -> NoDup l ->
  cmtf_update_modes env cs l s = (t, None) -> cm_fms t = cm_fms s ->
  forall m, In m l -> smallest_minimiser (len s m) K (loss_in s m) (nth m (cm_fms s) m0).
Proof.
  induction l as [|n l IH]; intros s t H Hl Hd E Ef m Hin; [contradiction|].
  apply Forall_cons_iff in Hl. destruct Hl as [[Hn Hf] Hl']. rewrite (modes_step l Hf) in E. apply NoDup_cons_iff in Hd. destruct Hd as [Hni Hd'].
  destruct (cm_update_least H Hn Hf) as (s1 & Z & E1 & HZ & Ef1 & EV & HS & H1 & HL). rewrite E1 in E.
  pose proof (free_modes_same HS Hl') as Hl1.
  assert (EZ : Z = nth n (cm_fms s) m0).
  { rewrite <- Ef, (modes_leave H1 Hl1 Hni E), Ef1. unfold with_factor. rewrite nth_replace_at_eq; auto. now rewrite (ck_len H). }
  assert (Es : cm_fms s1 = cm_fms s).
  { rewrite Ef1, EZ. apply with_factor_self. now rewrite (ck_len H). }
  destruct Hin as [<-|Hin]; [now rewrite <- EZ|].
  assert (Et : cm_fms t = cm_fms s1) by congruence.
  pose proof (IH s1 t H1 Hl1 Hd' E Et m Hin) as HM. now rewrite (sp_X (sc_cp HS)), Es, EV, (sc_Y HS) in HM.
Qed.

Let md := cmtf_model env cs.
Notation same s t := (cm_fms t = cm_fms s /\ cm_V t = cm_V s).
Lemma fit_modes s : free_fit cs (cm_cp s) -> free_modes s (seq 0 (ndim (cp_X (cm_cp s)))).
Proof. intros HF. exact (all_free HF). Qed.
Lemma own_same s s' : cm_ok K ms s -> cm_ok K ms s' -> same_coupled s s' -> cm_fms s' = cm_fms s -> forall i, (i < length ms)%nat ->
  smallest_minimiser (ncols (nth i (cm_Y s) m0)) K (loss_of s i) (nth i (cm_V s) m0) ->
  smallest_minimiser (ncols (nth i (cm_Y s) m0)) K (loss_of s i) (nth i (cm_V s') m0) -> nth i (cm_V s') m0 = nth i (cm_V s) m0.
Proof.
  intros H H' HS Ef i Hi H1 H2. apply (ls_unique (matrix_form H Hi)); auto.
  - destruct (ck_coup H') as (_ & _ & HC). rewrite (sc_Y HS) in HC. apply (HC i Hi).
  - destruct (ck_coup H) as (_ & _ & HC). apply (HC i Hi).
Qed.
Lemma cm_fixed_points s : cm_ok K ms s -> free_fit cs (cm_cp s) -> (same s (state_after md s 1) <-> still s).
Proof.
  intros H HF. cbn [state_after md cmtf_model md_update]. unfold cmtf_update_factors. pose proof (fit_modes HF) as Hl. split.
  - intros E. destruct (@cm_modes_decrease env cs K ms _ Hsvd HK HK1 s H Hl) as (s1 & E1 & H1 & HS1 & EV1 & _). rewrite E1 in E.
    assert (Hnn : free_nn s1) by (apply free_fit_nn with (cs := cs); [now apply (free_fit_same (sc_cp HS1))|apply (ck_data H1)]).
    destruct (own_least H1 Hnn) as (s2 & E2 & Hcp & HS2 & H2 & HO). rewrite E2 in E. cbn [fst] in E. destruct E as [Ef EV].
    assert (Ef1 : cm_fms s1 = cm_fms s) by (rewrite <- Ef; unfold cm_fms, cm_dec; now rewrite Hcp).
    split.
    + intros m Hm. apply (modes_kept H Hl (seq_NoDup _ _) E1 Ef1). apply in_seq. unfold ndim. lia.
    + intros i Hi. specialize (HO i Hi). now rewrite (sp_X (sc_cp HS1)), Ef1, EV1, (sc_Y HS1), EV in HO.
  - intros [HB1 HB2]. destruct (modes_keep H Hl) as (s1 & E1 & Ef1 & EV1 & HS1 & H1).
    { intros m Hm. apply in_seq in Hm. apply HB1. unfold ndim in Hm. lia. }
    rewrite E1. assert (Hnn : free_nn s1) by (apply free_fit_nn with (cs := cs); [now apply (free_fit_same (sc_cp HS1))|apply (ck_data H1)]).
    destruct (own_least H1 Hnn) as (s2 & E2 & Hcp & HS2 & H2 & HO). rewrite E2. cbn [fst].
    assert (Ef2 : cm_fms s2 = cm_fms s1) by (unfold cm_fms, cm_dec; now rewrite Hcp).
    split; [congruence|]. rewrite <- EV1. destruct (ck_coup H2) as (L2 & _). destruct (ck_coup H1) as (L1 & _).
    apply nth_ext with (d := m0) (d' := m0); [congruence|]. intros i Hi. rewrite L2 in Hi.
    apply (own_same H1 H2 HS2 Ef2 Hi); [|now apply HO].
    specialize (HB2 i Hi). now rewrite (sp_X (sc_cp HS1)), Ef1, EV1, (sc_Y HS1).
Qed.

Lemma cm_fixed_forever s : cm_ok K ms s -> free_fit cs (cm_cp s) -> same s (state_after md s 1) -> forall k, same s (state_after md s k).
Proof.
  intros H HF E. pose proof (proj1 (cm_fixed_points H HF) E) as HS0. induction k as [|k [IH1 IH2]]; [split; reflexivity|].
  destruct (cm_iterations Hsvd HK HK1 HN H HF k) as (Hk & HSk & _). fold md in Hk, HSk.
  pose proof (free_fit_same (sc_cp HSk) HF) as HFk.
  assert (G : same (state_after md s k) (state_after md s (S k))).
  { change (state_after md s (S k)) with (state_after md (state_after md s k) 1).
    apply (cm_fixed_points Hk HFk). now rewrite (sp_X (sc_cp HSk)), IH1, IH2, (sc_Y HSk). }
  destruct G as [G1 G2]. split; congruence.
Qed.

(** After a pass no model with the old factors in all places but the first is better. *)
Lemma cm_first_pass s W k : cm_ok K ms s -> free_fit cs (cm_cp s) -> is_mat (len s 0) K W ->
  let t := state_after md s k in let u := state_after md s (S k) in
  coupled_loss K (cp_X (cm_cp s)) (cm_fms u) unit_weights ms (cm_V u) (cm_Y s) <=
  in_mode K (cp_X (cm_cp s)) (cm_fms t) ms (cm_V t) (cm_Y s) 0 W.
Proof.
  intros H HF HW t u. destruct (cm_iterations Hsvd HK HK1 HN H HF k) as (Ht & HSt & _). fold md t in Ht, HSt.
  pose proof (free_fit_same (sc_cp HSt) HF) as HFt. pose proof (fit_modes HFt) as Hl.
  assert (Eu : u = fst (cmtf_update_factors env cs t)) by reflexivity. clearbody u.
  rewrite <- (sp_X (sc_cp HSt)) in HW |- *. rewrite <- (sc_Y HSt). clearbody t. clear s H HF HSt.
  pose proof (ck_data Ht) as (_ & H2 & _). unfold cmtf_update_factors in Eu. unfold ndim in Eu, Hl.
  destruct (length (shape (cp_X (cm_cp t)))) as [|N] eqn:EN; [lia|]. cbn [seq] in Eu, Hl.
  apply Forall_cons_iff in Hl. destruct Hl as [[Hm Hf] Hl']. rewrite (modes_step _ Hf) in Eu.
  destruct (cm_update_least Ht Hm Hf) as (t1 & Z & E1 & HZ & Ef & EV & HS1 & H1 & [HL _]). rewrite E1 in Eu.
  destruct (@cm_modes_decrease env cs K ms _ Hsvd HK HK1 t1 H1 (free_modes_same HS1 Hl')) as (t2 & E2 & Ht2 & HS2 & EV2 & Hle). rewrite E2 in Eu.
  assert (Hnn : free_nn t2).
  { apply free_fit_nn with (cs := cs); [|apply (ck_data Ht2)]. apply (free_fit_same (sc_cp HS2)). now apply (free_fit_same (sc_cp HS1)). }
  destruct (@update_uncoupled_ok env K ms t2 Ht2 HN Hnn Hsvd) as (t3 & E3 & Hcp & HS3 & H3 & Hopt). rewrite E3 in Eu. cbn [fst] in Eu. subst u.
  specialize (Hle HN). specialize (HL W HW). rewrite (sp_X (sc_cp HS1)), Ef, EV, (sc_Y HS1) in Hle.
  assert (Ef3 : cm_fms t3 = cm_fms t2) by (unfold cm_fms, cm_dec; now rewrite Hcp). rewrite Ef3.
  eapply Rle_trans; [|exact HL]. eapply Rle_trans; [|exact Hle]. unfold coupled_loss. apply Rplus_le_compat_l.
  unfold mats_sse. apply sum_le. intros i Hi. specialize (Hopt i (nth i (cm_V t) m0) Hi). now rewrite (sc_Y HS2), (sc_Y HS1) in Hopt.
Qed.

(** Loops that start at a fixed point *)
Lemma still_loop cf ds ds' : let s := ds_num ds in cm_ok K ms s -> free_fit cs (cm_cp s) -> still s -> 0 < cf_tol cf ->
  coupled_loss K (cp_X (cm_cp s)) (cm_fms s) (vget (kt_w (cm_dec s))) ms (cm_V s) (cm_Y s) <> 0 ->
  cp_fit_loop md cf ds = (ds', None) -> same s (ds_num ds') /\ (ds_it ds' <= ds_it ds + 2)%Z.
Proof.
  intros s H HF HB Ht Hne E. destruct (cp_fit_lemma E) as (n & _ & En & Hbefore & Hend). destruct (Hend eq_refl) as [_ Hit].
  pose proof (cm_fixed_forever H HF (proj2 (cm_fixed_points H HF) HB)) as HS. fold s in En, Hbefore.
  split; [rewrite En; apply HS|]. rewrite Hit. destruct (Nat.le_gt_cases n 2) as [|Hlt]; [lia|]. exfalso. specialize (Hbefore 2%nat Hlt).
  set (e := coupled_loss K (cp_X (cm_cp s)) (cm_fms s) (vget (kt_w (cm_dec s))) ms (cm_V s) (cm_Y s)) in *.
  assert (EL : forall k, md_loss md (state_after md s k) = Ok (Fin e)).
  { intros k. destruct (cm_iterations Hsvd HK HK1 HN H HF k) as (Hk & HSk & _). fold md in Hk, HSk. destruct (HS k) as [S1 S2].
    cbn [md cmtf_model md_loss]. fold md. rewrite (cmtf_SSE_ok env Hk). cbn [bind]. unfold e.
    rewrite (sp_X (sc_cp HSk)), (sc_Y HSk), S1, S2. unfold cm_dec. now rewrite (sp_w (sc_cp HSk)). }
  unfold cp_stops, rel_at, prev_at, loss_at in Hbefore. rewrite !EL in Hbefore. cbn [bind xsub xdiv] in Hbefore.
  replace (e - e) with 0 in Hbefore by ring. rewrite (xdivR_pos _ Hne) in Hbefore. cbn [xabs xltb] in Hbefore.
  replace (0 / e) with 0 in Hbefore by (field; auto). rewrite Rabs_R0 in Hbefore. destruct (Rlt_dec 0 (cf_tol cf)); [discriminate|lra].
Qed.
End Block.

(** *** A tensor with one column [1; 0] and a matrix with one column [0; 2] *)
Definition cf_X : nd := mk [2; 1]%nat [1; 0].
Definition cf_Y : nd := mk [2; 1]%nat [0; 2].
Definition cf_still (w : R) : cmtf_state :=
  {| cm_cp := {| cp_X := cf_X; cp_norm := norm cf_X;
                 cp_dec := {| kt_rank := 1; kt_fms := [mk [2; 1]%nat [1; 0]; mk [1; 1]%nat [1]]; kt_w := mk [1]%nat [w] |};
                 cp_last := None; cp_cache := None; cp_nn := Some [false; false]; cp_orth := Some [false; false] |};
     cm_Y := [cf_Y]; cm_modes := [0%Z]; cm_V := [mk [1; 1]%nat [0]] |}.
Lemma cf_ok w : cm_ok 1 [0%nat] (cf_still w).
Proof.
  constructor; try reflexivity.
  - split; [reflexivity|]. split; [cbn; lia|]. repeat constructor; discriminate.
  - split; [repeat constructor|reflexivity].
  - split; reflexivity.
  - split; [reflexivity|]. split; [reflexivity|]. intros [|i] Hi; cbn in Hi; [|lia]. cbn. split; [lia|]. split; split; reflexivity.
Qed.
Lemma cf_free cs w : cs_ridge cs = None -> free_fit cs (cm_cp (cf_still w)).
Proof.
  intros HR m Hm. cbn in Hm. split; [exact HR|].
  split; exists [false; false]; (split; [reflexivity|]); destruct m as [|[|m]]; [reflexivity|reflexivity|lia|reflexivity|reflexivity|lia].
Qed.
Lemma cf_stands w : coupled_still 1 cf_X (cm_fms (cf_still w)) [0%nat] (cm_V (cf_still w)) (cm_Y (cf_still w)).
Proof.
  set (Us := cm_fms (cf_still w)). set (Vs := cm_V (cf_still w)). set (Ys := cm_Y (cf_still w)).
  split.
  - intros [|[|m]] Hm; [| |cbn in Hm; lia].
    + assert (E : forall W, in_mode 1 cf_X Us [0%nat] Vs Ys 0 W = (1 - mget W 0 0) ^ 2 + mget W 1 0 ^ 2 + 4).
      { intros W. ev. unfold mget. cbn. ring. }
      split; intros W HW; rewrite !E.
      * pose proof (pow2_ge_0 (1 - mget W 0 0)). pose proof (pow2_ge_0 (mget W 1 0)).
        assert (V0 : (1 - mget (nth 0 Us m0) 0 0) ^ 2 + mget (nth 0 Us m0) 1 0 ^ 2 = 0) by (ev; ring). lra.
      * intros H. pose proof (pow2_ge_0 (1 - mget W 0 0)) as P. pose proof (pow2_ge_0 (mget W 1 0)) as Q.
        assert (V0 : (1 - mget (nth 0 Us m0) 0 0) ^ 2 + mget (nth 0 Us m0) 1 0 ^ 2 = 0) by (ev; ring).
        assert (P0 : (1 - mget W 0 0) ^ 2 = 0) by lra. assert (E0 : 1 - mget W 0 0 = 0) by (apply Rsqr_0_uniq; unfold Rsqr; lra).
        unfold frob2. cbn [cf_X shape nth seq sumf]. replace (mget W 0 0) with 1 by lra.
        assert (F0 : mget (nth 0 Us m0) 0 0 = 1) by (ev; ring). assert (F1 : mget (nth 0 Us m0) 1 0 = 0) by (ev; ring).
        cbn [nth] in *. rewrite F0, F1. lra.
    + assert (E : forall W, in_mode 1 cf_X Us [0%nat] Vs Ys 1 W = (1 - mget W 0 0) ^ 2 + 4).
      { intros W. ev. unfold mget. cbn. ring. }
      split; intros W HW; rewrite !E.
      * pose proof (pow2_ge_0 (1 - mget W 0 0)). assert (V0 : (1 - mget (nth 1 Us m0) 0 0) ^ 2 = 0) by (ev; ring). lra.
      * intros H. pose proof (pow2_ge_0 (1 - mget W 0 0)) as P.
        assert (V0 : (1 - mget (nth 1 Us m0) 0 0) ^ 2 = 0) by (ev; ring).
        assert (P0 : (1 - mget W 0 0) ^ 2 = 0) by lra. assert (E0 : 1 - mget W 0 0 = 0) by (apply Rsqr_0_uniq; unfold Rsqr; lra).
        unfold frob2. cbn [cf_X shape nth seq sumf]. replace (mget W 0 0) with 1 by lra.
        assert (F0 : mget (nth 1 Us m0) 0 0 = 1) by (ev; ring). cbn [nth] in *. rewrite F0. lra.
  - intros [|i] Hi; [|cbn in Hi; lia].
    assert (E : forall W, in_matrix 1 cf_X Us [0%nat] Vs Ys 0 W = mget W 0 0 ^ 2 + 4).
    { intros W. ev. unfold mget. cbn. ring. }
    split; intros W HW; rewrite !E.
    + pose proof (pow2_ge_0 (mget W 0 0)). assert (V0 : mget (nth 0 Vs m0) 0 0 ^ 2 = 0) by (ev; ring). lra.
    + intros _. unfold frob2. cbn [Ys cf_still cm_Y cf_Y ncols shape nth seq sumf]. pose proof (pow2_ge_0 (mget W 0 0)).
      assert (V0 : mget (nth 0 Vs m0) 0 0 ^ 2 = 0) by (ev; ring). cbn [nth] in V0. lra.
Qed.
