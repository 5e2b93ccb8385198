(** Updates of CMTF_ALS: lemmas for C51. *)
From Verif Require Export CMTFFacts.
From Verif Require Import MetricsFacts.
Set Implicit Arguments.
Unset Strict Implicit.
Local Open Scope R_scope.

(** What an update of one factor leaves alone *)
Record same_coupled (s s' : cmtf_state) : Prop :=
  { sc_cp : same_problem (cm_cp s) (cm_cp s'); sc_Y : cm_Y s' = cm_Y s; sc_modes : cm_modes s' = cm_modes s }.
Lemma same_coupled_refl s : same_coupled s s.
Proof. constructor; auto. apply same_problem_refl. Qed.
Lemma same_coupled_trans s t u : same_coupled s t -> same_coupled t u -> same_coupled s u.
Proof. intros [] []. constructor; try congruence. eapply same_problem_trans; eauto. Qed.

Lemma coupling_rows K X ms Vs Ys i : coupling_ok K X ms Vs Ys -> (i < length ms)%nat ->
  nrows (nth i Ys m0) = nth (nth i ms 0%nat) (shape X) 0%nat.
Proof. intros (_ & _ & H) Hi. destruct (H i Hi) as (_ & HY & _). now apply is_mat_nrows in HY. Qed.

Lemma cm_update_with env cs K ms s m lhs rhs solve Z :
  cm_ok K ms s -> (m < length (shape (cp_X (cm_cp s))))%nat ->
  cmtf_lhs env cs s m = Ok lhs -> cmtf_rhs env s m = Ok rhs ->
  get_rightsolve env cs (cp_nn (cm_cp s)) (cp_orth (cm_cp s)) m = Ok solve ->
  solve lhs rhs = Ok Z -> is_mat (nth m (shape (cp_X (cm_cp s))) 0%nat) K Z ->
  exists s', cmtf_update_factor env cs s m = (s', None) /\
    cm_fms s' = with_factor m Z (cm_fms s) /\ cm_V s' = cm_V s /\ same_coupled s s' /\ cm_ok K ms s'.
Proof.
  intros H Hm EL ER ES EZ HZ. unfold cmtf_update_factor. rewrite EL, ER, ES. cbn [bind]. rewrite EZ. cbn [bind].
  rewrite (@list_get_nth _ _ m m0) by (rewrite (ck_len H); auto). cbn [bind].
  rewrite (assign_full_mat (rows_nth (ck_fac H) Hm) HZ).
  eexists. split; [reflexivity|]. split; [reflexivity|]. split; [reflexivity|].
  split; [constructor; try reflexivity; constructor; reflexivity|].
  constructor; try apply H. apply factors_ok_replace; auto. apply (ck_fac H).
Qed.

(** *** Coupled modes *)
Lemma first_of_ok {A} (l : list A) idxs i rest d : idxs = i :: rest ->
  (forall j, In j idxs -> (j < length l)%nat) -> first_of l idxs = Ok (nth i l d).
Proof.
  intros -> H. unfold first_of. rewrite (@mapM_ext_ok _ _ (list_get l) (fun j => nth j l d)).
  - reflexivity.
  - intros j Hj. apply list_get_nth. auto.
Qed.

Lemma find_coupled K ms s m idxs : cm_ok K ms s ->
  dict_find (Z.of_nat m) (mode_to_cm_idx (cm_modes s)) = Some idxs ->
  exists i rest, idxs = i :: rest /\ (i < length ms)%nat /\ nth i ms 0%nat = m /\
    forall j, In j idxs -> (j < length ms)%nat.
Proof.
  intros H E. pose proof E as E'. destruct (find_first E') as (i & rest & -> & Hi & _).
  rewrite (ck_modes H) in *. assert (Hn : forall j, nth_error (map Z.of_nat ms) j = Some (Z.of_nat m) ->
    (j < length ms)%nat /\ nth j ms 0%nat = m).
  { intros j Hj. rewrite nth_error_map in Hj. destruct (nth_error ms j) as [a|] eqn:Ea; [|discriminate].
    cbn in Hj. injection Hj as Hj. apply Nat2Z.inj in Hj. subst a. split; [apply nth_error_Some; congruence|].
    now apply nth_error_nth. }
  exists i, rest. split; auto. destruct (Hn i Hi). split; auto. split; auto.
  intros j Hj. rewrite dict_find_modes in E.
  assert (Hj' : In j (positions (Z.of_nat m) (map Z.of_nat ms) 0)).
  { destruct (positions _ _ _); [discriminate|]. injection E as -> ->. exact Hj. }
  apply in_positions in Hj' as [_ Hj']. rewrite Nat.sub_0_r in Hj'. now apply Hn.
Qed.

Lemma find_uncoupled K ms s m : cm_ok K ms s ->
  dict_find (Z.of_nat m) (mode_to_cm_idx (cm_modes s)) = None -> ~ In m ms.
Proof.
  intros H E Hin. rewrite (ck_modes H), dict_find_modes in E.
  destruct (In_nth _ _ 0%nat Hin) as (i & Hi & Em).
  assert (Hp : In i (positions (Z.of_nat m) (map Z.of_nat ms) 0)).
  { apply in_positions. split; [lia|]. rewrite Nat.sub_0_r, nth_error_map, (nth_error_nth' _ 0%nat Hi). cbn. now rewrite Em. }
  destruct (positions _ _ _); [destruct Hp|discriminate].
Qed.

(** The two concatenations describe tensor and matrix together. *)
Lemma coupled_sides env cs K ms s m idxs : cm_ok K ms s -> (m < length (shape (cp_X (cm_cp s))))%nat ->
  dict_find (Z.of_nat m) (mode_to_cm_idx (cm_modes s)) = Some idxs ->
  exists i lhs rhs N, (i < length ms)%nat /\ nth i ms 0%nat = m /\ (1 <= N)%nat /\
    cmtf_lhs env cs s m = Ok lhs /\ cmtf_rhs env s m = Ok rhs /\
    is_mat K N lhs /\ is_mat (nth m (shape (cp_X (cm_cp s))) 0%nat) N rhs /\
    (forall Z, dist2 (nth m (shape (cp_X (cm_cp s))) 0%nat) N (mprod K (mget Z) (mget lhs)) (mget rhs) =
      sse (cp_X (cm_cp s)) (with_factor m Z (cm_fms s)) unit_weights K +
      mat_sse K Z (nth i (cm_V s) m0) (nth i (cm_Y s) m0)) /\
    forall a r, (a < nth m (shape (cp_X (cm_cp s))) 0)%nat -> (r < K)%nat ->
      sum N (fun j => mget rhs a j * mget lhs r j) =
      normal_rhs (cp_X (cm_cp s)) (cm_fms s) m a r +
      sum (ncols (nth i (cm_Y s) m0)) (fun j => mget (nth i (cm_Y s) m0) a j * mget (nth i (cm_V s) m0) j r).
Proof.
  intros H Hm EF. destruct (find_coupled H EF) as (i & rest & Ei & Hi & Em & Hall).
  destruct (ck_coup H) as (HlV & HlY & HC). destruct (HC i Hi) as (_ & HY & HV).
  pose proof (ck_fac H) as [HU Hr]. destruct (ck_data H) as (HX & H2 & Hnz).
  set (X := cp_X (cm_cp s)) in *. set (J := ncols (nth i (cm_Y s) m0)) in *. rewrite Em in HY.
  assert (Hlen : length (cm_fms s) = length (shape X)) by apply (ck_len H).
  destruct (@khatri_rao_skip_ok (env_junk env) K (cm_fms s) (Z.of_nat m) m HU) as (KR & EKR & HKR & HKRe).
  { apply py_index_nat. lia. } { lia. }
  rewrite Hr in HKR, HKRe.
  destruct (@unfold_ok X (Z.of_nat m) m HX) as (M & EM & HM & HMe).
  { now apply py_index_nat. } { apply (shape_nonzero (ck_data H) Hm). }
  set (C := prodl (remove_at m (shape X))) in *.
  assert (HC1 : (1 <= C)%nat).
  { unfold C. assert (Hnz' : Forall (fun n => n <> 0%nat) (remove_at m (shape X))) by now apply Forall_remove_at.
    clear -Hnz'. induction Hnz'; cbn; [lia|]. unfold prodl in *. cbn. nia. }
  destruct (concat0_ok HKR HV) as (CC & ECC & HCC & HCC1 & HCC2).
  destruct (concat1_ok HM HY) as (RR & ERR & HRR & HRR1 & HRR2).
  exists i, (transp CC), RR, (C + J)%nat. split; auto. split; auto. split; [lia|].
  split. { unfold cmtf_lhs. rewrite EF, EKR. cbn [bind]. rewrite (first_of_ok m0 Ei) by (now rewrite HlV).
    cbn [bind]. rewrite ECC. reflexivity. }
  split. { unfold cmtf_rhs. rewrite EF. fold X. rewrite EM. cbn [bind]. rewrite (first_of_ok m0 Ei) by (now rewrite HlY).
    cbn [bind]. exact ERR. }
  split; [now apply is_mat_transp|]. split; [exact HRR|].
  assert (HL1 : forall r c, (r < K)%nat -> (c < C)%nat -> mget (transp CC) r c = mode_A X (cm_fms s) m r c).
  { intros r c Hrk Hc.
    assert (Hv : valid (nth c (indices (remove_at m (shape X))) []) (remove_at m (shape X))) by now apply valid_nth_indices.
    assert (Hra : ravel (remove_at m (shape X)) (nth c (indices (remove_at m (shape X))) []) = c) by now apply ravel_nth_indices.
    rewrite (mget_transp HCC) by (auto; lia). rewrite HCC1 by auto. unfold mode_A. rewrite <- HKRe by auto. now rewrite Hra. }
  assert (HR1 : forall a c, (a < nth m (shape X) 0)%nat -> (c < C)%nat -> mget RR a c = mode_B X m a c).
  { intros a c Ha Hc.
    assert (Hv : valid (nth c (indices (remove_at m (shape X))) []) (remove_at m (shape X))) by now apply valid_nth_indices.
    assert (Hra : ravel (remove_at m (shape X)) (nth c (indices (remove_at m (shape X))) []) = c) by now apply ravel_nth_indices.
    rewrite HRR1 by auto. unfold mode_B. rewrite <- HMe.
    - rewrite remove_insert_at, nth_insert_at; [now rewrite Hra| |];
      rewrite (valid_length Hv), length_remove_at by auto; lia.
    - apply valid_insert_at; auto. }
  split.
  - intros Z. rewrite (mode_sse K Hr Hm). fold C. unfold mat_sse. rewrite (is_mat_nrows HY). fold J. unfold dist2.
    rewrite <- sum_plus. apply sum_ext. intros a Ha. rewrite sum_split. f_equal.
    + apply sum_ext. intros c Hc. rewrite HR1 by auto. f_equal. f_equal.
      unfold mprod. apply sum_ext. intros r Hrk. now rewrite HL1.
    + apply sum_ext. intros j Hj. rewrite HRR2 by auto.
      assert (E : mprod K (mget Z) (mget (transp CC)) a (C + j) = sum K (fun r => mget Z a r * mget (nth i (cm_V s) m0) j r)).
      { unfold mprod. apply sum_ext. intros r Hrk. rewrite (mget_transp HCC) by (auto; lia). now rewrite HCC2. }
      rewrite E. ring.
  - intros a r Ha Hrk. rewrite sum_split. f_equal.
    + rewrite <- mode_gM by auto. fold C. unfold gM. apply sum_ext. intros c Hc. now rewrite HL1, HR1.
    + fold J. apply sum_ext. intros j Hj. rewrite HRR2 by auto. rewrite (mget_transp HCC) by (auto; lia). now rewrite HCC2.
Qed.

(** How the matrix terms depend on factor m *)
Lemma mats_sse_uncoupled K Us ms Vs Ys m Z : ~ In m ms ->
  mats_sse K (with_factor m Z Us) ms Vs Ys = mats_sse K Us ms Vs Ys.
Proof.
  intros Hm. apply sum_ext. intros i Hi. f_equal. unfold with_factor. apply nth_replace_at_neq.
  intros E. apply Hm. rewrite E. now apply nth_In.
Qed.
Lemma mats_sse_coupled K Us ms Vs Ys i Z Z' : NoDup ms -> (i < length ms)%nat -> (nth i ms 0 < length Us)%nat ->
  mats_sse K (with_factor (nth i ms 0%nat) Z Us) ms Vs Ys - mats_sse K (with_factor (nth i ms 0%nat) Z' Us) ms Vs Ys =
  mat_sse K Z (nth i Vs m0) (nth i Ys m0) - mat_sse K Z' (nth i Vs m0) (nth i Ys m0).
Proof.
  intros HN Hi Hl. unfold mats_sse. rewrite <- sum_minus.
  rewrite <- (@sum_delta_l (length ms) i (fun j => mat_sse K Z (nth j Vs m0) (nth j Ys m0) - mat_sse K Z' (nth j Vs m0) (nth j Ys m0))) by auto.
  apply sum_ext. intros j Hj. destruct (Nat.eq_dec i j) as [<-|Hne].
  - rewrite delta_refl. unfold with_factor. rewrite !nth_replace_at_eq by auto. ring.
  - rewrite delta_neq by auto. unfold with_factor. rewrite !nth_replace_at_neq; [ring| |];
      intros E; apply Hne; apply (proj1 (NoDup_nth ms 0%nat) HN); auto.
Qed.

Lemma cm_update_optimal env cs K ms s m :
  cm_ok K ms s -> cs_rank cs = K -> (1 <= K)%nat -> (m < length (shape (cp_X (cm_cp s))))%nat ->
  free_mode cs (cm_cp s) m -> svd_works_rows K (env_svd env) ->
  exists s' Z, cmtf_update_factor env cs s m = (s', None) /\
    is_mat (nth m (shape (cp_X (cm_cp s))) 0%nat) K Z /\
    cm_fms s' = with_factor m Z (cm_fms s) /\ cm_V s' = cm_V s /\ same_coupled s s' /\ cm_ok K ms s' /\
    (NoDup ms -> forall Z', coupled_loss K (cp_X (cm_cp s)) (with_factor m Z (cm_fms s)) unit_weights ms (cm_V s) (cm_Y s) <=
               coupled_loss K (cp_X (cm_cp s)) (with_factor m Z' (cm_fms s)) unit_weights ms (cm_V s) (cm_Y s)).
Proof.
  intros H HK HK1 Hm Hfree Hsvd.
  pose proof (ck_fac H) as [HU Hr].
  destruct (dict_find (Z.of_nat m) (mode_to_cm_idx (cm_modes s))) as [idxs|] eqn:EF.
  - destruct (@coupled_sides env cs K ms s m idxs H Hm EF) as (i & lhs & rhs & N & Hi & Em & HN1 & EL & ER & HL & HR & Hd & _).
    destruct (Hsvd N HN1 lhs HL) as (U & Sv & Vh & ES & HS).
    destruct (rightsolve_ok HL HR ES HS) as (Z & EZ & HZ & _ & Hopt & _).
    destruct (cm_update_with H Hm EL ER (free_rightsolve env Hfree) EZ HZ) as (s' & Es & Hf & HV & HSC & HC).
    exists s', Z. do 6 (split; [assumption|]). intros HN Z'. specialize (Hopt (mget Z')). rewrite !Hd in Hopt.
    unfold coupled_loss. subst m.
    pose proof (@mats_sse_coupled K (cm_fms s) ms (cm_V s) (cm_Y s) i Z Z' HN Hi) as HD.
    rewrite (ck_len H) in HD. specialize (HD Hm). lra.
  - pose proof (find_uncoupled H EF) as Hnin.
    destruct (als_rhs_ok env (ck_data H) (ck_fac H) Hm) as (P & EP & HP & HPe).
    destruct (als_lhs_ok m HU HK) as (V & EV & HV & HVe).
    destruct (Hsvd K HK1 V HV) as (U & Sv & Vh & ES & HS).
    destruct (rightsolve_ok HV HP ES HS) as (Z & EZ & HZ & Hnormal & _).
    assert (EL : cmtf_lhs env cs s m = Ok V) by (unfold cmtf_lhs; now rewrite EF).
    assert (ER : cmtf_rhs env s m = Ok P) by (unfold cmtf_rhs; now rewrite EF).
    destruct (cm_update_with H Hm EL ER (free_rightsolve env Hfree) EZ HZ) as (s' & Es & Hf & HV' & HSC & HC).
    exists s', Z. do 6 (split; [assumption|]). intros HN Z'. unfold coupled_loss.
    rewrite !mats_sse_uncoupled by auto. apply Rplus_le_compat_r.
    rewrite !(mode_sse K Hr Hm). apply gram_optimal.
    intros i a Hi Ha. rewrite <- (Hnormal i a Hi Ha). apply sum_ext. intros j Hj.
    rewrite mode_gV by auto. rewrite HVe by auto. f_equal. rewrite mode_gM by auto. rewrite HPe by auto. f_equal.
    unfold mprod. apply sum_ext. intros k Hk. rewrite mode_gV by auto. now rewrite HVe.
Qed.

(** *** The matrix factors *)
Lemma mat_sse_transp K n U V Y : is_mat n K U -> is_mat n (ncols Y) Y ->
  mat_sse K U V Y = dist2 (ncols Y) n (mprod K (mget V) (mget (transp U))) (mget (transp Y)).
Proof.
  intros HU HY. unfold mat_sse, dist2. rewrite (is_mat_nrows HY), sum_swap. apply sum_ext. intros j Hj.
  apply sum_ext. intros i Hi. rewrite (mget_transp HY) by auto.
  assert (E : mprod K (mget V) (mget (transp U)) j i = sum K (fun r => mget U i r * mget V j r)).
  { apply sum_ext. intros r Hr. rewrite (mget_transp HU) by auto. ring. }
  rewrite E. ring.
Qed.

Definition free_nn (s : cmtf_state) : Prop :=
  exists l, cp_nn (cm_cp s) = Some l /\ forall m, (m < length (shape (cp_X (cm_cp s))))%nat -> nth_error l m = Some false.

Lemma uncoupled_step_ok env K ms s i Vs : cm_ok K ms s -> (i < length ms)%nat -> free_nn s ->
  svd_works_rows K (env_svd env) ->
  length Vs = length ms -> is_mat (ncols (nth i (cm_Y s) m0)) K (nth i Vs m0) ->
  exists W, uncoupled_step env s (Z.of_nat (nth i ms 0%nat)) [i] Vs = (replace_at i W Vs, None) /\
    is_mat (ncols (nth i (cm_Y s) m0)) K W /\
    forall W', mat_sse K (nth (nth i ms 0%nat) (cm_fms s) m0) W (nth i (cm_Y s) m0) <=
               mat_sse K (nth (nth i ms 0%nat) (cm_fms s) m0) W' (nth i (cm_Y s) m0).
Proof.
  intros H Hi (l & El & Hl) Hsvd HlV HVi.
  destruct (ck_coup H) as (_ & HlY & HC). destruct (HC i Hi) as (Hm & HY & _).
  pose proof (rows_nth (ck_fac H) Hm) as HU. set (m := nth i ms 0%nat) in *.
  set (U := nth m (cm_fms s) m0) in *. set (Y := nth i (cm_Y s) m0) in *.
  assert (Hn1 : (1 <= nth m (shape (cp_X (cm_cp s))) 0)%nat).
  { pose proof (shape_nonzero (ck_data H) Hm). lia. }
  destruct (Hsvd _ Hn1 _ (is_mat_transp HU)) as (Us & Sv & Vh & ES & HS).
  destruct (rightsolve_ok (is_mat_transp HU) (is_mat_transp HY) ES HS) as (W & EW & HW & _ & Hopt & _).
  exists W. split; [|split; auto].
  - unfold uncoupled_step. cbn [list_get nth_error bind].
    rewrite (@py_get_nat _ (cm_fms s) m m0) by (rewrite (ck_len H); auto). cbn [bind].
    rewrite (@list_get_nth _ (cm_Y s) i m0), (@list_get_nth _ Vs i m0) by lia. cbn [bind].
    rewrite El. unfold py_get. assert (Hml : (m < length l)%nat) by (apply nth_error_Some; rewrite Hl by auto; discriminate).
    rewrite py_index_nat by auto. unfold list_get. rewrite Hl by auto. cbn [bind].
    fold U Y. rewrite EW. cbn [bind]. now rewrite (assign_full_mat HVi HW).
  - intros W'. rewrite !(mat_sse_transp _ HU HY). apply Hopt.
Qed.

(** The loop over all coupled matrices *)
Lemma uncoupled_loop_ok env K ms s : cm_ok K ms s -> free_nn s -> svd_works_rows K (env_svd env) ->
  forall n a Vs, (a + n = length ms)%nat -> coupling_ok K (cp_X (cm_cp s)) ms Vs (cm_Y s) ->
  exists Vs', uncoupled_loop env s (combine (skipn a (map Z.of_nat ms)) (map (fun i => [i]) (seq a n))) Vs = (Vs', None) /\
    coupling_ok K (cp_X (cm_cp s)) ms Vs' (cm_Y s) /\
    (forall i, (i < a)%nat -> nth i Vs' m0 = nth i Vs m0) /\
    forall i W', (a <= i < length ms)%nat ->
      mat_sse K (nth (nth i ms 0%nat) (cm_fms s) m0) (nth i Vs' m0) (nth i (cm_Y s) m0) <=
      mat_sse K (nth (nth i ms 0%nat) (cm_fms s) m0) W' (nth i (cm_Y s) m0).
Proof.
  intros H Hfree Hsvd. induction n as [|n IH]; intros a Vs Ha HC.
  - exists Vs. rewrite skipn_all2 by (rewrite map_length; lia). split; [reflexivity|]. split; auto. split; auto.
    intros; lia.
  - pose proof HC as (HlV & HlY & HC0). destruct (HC0 a ltac:(lia)) as (_ & _ & HVa).
    destruct (@uncoupled_step_ok env K ms s a Vs H ltac:(lia) Hfree Hsvd HlV HVa) as (W & EW & HW & Hopt).
    destruct (IH (S a) (replace_at a W Vs)) as (Vs' & E & HC' & Hsame & Hopt'); [lia| |].
    { split; [now rewrite length_replace_at|]. split; auto. intros i Hi. destruct (HC0 i Hi) as (A & B & C).
      split; auto. split; auto. destruct (Nat.eq_dec a i) as [<-|Hne].
      - rewrite nth_replace_at_eq by lia. exact HW.
      - rewrite nth_replace_at_neq by auto. exact C. }
    exists Vs'. rewrite (@nth_skip _ (map Z.of_nat ms) 0%Z a) by (rewrite map_length; lia).
    change 0%Z with (Z.of_nat 0). rewrite map_nth. cbn [seq map combine uncoupled_loop]. rewrite EW.
    split; [exact E|]. split; auto. split.
    + intros i Hi. rewrite Hsame by lia. apply nth_replace_at_neq. lia.
    + intros i W' Hi. destruct (Nat.eq_dec i a) as [->|]; [|apply Hopt'; lia].
      rewrite Hsame by lia. rewrite nth_replace_at_eq by lia. apply Hopt.
Qed.

Lemma map_nat_nodup ms : NoDup ms -> NoDup (map Z.of_nat ms).
Proof.
  induction 1 as [|x l Hx Hl IH]; cbn; constructor; auto. intros Hin. apply in_map_iff in Hin as (y & E & Hy).
  apply Nat2Z.inj in E. now subst.
Qed.

Lemma update_uncoupled_ok env K ms s : cm_ok K ms s -> NoDup ms -> free_nn s -> svd_works_rows K (env_svd env) ->
  exists s', update_uncoupled env s = (s', None) /\ cm_cp s' = cm_cp s /\ same_coupled s s' /\ cm_ok K ms s' /\
    forall i W, (i < length ms)%nat ->
      mat_sse K (nth (nth i ms 0%nat) (cm_fms s) m0) (nth i (cm_V s') m0) (nth i (cm_Y s) m0) <=
      mat_sse K (nth (nth i ms 0%nat) (cm_fms s) m0) W (nth i (cm_Y s) m0).
Proof.
  intros H HN Hfree Hsvd.
  destruct (@uncoupled_loop_ok env K ms s H Hfree Hsvd (length ms) 0%nat (cm_V s) ltac:(lia) (ck_coup H))
    as (Vs' & E & HC & _ & Hopt).
  unfold update_uncoupled. rewrite (dict_of_distinct (modes := cm_modes s))
    by (rewrite (ck_modes H); now apply map_nat_nodup).
  rewrite (ck_modes H), map_length. cbn [skipn] in E. rewrite E.
  eexists. split; [reflexivity|]. split; [reflexivity|].
  split; [constructor; try reflexivity; apply same_problem_refl|].
  split; [|intros i W Hi; apply Hopt; lia].
  constructor; try apply H. exact HC.
Qed.

(** *** A whole iteration *)
Lemma free_mode_same cs c c' m : same_problem c c' -> free_mode cs c m -> free_mode cs c' m.
Proof. intros HS (A & B & C). unfold free_mode. rewrite (sp_nn HS), (sp_orth HS). auto. Qed.

Lemma cm_modes_decrease env cs K ms l : svd_works_rows K (env_svd env) -> cs_rank cs = K -> (1 <= K)%nat ->
  forall s, cm_ok K ms s ->
  Forall (fun m => (m < length (shape (cp_X (cm_cp s))))%nat /\ free_mode cs (cm_cp s) m) l ->
  exists s', cmtf_update_modes env cs l s = (s', None) /\ cm_ok K ms s' /\ same_coupled s s' /\ cm_V s' = cm_V s /\
    (NoDup ms -> coupled_loss K (cp_X (cm_cp s)) (cm_fms s') unit_weights ms (cm_V s) (cm_Y s) <=
    coupled_loss K (cp_X (cm_cp s)) (cm_fms s) unit_weights ms (cm_V s) (cm_Y s)).
Proof.
  intros Hsvd HK HK1. induction l as [|m l IH]; intros s H Hl.
  - exists s. split; [reflexivity|]. split; auto. split; [apply same_coupled_refl|]. split; [reflexivity|lra].
  - inversion Hl as [|? ? [Hm Hfree] Hl']; subst.
    destruct (cm_update_optimal H eq_refl HK1 Hm Hfree Hsvd) as (s1 & Z & E1 & HZ & Hfm & HV1 & HS1 & HC1 & Hopt).
    destruct (IH s1) as (s2 & E2 & HC2 & HS2 & HV2 & Hle2); auto.
    { eapply Forall_impl; [|exact Hl']. intros m' [A B]. rewrite (sp_X (sc_cp HS1)). split; auto.
      now apply (free_mode_same (sc_cp HS1)). }
    exists s2. cbn [cmtf_update_modes]. destruct Hfree as (_ & (nn & En & Enm) & _).
    rewrite En. cbn [not_none bind]. unfold list_get at 1. rewrite Enm. rewrite E1, E2. split; auto. split; auto.
    split; [eapply same_coupled_trans; eauto|]. split; [congruence|]. intros HN. specialize (Hle2 HN). specialize (Hopt HN).
    rewrite (sp_X (sc_cp HS1)), HV1, (sc_Y HS1) in Hle2. eapply Rle_trans; [exact Hle2|]. rewrite Hfm.
    specialize (Hopt (nth m (cm_fms s) m0)). rewrite with_factor_self in Hopt; auto.
    rewrite (ck_len H). auto.
Qed.

Lemma all_free cs c : free_fit cs c ->
  Forall (fun m => (m < length (shape (cp_X c)))%nat /\ free_mode cs c m) (seq 0 (ndim (cp_X c))).
Proof. intros H. apply Forall_forall. intros m Hm. apply in_seq in Hm. unfold ndim in Hm. split; [lia|]. apply H. lia. Qed.

Lemma free_fit_nn cs s : free_fit cs (cm_cp s) -> data_ok (cp_X (cm_cp s)) -> free_nn s.
Proof.
  intros H (_ & H2 & _). destruct (H 0%nat ltac:(lia)) as (_ & (l & El & _) & _). exists l. split; auto.
  intros m Hm. destruct (H m Hm) as (_ & (l' & El' & E) & _). congruence.
Qed.

Lemma cm_iteration env cs K ms : svd_works_rows K (env_svd env) -> cs_rank cs = K -> (1 <= K)%nat -> NoDup ms ->
  forall s, cm_ok K ms s -> free_fit cs (cm_cp s) ->
  exists s', cmtf_update_factors env cs s = (s', None) /\ cm_ok K ms s' /\ same_coupled s s' /\
    coupled_loss K (cp_X (cm_cp s)) (cm_fms s') unit_weights ms (cm_V s') (cm_Y s) <=
    coupled_loss K (cp_X (cm_cp s)) (cm_fms s) unit_weights ms (cm_V s) (cm_Y s).
Proof.
  intros Hsvd HK HK1 HN s H Hfree.
  destruct (cm_modes_decrease Hsvd HK HK1 H (all_free Hfree)) as (s1 & E1 & H1 & HS1 & HV1 & Hle1). specialize (Hle1 HN).
  destruct (@update_uncoupled_ok env K ms s1 H1 HN) as (s2 & E2 & Hcp & HS2 & H2 & Hopt); auto.
  { apply free_fit_nn with (cs := cs); [now apply (free_fit_same (sc_cp HS1))|apply (ck_data H1)]. }
  exists s2. unfold cmtf_update_factors. rewrite E1. split; auto. split; auto. split; [eapply same_coupled_trans; eauto|].
  eapply Rle_trans; [|exact Hle1].
  assert (Ef : cm_fms s2 = cm_fms s1) by (unfold cm_fms, cm_dec; now rewrite Hcp).
  unfold coupled_loss. rewrite Ef. apply Rplus_le_compat_l. unfold mats_sse. apply sum_le. intros i Hi.
  rewrite <- (sc_Y HS1). now apply Hopt.
Qed.

Lemma cm_iterations env cs K ms : svd_works_rows K (env_svd env) -> cs_rank cs = K -> (1 <= K)%nat -> NoDup ms ->
  forall s, cm_ok K ms s -> free_fit cs (cm_cp s) -> forall n,
  let s1 := state_after (cmtf_model env cs) s n in let s2 := state_after (cmtf_model env cs) s (S n) in
  cm_ok K ms s1 /\ same_coupled s s1 /\ snd (cmtf_update_factors env cs s1) = None /\ cm_ok K ms s2 /\
  coupled_loss K (cp_X (cm_cp s)) (cm_fms s2) unit_weights ms (cm_V s2) (cm_Y s) <=
  coupled_loss K (cp_X (cm_cp s)) (cm_fms s1) unit_weights ms (cm_V s1) (cm_Y s).
Proof.
  intros Hsvd HK HK1 HN s H Hfree.
  assert (Hinv : forall n, cm_ok K ms (state_after (cmtf_model env cs) s n) /\
                           same_coupled s (state_after (cmtf_model env cs) s n)).
  { induction n as [|n [IH1 IH2]]; [split; [auto|apply same_coupled_refl]|].
    cbn [state_after md_update cmtf_model].
    destruct (cm_iteration Hsvd HK HK1 HN IH1 (free_fit_same (sc_cp IH2) Hfree)) as (s' & E & HC & HS & _).
    rewrite E. cbn [fst]. split; auto. eapply same_coupled_trans; eauto. }
  intros n s1 s2. destruct (Hinv n) as [H1 H2]. split; auto. split; auto.
  destruct (cm_iteration Hsvd HK HK1 HN H1 (free_fit_same (sc_cp H2) Hfree)) as (s' & E & HC & HS & Hle).
  assert (E2 : s2 = s').
  { unfold s2. cbn [state_after md_update cmtf_model]. now rewrite E. }
  fold s1 in E. rewrite E. cbn [snd]. split; auto.
  rewrite E2. split; auto. rewrite (sp_X (sc_cp H2)), (sc_Y H2) in Hle. exact Hle.
Qed.

Lemma coupled_loss_unit K X Us w ms Vs Ys : (forall r, (r < K)%nat -> w r = 1) ->
  coupled_loss K X Us w ms Vs Ys = coupled_loss K X Us unit_weights ms Vs Ys.
Proof. intros H. unfold coupled_loss. f_equal. now apply sse_ext. Qed.

Lemma cm_fit_le env cs cf K ms ds ds' e : svd_works_rows K (env_svd env) -> cs_rank cs = K -> (1 <= K)%nat -> NoDup ms ->
  cm_ok K ms (ds_num ds) -> free_fit cs (cm_cp (ds_num ds)) ->
  (forall r, (r < K)%nat -> vget (kt_w (cm_dec (ds_num ds))) r = 1) ->
  cp_fit_loop (cmtf_model env cs) cf ds = (ds', e) ->
  exists l l', cmtf_SSE env (ds_num ds) = Ok l /\ cmtf_SSE env (ds_num ds') = Ok l' /\ l' <= l.
Proof.
  intros Hsvd HK HK1 HN H Hfree Hw E. destruct (fit_loop_state E) as (k & _ & [-> _] & _).
  set (s := ds_num ds) in *.
  assert (G : forall k, cm_ok K ms (state_after (cmtf_model env cs) s k) /\ same_coupled s (state_after (cmtf_model env cs) s k)
    /\ coupled_loss K (cp_X (cm_cp s)) (cm_fms (state_after (cmtf_model env cs) s k)) unit_weights ms
         (cm_V (state_after (cmtf_model env cs) s k)) (cm_Y s) <=
       coupled_loss K (cp_X (cm_cp s)) (cm_fms s) unit_weights ms (cm_V s) (cm_Y s)).
  { induction k0 as [|k0 (A & B & C)].
    - split; auto. split; [apply same_coupled_refl|cbn; lra].
    - destruct (cm_iterations Hsvd HK HK1 HN H Hfree k0) as (_ & _ & _ & A' & Hle).
      destruct (cm_iterations Hsvd HK HK1 HN H Hfree (S k0)) as (_ & B' & _).
      split; auto. split; auto. eapply Rle_trans; eauto. }
  destruct (G k) as (A & B & C). rewrite (cmtf_SSE_ok env H), (cmtf_SSE_ok env A).
  do 2 eexists. split; [reflexivity|]. split; [reflexivity|].
  rewrite (@coupled_loss_unit K _ _ (vget (kt_w (cm_dec s)))) by auto.
  rewrite (sp_X (sc_cp B)), (sc_Y B). rewrite coupled_loss_unit; [exact C|].
  intros r Hr. unfold cm_dec. rewrite (sp_w (sc_cp B)). apply Hw. exact Hr.
Qed.
