(** Movement and limits of CMTF_ALS: lemmas for C107. *)
From Verif Require Export CmLimitSpec LimitFacts CmFixFacts CoupledConstraintSpec.
From Verif Require Import Prelude Lin.
Set Implicit Arguments.
Unset Strict Implicit.
Local Open Scope R_scope.

(** *** The matrices *)
Definition mats_change2 (K : nat) (ms : list nat) (Ys Us Vs Us' Vs' : list nd) : R :=
  sum (length ms) (fun i => sum (nrows (nth i Ys m0)) (fun x => sum (ncols (nth i Ys m0)) (fun y =>
    (sum K (fun r => mget (nth (nth i ms 0%nat) Us m0) x r * mget (nth i Vs m0) y r) -
     sum K (fun r => mget (nth (nth i ms 0%nat) Us' m0) x r * mget (nth i Vs' m0) y r)) ^ 2))).
Lemma mats_change2_nonneg K ms Ys Us Vs Us' Vs' : 0 <= mats_change2 K ms Ys Us Vs Us' Vs'.
Proof. unfold mats_change2. apply sumf_nonneg. intros i _. apply sumf_nonneg. intros x _. apply sumf_nonneg. intros y _. apply pow2_ge_0. Qed.
Lemma mats_change2_refl K ms Ys Us Vs : mats_change2 K ms Ys Us Vs Us Vs = 0.
Proof. unfold mats_change2. apply sumf_zero. intros i _. apply sumf_zero. intros x _. apply sumf_zero. intros y _. ring. Qed.
Lemma coupled_change2_nonneg K X ms Ys Us Vs Us' Vs' : 0 <= coupled_change2 K X ms Ys Us Vs Us' Vs'.
Proof. pose proof (change2_nonneg K X Us Us'). pose proof (mats_change2_nonneg K ms Ys Us Vs Us' Vs'). unfold coupled_change2, mats_change2 in *. lra. Qed.
Lemma coupled_change2_refl K X ms Ys Us Vs : coupled_change2 K X ms Ys Us Vs Us Vs = 0.
Proof. change (change2 K X Us Us + mats_change2 K ms Ys Us Vs Us Vs = 0). rewrite change2_refl, mats_change2_refl. ring. Qed.
Lemma coupled_change2_split K X ms Ys Us Vs Us1 Vs1 Us2 Vs2 n : 0 < n ->
  coupled_change2 K X ms Ys Us Vs Us2 Vs2 <=
  (n + 1) * coupled_change2 K X ms Ys Us Vs Us1 Vs1 + (n + 1) / n * coupled_change2 K X ms Ys Us1 Vs1 Us2 Vs2.
Proof.
  intros Hn. pose proof (@change2_split K X Us Us1 Us2 n Hn) as H1.
  assert (H2 : mats_change2 K ms Ys Us Vs Us2 Vs2 <=
    (n + 1) * mats_change2 K ms Ys Us Vs Us1 Vs1 + (n + 1) / n * mats_change2 K ms Ys Us1 Vs1 Us2 Vs2).
  { unfold mats_change2. rewrite <- !sumf_scal_l, <- sumf_plus. apply sumf_le. intros i _.
    rewrite <- !sumf_scal_l, <- sumf_plus. apply sumf_le. intros x _. rewrite <- !sumf_scal_l, <- sumf_plus. apply sumf_le. intros y _.
    set (a := sum K (fun r => mget (nth (nth i ms 0%nat) Us m0) x r * mget (nth i Vs m0) y r)).
    set (b := sum K (fun r => mget (nth (nth i ms 0%nat) Us1 m0) x r * mget (nth i Vs1 m0) y r)).
    set (c := sum K (fun r => mget (nth (nth i ms 0%nat) Us2 m0) x r * mget (nth i Vs2 m0) y r)).
    replace (a - c) with ((a - b) + (b - c)) by ring. now apply square_split. }
  change (change2 K X Us Us2 + mats_change2 K ms Ys Us Vs Us2 Vs2 <=
    (n + 1) * (change2 K X Us Us1 + mats_change2 K ms Ys Us Vs Us1 Vs1) +
    (n + 1) / n * (change2 K X Us1 Us2 + mats_change2 K ms Ys Us1 Vs1 Us2 Vs2)). lra.
Qed.

(** Squared distances along a line *)
Lemma line_square y p q t : (y - (p + t * (q - p))) ^ 2 = (y - p) ^ 2 + (-2 * (y - p) * (q - p) * t + (q - p) ^ 2 * t ^ 2).
Proof. ring. Qed.

Lemma mats_line K X Us ms Vs Ys m Z : factors_ok K X Us -> coupling_ok K X ms Vs Ys -> (m < length (shape X))%nat ->
  let N := nth m (shape X) 0%nat in
  let D := tab2 N K (fun i r => mget (nth m Us m0) i r - mget Z i r) in
  exists b, (forall t, mats_sse K (with_factor m (step_to N K Z D t) Us) ms Vs Ys =
      mats_sse K (with_factor m Z Us) ms Vs Ys + (b * t + mats_change2 K ms Ys Us Vs (with_factor m Z Us) Vs * t ^ 2)) /\
    mats_sse K (with_factor m (step_to N K Z D 1) Us) ms Vs Ys = mats_sse K Us ms Vs Ys.
Proof.
  intros [HU Hr] (HlV & HlY & HC) Hm N D. pose proof (mode_len Hr) as Hl.
  set (e := fun Ws i x y => sum K (fun r => mget (nth (nth i ms 0%nat) Ws m0) x r * mget (nth i Vs m0) y r)).
  assert (Ee : forall t i x y, (i < length ms)%nat -> (x < nrows (nth i Ys m0))%nat ->
    e (with_factor m (step_to N K Z D t) Us) i x y = e (with_factor m Z Us) i x y + t * (e Us i x y - e (with_factor m Z Us) i x y)).
  { intros t i x y Hi Hx. destruct (HC i Hi) as (Hmi & HY & _). unfold e, with_factor. destruct (Nat.eq_dec (nth i ms 0%nat) m) as [Em|Em].
    - rewrite Em in *. rewrite !nth_replace_at_eq by (now rewrite Hl). unfold nrows in Hx. rewrite (proj2 HY) in Hx. cbn in Hx. fold N in Hx.
      rewrite <- sum_minus, <- sum_scal_l, <- sum_plus. apply sum_ext. intros r Hk. unfold step_to, D. rewrite !mget_tab2 by auto. ring.
    - rewrite !nth_replace_at_neq by auto. ring. }
  exists (sum (length ms) (fun i => sum (nrows (nth i Ys m0)) (fun x => sum (ncols (nth i Ys m0)) (fun y =>
    -2 * (mget (nth i Ys m0) x y - e (with_factor m Z Us) i x y) * (e Us i x y - e (with_factor m Z Us) i x y))))).
  split.
  - intros t. unfold mats_sse, mat_sse, mats_change2.
    rewrite (Rmult_comm _ t), (Rmult_comm _ (t ^ 2)). rewrite <- !sum_scal_l, <- !sum_plus. apply sum_ext. intros i Hi.
    rewrite <- !sum_scal_l, <- !sum_plus. apply sum_ext. intros x Hx. rewrite <- !sum_scal_l, <- !sum_plus. apply sum_ext. intros y Hy.
    pose proof (Ee t i x y Hi Hx) as H. unfold e in H |- *. rewrite H, line_square. ring.
  - unfold mats_sse, mat_sse. apply sum_ext. intros i Hi. apply sum_ext. intros x Hx. apply sum_ext. intros y Hy.
    pose proof (Ee 1 i x y Hi Hx) as H. unfold e in H. rewrite H. f_equal. ring.
Qed.

Lemma mode_pythagoras K X Us ms Vs Ys m Z : factors_ok K X Us -> coupling_ok K X ms Vs Ys -> (m < length (shape X))%nat ->
  (forall W, is_mat (nth m (shape X) 0%nat) K W -> in_mode K X Us ms Vs Ys m Z <= in_mode K X Us ms Vs Ys m W) ->
  coupled_loss K X Us unit_weights ms Vs Ys =
  in_mode K X Us ms Vs Ys m Z + coupled_change2 K X ms Ys Us Vs (with_factor m Z Us) Vs.
Proof.
  intros HU HC Hm HB. destruct (@sse_line K X Us m Z HU Hm) as (b & E & E1). destruct (@mats_line K X Us ms Vs Ys m Z HU HC Hm) as (b' & E' & E1').
  set (N := nth m (shape X) 0%nat) in *. set (D := tab2 N K _) in *.
  change (coupled_loss K X Us unit_weights ms Vs Ys) with (sse X Us unit_weights K + mats_sse K Us ms Vs Ys). rewrite <- E1, <- E1'.
  apply (@line_best (fun t => in_mode K X Us ms Vs Ys m (step_to N K Z D t)) _ (b + b')).
  - intros t. unfold in_mode, coupled_loss. rewrite E, E'.
    change (coupled_change2 K X ms Ys Us Vs (with_factor m Z Us) Vs) with
      (change2 K X Us (with_factor m Z Us) + mats_change2 K ms Ys Us Vs (with_factor m Z Us) Vs). ring.
  - apply coupled_change2_nonneg.
  - intros t. apply HB. apply is_mat_tab2.
Qed.

(** The own factor of a matrix *)
Lemma own_pythagoras K U V Z Y : (forall W, is_mat (ncols Y) K W -> mat_sse K U Z Y <= mat_sse K U W Y) ->
  mat_sse K U V Y = mat_sse K U Z Y + sum (nrows Y) (fun x => sum (ncols Y) (fun y =>
    (sum K (fun r => mget U x r * mget V y r) - sum K (fun r => mget U x r * mget Z y r)) ^ 2)).
Proof.
  intros HB. set (N := ncols Y) in *. set (D := tab2 N K (fun i r => mget V i r - mget Z i r)).
  assert (Ee : forall t x y, (y < N)%nat -> sum K (fun r => mget U x r * mget (step_to N K Z D t) y r) =
    sum K (fun r => mget U x r * mget Z y r) + t * (sum K (fun r => mget U x r * mget V y r) - sum K (fun r => mget U x r * mget Z y r))).
  { intros t x y Hy. rewrite <- sum_minus, <- sum_scal_l, <- sum_plus. apply sum_ext. intros r Hk.
    unfold step_to, D. rewrite !mget_tab2 by auto. ring. }
  assert (E1 : mat_sse K U (step_to N K Z D 1) Y = mat_sse K U V Y).
  { unfold mat_sse. apply sum_ext. intros x Hx. apply sum_ext. intros y Hy. rewrite (Ee 1 x y Hy). f_equal. ring. }
  rewrite <- E1.
  apply (@line_best (fun t => mat_sse K U (step_to N K Z D t) Y) _
    (sum (nrows Y) (fun x => sum N (fun y => -2 * (mget Y x y - sum K (fun r => mget U x r * mget Z y r)) *
       (sum K (fun r => mget U x r * mget V y r) - sum K (fun r => mget U x r * mget Z y r)))))).
  - intros t. unfold mat_sse. fold N. rewrite (Rmult_comm _ t), (Rmult_comm _ (t ^ 2)). rewrite <- !sum_scal_l, <- !sum_plus. apply sum_ext. intros x Hx.
    rewrite <- !sum_scal_l, <- !sum_plus. apply sum_ext. intros y Hy. rewrite (Ee t x y Hy), line_square. ring.
  - apply sumf_nonneg. intros x _. apply sumf_nonneg. intros y _. apply pow2_ge_0.
  - intros t. apply HB. apply is_mat_tab2.
Qed.

Section CmLimit.
Variables (env : cp_env) (cs : cp_settings) (K : nat) (ms : list nat).
Hypothesis (HN : NoDup ms) (HK : cs_rank cs = K) (HK1 : (1 <= K)%nat) (Hsvd : svd_works_rows K (env_svd env)).
Let md := cmtf_model env cs.
Notation loss s := (coupled_loss K (cp_X (cm_cp s)) (cm_fms s) unit_weights ms (cm_V s) (cm_Y s)).
Notation moved_to s t := (coupled_change2 K (cp_X (cm_cp s)) ms (cm_Y s) (cm_fms s) (cm_V s) (cm_fms t) (cm_V t)).

Lemma cm_update_moves s m : cm_ok K ms s -> (m < length (shape (cp_X (cm_cp s))))%nat -> free_mode cs (cm_cp s) m ->
  exists t, cmtf_update_factor env cs s m = (t, None) /\ cm_ok K ms t /\ same_coupled s t /\ cm_V t = cm_V s /\
    loss s = loss t + moved_to s t /\
    (forall W, is_mat (nth m (shape (cp_X (cm_cp s))) 0%nat) K W -> loss t <= in_mode K (cp_X (cm_cp t)) (cm_fms t) ms (cm_V t) (cm_Y t) m W).
Proof.
  intros H Hm Hf. destruct (@cm_update_least env cs K ms HN HK HK1 Hsvd s m H Hm Hf) as (t & Z & E & HZ & Ef & EV & HS & Ht & [HL _]).
  exists t. split; [exact E|]. split; [exact Ht|]. split; [exact HS|]. split; [exact EV|].
  rewrite (sp_X (sc_cp HS)), Ef, EV, (sc_Y HS). split.
  - apply mode_pythagoras; auto; [apply (ck_fac H)|apply (ck_coup H)].
  - intros W HW. unfold in_mode, with_factor. rewrite replace_at_twice. now apply HL.
Qed.

Lemma cm_own_moves s : cm_ok K ms s -> free_nn s ->
  exists t, update_uncoupled env s = (t, None) /\ cm_ok K ms t /\ same_coupled s t /\ cm_cp t = cm_cp s /\
    loss s = loss t + moved_to s t /\
    forall i W, (i < length ms)%nat -> is_mat (ncols (nth i (cm_Y s) m0)) K W ->
      in_matrix K (cp_X (cm_cp s)) (cm_fms s) ms (cm_V s) (cm_Y s) i (nth i (cm_V t) m0) <=
      in_matrix K (cp_X (cm_cp s)) (cm_fms s) ms (cm_V s) (cm_Y s) i W.
Proof.
  intros H Hf. destruct (@own_least env cs K ms HN HK HK1 Hsvd s H Hf) as (t & E & Hcp & HS & Ht & HO).
  exists t. split; [exact E|]. split; [exact Ht|]. split; [exact HS|]. split; [exact Hcp|]. split.
  - assert (Ef : cm_fms t = cm_fms s) by (unfold cm_fms, cm_dec; now rewrite Hcp). rewrite Hcp, Ef, (sc_Y HS).
    unfold coupled_loss, coupled_change2. rewrite change2_refl. unfold mats_sse. rewrite Rplus_0_l, Rplus_assoc, <- sum_plus. f_equal.
    apply sum_ext. intros i Hi. apply own_pythagoras. intros W HW. destruct (HO i Hi) as [HL _]. specialize (HL W HW).
    destruct (ck_coup H) as (HlV & _ & _).
    pose proof (@mats_sse_own K (cm_fms s) ms (cm_V s) (cm_Y s) i (nth i (cm_V t) m0) W HlV Hi) as HD.
    unfold in_matrix, coupled_loss in HL. lra.
  - intros i W Hi HW. now apply (HO i Hi).
Qed.

Lemma cm_modes_move l : forall s, cm_ok K ms s -> free_modes cs s l ->
  exists t, cmtf_update_modes env cs l s = (t, None) /\ cm_ok K ms t /\ same_coupled s t /\ cm_V t = cm_V s /\
    loss t <= loss s /\ moved_to s t <= INR (length l) * (loss s - loss t).
Proof.
  induction l as [|m l IH]; intros s H Hl.
  - exists s. split; [reflexivity|]. split; [exact H|]. split; [apply same_coupled_refl|]. split; [reflexivity|]. split; [lra|].
    rewrite coupled_change2_refl. cbn. lra.
  - apply Forall_cons_iff in Hl. destruct Hl as [[Hm Hf] Hl']. rewrite (@modes_step env cs m l s Hf).
    destruct (cm_update_moves H Hm Hf) as (t & E & Ht & HS & EV & HP & _). rewrite E.
    destruct (IH t Ht (free_modes_same HS Hl')) as (u & E2 & Hu & HSu & EVu & Hle & Hc).
    exists u. split; [exact E2|]. split; [exact Hu|]. split; [eapply same_coupled_trans; eauto|]. split; [congruence|].
    pose proof (coupled_change2_nonneg K (cp_X (cm_cp s)) ms (cm_Y s) (cm_fms s) (cm_V s) (cm_fms t) (cm_V t)) as H0. split; [lra|].
    destruct l as [|m' l].
    + cbn in E2. injection E2 as <-. cbn. lra.
    + set (n := INR (length (m' :: l))) in *.
      assert (Hn : 0 < n) by (unfold n; cbn [length]; apply lt_0_INR; lia).
      assert (En : INR (length (m :: m' :: l)) = n + 1) by (unfold n; cbn [length]; rewrite !S_INR; ring).
      rewrite (sp_X (sc_cp HS)), (sc_Y HS) in Hc. rewrite (sp_X (sc_cp HS)), (sc_Y HS) in HP.
      rewrite En. eapply Rle_trans; [apply (@coupled_change2_split K _ ms _ _ _ (cm_fms t) (cm_V t) _ _ n Hn)|].
      eapply Rle_trans; [apply Rplus_le_compat_l, Rmult_le_compat_l; [|exact Hc]|].
      * apply Rmult_le_pos; [lra|]. left. now apply Rinv_0_lt_compat.
      * right. rewrite HP. field. lra.
Qed.

Variable s : cmtf_state.
Hypothesis (HC : cm_ok K ms s) (HF : free_fit cs (cm_cp s)).
Notation X := (cp_X (cm_cp s)).
Notation Ys := (cm_Y s).
Notation N := (length (shape X)).
Notation Us k := (cm_fms (state_after md s k)).
Notation Vs k := (cm_V (state_after md s k)).
Notation L k := (coupled_loss K X (Us k) unit_weights ms (Vs k) Ys).

Lemma cm_state k : cm_ok K ms (state_after md s k) /\ same_coupled s (state_after md s k).
Proof. destruct (cm_iterations Hsvd HK HK1 HN HC HF k) as (Hk & HSk & _). split; [exact Hk|exact HSk]. Qed.

(** One pass: all factors, then all own matrices *)
Lemma cm_pass k : exists t, cmtf_update_modes env cs (seq 0 N) (state_after md s k) = (t, None) /\
  cm_ok K ms t /\ same_coupled (state_after md s k) t /\ cm_V t = Vs k /\ free_nn t /\
  update_uncoupled env t = (state_after md s (S k), None).
Proof.
  destruct (cm_state k) as [Hk HSk]. set (u := state_after md s k) in *.
  pose proof (free_fit_same (sc_cp HSk) HF) as HFk. pose proof (fit_modes HFk) as Hl. unfold ndim in Hl. rewrite (sp_X (sc_cp HSk)) in Hl.
  destruct (cm_modes_move Hk Hl) as (t & E & Ht & HSt & EV & _).
  assert (Hnn : free_nn t) by (apply free_fit_nn with (cs := cs); [now apply (free_fit_same (sc_cp HSt))|apply (ck_data Ht)]).
  exists t. split; [exact E|]. split; [exact Ht|]. split; [exact HSt|]. split; [exact EV|]. split; [exact Hnn|].
  destruct (cm_own_moves Ht Hnn) as (v & Ev & _). rewrite Ev. f_equal.
  cbn [state_after md cmtf_model md_update]. fold md. fold u. unfold cmtf_update_factors, ndim. rewrite (sp_X (sc_cp HSk)), E, Ev. reflexivity.
Qed.

Lemma cm_pass_moves k : L (S k) <= L k /\
  coupled_change2 K X ms Ys (Us k) (Vs k) (Us (S k)) (Vs (S k)) <= INR (S N) * (L k - L (S k)).
Proof.
  destruct (cm_state k) as [Hk HSk]. destruct (cm_pass k) as (t & E & Ht & HSt & EV & Hnn & E2).
  set (u := state_after md s k) in *. set (v := state_after md s (S k)) in *.
  pose proof (free_fit_same (sc_cp HSk) HF) as HFk. pose proof (fit_modes HFk) as Hl. unfold ndim in Hl. rewrite (sp_X (sc_cp HSk)) in Hl.
  destruct (cm_modes_move Hk Hl) as (t' & E' & _ & _ & _ & Hle & Hc). rewrite E in E'. injection E' as <-. rewrite seq_length in Hc.
  destruct (cm_own_moves Ht Hnn) as (v' & Ev & _ & HSv & Hcp & HP & _). rewrite E2 in Ev. injection Ev as <-.
  assert (EX : cp_X (cm_cp t) = X) by (now rewrite (sp_X (sc_cp HSt)), (sp_X (sc_cp HSk))).
  assert (EY : cm_Y t = Ys) by (now rewrite (sc_Y HSt), (sc_Y HSk)).
  rewrite (sp_X (sc_cp HSv)), (sc_Y HSv), EX, EY in HP. rewrite EX, EY, (sp_X (sc_cp HSk)), (sc_Y HSk) in Hc, Hle.
  pose proof (coupled_change2_nonneg K X ms Ys (cm_fms t) (cm_V t) (cm_fms v) (cm_V v)) as H0.
  split; [lra|].
  assert (HN0 : 0 < INR N) by (apply lt_0_INR; pose proof (ck_data HC) as (_ & H2 & _); lia).
  eapply Rle_trans; [apply (@coupled_change2_split K X ms Ys (cm_fms u) (cm_V u) (cm_fms t) (cm_V t) _ _ (/ INR N)); now apply Rinv_0_lt_compat|].
  apply Rle_trans with ((/ INR N + 1) * (INR N * (coupled_loss K X (cm_fms u) unit_weights ms (cm_V u) Ys - coupled_loss K X (cm_fms t) unit_weights ms (cm_V t) Ys)) +
    (/ INR N + 1) / (/ INR N) * (coupled_loss K X (cm_fms t) unit_weights ms (cm_V t) Ys - coupled_loss K X (cm_fms v) unit_weights ms (cm_V v) Ys)).
  - apply Rplus_le_compat.
    + apply Rmult_le_compat_l; [|exact Hc]. pose proof (Rinv_0_lt_compat _ HN0). lra.
    + right. rewrite HP. ring.
  - right. rewrite S_INR. field. lra.
Qed.

Lemma cm_loss_nonneg k : 0 <= L k.
Proof.
  unfold coupled_loss, sse, mats_sse, mat_sse. apply Rplus_le_le_0_compat; apply sumf_nonneg; intros i _; [apply pow2_ge_0|].
  apply sumf_nonneg. intros x _. apply sumf_nonneg. intros y _. apply pow2_ge_0.
Qed.
Lemma cm_total_moves n : sum n (fun k => coupled_change2 K X ms Ys (Us k) (Vs k) (Us (S k)) (Vs (S k))) <= INR (S N) * (L 0%nat - L n).
Proof. apply (@descent_total (fun k => L k)). intros k. apply cm_pass_moves. Qed.
Lemma cm_losses_tend : exists l, 0 <= l /\ Un_cv (fun k => L k) l /\ forall k, l <= L k.
Proof. apply (@descent_limit (fun k => L k)); [intros k; apply cm_pass_moves|exact cm_loss_nonneg]. Qed.
Lemma cm_moves_vanish : Un_cv (fun k => coupled_change2 K X ms Ys (Us k) (Vs k) (Us (S k)) (Vs (S k))) 0.
Proof.
  apply (@descent_vanish (fun k => L k) _ (INR (S N))); [exact cm_loss_nonneg|intros; apply coupled_change2_nonneg|apply pos_INR| |];
    intros k; apply cm_pass_moves.
Qed.

(** *** In the middle of a pass *)
Lemma cm_modes_app l1 : forall l2 u, free_modes cs u (l1 ++ l2) -> cm_ok K ms u -> cmtf_update_modes env cs (l1 ++ l2) u =
  match cmtf_update_modes env cs l1 u with (t, None) => cmtf_update_modes env cs l2 t | (t, Some e) => (t, Some e) end.
Proof.
  induction l1 as [|m l1 IH]; intros l2 u Hl Hu; [reflexivity|]. cbn [app] in *. apply Forall_cons_iff in Hl. destruct Hl as [[Hm Hf] Hl].
  rewrite !(@modes_step env cs m _ u Hf). destruct (cm_update_moves Hu Hm Hf) as (t & E & Ht & HS & _). rewrite E.
  apply IH; [now apply (free_modes_same HS)|exact Ht].
Qed.

Lemma cm_between m k : (m < N)%nat -> forall W, is_mat (nth m (shape X) 0%nat) K W ->
  coupled_loss K X (LimitFacts.between m (Us k) (Us (S k))) unit_weights ms (Vs k) Ys <=
  in_mode K X (LimitFacts.between m (Us k) (Us (S k))) ms (Vs k) Ys m W.
Proof.
  intros Hm. destruct (cm_state k) as [Hk HSk]. destruct (cm_pass k) as (t & E & Ht & HSt & EV & Hnn & E2).
  destruct (cm_own_moves Ht Hnn) as (v' & Ev & _ & HSv & Hcp & _). rewrite E2 in Ev. injection Ev as <-.
  assert (Efv : Us (S k) = cm_fms t) by (exact (f_equal (fun c => kt_fms (cp_dec c)) Hcp)). rewrite Efv. clear Efv E2 Hcp HSv.
  set (u := state_after md s k) in *.
  pose proof (free_fit_same (sc_cp HSk) HF) as HFk. pose proof (fit_modes HFk) as Hl. unfold ndim in Hl. rewrite (sp_X (sc_cp HSk)) in Hl.
  replace N with (m + S (N - S m))%nat in E, Hl at 1 by lia. rewrite seq_app in E, Hl. cbn [plus seq] in E, Hl.
  rewrite (cm_modes_app Hl Hk) in E. apply Forall_app in Hl. destruct Hl as [Hl1 Hl2].
  destruct (cm_modes_move Hk Hl1) as (a & Ea & Ha & HSa & EVa & _). rewrite Ea in E.
  pose proof (free_modes_same HSa Hl2) as Hl2a. apply Forall_cons_iff in Hl2a. destruct Hl2a as [[Hma Hfa] Hl3].
  rewrite (@modes_step env cs m _ a Hfa) in E.
  destruct (cm_update_moves Ha Hma Hfa) as (b & Eb & Hb & HSb & EVb & _ & HB). rewrite Eb in E.
  pose proof (free_modes_same HSb Hl3) as Hl3b.
  assert (EXa : cp_X (cm_cp a) = X) by (now rewrite (sp_X (sc_cp HSa)), (sp_X (sc_cp HSk))).
  assert (EX : cp_X (cm_cp b) = X) by (now rewrite (sp_X (sc_cp HSb))).
  assert (EY : cm_Y b = Ys) by (now rewrite (sc_Y HSb), (sc_Y HSa), (sc_Y HSk)).
  assert (EVu : cm_V b = cm_V u) by congruence.
  assert (Hlu : length (cm_fms u) = N) by (now rewrite (ck_len Hk), (sp_X (sc_cp HSk))).
  assert (Hlb : length (cm_fms b) = N) by (now rewrite (ck_len Hb), EX).
  assert (Hlm : free_modes cs u (seq 0 m ++ [m])).
  { apply Forall_app. split; [exact Hl1|]. apply Forall_cons_iff in Hl2. constructor; [exact (proj1 Hl2)|constructor]. }
  assert (EW : LimitFacts.between m (cm_fms u) (cm_fms t) = cm_fms b).
  { apply (nth_ext _ _ m0 m0); rewrite length_between; [now rewrite Hlu, Hlb|]. intros n Hn. rewrite nth_between by auto.
    destruct (Nat.leb_spec n m) as [Hnm|Hnm].
    - apply (@modes_leave env cs K ms HN HK HK1 Hsvd _ b t n Hb Hl3b); [|exact E]. intros Hi. apply in_seq in Hi. lia.
    - symmetry. assert (E1 : cmtf_update_modes env cs (seq 0 m ++ [m]) u = (b, None)).
      { rewrite cm_modes_app; [|exact Hlm|exact Hk].
        rewrite Ea. rewrite (@modes_step env cs m _ a Hfa), Eb. reflexivity. }
      apply (@modes_leave env cs K ms HN HK HK1 Hsvd (seq 0 m ++ [m]) u b n Hk); [| |exact E1].
      + exact Hlm.
      + intros Hi. apply in_app_or in Hi. destruct Hi as [Hi|[Hi|[]]]; [apply in_seq in Hi|]; lia. }
  rewrite EW. rewrite <- EVu. intros W HW. rewrite EXa, EX, EY in HB. now apply HB.
Qed.

Lemma cm_own_best i k : (i < length ms)%nat -> forall W, is_mat (ncols (nth i Ys m0)) K W ->
  in_matrix K X (Us (S k)) ms (Vs k) Ys i (nth i (Vs (S k)) m0) <= in_matrix K X (Us (S k)) ms (Vs k) Ys i W.
Proof.
  intros Hi W HW. destruct (cm_state k) as [Hk HSk]. destruct (cm_pass k) as (t & E & Ht & HSt & EV & Hnn & E2).
  destruct (cm_own_moves Ht Hnn) as (v' & Ev & _ & HSv & Hcp & _ & HO). rewrite E2 in Ev. injection Ev as <-.
  assert (EX : cp_X (cm_cp t) = X) by (now rewrite (sp_X (sc_cp HSt)), (sp_X (sc_cp HSk))).
  assert (EY : cm_Y t = Ys) by (now rewrite (sc_Y HSt), (sc_Y HSk)).
  assert (Efv : Us (S k) = cm_fms t) by (exact (f_equal (fun c => kt_fms (cp_dec c)) Hcp)). rewrite Efv, <- EV.
  rewrite EX, EY in HO. now apply HO.
Qed.
End CmLimit.

(** *** Limits *)
Lemma cv_square f l y : Un_cv f l -> Un_cv (fun k => (y - f k) ^ 2) ((y - l) ^ 2).
Proof.
  intros H. assert (HD : Un_cv (fun k => y - f k) (y - l)) by (apply CV_minus; [apply cv_const|exact H]).
  apply (@cv_ext (fun k => (y - f k) * (y - f k))); [intros; ring|]. replace ((y - l) ^ 2) with ((y - l) * (y - l)) by ring. now apply CV_mult.
Qed.
Lemma tends_coupled K X ms Ys Us Vs Ls Ms : coupling_ok K X ms Ms Ys -> factors_ok K X Ls ->
  tends K Us Ls -> (forall k, length (Us k) = length Ls) -> tends K Vs Ms ->
  Un_cv (fun k => coupled_loss K X (Us k) unit_weights ms (Vs k) Ys) (coupled_loss K X Ls unit_weights ms Ms Ys).
Proof.
  intros (HlM & HlY & HC) HL HU Hl HV. unfold coupled_loss. apply CV_plus; [apply tends_sse; auto; apply HL|].
  unfold mats_sse. apply (@cv_sumf _ _ (fun i k => mat_sse K (nth (nth i ms 0%nat) (Us k) m0) (nth i (Vs k) m0) (nth i Ys m0))).
  intros i Hi. apply in_seq in Hi. assert (Hi' : (i < length ms)%nat) by lia. destruct (HC i Hi') as (Hm & HY & HM).
  pose proof (rows_nth HL Hm) as HLm. pose proof (mode_len (proj2 HL)) as HlL.
  unfold mat_sse. apply (@cv_sumf _ _ (fun x k => sum (ncols (nth i Ys m0)) (fun y => (mget (nth i Ys m0) x y -
    sum K (fun r => mget (nth (nth i ms 0%nat) (Us k) m0) x r * mget (nth i (Vs k) m0) y r)) ^ 2))).
  intros x Hx. apply in_seq in Hx.
  apply (@cv_sumf _ _ (fun y k => (mget (nth i Ys m0) x y -
    sum K (fun r => mget (nth (nth i ms 0%nat) (Us k) m0) x r * mget (nth i (Vs k) m0) y r)) ^ 2)).
  intros y Hy. apply in_seq in Hy. apply cv_square.
  apply (@cv_sumf _ _ (fun r k => mget (nth (nth i ms 0%nat) (Us k) m0) x r * mget (nth i (Vs k) m0) y r)).
  intros r Hk. apply in_seq in Hk. apply CV_mult.
  - apply HU; [now rewrite HlL| |lia]. unfold nrows in *. rewrite (proj2 HLm). rewrite (proj2 HY) in Hx. cbn in *. lia.
  - apply HV; [now rewrite HlM| |lia]. unfold nrows in *. rewrite (proj2 HM). cbn. lia.
Qed.

Lemma coupling_replace K X ms Ms Ys i W : coupling_ok K X ms Ms Ys -> (i < length ms)%nat -> is_mat (ncols (nth i Ys m0)) K W ->
  coupling_ok K X ms (with_factor i W Ms) Ys.
Proof.
  intros (HlM & HlY & HC) Hi HW. unfold with_factor. split; [now rewrite length_replace_at|]. split; [exact HlY|].
  intros j Hj. destruct (HC j Hj) as (A & B & D). split; [exact A|]. split; [exact B|]. destruct (Nat.eq_dec i j) as [<-|Hne].
  - rewrite nth_replace_at_eq by (now rewrite HlM). exact HW.
  - rewrite nth_replace_at_neq by auto. exact D.
Qed.

Lemma cm_limit_best env cs K ms s Ls Ms pick : NoDup ms -> cs_rank cs = K -> (1 <= K)%nat -> svd_works_rows K (env_svd env) ->
  cm_ok K ms s -> free_fit cs (cm_cp s) ->
  let Us k := cm_fms (state_after (cmtf_model env cs) s k) in let Vs k := cm_V (state_after (cmtf_model env cs) s k) in
  factors_ok K (cp_X (cm_cp s)) Ls -> coupling_ok K (cp_X (cm_cp s)) ms Ms (cm_Y s) ->
  tends K (fun k => Us (pick k)) Ls -> tends K (fun k => Us (S (pick k))) Ls ->
  tends K (fun k => Vs (pick k)) Ms -> tends K (fun k => Vs (S (pick k))) Ms ->
  coupled_best K (cp_X (cm_cp s)) Ls ms Ms (cm_Y s) /\ coupled_flat K (cp_X (cm_cp s)) Ls ms Ms (cm_Y s).
Proof.
  intros HN HK HK1 Hsvd HC HF Us Vs HL HM U1 U2 V1 V2. set (X := cp_X (cm_cp s)) in *. set (Ys := cm_Y s) in *.
  pose proof (mode_len (proj2 HL)) as HlL. pose proof HM as (HlM & _ & _).
  assert (HlU : forall k, length (Us k) = length Ls).
  { intros k. destruct (@cm_state env cs K ms HN HK HK1 Hsvd s HC HF k) as [Hk HSk]. unfold Us.
    now rewrite (ck_len Hk), (sp_X (sc_cp HSk)), HlL. }
  assert (HlV : forall k, length (Vs k) = length Ms).
  { intros k. destruct (@cm_state env cs K ms HN HK HK1 Hsvd s HC HF k) as [Hk _]. unfold Vs. rewrite HlM. apply (ck_coup Hk). }
  assert (HB : coupled_best K X Ls ms Ms Ys).
  { split.
    - intros m W Hm HW. set (Ws := fun k => LimitFacts.between m (Us (pick k)) (Us (S (pick k)))).
      assert (HT : tends K Ws Ls) by (apply tends_between; auto).
      assert (Hl : forall k, length (Ws k) = length Ls) by (intros k; unfold Ws; rewrite length_between; apply HlU).
      apply (@cv_le (fun k => coupled_loss K X (Ws k) unit_weights ms (Vs (pick k)) Ys)
        (fun k => coupled_loss K X (with_factor m W (Ws k)) unit_weights ms (Vs (pick k)) Ys)).
      + intros k. exact (@cm_between env cs K ms HN HK HK1 Hsvd s HC HF m (pick k) Hm W HW).
      + apply tends_coupled; auto.
      + apply tends_coupled; auto.
        * apply (factors_ok_replace HL Hm HW).
        * apply tends_with; auto. now rewrite HlL.
        * intros k. unfold with_factor. now rewrite !length_replace_at.
    - intros i W Hi HW. set (Ws := fun k => with_factor i (nth i (Vs (S (pick k))) m0) (Vs (pick k))).
      assert (HT : tends K Ws Ms).
      { intros n x r Hn Hx Hr. apply (@cv_either (fun k => mget (nth n (Vs (pick k)) m0) x r) (fun k => mget (nth n (Vs (S (pick k))) m0) x r)).
        - intros k. unfold Ws, with_factor. destruct (Nat.eq_dec i n) as [<-|Hne].
          + right. now rewrite nth_replace_at_eq by (now rewrite HlV).
          + left. now rewrite nth_replace_at_neq by auto.
        - now apply V1.
        - now apply V2. }
      apply (@cv_le (fun k => coupled_loss K X (Us (S (pick k))) unit_weights ms (Ws k) Ys)
        (fun k => coupled_loss K X (Us (S (pick k))) unit_weights ms (with_factor i W (Vs (pick k))) Ys)).
      + intros k. exact (@cm_own_best env cs K ms HN HK HK1 Hsvd s HC HF i (pick k) Hi W HW).
      + apply tends_coupled; auto.
      + apply tends_coupled; auto; [now apply coupling_replace|]. apply tends_with; auto. now rewrite HlM. }
  split; [exact HB|].
  set (t := cm_with_V Ms (cm_with_dec {| kt_rank := K; kt_fms := Ls; kt_w := kt_w (cm_dec s) |} s)).
  assert (Ht : cm_ok K ms t) by (constructor; [apply (ck_data HC)|exact HL|apply (ck_w HC)|apply (ck_modes HC)|exact HM]).
  destruct HB as [HB1 HB2]. split.
  - intros m Hm. apply (@ls_flat _ _ _ _ (@mode_form env cs K ms HN t m Ht Hm)). intros W HW.
    change (in_mode K X Ls ms Ms Ys m (nth m Ls m0) <= in_mode K X Ls ms Ms Ys m W).
    unfold in_mode at 1. rewrite (@with_factor_self m Ls) by (now rewrite HlL). now apply HB1.
  - intros i Hi. apply (@ls_flat _ _ _ _ (@matrix_form K ms t i Ht Hi)). intros W HW.
    change (in_matrix K X Ls ms Ms Ys i (nth i Ms m0) <= in_matrix K X Ls ms Ms Ys i W).
    unfold in_matrix at 1. rewrite (@with_factor_self i Ms) by (now rewrite HlM). now apply HB2.
Qed.

Lemma coupled_nonneg K X Us w ms Vs Ys : 0 <= coupled_loss K X Us w ms Vs Ys.
Proof.
  unfold coupled_loss, sse, mats_sse, mat_sse. apply Rplus_le_le_0_compat; apply sumf_nonneg; intros i _; [apply pow2_ge_0|].
  apply sumf_nonneg. intros x _. apply sumf_nonneg. intros y _. apply pow2_ge_0.
Qed.
Lemma penalised_nonneg lam K X Us ms Vs Ys : (forall m, (m < length (shape X))%nat -> 0 <= lam m) -> 0 <= penalised_loss lam K X Us ms Vs Ys.
Proof.
  intros H. unfold penalised_loss. apply Rplus_le_le_0_compat; [apply coupled_nonneg|]. apply sumf_nonneg. intros m Hm. apply in_seq in Hm.
  apply Rmult_le_pos; [apply H; lia|apply frob2_nonneg].
Qed.
