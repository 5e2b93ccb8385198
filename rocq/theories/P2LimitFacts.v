(** Movement and limits of Parafac2_ALS: lemmas for C108. *)
From Verif Require Export P2LimitSpec P2FixFacts LimitFacts.
From Verif Require Import Prelude Lin.
Set Implicit Arguments.
Unset Strict Implicit.
Local Open Scope R_scope.

(** *** Movement *)
Lemma change_join K X Us Vs Ws p q a b : 0 < p -> 0 < q -> change2 K X Us Vs <= p * a -> change2 K X Vs Ws <= q * b ->
  change2 K X Us Ws <= (p + q) * (a + b).
Proof.
  intros Hp Hq Ha Hb. assert (Hn : 0 < q / p) by (apply Rmult_lt_0_compat; [auto|now apply Rinv_0_lt_compat]).
  eapply Rle_trans; [apply (@change2_split K X Us Vs Ws (q / p) Hn)|].
  apply Rle_trans with ((q / p + 1) * (p * a) + (q / p + 1) / (q / p) * (q * b)).
  - apply Rplus_le_compat; apply Rmult_le_compat_l; auto; [lra|]. apply Rmult_le_pos; [lra|]. left. now apply Rinv_0_lt_compat.
  - right. field. lra.
Qed.
Lemma core_change K nI n PX Fs Gs : shape PX = [nI; K; n] -> length Fs = 3%nat -> length Gs = 3%nat ->
  change2 K PX Fs Gs = core_change2 K nI n Fs Gs.
Proof.
  intros Hs HF HG. destruct Fs as [|F0 [|F1 [|F2 [|]]]]; try discriminate HF. destruct Gs as [|G0 [|G1 [|G2 [|]]]]; try discriminate HG.
  unfold change2, core_change2. rewrite Hs, sumf_indices3. apply sum_ext. intros i Hi. apply sum_ext. intros q Hq. apply sum_ext. intros k Hk.
  f_equal. unfold cp_entry, core_entry, unit_weights. cbn [nth colprod]. f_equal; apply sum_ext; intros r Hr; ring.
Qed.

Section P2Moves.
Variables (env : p2_env) (ps : p2_settings) (K nI : nat).
Notation cenv := (pe_cp env).
Hypothesis (HK : ps_rank ps = K) (HnI : (0 < nI)%nat) (HK0 : (0 < K)%nat).
Hypothesis (HS : svd_contract (env_svd cenv)) (HN : nnls_contract (env_nnls cenv)) (HU : plain_settings ps).
Notation busy := (busy ps K nI).
Notation err PX s := (sse PX (p2_factors s) unit_weights K).
Notation moved PX s t := (change2 K PX (p2_factors s) (p2_factors t)).

Lemma step_moves PX u m : busy PX u -> (m < 3)%nat -> exists u' Z, p2_cp_update env ps u m = (u', None) /\ busy PX u' /\
  p2_X u' = p2_X u /\ p2_Ps u' = p2_Ps u /\ p2_factors u' = with_factor m Z (p2_factors u) /\
  err PX u = err PX u' + moved PX u u' /\
  (forall W, is_mat (nth m (shape PX) 0%nat) K W -> err PX u' <= sse PX (with_factor m W (p2_factors u)) unit_weights K).
Proof.
  intros HB Hm. destruct (@step_least env ps K nI HK HnI HK0 HS HN HU PX u m HB Hm) as (u' & Z & E & B' & X' & P' & F' & HL).
  exists u', Z. split; [exact E|]. split; [exact B'|]. split; [exact X'|]. split; [exact P'|]. split; [exact F'|]. rewrite F'. split.
  - apply best_pythagoras; [exact (busy_factors HB)|rewrite (bs_shape HB); exact Hm|exact HL].
  - apply HL.
Qed.

(** One pass over A, B and C *)
Lemma sweep_moves PX u : busy PX u -> exists u', p2_cp_sweep env ps u = (u', None) /\ busy PX u' /\
  p2_X u' = p2_X u /\ p2_Ps u' = p2_Ps u /\ err PX u' <= err PX u /\ moved PX u u' <= 3 * (err PX u - err PX u') /\
  (forall W, is_mat nI K W -> err PX u' <= sse PX (with_factor 0 W (p2_factors u)) unit_weights K) /\
  (forall W, is_mat K K W -> sse PX [p2_A u'; p2_B u'; p2_C u] unit_weights K <= sse PX [p2_A u'; W; p2_C u] unit_weights K) /\
  (forall W, is_mat (length (p2_X u)) K W -> err PX u' <= sse PX (with_factor 2 W (p2_factors u')) unit_weights K).
Proof.
  intros HB. unfold p2_cp_sweep, ndim. rewrite (bs_X HB), (bs_shape HB). cbn [length seq run_all].
  destruct (@step_moves PX u 0%nat HB ltac:(lia)) as (u1 & Z1 & -> & B1 & X1 & P1 & F1 & M1 & W1).
  destruct (@step_moves PX u1 1%nat B1 ltac:(lia)) as (u2 & Z2 & -> & B2 & X2 & P2 & F2 & M2 & W2).
  destruct (@step_moves PX u2 2%nat B2 ltac:(lia)) as (u3 & Z3 & -> & B3 & X3 & P3 & F3 & M3 & W3).
  exists u3. split; [reflexivity|]. split; [exact B3|]. split; [congruence|]. split; [congruence|].
  pose proof (change2_nonneg K PX (p2_factors u) (p2_factors u1)) as N1. pose proof (change2_nonneg K PX (p2_factors u1) (p2_factors u2)) as N2.
  pose proof (change2_nonneg K PX (p2_factors u2) (p2_factors u3)) as N3.
  split; [lra|]. rewrite (bs_shape HB) in W1, W2, W3. cbn [nth] in W1, W2, W3.
  assert (EA : p2_A u2 = p2_A u1 /\ p2_B u2 = Z2 /\ p2_C u2 = p2_C u1) by (unfold p2_factors, with_factor in F2; cbn in F2; injection F2; auto).
  assert (EB : p2_A u3 = p2_A u2 /\ p2_B u3 = p2_B u2 /\ p2_C u3 = Z3) by (unfold p2_factors, with_factor in F3; cbn in F3; injection F3; auto).
  assert (EC : p2_A u1 = Z1 /\ p2_B u1 = p2_B u /\ p2_C u1 = p2_C u) by (unfold p2_factors, with_factor in F1; cbn in F1; injection F1; auto).
  destruct EA as (EA1 & EA2 & EA3), EB as (EB1 & EB2 & EB3), EC as (EC1 & EC2 & EC3).
  split; [|split; [|split]].
  - replace 3 with (1 + (1 + 1)) by lra.
    replace (err PX u - err PX u3) with ((err PX u - err PX u1) + ((err PX u1 - err PX u2) + (err PX u2 - err PX u3))) by ring.
    apply (@change_join K PX _ (p2_factors u1)); try lra. apply (@change_join K PX _ (p2_factors u2)); lra.
  - intros W HW. specialize (W1 W HW). lra.
  - intros W HW. specialize (W2 W HW). unfold p2_factors, with_factor in W2. cbn [replace_at] in W2. rewrite EB1, EB2, EA1. rewrite EA1, EA3, EC3 in W2. exact W2.
  - intros W HW. specialize (W3 W HW). unfold p2_factors, with_factor in W3 |- *. cbn [replace_at] in W3 |- *. rewrite EB1, EB2. rewrite <- EB1, <- EB2 at 1. exact W3.
Qed.

Lemma sweeps_moves PX (l : list nat) : l <> [] -> forall u, busy PX u -> exists u', run_all (fun s _ => p2_cp_sweep env ps s) l u = (u', None) /\ busy PX u' /\
  p2_X u' = p2_X u /\ p2_Ps u' = p2_Ps u /\ err PX u' <= err PX u /\ moved PX u u' <= 3 * INR (length l) * (err PX u - err PX u') /\
  (forall W, is_mat nI K W -> err PX u' <= sse PX (with_factor 0 W (p2_factors u)) unit_weights K) /\
  (length l = 1%nat -> forall W, is_mat K K W -> sse PX [p2_A u'; p2_B u'; p2_C u] unit_weights K <= sse PX [p2_A u'; W; p2_C u] unit_weights K) /\
  (forall W, is_mat (length (p2_X u)) K W -> err PX u' <= sse PX (with_factor 2 W (p2_factors u')) unit_weights K).
Proof.
  intros Hl. induction l as [|x l IH]; [congruence|]. intros u HB. cbn [run_all].
  destruct (sweep_moves HB) as (u1 & -> & B1 & X1 & P1 & L1 & M1 & W1 & V1 & T1).
  destruct l as [|y l].
  - cbn [run_all]. exists u1. split; [reflexivity|]. split; [exact B1|]. split; [exact X1|]. split; [exact P1|]. split; [exact L1|].
    split; [cbn [length INR]; lra|]. split; [exact W1|]. split; [intros _; exact V1|exact T1].
  - destruct (IH ltac:(discriminate) u1 B1) as (u2 & -> & B2 & X2 & P2 & L2 & M2 & W2 & _ & T2). exists u2.
    split; [reflexivity|]. split; [exact B2|]. split; [congruence|]. split; [congruence|]. split; [lra|]. split.
    + replace (3 * INR (length (x :: y :: l))) with (3 + 3 * INR (length (y :: l))) by (cbn [length]; rewrite !S_INR; ring).
      replace (err PX u - err PX u2) with ((err PX u - err PX u1) + (err PX u1 - err PX u2)) by ring.
      apply (@change_join K PX _ (p2_factors u1)); auto; [lra|]. apply Rmult_lt_0_compat; [lra|]. cbn [length]. apply lt_0_INR. lia.
    + split; [intros W HW; specialize (W1 W HW); lra|]. split; [discriminate|]. rewrite X1 in T2. exact T2.
Qed.

(** One iteration, in terms of the error for the slices *)
Lemma iteration_moves u : ready ps K nI u -> (0 < length (p2_X u))%nat -> wide K (p2_X u) -> (0 < ps_updates ps)%nat ->
  exists v, p2_update env ps u = (v, None) /\ p2_X v = p2_X u /\ ready ps K nI v /\
  (orth_projections K (p2_X u) (p2_Ps v) ->
    let Xs := p2_X u in let Ps := p2_Ps v in let n := length Xs in
    best_projections K nI Xs Ps (p2_factors u) /\
    p2_err K nI Xs Ps (p2_factors v) <= p2_err K nI Xs Ps (p2_factors u) /\
    core_change2 K nI n (p2_factors u) (p2_factors v) <=
      3 * INR (ps_updates ps) * (p2_err K nI Xs Ps (p2_factors u) - p2_err K nI Xs Ps (p2_factors v)) /\
    (forall W, is_mat nI K W -> p2_err K nI Xs Ps (p2_factors v) <= p2_err K nI Xs Ps (with_factor 0 W (p2_factors u))) /\
    (ps_updates ps = 1%nat -> forall W, is_mat K K W ->
       p2_err K nI Xs Ps [p2_A v; p2_B v; p2_C u] <= p2_err K nI Xs Ps [p2_A v; W; p2_C u]) /\
    (forall W, is_mat n K W -> p2_err K nI Xs Ps (p2_factors v) <= p2_err K nI Xs Ps (with_factor 2 W (p2_factors v)))).
Proof.
  intros HR Hn HW Hup.
  destruct (@retargeted env ps K nI HK HnI HK0 HS u HR Hn) as (s2 & PX & X2 & B2 & A2 & BB2 & C2 & HPj & HPe & Es).
  { intros k Hk. pose proof (HW k Hk). lia. }
  assert (F2 : p2_factors s2 = p2_factors u) by (unfold p2_factors; congruence).
  destruct (@sweeps_moves PX (seq 0 (ps_updates ps))) with (u := s2) as (s3 & E3 & B3 & X3 & P3 & L3 & M3 & W3 & V3 & T3); [destruct (ps_updates ps); [lia|discriminate]|exact B2|].
  destruct (scale_total HK HK0 (bs_ready B3)) as (s4 & E4 & X4 & A4 & B4 & C4 & P4).
  assert (EU : p2_update env ps u = (p2_unit_weights s4, None)) by (rewrite Es, E3; cbn [and_then]; rewrite E4; reflexivity).
  assert (FV : p2_factors (p2_unit_weights s4) = p2_factors s3) by (change (p2_factors s4 = p2_factors s3); unfold p2_factors; congruence).
  assert (PV : p2_Ps (p2_unit_weights s4) = p2_Ps s2) by (change (p2_Ps s4 = p2_Ps s2); congruence).
  assert (XV : p2_X (p2_unit_weights s4) = p2_X u) by (change (p2_X s4 = p2_X u); congruence).
  assert (RV : ready ps K nI (p2_unit_weights s4)).
  { pose proof (@ready_after env ps K nI HK u 1 HR) as H1; cbn [state_after] in H1; change (md_update (p2_model env ps) u) with (p2_update env ps u) in H1; now rewrite EU in H1. }
  exists (p2_unit_weights s4). split; [exact EU|]. split; [exact XV|]. split; [exact RV|].
  intros HO Xs Ps n. destruct (@iteration_bound env ps K nI HK HnI HK0 HS HN HU u (p2_unit_weights s4) HR Hn HW Hup EU HO) as (Hbp & Hle & HW0 & _).
  split; [exact Hbp|]. split; [exact Hle|].
  assert (S1 : shape PX = [nI; K; length Xs]) by (rewrite (bs_shape B2), X2; reflexivity).
  assert (HPe' : forall i q k, (i < nI)%nat -> (q < K)%nat -> (k < length Xs)%nat -> get PX [i; q; k] = projected_entry Xs Ps i q k).
  { intros i q k Hi Hq Hk. unfold Ps. rewrite PV. now apply HPe. }
  assert (ES : forall Fs, length Fs = 3%nat -> p2_err K nI Xs Ps Fs = lost K nI Xs Ps + sse PX Fs unit_weights K).
  { intros Fs HF. now apply err_split. }
  split.
  { rewrite !ES by reflexivity. rewrite <- (@core_change K nI n PX) by (auto; reflexivity). rewrite FV, <- F2. rewrite seq_length in M3.
    replace (lost K nI Xs Ps + sse PX (p2_factors s2) unit_weights K - (lost K nI Xs Ps + sse PX (p2_factors s3) unit_weights K)) with
      (sse PX (p2_factors s2) unit_weights K - sse PX (p2_factors s3) unit_weights K) by ring. exact M3. }
  split; [exact HW0|]. split.
  - intros H1 W HWm. rewrite !ES by reflexivity. rewrite seq_length in V3. specialize (V3 H1 W HWm).
    unfold p2_factors in FV. injection FV as EA EB EC. rewrite EA, EB, <- C2. lra.
  - intros W HWm. rewrite !ES by reflexivity. rewrite FV. rewrite X2 in T3. specialize (T3 W HWm). lra.
Qed.
End P2Moves.

(** *** Runs *)
Section P2Run.
Variables (env : p2_env) (ps : p2_settings) (K nI : nat) (Xs : list nd) (s s0 : p2_state).
Hypothesis (HD : drawn_settings ps K nI) (HS : svd_contract (env_svd (pe_cp env))) (HN : nnls_contract (env_nnls (pe_cp env))).
Hypothesis (HU : plain_settings ps) (Hup : (0 < ps_updates ps)%nat) (HX : slices_ok nI Xs) (HW : wide K Xs).
Hypothesis (Hs : p2_ok K nI s) (EXs : p2_X s = Xs) (EP : p2_prepare env ps s = (s0, None)).
Let md := p2_model env ps.
Notation F j := (p2_factors (state_after md s0 j)).
Notation P j := (p2_Ps (state_after md s0 j)).
Notation L j := (p2_err K nI Xs (P (S j)) (F (S j))).

Lemma run_ready j : ready ps K nI (state_after md s0 j) /\ p2_X (state_after md s0 j) = Xs.
Proof.
  destruct HD as (HK & HO & HnI & HK0).
  assert (Hn : (0 < length Xs)%nat) by (destruct HX as [Hne _]; destruct Xs; [congruence|cbn; lia]).
  destruct (@prepare_ready env ps K nI HK HO HnI HK0 s Hs) as (x & Ex & Rs & As & _); [now rewrite EXs|]. rewrite EP in Ex. injection Ex as <-.
  split; [apply (@ready_after env ps K nI HK s0 j Rs)|]. unfold md. rewrite (fr_X (after_frame env ps s0 j)), (proj1 As). exact EXs.
Qed.

Lemma run_moves j : orth_projections K Xs (P (S j)) ->
  best_projections K nI Xs (P (S j)) (F j) /\
  p2_err K nI Xs (P (S j)) (F (S j)) <= p2_err K nI Xs (P (S j)) (F j) /\
  core_change2 K nI (length Xs) (F j) (F (S j)) <=
    3 * INR (ps_updates ps) * (p2_err K nI Xs (P (S j)) (F j) - p2_err K nI Xs (P (S j)) (F (S j))) /\
  (forall W, is_mat nI K W -> p2_err K nI Xs (P (S j)) (F (S j)) <= p2_err K nI Xs (P (S j)) (with_factor 0 W (F j))) /\
  (ps_updates ps = 1%nat -> forall W, is_mat K K W ->
     p2_err K nI Xs (P (S j)) [nth 0 (F (S j)) m0; nth 1 (F (S j)) m0; nth 2 (F j) m0] <=
     p2_err K nI Xs (P (S j)) [nth 0 (F (S j)) m0; W; nth 2 (F j) m0]) /\
  (forall W, is_mat (length Xs) K W -> p2_err K nI Xs (P (S j)) (F (S j)) <= p2_err K nI Xs (P (S j)) (with_factor 2 W (F (S j)))).
Proof.
  destruct HD as (HK & HO & HnI & HK0). destruct (run_ready j) as [Rj Xj].
  assert (Hn : (0 < length Xs)%nat) by (destruct HX as [Hne _]; destruct Xs; [congruence|cbn; lia]).
  destruct (@iteration_moves env ps K nI HK HnI HK0 HS HN HU (state_after md s0 j) Rj) as (v & E & _ & _ & H); rewrite ?Xj; auto.
  assert (Ev : state_after md s0 (S j) = v) by (cbn [state_after]; change (md_update md) with (p2_update env ps); now rewrite E).
  rewrite Ev. rewrite Xj in H. exact H.
Qed.

Hypothesis Horth : forall j, orth_projections K Xs (P (S j)).
Lemma run_errors j : L (S j) <= L j /\ core_change2 K nI (length Xs) (F (S j)) (F (S (S j))) <= 3 * INR (ps_updates ps) * (L j - L (S j)).
Proof.
  destruct (@run_moves (S j) (Horth (S j))) as ((_ & B1) & L1 & M1 & _). specialize (B1 _ (Horth j)).
  split; [lra|]. eapply Rle_trans; [exact M1|]. apply Rmult_le_compat_l; [|lra]. pose proof (pos_INR (ps_updates ps)). lra.
Qed.
Lemma core_change2_nonneg n Fs Gs : 0 <= core_change2 K nI n Fs Gs.
Proof. unfold core_change2. apply sumf_nonneg. intros i _. apply sumf_nonneg. intros q _. apply sumf_nonneg. intros k _. apply pow2_ge_0. Qed.
Lemma run_tends : exists l, 0 <= l /\ Un_cv (fun j => L j) l /\ forall j, l <= L j.
Proof. apply (@descent_limit (fun j => L j)); [intros j; apply run_errors|intros j; apply err_nonneg]. Qed.
Lemma run_total n : sum n (fun j => core_change2 K nI (length Xs) (F (S j)) (F (S (S j)))) <= 3 * INR (ps_updates ps) * (L 0%nat - L n).
Proof. apply (@descent_total (fun j => L j)). intros j. apply run_errors. Qed.
Lemma run_vanish : Un_cv (fun j => core_change2 K nI (length Xs) (F (S j)) (F (S (S j)))) 0.
Proof.
  apply (@descent_vanish (fun j => L j) _ (3 * INR (ps_updates ps))); [intros; apply err_nonneg|intros; apply core_change2_nonneg| | |].
  - pose proof (pos_INR (ps_updates ps)). lra.
  - intros j. apply run_errors.
  - intros j. apply run_errors.
Qed.
Lemma run_loss j : p2_loss ps (state_after md s0 (S j)) = Ok (L j).
Proof.
  destruct (run_ready (S j)) as [Rj Xj]. rewrite (p2_loss_ok ps (rd_ok Rj)), (proj2 HU), Rplus_0_r, Xj. reflexivity.
Qed.
End P2Run.

(** *** Limits *)
Lemma tends_orth K Xs Ps Qs : tends_proj K Xs Ps Qs -> (forall n, orth_projections K Xs (Ps n)) -> orth_projections K Xs Qs.
Proof.
  intros HT HO k Hk a b Ha Hb.
  apply (@UL_sequence (fun n => sum (width Xs k) (fun i => mget (nth k (Ps n) m0) i a * mget (nth k (Ps n) m0) i b))).
  - apply (@cv_sumf _ _ (fun i n => mget (nth k (Ps n) m0) i a * mget (nth k (Ps n) m0) i b)). intros i Hi. apply in_seq in Hi.
    apply CV_mult; apply HT; auto; lia.
  - apply (@cv_ext (fun _ => delta a b)); [|apply cv_const]. intros n. symmetry. now apply HO.
Qed.
Lemma tends_err K nI Xs Ps Qs Fs Ls : is_mat nI K (nth 0 Ls m0) -> is_mat K K (nth 1 Ls m0) -> is_mat (length Xs) K (nth 2 Ls m0) ->
  length Ls = 3%nat -> tends K Fs Ls -> tends_proj K Xs Ps Qs -> Un_cv (fun n => p2_err K nI Xs (Ps n) (Fs n)) (p2_err K nI Xs Qs Ls).
Proof.
  intros H0 H1 H2 HL HF HP. unfold p2_err, pf_sse.
  apply (@cv_sumf _ _ (fun k n => slice_err K nI (nth 0 (Fs n) m0) (nth 1 (Fs n) m0) (nth 2 (Fs n) m0) Xs k (mget (nth k (Ps n) m0)))).
  intros k Hk. apply in_seq in Hk. unfold slice_err, dist2.
  apply (@cv_sumf _ _ (fun i n => sum (width Xs k) (fun j => (pf_entry K (nth 0 (Fs n) m0) (nth 1 (Fs n) m0) (nth 2 (Fs n) m0) k (mget (nth k (Ps n) m0)) i j - mget (nth k Xs m0) i j) ^ 2))).
  intros i Hi. apply in_seq in Hi.
  apply (@cv_sumf _ _ (fun j n => (pf_entry K (nth 0 (Fs n) m0) (nth 1 (Fs n) m0) (nth 2 (Fs n) m0) k (mget (nth k (Ps n) m0)) i j - mget (nth k Xs m0) i j) ^ 2)).
  intros j Hj. apply in_seq in Hj.
  assert (HE : Un_cv (fun n => pf_entry K (nth 0 (Fs n) m0) (nth 1 (Fs n) m0) (nth 2 (Fs n) m0) k (mget (nth k (Ps n) m0)) i j)
    (pf_entry K (nth 0 Ls m0) (nth 1 Ls m0) (nth 2 Ls m0) k (mget (nth k Qs m0)) i j)).
  { unfold pf_entry. apply (@cv_sumf _ _ (fun r n => mget (nth 0 (Fs n) m0) i r * mget (nth 2 (Fs n) m0) k r * mprod K (mget (nth k (Ps n) m0)) (mget (nth 1 (Fs n) m0)) j r)).
    intros r Hr. apply in_seq in Hr. apply CV_mult; [apply CV_mult|].
    - apply HF; [lia| |lia]. unfold nrows. rewrite (proj2 H0). cbn. lia.
    - apply HF; [lia| |lia]. unfold nrows. rewrite (proj2 H2). cbn. lia.
    - unfold mprod. apply (@cv_sumf _ _ (fun q n => mget (nth k (Ps n) m0) j q * mget (nth 1 (Fs n) m0) q r)). intros q Hq. apply in_seq in Hq.
      apply CV_mult; [apply HP; lia|]. apply HF; [lia| |lia]. unfold nrows. rewrite (proj2 H1). cbn. lia. }
  set (y := mget (nth k Xs m0) i j). set (f := fun n => pf_entry K (nth 0 (Fs n) m0) (nth 1 (Fs n) m0) (nth 2 (Fs n) m0) k (mget (nth k (Ps n) m0)) i j) in *.
  set (l := pf_entry K (nth 0 Ls m0) (nth 1 Ls m0) (nth 2 Ls m0) k (mget (nth k Qs m0)) i j) in *.
  change (Un_cv (fun n => (f n - y) ^ 2) ((l - y) ^ 2)).
  assert (HD : Un_cv (fun n => f n - y) (l - y)) by (apply CV_minus; [exact HE|apply cv_const]).
  apply (@cv_ext (fun n => (f n - y) * (f n - y))); [intros; ring|]. replace ((l - y) ^ 2) with ((l - y) * (l - y)) by ring. now apply CV_mult.
Qed.

(** A factor that cannot be replaced with gain *)
Lemma best_p2_flat K nI Xs Ps Fs m : length Fs = 3%nat -> is_mat nI K (nth 0 Fs m0) -> is_mat K K (nth 1 Fs m0) -> is_mat (length Xs) K (nth 2 Fs m0) ->
  orth_projections K Xs Ps -> (m < 3)%nat -> p2_best K nI Xs Ps Fs m -> p2_flat K nI Xs Ps Fs m.
Proof.
  intros HL H0 H1 H2 HO Hm HB.
  set (PX := tab [nI; K; length Xs] (fun idx => projected_entry Xs Ps (nth 0 idx 0%nat) (nth 1 idx 0%nat) (nth 2 idx 0%nat))).
  assert (S1 : shape PX = [nI; K; length Xs]) by reflexivity.
  assert (G1 : forall i q k, (i < nI)%nat -> (q < K)%nat -> (k < length Xs)%nat -> get PX [i; q; k] = projected_entry Xs Ps i q k).
  { intros i q k Hi Hq Hk. unfold PX. rewrite get_tab; [reflexivity|]. repeat constructor; assumption. }
  assert (F1 : factors_ok K PX Fs).
  { destruct Fs as [|A [|B [|C [|]]]]; try discriminate HL. cbn [nth] in H0, H1, H2. split.
    - constructor; [|constructor; [|constructor; [|constructor]]]; unfold nrows.
      + rewrite (proj2 H0). exact H0.
      + rewrite (proj2 H1). exact H1.
      + rewrite (proj2 H2). exact H2.
    - rewrite S1. unfold rows, nrows. cbn [map]. rewrite (proj2 H0), (proj2 H1), (proj2 H2). reflexivity. }
  assert (Hm' : (m < length (shape PX))%nat) by (rewrite S1; exact Hm).
  apply (@flat_split K nI Xs Ps PX Fs m HL HO S1 G1). apply best_flat; auto.
  intros W HW. rewrite S1 in HW. specialize (HB W HW).
  assert (ES : forall Gs, length Gs = 3%nat -> p2_err K nI Xs Ps Gs = lost K nI Xs Ps + sse PX Gs unit_weights K) by (intros; now apply err_split).
  rewrite !ES in HB; [lra| |exact HL]. unfold with_factor. now rewrite length_replace_at.
Qed.

Lemma picked_limit (L : nat -> R) pick l l' : unbounded pick -> Un_cv L l -> Un_cv (fun k => L (pick k)) l' -> l = l'.
Proof.
  intros HP H1 H2. apply (@UL_sequence (fun k => L (pick k))); [|exact H2]. intros e He. destruct (H1 e He) as [n Hn].
  destruct (HP n) as [k0 H0]. exists k0. intros k Hk. apply Hn. unfold ge. now apply H0.
Qed.

Lemma p2_limit_best env ps K nI Xs s s0 Ls Qs pick : drawn_settings ps K nI -> svd_contract (env_svd (pe_cp env)) ->
  nnls_contract (env_nnls (pe_cp env)) -> plain_settings ps -> (0 < ps_updates ps)%nat -> slices_ok nI Xs -> wide K Xs ->
  p2_ok K nI s -> p2_X s = Xs -> p2_prepare env ps s = (s0, None) ->
  let F j := p2_factors (state_after (p2_model env ps) s0 j) in let P j := p2_Ps (state_after (p2_model env ps) s0 j) in
  (forall j, orth_projections K Xs (P (S j))) ->
  length Ls = 3%nat -> is_mat nI K (nth 0 Ls m0) -> is_mat K K (nth 1 Ls m0) -> is_mat (length Xs) K (nth 2 Ls m0) ->
  tends K (fun k => F (pick k)) Ls -> tends K (fun k => F (S (pick k))) Ls -> tends_proj K Xs (fun k => P (S (pick k))) Qs ->
  best_projections K nI Xs Qs Ls /\
  (forall m, m = 0%nat \/ m = 2%nat \/ (m = 1%nat /\ ps_updates ps = 1%nat) -> p2_best K nI Xs Qs Ls m /\ p2_flat K nI Xs Qs Ls m) /\
  (unbounded pick -> Un_cv (fun j => p2_err K nI Xs (P (S j)) (F (S j))) (p2_err K nI Xs Qs Ls)).
Proof.
  intros HD HS HN HU Hup HX HW Hs EX EP F P HO HL H0 H1 H2 T1 T2 TP.
  assert (HOQ : orth_projections K Xs Qs) by (apply (tends_orth TP); intros; apply HO).
  pose proof (fun j => @run_moves env ps K nI Xs s s0 HD HS HN HU Hup HX HW Hs EX EP j (HO j)) as R. fold F in R. fold P in R.
  pose proof (tends_err H0 H1 H2 HL T1 TP) as E1. pose proof (tends_err H0 H1 H2 HL T2 TP) as E2.
  assert (HB : forall m, m = 0%nat \/ m = 2%nat \/ (m = 1%nat /\ ps_updates ps = 1%nat) -> p2_best K nI Xs Qs Ls m).
  { destruct Ls as [|A [|B [|C [|]]]]; try discriminate HL. cbn [nth] in H0, H1, H2.
    assert (TA : forall G, tends K (fun k => G (pick k)) [A; B; C] -> forall W, is_mat nI K W -> tends K (fun k => [W; nth 1 (G (pick k)) m0; nth 2 (G (pick k)) m0]) [W; B; C]).
    { intros G HG W HWm n i r Hn Hi Hr. destruct n as [|[|[|n]]]; cbn [nth] in *; [apply cv_const|now apply (HG 1%nat)|now apply (HG 2%nat)|cbn in Hn; lia]. }
    intros m [->|[->|[-> Hone]]] W HWm; unfold with_factor; cbn [replace_at]; cbn [nth] in HWm.
    - assert (TW := @TA F T1 W HWm).
      pose proof (@tends_err K nI Xs _ Qs _ [W; B; C] HWm H1 H2 eq_refl TW TP) as E3. refine (cv_le _ E2 E3).
      intros k. destruct (R (pick k)) as (_ & _ & _ & G & _). exact (G W HWm).
    - assert (TW : tends K (fun k => [nth 0 (F (S (pick k))) m0; nth 1 (F (S (pick k))) m0; W]) [A; B; W]).
      { intros n i r Hn Hi Hr. destruct n as [|[|[|n]]]; cbn [nth] in *; [now apply (T2 0%nat)|now apply (T2 1%nat)|apply cv_const|cbn in Hn; lia]. }
      pose proof (@tends_err K nI Xs _ Qs _ [A; B; W] H0 H1 HWm eq_refl TW TP) as E3. refine (cv_le _ E2 E3).
      intros k. destruct (R (pick k)) as (_ & _ & _ & _ & _ & G). exact (G W HWm).
    - assert (TV : tends K (fun k => [nth 0 (F (S (pick k))) m0; nth 1 (F (S (pick k))) m0; nth 2 (F (pick k)) m0]) [A; B; C]).
      { intros n i r Hn Hi Hr. destruct n as [|[|[|n]]]; cbn [nth] in *; [now apply (T2 0%nat)|now apply (T2 1%nat)|now apply (T1 2%nat)|cbn in Hn; lia]. }
      assert (TW : tends K (fun k => [nth 0 (F (S (pick k))) m0; W; nth 2 (F (pick k)) m0]) [A; W; C]).
      { intros n i r Hn Hi Hr. destruct n as [|[|[|n]]]; cbn [nth] in *; [now apply (T2 0%nat)|apply cv_const|now apply (T1 2%nat)|cbn in Hn; lia]. }
      pose proof (@tends_err K nI Xs _ Qs _ [A; B; C] H0 H1 H2 eq_refl TV TP) as E3.
      pose proof (@tends_err K nI Xs _ Qs _ [A; W; C] H0 HWm H2 eq_refl TW TP) as E4. refine (cv_le _ E3 E4).
      intros k. destruct (R (pick k)) as (_ & _ & _ & _ & G & _). exact (G Hone W HWm). }
  split; [|split].
  - split; [exact HOQ|]. intros Q HQ.
    assert (TQ : tends_proj K Xs (fun _ => Q) Q) by (intros k j q _ _ _; apply cv_const).
    pose proof (tends_err H0 H1 H2 HL T1 TQ) as E3. refine (cv_le _ E1 E3). intros k. destruct (R (pick k)) as ((_ & G) & _). now apply G.
  - intros m Hm. specialize (HB m Hm). split; [exact HB|]. apply best_p2_flat; auto. lia.
  - intros Hpick. destruct (@run_tends env ps K nI Xs s s0 HD HS HN HU Hup HX HW Hs EX EP HO) as (l & _ & Hl & _). fold F in Hl. fold P in Hl.
    now rewrite <- (@picked_limit (fun j => p2_err K nI Xs (P (S j)) (F (S j))) pick l _ Hpick Hl E2).
Qed.
