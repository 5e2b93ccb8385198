(** Penalised iterations of Parafac2_ALS accumulate: lemmas for C117. *)
From Verif Require Export P2RidgeFacts P2LimitSpec.
From Verif Require Import CompareFacts FixFacts LimitFacts P2LimitFacts Parafac2Sweep Parafac2Safe.
From Verif Require Import Prelude Lin.
Set Implicit Arguments.
Unset Strict Implicit.
Local Open Scope R_scope.

Section Kept.
Variables (env : p2_env) (ps : p2_settings) (K nI : nat).
Let md := p2_model env ps.
Hypothesis (HK : ps_rank ps = K) (HnI : (0 < nI)%nat) (HK0 : (0 < K)%nat).
Hypothesis (HS : svd_contract (env_svd (pe_cp env))) (HN : nnls_contract (env_nnls (pe_cp env))).
Hypothesis (H3 : length (ps_nn ps) = 3%nat) (HP : p2_penalties ps).

(** *** The passes over the factors do not touch the projections *)
Lemma modes_keep PX l : forall s, busy ps K nI PX s -> Forall (fun m => (m < 3)%nat) l ->
  exists s', run_all (p2_cp_update env ps) l s = (s', None) /\ busy ps K nI PX s' /\ p2_Ps s' = p2_Ps s.
Proof.
  induction l as [|m l IH]; intros s H Hl; cbn [run_all]; [eauto|].
  pose proof (Forall_inv Hl) as Hm. pose proof (Forall_inv_tail Hl) as Hl'. cbn beta in Hm. destruct (lamf_pen HK HnI HK0 H3 HP Hm) as [L1 L2].
  assert (Ha : nth_error (ps_nn ps) m = Some (nth m (ps_nn ps) false)) by (apply nth_error_nth'; lia).
  destruct (@cp_step env ps K nI HK HnI HK0 HS HN PX s m _ _ H Hm Ha L1 L2) as (s1 & E1 & B1 & _ & _ & _ & _ & P1). rewrite E1.
  destruct (IH s1 B1 Hl') as (s2 & E2 & B2 & P2). exists s2. split; [exact E2|]. split; [exact B2|congruence].
Qed.
Lemma sweeps_keep_Ps PX (l : list nat) : forall s, busy ps K nI PX s ->
  exists s', run_all (fun s _ => p2_cp_sweep env ps s) l s = (s', None) /\ busy ps K nI PX s' /\ p2_Ps s' = p2_Ps s.
Proof.
  induction l as [|x l IH]; intros s H; cbn [run_all]; [eauto|].
  unfold p2_cp_sweep at 1. assert (En : ndim (cp_X (p2_inner s)) = 3%nat) by (unfold ndim; rewrite (bs_X H), (bs_shape H); reflexivity).
  rewrite En. destruct (@modes_keep PX (seq 0 3) s H) as (s1 & E1 & H1 & P1).
  { apply Forall_forall. intros m Hm. apply in_seq in Hm. lia. }
  rewrite E1. destruct (IH s1 H1) as (s2 & E2 & H2 & P2). exists s2. split; [exact E2|]. split; [exact H2|congruence].
Qed.
Lemma iteration_projections s : ready ps K nI s -> (0 < length (p2_X s))%nat -> (forall k, (k < length (p2_X s))%nat -> (0 < width (p2_X s) k)%nat) ->
  forall k, (k < length (p2_X s))%nat -> projected_from env K nI s k (nth k (p2_Ps (fst (p2_update env ps s))) m0).
Proof.
  intros HR HX HW. destruct (@retargeted env ps K nI HK HnI HK0 HS s HR HX HW) as (s2 & PX & _ & B2 & _ & _ & _ & HPj & _ & E). rewrite E.
  destruct (@sweeps_keep_Ps PX (seq 0 (ps_updates ps)) s2 B2) as (s3 & E3 & B3 & P3). rewrite E3. cbn [and_then].
  destruct (@scale_total ps K nI HK HK0 s3 (bs_ready B3)) as (s4 & E4 & _ & _ & _ & _ & P4). rewrite E4. cbn [and_then fst].
  change (p2_Ps (p2_unit_weights s4)) with (p2_Ps s4). rewrite P4, P3. exact HPj.
Qed.
Lemma run_projections s : ready ps K nI s -> (0 < length (p2_X s))%nat -> (forall k, (k < length (p2_X s))%nat -> (0 < width (p2_X s) k)%nat) ->
  forall n k, (k < length (p2_X s))%nat -> projected_from env K nI (state_after md s n) k (nth k (p2_Ps (state_after md s (S n))) m0).
Proof.
  intros HR HX HW n k Hk. pose proof (@ready_after env ps K nI HK s n HR) as Hj. pose proof (fr_X (after_frame env ps s n)) as EX. fold md in EX, Hj.
  cbn [state_after]. set (u := state_after md s n) in *. change (md_update md u) with (p2_update env ps u).
  apply iteration_projections; rewrite ?EX; auto.
Qed.
End Kept.

Lemma projected_shrinks env K nI s k P x : svd_contract (env_svd (pe_cp env)) -> p2_ok K nI s -> (k < length (p2_X s))%nat ->
  projected_from env K nI s k P ->
  sum K (fun q => sum (width (p2_X s) k) (fun j => x j * mget P j q) ^ 2) <= sum (width (p2_X s) k) (fun j => x j ^ 2).
Proof.
  intros HS H Hk HPj. destruct (pj_solve HPj) as (T & Z & HT & _ & ES & ->).
  exact (@solved_shrinks _ nI _ K T _ Z x HS HT (ok_X H Hk) ES).
Qed.

(** Every row of a matrix that does not lengthen has length at most one. *)
Lemma shrinks_frob w K P : (forall x, sum K (fun q => sum w (fun j => x j * mget P j q) ^ 2) <= sum w (fun j => x j ^ 2)) ->
  frob2 w K (mget P) <= INR w.
Proof.
  intros H. unfold frob2. rewrite <- (Rmult_1_r (INR w)), <- sum_const. apply sum_le. intros j0 Hj0.
  specialize (H (delta j0)).
  rewrite (@sum_ext w (fun j => delta j0 j ^ 2) (fun j => delta j0 j * delta j0 j)) in H by (intros; ring).
  rewrite sum_delta_l, delta_refl in H by exact Hj0. eapply Rle_trans; [|exact H]. right. apply sum_ext. intros q _.
  now rewrite (@sum_delta_l w j0 (fun j => mget P j q) Hj0).
Qed.

Lemma slices_energy_nonneg Xs : 0 <= slices_energy Xs.
Proof. unfold slices_energy. rewrite sumf_nth. apply sum_nonneg. intros; apply energy_pos. Qed.
Lemma cv_pow2 f l : Un_cv f l -> Un_cv (fun k => f k ^ 2) (l ^ 2).
Proof. intros H. apply cv_ext with (fun k => f k * f k); [intros; ring|]. replace (l ^ 2) with (l * l) by ring. now apply CV_mult. Qed.

(** *** Iterations whose modes are all penalised *)
Section Accumulate.
Variables (env : p2_env) (ps : p2_settings) (K nI : nat) (Xs : list nd) (s s0 : p2_state) (la lb lc : R).
Let md := p2_model env ps.
Let F j := p2_factors (state_after md s0 j).
Let P j := p2_Ps (state_after md s0 j).
Let n := length Xs.
Hypothesis (HD : drawn_settings ps K nI) (HS : svd_contract (env_svd (pe_cp env))) (HN : nnls_contract (env_nnls (pe_cp env))).
Hypothesis (Hnn : ps_nn ps = [false; false; false]) (Hr : ps_ridge ps = Some [la; lb; lc]) (Hla : 0 < la) (Hlb : 0 < lb) (Hlc : 0 < lc).
Hypothesis (Hup : (0 < ps_updates ps)%nat) (HX : slices_ok nI Xs) (HW : forall k, (k < n)%nat -> (0 < width Xs k)%nat).
Hypothesis (Hs : p2_ok K nI s) (EX : p2_X s = Xs) (EP : p2_prepare env ps s = (s0, None)).

Lemma nX : (0 < n)%nat.
Proof. unfold n. destruct HX as [Hne _]. destruct Xs; [congruence|cbn; lia]. Qed.
Lemma pens : p2_penalties ps.
Proof. unfold p2_penalties. rewrite Hr. split; [cbn; lia|]. repeat constructor; lra. Qed.
Lemma nn3 : length (ps_nn ps) = 3%nat.
Proof. now rewrite Hnn. Qed.
Lemma started : ready ps K nI s0 /\ p2_X s0 = Xs.
Proof.
  destruct HD as (HK & HO & HnI & HK0). destruct (@prepare_ready env ps K nI HK HO HnI HK0 s Hs) as (t & E & HR & HA & _); [rewrite EX; apply nX|].
  rewrite EP in E. injection E as <-. split; [exact HR|]. rewrite <- EX. apply (proj1 HA).
Qed.
Lemma after_ok j : p2_ok K nI (state_after md s0 j) /\ p2_X (state_after md s0 j) = Xs.
Proof.
  destruct started as [HR E]. split; [apply rd_ok with ps; apply ready_after; [apply HD|exact HR]|].
  rewrite <- E. exact (fr_X (after_frame env ps s0 j)).
Qed.
Definition pen3 (m : nat) : R := nth m [la; lb; lc] 0.
Lemma pen3_pos m : (m < 3)%nat -> 0 < pen3 m.
Proof. intros H. destruct m as [|[|[|m]]]; cbn; auto; lia. Qed.
Lemma factor_held j m : (m < 3)%nat ->
  256 * pen3 m * frob2 (nth m [nI; K; n] 0%nat) K (mget (nth m (F (S j)) m0)) ^ 2 <= 27 * slices_energy Xs ^ 2.
Proof.
  intros Hm. destruct started as [HR E]. destruct HD as (HK & HO & HnI & HK0).
  pose proof (@run_held env ps K nI HK HnI HK0 HS HN nn3 pens s0 HR) as G. rewrite E in G. specialize (G nX HW Hup j m Hm).
  unfold P2RidgeFacts.bounded in G. rewrite Hr, Hnn in G. change (nth m [la; lb; lc] 0) with (pen3 m) in G.
  assert (E1 : p2_factor (state_after (p2_model env ps) s0 (S j)) m = nth m (F (S j)) m0) by (destruct m as [|[|[|m]]]; try lia; reflexivity).
  rewrite E1 in G. apply G; [destruct m as [|[|[|m]]]; try lia; reflexivity|now apply pen3_pos].
Qed.
Lemma projection_held j k x : (k < n)%nat ->
  sum K (fun q => sum (width Xs k) (fun i => x i * mget (nth k (P (S j)) m0) i q) ^ 2) <= sum (width Xs k) (fun i => x i ^ 2).
Proof.
  intros Hk. destruct started as [HR E]. destruct HD as (HK & HO & HnI & HK0). destruct (after_ok j) as [Hj Ej].
  pose proof (@run_projections env ps K nI HK HnI HK0 HS HN nn3 pens s0 HR) as G. rewrite E in G. specialize (G nX HW j k Hk).
  pose proof (@projected_shrinks env K nI (state_after md s0 j) k (nth k (P (S j)) m0) x HS Hj) as H. rewrite Ej in H. exact (H Hk G).
Qed.

Lemma limit_shrinks k Q pick x : (forall j q, (j < width Xs k)%nat -> (q < K)%nat -> Un_cv (fun i => mget (nth k (P (S (pick i))) m0) j q) (mget Q j q)) ->
  (k < n)%nat -> sum K (fun q => sum (width Xs k) (fun i => x i * mget Q i q) ^ 2) <= sum (width Xs k) (fun i => x i ^ 2).
Proof.
  intros Hc Hk. eapply cv_le; [intros i; exact (@projection_held (pick i) k x Hk)| |apply cv_const].
  apply cv_sumf. intros q Hq. apply in_seq in Hq. apply cv_pow2. apply cv_sumf. intros j Hj. apply in_seq in Hj.
  apply CV_mult; [apply cv_const|]. apply Hc; lia.
Qed.

Lemma p2_accumulates : exists Ls Qs pick, factors_ok K (np_zeros [nI; K; n]) Ls /\ length Qs = n /\
  (forall k, (k < n)%nat -> is_mat (width Xs k) K (nth k Qs m0)) /\ (forall k, (k < pick k)%nat) /\
  tends K (fun k => F (pick k)) Ls /\ tends_proj K Xs (fun k => P (pick k)) Qs /\
  forall k x, (k < n)%nat -> sum K (fun q => sum (width Xs k) (fun i => x i * mget (nth k Qs m0) i q) ^ 2) <= sum (width Xs k) (fun i => x i ^ 2).
Proof.
  set (sh := [nI; K; n] ++ map (width Xs) (seq 0 n)).
  assert (Hl : length sh = (3 + n)%nat) by (unfold sh; rewrite app_length, map_length, seq_length; reflexivity).
  assert (Hw : forall k, (k < n)%nat -> nth (3 + k) sh 0%nat = width Xs k).
  { intros k Hk. unfold sh. cbn [plus app nth]. rewrite (nth_indep _ 0%nat (width Xs 0)) by (now rewrite map_length, seq_length). now rewrite map_nth, seq_nth. }
  set (b := fun m => if (m <? 3)%nat then sqrt (27 / (256 * pen3 m)) * slices_energy Xs else INR (nth m sh 0%nat)).
  destruct (@accumulate K (mk sh []) (fun j => F (S j) ++ P (S j)) b) as (LL & pick & [HM HR] & Hp & HT).
  - intros j. destruct (after_ok (S j)) as [Hj Ej]. cbn [shape]. unfold rows, sh. rewrite map_app. f_equal.
    + unfold F, p2_factors. cbn [map]. rewrite (is_mat_nrows (ok_A Hj)), (is_mat_nrows (ok_B Hj)), (is_mat_nrows (ok_C Hj)), Ej. reflexivity.
    + assert (EL : length (P (S j)) = n) by (unfold P, p2_Ps; rewrite map_length, (ok_nP Hj), Ej; reflexivity).
      apply nth_ext with (d := nrows m0) (d' := width Xs 0); [now rewrite !map_length, seq_length|]. intros k Hk. rewrite map_length, EL in Hk.
      rewrite !map_nth, seq_nth by exact Hk. cbn [plus]. pose proof (ok_P Hj) as HPk. rewrite Ej in HPk. exact (is_mat_nrows (HPk k Hk)).
  - cbn [shape]. intros j m Hm. rewrite Hl in Hm. unfold b. destruct (Nat.ltb_spec m 3) as [H|H].
    + replace (nth m sh 0%nat) with (nth m [nI; K; n] 0%nat) by (unfold sh; rewrite app_nth1 by exact H; reflexivity).
      rewrite app_nth1 by exact H. pose proof (slices_energy_nonneg Xs) as He. destruct (bounds_exist (pen3_pos H) He) as [B1 B2].
      apply (@bound_le _ _ (slices_energy Xs) (pen3 m)); [now apply pen3_pos|apply frob2_pos|exact B1|now apply factor_held|exact B2].
    + replace m with (3 + (m - 3))%nat by lia. set (k := (m - 3)%nat). assert (Hk : (k < n)%nat) by (unfold k; lia). rewrite Hw by exact Hk.
      change (nth (3 + k) (F (S j) ++ P (S j)) m0) with (nth k (P (S j)) m0). apply shrinks_frob. intros x. now apply projection_held.
  - cbn [shape] in HR. assert (HLL : length LL = (3 + n)%nat) by (rewrite <- Hl, <- HR; unfold rows; now rewrite map_length).
    destruct LL as [|A [|B [|C Qs]]]; try discriminate HLL. injection HLL as HQ.
    assert (HRk : forall k, (k < n)%nat -> nrows (nth k Qs m0) = width Xs k).
    { intros k Hk. rewrite <- (Hw k Hk), <- HR, nth_rows. reflexivity. }
    assert (HTP : tends_proj K Xs (fun k => P (S (pick k))) Qs).
    { intros k j q Hk Hj Hq. apply (HT (3 + k)%nat j q); [cbn; lia| |exact Hq]. cbn [plus nth]. now rewrite HRk. }
    exists [A; B; C], Qs, (fun k => S (pick k)).
    assert (HMA : mats K [A; B; C] /\ mats K Qs) by (apply Forall_app; exact HM).
    split; [split; [apply HMA|]|].
    { unfold sh in HR. cbn in HR. injection HR as R1 R2 R3 _. cbn. now rewrite R1, R2, R3. }
    split; [exact HQ|]. split.
    { intros k Hk. rewrite <- HRk by exact Hk. apply (proj1 (Forall_forall _ _) (proj2 HMA)). apply nth_In. now rewrite HQ. }
    split; [intros k; specialize (Hp k); lia|]. split.
    { intros m i r Hm Hi Hr'. cbn [length] in Hm. assert (HA : nth m (A :: B :: C :: Qs) m0 = nth m [A; B; C] m0) by (destruct m as [|[|[|m]]]; try lia; reflexivity).
      pose proof (HT m i r) as G. rewrite HA in G. assert (G' := G ltac:(cbn [length]; lia) Hi Hr').
      eapply cv_ext; [|exact G']. intros k. cbn beta. now rewrite app_nth1 by exact Hm. }
    split; [exact HTP|]. intros k x Hk. apply (@limit_shrinks k _ pick x); [|exact Hk]. intros j q Hj Hq. now apply HTP.
Qed.
End Accumulate.
