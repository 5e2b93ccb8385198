(** Constrained and penalised updates of CMTF_ALS: lemmas for C86. *)
From Verif Require Export CoupledConstraintSpec CMTFUpdate.
From Verif Require Import CPConstrained MetricsFacts.
From Verif Require Import Prelude Lin.
Set Implicit Arguments.
Unset Strict Implicit.
Local Open Scope R_scope.

(** A best solution satisfies the normal equations, provided some matrix does. *)
Lemma ls_normal p n m X0 X A B : normal_eq p n m X0 A B ->
  (forall Y, dist2 p m (mprod n X A) B <= dist2 p m (mprod n Y A) B) -> normal_eq p n m X A B.
Proof.
  intros HX0 Hopt i a Hi Ha. specialize (Hopt X0). rewrite (ls_pythagoras X HX0) in Hopt.
  pose proof (frob2_nonneg p m (mprod n (fun i a => X i a - X0 i a) A)) as Hf.
  assert (E : frob2 p m (mprod n (fun i a => X i a - X0 i a) A) = 0) by lra.
  rewrite <- (HX0 i a Hi Ha). apply sum_ext. intros j Hj. f_equal. f_equal.
  pose proof (frob2_zero E Hi Hj) as E1. unfold mprod in *.
  assert (E2 : sum n (fun k => X i k * A k j) - sum n (fun k => X0 i k * A k j) = 0).
  { rewrite <- sum_minus, <- E1. apply sum_ext. intros; ring. }
  lra.
Qed.

Section Coupled.
Variables (env : cp_env) (cs : cp_settings) (K : nat) (ms : list nat) (s : cmtf_state) (m : nat).
Hypothesis (H : cm_ok K ms s) (HN : NoDup ms) (Hm : (m < length (shape (cp_X (cm_cp s))))%nat).
Let X := cp_X (cm_cp s).
Let n := nth m (shape X) 0%nat.
Let crhs (i : nat) : nat -> nat -> R := coupled_rhs X (cm_fms s) m (nth i (cm_V s) m0) (nth i (cm_Y s) m0).
Let loss (Z : nd) : R := coupled_loss K X (with_factor m Z (cm_fms s)) unit_weights ms (cm_V s) (cm_Y s).

(** A coupled mode: whatever the solver minimises for the two concatenations it minimises for the coupled loss. *)
Lemma update_coupled (feasible : (nat -> nat -> R) -> Prop) lam i solve : (i < length ms)%nat -> nth i ms 0%nat = m ->
  get_rightsolve env cs (cp_nn (cm_cp s)) (cp_orth (cm_cp s)) m = Ok solve ->
  (forall N lhs rhs, (1 <= N)%nat -> is_mat K N lhs -> is_mat n N rhs ->
     (forall a r, (a < n)%nat -> (r < K)%nat -> sum N (fun j => mget rhs a j * mget lhs r j) = crhs i a r) ->
     exists Z, solve lhs rhs = Ok Z /\ is_mat n K Z /\ feasible (mget Z) /\
     forall Y, feasible Y -> dist2 n N (mprod K (mget Z) (mget lhs)) (mget rhs) + lam * frob2 n K (mget Z) <=
                             dist2 n N (mprod K Y (mget lhs)) (mget rhs) + lam * frob2 n K Y) ->
  exists s' Z, cmtf_update_factor env cs s m = (s', None) /\ is_mat n K Z /\
    cm_fms s' = with_factor m Z (cm_fms s) /\ cm_V s' = cm_V s /\ same_coupled s s' /\ cm_ok K ms s' /\ feasible (mget Z) /\
    forall Z', feasible (mget Z') -> loss Z + lam * frob2 n K (mget Z) <= loss Z' + lam * frob2 n K (mget Z').
Proof.
  intros Hi Em ES Hsolve.
  destruct (dict_find (Z.of_nat m) (mode_to_cm_idx (cm_modes s))) as [idxs|] eqn:EF.
  2:{ exfalso. apply (find_uncoupled H EF). rewrite <- Em. now apply nth_In. }
  destruct (@coupled_sides env cs K ms s m idxs H Hm EF) as (i' & lhs & rhs & N & Hi' & Em' & HN1 & EL & ER & HL & HR & Hd & Hdot).
  assert (i' = i) as -> by (apply (proj1 (NoDup_nth ms 0%nat) HN); auto; congruence).
  destruct (Hsolve N lhs rhs HN1 HL HR Hdot) as (Z & EZ & HZ & HF & Hopt).
  destruct (cm_update_with H Hm EL ER ES EZ HZ) as (s' & Es & Hf & HV & HSC & HC).
  exists s', Z. do 7 (split; [assumption|]). intros Z' HF'. specialize (Hopt (mget Z') HF'). fold n in Hd. rewrite !Hd in Hopt.
  unfold loss, coupled_loss.
  pose proof (@mats_sse_coupled K (cm_fms s) ms (cm_V s) (cm_Y s) i Z Z' HN Hi) as HD.
  rewrite Em, (ck_len H) in HD. specialize (HD Hm). fold X in Hopt. lra.
Qed.

Lemma coupled_orth lam i U Sv Vh : (i < length ms)%nat -> nth i ms 0%nat = m ->
  flag (cp_nn (cm_cp s)) m false -> flag (cp_orth (cm_cp s)) m true -> penalty cs m lam -> 0 <= lam ->
  (0 < K <= n)%nat ->
  env_svd env (tab2 n K (crhs i)) = Ok (U, Sv, Vh) -> is_svd n K (tab2 n K (crhs i)) U Sv Vh ->
  (forall r, (r < K)%nat -> INR n * vget Sv 0 * / 10 ^ 16 < vget Sv r) ->
  exists s' Z, cmtf_update_factor env cs s m = (s', None) /\ is_mat n K Z /\
    cm_fms s' = with_factor m Z (cm_fms s) /\ cm_V s' = cm_V s /\ same_coupled s s' /\ cm_ok K ms s' /\ orth_cols n K (mget Z) /\
    forall Z', orth_cols n K (mget Z') -> loss Z <= loss Z'.
Proof.
  intros Hi Em H1 H2 H3 Hl Hk ES HS Htr. pose proof (rightsolve_flags env H1 H2 H3) as ER. cbn [andb] in ER. cbv zeta in ER.
  destruct (@update_coupled (orth_cols n K) 0 i
     (match cs_ridge cs with None => orthogonal_rightsolve (env_svd env)
               | Some _ => add_rightsolve_ridge (orthogonal_rightsolve (env_svd env)) lam end) Hi Em)
     as (s' & Z & A1 & A2 & A3 & A4 & A5 & A6 & A7 & A8).
  - rewrite ER. now destruct (cs_ridge cs).
  - intros N lhs rhs HN1 HL HR Hdot.
    assert (EM : matmul rhs (transp lhs) = Ok (tab2 n K (crhs i))).
    { rewrite (matmul_ok HR (is_mat_transp HL)). f_equal. apply tab2_ext. intros a r Ha Hr. rewrite <- Hdot by auto.
      apply sum_ext. intros j Hj. now rewrite (mget_transp HL). }
    destruct (orthogonal_rightsolve_ok HL HR Hk EM ES HS Htr) as (Z & EZ & HZ & HO & Hopt).
    exists Z. split.
    { destruct (cs_ridge cs); auto. now rewrite (ridge_orthogonal (env_svd env) HL HR Hl). }
    do 2 (split; auto). intros Y HY. specialize (Hopt Y HY). lra.
  - exists s', Z. do 7 (split; auto). intros Y HY. specialize (A8 Y HY). lra.
Qed.

Lemma coupled_ridge lam : In m ms ->
  flag (cp_nn (cm_cp s)) m false -> flag (cp_orth (cm_cp s)) m false -> penalty cs m lam -> 0 <= lam ->
  svd_works_rows K (env_svd env) ->
  exists s' Z, cmtf_update_factor env cs s m = (s', None) /\ is_mat n K Z /\
    cm_fms s' = with_factor m Z (cm_fms s) /\ cm_V s' = cm_V s /\ same_coupled s s' /\ cm_ok K ms s' /\
    forall Z', loss Z + lam * frob2 n K (mget Z) <= loss Z' + lam * frob2 n K (mget Z').
Proof.
  intros Hin H1 H2 H3 Hl Hsvd. destruct (In_nth _ _ 0%nat Hin) as (i & Hi & Em).
  pose proof (rightsolve_flags env H1 H2 H3) as ER. cbn [andb] in ER. cbv zeta in ER.
  destruct (@update_coupled (fun _ => True) lam i
     (match cs_ridge cs with None => rightsolve (env_svd env)
               | Some _ => add_rightsolve_ridge (rightsolve (env_svd env)) lam end) Hi Em)
     as (s' & Z & A1 & A2 & A3 & A4 & A5 & A6 & _ & A8).
  - rewrite ER. now destruct (cs_ridge cs).
  - intros N lhs rhs HN1 HL HR _. unfold penalty in H3. destruct (cs_ridge cs) as [lams|].
    + destruct (ridge_ok (rightsolve (env_svd env)) HL HR Hl) as (A' & B' & E & HA' & HB' & Hd & _).
      destruct (Hsvd (N + K)%nat ltac:(lia) A' HA') as (U & Sv & Vh & E1 & HS).
      destruct (rightsolve_ok HA' HB' E1 HS) as (Z & EZ & HZ & _ & Hopt & _).
      exists Z. rewrite E. do 3 (split; auto). intros Y _. specialize (Hopt Y). now rewrite !Hd in Hopt.
    + destruct (Hsvd N HN1 lhs HL) as (U & Sv & Vh & E1 & HS).
      destruct (rightsolve_ok HL HR E1 HS) as (Z & EZ & HZ & _ & Hopt & _).
      exists Z. do 3 (split; auto). intros Y _. specialize (Hopt Y). rewrite H3. lra.
  - exists s', Z. do 6 (split; auto).
Qed.

(** A mode without a matrix and without a penalty (others may have one) *)
Lemma uncoupled_zero : (1 <= K)%nat -> cs_rank cs = K -> ~ In m ms ->
  flag (cp_nn (cm_cp s)) m false -> flag (cp_orth (cm_cp s)) m false -> penalty cs m 0 ->
  svd_works_rows K (env_svd env) ->
  exists s' Z, cmtf_update_factor env cs s m = (s', None) /\ is_mat n K Z /\
    cm_fms s' = with_factor m Z (cm_fms s) /\ cm_V s' = cm_V s /\ same_coupled s s' /\ cm_ok K ms s' /\
    forall Z', loss Z <= loss Z'.
Proof.
  intros HK1 HK Hnin H1 H2 H3 Hsvd.
  pose proof (rightsolve_flags env H1 H2 H3) as ER. cbn [andb] in ER. cbv zeta in ER.
  pose proof (ck_fac H) as [HU Hr].
  destruct (als_rhs_ok env (ck_data H) (ck_fac H) Hm) as (P & EP & HP & HPe).
  destruct (als_lhs_ok m HU HK) as (V & EV & HV & HVe).
  assert (EF : dict_find (Z.of_nat m) (mode_to_cm_idx (cm_modes s)) = None).
  { destruct (dict_find _ _) as [idxs|] eqn:EF; auto. exfalso. apply Hnin.
    destruct (find_coupled H EF) as (i & _ & _ & Hi & Em & _). rewrite <- Em. now apply nth_In. }
  assert (ELhs : cmtf_lhs env cs s m = Ok V) by (unfold cmtf_lhs; now rewrite EF).
  assert (ERhs : cmtf_rhs env s m = Ok P) by (unfold cmtf_rhs; now rewrite EF).
  destruct (Hsvd K HK1 V HV) as (U & Sv & Vh & ES & HS).
  destruct (rightsolve_ok HV HP ES HS) as (Z0 & EZ0 & HZ0 & Hnormal & Hopt0 & _).
  assert (Hs : exists solve Z, get_rightsolve env cs (cp_nn (cm_cp s)) (cp_orth (cm_cp s)) m = Ok solve /\ solve V P = Ok Z /\
     is_mat n K Z /\ forall Y, dist2 n K (mprod K (mget Z) (mget V)) (mget P) <= dist2 n K (mprod K Y (mget V)) (mget P)).
  { destruct (cs_ridge cs) as [lams|].
    - destruct (ridge_ok (rightsolve (env_svd env)) HV HP (Rle_refl 0)) as (A' & B' & E & HA' & HB' & Hd & _).
      destruct (Hsvd (K + K)%nat ltac:(lia) A' HA') as (U' & Sv' & Vh' & E1 & HS').
      destruct (rightsolve_ok HA' HB' E1 HS') as (Z & EZ & HZ & _ & Hopt & _).
      eexists. exists Z. split; [exact ER|]. rewrite E. do 2 (split; auto).
      intros Y. specialize (Hopt Y). rewrite !Hd in Hopt. change (nth m (shape (cp_X (cm_cp s))) 0%nat) with n in Hopt. lra.
    - eexists. exists Z0. split; [exact ER|]. auto. }
  destruct Hs as (solve & Z & ES' & EZ & HZ & Hopt).
  destruct (cm_update_with H Hm ELhs ERhs ES' EZ HZ) as (s' & Es & Hf & HV' & HSC & HC).
  exists s', Z. do 6 (split; [assumption|]). intros Z'. unfold loss, coupled_loss.
  rewrite !mats_sse_uncoupled by auto. apply Rplus_le_compat_r.
  unfold X. rewrite !(mode_sse K Hr Hm). apply gram_optimal.
  assert (HVn : normal_eq n K K (mget Z) (mget V) (mget P)).
  { exact (ls_normal Hnormal Hopt). }
  intros i a Hi Ha. rewrite <- (HVn i a Hi Ha). apply sum_ext. intros j Hj.
  rewrite mode_gV by auto. rewrite HVe by auto. f_equal. rewrite mode_gM by auto. rewrite HPe by auto. f_equal.
  unfold mprod. apply sum_ext. intros k Hk. rewrite mode_gV by auto. now rewrite HVe.
Qed.
End Coupled.

(** *** Passes with penalties on coupled modes *)
Lemma pen_with (lam : nat -> R) K X Us m Z Z' : (m < length (shape X))%nat -> length Us = length (shape X) ->
  sum (length (shape X)) (fun j => lam j * frob2 (nth j (shape X) 0%nat) K (mget (nth j (with_factor m Z Us) m0))) -
  sum (length (shape X)) (fun j => lam j * frob2 (nth j (shape X) 0%nat) K (mget (nth j (with_factor m Z' Us) m0))) =
  lam m * frob2 (nth m (shape X) 0%nat) K (mget Z) - lam m * frob2 (nth m (shape X) 0%nat) K (mget Z').
Proof.
  intros Hm HU. rewrite <- sum_minus.
  rewrite <- (@sum_delta_l (length (shape X)) m (fun j => lam j * frob2 (nth j (shape X) 0%nat) K (mget Z) -
     lam j * frob2 (nth j (shape X) 0%nat) K (mget Z'))) by auto.
  apply sum_ext. intros j Hj. destruct (Nat.eq_dec m j) as [<-|Hne].
  - rewrite delta_refl. unfold with_factor. rewrite !nth_replace_at_eq by lia. ring.
  - rewrite delta_neq by auto. unfold with_factor. rewrite !nth_replace_at_neq by auto. ring.
Qed.

Lemma unconstrained_flags X c m : unconstrained X (cp_nn c) (cp_orth c) -> (m < length (shape X))%nat ->
  flag (cp_nn c) m false /\ flag (cp_orth c) m false.
Proof.
  intros (l1 & l2 & E1 & E2 & Hl) Hm. destruct (Hl m Hm). split; eexists; eauto.
Qed.

Definition pl (lam : nat -> R) (K : nat) (ms : list nat) (s : cmtf_state) : R :=
  penalised_loss lam K (cp_X (cm_cp s)) (cm_fms s) ms (cm_V s) (cm_Y s).

Lemma penalised_update env cs K ms lam s m : svd_works_rows K (env_svd env) -> cs_rank cs = K -> (1 <= K)%nat -> NoDup ms ->
  cm_ok K ms s -> unconstrained (cp_X (cm_cp s)) (cp_nn (cm_cp s)) (cp_orth (cm_cp s)) ->
  penalties (cs_ridge cs) (cp_X (cm_cp s)) ms lam -> (m < length (shape (cp_X (cm_cp s))))%nat ->
  exists s' Z, cmtf_update_factor env cs s m = (s', None) /\
    is_mat (nth m (shape (cp_X (cm_cp s))) 0%nat) K Z /\ cm_fms s' = with_factor m Z (cm_fms s) /\
    cm_V s' = cm_V s /\ same_coupled s s' /\ cm_ok K ms s' /\
    forall Z', penalised_loss lam K (cp_X (cm_cp s)) (with_factor m Z (cm_fms s)) ms (cm_V s) (cm_Y s) <=
               penalised_loss lam K (cp_X (cm_cp s)) (with_factor m Z' (cm_fms s)) ms (cm_V s) (cm_Y s).
Proof.
  intros Hsvd HK HK1 HN H Hu Hp Hm. destruct (unconstrained_flags Hu Hm) as [F1 F2]. destruct (Hp m Hm) as (P1 & P2 & P3).
  assert (P4 : penalty cs m (lam m)) by exact P1.
  assert (Hs : exists s' Z, cmtf_update_factor env cs s m = (s', None) /\
    is_mat (nth m (shape (cp_X (cm_cp s))) 0%nat) K Z /\ cm_fms s' = with_factor m Z (cm_fms s) /\
    cm_V s' = cm_V s /\ same_coupled s s' /\ cm_ok K ms s' /\
    forall Z', coupled_loss K (cp_X (cm_cp s)) (with_factor m Z (cm_fms s)) unit_weights ms (cm_V s) (cm_Y s) +
                 lam m * frob2 (nth m (shape (cp_X (cm_cp s))) 0%nat) K (mget Z) <=
               coupled_loss K (cp_X (cm_cp s)) (with_factor m Z' (cm_fms s)) unit_weights ms (cm_V s) (cm_Y s) +
                 lam m * frob2 (nth m (shape (cp_X (cm_cp s))) 0%nat) K (mget Z')).
  { destruct (in_dec Nat.eq_dec m ms) as [Hin|Hnin].
    - destruct (coupled_ridge H HN Hm Hin F1 F2 P4 P2 Hsvd) as (s' & Z & A1 & A2 & A3 & A4 & A5 & A6 & A7).
      exists s', Z. auto 12.
    - rewrite (P3 Hnin) in P4 |- *.
      destruct (uncoupled_zero H Hm HK1 HK Hnin F1 F2 P4 Hsvd) as (s' & Z & A1 & A2 & A3 & A4 & A5 & A6 & A7).
      exists s', Z. do 6 (split; auto). intros Z'. specialize (A7 Z'). lra. }
  destruct Hs as (s' & Z & A1 & A2 & A3 & A4 & A5 & A6 & A7). exists s', Z. do 6 (split; auto).
  intros Z'. specialize (A7 Z'). unfold penalised_loss.
  pose proof (@pen_with lam K (cp_X (cm_cp s)) (cm_fms s) m Z Z' Hm (ck_len H)). lra.
Qed.

Lemma unconstrained_same X c c' : same_problem c c' -> unconstrained X (cp_nn c) (cp_orth c) -> unconstrained X (cp_nn c') (cp_orth c').
Proof. intros HS. now rewrite (sp_nn HS), (sp_orth HS). Qed.

Lemma penalised_modes env cs K ms lam l : svd_works_rows K (env_svd env) -> cs_rank cs = K -> (1 <= K)%nat -> NoDup ms ->
  forall s, cm_ok K ms s -> unconstrained (cp_X (cm_cp s)) (cp_nn (cm_cp s)) (cp_orth (cm_cp s)) ->
  penalties (cs_ridge cs) (cp_X (cm_cp s)) ms lam ->
  Forall (fun m => (m < length (shape (cp_X (cm_cp s))))%nat) l ->
  exists s', cmtf_update_modes env cs l s = (s', None) /\ cm_ok K ms s' /\ same_coupled s s' /\ pl lam K ms s' <= pl lam K ms s.
Proof.
  intros Hsvd HK HK1 HN. induction l as [|m l IH]; intros s H Hu Hp Hl.
  - exists s. split; [reflexivity|]. split; auto. split; [apply same_coupled_refl|]. lra.
  - inversion Hl as [|? ? Hm Hl']; subst.
    destruct (penalised_update Hsvd eq_refl HK1 HN H Hu Hp Hm) as (s1 & Z & E1 & _ & Hfm & HV1 & HS1 & HC1 & Hopt).
    destruct (IH s1) as (s2 & E2 & HC2 & HS2 & Hle2); auto.
    { rewrite (sp_X (sc_cp HS1)). now apply (unconstrained_same (sc_cp HS1)). }
    { now rewrite (sp_X (sc_cp HS1)). }
    { now rewrite (sp_X (sc_cp HS1)). }
    exists s2. cbn [cmtf_update_modes]. destruct Hu as (l1 & l2 & En & Eo & Hfl). destruct (Hfl m Hm) as [En1 _].
    rewrite En. cbn [not_none bind]. unfold list_get at 1. rewrite En1. rewrite E1, E2. split; auto. split; auto.
    split; [eapply same_coupled_trans; eauto|].
    eapply Rle_trans; [exact Hle2|]. unfold pl. rewrite (sp_X (sc_cp HS1)), HV1, (sc_Y HS1), Hfm.
    specialize (Hopt (nth m (cm_fms s) m0)). rewrite (with_factor_self (Us := cm_fms s)) in Hopt; auto.
    rewrite (ck_len H). auto.
Qed.

Lemma penalised_iteration env cs K ms lam : svd_works_rows K (env_svd env) -> cs_rank cs = K -> (1 <= K)%nat -> NoDup ms ->
  forall s, cm_ok K ms s -> unconstrained (cp_X (cm_cp s)) (cp_nn (cm_cp s)) (cp_orth (cm_cp s)) ->
  penalties (cs_ridge cs) (cp_X (cm_cp s)) ms lam ->
  exists s', cmtf_update_factors env cs s = (s', None) /\ cm_ok K ms s' /\ same_coupled s s' /\ pl lam K ms s' <= pl lam K ms s.
Proof.
  intros Hsvd HK HK1 HN s H Hu Hp.
  destruct (@penalised_modes env cs K ms lam (seq 0 (ndim (cp_X (cm_cp s)))) Hsvd HK HK1 HN s H Hu Hp) as (s1 & E1 & H1 & HS1 & Hle1).
  { apply Forall_forall. intros m Hm. apply in_seq in Hm. unfold ndim in Hm. lia. }
  destruct (@update_uncoupled_ok env K ms s1 H1 HN) as (s2 & E2 & Hcp & HS2 & H2 & Hopt); auto.
  { apply (unconstrained_same (sc_cp HS1)) in Hu. destruct Hu as (l1 & l2 & En & Eo & Hfl). exists l1. split; auto.
    intros m Hm. rewrite (sp_X (sc_cp HS1)) in Hm. now destruct (Hfl m Hm). }
  exists s2. unfold cmtf_update_factors. rewrite E1. split; auto. split; auto. split; [eapply same_coupled_trans; eauto|].
  eapply Rle_trans; [|exact Hle1].
  assert (Ef : cm_fms s2 = cm_fms s1) by (unfold cm_fms, cm_dec; now rewrite Hcp).
  unfold pl, penalised_loss, coupled_loss. rewrite Ef, Hcp, (sc_Y HS2). apply Rplus_le_compat_r, Rplus_le_compat_l.
  unfold mats_sse. apply sum_le. intros i Hi. now apply Hopt.
Qed.

Lemma penalised_iterations env cs K ms lam : svd_works_rows K (env_svd env) -> cs_rank cs = K -> (1 <= K)%nat -> NoDup ms ->
  forall s, cm_ok K ms s -> unconstrained (cp_X (cm_cp s)) (cp_nn (cm_cp s)) (cp_orth (cm_cp s)) ->
  penalties (cs_ridge cs) (cp_X (cm_cp s)) ms lam -> forall n,
  let s1 := state_after (cmtf_model env cs) s n in let s2 := state_after (cmtf_model env cs) s (S n) in
  snd (cmtf_update_factors env cs s1) = None /\ cm_ok K ms s1 /\ same_coupled s s1 /\ pl lam K ms s2 <= pl lam K ms s1.
Proof.
  intros Hsvd HK HK1 HN s H Hu Hp.
  assert (Hinv : forall n, cm_ok K ms (state_after (cmtf_model env cs) s n) /\
                           same_coupled s (state_after (cmtf_model env cs) s n)).
  { induction n as [|n [IH1 IH2]]; [split; [auto|apply same_coupled_refl]|].
    cbn [state_after md_update cmtf_model].
    destruct (@penalised_iteration env cs K ms lam Hsvd HK HK1 HN _ IH1) as (s' & E & HC & HS & _).
    { rewrite (sp_X (sc_cp IH2)). now apply (unconstrained_same (sc_cp IH2)). } { now rewrite (sp_X (sc_cp IH2)). }
    rewrite E. cbn [fst]. split; auto. eapply same_coupled_trans; eauto. }
  intros n s1 s2. destruct (Hinv n) as [H1 H2].
  destruct (@penalised_iteration env cs K ms lam Hsvd HK HK1 HN _ H1) as (s' & E & HC & HS & Hle).
  { rewrite (sp_X (sc_cp H2)). now apply (unconstrained_same (sc_cp H2)). } { now rewrite (sp_X (sc_cp H2)). }
  assert (E2 : s2 = s').
  { unfold s2. cbn [state_after md_update cmtf_model]. now rewrite E. }
  fold s1 in E. rewrite E. cbn [snd]. rewrite E2. auto.
Qed.
