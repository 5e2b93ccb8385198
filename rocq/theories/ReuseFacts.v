(** Parafac2_ALS objects used again, and starts given by the caller (C97). *)
From Verif Require Export ReuseSpec Parafac2Resume.
From Verif Require Import Prelude Lin.
Set Implicit Arguments.
Unset Strict Implicit.
Local Open Scope R_scope.

(** Changing what the shape of a state does not depend on *)
Lemma object_state K nI Xs h r s : p2_heap s = h -> p2_X s = Xs -> p2_ref s = r ->
  (p2_ok K nI s <-> object_fits K nI Xs h r).
Proof.
  intros <- <- <-. unfold object_fits. split; intros []; constructor; auto.
Qed.

Section Reuse.
Variables (env : p2_env) (ps : p2_settings) (K nI : nat).
Let md := p2_model env ps.

(** *** Fits of decomposers that have been used before *)
Lemma twin_fits cf cf' dsA dsB d1 d2 : ps_rank ps = K -> no_orth ps -> (0 < nI)%nat -> (0 < K)%nat ->
  p2_ok K nI (ds_num dsA) -> p2_ok K nI (ds_num dsB) -> (0 < length (p2_X (ds_num dsA)))%nat -> agree (ds_num dsA) (ds_num dsB) ->
  ds_it dsA = ds_it dsB -> ds_max dsA = ds_max dsB -> ds_prev dsA = ds_prev dsB -> ds_rel dsA = ds_rel dsB -> cf_tol cf = cf_tol cf' ->
  pf_fit_loop md cf dsA = (d1, None) -> pf_fit_loop md cf' dsB = (d2, None) ->
  same_arrays (ds_num d1) (ds_num d2) /\ ds_it d1 = ds_it d2 /\ ds_prev d1 = ds_prev d2 /\ ds_rel d1 = ds_rel d2.
Proof.
  intros HK HO HnI HK0 HA HB HX HG Ei Em Ep Er Et E1 E2.
  destruct (prepare_ready env HK HO HnI HK0 HA HX) as (a0 & Ea & Ra & Aa & _).
  destruct (prepare_ready env HK HO HnI HK0 HB) as (b0 & Eb & Rb & Ab & _); [now rewrite <- (proj1 HG)|].
  assert (HT : twin ps K nI a0 b0).
  { split; [exact Ra|]. split; [exact Rb|]. destruct HG as [G1 G2], Aa as [A1 A2], Ab as [B1 B2]. split; congruence. }
  destruct (@pf_fit_end env ps cf dsA d1 a0 Ea E1) as (n1 & L1 & N1 & S1 & T1 & I1 & P1 & R1).
  destruct (@pf_fit_end env ps cf' dsB d2 b0 Eb E2) as (n2 & L2 & N2 & S2 & T2 & I2 & P2 & R2).
  assert (Eloss : forall j, loss_at md a0 j = loss_at md b0 j).
  { intros j. unfold loss_at. exact (twin_loss env (twin_after env HK j HT)). }
  assert (Eprev : forall j, prev_at md (ds_prev dsA) a0 j = prev_at md (ds_prev dsB) b0 j).
  { intros [|j]; cbn [prev_at]; [now rewrite Ep|now rewrite Eloss]. }
  assert (Erel : forall j, rel_at md (ds_prev dsA) (ds_rel dsA) a0 j = rel_at md (ds_prev dsB) (ds_rel dsB) b0 j).
  { intros [|j]; cbn [rel_at]; [now rewrite Er|]. now rewrite Eloss, Eprev. }
  assert (Estop : forall j, pf_stops md cf (ds_prev dsA) (ds_rel dsA) a0 j = pf_stops md cf' (ds_prev dsB) (ds_rel dsB) b0 j).
  { intros j. unfold pf_stops. now rewrite Erel, Et. }
  assert (n1 = n2) as <-.
  { rewrite <- Ei, <- Em in L2, T2.
    refine (@first_stop ps K nI HK HnI HK0 (pf_stops md cf (ds_prev dsA) (ds_rel dsA) a0) _ n1 n2 L1 S1 T1 L2 _ _).
    - intros k Hk. rewrite Estop. auto.
    - destruct T2 as [T2|T2]; [now left|right]. now rewrite Estop. }
  split; [|split; [congruence|split]].
  - rewrite N1, N2. apply agree_iff. apply (twin_after env HK n1 HT).
  - fold md in P1, P2. rewrite Eprev, P2 in P1. congruence.
  - fold md in R1, R2. rewrite Erel, R2 in R1. congruence.
Qed.

Lemma init_loss disk draws X max_its arg ds d : p2_init_fit env ps disk draws X max_its arg ds = (d, None) ->
  exists l, p2_loss ps (ds_num d) = Ok l /\ ds_prev d = Fin l.
Proof.
  unfold p2_init_fit. destruct (p2_set_target _ _) as [s'|]; [|discriminate].
  destruct (p2_init_components _ _ _ _ _ _) as [d' [e|]]; [discriminate|].
  destruct (p2_loss ps (ds_num _)) as [l|] eqn:EL; [|discriminate]. intros E. injection E as <-. exists l. split; [exact EL|reflexivity].
Qed.

Theorem refit cf cf' disk disk' draws Xs max_its arg arg' ds ds' d1 d2 : drawn_start env ps K nI draws Xs ->
  cf_tol cf = cf_tol cf' -> max_its <> None \/ ds_max ds = ds_max ds' ->
  p2_fit env ps cf disk draws (Slices Xs) max_its arg ds = (d1, None) ->
  p2_fit env ps cf' disk' draws (Slices Xs) max_its arg' ds' = (d2, None) ->
  same_arrays (ds_num d1) (ds_num d2) /\ ds_it d1 = ds_it d2 /\ ds_prev d1 = ds_prev d2 /\ ds_rel d1 = ds_rel d2.
Proof.
  intros HD Ht Hm. pose proof HD as [Hi HO HK [HnI HK0] HX _ _ _].
  assert (HnX : (0 < length Xs)%nat) by (destruct HX as [Hne _]; destruct Xs; [congruence|cbn; lia]).
  destruct (@drawn_begins env ps K nI disk draws Xs arg ds HD) as (s1 & l1 & Hok1 & _ & EX1 & (t1 & U1 & V1) & EI1).
  destruct (@drawn_begins env ps K nI disk' draws Xs arg' ds' HD) as (s2 & l2 & Hok2 & _ & EX2 & (t2 & U2 & V2) & EI2).
  pose proof (drawn_agree V1 V2 (eq_trans U1 (eq_sym U2))) as HG.
  assert (El : p2_loss ps s1 = p2_loss ps s2).
  { destruct (proj1 (agree_iff s1 s2) HG) as [E1 E2 E3 E4 E5].
    pose proof (p2_loss_ok ps Hok1) as L1. pose proof (p2_loss_ok ps Hok2) as L2.
    rewrite L1, L2. now rewrite E1, E2, E3, E4, E5. }
  pose proof (EI1 max_its) as B1. pose proof (EI2 max_its) as B2.
  assert (l1 = l2) as <-.
  { apply init_loss in B1 as (k1 & L1 & P1). apply init_loss in B2 as (k2 & L2 & P2). cbn in L1, L2, P1, P2. congruence. }
  unfold p2_fit. rewrite B1, B2. intros F1 F2.
  assert (HXl : (0 < length (p2_X s1))%nat) by now rewrite EX1.
  assert (Em : match max_its with Some m => m | None => ds_max ds end = match max_its with Some m => m | None => ds_max ds' end).
  { destruct max_its; auto. destruct Hm as [Hm|Hm]; [congruence|exact Hm]. }
  refine (@twin_fits cf cf' _ _ d1 d2 HK HO HnI HK0 _ _ _ _ _ _ _ _ Ht F1 F2); auto.
Qed.

(** *** A start given by the caller *)
Lemma given_begins h r Xs disk draws ds : given_start ps K nI Xs h r -> p2_heap (ds_num ds) = h ->
  exists s1 l, p2_ok K nI s1 /\ p2_X s1 = Xs /\ p2_heap s1 = h /\ p2_ref s1 = r /\ forall max_its,
    p2_init_fit env ps disk draws (Slices Xs) max_its (P2Dec r) ds =
    (start s1 (Fin l) 0 (match max_its with Some m => m | None => ds_max ds end) (ds_logs ds) (ds_file ds), None).
Proof.
  intros [Hi HO HK [HnI HK0] HX HR] Eh. destruct (@set_slices nI Xs (ds_num ds) HX) as (sB & ET & EXB).
  assert (EhB : p2_heap sB = h).
  { unfold p2_set_target in ET. cbn [bind] in ET. destruct (p2_X_shape Xs); [|discriminate]. injection ET as <-. exact Eh. }
  set (s1 := p2_with_ref r sB).
  assert (Hok : p2_ok K nI s1) by (apply (@object_state K nI Xs h r s1); auto).
  assert (HnX : (0 < length (p2_X s1))%nat) by (cbn; rewrite EXB; destruct HX as [Hne _]; destruct Xs; [congruence|cbn; lia]).
  destruct (p2_mats Hok) as (HM & _ & _).
  exists s1, (match p2_loss ps s1 with Ok l => l | Err _ => 0 end).
  split; [exact Hok|]. split; [exact EXB|]. split; [exact EhB|]. split; [reflexivity|]. intros max_its.
  unfold p2_init_fit. cbn [ds_num with_it]. rewrite ET. unfold p2_init_components. rewrite Hi. cbn [String.eqb Ascii.eqb Bool.eqb].
  cbn [ds_num with_num]. fold s1. rewrite (projected_factor_ok (ok_B Hok) HM). cbn [bind].
  rewrite (@value_checked ps K nI HK HnI HK0 s1 sB Hok) by auto. cbn [bind].
  destruct max_its as [m|]; cbn [ds_num with_num with_max]; rewrite (p2_loss_ok ps Hok); reflexivity.
Qed.

Lemma flags_off i : no_orth ps -> nth i (orth_flags ps) false = false.
Proof. unfold orth_flags. intros [-> | ->]; [now destruct i|]. now destruct i as [|[|[|[|i]]]]. Qed.

Theorem start_overwritten cf disk draws Xs max_its r ds d1 : given_start ps K nI Xs (p2_heap (ds_num ds)) r ->
  p2_fit env ps cf disk draws (Slices Xs) max_its (P2Dec r) ds = (d1, None) ->
  p2_ref (ds_num d1) = r /\ object_fits K nI Xs (p2_heap (ds_num d1)) r /\
  forall a, (a < length (p2_heap (ds_num ds)))%nat -> ~ In a (arrays_of r) ->
    hread (p2_heap (ds_num d1)) a = hread (p2_heap (ds_num ds)) a.
Proof.
  intros HG. pose proof HG as [Hi HO HK [HnI HK0] HX _].
  destruct (@given_begins _ r Xs disk draws ds HG eq_refl) as (s1 & l & Hok & EX & Eh & Er & EI).
  assert (HnX : (0 < length (p2_X s1))%nat) by (rewrite EX; destruct HX as [Hne _]; destruct Xs; [congruence|cbn; lia]).
  unfold p2_fit. rewrite EI. intros E.
  destruct (prepare_ready env HK HO HnI HK0 Hok HnX) as (s0 & Es0 & HRd & HA0 & Er0).
  destruct (@pf_fit_end env ps cf (start s1 (Fin l) 0 _ _ _) d1 s0 Es0 E) as (n & _ & En & _).
  destruct (prepare_links Es0) as (_ & _ & (t & Et) & a & b & c & Ec & La & Lb & Lc). unfold mode_link in La, Lb, Lc.
  rewrite flags_off in La, Lb, Lc by exact HO. subst a b c.
  pose proof (after_frame env ps s0 n) as HF. fold md in HF.
  assert (E1 : p2_ref (ds_num d1) = r) by (rewrite En; transitivity (p2_ref s0); [apply HF|congruence]).
  split; [exact E1|]. split.
  - apply (@object_state K nI Xs _ r (ds_num d1)); auto.
    + rewrite En. transitivity (p2_X s0); [apply HF|]. now rewrite (proj1 HA0).
    + rewrite En. apply (rd_ok (ready_after env HK n HRd)).
  - intros a Ha Hn. rewrite En. transitivity (hread (p2_heap s0) a).
    + apply HF. unfold writes. rewrite Ec, Er0, Er. unfold arrays_of in Hn. cbn [In] in Hn. rewrite !in_app_iff. cbn [In]. tauto.
    + rewrite Et, Eh. now apply hread_app.
Qed.

Theorem same_start_again cf cf' cf'' disk draws Xs n m r ds dsB d1 d2 d3 : given_start ps K nI Xs (p2_heap (ds_num ds)) r ->
  (0 <= n)%Z -> (0 <= m)%Z ->
  p2_fit env ps cf disk draws (Slices Xs) (Some n) (P2Dec r) ds = (d1, None) -> ds_it d1 = n ->
  p2_heap (ds_num dsB) = p2_heap (ds_num d1) ->
  p2_fit env ps cf' disk draws (Slices Xs) (Some m) (P2Dec r) dsB = (d2, None) -> ds_it d2 = m ->
  p2_fit env ps cf'' disk draws (Slices Xs) (Some (n + m)%Z) (P2Dec r) ds = (d3, None) -> ds_it d3 = (n + m)%Z ->
  same_arrays (ds_num d2) (ds_num d3).
Proof.
  intros HG Hn Hm E1 I1 EhB E2 I2 E3 I3. pose proof HG as [Hi HO HK [HnI HK0] HX _].
  destruct (start_overwritten HG E1) as (Er1 & HO1 & _).
  assert (HGB : given_start ps K nI Xs (p2_heap (ds_num dsB)) r) by (constructor; auto; now rewrite EhB).
  destruct (@given_begins _ r Xs disk draws ds HG eq_refl) as (s1 & l & Hok & EX & Eh & Er & EI).
  destruct (@given_begins _ r Xs disk draws dsB HGB eq_refl) as (sB & lB & HokB & EXB & EhB' & ErB & EIB).
  assert (HnX : (0 < length (p2_X s1))%nat) by (rewrite EX; destruct HX as [Hne _]; destruct Xs; [congruence|cbn; lia]).
  unfold p2_fit in E1, E2, E3. rewrite EI in E1, E3. rewrite EIB in E2.
  destruct (prepare_ready env HK HO HnI HK0 Hok HnX) as (s0 & Es0 & HRd & HA0 & Er0).
  destruct (@pf_fit_end env ps cf (start s1 (Fin l) 0 _ _ _) d1 s0 Es0 E1) as (u & _ & En & _ & _ & Iu & _).
  cbn [start with_conv with_max with_it ds_it] in Iu.
  pose proof (after_frame env ps s0 u) as HF. fold md in HF, En.
  refine (@resume_loop env ps K nI HK HO HnI HK0 cf'' cf' (start s1 (Fin l) 0 _ _ _) (start sB (Fin lB) 0 _ _ _) s0 u d2 d3 Hok HnX Es0 HokB _ _ _ _ E2 _ E3 _);
    cbn [start with_conv with_max with_it ds_it ds_max ds_num]; try lia.
  fold md. rewrite <- En. split; [rewrite EXB; rewrite En; symmetry; transitivity (p2_X s0); [apply HF|]; rewrite (proj1 HA0); exact EX|].
  unfold vals, addresses. rewrite ErB, EhB', EhB, Er1. reflexivity.
Qed.

Theorem given_completes cf disk draws Xs max_its r ds : let budget := match max_its with Some m => m | None => ds_max ds end in
  plain_given env ps K nI Xs (p2_heap (ds_num ds)) r -> plain_run ps cf budget ds ->
  exists d1, p2_fit env ps cf disk draws (Slices Xs) max_its (P2Dec r) ds = (d1, None) /\ (cf_tol cf <= 0 -> ds_it d1 = budget) /\
    (forall lg, In lg (ds_logs d1) -> exists k, p2_code_logger ps k lg).
Proof.
  intros budget [HG [F1 F2 F3 F4] Hnn Hrd Hsvd HW] [Hb Hlg Hpr Hck]. pose proof HG as [Hi HO HK [HnI HK0] HX _].
  destruct (@given_begins _ r Xs disk draws ds HG eq_refl) as (s1 & l & Hok & EX & Eh & Er & EI).
  assert (HnX : (0 < length (p2_X s1))%nat) by (rewrite EX; destruct HX as [Hne _]; destruct Xs; [congruence|cbn; lia]).
  assert (HU : unconstrained ps) by (split; auto).
  assert (HFs : ref_fits K nI s1) by (constructor; rewrite ?Er, ?EX; auto).
  destruct (@loop_completes env ps K nI cf (start s1 (Fin l) 0 budget (ds_logs ds) (ds_file ds)) Hok HFs)
    as (d1 & s0 & n1 & E1 & EP & En & Eit & Hle & Hst & _);
    cbn [start ds_it ds_max ds_num ds_logs ds_prev ds_rel] in *; rewrite ?EX; auto; try lia.
  { now rewrite EX in HnX. }
  { replace (Z.max 0 budget) with budget by lia. exact Hck. }
  exists d1. split; [unfold p2_fit; rewrite EI; exact E1|]. split.
  - intros Ht. destruct Hst as [Hst|Hst]; [lia|]. exfalso. revert Hst. now apply never_stops.
  - pose proof (@pf_fit_logs _ _ md cf (start s1 (Fin l) 0 budget (ds_logs ds) (ds_file ds)) d1 s0 EP E1) as HL.
    exact (kept_loggers HL Hlg).
Qed.
End Reuse.

Theorem refit_completes env ps K nI cf cf' disk disk' draws Xs m arg arg' ds : plain_fit env ps K nI draws Xs -> wide K Xs ->
  plain_run ps cf m ds -> cf_tol cf = cf_tol cf' -> (cf_freq cf' < 0)%Z -> cf_print cf' <> 0%Z ->
  exists d1 d2, p2_fit env ps cf disk draws (Slices Xs) (Some m) arg ds = (d1, None) /\
    p2_fit env ps cf' disk' draws (Slices Xs) (Some m) arg' d1 = (d2, None) /\
    same_arrays (ds_num d1) (ds_num d2) /\ ds_it d1 = ds_it d2 /\ ds_prev d1 = ds_prev d2 /\ ds_rel d1 = ds_rel d2.
Proof.
  intros HF HWd HR Ht Hf Hp. pose proof (plain_drawn HF HWd) as HD. pose proof HF as [Hi Hnn Ho Hr Hrd [HnI HK] HX HDr Hqr Hsvd HW].
  assert (HU : unconstrained ps) by (split; auto).
  destruct (@plain_completes env ps K nI cf disk draws Xs (Some m) arg ds HF HR HWd) as (d1 & _ & _ & E1 & _).
  destruct (@drawn_begins env ps K nI disk draws Xs arg ds HD) as (s1 & l & Hok & HFs & EX & _ & EI).
  pose proof E1 as E1'. unfold p2_fit in E1'. rewrite EI in E1'.
  assert (HnX : (0 < length (p2_X s1))%nat) by (rewrite EX; destruct HX as [Hne _]; destruct Xs; [congruence|cbn; lia]).
  destruct (prepare_ready env Hr Ho HnI HK Hok HnX) as (s0 & Es0 & _).
  pose proof (@pf_fit_logs _ _ (p2_model env ps) cf (start s1 (Fin l) 0 _ _ _) d1 s0 Es0 E1') as HL.
  assert (HR2 : plain_run ps cf' m d1).
  { destruct HR as [R1 R2 R3 R4]. constructor; auto; [exact (kept_loggers HL R2)|now left]. }
  destruct (@plain_completes env ps K nI cf' disk' draws Xs (Some m) arg' d1 HF HR2 HWd) as (d2 & _ & _ & E2 & _).
  exists d1, d2. split; [exact E1|]. split; [exact E2|].
  refine (refit HD Ht _ E1 E2). left. discriminate.
Qed.

Theorem same_start_completes env ps K nI cf cf' cf'' disk draws Xs n m r ds : plain_given env ps K nI Xs (p2_heap (ds_num ds)) r ->
  plain_run ps cf n ds -> plain_run ps cf'' (n + m)%Z ds -> (0 < m)%Z -> (cf_freq cf' < 0)%Z -> cf_print cf' <> 0%Z ->
  cf_tol cf <= 0 -> cf_tol cf' <= 0 -> cf_tol cf'' <= 0 ->
  exists d1 d2 d3, p2_fit env ps cf disk draws (Slices Xs) (Some n) (P2Dec r) ds = (d1, None) /\
    p2_fit env ps cf' disk draws (Slices Xs) (Some m) (P2Dec r) d1 = (d2, None) /\
    p2_fit env ps cf'' disk draws (Slices Xs) (Some (n + m)%Z) (P2Dec r) ds = (d3, None) /\
    same_arrays (ds_num d2) (ds_num d3) /\ ds_it d1 = n /\ ds_it d2 = m /\ ds_it d3 = (n + m)%Z.
Proof.
  intros HG R1 R3 Hm Hf Hp T1 T2 T3.
  destruct (@given_completes env ps K nI cf disk draws Xs (Some n) r ds HG R1) as (d1 & E1 & I1 & L1).
  destruct (@given_completes env ps K nI cf'' disk draws Xs (Some (n + m)%Z) r ds HG R3) as (d3 & E3 & I3 & _).
  destruct (start_overwritten (pg_start HG) E1) as (Er & HO & _).
  assert (HG1 : plain_given env ps K nI Xs (p2_heap (ds_num d1)) r).
  { destruct HG as [[] ? ? ? ? ?]. constructor; auto. constructor; auto. }
  assert (R2 : plain_run ps cf' m d1) by (constructor; auto; now left).
  destruct (@given_completes env ps K nI cf' disk draws Xs (Some m) r d1 HG1 R2) as (d2 & E2 & I2 & _).
  cbn in I1, I2, I3. exists d1, d2, d3. repeat (split; [assumption|]).
  split; [|auto]. pose proof (pn_budget R1).
  refine (@same_start_again env ps K nI cf cf' cf'' disk draws Xs n m r ds d1 d1 d2 d3 (pg_start HG) _ _ E1 (I1 T1) eq_refl E2 (I2 T2) E3 (I3 T3)); lia.
Qed.

(** *** A projection that changes *)
Lemma zero_projection env ps K nI cf disk draws Xs r ds k : plain_given env ps K nI Xs (p2_heap (ds_num ds)) r ->
  plain_run ps cf 1 ds -> cf_tol cf <= 0 -> (k < length Xs)%nat -> zero_slice nI Xs k ->
  exists d1, p2_fit env ps cf disk draws (Slices Xs) (Some 1%Z) (P2Dec r) ds = (d1, None) /\
    hread (p2_heap (ds_num d1)) (nth k (pr_P r) 0%nat) = np_zeros [width Xs k; K].
Proof.
  intros HG HR Ht Hk Hz. destruct (@given_completes env ps K nI cf disk draws Xs (Some 1%Z) r ds HG HR) as (d1 & E1 & I1 & _).
  exists d1. split; [exact E1|]. destruct (start_overwritten (pg_start HG) E1) as (Er1 & _). specialize (I1 Ht). cbn in I1.
  destruct HG as [HG _ Hnn Hrd Hsvd HW]. pose proof HG as [Hi HO HK [HnI HK0] HX _].
  destruct (@given_begins env ps K nI _ r Xs disk draws ds HG eq_refl) as (s1 & l & Hok & EX & Eh & Er & EI).
  assert (HnX : (0 < length (p2_X s1))%nat) by (rewrite EX; lia).
  assert (HU : unconstrained ps) by (split; auto).
  unfold p2_fit in E1. rewrite EI in E1.
  destruct (prepare_ok env Hok HU HK HnI HK0 HnX) as (c & EP & HL).
  set (s0 := p2_with_inner c (p2_with_cpf [pr_A (p2_ref s1); pr_B (p2_ref s1); pr_C (p2_ref s1)] s1)) in *.
  assert (H0 : p2_ok K nI s0) by (destruct Hok; constructor; auto).
  destruct (@pf_fit_end env ps cf (start s1 (Fin l) 0 _ _ _) d1 s0 EP E1) as (u & _ & En & _ & _ & Iu & _).
  cbn in Iu. assert (u = 1%nat) as -> by lia.
  assert (EX0 : p2_X s0 = Xs) by exact EX.
  destruct (@run_safe env ps K nI s0 H0 HL) with (n := 0%nat) as (_ & _ & _ & _ & _ & _ & HP & _); rewrite ?EX0; auto.
  { lia. }
  specialize (HP k). rewrite EX0, <- En in HP. destruct (HP Hk) as [_ _ _ Z1 _]. cbn [state_after] in Z1.
  rewrite EX0 in Z1. specialize (Z1 Hz). rewrite <- Z1. unfold p2_Ps. rewrite Er1.
  rewrite (nth_indep _ m0 (hread (p2_heap (ds_num d1)) 0%nat)); [now rewrite map_nth|].
  rewrite map_length. rewrite <- Er. destruct Hok as [_ _ _ _ _ H6 _ _ _]. rewrite EX in H6. now rewrite H6.
Qed.
