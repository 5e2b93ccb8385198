(** Where Parafac2_ALS stands still: lemmas for C102. *)
From Verif Require Export P2FixSpec FixFacts RelocateFacts.
From Verif Require Import Prelude Lin.
Set Implicit Arguments.
Unset Strict Implicit.
Local Open Scope R_scope.

Section Inner.
Variables (env : p2_env) (ps : p2_settings) (K nI : nat).
Notation cenv := (pe_cp env).
Notation svd := (env_svd cenv).
Notation ics := (inner_settings ps).
Hypothesis (HK : ps_rank ps = K) (HnI : (0 < nI)%nat) (HK0 : (0 < K)%nat).
Hypothesis (HS : svd_contract svd) (HN : nnls_contract (env_nnls cenv)) (HU : plain_settings ps).
Notation busy := (busy ps K nI).
Let md := p2_model env ps.

Lemma no_penalties : p2_penalties ps.
Proof. unfold p2_penalties. now rewrite (proj2 HU). Qed.
Lemma plain_inner PX s : busy PX s -> free_fit ics (forget (p2_view s)).
Proof.
  intros HB m Hm. assert (H3 : (m < 3)%nat) by (change (cp_X (forget (p2_view s))) with (cp_X (p2_inner s)) in Hm; rewrite (bs_X HB), (bs_shape HB) in Hm; exact Hm).
  assert (E : nth_error [false; false; false] m = Some false) by (destruct m as [|[|[|m]]]; try reflexivity; lia).
  split; [exact (proj2 HU)|]. split.
  - exists (ps_nn ps). split; [apply (rd_nn (bs_ready HB))|]. rewrite (proj1 HU). exact E.
  - exists [false; false; false]. split; [apply (rd_orth (bs_ready HB))|exact E].
Qed.
Lemma busy_factors PX s : busy PX s -> factors_ok K PX (p2_factors s).
Proof.
  intros HB. pose proof (co_fac (busy_coherent HB)) as H. rewrite (inner_fms HB) in H.
  change (cp_X (forget (p2_view s))) with (cp_X (p2_inner s)) in H. now rewrite (bs_X HB) in H.
Qed.

(** One factor update replaces the factor by the smallest of the best matrices. *)
Lemma step_least PX u m : busy PX u -> (m < 3)%nat -> exists u' Z, p2_cp_update env ps u m = (u', None) /\ busy PX u' /\
  p2_X u' = p2_X u /\ p2_Ps u' = p2_Ps u /\ p2_factors u' = with_factor m Z (p2_factors u) /\ least_best K PX (p2_factors u) m Z.
Proof.
  intros HB Hm.
  destruct (penalty_of HK HnI HK0 no_penalties Hm) as (lam & Hpen & Hl).
  assert (Ef : nth_error (ps_nn ps) m = Some false) by (rewrite (proj1 HU); destruct m as [|[|[|m]]]; try reflexivity; lia).
  destruct (@cp_step env ps K nI HK HnI HK0 HS HN PX u m false lam HB Hm Ef Hpen Hl) as (u' & Eu & Bu' & Xu & _ & Ou & Fu & Pu).
  destruct (@update_least cenv ics K (forget (p2_view u)) m (busy_coherent HB) HK) as (t & Z & Et & Ft & _ & _ & HL).
  { change (cp_X (forget (p2_view u))) with (cp_X (p2_inner u)). rewrite (bs_X HB), (bs_shape HB). exact Hm. }
  { apply (plain_inner HB). change (cp_X (forget (p2_view u))) with (cp_X (p2_inner u)). rewrite (bs_X HB), (bs_shape HB). exact Hm. }
  { intros A HA. apply (HS HA). }
  apply update_forget in Et. rewrite Et in Fu. cbn [fst] in Fu. rewrite Ft, (inner_fms HB) in Fu.
  change (cp_X (forget (p2_view u))) with (cp_X (p2_inner u)) in HL. rewrite (bs_X HB), (inner_fms HB) in HL.
  exists u', Z. split; [exact Eu|]. split; [exact Bu'|]. split; [exact Xu|]. split; [exact Pu|]. split; [|exact HL].
  unfold with_factor in Fu. unfold p2_factors, with_factor.
  pose proof (Ou 0%nat) as O0. pose proof (Ou 1%nat) as O1. pose proof (Ou 2%nat) as O2. unfold p2_factor in *.
  destruct m as [|[|[|m]]]; [| | |lia]; cbn [nth replace_at] in *.
  - rewrite O1, O2 by lia. congruence.
  - rewrite O0, O2 by lia. congruence.
  - rewrite O0, O1 by lia. congruence.
Qed.

(** Total size of the factors *)
Definition size (n : nat) (Fs : list nd) : R := sum 3 (fun m => frob2 (nth m [nI; K; n] 0%nat) K (mget (nth m Fs m0))).
Lemma size_with n m Z Fs : (m < 3)%nat -> length Fs = 3%nat ->
  size n (with_factor m Z Fs) = size n Fs - frob2 (nth m [nI; K; n] 0%nat) K (mget (nth m Fs m0)) + frob2 (nth m [nI; K; n] 0%nat) K (mget Z).
Proof.
  intros Hm HL. destruct Fs as [|F0 [|F1 [|F2 [|]]]]; try discriminate HL. unfold size, with_factor.
  destruct m as [|[|[|m]]]; [| | |lia]; cbn [replace_at nth seq sumf map fold_right]; unfold sumf; cbn [map fold_right nth]; ring.
Qed.

(** Either the error or, with equal error, the size of the factors goes down, or nothing changes. *)
Lemma step_potential PX u m : busy PX u -> (m < 3)%nat -> exists u', p2_cp_update env ps u m = (u', None) /\ busy PX u' /\
  p2_X u' = p2_X u /\ p2_Ps u' = p2_Ps u /\
  (forall W, is_mat (nth m (shape PX) 0%nat) K W -> sse PX (p2_factors u') unit_weights K <= sse PX (with_factor m W (p2_factors u)) unit_weights K) /\
  (sse PX (p2_factors u') unit_weights K < sse PX (p2_factors u) unit_weights K \/
   (sse PX (p2_factors u') unit_weights K = sse PX (p2_factors u) unit_weights K /\ size (length (p2_X u)) (p2_factors u') < size (length (p2_X u)) (p2_factors u)) \/
   (p2_factors u' = p2_factors u /\ smallest_best K PX (p2_factors u) m)).
Proof.
  intros HB Hm. destruct (step_least HB Hm) as (u' & Z & E & B' & X' & P' & F' & HL).
  exists u'. split; [exact E|]. split; [exact B'|]. split; [exact X'|]. split; [exact P'|]. rewrite F'.
  pose proof HL as (HZ & H1 & H2). split; [exact H1|]. pose proof (busy_factors HB) as HF. pose proof (proj2 HF) as Hr.
  assert (Hm' : (m < length (shape PX))%nat) by (rewrite (bs_shape HB); exact Hm).
  assert (EN : nth m (shape PX) 0%nat = nth m [nI; K; length (p2_X u)] 0%nat) by (now rewrite (bs_shape HB)).
  assert (HU' : is_mat (nth m (shape PX) 0%nat) K (nth m (p2_factors u) m0)).
  { rewrite <- Hr, nth_rows. apply (proj1 (Forall_forall _ _) (proj1 HF)). apply nth_In. exact Hm. }
  assert (ES : with_factor m (nth m (p2_factors u) m0) (p2_factors u) = p2_factors u) by (apply with_factor_self; exact Hm).
  pose proof (H1 _ HU') as H3. rewrite ES in H3.
  destruct (Rle_lt_or_eq_dec _ _ H3) as [Hlt|Heq]; [now left|]. right.
  assert (H4 : frob2 (nth m (shape PX) 0%nat) K (mget Z) <= frob2 (nth m (shape PX) 0%nat) K (mget (nth m (p2_factors u) m0))).
  { apply (H2 _ HU'). rewrite ES. lra. }
  destruct (Rle_lt_or_eq_dec _ _ H4) as [Hlt|Heq'].
  - left. split; [exact Heq|]. rewrite (size_with _ Z Hm) by reflexivity. rewrite EN in Hlt. lra.
  - right. assert (HB' : least_best K PX (p2_factors u) m (nth m (p2_factors u) m0)).
    { split; [exact HU'|]. rewrite ES. split; [intros W HW; rewrite <- Heq; now apply H1|]. intros W HW HWs. rewrite <- Heq'. apply H2; auto. rewrite Heq. exact HWs. }
    split; [rewrite (least_unique Hr Hm' HL HB'); exact ES|]. now apply smallest_least.
Qed.

(** The same for sequences of updates *)
Definition lower_or_still (PX : nd) (l : list nat) (u v : p2_state) : Prop :=
  sse PX (p2_factors v) unit_weights K < sse PX (p2_factors u) unit_weights K \/
  (sse PX (p2_factors v) unit_weights K = sse PX (p2_factors u) unit_weights K /\ size (length (p2_X u)) (p2_factors v) < size (length (p2_X u)) (p2_factors u)) \/
  (p2_factors v = p2_factors u /\ forall m, In m l -> smallest_best K PX (p2_factors u) m).
Lemma lower_le PX l u v : lower_or_still PX l u v -> sse PX (p2_factors v) unit_weights K <= sse PX (p2_factors u) unit_weights K.
Proof. intros [H|[[H _]|[H _]]]; [lra|lra|rewrite H; lra]. Qed.
Lemma lower_trans PX l l' u v w : p2_X v = p2_X u -> lower_or_still PX l u v -> lower_or_still PX l' v w -> lower_or_still PX (l ++ l') u w.
Proof.
  intros EX H1 H2. pose proof (lower_le H1) as L1. pose proof (lower_le H2) as L2. unfold lower_or_still in *. rewrite EX in H2.
  destruct H1 as [H1|[[H1 S1]|[H1 B1]]]; [left; lra| |].
  - destruct H2 as [H2|[[H2 S2]|[H2 B2]]]; [left; lra|right; left; split; lra|]. right. left. rewrite H2. split; lra.
  - rewrite H1 in H2. destruct H2 as [H2|[[H2 S2]|[H2 B2]]]; [left; lra|right; left; split; lra|]. right. right. split; [congruence|].
    intros m Hm. apply in_app_or in Hm as [Hm|Hm]; auto.
Qed.
Lemma modes_potential PX l : forall u, busy PX u -> Forall (fun m => (m < 3)%nat) l -> exists u', run_all (p2_cp_update env ps) l u = (u', None) /\ busy PX u' /\
  p2_X u' = p2_X u /\ p2_Ps u' = p2_Ps u /\ lower_or_still PX l u u'.
Proof.
  induction l as [|m l IH]; intros u HB Hl; cbn [run_all].
  - exists u. split; [reflexivity|]. split; [exact HB|]. split; [reflexivity|]. split; [reflexivity|]. right. right. split; [reflexivity|intros m []].
  - apply Forall_cons_iff in Hl as [Hm Hl']. destruct (step_potential HB Hm) as (u1 & -> & B1 & X1 & P1 & _ & H1).
    destruct (IH u1 B1 Hl') as (u2 & -> & B2 & X2 & P2 & H2). exists u2. split; [reflexivity|]. split; [exact B2|]. split; [congruence|]. split; [congruence|].
    apply (@lower_trans PX [m] l u u1 u2 X1); [|exact H2]. destruct H1 as [H1|[H1|[H1 H1']]]; [now left|right; now left|right; right].
    split; [exact H1|]. intros n [<-|[]]. exact H1'.
Qed.
Lemma sweep_potential PX u : busy PX u -> exists u', p2_cp_sweep env ps u = (u', None) /\ busy PX u' /\
  p2_X u' = p2_X u /\ p2_Ps u' = p2_Ps u /\ lower_or_still PX [0; 1; 2]%nat u u' /\
  forall W, is_mat nI K W -> sse PX (p2_factors u') unit_weights K <= sse PX (with_factor 0 W (p2_factors u)) unit_weights K.
Proof.
  intros HB. unfold p2_cp_sweep, ndim. rewrite (bs_X HB), (bs_shape HB). cbn [length seq run_all].
  destruct (@step_potential PX u 0%nat HB ltac:(lia)) as (u1 & E1 & B1 & X1 & P1 & W1 & H1). rewrite E1.
  destruct (@modes_potential PX [1; 2]%nat u1 B1) as (u2 & E2 & B2 & X2 & P2 & H2); [repeat constructor; lia|]. cbn [run_all] in E2. rewrite E2.
  exists u2. split; [reflexivity|]. split; [exact B2|]. split; [congruence|]. split; [congruence|]. split.
  - apply (@lower_trans PX [0%nat] [1; 2]%nat u u1 u2 X1); [|exact H2]. destruct H1 as [H1|[H1|[H1 H1']]]; [now left|right; now left|right; right].
    split; [exact H1|]. intros n [<-|[]]. exact H1'.
  - intros W HW. eapply Rle_trans; [apply (lower_le H2)|]. apply W1. now rewrite (bs_shape HB).
Qed.
Lemma sweeps_potential PX (l : list nat) : l <> [] -> forall u, busy PX u -> exists u', run_all (fun s _ => p2_cp_sweep env ps s) l u = (u', None) /\ busy PX u' /\
  p2_X u' = p2_X u /\ p2_Ps u' = p2_Ps u /\ (exists l', incl [0; 1; 2]%nat l' /\ lower_or_still PX l' u u') /\
  forall W, is_mat nI K W -> sse PX (p2_factors u') unit_weights K <= sse PX (with_factor 0 W (p2_factors u)) unit_weights K.
Proof.
  intros Hl. induction l as [|x l IH]; [congruence|]. intros u HB. cbn [run_all]. destruct (sweep_potential HB) as (u1 & -> & B1 & X1 & P1 & H1 & W1).
  destruct l as [|y l].
  - cbn [run_all]. exists u1. split; [reflexivity|]. split; [exact B1|]. split; [exact X1|]. split; [exact P1|]. split; [|exact W1].
    exists [0; 1; 2]%nat. split; [apply incl_refl|exact H1].
  - destruct (IH ltac:(discriminate) u1 B1) as (u2 & -> & B2 & X2 & P2 & (l' & I2 & H2) & W2). exists u2.
    split; [reflexivity|]. split; [exact B2|]. split; [congruence|]. split; [congruence|]. split.
    + exists ([0; 1; 2] ++ l')%nat. split; [intros m Hm; apply in_or_app; now left|]. now apply (@lower_trans PX [0; 1; 2]%nat l' u u1 u2 X1).
    + intros W HW. eapply Rle_trans; [apply (lower_le H2)|]. now apply W1.
Qed.
Lemma sweeps_keep PX (l : list nat) : forall u, busy PX u -> (forall m, (m < 3)%nat -> smallest_best K PX (p2_factors u) m) ->
  exists u', run_all (fun s _ => p2_cp_sweep env ps s) l u = (u', None) /\ busy PX u' /\ p2_X u' = p2_X u /\ p2_Ps u' = p2_Ps u /\ p2_factors u' = p2_factors u.
Proof.
  assert (HM : forall ms u, busy PX u -> Forall (fun m => (m < 3)%nat) ms -> (forall m, (m < 3)%nat -> smallest_best K PX (p2_factors u) m) ->
    exists u', run_all (p2_cp_update env ps) ms u = (u', None) /\ busy PX u' /\ p2_X u' = p2_X u /\ p2_Ps u' = p2_Ps u /\ p2_factors u' = p2_factors u).
  { induction ms as [|m ms IH]; intros u HB Hl HB'; cbn [run_all]; [exists u; auto|]. apply Forall_cons_iff in Hl as [Hm Hl'].
    destruct (step_least HB Hm) as (u1 & Z & -> & B1 & X1 & P1 & F1 & HL). pose proof (busy_factors HB) as HF.
    assert (E : p2_factors u1 = p2_factors u).
    { rewrite F1, (least_unique (proj2 HF) (m := m) ltac:(rewrite (bs_shape HB); exact Hm) HL (proj1 (@smallest_least K PX (p2_factors u) m HF ltac:(rewrite (bs_shape HB); exact Hm)) (HB' m Hm))).
      apply with_factor_self. exact Hm. }
    destruct (IH u1 B1 Hl') as (u2 & -> & B2 & X2 & P2 & F2); [now rewrite E|]. exists u2. split; [reflexivity|]. split; [exact B2|]. split; [congruence|]. split; congruence. }
  induction l as [|x l IH]; intros u HB HB'; cbn [run_all]; [exists u; auto|].
  unfold p2_cp_sweep at 1. unfold ndim. rewrite (bs_X HB), (bs_shape HB). cbn [length].
  destruct (HM (seq 0 3) u HB ltac:(repeat constructor; lia) HB') as (u1 & -> & B1 & X1 & P1 & F1).
  destruct (IH u1 B1) as (u2 & -> & B2 & X2 & P2 & F2); [now rewrite F1|]. exists u2. split; [reflexivity|]. split; [exact B2|]. split; [congruence|]. split; congruence.
Qed.

(** *** Iterations *)
Lemma err_split Xs Ps PX Fs : length Fs = 3%nat -> orth_projections K Xs Ps -> shape PX = [nI; K; length Xs] ->
  (forall i q k, (i < nI)%nat -> (q < K)%nat -> (k < length Xs)%nat -> get PX [i; q; k] = projected_entry Xs Ps i q k) ->
  p2_err K nI Xs Ps Fs = lost K nI Xs Ps + sse PX Fs unit_weights K.
Proof using. intros HL HO Hs He. destruct Fs as [|F0 [|F1 [|F2 [|]]]]; try discriminate HL. unfold p2_err. cbn [nth]. now apply pf_sse_split. Qed.
Lemma smallest_split Xs Ps PX Fs m : length Fs = 3%nat -> orth_projections K Xs Ps -> shape PX = [nI; K; length Xs] ->
  (forall i q k, (i < nI)%nat -> (q < K)%nat -> (k < length Xs)%nat -> get PX [i; q; k] = projected_entry Xs Ps i q k) ->
  smallest_best K PX Fs m <-> p2_smallest K nI Xs Ps Fs m.
Proof using.
  intros HL HO Hs He. unfold smallest_best, p2_smallest. rewrite Hs.
  assert (EW : forall W, p2_err K nI Xs Ps (with_factor m W Fs) = lost K nI Xs Ps + sse PX (with_factor m W Fs) unit_weights K).
  { intros W. apply err_split; auto. unfold with_factor. now rewrite length_replace_at. }
  pose proof (@err_split Xs Ps PX Fs HL HO Hs He) as E0. split; intros [H1 H2]; split; intros W HW.
  - rewrite EW, E0. apply Rplus_le_compat_l. now apply H1.
  - intros H. apply (H2 W HW). rewrite EW, E0 in H. lra.
  - specialize (H1 W HW). rewrite EW, E0 in H1. lra.
  - intros H. apply (H2 W HW). rewrite EW, E0. lra.
Qed.
Lemma flat_split Xs Ps PX Fs m : length Fs = 3%nat -> orth_projections K Xs Ps -> shape PX = [nI; K; length Xs] ->
  (forall i q k, (i < nI)%nat -> (q < K)%nat -> (k < length Xs)%nat -> get PX [i; q; k] = projected_entry Xs Ps i q k) ->
  stationary_in K PX Fs m -> p2_flat K nI Xs Ps Fs m.
Proof using.
  intros HL HO Hs He H D. specialize (H D). rewrite Hs in H.
  set (f := fun t => sse PX (with_factor m (step_to (nth m [nI; K; length Xs] 0%nat) K (nth m Fs m0) D t) Fs) unit_weights K) in *.
  assert (E : forall t, p2_err K nI Xs Ps (with_factor m (step_to (nth m [nI; K; length Xs] 0%nat) K (nth m Fs m0) D t) Fs) = lost K nI Xs Ps + f t).
  { intros t. apply err_split; auto. unfold with_factor. now rewrite length_replace_at. }
  intros eps Heps. destruct (H eps Heps) as (del & Hd). exists del. intros h Hh Hl. rewrite !E.
  replace (lost K nI Xs Ps + f (0 + h) - (lost K nI Xs Ps + f 0)) with (f (0 + h) - f 0) by ring. now apply Hd.
Qed.

Lemma iteration_facts u : ready ps K nI u -> (0 < length (p2_X u))%nat -> wide K (p2_X u) -> (0 < ps_updates ps)%nat ->
  exists v PX, p2_update env ps u = (v, None) /\ p2_X v = p2_X u /\ ready ps K nI v /\
    data_ok PX /\ shape PX = [nI; K; length (p2_X u)] /\
    (forall i q k, (i < nI)%nat -> (q < K)%nat -> (k < length (p2_X u))%nat -> get PX [i; q; k] = projected_entry (p2_X u) (p2_Ps v) i q k) /\
    factors_ok K PX (p2_factors u) /\
    (forall k, (k < length (p2_X u))%nat -> projected_from env K nI u k (nth k (p2_Ps v) m0)) /\
    sse PX (p2_factors v) unit_weights K <= sse PX (p2_factors u) unit_weights K /\
    (forall W, is_mat nI K W -> sse PX (p2_factors v) unit_weights K <= sse PX (with_factor 0 W (p2_factors u)) unit_weights K) /\
    (p2_factors v = p2_factors u <-> forall m, (m < 3)%nat -> smallest_best K PX (p2_factors u) m).
Proof.
  intros HR Hn HW Hup.
  destruct (@retargeted env ps K nI HK HnI HK0 HS u HR Hn) as (s2 & PX & X2 & B2 & A2 & BB2 & C2 & HPj & HPe & Es).
  { intros k Hk. pose proof (HW k Hk). lia. }
  assert (F2 : p2_factors s2 = p2_factors u) by (unfold p2_factors; congruence).
  destruct (@sweeps_potential PX (seq 0 (ps_updates ps))) with (u := s2) as (s3 & E3 & B3 & X3 & P3 & (l' & Il & HL) & W3); [destruct (ps_updates ps); [lia|discriminate]|exact B2|].
  destruct (scale_total HK HK0 (bs_ready B3)) as (s4 & E4 & X4 & A4 & B4 & C4 & P4).
  assert (EU : p2_update env ps u = (p2_unit_weights s4, None)) by (rewrite Es, E3; cbn [and_then]; rewrite E4; reflexivity).
  assert (FV : p2_factors (p2_unit_weights s4) = p2_factors s3) by (change (p2_factors s4 = p2_factors s3); unfold p2_factors; congruence).
  assert (PV : p2_Ps (p2_unit_weights s4) = p2_Ps s2) by (change (p2_Ps s4 = p2_Ps s2); congruence).
  exists (p2_unit_weights s4), PX. split; [exact EU|].
  split; [change (p2_X s4 = p2_X u); congruence|].
  split; [pose proof (@ready_after env ps K nI HK u 1 HR) as H1; cbn [state_after] in H1; change (md_update (p2_model env ps) u) with (p2_update env ps u) in H1; now rewrite EU in H1|].
  split; [apply (bs_data B2)|]. split; [rewrite (bs_shape B2); now rewrite X2|]. split; [now rewrite PV|].
  split; [rewrite <- F2; apply (busy_factors B2)|]. split; [now rewrite PV|].
  rewrite FV, <- F2. split; [apply (lower_le HL)|]. split; [exact W3|]. split.
  - intros E m Hm. destruct HL as [H|[[_ H]|[_ H]]]; [rewrite E in H; lra|rewrite E in H; lra|]. apply H, Il. cbn. lia.
  - intros HB. destruct (@sweeps_keep PX (seq 0 (ps_updates ps)) s2 B2 HB) as (x & Ex & _ & _ & _ & F). congruence.
Qed.

Lemma same_projection u v k P P' : p2_X v = p2_X u -> p2_factors v = p2_factors u -> projected_from env K nI u k P -> projected_from env K nI v k P' -> P' = P.
Proof using.
  intros EX EF H H'. unfold p2_factors in EF. injection EF as EA EB EC.
  destruct (pj_solve H) as (T & Z & HT & HTe & EZ & ->). destruct (pj_solve H') as (T' & Z' & HT' & HTe' & EZ' & ->).
  assert (ET : T' = T) by (apply (mat_ext HT' HT); intros i a Hi Ha; rewrite HTe, HTe' by auto; now rewrite EA, EB, EC).
  rewrite ET, EX in EZ'. congruence.
Qed.

(** Once the factors stay as they are, nothing changes any more. *)
Lemma still_next u v : ready ps K nI u -> (0 < length (p2_X u))%nat -> wide K (p2_X u) -> (0 < ps_updates ps)%nat ->
  p2_update env ps u = (v, None) -> p2_factors v = p2_factors u ->
  exists w, p2_update env ps v = (w, None) /\ p2_factors w = p2_factors v /\ p2_Ps w = p2_Ps v.
Proof.
  intros HR Hn HW Hup E EF.
  destruct (iteration_facts HR Hn HW Hup) as (v' & PX & E' & EX & HRv & D1 & S1 & G1 & F1 & J1 & _ & _ & I1). rewrite E in E'. injection E' as <-.
  destruct (@iteration_facts v HRv) as (w & PX' & Ew & EXw & HRw & D2 & S2 & G2 & F2 & J2 & _ & _ & I2); rewrite ?EX; auto.
  exists w. split; [exact Ew|].
  assert (EP : forall k, (k < length (p2_X u))%nat -> nth k (p2_Ps w) m0 = nth k (p2_Ps v) m0).
  { intros k Hk. apply (@same_projection u v k); auto. apply J2. now rewrite EX. }
  assert (EPX : PX' = PX).
  { apply nd_ext; [apply D2|apply D1|rewrite S1, S2; now rewrite EX|]. rewrite S2. intros idx Hv.
    apply valid_cons_inv in Hv as (i & idx1 & -> & Hi & Hv). apply valid_cons_inv in Hv as (q & idx2 & -> & Hq & Hv).
    apply valid_cons_inv in Hv as (k & idx3 & -> & Hk & Hv). apply valid_nil_inv in Hv as ->. rewrite EX in Hk.
    rewrite G1, G2 by (rewrite ?EX; auto). unfold projected_entry. rewrite EX. apply sum_ext. intros j Hj. now rewrite EP. }
  split.
  - apply I2. rewrite EPX, EF. now apply I1.
  - apply (nth_ext _ _ m0 m0).
    + unfold p2_Ps. rewrite !map_length, (ok_nP (rd_ok HRv)), (ok_nP (rd_ok HRw)). congruence.
    + intros k Hk. apply EP. unfold p2_Ps in Hk. rewrite map_length, (ok_nP (rd_ok HRw)), EXw, EX in Hk. exact Hk.
Qed.
Lemma still_forever u v : ready ps K nI u -> (0 < length (p2_X u))%nat -> wide K (p2_X u) -> (0 < ps_updates ps)%nat ->
  p2_update env ps u = (v, None) -> p2_factors v = p2_factors u ->
  forall j, p2_factors (state_after md u (S j)) = p2_factors u /\ p2_Ps (state_after md u (S j)) = p2_Ps v /\
    snd (p2_update env ps (state_after md u (S j))) = None.
Proof.
  intros HR Hn HW Hup E EF.
  assert (HX : forall i, p2_X (state_after md u i) = p2_X u) by (intros i; apply (fr_X (after_frame env ps u i))).
  assert (HRs : forall i, ready ps K nI (state_after md u i)) by (intros i; apply (@ready_after env ps K nI HK u i HR)).
  assert (G : forall j, snd (p2_update env ps (state_after md u j)) = None /\ p2_factors (state_after md u (S j)) = p2_factors u /\ p2_factors (state_after md u j) = p2_factors u /\ p2_Ps (state_after md u (S j)) = p2_Ps v).
  { induction j as [|j (H0 & H1 & H2 & H3)].
    - cbn [state_after]. change (md_update md u) with (p2_update env ps u). rewrite E. auto.
    - cbn [state_after] in H1, H3 |- *. set (s := state_after md u j) in *. change (md_update md) with (p2_update env ps) in *.
      destruct (p2_update env ps s) as [t e] eqn:Es. cbn [fst snd] in *. subst e.
      destruct (@still_next s t (HRs j)) as (w & Ew & Fw & Pw); unfold s; rewrite ?HX; auto; [fold s; congruence|]. rewrite Ew. cbn [fst snd].
      split; [reflexivity|]. split; [congruence|]. split; [exact H1|]. congruence. }
  intros j. destruct (G j) as (_ & H1 & _ & H3). destruct (G (S j)) as (H0 & _). auto.
Qed.

(** What the code's iteration guarantees, in terms of the PARAFAC2 error *)
Lemma iteration_bound u v : ready ps K nI u -> (0 < length (p2_X u))%nat -> wide K (p2_X u) -> (0 < ps_updates ps)%nat ->
  p2_update env ps u = (v, None) -> orth_projections K (p2_X u) (p2_Ps v) ->
  best_projections K nI (p2_X u) (p2_Ps v) (p2_factors u) /\
  p2_err K nI (p2_X u) (p2_Ps v) (p2_factors v) <= p2_err K nI (p2_X u) (p2_Ps v) (p2_factors u) /\
  (forall W, is_mat nI K W -> p2_err K nI (p2_X u) (p2_Ps v) (p2_factors v) <= p2_err K nI (p2_X u) (p2_Ps v) (with_factor 0 W (p2_factors u))) /\
  (p2_factors v = p2_factors u <-> forall m, (m < 3)%nat -> p2_smallest K nI (p2_X u) (p2_Ps v) (p2_factors u) m) /\
  (p2_factors v = p2_factors u -> forall m, (m < 3)%nat -> p2_flat K nI (p2_X u) (p2_Ps v) (p2_factors u) m).
Proof.
  intros HR Hn HW Hup E HO.
  destruct (iteration_facts HR Hn HW Hup) as (v' & PX & E' & EX & HRv & D1 & S1 & G1 & F1 & J1 & L1 & W1 & I1). rewrite E in E'. injection E' as <-.
  split; [|split; [|split; [|split]]].
  - split; [exact HO|]. intros Qs HQ. unfold p2_err, pf_sse. apply sum_le. intros k Hk. cbn [p2_factors nth].
    apply (pj_best (J1 k Hk) (HW k Hk)); [|now apply HQ]. now apply (pj_orth (J1 k Hk) (HW k Hk)), HO.
  - rewrite (@err_split (p2_X u) (p2_Ps v) PX (p2_factors v)), (@err_split (p2_X u) (p2_Ps v) PX (p2_factors u)) by (auto; reflexivity). lra.
  - intros W HWm. specialize (W1 W HWm).
    rewrite (@err_split (p2_X u) (p2_Ps v) PX (p2_factors v)), (@err_split (p2_X u) (p2_Ps v) PX (with_factor 0 W (p2_factors u))) by (auto; reflexivity). lra.
  - rewrite I1. split; intros H m Hm; apply (@smallest_split (p2_X u) (p2_Ps v) PX (p2_factors u) m); auto; reflexivity.
  - intros EF m Hm. apply (@flat_split (p2_X u) (p2_Ps v) PX); [reflexivity|exact HO|exact S1|exact G1|].
    apply best_stationary; [exact F1|now rewrite S1|]. now apply I1.
Qed.
Lemma err_nonneg Xs Ps Fs : 0 <= p2_err K nI Xs Ps Fs.
Proof using. unfold p2_err, pf_sse, slice_err, dist2. apply sum_nonneg. intros k Hk. apply sum_nonneg. intros i Hi. apply sum_nonneg. intros j Hj. apply pow2_ge_0. Qed.
End Inner.

Lemma still_run env ps K nI Xs s s0 : drawn_settings ps K nI -> svd_contract (env_svd (pe_cp env)) ->
  nnls_contract (env_nnls (pe_cp env)) -> plain_settings ps -> (0 < ps_updates ps)%nat -> slices_ok nI Xs -> wide K Xs ->
  p2_ok K nI s -> p2_X s = Xs -> p2_prepare env ps s = (s0, None) ->
  let md := p2_model env ps in
  forall j, let u := state_after md s0 j in let v := state_after md s0 (S j) in
    snd (md_update md u) = None /\
    (orth_projections K Xs (p2_Ps v) <->
      forall k, (k < length Xs)%nat -> untruncated (env_svd (pe_cp env)) (width Xs k) K (cross K nI (p2_A u) (p2_B u) (p2_C u) Xs k)) /\
    (p2_factors v = p2_factors u -> forall i, p2_factors (state_after md s0 (j + i)) = p2_factors u /\ p2_Ps (state_after md s0 (S j + i)) = p2_Ps v) /\
    (orth_projections K Xs (p2_Ps v) ->
      (p2_factors v = p2_factors u <-> forall m, (m < 3)%nat -> p2_smallest K nI Xs (p2_Ps v) (p2_factors u) m) /\
      (p2_factors v = p2_factors u -> forall m, (m < 3)%nat -> p2_flat K nI Xs (p2_Ps v) (p2_factors u) m) /\
      best_projections K nI Xs (p2_Ps v) (p2_factors u) /\
      (forall Qs, orth_projections K Xs Qs -> p2_err K nI Xs (p2_Ps v) (p2_factors v) <= p2_err K nI Xs Qs (p2_factors u)) /\
      (forall W, is_mat nI K W -> p2_err K nI Xs (p2_Ps v) (p2_factors v) <= p2_err K nI Xs (p2_Ps v) (with_factor 0 W (p2_factors u)))).
Proof.
  intros (HK & HO & HnI & HK0) HS HN HU Hup HX HW Hs EX E1 md j u v.
  assert (Hn : (0 < length Xs)%nat) by (destruct HX as [Hne _]; destruct Xs; [congruence|cbn; lia]).
  destruct (@prepare_ready env ps K nI HK HO HnI HK0 s Hs) as (x & Ex & Rs & As & _); [now rewrite EX|]. rewrite E1 in Ex. injection Ex as <-.
  assert (EXu : p2_X u = Xs) by (unfold u, md; rewrite (fr_X (after_frame env ps s0 j)), (proj1 As); exact EX).
  assert (Ru : ready ps K nI u) by (apply (@ready_after env ps K nI HK s0 j Rs)).
  destruct (@iteration_facts env ps K nI HK HnI HK0 HS HN HU u Ru) as (v' & PX & E & _ & _ & _ & _ & _ & _ & J1 & _); rewrite ?EXu; auto.
  assert (Ev : v = v') by (unfold v; cbn [state_after]; fold u; change (md_update md) with (p2_update env ps); now rewrite E). rewrite <- Ev in E.
  split; [change (md_update md) with (p2_update env ps); now rewrite E|]. split.
  { rewrite EXu in J1. rewrite <- Ev in J1. split; intros H k Hk; specialize (H k Hk); pose proof (pj_orth (J1 k Hk)) as HJ; rewrite EXu in HJ; now apply HJ; auto. }
  split.
  - intros EF i. destruct i as [|i].
    + rewrite !Nat.add_0_r. auto.
    + pose proof (@still_forever env ps K nI HK HnI HK0 HS HN HU u v Ru) as H. rewrite EXu in H. specialize (H Hn HW Hup E EF).
      fold md in H. unfold u in H. split.
      * rewrite <- (state_after_add md s0 j (S i)). apply H.
      * replace (S j + S i)%nat with (j + S (S i))%nat by lia. rewrite <- (state_after_add md s0 j (S (S i))). apply H.
  - intros HOv. pose proof (@iteration_bound env ps K nI HK HnI HK0 HS HN HU u v Ru) as H. rewrite EXu in H. destruct (H Hn HW Hup E HOv) as (B1 & B2 & B3 & B4 & B5).
    split; [exact B4|]. split; [exact B5|]. split; [exact B1|]. split; [|exact B3]. intros Qs HQ. eapply Rle_trans; [exact B2|]. now apply B1.
Qed.

Lemma exact_run env ps K nI Xs s s0 : drawn_settings ps K nI -> svd_contract (env_svd (pe_cp env)) ->
  nnls_contract (env_nnls (pe_cp env)) -> plain_settings ps -> (0 < ps_updates ps)%nat -> slices_ok nI Xs -> wide K Xs ->
  p2_ok K nI s -> p2_X s = Xs -> p2_prepare env ps s = (s0, None) ->
  let md := p2_model env ps in
  (exists Qs, orth_projections K Xs Qs /\ p2_err K nI Xs Qs (p2_factors s0) = 0) ->
  forall j, (forall i, (i <= j)%nat -> orth_projections K Xs (p2_Ps (state_after md s0 (S i)))) ->
    p2_loss ps (state_after md s0 (S j)) = Ok 0.
Proof.
  intros HD HS HN HU Hup HX HW Hs EX E1 md HQ.
  assert (G : forall j, (forall i, (i <= j)%nat -> orth_projections K Xs (p2_Ps (state_after md s0 (S i)))) ->
    p2_err K nI Xs (p2_Ps (state_after md s0 (S j))) (p2_factors (state_after md s0 (S j))) = 0).
  { induction j as [|j IH]; intros Hi.
    - destruct HQ as (Qs & HQ & E). destruct (@still_run env ps K nI Xs s s0 HD HS HN HU Hup HX HW Hs EX E1 0%nat) as (_ & _ & _ & H).
      destruct (H (Hi 0%nat (le_n 0))) as (_ & _ & _ & H1 & _). specialize (H1 Qs HQ). cbn [state_after] in *. rewrite E in H1. fold md in H1.
      apply Rle_antisym; [exact H1|apply err_nonneg].
    - destruct (@still_run env ps K nI Xs s s0 HD HS HN HU Hup HX HW Hs EX E1 (S j)) as (_ & _ & _ & H).
      destruct (H (Hi (S j) (le_n _))) as (_ & _ & _ & H1 & _). specialize (H1 _ (Hi j (Nat.le_succ_diag_r j))). fold md in H1.
      rewrite IH in H1 by (intros i Hij; apply Hi; lia). apply Rle_antisym; [exact H1|apply err_nonneg]. }
  intros j Hj. destruct HD as (HK & HO & HnI & HK0). assert (Hn : (0 < length Xs)%nat) by (destruct HX as [Hne _]; destruct Xs; [congruence|cbn; lia]).
  destruct (@prepare_ready env ps K nI HK HO HnI HK0 s Hs) as (x & Ex & Rs & As & _); [now rewrite EX|]. rewrite E1 in Ex. injection Ex as <-.
  pose proof (@ready_after env ps K nI HK s0 (S j) Rs) as Ru. fold md in Ru.
  rewrite (p2_loss_ok ps (rd_ok Ru)), (proj2 HU), Rplus_0_r. f_equal. specialize (G j Hj). unfold p2_err in G. cbn [p2_factors nth] in G.
  unfold md in *. rewrite (fr_X (after_frame env ps s0 (S j))), (proj1 As), EX. exact G.
Qed.

(** *** Complete fits *)
Lemma still_fits env ps K nI cf disk A C Ns Xs budget arg ds : penalised_fit env ps K nI (A :: C :: Ns) Xs -> plain_settings ps -> (0 < ps_updates ps)%nat ->
  plain_run ps cf budget ds ->
  let md := p2_model env ps in
  exists ds' s s0, p2_fit env ps cf disk (A :: C :: Ns) (Slices Xs) (Some budget) arg ds = (ds', None) /\
    p2_ok K nI s /\ p2_X s = Xs /\ p2_prepare env ps s = (s0, None) /\
    p2_factors s0 = [A; np_identity K; np_map (fun x => x + / 10) C] /\ mapM (drawn_projection env K) Ns = Ok (p2_Ps s0) /\ p2_X s0 = Xs /\
    ds_num ds' = state_after md s0 (Z.to_nat (ds_it ds')) /\
    (forall j l, p2_factors (state_after md s0 (S j)) = p2_factors (state_after md s0 j) ->
      p2_loss ps (state_after md s0 (S j)) = Ok l -> l <> 0 -> 0 < cf_tol cf -> (ds_it ds' <= Z.of_nat (S (S j)))%Z) /\
    ((exists Qs, orth_projections K Xs Qs /\ p2_err K nI Xs Qs (p2_factors s0) = 0) ->
     (forall j, orth_projections K Xs (p2_Ps (state_after md s0 (S j)))) ->
     p2_loss ps (ds_num ds') = Ok 0 /\ (cf_tol cf <= 1 -> ds_it ds' = budget)).
Proof.
  intros HF HU Hup HR md.
  destruct (@drawn_runs env ps K nI cf disk A C Ns Xs budget arg ds HF HR) as (ds' & s0 & n & l0 & E1 & Rs & X0 & FA & FB & FC & FP & FL & N1 & I1 & P1 & L1 & S1 & D1 & s & Hok & EXs & Epr).
  exists ds', s, s0. split; [exact E1|]. split; [exact Hok|]. split; [exact EXs|]. split; [exact Epr|]. split; [unfold p2_factors; congruence|]. split; [exact FP|]. split; [exact X0|].
  rewrite I1, Nat2Z.id. split; [exact N1|].
  destruct HF as [[_ HO HK [HnI HK0] HX _ _ WX] _ _ HS HN].
  assert (Hn : (0 < length Xs)%nat) by (destruct HX as [Hne _]; destruct Xs; [congruence|cbn; lia]).
  assert (HXs : forall i, p2_X (state_after md s0 i) = Xs) by (intros i; pose proof (fr_X (after_frame env ps s0 i)) as H; unfold md; congruence).
  assert (HRs : forall i, ready ps K nI (state_after md s0 i)) by (intros i; apply (@ready_after env ps K nI HK s0 i Rs)).
  split.
  - intros j l EF El Hl Ht. destruct (le_lt_dec n (S (S j))) as [H|H]; [lia|exfalso].
    specialize (S1 _ H). fold md in S1.
    destruct (@iteration_facts env ps K nI HK HnI HK0 HS HN HU _ (HRs j)) as (v & PX & E & _); rewrite ?HXs; auto.
    assert (Ev : state_after md s0 (S j) = v) by (cbn [state_after]; change (md_update md) with (p2_update env ps); now rewrite E).
    pose proof (@still_forever env ps K nI HK HnI HK0 HS HN HU (state_after md s0 j) v (HRs j)) as HFv. rewrite HXs in HFv.
    specialize (HFv Hn WX Hup E). rewrite <- Ev in HFv. specialize (HFv EF 1%nat). destruct HFv as (F1 & F2 & _). fold md in F1, F2.
    rewrite (state_after_add md s0 j 2) in F1, F2. replace (j + 2)%nat with (S (S j)) in F1, F2 by lia.
    assert (EL : p2_loss ps (state_after md s0 (S (S j))) = Ok l).
    { rewrite <- El. rewrite (p2_loss_ok ps (rd_ok (HRs (S (S j))))), (p2_loss_ok ps (rd_ok (HRs (S j)))), F2, !HXs.
      rewrite <- EF in F1. pose proof (f_equal (fun Fs => nth 0 Fs m0) F1) as EA. pose proof (f_equal (fun Fs => nth 1 Fs m0) F1) as EB.
      pose proof (f_equal (fun Fs => nth 2 Fs m0) F1) as EC. cbn [p2_factors nth] in EA, EB, EC. now rewrite EA, EB, EC. }
    revert S1. unfold pf_stops, rel_at. cbn [prev_at]. unfold loss_at. cbn [md p2_model md_loss]. fold md. rewrite EL, El. cbn [bind].
    cbn [xsub xdiv]. rewrite (xdivR_pos _ Hl). replace ((l - l) / l) with 0 by (field; exact Hl). cbn [xabs xltb]. rewrite Rabs_R0.
    destruct (Rlt_dec 0 (cf_tol cf)); [discriminate|contradiction].
  - intros HQ HP.
    assert (HL : forall j, p2_loss ps (state_after md s0 (S j)) = Ok 0).
    { assert (G : forall j, p2_err K nI Xs (p2_Ps (state_after md s0 (S j))) (p2_factors (state_after md s0 (S j))) = 0).
      { assert (HB : forall j Qs, orth_projections K Xs Qs -> p2_err K nI Xs (p2_Ps (state_after md s0 (S j))) (p2_factors (state_after md s0 (S j))) <= p2_err K nI Xs Qs (p2_factors (state_after md s0 j))).
        { intros j Qs HQs. destruct (@iteration_facts env ps K nI HK HnI HK0 HS HN HU _ (HRs j)) as (v & PX & E & _); rewrite ?HXs; auto.
          assert (Ev : state_after md s0 (S j) = v) by (cbn [state_after]; change (md_update md) with (p2_update env ps); now rewrite E).
          pose proof (@iteration_bound env ps K nI HK HnI HK0 HS HN HU (state_after md s0 j) v (HRs j)) as H. rewrite HXs, <- Ev in H. rewrite <- Ev in E.
          destruct (H Hn WX Hup E (HP j)) as (B1 & B2 & _). eapply Rle_trans; [exact B2|]. now apply B1. }
        induction j as [|j IH].
        - destruct HQ as (Qs & HQ & E). specialize (HB 0%nat Qs HQ). cbn [state_after] in HB |- *. rewrite E in HB. apply Rle_antisym; [exact HB|apply err_nonneg].
        - specialize (HB (S j) _ (HP j)). rewrite IH in HB. apply Rle_antisym; [exact HB|apply err_nonneg]. }
      intros j. rewrite (p2_loss_ok ps (rd_ok (HRs (S j)))), (proj2 HU), Rplus_0_r, HXs. f_equal. apply G. }
    split; [rewrite N1; destruct n as [|n]; [lia|apply HL]|]. intros Ht.
    destruct D1 as [->|D1]; [destruct HR; lia|exfalso]. fold md in D1. revert D1. destruct n as [|n]; [lia|].
    unfold pf_stops, rel_at. destruct n as [|n]; cbn [prev_at]; unfold loss_at; cbn [md p2_model md_loss]; fold md; rewrite ?HL; cbn [bind].
    + cbn [xsub xdiv]. rewrite Rminus_0_r. destruct (Req_dec l0 0) as [->|H0].
      * unfold xdivR. destruct (Req_EM_T 0 0) as [_|]; [|congruence]. destruct (Rlt_dec 0 0); [lra|]. cbn. discriminate.
      * rewrite (xdivR_pos _ H0). replace (l0 / l0) with 1 by (field; exact H0). cbn [xabs xltb]. rewrite Rabs_R1. destruct (Rlt_dec 1 (cf_tol cf)); [lra|discriminate].
    + cbn [xsub xdiv]. rewrite Rminus_0_r. unfold xdivR. destruct (Req_EM_T 0 0) as [_|]; [|congruence]. destruct (Rlt_dec 0 0); [lra|]. cbn. discriminate.
Qed.
