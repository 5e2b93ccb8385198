(** Parafac2_ALS on data given in other coordinates: lemmas for C89. *)
From Verif Require Export CompressSpec Parafac2Total SvdFacts.
From Verif Require Import Prelude Lin.
Set Implicit Arguments.
Unset Strict Implicit.
Local Open Scope R_scope.

(** *** One projection *)
Section Solve.
Variables (svd : nd -> res (nd * nd * nd)) (nI v w K : nat) (T X Y W : nd).
Hypothesis (HS : svd_contract svd) (HT : is_mat nI K T) (HX : is_mat nI w X) (HY : is_mat nI v Y) (HO : orth_cols w v (mget W)).
Hypothesis (HK : (0 < K)%nat) (Hv : (K <= v)%nat) (Hw : (K <= w)%nat).
Hypothesis HE : forall i j, (i < nI)%nat -> (j < w)%nat -> mget X i j = sum v (fun a => mget Y i a * mget W j a).
Hypothesis HC : same_cut svd v w K (fun j a => sum nI (fun t => mget Y t j * mget T t a)).

Lemma expressed_solve : exists Z Z', orthogonal_solve svd T X = Ok Z /\ orthogonal_solve svd T Y = Ok Z' /\
  is_mat K w Z /\ is_mat K v Z' /\
  forall j r, (j < w)%nat -> (r < K)%nat -> mget (transp Z) j r = mprod v (mget W) (mget (transp Z')) j r.
Proof.
  set (MX := tab2 w K (fun j a => sum nI (fun t => mget (transp X) j t * mget T t a))).
  set (MY := tab2 v K (fun j a => sum nI (fun t => mget (transp Y) j t * mget T t a))).
  assert (HMX : is_mat w K MX) by apply is_mat_tab2. assert (HMY : is_mat v K MY) by apply is_mat_tab2.
  assert (EM : forall j a, (j < w)%nat -> (a < K)%nat -> mget MX j a = mprod v (mget W) (mget MY) j a).
  { intros j a Hj Ha. unfold MX. rewrite mget_tab2 by auto.
    transitivity (sum nI (fun t => sum v (fun b => mget W j b * (mget Y t b * mget T t a)))).
    - apply sum_ext. intros t Ht. rewrite (mget_transp HX), HE by auto. rewrite <- sum_scal_r. apply sum_ext. intros; ring.
    - rewrite sum_swap. apply sum_ext. intros b Hb. rewrite sum_scal_l. f_equal. unfold MY. rewrite mget_tab2 by auto.
      apply sum_ext. intros t Ht. now rewrite (mget_transp HY). }
  destruct (HS HMX) as (Ux & Sx & Vx & ESx & HSx). destruct (HS HMY) as (Uy & Sy & Vy & ESy & HSy).
  assert (Ew : Nat.min w K = K) by lia. assert (Ev : Nat.min v K = K) by lia.
  destruct (@orth_solve_entries nI K w T X Ux Sx Vx HT HX HSx svd ESx ltac:(lia)) as (Z & EZ & HZ & HZe).
  destruct (@orth_solve_entries nI K v T Y Uy Sy Vy HT HY HSy svd ESy ltac:(lia)) as (Z' & EZ' & HZ' & HZe').
  rewrite Ew, (Nat.max_l w K Hw) in HZe. rewrite Ev, (Nat.max_l v K Hv) in HZe'.
  set (U2 := tab2 w K (fun j r => mprod v (mget W) (mget Uy) j r)).
  assert (HU2 : is_svd w K MX U2 Sy Vy).
  { destruct HSy as [A1 A2 A3 A4 A5 A6 A7 A8]. rewrite Ev in *. constructor; rewrite ?Ew; auto.
    - apply is_mat_tab2.
    - intros r s Hr Hs. rewrite <- (A4 r s Hr Hs).
      transitivity (sum w (fun j => sum v (fun a => sum v (fun b => (mget Uy a r * mget Uy b s) * (mget W j a * mget W j b))))).
      { apply sum_ext. intros j Hj. unfold U2. rewrite !mget_tab2 by auto. unfold mprod. rewrite <- sum_scal_r. apply sum_ext. intros a Ha.
        rewrite <- sum_scal_l. apply sum_ext. intros; ring. }
      rewrite sum_swap. apply sum_ext. intros a Ha. rewrite sum_swap.
      transitivity (sum v (fun b => delta a b * (mget Uy a r * mget Uy b s))).
      { apply sum_ext. intros b Hb. rewrite sum_scal_l, Rmult_comm. f_equal. now apply HO. }
      now apply (@sum_delta_l v a (fun b => mget Uy a r * mget Uy b s)).
    - intros j a Hj Ha. rewrite EM by auto. unfold mprod.
      transitivity (sum v (fun b => sum K (fun r => mget W j b * mget Uy b r * vget Sy r * mget Vy r a))).
      { apply sum_ext. intros b Hb. rewrite A8 by auto. rewrite <- sum_scal_l. apply sum_ext. intros; ring. }
      rewrite sum_swap. apply sum_ext. intros r Hr. unfold U2. rewrite mget_tab2 by auto. unfold mprod. rewrite !sum_scal_r. reflexivity. }
  exists Z, Z'. split; [exact EZ|]. split; [exact EZ'|]. split; [exact HZ|]. split; [exact HZ'|].
  intros j r Hj Hr. rewrite (mget_transp HZ) by auto. rewrite HZe by auto. unfold mprod.
  pose proof (values_eq HSx HU2) as ES. subst Sx.
  assert (P0 : 0 <= vget Sy 0) by (apply (svd_S_nonneg HSy); lia).
  set (g := fun x => if Rlt_dec (INR w * vget Sy 0 * / 10 ^ 16) x then 1 else 0).
  assert (g0 : g 0 = 0).
  { unfold g. destruct (Rlt_dec _ 0) as [L|]; [|reflexivity]. exfalso.
    assert (0 <= INR w * vget Sy 0 * / 10 ^ 16); [|lra]. repeat apply Rmult_le_pos; auto using pos_INR.
    left. apply Rinv_0_lt_compat, pow_lt. lra. }
  pose proof (svd_function HSx HU2 g0 Hj Hr) as EF. rewrite Ew in EF.
  transitivity (sum K (fun s => mget Ux j s * g (vget Sy s) * mget Vx s r)); [apply sum_ext; intros; unfold g; ring|].
  rewrite EF. transitivity (sum K (fun s => sum v (fun b => mget W j b * (g (vget Sy s) * (mget Vy s r * mget Uy b s))))).
  { apply sum_ext. intros s Hs. unfold U2. rewrite mget_tab2 by auto. unfold mprod. rewrite <- !sum_scal_r. apply sum_ext. intros; ring. }
  rewrite sum_swap. apply sum_ext. intros b Hb. rewrite sum_scal_l. f_equal. rewrite (mget_transp HZ') by auto. rewrite HZe' by auto.
  apply sum_ext. intros s Hs. f_equal. unfold g.
  assert (EY : forall i j, (i < v)%nat -> (j < K)%nat -> mget MY i j = sum nI (fun t => mget Y t i * mget T t j)).
  { intros j' a Hj' Ha. unfold MY. rewrite mget_tab2 by auto. apply sum_ext. intros t Ht. now rewrite (mget_transp HY). }
  pose proof (HC HMY EY ESy Hs) as Hcut.
  destruct (Rlt_dec (INR w * vget Sy 0 * / 10 ^ 16) (vget Sy s)), (Rlt_dec (INR v * vget Sy 0 * / 10 ^ 16) (vget Sy s)); tauto || reflexivity.
Qed.
End Solve.

(** *** Inner updates on equal factors *)
Section Same.
Variables (env : p2_env) (ps : p2_settings) (K nI : nat).
Let ics := inner_settings ps.
Let cenv := pe_cp env.
Let svd := env_svd cenv.
Let md := p2_model env ps.
Hypothesis (HK : ps_rank ps = K) (HO : no_orth ps) (HnI : (0 < nI)%nat) (HK0 : (0 < K)%nat).
Hypothesis (HS : svd_contract svd) (HN : nnls_contract (env_nnls cenv)).
Hypothesis (H3 : length (ps_nn ps) = 3%nat) (HP : p2_penalties ps).

Definition equal3 (a b : p2_state) : Prop := forall m, (m < 3)%nat -> p2_factor a m = p2_factor b m.
Lemma equal3_iff a b : equal3 a b <-> same_factors a b.
Proof.
  unfold equal3, same_factors, p2_factor. split.
  - intros H. split; [apply (H 0%nat); lia|]. split; [apply (H 1%nat); lia|apply (H 2%nat); lia].
  - intros (E1 & E2 & E3) m _. now rewrite E1, E2, E3.
Qed.

Lemma view_same PX a b : busy ps K nI PX a -> busy ps K nI PX b -> equal3 a b -> same_inputs (p2_view a) (p2_view b).
Proof.
  intros Ha Hb H. pose proof (bs_ready Ha) as Ra. pose proof (bs_ready Hb) as Rb.
  apply equal3_iff in H as (E1 & E2 & E3). unfold p2_A, p2_B, p2_C in *.
  constructor; unfold p2_view; cbn [cp_with_dec cp_X cp_dec cp_nn cp_orth].
  - now rewrite (bs_X Ha), (bs_X Hb).
  - rewrite (rd_rank Ra), (rd_rank Rb), (rd_w Ra), (rd_w Rb), (rd_cpf Ra), (rd_cpf Rb). cbn [map]. now rewrite E1, E2, E3.
  - now rewrite (rd_nn Ra), (rd_nn Rb).
  - now rewrite (rd_orth Ra), (rd_orth Rb).
Qed.

Definition both (PX : nd) (a b : p2_state) : Prop := busy ps K nI PX a /\ busy ps K nI PX b /\ equal3 a b.
(** Both runs take the step without raising, leave data and projections, and have equal factors again. *)
Definition in_step (PX : nd) (a b : p2_state) (ra rb : p2_state * option exn) : Prop :=
  exists a' b', ra = (a', None) /\ rb = (b', None) /\ both PX a' b' /\ p2_X a' = p2_X a /\ p2_X b' = p2_X b /\
    p2_Ps a' = p2_Ps a /\ p2_Ps b' = p2_Ps b.

Lemma step_same PX a b m : both PX a b -> (m < 3)%nat -> in_step PX a b (p2_cp_update env ps a m) (p2_cp_update env ps b m).
Proof.
  intros (Ha & Hb & H) Hm. destruct (penalty_of HK HnI HK0 HP Hm) as (lam & Hp & Hl).
  destruct (nth_error (ps_nn ps) m) as [f|] eqn:Ef; [|apply nth_error_None in Ef; lia].
  destruct (@cp_step env ps K nI HK HnI HK0 HS HN PX a m f lam Ha Hm Ef Hp Hl) as (a' & Ea & Ba & Xa & _ & Oa & Fa & Pa).
  destruct (@cp_step env ps K nI HK HnI HK0 HS HN PX b m f lam Hb Hm Ef Hp Hl) as (b' & Eb & Bb & Xb & _ & Ob & Fb & Pb).
  exists a', b'. split; [exact Ea|]. split; [exact Eb|]. split; [|auto].
  split; [exact Ba|]. split; [exact Bb|]. intros m' Hm'. destruct (Nat.eq_dec m' m) as [->|Hne].
  - rewrite Fa, Fb. destruct (@same_factor cenv (inner_settings ps) _ _ m (view_same Ha Hb H)) as [HSI _]. unfold cenv in HSI. now rewrite (si_dec HSI).
  - rewrite Oa, Ob by auto. auto.
Qed.

Lemma modes_same PX l : forall a b, both PX a b -> Forall (fun m => (m < 3)%nat) l ->
  in_step PX a b (run_all (p2_cp_update env ps) l a) (run_all (p2_cp_update env ps) l b).
Proof.
  induction l as [|m l IH]; intros a b H Hl; cbn [run_all]; [exists a, b; auto 10|].
  inversion Hl as [|? ? Hm Hl']; subst. destruct (step_same H Hm) as (a1 & b1 & -> & -> & H1 & X1 & Y1 & P1 & Q1).
  destruct (IH a1 b1 H1 Hl') as (a2 & b2 & -> & -> & H2 & X2 & Y2 & P2 & Q2). exists a2, b2. repeat (split; [congruence || exact H2|]). congruence.
Qed.
Lemma sweeps_same PX (l : list nat) : forall a b, both PX a b ->
  in_step PX a b (run_all (fun s _ => p2_cp_sweep env ps s) l a) (run_all (fun s _ => p2_cp_sweep env ps s) l b).
Proof.
  induction l as [|x l IH]; intros a b H; cbn [run_all]; [exists a, b; auto 10|]. unfold p2_cp_sweep at 1 3.
  destruct H as (Ha & Hb & H). unfold ndim at 1 2. rewrite (bs_X Ha), (bs_X Hb), (bs_shape Ha). cbn [length].
  destruct (@modes_same PX (seq 0 3) a b) as (a1 & b1 & -> & -> & H1 & X1 & Y1 & P1 & Q1); [split; auto| |].
  { apply Forall_forall. intros m Hm. apply in_seq in Hm. lia. }
  destruct (IH a1 b1 H1) as (a2 & b2 & -> & -> & H2 & X2 & Y2 & P2 & Q2). exists a2, b2. repeat (split; [congruence || exact H2|]). congruence.
Qed.

(** *** Iterations *)
Variables (Ws Xs Ys : list nd).
Hypothesis (HE : expressed nI Ws Xs Ys) (HX : slices_ok nI Xs) (HY : slices_ok nI Ys) (WX : wide K Xs) (WY : wide K Ys).
Definition cuts_agree (t : p2_state) : Prop := forall k, (k < length Xs)%nat ->
  same_cut svd (width Ys k) (width Xs k) K (cross K nI (p2_A t) (p2_B t) (p2_C t) Ys k).

Lemma iteration_same s t : ready ps K nI s -> ready ps K nI t -> p2_X s = Xs -> p2_X t = Ys -> same_factors s t -> cuts_agree t ->
  exists s' t', p2_update env ps s = (s', None) /\ p2_update env ps t = (t', None) /\ same_factors s' t' /\
    carried K Ws Xs Ys (p2_Ps s') (p2_Ps t').
Proof.
  intros Rs Rt EX EY (FA & FB & FC) HC.
  assert (Hn : (0 < length Xs)%nat) by (destruct HX as [Hne _]; destruct Xs; [congruence|cbn; lia]).
  pose proof (xp_len HE) as HL.
  destruct (@retargeted env ps K nI HK HnI HK0 HS s Rs) as (s2 & PX & X2 & B2 & A2 & BB2 & C2 & HPj & HPe & Es).
  { now rewrite EX. } { intros k Hk. rewrite EX in *. pose proof (WX Hk). lia. }
  destruct (@retargeted env ps K nI HK HnI HK0 HS t Rt) as (t2 & PY & Y2 & D2 & A3 & BB3 & C3 & HQj & HQe & Et).
  { rewrite EY. lia. } { intros k Hk. rewrite EY in *. pose proof (WY Hk). lia. }
  rewrite EX in *. rewrite EY in *.
  assert (Hcar : carried K Ws Xs Ys (p2_Ps s2) (p2_Ps t2)).
  { intros k j r Hk Hj Hr.
    destruct (pj_solve (HPj k Hk)) as (T & Z & HT & HTe & EZ & ->). destruct (pj_solve (HQj k ltac:(lia))) as (T' & Z' & HT' & HTe' & EZ' & ->).
    rewrite EX in EZ. rewrite EY in EZ'.
    assert (T' = T) as -> by (apply (mat_ext HT' HT); intros i a Hi Ha; rewrite HTe, HTe' by auto; now rewrite FA, FB, FC).
    destruct (@expressed_solve svd nI (width Ys k) (width Xs k) K T (nth k Xs m0) (nth k Ys m0) (nth k Ws m0)) as (Z1 & Z2 & E1 & E2 & _ & _ & HZ); auto.
    - apply HX; auto.
    - apply HY; lia.
    - apply (xp_orth HE Hk).
    - apply WY; lia.
    - intros i j' Hi Hj'. now apply (xp_data HE).
    - intros BA U Sv Vh HBA HBe ES q Hq. apply (HC k Hk BA U Sv Vh HBA); auto. intros i q' Hi Hq'. rewrite HBe by auto.
      unfold cross. apply sum_ext. intros i' Hi'. rewrite HTe by auto. now rewrite FA, FB, FC.
    - fold svd in EZ, EZ'. unfold svd, cenv in E1, E2. rewrite EZ in E1. injection E1 as <-. rewrite EZ' in E2. injection E2 as <-. auto. }
  assert (PX = PY) as <-.
  { pose proof (bs_shape B2) as S1. pose proof (bs_shape D2) as S2. rewrite X2 in S1. rewrite Y2, HL in S2.
    apply nd_ext; [apply (bs_data B2)|apply (bs_data D2)|congruence|]. rewrite S1. intros idx Hv.
    apply valid_cons_inv in Hv as (i & idx1 & -> & Hi & Hv). apply valid_cons_inv in Hv as (q & idx2 & -> & Hq & Hv).
    apply valid_cons_inv in Hv as (k & idx3 & -> & Hk & Hv). apply valid_nil_inv in Hv as ->. rewrite HPe, HQe by (auto; lia). unfold projected_entry.
      transitivity (sum (width Xs k) (fun j => sum (width Ys k) (fun a => sum (width Ys k) (fun b =>
        (mget (nth k Ys m0) i a * mget (nth k (p2_Ps t2) m0) b q) * (mget (nth k Ws m0) j a * mget (nth k Ws m0) j b))))).
      { apply sum_ext. intros j Hj. rewrite (xp_data HE) by auto. rewrite (Hcar k j q Hk Hj Hq). unfold mprod. rewrite <- sum_scal_r.
        apply sum_ext. intros a Ha. rewrite <- sum_scal_l. apply sum_ext. intros; ring. }
      rewrite sum_swap. apply sum_ext. intros a Ha. rewrite sum_swap.
      transitivity (sum (width Ys k) (fun b => delta a b * (mget (nth k Ys m0) i a * mget (nth k (p2_Ps t2) m0) b q))).
      { apply sum_ext. intros b Hb. rewrite sum_scal_l, Rmult_comm. f_equal. now apply (xp_orth HE Hk). }
      now apply (@sum_delta_l (width Ys k) a (fun b => mget (nth k Ys m0) i a * mget (nth k (p2_Ps t2) m0) b q)). }
  destruct (@sweeps_same PX (seq 0 (ps_updates ps)) s2 t2) as (s3 & t3 & E3 & G3 & (B3 & D3 & F3) & X3 & Y3 & P3 & Q3).
  { split; [exact B2|]. split; [exact D2|]. apply equal3_iff. unfold same_factors. now rewrite A2, BB2, C2, A3, BB3, C3. }
  rewrite Es, Et, E3, G3. cbn [and_then].
  destruct (scale_total HK HK0 (bs_ready B3)) as (s4 & E4 & X4 & A4 & B4 & C4 & P4).
  destruct (scale_total HK HK0 (bs_ready D3)) as (t4 & G4 & Y4 & A5 & B5 & C5 & P5). rewrite E4, G4. cbn [and_then].
  exists (p2_unit_weights s4), (p2_unit_weights t4). split; [reflexivity|]. split; [reflexivity|].
  apply equal3_iff in F3 as (F1 & F2 & F3). split.
  - change (same_factors s4 t4). unfold same_factors. now rewrite A4, B4, C4, A5, B5, C5.
  - change (carried K Ws Xs Ys (p2_Ps s4) (p2_Ps t4)). rewrite P4, P5, P3, Q3. exact Hcar.
Qed.

Lemma after_same s t : ready ps K nI s -> ready ps K nI t -> p2_X s = Xs -> p2_X t = Ys -> same_factors s t ->
  (forall n, cuts_agree (state_after md t n)) -> forall n,
  same_factors (state_after md s n) (state_after md t n) /\
  ((0 < n)%nat -> carried K Ws Xs Ys (p2_Ps (state_after md s n)) (p2_Ps (state_after md t n))).
Proof.
  intros Rs Rt EX EY F HC n. induction n as [|n [IH _]]; [split; [exact F|lia]|].
  pose proof (@ready_after env ps K nI HK s n Rs) as R1. pose proof (@ready_after env ps K nI HK t n Rt) as R2.
  pose proof (fr_X (after_frame env ps s n)) as X1. pose proof (fr_X (after_frame env ps t n)) as X2.
  fold md in R1, R2, X1, X2. cbn [state_after].
  destruct (@iteration_same (state_after md s n) (state_after md t n)) as (s' & t' & E1 & E2 & F' & C'); auto; try congruence.
  change (md_update md) with (p2_update env ps). rewrite E1, E2. auto.
Qed.

(** The loss does not see the difference either. *)
Lemma loss_same s t : p2_ok K nI s -> p2_ok K nI t -> p2_X s = Xs -> p2_X t = Ys -> same_factors s t ->
  carried K Ws Xs Ys (p2_Ps s) (p2_Ps t) -> p2_loss ps s = p2_loss ps t.
Proof.
  intros Hs Ht EX EY (FA & FB & FC) HC. rewrite (p2_loss_ok ps Hs), (p2_loss_ok ps Ht), EX, EY, FA, FB, FC. rewrite (xp_len HE).
  f_equal. f_equal. unfold pf_sse. rewrite (xp_len HE). apply sum_ext. intros k Hk. unfold slice_err, dist2, frob2.
  apply sum_ext. intros i Hi.
  set (A := p2_A t). set (B := p2_B t). set (C := p2_C t).
  assert (EP : forall j, (j < width Xs k)%nat -> pf_entry K A B C k (mget (nth k (p2_Ps s) m0)) i j - mget (nth k Xs m0) i j =
    sum (width Ys k) (fun a => (pf_entry K A B C k (mget (nth k (p2_Ps t) m0)) i a - mget (nth k Ys m0) i a) * mget (nth k Ws m0) j a)).
  { intros j Hj. rewrite (xp_data HE) by auto. unfold pf_entry.
    rewrite (@sum_ext (width Ys k) (fun a => (sum K _ - _) * _) (fun a =>
      sum K (fun r => mget A i r * mget C k r * mprod K (mget (nth k (p2_Ps t) m0)) (mget B) a r) * mget (nth k Ws m0) j a -
      mget (nth k Ys m0) i a * mget (nth k Ws m0) j a)) by (intros; ring).
    rewrite sum_minus. f_equal.
    transitivity (sum K (fun r => sum (width Ys k) (fun a => (mget A i r * mget C k r * mprod K (mget (nth k (p2_Ps t) m0)) (mget B) a r) * mget (nth k Ws m0) j a))).
    2:{ rewrite sum_swap. apply sum_ext. intros a Ha. now rewrite sum_scal_r. }
    apply sum_ext. intros r Hr.
    transitivity (mget A i r * mget C k r * sum (width Ys k) (fun a => mprod K (mget (nth k (p2_Ps t) m0)) (mget B) a r * mget (nth k Ws m0) j a)).
    2:{ rewrite <- sum_scal_l. apply sum_ext. intros; ring. }
    f_equal. unfold mprod at 1.
    transitivity (sum K (fun q => sum (width Ys k) (fun a => mget (nth k Ws m0) j a * (mget (nth k (p2_Ps t) m0) a q * mget B q r)))).
    { apply sum_ext. intros q Hq. rewrite (HC k j q Hk Hj Hq). unfold mprod. rewrite <- sum_scal_r. apply sum_ext. intros; ring. }
    rewrite sum_swap. apply sum_ext. intros a Ha. rewrite sum_scal_l. unfold mprod. ring. }
  set (e := fun a => pf_entry K A B C k (mget (nth k (p2_Ps t) m0)) i a - mget (nth k Ys m0) i a) in *.
  transitivity (sum (width Xs k) (fun j => sum (width Ys k) (fun a => sum (width Ys k) (fun b =>
        (e a * e b) * (mget (nth k Ws m0) j a * mget (nth k Ws m0) j b))))).
  { apply sum_ext. intros j Hj. rewrite EP by auto. cbn [pow]. rewrite Rmult_1_r, <- sum_scal_r.
    apply sum_ext. intros a Ha. rewrite <- sum_scal_l. apply sum_ext. intros b Hb. unfold e. ring. }
  rewrite sum_swap. apply sum_ext. intros a Ha. rewrite sum_swap.
  transitivity (sum (width Ys k) (fun b => delta a b * (e a * e b))).
  { apply sum_ext. intros b Hb. rewrite sum_scal_l, Rmult_comm. f_equal. now apply (xp_orth HE Hk). }
  rewrite (@sum_delta_l (width Ys k) a (fun b => e a * e b) Ha). unfold e. ring.
Qed.
End Same.

(** *** Complete fits *)
Lemma fit_runs env ps K nI cf disk A C Ns Xs budget arg ds :
  penalised_fit env ps K nI (A :: C :: Ns) Xs -> plain_run ps cf budget ds ->
  exists ds' s0 n p0, p2_fit env ps cf disk (A :: C :: Ns) (Slices Xs) (Some budget) arg ds = (ds', None) /\
    ready ps K nI s0 /\ p2_X s0 = Xs /\ (p2_A s0 = A /\ p2_B s0 = np_identity K /\ p2_C s0 = np_map (fun x => x + / 10) C) /\
    ds_num ds' = state_after (p2_model env ps) s0 n /\ ds_it ds' = Z.of_nat n /\ (0 < n)%nat /\ (n <= Z.to_nat budget)%nat /\
    (forall k, (k < n)%nat -> pf_stops (p2_model env ps) cf p0 PInf s0 k = Ok false) /\
    (n = Z.to_nat budget \/ pf_stops (p2_model env ps) cf p0 PInf s0 n = Ok true).
Proof.
  intros HF HR. destruct (@penalised_completes env ps K nI cf disk (A :: C :: Ns) Xs (Some budget) arg ds HF HR) as (ds' & E & Hit & _).
  destruct HF as [HD _ _ _ _].
  destruct (@drawn_begins env ps K nI disk _ Xs arg ds HD) as (s1 & l & Hok & _ & EX & (s & EXs & Es1) & Eb).
  destruct HD as [_ HO HK [HnI HK0] HX HDr Hqr Hw].
  assert (HnX : (0 < length Xs)%nat) by (destruct HX as [Hne _]; destruct Xs; [congruence|cbn; lia]).
  destruct (@random_ok env ps K nI s (A :: C :: Ns) HK HK0) as (s1' & Es1' & _ & _ & _ & _ & FA & _ & FB & FC); rewrite ?EXs; auto.
  rewrite Es1 in Es1'. injection Es1' as <-. cbn [nth_error option_map] in FA, FC. injection FA as FA. injection FC as FC.
  destruct (@prepare_ready env ps K nI HK HO HnI HK0 s1 Hok) as (s0 & EP & Rs & HA & _); [now rewrite EX|].
  unfold p2_fit in E. rewrite (Eb (Some budget)) in E.
  destruct (@pf_fit_lemma _ _ (p2_model env ps) cf (Decomposer.start s1 (Fin l) 0 budget (ds_logs ds) (ds_file ds)) ds' None s0 EP E) as (n & Hn & En & Hst & Hend).
  cbn [Decomposer.start ds_prev ds_rel ds_max ds_it] in *. rewrite Z.sub_0_r in *. destruct (Hend eq_refl) as [He Eit].
  exists ds', s0, n, (Fin l). apply agree_iff in HA as [X0 A0 B0 C0 _].
  split; [unfold p2_fit; rewrite (Eb (Some budget)); exact E|]. split; [exact Rs|]. split; [congruence|]. split; [split; [congruence|split; congruence]|].
  repeat (split; [solve [auto; lia]|]). exact He.
Qed.

Section Fits.
Variables (env : p2_env) (ps : p2_settings) (K nI : nat) (Ws Xs Ys : list nd).
Let md := p2_model env ps.
Hypothesis (HE : expressed nI Ws Xs Ys) (HW : harmless K Xs Ys).

Lemma cuts_rotated s : svd_contract (env_svd (pe_cp env)) -> (forall k, (k < length Xs)%nat -> (0 < width Ys k)%nat) -> cuts_agree env K nI Xs Ys s.
Proof.
  intros HS HP k Hk BA U Sv Vh HBA _ E r Hr. destruct HW as [HW1|[HK1 HW1]]; [rewrite (HW1 k Hk); tauto|].
  destruct (HW1 k Hk) as [Hv Hw]. destruct (HS _ _ _ HBA) as (U' & S' & V' & E' & HSV). rewrite E in E'. injection E' as <- <- <-.
  assert (r = 0%nat) as -> by lia. assert (H0 : 0 <= vget Sv 0) by (apply (svd_S_nonneg HSV); specialize (HP k Hk); lia).
  assert (H10 : 0 < 10 ^ 16) by (apply pow_lt; lra).
  assert (Hlt : forall x, x < 10 ^ 16 -> x * vget Sv 0 * / 10 ^ 16 < vget Sv 0 <-> 0 < vget Sv 0).
  { intros x Hx. split.
    - intros H. destruct (Rlt_dec 0 (vget Sv 0)); [auto|]. assert (vget Sv 0 = 0) as E0 by lra. rewrite E0 in H. lra.
    - intros H. replace (x * vget Sv 0 * / 10 ^ 16) with ((x * / 10 ^ 16) * vget Sv 0) by ring.
      rewrite <- (Rmult_1_l (vget Sv 0)) at 2. apply Rmult_lt_compat_r; [exact H|].
      apply (Rmult_lt_reg_r (10 ^ 16)); [exact H10|]. rewrite Rmult_assoc, Rinv_l by lra. lra. }
  rewrite (Hlt _ Hv), (Hlt _ Hw). tauto.
Qed.

Lemma rotated_fits cf disk1 disk2 A C Ns Ms budget arg1 arg2 ds es :
  penalised_fit env ps K nI (A :: C :: Ns) Xs -> penalised_fit env ps K nI (A :: C :: Ms) Ys ->
  plain_run ps cf budget ds -> plain_run ps cf budget es ->
  exists ds' es', p2_fit env ps cf disk1 (A :: C :: Ns) (Slices Xs) (Some budget) arg1 ds = (ds', None) /\
    p2_fit env ps cf disk2 (A :: C :: Ms) (Slices Ys) (Some budget) arg2 es = (es', None) /\
    (ds_it ds' = ds_it es' -> same_factors (ds_num ds') (ds_num es') /\
       carried K Ws Xs Ys (p2_Ps (ds_num ds')) (p2_Ps (ds_num es')) /\ p2_loss ps (ds_num ds') = p2_loss ps (ds_num es')) /\
    (ds_it ds' = ds_it es' \/ ds_it ds' = 1%Z \/ ds_it es' = 1%Z) /\ (cf_tol cf <= 0 -> ds_it ds' = ds_it es').
Proof.
  intros HF HG HR HT.
  destruct (@fit_runs env ps K nI cf disk1 A C Ns Xs budget arg1 ds HF HR) as (ds' & s0 & n & p0 & E1 & Rs & X0 & (FA & FB & FC) & N1 & I1 & P1 & L1 & S1 & D1).
  destruct (@fit_runs env ps K nI cf disk2 A C Ms Ys budget arg2 es HG HT) as (es' & t0 & m & q0 & E2 & Rt & Y0 & (GA & GB & GC) & N2 & I2 & P2 & L2 & S2 & D2).
  exists ds', es'. split; [exact E1|]. split; [exact E2|].
  destruct HF as [[_ HO HK [HnI HK0] HX _ _ WX] H3 HP HS HN]. destruct HG as [[_ _ _ _ HY _ _ WY] _ _ _ _].
  assert (HA := @after_same env ps K nI HK HnI HK0 HS HN H3 HP Ws Xs Ys HE HX HY WX WY s0 t0 Rs Rt X0 Y0).
  assert (HF0 : same_factors s0 t0) by (unfold same_factors; repeat split; congruence).
  specialize (HA HF0). assert (Hcuts : forall n, cuts_agree env K nI Xs Ys (state_after (p2_model env ps) t0 n)) 
    by (intros; apply cuts_rotated; [exact HS|intros k Hk; pose proof (WY k ltac:(rewrite (xp_len HE); exact Hk)); lia]).
  specialize (HA Hcuts).
  assert (HL : forall j, (0 < j)%nat -> p2_loss ps (state_after md s0 j) = p2_loss ps (state_after md t0 j)).
  { intros j Hj. destruct (HA j) as [Hf Hc]. apply (@loss_same ps K nI Ws Xs Ys HE); auto.
    - apply (rd_ok (@ready_after env ps K nI HK s0 j Rs)).
    - apply (rd_ok (@ready_after env ps K nI HK t0 j Rt)).
    - pose proof (fr_X (after_frame env ps s0 j)) as H. unfold md. congruence.
    - pose proof (fr_X (after_frame env ps t0 j)) as H. unfold md. congruence. }
  assert (HLa : forall j, (0 < j)%nat -> loss_at md s0 j = loss_at md t0 j).
  { intros j Hj. unfold loss_at, md. cbn [p2_model md_loss]. fold md. now rewrite (HL j Hj). }
  assert (HSt : forall j, (1 < j)%nat -> pf_stops md cf p0 PInf s0 j = pf_stops md cf q0 PInf t0 j).
  { intros [|[|j]] Hj; [lia|lia|]. unfold pf_stops, rel_at, prev_at. now rewrite !HLa by lia. }
  split.
  - intros Hit. assert (n = m) as <- by lia. rewrite N1, N2. destruct (HA n) as [Hf Hc]. auto.
  - split; [|intros Ht; rewrite I1, I2; destruct D1 as [->|D1]; [|now apply Parafac2Resume.never_stops in D1]; destruct D2 as [->|D2]; [reflexivity|now apply Parafac2Resume.never_stops in D2]].
    rewrite I1, I2. destruct (Nat.eq_dec n m) as [->|Hne]; [now left|right].
    destruct (Nat.eq_dec n 1) as [->|H1]; [now left|]. destruct (Nat.eq_dec m 1) as [->|H2]; [now right|]. exfalso.
    destruct (lt_dec n m).
    + destruct D1 as [->|D1]; [lia|]. specialize (S2 n ltac:(lia)). fold md in S2, D1. rewrite HSt in D1 by lia. congruence.
    + destruct D2 as [->|D2]; [lia|]. specialize (S1 m ltac:(lia)). fold md in S1, D2. rewrite <- HSt in D2 by lia. congruence.
Qed.
End Fits.

(** *** Signs and permutations *)
Lemma signed_expressed nI c Xs Ys : signed_copy nI c Xs Ys ->
  expressed nI (map (fun k => tab2 (width Xs k) (width Xs k) (fun j a => c k * delta j a)) (seq 0 (length Xs))) Xs Ys.
Proof.
  intros [HL H].
  assert (HW : forall k, (k < length Xs)%nat -> nth k (map (fun k => tab2 (width Xs k) (width Xs k) (fun j a => c k * delta j a)) (seq 0 (length Xs))) m0 =
    tab2 (width Xs k) (width Xs k) (fun j a => c k * delta j a)).
  { intros k Hk. rewrite (@nth_indep _ _ k m0 (tab2 (width Xs 0) (width Xs 0) (fun j a => c 0%nat * delta j a))) by (now rewrite map_length, seq_length).
    now rewrite (map_nth (fun k => tab2 (width Xs k) (width Xs k) (fun j a => c k * delta j a))), seq_nth. }
  constructor; [exact HL| |].
  - intros k Hk a b Ha Hb. destruct (H k Hk) as (Ew & Hc & _). rewrite Ew in *. rewrite (HW k Hk).
    rewrite (@sum_ext _ _ (fun j => delta a j * delta j b)).
    + now apply (@sum_delta_l (width Xs k) a (fun j => delta j b)).
    + intros j Hj. rewrite !mget_tab2 by auto. rewrite (delta_sym j a). destruct Hc as [-> | ->]; ring.
  - intros k i j Hk Hi Hj. destruct (H k Hk) as (Ew & Hc & HD). rewrite (HD i j Hi Hj), Ew, (HW k Hk).
    rewrite (@sum_ext _ _ (fun a => (c k * mget (nth k Ys m0) i a) * delta a j)).
    + symmetry. now apply (@sum_delta_r (width Xs k) j (fun a => c k * mget (nth k Ys m0) i a)).
    + intros a Ha. rewrite mget_tab2 by auto. rewrite (delta_sym j a). ring.
Qed.
Lemma signed_carried nI K c Xs Ys Ps Qs : signed_copy nI c Xs Ys ->
  carried K (map (fun k => tab2 (width Xs k) (width Xs k) (fun j a => c k * delta j a)) (seq 0 (length Xs))) Xs Ys Ps Qs ->
  forall k j r, (k < length Xs)%nat -> (j < width Xs k)%nat -> (r < K)%nat -> mget (nth k Ps m0) j r = c k * mget (nth k Qs m0) j r.
Proof.
  intros [HL H] HC k j r Hk Hj Hr. rewrite (HC k j r Hk Hj Hr). destruct (H k Hk) as (-> & _). unfold mprod.
  rewrite (@nth_indep _ _ k m0 (tab2 (width Xs 0) (width Xs 0) (fun j a => c 0%nat * delta j a))) by (now rewrite map_length, seq_length).
  rewrite (map_nth (fun k => tab2 (width Xs k) (width Xs k) (fun j a => c k * delta j a))), seq_nth by auto.
  rewrite (@sum_ext _ _ (fun a => delta j a * (c k * mget (nth k Qs m0) a r))).
  - now apply (@sum_delta_l (width Xs k) j (fun a => c k * mget (nth k Qs m0) a r)).
  - intros a Ha. rewrite mget_tab2 by auto. cbn [Nat.add]. ring.
Qed.

Lemma permuted_expressed nI p q Xs Ys : permuted_copy nI p q Xs Ys ->
  expressed nI (map (fun k => tab2 (width Xs k) (width Xs k) (fun j a => delta (p k j) a)) (seq 0 (length Xs))) Xs Ys.
Proof.
  intros [HL H].
  assert (HW : forall k, (k < length Xs)%nat -> nth k (map (fun k => tab2 (width Xs k) (width Xs k) (fun j a => delta (p k j) a)) (seq 0 (length Xs))) m0 =
    tab2 (width Xs k) (width Xs k) (fun j a => delta (p k j) a)).
  { intros k Hk. rewrite (@nth_indep _ _ k m0 (tab2 (width Xs 0) (width Xs 0) (fun j a => delta (p 0%nat j) a))) by (now rewrite map_length, seq_length).
    now rewrite (map_nth (fun k => tab2 (width Xs k) (width Xs k) (fun j a => delta (p k j) a))), seq_nth. }
  constructor; [exact HL| |].
  - intros k Hk a b Ha Hb. destruct (H k Hk) as (Ew & Hp & Hq & _). rewrite Ew in *. rewrite (HW k Hk).
    rewrite (@sum_ext _ _ (fun j => delta (q k a) j * delta (p k j) b)).
    + rewrite (@sum_delta_l (width Xs k) (q k a) (fun j => delta (p k j) b)) by (now apply Hq). now rewrite (proj2 (Hq a Ha)).
    + intros j Hj. rewrite !mget_tab2 by auto. f_equal. destruct (Nat.eq_dec (p k j) a) as [<-|Hne].
      * rewrite (proj2 (Hp j Hj)), !delta_refl. reflexivity.
      * rewrite !delta_neq; auto. intros <-. apply Hne. now apply Hq.
  - intros k i j Hk Hi Hj. destruct (H k Hk) as (Ew & Hp & _ & HD). rewrite (HD i j Hi Hj), Ew, (HW k Hk).
    rewrite (@sum_ext _ _ (fun a => mget (nth k Ys m0) i a * delta a (p k j))).
    + symmetry. apply (@sum_delta_r (width Xs k) (p k j) (fun a => mget (nth k Ys m0) i a)). now apply Hp.
    + intros a Ha. rewrite mget_tab2 by auto. now rewrite (delta_sym a).
Qed.
Lemma permuted_carried nI K p q Xs Ys Ps Qs : permuted_copy nI p q Xs Ys ->
  carried K (map (fun k => tab2 (width Xs k) (width Xs k) (fun j a => delta (p k j) a)) (seq 0 (length Xs))) Xs Ys Ps Qs ->
  forall k j r, (k < length Xs)%nat -> (j < width Xs k)%nat -> (r < K)%nat -> mget (nth k Ps m0) j r = mget (nth k Qs m0) (p k j) r.
Proof.
  intros [HL H] HC k j r Hk Hj Hr. rewrite (HC k j r Hk Hj Hr). destruct (H k Hk) as (-> & Hp & _). unfold mprod.
  rewrite (@nth_indep _ _ k m0 (tab2 (width Xs 0) (width Xs 0) (fun j a => delta (p 0%nat j) a))) by (now rewrite map_length, seq_length).
  rewrite (map_nth (fun k => tab2 (width Xs k) (width Xs k) (fun j a => delta (p k j) a))), seq_nth by auto.
  rewrite (@sum_ext _ _ (fun a => delta (p k j) a * mget (nth k Qs m0) a r)).
  - apply (@sum_delta_l (width Xs k) (p k j) (fun a => mget (nth k Qs m0) a r)). now apply Hp.
  - intros a Ha. rewrite mget_tab2 by auto. reflexivity.
Qed.

(** *** n iterations from prepared states *)
Lemma expressed_run env ps K nI Ws Xs Ys s t s0 t0 : drawn_settings ps K nI ->
  svd_contract (env_svd (pe_cp env)) -> nnls_contract (env_nnls (pe_cp env)) -> length (ps_nn ps) = 3%nat -> p2_penalties ps ->
  expressed nI Ws Xs Ys -> slices_ok nI Xs -> slices_ok nI Ys -> wide K Xs -> wide K Ys ->
  p2_ok K nI s -> p2_ok K nI t -> p2_X s = Xs -> p2_X t = Ys -> same_factors s t ->
  p2_prepare env ps s = (s0, None) -> p2_prepare env ps t = (t0, None) ->
  let md := p2_model env ps in
  (forall n k, (k < length Xs)%nat -> let u := state_after md t0 n in
     same_cut (env_svd (pe_cp env)) (width Ys k) (width Xs k) K (cross K nI (p2_A u) (p2_B u) (p2_C u) Ys k)) ->
  forall n, let u := state_after md s0 n in let v := state_after md t0 n in
    snd (md_update md u) = None /\ snd (md_update md v) = None /\ same_factors u v /\
    ((0 < n)%nat -> carried K Ws Xs Ys (p2_Ps u) (p2_Ps v) /\ p2_loss ps u = p2_loss ps v).
Proof.
  intros (HK & HO & HnI & HK0) HS HN H3 HP HE HX HY WX WY Hs Ht EX EY HF Ps Pt md HC n u v.
  assert (LX : (0 < length Xs)%nat) by (destruct HX as [Hne _]; destruct Xs; [congruence|cbn; lia]).
  pose proof (xp_len HE) as HL.
  destruct (@prepare_ready env ps K nI HK HO HnI HK0 s Hs) as (s0' & Ps' & Rs & As & _); [now rewrite EX|]. rewrite Ps in Ps'. injection Ps' as <-.
  destruct (@prepare_ready env ps K nI HK HO HnI HK0 t Ht) as (t0' & Pt' & Rt & At & _); [rewrite EY; lia|]. rewrite Pt in Pt'. injection Pt' as <-.
  apply agree_iff in As as [X0 A0 B0 C0 _]. apply agree_iff in At as [Y0 A1 B1 C1 _]. destruct HF as (F1 & F2 & F3).
  assert (X0' : p2_X s0 = Xs) by congruence. assert (Y0' : p2_X t0 = Ys) by congruence.
  assert (HA := @after_same env ps K nI HK HnI HK0 HS HN H3 HP Ws Xs Ys HE HX HY WX WY s0 t0 Rs Rt X0' Y0').
  assert (HF0 : same_factors s0 t0) by (unfold same_factors; repeat split; congruence).
  specialize (HA HF0 HC n). destruct HA as [Hf Hc].
  split; [apply (@run_total env ps K nI HK HnI HK0 HS HN s0 H3 HP Rs); rewrite X0'; [exact LX|intros k Hk; pose proof (WX k Hk); lia]|].
  split; [apply (@run_total env ps K nI HK HnI HK0 HS HN t0 H3 HP Rt); rewrite Y0'; [lia|intros k Hk; pose proof (WY k Hk); lia]|].
  split; [exact Hf|]. intros Hn. split; [exact (Hc Hn)|]. apply (@loss_same ps K nI Ws Xs Ys HE); auto.
  - apply (rd_ok (@ready_after env ps K nI HK s0 n Rs)).
  - apply (rd_ok (@ready_after env ps K nI HK t0 n Rt)).
  - pose proof (fr_X (after_frame env ps s0 n)) as H. unfold u, md. congruence.
  - pose proof (fr_X (after_frame env ps t0 n)) as H. unfold v, md. congruence.
Qed.

Lemma start_state env ps K nI A C Ns Xs (ds : dstate p2_state) : penalised_fit env ps K nI (A :: C :: Ns) Xs ->
  exists s s0, p2_ok K nI s /\ p2_X s = Xs /\ p2_A s = A /\ p2_B s = np_identity K /\ p2_C s = np_map (fun x => x + / 10) C /\
    p2_prepare env ps s = (s0, None).
Proof.
  intros [HD _ _ _ _].
  destruct (@drawn_begins env ps K nI (fun _ => None) _ Xs P2None ds HD)
    as (s1 & l & Hok & _ & EX & (s & EXs & Es1) & Eb).
  destruct HD as [_ HO HK [HnI HK0] HX HDr Hqr Hw].
  assert (HnX : (0 < length Xs)%nat) by (destruct HX as [Hne _]; destruct Xs; [congruence|cbn; lia]).
  destruct (@random_ok env ps K nI s (A :: C :: Ns) HK HK0) as (s1' & Es1' & _ & _ & _ & _ & FA & _ & FB & FC); rewrite ?EXs; auto.
  rewrite Es1 in Es1'. injection Es1' as <-. cbn [nth_error option_map] in FA, FC. injection FA as FA. injection FC as FC.
  destruct (@prepare_ready env ps K nI HK HO HnI HK0 s1 Hok) as (s0 & EP & _); [now rewrite EX|].
  exists s1, s0. auto 10.
Qed.
