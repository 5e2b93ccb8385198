(** Where CP_ALS with ridge penalties and non-negative modes stands still: lemmas for C109. *)
From Verif Require Export PenFixSpec FixFacts LimitFacts CPConstrained.
From Verif Require Import Prelude Lin.
Set Implicit Arguments.
Unset Strict Implicit.
Local Open Scope R_scope.

(** *** The problem of one mode *)
Section Mode.
Variables (lam : R) (K : nat) (X : nd) (Us : list nd) (m : nat).
Notation N := (nth m (shape X) 0%nat).
Notation U := (mget (nth m Us m0)).
Notation V := (normal_lhs Us m).
Notation f := (normal_loss lam K X Us m).

Lemma loss_ext Y Z : (forall i r, (i < N)%nat -> (r < K)%nat -> Y i r = Z i r) -> f Y = f Z.
Proof.
  intros E. unfold normal_loss. f_equal; [|f_equal; now apply frob2_ext]. unfold normal_dist. apply dist2_ext; auto.
  intros i r Hi Hr. unfold mprod. apply sum_ext. intros k Hk. now rewrite E.
Qed.
(** Moving from Y in direction H *)
Definition turned (Y : nat -> nat -> R) (i r : nat) : R :=
  sum K (fun k => (mprod K Y V i k - normal_rhs X Us m i k) * V r k) + lam * Y i r.
Lemma loss_step Y H t : f (fun i r => Y i r + t * H i r) =
  f Y + (2 * sum N (fun i => sum K (fun r => turned Y i r * H i r)) * t + (frob2 N K (mprod K H V) + lam * frob2 N K H) * t ^ 2).
Proof.
  assert (E1 : normal_dist K X Us m (fun i r => Y i r + t * H i r) =
    dist2 N K (fun i j => mprod K Y V i j + t * mprod K H V i j) (normal_rhs X Us m)).
  { unfold normal_dist. apply dist2_ext; auto. intros i r Hi Hr. unfold mprod. rewrite <- sum_scal_l, <- sum_plus. apply sum_ext. intros; ring. }
  assert (E2 : frob2 N K (fun i r => Y i r + t * H i r) =
    frob2 N K Y + (2 * sum N (fun i => sum K (fun r => Y i r * H i r)) * t + frob2 N K H * t ^ 2)).
  { pose proof (@dist2_step N K Y (fun _ _ => 0) H t) as S. unfold dist2 in S.
    transitivity (sum N (fun i => sum K (fun j => (Y i j + t * H i j - 0) ^ 2))); [unfold frob2; apply sum_ext; intros; apply sum_ext; intros; f_equal; ring|].
    rewrite S. unfold frob2. f_equal; [apply sum_ext; intros; apply sum_ext; intros; f_equal; ring|]. f_equal. f_equal. f_equal.
    apply sum_ext; intros; apply sum_ext; intros; ring. }
  assert (E3 : sum N (fun i => sum K (fun j => (mprod K Y V i j - normal_rhs X Us m i j) * mprod K H V i j)) =
    sum N (fun i => sum K (fun r => sum K (fun k => (mprod K Y V i k - normal_rhs X Us m i k) * V r k) * H i r))).
  { apply sum_ext. intros i Hi.
    transitivity (sum K (fun j => sum K (fun r => (mprod K Y V i j - normal_rhs X Us m i j) * V r j * H i r))).
    - apply sum_ext. intros j Hj. unfold mprod at 2. rewrite <- sum_scal_l. apply sum_ext. intros; ring.
    - rewrite sum_swap. apply sum_ext. intros r Hr. now rewrite sum_scal_r. }
  unfold normal_loss. rewrite E1, dist2_step, E2, E3.
  assert (E4 : sum N (fun i => sum K (fun r => turned Y i r * H i r)) =
    sum N (fun i => sum K (fun r => sum K (fun k => (mprod K Y V i k - normal_rhs X Us m i k) * V r k) * H i r)) +
    lam * sum N (fun i => sum K (fun r => Y i r * H i r))).
  { rewrite <- sum_scal_l, <- sum_plus. apply sum_ext. intros i Hi. rewrite <- sum_scal_l, <- sum_plus. apply sum_ext. intros r Hr. unfold turned. ring. }
  rewrite E4. unfold normal_dist. ring.
Qed.

Definition at_one (i0 r0 i r : nat) : R := delta i0 i * delta r0 r.
Lemma sum_at_one g i0 r0 : (i0 < N)%nat -> (r0 < K)%nat -> sum N (fun i => sum K (fun r => g i r * at_one i0 r0 i r)) = g i0 r0.
Proof.
  intros Hi Hr. transitivity (sum N (fun i => delta i0 i * g i r0)); [|now rewrite sum_delta_l].
  apply sum_ext. intros i _. unfold at_one. transitivity (delta i0 i * sum K (fun r => delta r0 r * g i r)); [|now rewrite sum_delta_l].
  rewrite <- sum_scal_l. apply sum_ext. intros; ring.
Qed.
Lemma quadratic_right b c : (forall t, 0 <= t -> 0 <= b * t + c * t ^ 2) -> 0 <= c -> 0 <= b.
Proof.
  intros H Hc. destruct (Rle_lt_dec 0 b) as [|Hb]; auto. exfalso.
  assert (Ht : 0 <= - b / (c + 1)) by (apply Rmult_le_pos; [lra|left; apply Rinv_0_lt_compat; lra]).
  pose proof (H _ Ht) as H1.
  assert (E : b * (- b / (c + 1)) + c * (- b / (c + 1)) ^ 2 = - (b * b) / ((c + 1) * (c + 1))) by (field; lra).
  rewrite E in H1. assert (0 < b * b) by (apply Rsqr_pos_lt; lra).
  assert (0 < b * b / ((c + 1) * (c + 1))) by (apply Rmult_lt_0_compat; [auto|apply Rinv_0_lt_compat; nra]).
  assert (- (b * b) / ((c + 1) * (c + 1)) = - (b * b / ((c + 1) * (c + 1)))) by (field; lra). lra.
Qed.
Lemma quadratic_near b c a : 0 < a -> (forall t, - a <= t <= a -> 0 <= b * t + c * t ^ 2) -> 0 <= c -> b = 0.
Proof.
  intros Ha H Hc. destruct (Req_dec b 0) as [|Hb]; auto. exfalso.
  set (t := a * - b / ((c * a + 1) + Rabs b)).
  pose proof (Rabs_pos_lt b Hb) as Hp. assert (Hca : 0 <= c * a) by (apply Rmult_le_pos; lra).
  set (d := c * a + 1 + Rabs b) in *. assert (Hd : 0 < d) by (unfold d; lra).
  assert (Hb1 : Rabs b <= d) by (unfold d; lra).
  assert (Hx : - 1 <= - b / d <= 1).
  { assert (Hq : Rabs b / d <= 1).
    { apply (Rmult_le_reg_r d); auto. unfold Rdiv. rewrite Rmult_assoc, Rinv_l, Rmult_1_r, Rmult_1_l by lra. exact Hb1. }
    assert (Hi : 0 < / d) by (now apply Rinv_0_lt_compat).
    assert (- Rabs b / d <= - b / d <= Rabs b / d).
    { unfold Rdiv. pose proof (Rle_abs b). pose proof (Rle_abs (- b)). rewrite Rabs_Ropp in *. split; apply Rmult_le_compat_r; lra. }
    assert (- Rabs b / d = - (Rabs b / d)) by (unfold Rdiv; ring). lra. }
  set (x := - b / d) in *. assert (Et : t = a * x) by (unfold t, x, d, Rdiv; ring).
  assert (Hb0 : b = - (d * x)) by (unfold x; field; lra).
  assert (Hx0 : x <> 0) by (intros E; rewrite E in Hb0; lra).
  assert (Hr : - a <= a * x <= a).
  { split; [replace (- a) with (a * - 1) by ring|replace a with (a * 1) at 2 by ring]; apply Rmult_le_compat_l; lra. }
  pose proof (H _ Hr) as H1.
  assert (E : b * (a * x) + c * (a * x) ^ 2 = - (a * x ^ 2 * (d - c * a))) by (rewrite Hb0; ring). rewrite E in H1.
  assert (Hs : 0 < x ^ 2) by (replace (x ^ 2) with (Rsqr x) by (unfold Rsqr; ring); now apply Rsqr_pos_lt).
  assert (0 < a * x ^ 2 * (d - c * a)) by (apply Rmult_lt_0_compat; [now apply Rmult_lt_0_compat|unfold d; lra]). lra.
Qed.

Hypothesis Hlam : 0 <= lam.
Lemma curved H : 0 <= frob2 N K (mprod K H V) + lam * frob2 N K H.
Proof. pose proof (frob2_nonneg N K (mprod K H V)). pose proof (Rmult_le_pos _ _ Hlam (frob2_nonneg N K H)). lra. Qed.

(** First order conditions *)
Lemma settled_iff nn : mode_settled nn lam K X Us m <->
  (forall i r, (i < N)%nat -> (r < K)%nat ->
    (nn = false -> turned_gap lam K X Us m i r = 0) /\
    (nn = true -> 0 <= U i r /\ 0 <= turned_gap lam K X Us m i r /\ (0 < U i r -> turned_gap lam K X Us m i r = 0))).
Proof.
  split.
  - intros [HA HB] i r Hi Hr. change (turned_gap lam K X Us m i r) with (turned U i r). fold N in HA.
    assert (Hq : forall t, allowed nn N K (fun a b => U a b + t * at_one i r a b) ->
      0 <= (2 * turned U i r) * t + (frob2 N K (mprod K (at_one i r) V) + lam * frob2 N K (at_one i r)) * t ^ 2).
    { intros t Ht. specialize (HB _ Ht). rewrite loss_step, sum_at_one in HB by auto. lra. }
    pose proof (curved (at_one i r)) as Hc. split.
    + intros ->. assert (2 * turned U i r = 0); [|lra]. eapply quadratic_zero; [|exact Hc]. intros t. apply Hq. intros E. discriminate E.
    + intros ->. assert (HU : nonneg_mat N K U) by (now apply HA). split; [now apply HU|].
      assert (Hal : forall t, - U i r <= t -> allowed true N K (fun a b => U a b + t * at_one i r a b)).
      { intros t Ht _ a b Ha Hb. unfold at_one, delta. pose proof (HU a b Ha Hb) as Hab.
        destruct (Nat.eqb_spec i a) as [<-|]; destruct (Nat.eqb_spec r b) as [<-|]; lra. }
      split.
      * assert (0 <= 2 * turned U i r); [|lra]. eapply quadratic_right; [|exact Hc]. intros t Ht. apply Hq, Hal. pose proof (HU i r Hi Hr). lra.
      * intros Hp. assert (2 * turned U i r = 0); [|lra]. eapply (@quadratic_near _ _ (U i r)); [exact Hp| |exact Hc].
        intros t [Ht _]. now apply Hq, Hal.
  - intros HC. split.
    + intros -> i r Hi Hr. now apply (HC i r Hi Hr).
    + intros Y HY. set (H := fun i r => Y i r - U i r).
      assert (E : f Y = f (fun i r => U i r + 1 * H i r)) by (apply loss_ext; intros; unfold H; ring).
      rewrite E, loss_step. pose proof (curved H) as Hc.
      assert (Hs : 0 <= sum N (fun i => sum K (fun r => turned U i r * H i r))).
      { apply sum_nonneg. intros i Hi. apply sum_nonneg. intros r Hr. destruct (HC i r Hi Hr) as [H0 H1].
        change (turned_gap lam K X Us m i r) with (turned U i r) in H0, H1. destruct nn.
        - destruct (H1 eq_refl) as (G1 & G2 & G3). pose proof (HY eq_refl i r Hi Hr) as G4. destruct G1 as [G1|G1].
          + rewrite (G3 G1). lra.
          + apply Rmult_le_pos; [exact G2|]. unfold H. lra.
        - rewrite (H0 eq_refl). lra. }
      lra.
Qed.
End Mode.

(** With a positive penalty there is only one best matrix. *)
Lemma loss_unique nn lam K X Us m Y Z : 0 < lam ->
  let N := nth m (shape X) 0%nat in is_mat N K Y -> is_mat N K Z ->
  allowed nn N K (mget Y) -> (forall W, allowed nn N K W -> normal_loss lam K X Us m (mget Y) <= normal_loss lam K X Us m W) ->
  allowed nn N K (mget Z) -> (forall W, allowed nn N K W -> normal_loss lam K X Us m (mget Z) <= normal_loss lam K X Us m W) -> Y = Z.
Proof.
  intros Hl N HY HZ AY BY AZ BZ. apply (mat_ext HY HZ).
  set (H := fun i r => mget Z i r - mget Y i r).
  set (b := 2 * sum N (fun i => sum K (fun r => turned lam K X Us m (mget Y) i r * H i r))).
  set (c := frob2 N K (mprod K H (normal_lhs Us m)) + lam * frob2 N K H).
  assert (Es : forall t, normal_loss lam K X Us m (fun i r => mget Y i r + t * H i r) = normal_loss lam K X Us m (mget Y) + (b * t + c * t ^ 2))
    by (intros t; apply loss_step).
  assert (E1 : normal_loss lam K X Us m (mget Z) = normal_loss lam K X Us m (mget Y) + (b + c)).
  { rewrite <- (Es 1) at 1 || (pose proof (Es 1) as E; assert (normal_loss lam K X Us m (mget Z) = normal_loss lam K X Us m (fun i r => mget Y i r + 1 * H i r))
      by (apply loss_ext; intros; unfold H; ring); lra). }
  assert (AH : allowed nn N K (fun i r => mget Y i r + / 2 * H i r)).
  { intros E i r Hi Hr. pose proof (AY E i r Hi Hr). pose proof (AZ E i r Hi Hr). unfold H. lra. }
  pose proof (BY _ AH) as H1. rewrite Es in H1. pose proof (BY _ AZ) as H2. pose proof (BZ _ AY) as H3.
  assert (Hc : c <= 0) by lra.
  pose proof (frob2_nonneg N K (mprod K H (normal_lhs Us m))) as F1. pose proof (frob2_nonneg N K H) as F2.
  assert (F3 : frob2 N K H = 0).
  { destruct F2 as [F2|F2]; [|auto]. pose proof (Rmult_lt_0_compat _ _ Hl F2). unfold c in Hc. lra. }
  intros i j Hi Hj. pose proof (frob2_zero F3 Hi Hj) as E0. unfold H in E0. lra.
Qed.

(** *** Updates and passes *)
Definition option_set (cs : cp_settings) (s : cp_state) (nn : nat -> bool) (lam : nat -> R) : Prop :=
  forall m, (m < length (shape (cp_X s)))%nat ->
    flag (cp_nn s) m (nn m) /\ flag (cp_orth s) m false /\ penalty cs m (lam m) /\ 0 <= lam m.
Lemma option_same cs s t nn lam : same_problem s t -> option_set cs s nn lam -> option_set cs t nn lam.
Proof. intros H HO m Hm. rewrite (sp_nn H), (sp_orth H). apply HO. now rewrite <- (sp_X H). Qed.

Section Pass.
Variables (env : cp_env) (cs : cp_settings) (K : nat) (nn : nat -> bool) (lam : nat -> R).
Hypothesis (HK : cs_rank cs = K) (HS : svd_contract (env_svd env)) (HN : nnls_contract (env_nnls env)).
Let md := cp_model env cs.

Lemma update_settles s m : cp_coherent K s -> option_set cs s nn lam -> (m < length (shape (cp_X s)))%nat ->
  let N := nth m (shape (cp_X s)) 0%nat in
  exists t Z, cp_update_factor env cs s m = (t, None) /\ is_mat N K Z /\ fms t = with_factor m Z (fms s) /\ same_problem s t /\ cp_coherent K t /\
    allowed (nn m) N K (mget Z) /\
    forall Y, allowed (nn m) N K Y -> normal_loss (lam m) K (cp_X s) (fms s) m (mget Z) <= normal_loss (lam m) K (cp_X s) (fms s) m Y.
Proof.
  intros HC HO Hm N. destruct (HO m Hm) as (F1 & F2 & F3 & Hl). destruct (nn m) eqn:En.
  - destruct (@update_nonneg env cs K s m HC HK Hm (lam m) F1 F2 F3 Hl HN) as (t & Z & E & HZ & Ef & HSP & HCt & Hnn & Hopt). exists t, Z.
    do 5 (split; [assumption|]). split; [intros _; exact Hnn|]. intros Y HY. apply Hopt. now apply HY.
  - destruct (cs_ridge cs) as [l|] eqn:Er.
    + destruct (@update_ridge env cs K s m HC HK Hm (lam m) F1 F2 ltac:(congruence) F3 Hl) as (t & Z & E & HZ & Ef & HSP & HCt & Hopt); [intros A HA; exact (HS HA)|].
      exists t, Z. do 5 (split; [assumption|]). split; [intros E0; discriminate E0|]. intros Y _. apply Hopt.
    + pose proof (rightsolve_flags env F1 F2 F3) as ES. cbn [andb] in ES. rewrite Er in ES. cbv zeta in ES.
      assert (E0 : lam m = 0) by (unfold penalty in F3; now rewrite Er in F3).
      destruct (update_result HC HK Hm (feasible := fun _ => True) (lam := 0) ES) as (t & Z & A1 & A2 & A3 & A4 & A5 & _ & A6).
      { intros V P HV HP _ _. destruct (HS HV) as (U & Sv & Vh & E1 & Hsvd).
        destruct (rightsolve_ok HV HP E1 Hsvd) as (Z & EZ & HZ & _ & Hopt & _). exists Z. do 3 (split; auto). intros Y _. specialize (Hopt Y). lra. }
      exists t, Z. do 5 (split; [assumption|]). split; [intros E1; discriminate E1|]. intros Y _. unfold normal_loss. rewrite E0. now apply A6.
Qed.

Lemma factor_mat s m : cp_coherent K s -> (m < length (shape (cp_X s)))%nat -> is_mat (nth m (shape (cp_X s)) 0%nat) K (nth m (fms s) m0).
Proof.
  intros HC Hm. destruct (co_fac HC) as [HU Hr]. assert (E : nth m (shape (cp_X s)) 0%nat = nrows (nth m (fms s) m0)) by (rewrite <- Hr; now apply nth_rows).
  rewrite E. apply (proj1 (Forall_forall _ _) HU). apply nth_In. now rewrite (mode_len Hr).
Qed.

Lemma modes_run l : forall s, cp_coherent K s -> option_set cs s nn lam -> Forall (fun m => (m < length (shape (cp_X s)))%nat) l ->
  exists t, cp_update_modes env cs l s = (t, None) /\ cp_coherent K t /\ same_problem s t /\ forall m, ~ In m l -> nth m (fms t) m0 = nth m (fms s) m0.
Proof.
  induction l as [|n l IH]; intros s HC HO Hl.
  - exists s. split; [reflexivity|]. split; [exact HC|]. split; [apply same_problem_refl|auto].
  - apply Forall_cons_iff in Hl. destruct Hl as [Hn Hl'].
    destruct (update_settles HC HO Hn) as (s1 & Z & E1 & _ & Ef & HSP & HC1 & _).
    destruct (IH s1 HC1 (option_same HSP HO)) as (t & Et & HCt & HSt & Ht); [now rewrite (sp_X HSP)|].
    exists t. cbn [cp_update_modes]. rewrite E1. split; [exact Et|]. split; [exact HCt|]. split; [eapply same_problem_trans; eauto|].
    intros m Hm. rewrite Ht by (intros Hi; apply Hm; now right). rewrite Ef. unfold with_factor. apply nth_replace_at_neq. intros ->. apply Hm. now left.
Qed.

Lemma modes_settled l : forall s t, cp_coherent K s -> option_set cs s nn lam -> Forall (fun m => (m < length (shape (cp_X s)))%nat) l -> NoDup l ->
  cp_update_modes env cs l s = (t, None) -> fms t = fms s -> forall m, In m l -> mode_settled (nn m) (lam m) K (cp_X s) (fms s) m.
Proof.
  induction l as [|n l IH]; intros s t HC HO Hl Hd E Ef m Hin; [contradiction|]. cbn [cp_update_modes] in E.
  apply Forall_cons_iff in Hl. destruct Hl as [Hn Hl']. apply NoDup_cons_iff in Hd. destruct Hd as [Hni Hd'].
  destruct (update_settles HC HO Hn) as (s1 & Z & E1 & HZ & Ef1 & HSP & HC1 & AZ & BZ). rewrite E1 in E.
  assert (HO1 : option_set cs s1 nn lam) by (now apply (option_same HSP)).
  assert (Hl1 : Forall (fun m => (m < length (shape (cp_X s1)))%nat) l) by (now rewrite (sp_X HSP)).
  pose proof (mode_len (proj2 (co_fac HC))) as Hlen.
  destruct (modes_run HC1 HO1 Hl1) as (t' & Et' & _ & _ & Ht'). rewrite E in Et'. injection Et' as <-.
  assert (EZ : Z = nth n (fms s) m0).
  { rewrite <- Ef, (Ht' n Hni), Ef1. unfold with_factor. rewrite nth_replace_at_eq; auto. now rewrite Hlen. }
  assert (Es : fms s1 = fms s) by (rewrite Ef1, EZ; apply with_factor_self; now rewrite Hlen).
  destruct Hin as [<-|Hin].
  - split; rewrite <- EZ; auto.
  - rewrite <- Es, <- (sp_X HSP). apply (IH s1 t); auto. congruence.
Qed.

Lemma modes_keep l : (forall m, In m l -> 0 < lam m) -> forall s, cp_coherent K s -> option_set cs s nn lam -> Forall (fun m => (m < length (shape (cp_X s)))%nat) l ->
  (forall m, In m l -> mode_settled (nn m) (lam m) K (cp_X s) (fms s) m) ->
  exists t, cp_update_modes env cs l s = (t, None) /\ fms t = fms s /\ same_problem s t.
Proof.
  induction l as [|n l IH]; intros Hpos s HC HO Hl HB.
  - exists s. split; [reflexivity|]. split; [reflexivity|apply same_problem_refl].
  - apply Forall_cons_iff in Hl. destruct Hl as [Hn Hl'].
    destruct (update_settles HC HO Hn) as (s1 & Z & E1 & HZ & Ef1 & HSP & HC1 & AZ & BZ).
    destruct (HB n (or_introl eq_refl)) as [AU BU].
    assert (EZ : Z = nth n (fms s) m0) by exact (loss_unique (Hpos n (or_introl eq_refl)) HZ (factor_mat HC Hn) AZ BZ AU BU).
    assert (Es : fms s1 = fms s) by (rewrite Ef1, EZ; apply with_factor_self; now rewrite (mode_len (proj2 (co_fac HC)))).
    destruct (IH (fun m Hm => Hpos m (or_intror Hm)) s1 HC1 (option_same HSP HO)) as (u & E2 & Ef2 & HS2).
    + now rewrite (sp_X HSP).
    + intros m' Hm'. rewrite (sp_X HSP), Es. apply HB. now right.
    + exists u. cbn [cp_update_modes]. rewrite E1, E2. split; [reflexivity|]. split; [congruence|]. eapply same_problem_trans; eauto.
Qed.

Lemma pass_settled s : cp_coherent K s -> option_set cs s nn lam ->
  snd (md_update md s) = None /\
  (fms (state_after md s 1) = fms s -> forall m, (m < length (shape (cp_X s)))%nat -> mode_settled (nn m) (lam m) K (cp_X s) (fms s) m).
Proof.
  intros HC HO. cbn [state_after md cp_model md_update]. unfold cp_update_factors.
  destruct (modes_run HC HO (all_modes s)) as (t & Et & _). rewrite Et. split; [reflexivity|]. cbn [fst]. intros E m Hm.
  apply (modes_settled HC HO (all_modes s) (seq_NoDup _ _) Et E). apply in_seq. unfold ndim. lia.
Qed.
Lemma pass_keeps s : cp_coherent K s -> option_set cs s nn lam -> (forall m, (m < length (shape (cp_X s)))%nat -> 0 < lam m) ->
  (forall m, (m < length (shape (cp_X s)))%nat -> mode_settled (nn m) (lam m) K (cp_X s) (fms s) m) ->
  forall k, fms (state_after md s k) = fms s.
Proof.
  intros HC HO Hpos HB. induction k as [|k IH]; [reflexivity|].
  destruct (@after_coherent env cs K s k HC) as [HCk HSk]. fold md in HCk, HSk. pose proof (option_same HSk HO) as HOk.
  cbn [state_after]. set (u := state_after md s k) in *. cbn [md cp_model md_update]. unfold cp_update_factors.
  destruct (modes_keep (l := seq 0 (ndim (cp_X u)))) with (s := u) as (t & Et & Ef & _); auto.
  - intros m Hm. apply in_seq in Hm. apply Hpos. unfold ndim in Hm. rewrite (sp_X HSk) in Hm. lia.
  - apply all_modes.
  - intros m Hm. apply in_seq in Hm. unfold ndim in Hm. rewrite (sp_X HSk) in *. rewrite IH. apply HB. lia.
  - rewrite Et. cbn [fst]. congruence.
Qed.
End Pass.

(** *** The documented loss *)
Lemma documented_step lam K X Us m D : factors_ok K X Us -> (m < length (shape X))%nat ->
  let N := nth m (shape X) 0%nat in
  exists c, forall t, documented_in lam K X Us m (step_to N K (nth m Us m0) D t) = documented_in lam K X Us m (nth m Us m0) +
    (2 * sum N (fun i => sum K (fun r => (gap K X Us m i r + lam * mget (nth m Us m0) i r) * mget D i r)) * t + c * t ^ 2).
Proof.
  intros [HU Hr] Hm N. set (C := prodl (remove_at m (shape X))). set (U := nth m Us m0) in *.
  set (P := mprod K (mget U) (mode_A X Us m)). set (Q := mprod K (mget D) (mode_A X Us m)).
  exists (frob2 N C Q + lam * frob2 N K (mget D)). intros t.
  assert (E1 : sse X (with_factor m (step_to N K U D t) Us) unit_weights K = dist2 N C (fun i j => P i j + t * Q i j) (mode_B X m)).
  { rewrite (mode_sse K Hr Hm). fold N C. unfold dist2. apply sum_ext. intros i Hi. apply sum_ext. intros j Hj. do 2 f_equal. unfold P, Q, mprod.
    rewrite <- sum_scal_l, <- sum_plus. apply sum_ext. intros r Hk. unfold step_to. rewrite mget_tab2 by auto. ring. }
  assert (E2 : frob2 N K (mget (step_to N K U D t)) = dist2 N K (fun i r => mget U i r + t * mget D i r) (fun _ _ => 0)).
  { unfold frob2, dist2. apply sum_ext. intros i Hi. apply sum_ext. intros r Hk. unfold step_to. rewrite mget_tab2 by auto. f_equal. ring. }
  assert (E0 : frob2 N K (mget U) = dist2 N K (mget U) (fun _ _ => 0)).
  { unfold frob2, dist2. apply sum_ext. intros i Hi. apply sum_ext. intros r Hk. f_equal. ring. }
  assert (EG : sum N (fun i => sum C (fun j => (P i j - mode_B X m i j) * Q i j)) = sum N (fun i => sum K (fun r => gap K X Us m i r * mget D i r))).
  { apply sum_ext. intros i Hi. transitivity (sum C (fun j => sum K (fun r => (P i j - mode_B X m i j) * mode_A X Us m r j * mget D i r))).
    - apply sum_ext. intros j Hj. unfold Q, mprod. rewrite <- sum_scal_l. apply sum_ext. intros; ring.
    - rewrite sum_swap. apply sum_ext. intros r Hk. rewrite sum_scal_r. f_equal.
      unfold P, C. rewrite gram_residual. unfold gap. fold U. f_equal.
      + unfold mprod. apply sum_ext. intros k Hkk. f_equal. apply mode_gV; assumption.
      + now apply (mode_gM Us Hm). }
  unfold documented_in. fold N. rewrite E1, E2, E0, !dist2_step, EG.
  rewrite (mode_sse K Hr Hm). fold N C. change (mprod K (mget U) (mode_A X Us m)) with P.
  assert (ES : sum N (fun i => sum K (fun r => (gap K X Us m i r + lam * mget U i r) * mget D i r)) =
    sum N (fun i => sum K (fun r => gap K X Us m i r * mget D i r)) + lam * sum N (fun i => sum K (fun j => (mget U i j - 0) * mget D i j))).
  { rewrite <- sum_scal_l, <- sum_plus. apply sum_ext. intros i Hi. rewrite <- sum_scal_l, <- sum_plus. apply sum_ext. intros; ring. }
  rewrite ES. ring.
Qed.

Lemma quadratic_slope f a b c : (forall t, f t = a + (b * t + c * t ^ 2)) -> derivable_pt_lim f 0 b.
Proof.
  intros E eps He. assert (Hd : 0 < eps / (Rabs c + 1)).
  { apply Rmult_lt_0_compat; [auto|]. apply Rinv_0_lt_compat. pose proof (Rabs_pos c). lra. }
  exists (mkposreal _ Hd). intros h Hh Hlt. cbn in Hlt. rewrite !E.
  replace ((a + (b * (0 + h) + c * (0 + h) ^ 2) - (a + (b * 0 + c * 0 ^ 2))) / h - b) with (c * h) by (field; auto).
  rewrite Rabs_mult. pose proof (Rabs_pos c) as Hc. apply Rle_lt_trans with (Rabs c * (eps / (Rabs c + 1))).
  - apply Rmult_le_compat_l; [auto|lra].
  - apply (Rmult_lt_reg_r (Rabs c + 1)); [lra|]. unfold Rdiv. rewrite !Rmult_assoc, Rinv_l, Rmult_1_r by lra.
    rewrite (Rmult_comm (Rabs c)). rewrite Rmult_plus_distr_l. lra.
Qed.

(** The slope of the documented loss in a direction *)
Lemma documented_slope lam K X Us m D : factors_ok K X Us -> (m < length (shape X))%nat ->
  let N := nth m (shape X) 0%nat in
  derivable_pt_lim (fun t => documented_in lam K X Us m (step_to N K (nth m Us m0) D t)) 0
    (2 * sum N (fun i => sum K (fun r => (gap K X Us m i r + lam * mget (nth m Us m0) i r) * mget D i r))).
Proof. intros HF Hm N. destruct (@documented_step lam K X Us m D HF Hm) as (c & E). exact (@quadratic_slope _ _ _ c E). Qed.

(** Standing still at a stationary point of the documented loss *)
Lemma settled_documented lam K X Us m : factors_ok K X Us -> (m < length (shape X))%nat -> 0 < lam -> mode_settled false lam K X Us m ->
  let N := nth m (shape X) 0%nat in
  (forall D, derivable_pt_lim (fun t => documented_in lam K X Us m (step_to N K (nth m Us m0) D t)) 0 0) ->
  forall i r, (i < N)%nat -> (r < K)%nat -> sum K (fun k => mget (nth m Us m0) i k * normal_lhs Us m r k) = mget (nth m Us m0) i r.
Proof.
  intros HF Hm Hl HB N H0 i r Hi Hr.
  assert (HG : forall j k, (j < N)%nat -> (k < K)%nat -> gap K X Us m j k + lam * mget (nth m Us m0) j k = 0).
  { intros j k Hj Hk. pose proof (@documented_slope lam K X Us m (tab2 N K (at_one j k)) HF Hm) as HS. fold N in HS.
    pose proof (uniqueness_limite _ _ _ _ HS (H0 (tab2 N K (at_one j k)))) as E.
    assert (E1 : sum N (fun i => sum K (fun r => (gap K X Us m i r + lam * mget (nth m Us m0) i r) * mget (tab2 N K (at_one j k)) i r)) =
      gap K X Us m j k + lam * mget (nth m Us m0) j k); [|lra].
    rewrite <- (@sum_at_one K X m (fun i r => gap K X Us m i r + lam * mget (nth m Us m0) i r) j k Hj Hk). fold N.
    apply sum_ext. intros a Ha. apply sum_ext. intros b Hb. now rewrite mget_tab2. }
  destruct (proj1 (@settled_iff lam K X Us m (Rlt_le _ _ Hl) false) HB i r Hi Hr) as [HT _]. specialize (HT eq_refl).
  unfold turned_gap in HT.
  assert (E : sum K (fun k => gap K X Us m i k * normal_lhs Us m r k) = - lam * sum K (fun k => mget (nth m Us m0) i k * normal_lhs Us m r k)).
  { rewrite <- sum_scal_l. apply sum_ext. intros k Hk. replace (gap K X Us m i k) with (- lam * mget (nth m Us m0) i k) by (pose proof (HG i k Hi Hk); lra). ring. }
  rewrite E in HT. apply (Rmult_eq_reg_l lam); lra.
Qed.

(** Without penalty, where V is regular and non-negative entries are positive, the error itself is stationary. *)
Lemma settled_stationary nn K X Us m : factors_ok K X Us -> (m < length (shape X))%nat -> mode_settled nn 0 K X Us m ->
  let N := nth m (shape X) 0%nat in
  (nn = true -> forall i r, (i < N)%nat -> (r < K)%nat -> 0 < mget (nth m Us m0) i r) ->
  (forall g, (forall r, (r < K)%nat -> sum K (fun k => g k * normal_lhs Us m r k) = 0) -> forall k, (k < K)%nat -> g k = 0) ->
  stationary_in K X Us m.
Proof.
  intros HF Hm HB N Hp Hreg D.
  assert (HG : forall i r, (i < N)%nat -> (r < K)%nat -> gap K X Us m i r = 0).
  { intros i r Hi Hr. apply (Hreg (gap K X Us m i)); [|exact Hr]. intros q Hq.
    destruct (proj1 (@settled_iff 0 K X Us m (Rle_refl _) nn) HB i q Hi Hq) as [H0 H1].
    assert (E : turned_gap 0 K X Us m i q = 0).
    { destruct nn; [|now apply H0]. destruct (H1 eq_refl) as (_ & _ & H2). apply H2. now apply Hp. }
    unfold turned_gap in E. lra. }
  destruct (@documented_step 0 K X Us m D HF Hm) as (c & E). fold N in E.
  assert (E1 : forall t, sse X (with_factor m (step_to N K (nth m Us m0) D t) Us) unit_weights K =
    sse X (with_factor m (nth m Us m0) Us) unit_weights K + (0 * t + c * t ^ 2)).
  { intros t. specialize (E t). unfold documented_in in E. rewrite !Rmult_0_l, !Rplus_0_r in E. rewrite E. f_equal. f_equal. f_equal.
    rewrite (@sum_zero N); [ring|]. intros i Hi. apply sum_zero. intros r Hr. rewrite HG by auto. ring. }
  exact (@quadratic_slope _ _ _ c E1).
Qed.
