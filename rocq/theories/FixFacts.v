(** Fixed points of CP_ALS and starts that lead nowhere: lemmas for C80. *)
From Verif Require Export FixSpec SymFacts.
From Verif Require Import Prelude Lin.
Set Implicit Arguments.
Unset Strict Implicit.
Local Open Scope R_scope.
Notation fms s := (kt_fms (cp_dec s)).

Lemma nth_rows Us m : nth m (rows Us) 0%nat = nrows (nth m Us m0).
Proof. unfold rows. change 0%nat with (nrows m0) at 1. now rewrite map_nth. Qed.
Lemma smallest_least K X Us m : factors_ok K X Us -> (m < length (shape X))%nat ->
  (smallest_best K X Us m <-> least_best K X Us m (nth m Us m0)).
Proof.
  intros [HU Hr] Hm. pose proof (mode_len Hr) as Hl. unfold smallest_best, least_best.
  rewrite with_factor_self by (now rewrite Hl).
  assert (HM : is_mat (nth m (shape X) 0%nat) K (nth m Us m0)).
  { assert (E : nth m (shape X) 0%nat = nrows (nth m Us m0)).
    { rewrite <- Hr. now apply nth_rows. }
    rewrite E. apply (proj1 (Forall_forall _ _) HU). apply nth_In. now rewrite Hl. }
  tauto.
Qed.

Section Fixed.
Variables (env : cp_env) (cs : cp_settings) (K : nat).
Hypothesis (HK : cs_rank cs = K) (Hsvd : svd_works_on K K (env_svd env)).
Let md := cp_model env cs.

Lemma update_keeps_best s m : cp_coherent K s -> free_fit cs s -> (m < length (shape (cp_X s)))%nat ->
  smallest_best K (cp_X s) (fms s) m ->
  exists t, cp_update_factor env cs s m = (t, None) /\ fms t = fms s /\ same_problem s t /\ cp_coherent K t.
Proof.
  intros HC HF Hm HB. destruct (update_least HC HK Hm (HF m Hm) Hsvd) as (t & Z & E & Ef & HSP & HCt & HL).
  exists t. split; [exact E|]. split; [|auto].
  apply (smallest_least (co_fac HC) Hm) in HB. rewrite Ef.
  rewrite (least_unique (proj2 (co_fac HC)) Hm HL HB). apply with_factor_self. now rewrite (mode_len (proj2 (co_fac HC))).
Qed.

Lemma modes_keep_best l : forall s, cp_coherent K s -> free_fit cs s ->
  Forall (fun m => (m < length (shape (cp_X s)))%nat) l ->
  (forall m, In m l -> smallest_best K (cp_X s) (fms s) m) ->
  exists t, cp_update_modes env cs l s = (t, None) /\ fms t = fms s /\ same_problem s t.
Proof.
  induction l as [|m l IH]; intros s HC HF Hl HB.
  - exists s. split; [reflexivity|]. split; [reflexivity|apply same_problem_refl].
  - apply Forall_cons_iff in Hl. destruct Hl as [Hm Hl'].
    destruct (update_keeps_best HC HF Hm (HB m (or_introl eq_refl))) as (t & E & Ef & HS & HCt).
    destruct (IH t HCt) as (u & E2 & Ef2 & HS2).
    + now apply (free_fit_same HS).
    + now rewrite (sp_X HS).
    + intros m' Hm'. rewrite (sp_X HS), Ef. apply HB. now right.
    + exists u. cbn [cp_update_modes]. rewrite E, E2. split; [reflexivity|]. split; [congruence|].
      eapply same_problem_trans; eauto.
Qed.

Lemma modes_other l : forall s t m, cp_coherent K s -> free_fit cs s ->
  Forall (fun m => (m < length (shape (cp_X s)))%nat) l -> ~ In m l ->
  cp_update_modes env cs l s = (t, None) -> nth m (fms t) m0 = nth m (fms s) m0.
Proof.
  induction l as [|n l IH]; intros s t m HC HF Hl Hin E; cbn [cp_update_modes] in E.
  - now injection E as <-.
  - apply Forall_cons_iff in Hl. destruct Hl as [Hn Hl'].
    destruct (update_least HC HK Hn (HF n Hn) Hsvd) as (s1 & Z & E1 & Ef & HSP & HC1 & _). rewrite E1 in E.
    rewrite (IH s1 t m HC1); auto.
    + rewrite Ef. unfold with_factor. apply nth_replace_at_neq. intros ->. apply Hin. now left.
    + now apply (free_fit_same HSP).
    + now rewrite (sp_X HSP).
    + intros H. apply Hin. now right.
Qed.

Lemma modes_fixed_best l : forall s t, cp_coherent K s -> free_fit cs s ->
  Forall (fun m => (m < length (shape (cp_X s)))%nat) l -> NoDup l ->
  cp_update_modes env cs l s = (t, None) -> fms t = fms s ->
  forall m, In m l -> smallest_best K (cp_X s) (fms s) m.
Proof.
  induction l as [|n l IH]; intros s t HC HF Hl Hd E Ef m Hin; [contradiction|]. cbn [cp_update_modes] in E.
  apply Forall_cons_iff in Hl. destruct Hl as [Hn Hl']. apply NoDup_cons_iff in Hd. destruct Hd as [Hni Hd'].
  destruct (update_least HC HK Hn (HF n Hn) Hsvd) as (s1 & Z & E1 & Ef1 & HSP & HC1 & HL). rewrite E1 in E.
  assert (HF1 : free_fit cs s1) by (now apply (free_fit_same HSP)).
  assert (Hl1 : Forall (fun m => (m < length (shape (cp_X s1)))%nat) l) by (now rewrite (sp_X HSP)).
  pose proof (mode_len (proj2 (co_fac HC))) as Hlen.
  assert (EZ : Z = nth n (fms s) m0).
  { rewrite <- Ef, (modes_other HC1 HF1 Hl1 Hni E), Ef1. unfold with_factor. rewrite nth_replace_at_eq; auto. now rewrite Hlen. }
  assert (Es : fms s1 = fms s).
  { rewrite Ef1, EZ. apply with_factor_self. now rewrite Hlen. }
  destruct Hin as [<-|Hin].
  - apply (smallest_least (co_fac HC) Hn). now rewrite <- EZ.
  - rewrite <- Es, <- (sp_X HSP). apply (IH s1 t); auto. congruence.
Qed.

(** A pass changes nothing exactly if every factor is the smallest of the best. *)
Lemma fixed_points s : cp_coherent K s -> free_fit cs s ->
  (fms (state_after md s 1) = fms s <->
   forall m, (m < length (shape (cp_X s)))%nat -> smallest_best K (cp_X s) (fms s) m).
Proof.
  intros HC HF. cbn [state_after md cp_model md_update]. unfold cp_update_factors. split.
  - intros E m Hm. destruct (modes_decrease Hsvd HK HC HF (all_modes s)) as (t & Et & _). rewrite Et in E. cbn [fst] in E.
    apply (modes_fixed_best HC HF (all_modes s) (seq_NoDup _ _) Et E). apply in_seq. unfold ndim. lia.
  - intros HB. destruct (modes_keep_best HC HF (all_modes s)) as (t & Et & Ef & _).
    + intros m Hm. apply in_seq in Hm. apply HB. unfold ndim in Hm. lia.
    + now rewrite Et.
Qed.

Lemma fixed_forever s : cp_coherent K s -> free_fit cs s -> fms (state_after md s 1) = fms s ->
  forall k, fms (state_after md s k) = fms s.
Proof.
  intros HC HF E. induction k as [|k IH]; [reflexivity|].
  destruct (@after_coherent env cs K s k HC) as [HCk HSk]. fold md in HCk, HSk.
  pose proof (free_fit_same HSk HF) as HFk.
  rewrite <- IH. change (state_after md s (S k)) with (state_after md (state_after md s k) 1).
  apply (fixed_points HCk HFk). rewrite (sp_X HSk), IH. now apply fixed_points.
Qed.

(** After a pass no model with the old factors in the modes after the first is better. *)
Lemma first_pass s W k : cp_coherent K s -> free_fit cs s -> is_mat (nth 0 (shape (cp_X s)) 0%nat) K W ->
  sse (cp_X s) (fms (state_after md s (S k))) unit_weights K <=
  sse (cp_X s) (with_factor 0 W (fms (state_after md s k))) unit_weights K.
Proof.
  intros HC HF HW. destruct (@after_coherent env cs K s k HC) as [HCk HSk]. fold md in HCk, HSk.
  pose proof (free_fit_same HSk HF) as HFk. rewrite <- (sp_X HSk) in HW |- *.
  cbn [state_after]. set (u := state_after md s k) in *. clearbody u.
  cbn [md cp_model md_update]. unfold cp_update_factors, ndim.
  pose proof (co_data HCk) as (_ & H2 & _). destruct (length (shape (cp_X u))) as [|N] eqn:EN; [lia|].
  assert (Hm : (0 < length (shape (cp_X u)))%nat) by lia.
  destruct (update_least HCk HK Hm (HFk 0%nat Hm) Hsvd) as (t & Z & E & Ef & HSP & HCt & (_ & HL & _)).
  cbn [seq cp_update_modes]. rewrite E.
  destruct (@modes_decrease env cs K (seq 1 N) Hsvd HK t HCt (free_fit_same HSP HFk)) as (v & Ev & _ & _ & Hle).
  - rewrite (sp_X HSP), EN. apply Forall_forall. intros m Hi. apply in_seq in Hi. lia.
  - rewrite Ev. cbn [fst]. rewrite (sp_X HSP), Ef in Hle. eapply Rle_trans; [exact Hle|]. now apply HL.
Qed.
End Fixed.

(** *** Fixed points are stationary points of the error *)
Lemma quadratic_flat a b c : (forall t, 0 <= b * t + c * t ^ 2) -> 0 <= c ->
  derivable_pt_lim (fun t => a + (b * t + c * t ^ 2)) 0 0.
Proof.
  intros H Hc. assert (Hb : b = 0).
  { destruct (Req_dec b 0) as [|Hb]; auto. exfalso.
    pose proof (H (- b / (c + 1))) as Ht.
    assert (E : b * (- b / (c + 1)) + c * (- b / (c + 1)) ^ 2 = - (b * b) / ((c + 1) * (c + 1))) by (field; lra).
    rewrite E in Ht. assert (0 < b * b) by (now apply Rsqr_pos_lt).
    assert (0 < b * b / ((c + 1) * (c + 1))) by (apply Rmult_lt_0_compat; [auto|apply Rinv_0_lt_compat; nra]).
    assert (- (b * b) / ((c + 1) * (c + 1)) = - (b * b / ((c + 1) * (c + 1)))) by (field; lra). lra. }
  subst b. intros eps He. assert (Hd : 0 < eps / (c + 1)) by (apply Rmult_lt_0_compat; [auto|apply Rinv_0_lt_compat; lra]).
  exists (mkposreal _ Hd). intros h Hh Hlt. cbn in Hlt.
  replace ((a + (0 * (0 + h) + c * (0 + h) ^ 2) - (a + (0 * 0 + c * 0 ^ 2))) / h - 0) with (c * h) by (field; auto).
  rewrite Rabs_mult, (Rabs_right c) by lra. apply Rle_lt_trans with (c * (eps / (c + 1))).
  - apply Rmult_le_compat_l; [auto|lra].
  - apply (Rmult_lt_reg_r (c + 1)); [lra|]. field_simplify; [|lra]. nra.
Qed.

Lemma dist2_step p C A B D t :
  dist2 p C (fun i j => A i j + t * D i j) B =
  dist2 p C A B + (2 * sum p (fun i => sum C (fun j => (A i j - B i j) * D i j)) * t + frob2 p C D * t ^ 2).
Proof.
  unfold dist2, frob2.
  transitivity (sum p (fun i => sum C (fun j => (A i j - B i j) ^ 2) +
    (2 * t * sum C (fun j => (A i j - B i j) * D i j) + t ^ 2 * sum C (fun j => D i j ^ 2)))).
  - apply sum_ext. intros i Hi. rewrite <- !sum_scal_l, <- !sum_plus. apply sum_ext. intros j Hj. ring.
  - rewrite !sum_plus, !sum_scal_l. ring.
Qed.

Lemma best_flat K X Us m : factors_ok K X Us -> (m < length (shape X))%nat ->
  (forall W, is_mat (nth m (shape X) 0%nat) K W -> sse X Us unit_weights K <= sse X (with_factor m W Us) unit_weights K) ->
  stationary_in K X Us m.
Proof.
  intros [HU Hr] Hm HB D. set (N := nth m (shape X) 0%nat) in *. set (U := nth m Us m0).
  set (C := prodl (remove_at m (shape X))).
  set (P := mprod K (mget U) (mode_A X Us m)). set (Q := mprod K (mget D) (mode_A X Us m)).
  assert (E : forall t, sse X (with_factor m (step_to N K U D t) Us) unit_weights K =
    dist2 N C P (mode_B X m) + (2 * sum N (fun i => sum C (fun j => (P i j - mode_B X m i j) * Q i j)) * t + frob2 N C Q * t ^ 2)).
  { intros t. rewrite (mode_sse K Hr Hm). fold N C. rewrite <- dist2_step. unfold dist2. apply sum_ext. intros i Hi.
    apply sum_ext. intros j Hj. do 2 f_equal. unfold P, Q, mprod. rewrite <- sum_scal_l, <- sum_plus. apply sum_ext. intros r Hk.
    unfold step_to. rewrite mget_tab2 by auto. ring. }
  assert (E0 : sse X Us unit_weights K = dist2 N C P (mode_B X m)).
  { rewrite <- (@with_factor_self m Us) by (now rewrite (mode_len Hr)). rewrite (mode_sse K Hr Hm). reflexivity. }
  set (a := dist2 N C P (mode_B X m)) in *.
  set (b := 2 * sum N (fun i => sum C (fun j => (P i j - mode_B X m i j) * Q i j))) in *. set (c := frob2 N C Q) in *.
  assert (Hq : forall t, 0 <= b * t + c * t ^ 2).
  { intros t. pose proof (HB (step_to N K U D t) (is_mat_tab2 _ _ _)) as H. rewrite E, E0 in H. lra. }
  assert (Hc : 0 <= c) by (apply frob2_nonneg).
  pose proof (@quadratic_flat a b c Hq Hc) as HD. intros eps He. destruct (HD eps He) as (d & Hd). exists d.
  intros h Hh Hlt. rewrite !E. now apply Hd.
Qed.
Lemma best_stationary K X Us m : factors_ok K X Us -> (m < length (shape X))%nat ->
  smallest_best K X Us m -> stationary_in K X Us m.
Proof. intros HF Hm [HB _]. now apply best_flat. Qed.

(** *** Starts that lead nowhere *)
Definition zmat (N K : nat) : nd := tab2 N K (fun _ _ => 0).
Lemma zmat_get N K i r : (i < N)%nat -> (r < K)%nat -> mget (zmat N K) i r = 0.
Proof. intros. unfold zmat. now rewrite mget_tab2. Qed.
Lemma frob2_zmat N K : frob2 N K (mget (zmat N K)) = 0.
Proof.
  unfold frob2. apply sum_zero. intros i Hi. apply sum_zero. intros r Hr. rewrite zmat_get by auto. ring.
Qed.

Lemma energy_mode X m : (m < length (shape X))%nat ->
  energy X = dist2 (nth m (shape X) 0%nat) (prodl (remove_at m (shape X))) (fun _ _ => 0) (mode_B X m).
Proof.
  intros Hm. unfold energy, dist2. rewrite (sumf_indices_axis _ Hm). apply sum_ext. intros i Hi.
  rewrite sumf_indices_seq. apply sum_ext. intros c Hc. unfold mode_B. ring.
Qed.
Lemma sse_zero_mode K X Us m Z : rows Us = shape X -> (m < length (shape X))%nat ->
  (forall i r, (i < nth m (shape X) 0)%nat -> (r < K)%nat -> mget Z i r = 0) ->
  sse X (with_factor m Z Us) unit_weights K = energy X.
Proof.
  intros Hr Hm HZ. rewrite (mode_sse K Hr Hm), (energy_mode Hm). unfold dist2. apply sum_ext. intros i Hi.
  apply sum_ext. intros c Hc. do 2 f_equal. unfold mprod. apply sum_zero. intros r Hk. rewrite HZ by auto. ring.
Qed.

(** If the right-hand side of the mode is zero, the zero matrix is the smallest of the best. *)
Lemma orthogonal_least K X Us m : rows Us = shape X -> (m < length (shape X))%nat ->
  (forall i r, (i < nth m (shape X) 0)%nat -> (r < K)%nat -> mttkrp_entry X Us m i r = 0) ->
  least_best K X Us m (zmat (nth m (shape X) 0%nat) K).
Proof.
  intros Hr Hm H0. set (N := nth m (shape X) 0%nat) in *. split; [apply is_mat_tab2|]. split.
  - intros W HW. rewrite (@sse_zero_mode K X Us m (zmat N K) Hr Hm) by (intros; now apply zmat_get).
    rewrite (mode_sse K Hr Hm), (energy_mode Hm). fold N. set (C := prodl (remove_at m (shape X))).
    set (P := mprod K (mget W) (mode_A X Us m)).
    assert (E : dist2 N C P (mode_B X m) = dist2 N C (fun i j => 0 + 1 * P i j) (mode_B X m)).
    { unfold dist2. apply sum_ext. intros i Hi. apply sum_ext. intros j Hj. ring. }
    rewrite E, dist2_step. pose proof (frob2_nonneg N C P) as Hp.
    assert (E0 : sum N (fun i => sum C (fun j => (0 - mode_B X m i j) * P i j)) = 0).
    { apply sum_zero. intros i Hi. unfold P, mprod.
      transitivity (sum C (fun j => sum K (fun r => - mget W i r * (mode_B X m i j * mode_A X Us m r j)))).
      - apply sum_ext. intros j Hj. rewrite <- sum_scal_l. apply sum_ext. intros r Hk. ring.
      - rewrite sum_swap. apply sum_zero. intros r Hk. rewrite sum_scal_l.
        pose proof (@mode_gM X Us m Hm i r Hi) as G. unfold normal_rhs in G. rewrite (H0 i r Hi Hk) in G.
        unfold gM in G. fold C in G. rewrite G. ring. }
    rewrite E0. lra.
  - intros W HW _. rewrite frob2_zmat. apply frob2_nonneg.
Qed.

(** The same if another factor is zero *)
Lemma zero_least K X Us m n : factors_ok K X Us -> (m < length (shape X))%nat -> (n < length (shape X))%nat -> n <> m ->
  (forall i r, (i < nth n (shape X) 0)%nat -> (r < K)%nat -> mget (nth n Us m0) i r = 0) ->
  least_best K X Us m (zmat (nth m (shape X) 0%nat) K).
Proof.
  intros HFO Hm Hn Hne H0. pose proof HFO as [HU Hr]. set (N := nth m (shape X) 0%nat) in *.
  assert (E : forall W, is_mat N K W -> sse X (with_factor m W Us) unit_weights K = energy X).
  { intros W HW. pose proof (factors_ok_replace HFO Hm HW) as [_ HrW].
    rewrite <- (@with_factor_self n (with_factor m W Us)) by (rewrite (mode_len HrW); auto).
    apply sse_zero_mode; auto. intros i r Hi Hk. unfold with_factor. rewrite nth_replace_at_neq by auto. now apply H0. }
  split; [apply is_mat_tab2|]. split.
  - intros W HW. rewrite !E; [lra|auto|apply is_mat_tab2].
  - intros W HW _. rewrite frob2_zmat. apply frob2_nonneg.
Qed.

Section Trap.
Variables (env : cp_env) (cs : cp_settings) (K : nat).
Hypothesis (HK : cs_rank cs = K) (Hsvd : svd_works_on K K (env_svd env)).
Let md := cp_model env cs.
Definition zero_in (X : nd) (Us : list nd) (m : nat) : Prop :=
  forall i r, (i < nth m (shape X) 0)%nat -> (r < K)%nat -> mget (nth m Us m0) i r = 0.

Lemma update_to_zero s m : cp_coherent K s -> free_fit cs s -> (m < length (shape (cp_X s)))%nat ->
  least_best K (cp_X s) (fms s) m (zmat (nth m (shape (cp_X s)) 0%nat) K) ->
  exists t, cp_update_factor env cs s m = (t, None) /\ same_problem s t /\ cp_coherent K t /\
    fms t = with_factor m (zmat (nth m (shape (cp_X s)) 0%nat) K) (fms s).
Proof.
  intros HC HF Hm HB. destruct (update_least HC HK Hm (HF m Hm) Hsvd) as (t & Z & E & Ef & HSP & HCt & HL).
  exists t. split; [exact E|]. split; [exact HSP|]. split; [exact HCt|].
  rewrite Ef. f_equal. apply (least_unique (proj2 (co_fac HC)) Hm HL HB).
Qed.

Lemma zero_in_set X Us m Z n : rows Us = shape X -> (m < length (shape X))%nat ->
  Z = zmat (nth m (shape X) 0%nat) K -> (n = m \/ zero_in X Us n) -> zero_in X (with_factor m Z Us) n.
Proof.
  intros Hr Hm -> H i r Hi Hk. unfold with_factor. destruct (Nat.eq_dec n m) as [->|Hne].
  - rewrite nth_replace_at_eq by (now rewrite (mode_len Hr)). now apply zmat_get.
  - rewrite nth_replace_at_neq by auto. destruct H as [H|H]; [contradiction|]. now apply H.
Qed.

Lemma modes_to_zero l : forall s, cp_coherent K s -> free_fit cs s ->
  Forall (fun m => (0 < m < length (shape (cp_X s)))%nat) l -> zero_in (cp_X s) (fms s) 0 ->
  exists t, cp_update_modes env cs l s = (t, None) /\ same_problem s t /\
    forall n, In n l \/ zero_in (cp_X s) (fms s) n -> zero_in (cp_X s) (fms t) n.
Proof.
  induction l as [|m l IH]; intros s HC HF Hl H0.
  - exists s. split; [reflexivity|]. split; [apply same_problem_refl|]. intros n [[]|H]. exact H.
  - apply Forall_cons_iff in Hl. destruct Hl as [Hm Hl].
    assert (HL : least_best K (cp_X s) (fms s) m (zmat (nth m (shape (cp_X s)) 0%nat) K)).
    { apply (@zero_least K (cp_X s) (fms s) m 0 (co_fac HC)); try lia. exact H0. }
    destruct (update_to_zero HC HF (proj2 Hm) HL) as (s1 & E & HS & HC1 & Ef).
    pose proof (proj2 (co_fac HC)) as Hr.
    destruct (IH s1 HC1 (free_fit_same HS HF)) as (t & Et & HSt & HZ).
    + now rewrite (sp_X HS).
    + rewrite (sp_X HS), Ef. apply zero_in_set; auto. apply Hm.
    + exists t. cbn [cp_update_modes]. rewrite E, Et. split; [reflexivity|]. split; [eapply same_problem_trans; eauto|].
      intros n Hn. rewrite <- (sp_X HS). apply HZ. destruct Hn as [[<-|Hn]|Hn]; auto; right; rewrite (sp_X HS), Ef;
      apply zero_in_set; auto; apply Hm.
Qed.

Lemma pass_to_zero s : cp_coherent K s -> free_fit cs s -> orthogonal_start K (cp_X s) (fms s) ->
  forall n, (n < length (shape (cp_X s)))%nat -> zero_in (cp_X s) (fms (state_after md s 1)) n.
Proof.
  intros HC HF HO. cbn [state_after md cp_model md_update]. unfold cp_update_factors, ndim.
  pose proof (co_data HC) as (_ & H2 & _). destruct (length (shape (cp_X s))) as [|N] eqn:EN; [lia|].
  assert (Hm : (0 < length (shape (cp_X s)))%nat) by lia. pose proof (proj2 (co_fac HC)) as Hr.
  destruct (update_to_zero HC HF Hm) as (s1 & E & HS & HC1 & Ef). { apply orthogonal_least; auto. }
  cbn [seq cp_update_modes]. rewrite E.
  assert (Z1 : zero_in (cp_X s) (fms s1) 0) by (rewrite Ef; apply zero_in_set; auto).
  destruct (@modes_to_zero (seq 1 N) s1 HC1 (free_fit_same HS HF)) as (t & Et & HSt & HZ).
  - rewrite (sp_X HS), EN. apply Forall_forall. intros m Hi. apply in_seq in Hi. lia.
  - now rewrite (sp_X HS).
  - rewrite Et. cbn [fst]. intros n Hn. rewrite <- (sp_X HS). apply HZ. rewrite (sp_X HS).
    destruct n as [|n]; [now right|]. left. apply in_seq. lia.
Qed.

Lemma zero_in_all X Us : rows Us = shape X -> (forall n, (n < length (shape X))%nat -> zero_in X Us n) -> all_zero K Us.
Proof.
  intros Hr H n i r Hn Hi Hk. apply (H n); auto.
  - now rewrite <- (mode_len Hr).
  - rewrite <- Hr. now rewrite nth_rows.
Qed.

Lemma trap_runs s : cp_coherent K s -> free_fit cs s -> orthogonal_start K (cp_X s) (fms s) ->
  forall k, all_zero K (fms (state_after md s (S k))) /\
    sse (cp_X s) (fms (state_after md s (S k))) unit_weights K = energy (cp_X s).
Proof.
  intros HC HF HO k. pose proof (pass_to_zero HC HF HO) as HZ.
  destruct (@after_coherent env cs K s 1 HC) as [HC1 HS1]. fold md in HC1, HS1.
  pose proof (proj2 (co_fac HC1)) as Hr. rewrite (sp_X HS1) in Hr.
  pose proof (co_data HC) as (_ & H2 & _).
  assert (EF : fms (state_after md s (S k)) = fms (state_after md s 1)).
  { replace (state_after md s (S k)) with (state_after md (state_after md s 1) k).
    2:{ clear. induction k as [|k IH]; [reflexivity|]. cbn [state_after] in *. now rewrite IH. }
    apply (@fixed_forever env cs K HK Hsvd _ HC1 (free_fit_same HS1 HF)).
    apply (@fixed_points env cs K HK Hsvd _ HC1 (free_fit_same HS1 HF)). intros m Hm.
    apply (smallest_least (co_fac HC1) Hm). pose proof Hm as Hm'. rewrite (sp_X HS1) in Hm'.
    assert (EZ : nth m (fms (state_after md s 1)) m0 = zmat (nth m (shape (cp_X (state_after md s 1))) 0%nat) K).
    { assert (EN : nth m (shape (cp_X (state_after md s 1))) 0%nat = nrows (nth m (fms (state_after md s 1)) m0)).
      { rewrite (sp_X HS1), <- Hr. now apply nth_rows. }
      apply (@mat_ext (nth m (shape (cp_X (state_after md s 1))) 0%nat) K).
      - rewrite EN. apply (proj1 (Forall_forall _ _) (proj1 (co_fac HC1))). apply nth_In. now rewrite (mode_len Hr).
      - apply is_mat_tab2.
      - intros i r Hi Hk. rewrite zmat_get by auto. rewrite (sp_X HS1) in Hi. now apply HZ. }
    rewrite EZ. apply (@zero_least K _ _ m (if Nat.eq_dec m 0 then 1 else 0)%nat (co_fac HC1) Hm).
    - rewrite (sp_X HS1). destruct (Nat.eq_dec m 0); lia.
    - destruct (Nat.eq_dec m 0); lia.
    - rewrite (sp_X HS1). apply HZ. destruct (Nat.eq_dec m 0); lia. }
  rewrite EF. split; [now apply (zero_in_all Hr)|].
  rewrite <- (@with_factor_self 0 (fms (state_after md s 1))) by (rewrite (mode_len Hr); lia).
  apply sse_zero_mode; auto; [lia|]. apply HZ. lia.
Qed.
End Trap.

(** *** Complete fits *)
Lemma orthogonal_loss K X Us : factors_ok K X Us -> data_ok X -> orthogonal_start K X Us -> energy X <= sse X Us unit_weights K.
Proof.
  intros HFO (_ & H2 & _) HO. pose proof HFO as [HU Hr]. assert (Hm : (0 < length (shape X))%nat) by lia.
  destruct (orthogonal_least Hr Hm HO) as (_ & HL & _).
  rewrite <- (@with_factor_self 0 Us) by (now rewrite (mode_len Hr)).
  eapply Rle_trans; [|apply HL].
  - rewrite (@sse_zero_mode K X Us 0 _ Hr Hm); [lra|]. intros. now apply zmat_get.
  - assert (EN : nth 0 (shape X) 0%nat = nrows (nth 0 Us m0)) by (rewrite <- Hr; now apply nth_rows).
    rewrite EN. apply (proj1 (Forall_forall _ _) HU). apply nth_In. now rewrite (mode_len Hr).
Qed.

Section Fits.
Variables (env : cp_env) (cs : cp_settings) (K : nat) (cf : config).
Hypothesis (HK : cs_rank cs = K) (Hsvd : svd_works_on K K (env_svd env)).
Let md := cp_model env cs.

(** The stopping rule at the start and later *)
Lemma stops_first s p : cp_coherent K s -> unit_w K s ->
  cf_rel_tol cf * energy (cp_X s) <= sse (cp_X s) (fms s) unit_weights K -> cp_stops md cf p PInf s 0 = Ok false.
Proof.
  intros HC HU Ht. unfold cp_stops. unfold md. rewrite (@loss_is_sse env cs K s 0 HC HU). cbn [bind rel_at state_after].
  cbn [md_norm2 cp_model]. rewrite (co_norm HC), (norm_energy (proj1 (co_data HC))). set (e := sse _ _ _ _) in *.
  assert (He : 0 <= e) by apply sse_nonneg. pose proof (energy_nonneg (cp_X s)) as Hq. set (q := energy (cp_X s)) in *. clearbody e q.
  unfold xdiv, xdivR. destruct (Req_EM_T q 0) as [->|Hq0].
  - destruct (Rlt_dec e 0); [lra|]. destruct (Rlt_dec 0 e); reflexivity.
  - cbn. destruct (Rlt_dec (e / q) (cf_rel_tol cf)) as [Hlt|]; [|reflexivity].
    exfalso. apply (Rmult_lt_compat_r q) in Hlt; [|lra]. unfold Rdiv in Hlt. rewrite Rmult_assoc, Rinv_l in Hlt by auto. lra.
Qed.
Lemma stops_still s k : cp_coherent K s -> unit_w K s -> 0 < cf_tol cf ->
  let e := sse (cp_X s) (fms (state_after md s k)) unit_weights K in
  e <> 0 -> sse (cp_X s) (fms (state_after md s (S k))) unit_weights K = e ->
  cp_stops md cf (Fin (sse (cp_X s) (fms s) unit_weights K)) PInf s (S k) = Ok true.
Proof.
  intros HC HU Ht e He E. unfold cp_stops. unfold md. rewrite (@loss_is_sse env cs K s (S k) HC HU). cbn [bind rel_at].
  assert (P : prev_at (cp_model env cs) (Fin (sse (cp_X s) (fms s) unit_weights K)) s k = Ok (Fin e)).
  { destruct k; [reflexivity|]. cbn [prev_at]. now apply loss_is_sse. }
  rewrite P, (@loss_is_sse env cs K s (S k) HC HU). cbn [bind]. unfold md in E. rewrite E. cbn [xsub xdiv].
  replace (e - e) with 0 by ring. rewrite (xdivR_pos _ He). cbn [xabs xltb].
  replace (0 / e) with 0 by (field; auto). rewrite Rabs_R0. destruct (Rlt_dec 0 (cf_tol cf)); [reflexivity|lra].
Qed.

Variables (disk : string -> option file) (draws : list nd) (X : nd) (max_its : option Z) (arg : init_arg) (ds ds1 : dstate cp_state).
Let budget := match max_its with Some m => m | None => ds_max ds end.
Hypothesis (Hcall : plain_call env cs K cf draws X budget arg ds)
  (Hstart : cp_init_fit env cs disk draws X max_its arg ds = (ds1, None)).

Lemma fit_runs : exists d n, cp_fit env cs cf disk draws X max_its arg ds = (d, None) /\
  cp_coherent K (ds_num ds1) /\ unit_w K (ds_num ds1) /\ free_fit cs (ds_num ds1) /\ cp_X (ds_num ds1) = X /\
  ds_num d = state_after md (ds_num ds1) n /\ ds_it d = Z.of_nat n /\
  let stops := cp_stops md cf (Fin (sse X (fms (ds_num ds1)) unit_weights K)) PInf (ds_num ds1) in
  (forall k, (k < n)%nat -> stops k = Ok false) /\ (n = Z.to_nat budget \/ stops n = Ok true) /\ (0 < Z.to_nat budget)%nat.
Proof.
  destruct Hcall as (A1 & A2 & A3 & A4 & A5 & A6 & A7 & A8 & A9 & A10 & A11).
  destruct (@complete_fit env cs K cf disk draws X max_its arg ds A1 A2 A3 A4 A5 A6 A7 A8 A9 A10 A11)
    as (x1 & d & F1 & F & FL & HC & HU & HF & EX & Eit & Emax & _ & Eprev & Erel).
  rewrite Hstart in F1. injection F1 as <-.
  destruct (cp_fit_lemma FL) as (n & Hn & En & Hbefore & Hend). destruct (Hend eq_refl) as [Hstop Hit].
  rewrite Eprev, Erel in Hbefore, Hstop. rewrite Eit, Emax, Z.sub_0_r in *. fold budget in Hstop.
  exists d, n. repeat (split; [assumption|]).
  fold budget in A9. lia.
Qed.

Lemma fit_sse d n : cp_coherent K (ds_num ds1) -> unit_w K (ds_num ds1) -> cp_X (ds_num ds1) = X ->
  ds_num d = state_after md (ds_num ds1) n ->
  cp_SSE env (ds_num d) = Ok (sse X (fms (ds_num d)) unit_weights K) /\ cp_norm (ds_num d) ^ 2 = energy X.
Proof.
  intros HC HU EX En. pose proof (@after_coherent env cs K (ds_num ds1) n HC) as [HCn HSn]. fold md in HCn, HSn.
  rewrite <- En in HCn, HSn. rewrite (cp_SSE_ok env HCn), (unit_sse (unit_w_same HSn HU)), (sp_X HSn), EX. split; [reflexivity|].
  rewrite (co_norm HCn), (norm_energy (proj1 (co_data HCn))). now rewrite (sp_X HSn), EX.
Qed.

(** From a fixed point that does not fit exactly *)
Lemma fixed_fit : (forall m, (m < length (shape X))%nat -> smallest_best K X (fms (ds_num ds1)) m) ->
  sse X (fms (ds_num ds1)) unit_weights K <> 0 -> 0 < cf_tol cf ->
  exists d, cp_fit env cs cf disk draws X max_its arg ds = (d, None) /\ (ds_it d <= 1)%Z /\
    fms (ds_num d) = fms (ds_num ds1).
Proof.
  intros HB He Ht. destruct fit_runs as (d & n & F & HC & HU & HF & EX & En & Eit & Hbefore & Hstop & Hb).
  exists d. split; [exact F|]. rewrite <- EX in HB.
  pose proof (@fixed_forever env cs K HK Hsvd _ HC HF (proj2 (@fixed_points env cs K HK Hsvd _ HC HF) HB)) as HFix.
  fold md in HFix. split; [|rewrite En; apply HFix].
  rewrite Eit. destruct (Nat.le_gt_cases n 1) as [|Hlt]; [lia|]. exfalso. specialize (Hbefore 1%nat Hlt).
  assert (HS : cp_stops md cf (Fin (sse X (fms (ds_num ds1)) unit_weights K)) PInf (ds_num ds1) 1 = Ok true).
  { rewrite <- EX. apply stops_still; auto.
    - cbn [state_after]. now rewrite EX.
    - now rewrite !HFix. }
  congruence.
Qed.

(** The error is never worse than with the best mode-0 factor for the other factors of the start. *)
Lemma bounded_fit : cf_rel_tol cf * energy X <= sse X (fms (ds_num ds1)) unit_weights K ->
  exists d e, cp_fit env cs cf disk draws X max_its arg ds = (d, None) /\ (0 < ds_it d)%Z /\ cp_SSE env (ds_num d) = Ok e /\
    forall W, is_mat (nth 0 (shape X) 0%nat) K W -> e <= sse X (with_factor 0 W (fms (ds_num ds1))) unit_weights K.
Proof.
  intros Ht. destruct fit_runs as (d & n & F & HC & HU & HF & EX & En & Eit & Hbefore & Hstop & Hb).
  exists d, (sse X (fms (ds_num d)) unit_weights K). split; [exact F|].
  assert (Hn : (0 < n)%nat).
  { destruct n as [|n]; [|lia]. destruct Hstop as [H|H]; [lia|]. rewrite stops_first in H by (rewrite ?EX; auto). discriminate. }
  split; [lia|]. split; [apply (fit_sse HC HU EX En)|]. intros W HW.
  destruct n as [|n]; [lia|]. rewrite En. rewrite <- EX in HW |- *.
  eapply Rle_trans; [|apply (@first_pass env cs K HK Hsvd _ W 0 HC HF HW)].
  apply (@sse_antitone env cs K (ds_num ds1) Hsvd HK HC HF 1 (S n)). lia.
Qed.

(** A start orthogonal to the data ends in the zero model. *)
Lemma trap_fit : orthogonal_start K X (fms (ds_num ds1)) -> energy X <> 0 -> 0 < cf_tol cf -> cf_rel_tol cf <= 1 ->
  exists d, cp_fit env cs cf disk draws X max_its arg ds = (d, None) /\ (1 <= ds_it d <= 2)%Z /\
    all_zero K (fms (ds_num d)) /\ cp_metric env cs KExplained (ds_num d) = Ok (Fin 0).
Proof.
  intros HO He Ht Hrt. destruct fit_runs as (d & n & F & HC & HU & HF & EX & En & Eit & Hbefore & Hstop & Hb).
  exists d. split; [exact F|]. pose proof HO as HO'. rewrite <- EX in HO.
  pose proof (@trap_runs env cs K HK Hsvd _ HC HF HO) as HT. fold md in HT.
  assert (Hn : (0 < n)%nat).
  { destruct n as [|n]; [|lia]. destruct Hstop as [H|H]; [lia|]. rewrite stops_first in H; [discriminate|auto|auto|].
    pose proof (orthogonal_loss (co_fac HC) (co_data HC) HO) as HL. pose proof (energy_nonneg (cp_X (ds_num ds1))). nra. }
  destruct n as [|n]; [lia|]. split.
  - rewrite Eit. destruct (Nat.le_gt_cases (S n) 2) as [|Hlt]; [lia|]. exfalso. specialize (Hbefore 2%nat Hlt).
    assert (HS : cp_stops md cf (Fin (sse X (fms (ds_num ds1)) unit_weights K)) PInf (ds_num ds1) 2 = Ok true).
    { rewrite <- EX. apply stops_still; auto.
      - rewrite (proj2 (HT 0%nat)), EX. exact He.
      - now rewrite (proj2 (HT 0%nat)), (proj2 (HT 1%nat)). }
    congruence.
  - rewrite En at 1. split; [apply HT|]. destruct (fit_sse HC HU EX En) as [E1 E2].
    cbn [cp_metric]. unfold cp_explained, explained_of. rewrite E1, E2. cbn [bind].
    rewrite En. rewrite <- EX at 1. rewrite (proj2 (HT n)), EX. rewrite (xdivR_pos _ He). cbn [xsub].
    do 2 f_equal. field. exact He.
Qed.
End Fits.
