(** Rank-one fits of non-negative data: lemmas for C111. *)
From Verif Require Export RankOneSpec PowerFacts PenFixFacts.
From Verif Require Unique.
From Verif Require Import TuckerFacts Prelude Lin.
Set Implicit Arguments.
Unset Strict Implicit.
Local Open Scope R_scope.

Lemma zero_or_not (f : nat -> R) l : (forall i, (i < l)%nat -> f i = 0) \/ exists i, (i < l)%nat /\ f i <> 0.
Proof.
  induction l as [|l [IH|(i & Hi & Hn)]]; [left; intros; lia| |right; exists i; split; [lia|exact Hn]].
  destruct (Req_dec (f l) 0) as [E|E]; [left|right; exists l; auto].
  intros i Hi. destruct (Nat.eq_dec i l) as [->|]; [exact E|apply IH; lia].
Qed.

(** *** One mode *)
Section Mode.
Variables (X : nd) (Us : list nd) (m : nat).
Hypothesis (HF : factors_ok 1 X Us) (Hm : (m < length (shape X))%nat).
Let N := nth m (shape X) 0%nat.
Let v := normal_lhs Us m 0 0.
Let M i := normal_rhs X Us m i 0.

Lemma v_sum : v = sum (prodl (remove_at m (shape X))) (fun c => mode_A X Us m 0 c ^ 2).
Proof.
  unfold v. rewrite <- (@mode_gV X Us m (proj2 HF) 0 0). unfold gV. apply sum_ext. intros; ring.
Qed.
Lemma v_nonneg : 0 <= v.
Proof. rewrite v_sum. apply sum_nonneg. intros; apply pow2_ge_0. Qed.
Lemma v_zero i : (i < N)%nat -> v = 0 -> M i = 0.
Proof.
  intros Hi E. rewrite v_sum in E. unfold M. rewrite <- (@mode_gM X Us m Hm i 0 Hi). unfold gM. apply sum_zero. intros c Hc.
  assert (Hs : mode_A X Us m 0 c ^ 2 = 0) by (apply (sum_nonneg_zero (fun c _ => pow2_ge_0 (mode_A X Us m 0 c)) E Hc)).
  assert (E0 : mode_A X Us m 0 c = 0) by (apply Rsqr_0_uniq; unfold Rsqr; lra). rewrite E0. ring.
Qed.

(** Inner product of the data and the model *)
Definition overlap : R := sumf (indices (shape X)) (fun idx => get X idx * colprod Us idx 0).
Lemma overlap_mode : overlap = sum N (fun i => mget (nth m Us m0) i 0 * M i).
Proof.
  unfold overlap, M, normal_rhs. rewrite (sumf_indices_axis _ Hm). apply sum_ext. intros i Hi.
  rewrite mttkrp_entry_split by auto. rewrite <- sumf_scal_l. apply sumf_ext. intros c Hc. apply in_indices in Hc.
  apply valid_length in Hc. rewrite length_remove_at in Hc by auto.
  rewrite colprod_insert; [ring| |]; rewrite (mode_len (proj2 HF)); lia.
Qed.

Lemma loss_one lam Y : normal_loss lam 1 X Us m Y = sum N (fun i => (Y i 0%nat * v - M i) ^ 2 + lam * Y i 0%nat ^ 2).
Proof.
  unfold normal_loss, normal_dist, dist2, frob2, mprod. fold N. rewrite <- sum_scal_l, <- sum_plus. apply sum_ext. intros i Hi.
  cbn [seq sumf]. unfold v, M. ring.
Qed.

Lemma minimiser nn lam Z : 0 <= lam -> v <> 0 -> (forall i, (i < N)%nat -> 0 <= M i) ->
  (forall Y, allowed nn N 1 Y -> normal_loss lam 1 X Us m Z <= normal_loss lam 1 X Us m Y) ->
  forall i, (i < N)%nat -> Z i 0%nat = v * M i / (v ^ 2 + lam).
Proof.
  intros Hl Hv HM HZ i Hi. pose proof v_nonneg as Hv0. assert (Hv2 : 0 < v * v) by (now apply Rsqr_pos_lt).
  set (d := v ^ 2 + lam). assert (Hd : 0 < d) by (unfold d; lra).
  set (Y := fun (i _ : nat) => v * M i / d).
  assert (AY : allowed nn N 1 Y).
  { intros _ i' r Hi' _. unfold Y, Rdiv. apply Rmult_le_pos; [|left; now apply Rinv_0_lt_compat]. apply Rmult_le_pos; [exact Hv0|now apply HM]. }
  pose proof (HZ Y AY) as H. rewrite !loss_one in H.
  assert (E : forall y i, (y * v - M i) ^ 2 + lam * y ^ 2 = / d * ((d * y - v * M i) ^ 2 + lam * M i ^ 2)).
  { intros y i'. unfold d. field. unfold d in Hd. lra. }
  assert (HS : sum N (fun i => / d * ((d * Z i 0%nat - v * M i) ^ 2)) <= 0).
  { apply (Rplus_le_reg_r (sum N (fun i => / d * (lam * M i ^ 2)))). rewrite <- sum_plus, Rplus_0_l.
    eapply Rle_trans; [|eapply Rle_trans; [exact H|]].
    - right. apply sum_ext. intros i' Hi'. rewrite E. ring.
    - right. apply sum_ext. intros i' Hi'. rewrite E. unfold Y. field. lra. }
  assert (Hnn : forall j, (j < N)%nat -> 0 <= / d * ((d * Z j 0%nat - v * M j) ^ 2)).
  { intros j _. apply Rmult_le_pos; [left; now apply Rinv_0_lt_compat|apply pow2_ge_0]. }
  assert (H0 : / d * ((d * Z i 0%nat - v * M i) ^ 2) = 0).
  { apply (@sum_nonneg_zero N (fun i => / d * ((d * Z i 0%nat - v * M i) ^ 2)) Hnn); [|exact Hi].
    apply Rle_antisym; [exact HS|now apply sum_nonneg]. }
  apply Rmult_integral in H0. destruct H0 as [H0|H0]; [pose proof (Rinv_0_lt_compat _ Hd); lra|].
  assert (E0 : d * Z i 0%nat - v * M i = 0) by (apply Rsqr_0_uniq; unfold Rsqr; lra).
  apply (Rmult_eq_reg_l d); [|lra]. field_simplify; [lra|lra].
Qed.

Lemma rhs_nonneg : nonneg_data X -> nonneg_factors 1 Us -> forall i, (i < N)%nat -> 0 <= M i.
Proof.
  intros HX HU i Hi. unfold M, normal_rhs. rewrite mttkrp_entry_split by auto. apply sumf_nonneg. intros c Hc. apply in_indices in Hc.
  pose proof HF as [_ Hr].
  apply Rmult_le_pos.
  - apply HX. apply valid_insert_at; auto.
  - assert (Hc' : valid c (rows (remove_at m Us))) by (unfold rows; rewrite map_remove_at; fold (rows Us); now rewrite Hr).
    assert (HU' : forall U, In U (remove_at m Us) -> forall i, (i < nrows U)%nat -> 0 <= mget U i 0).
    { intros U Hin i' Hi'. apply Unique.in_remove_at in Hin. destruct (In_nth _ _ m0 Hin) as (k & Hk & <-). apply HU; auto; lia. }
    clear - Hc' HU'. revert c Hc'. induction (remove_at m Us) as [|U l IH]; intros c Hc; [cbn; lra|].
    destruct c as [|i c]; [cbn; lra|]. cbn [colprod]. inversion Hc; subst. apply Rmult_le_pos; [apply HU'; [now left|auto]|].
    apply IH; [|assumption]. intros; apply HU'; [now right|auto].
Qed.
End Mode.

(** *** Two fits with different flags *)
Section Two.
Variables (env : cp_env) (cs : cp_settings) (X : nd) (lam : nat -> R) (nn nn' : nat -> bool).
Hypothesis (HK : cs_rank cs = 1%nat) (HS : svd_contract (env_svd env)) (HN : nnls_contract (env_nnls env)).
Hypothesis (HX : nonneg_data X).
Let md := cp_model env cs.

Definition sees (Us : list nd) (m : nat) : Prop := exists i, (i < nth m (shape X) 0)%nat /\ normal_rhs X Us m i 0 <> 0.

Record twins (s t : cp_state) : Prop :=
  { tw_X : cp_X s = X; tw_X' : cp_X t = X; tw_coh : cp_coherent 1 s; tw_coh' : cp_coherent 1 t;
    tw_opt : option_set cs s nn lam; tw_opt' : option_set cs t nn' lam;
    tw_fac : fms t = fms s; tw_pos : nonneg_factors 1 (fms s) }.

Lemma rhs_with Us m Z i : normal_rhs X (with_factor m Z Us) m i 0 = normal_rhs X Us m i 0.
Proof. unfold normal_rhs, mttkrp_entry, with_factor. now rewrite remove_replace_at. Qed.

Lemma overlap_sees Us m : factors_ok 1 X Us -> (m < length (shape X))%nat -> 0 < overlap X Us -> sees Us m.
Proof.
  intros HF Hm H. destruct (zero_or_not (fun i => normal_rhs X Us m i 0) (nth m (shape X) 0%nat)) as [Hz|Hn]; [|exact Hn]. exfalso.
  rewrite (overlap_mode HF Hm) in H. rewrite sum_zero in H; [lra|]. intros i Hi. rewrite Hz by exact Hi. ring.
Qed.

Lemma update_twins s t m : twins s t -> (m < length (shape X))%nat -> sees (fms s) m ->
  exists s' t', cp_update_factor env cs s m = (s', None) /\ cp_update_factor env cs t m = (t', None) /\ twins s' t' /\ 0 < overlap X (fms s').
Proof.
  intros [EX EX' C C' O O' Ef HP] Hm (i0 & Hi0 & Hsee).
  destruct (@update_settles env cs 1 nn lam HK HS HN s m C O ltac:(now rewrite EX)) as (s' & Z & E & HZ & EZ & SP & C1 & _ & BZ).
  destruct (@update_settles env cs 1 nn' lam HK HS HN t m C' O' ltac:(now rewrite EX')) as (t' & Z' & E' & HZ' & EZ' & SP' & C1' & _ & BZ').
  pose proof (co_fac C) as HF. rewrite EX in *. rewrite EX' in *. rewrite Ef in *.
  set (N := nth m (shape X) 0%nat) in *. set (v := normal_lhs (fms s) m 0 0). set (M := fun i => normal_rhs X (fms s) m i 0).
  assert (Hv : v <> 0) by (intros E0; apply Hsee; exact (v_zero HF Hm Hi0 E0)).
  assert (HM : forall i, (i < N)%nat -> 0 <= M i) by exact (rhs_nonneg HF Hm HX HP).
  assert (Hl : 0 <= lam m) by (apply (O m); now rewrite EX).
  pose proof (v_nonneg m HF : 0 <= v) as Hv0. assert (Hv2 : 0 < v * v) by (now apply Rsqr_pos_lt).
  pose proof (@minimiser X (fms s) m HF (nn m) (lam m) (mget Z) Hl Hv HM BZ) as GZ.
  pose proof (@minimiser X (fms s) m HF (nn' m) (lam m) (mget Z') Hl Hv HM BZ') as GZ'.
  assert (EZZ : Z' = Z).
  { apply (mat_ext HZ' HZ). intros i r Hi Hr. replace r with 0%nat by lia. now rewrite GZ, GZ'. }
  assert (Hd : 0 < / (v ^ 2 + lam m)) by (apply Rinv_0_lt_compat; lra).
  pose proof (mode_len (proj2 HF)) as Hlen.
  exists s', t'. split; [exact E|]. split; [exact E'|]. split.
  - constructor; auto.
    + now rewrite (sp_X SP).
    + now rewrite (sp_X SP').
    + exact (option_same SP O).
    + exact (option_same SP' O').
    + now rewrite EZ, EZ', EZZ.
    + rewrite EZ. intros n i r Hn Hi Hr. replace r with 0%nat by lia. unfold with_factor in *. rewrite length_replace_at in Hn.
      destruct (Nat.eq_dec n m) as [->|Hnm].
      * rewrite nth_replace_at_eq in * by auto. rewrite (is_mat_nrows HZ) in Hi. rewrite GZ by exact Hi. unfold Rdiv.
        apply Rmult_le_pos; [|now left]. apply Rmult_le_pos; [exact Hv0|now apply HM].
      * rewrite nth_replace_at_neq in * by auto. apply HP; auto; lia.
  - pose proof (co_fac C1) as HF1. rewrite (sp_X SP), EX in HF1. rewrite (overlap_mode HF1 Hm), EZ. fold N.
    assert (Et : forall i, (i < N)%nat -> mget (nth m (with_factor m Z (fms s)) m0) i 0 * normal_rhs X (with_factor m Z (fms s)) m i 0 = v * / (v ^ 2 + lam m) * (M i ^ 2)).
    { intros i Hi. rewrite rhs_with. unfold with_factor. rewrite nth_replace_at_eq by (now rewrite Hlen). rewrite GZ by exact Hi. change (v * M i * / (v ^ 2 + lam m) * M i = v * / (v ^ 2 + lam m) * M i ^ 2). ring. }
    rewrite (@sum_ext N _ (fun i => v * / (v ^ 2 + lam m) * M i ^ 2) Et). rewrite sum_scal_l. apply Rmult_lt_0_compat; [apply Rmult_lt_0_compat; [lra|auto]|].
    assert (H2 : 0 < M i0 ^ 2). { pose proof (Rsqr_pos_lt _ Hsee) as H. unfold Rsqr in H. unfold M. lra. }
    assert (H0 : forall i, (i < N)%nat -> 0 <= M i ^ 2) by (intros; apply pow2_ge_0).
    destruct (Rle_lt_or_eq_dec 0 (sum N (fun i => M i ^ 2)) (sum_nonneg H0)) as [H|H]; [exact H|].
    symmetry in H. pose proof (sum_nonneg_zero H0 H Hi0) as E1. lra.
Qed.

Lemma modes_twins l : forall s t, twins s t -> 0 < overlap X (fms s) -> Forall (fun m => (m < length (shape X))%nat) l ->
  exists s' t', cp_update_modes env cs l s = (s', None) /\ cp_update_modes env cs l t = (t', None) /\ twins s' t' /\ 0 < overlap X (fms s').
Proof.
  induction l as [|m l IH]; intros s t H Ho Hl.
  - exists s, t. split; [reflexivity|]. split; [reflexivity|]. split; [exact H|exact Ho].
  - apply Forall_cons_iff in Hl. destruct Hl as [Hm Hl'].
    destruct (update_twins H Hm) as (s1 & t1 & E & E' & H1 & O1).
    { apply overlap_sees; auto. rewrite <- (tw_X H). apply (co_fac (tw_coh H)). }
    destruct (IH s1 t1 H1 O1 Hl') as (s2 & t2 & F & F' & H2). exists s2, t2. cbn [cp_update_modes]. rewrite E, E', F, F'. auto.
Qed.

Lemma first_pass s t : twins s t -> (0 < length (shape X))%nat -> ~ orthogonal_start 1 X (fms s) ->
  snd (md_update md s) = None /\ snd (md_update md t) = None /\ twins (state_after md s 1) (state_after md t 1) /\ 0 < overlap X (fms (state_after md s 1)).
Proof.
  intros H Hd Hne. assert (Hs : sees (fms s) 0).
  { destruct (zero_or_not (fun i => normal_rhs X (fms s) 0 i 0) (nth 0 (shape X) 0%nat)) as [Hz|Hn]; [|exact Hn]. exfalso.
    apply Hne. intros i r Hi Hr. replace r with 0%nat by lia. now apply Hz. }
  cbn [state_after md cp_model md_update]. unfold cp_update_factors, ndim. rewrite (tw_X H), (tw_X' H).
  destruct (update_twins H Hd Hs) as (s1 & t1 & E & E' & H1 & O1).
  destruct (@modes_twins (seq 1 (length (shape X) - 1)) s1 t1 H1 O1) as (s2 & t2 & F & F' & H2 & O2).
  { apply Forall_forall. intros m Hm. apply in_seq in Hm. lia. }
  replace (length (shape X)) with (S (length (shape X) - 1)) by lia. cbn [seq cp_update_modes]. rewrite E, E', F, F'. auto.
Qed.

Lemma passes_twins s t : twins s t -> (0 < length (shape X))%nat -> ~ orthogonal_start 1 X (fms s) -> forall k,
  (snd (md_update md (state_after md s k)) = None /\ snd (md_update md (state_after md t k)) = None) /\
  twins (state_after md s k) (state_after md t k) /\ (k <> 0%nat -> 0 < overlap X (fms (state_after md s k))).
Proof.
  intros H Hd Hne k. assert (HI : twins (state_after md s k) (state_after md t k) /\ (k <> 0%nat -> 0 < overlap X (fms (state_after md s k)))).
  { induction k as [|[|k] [IH1 IH2]].
    - split; [exact H|congruence].
    - destruct (first_pass H Hd Hne) as (_ & _ & A & B). auto.
    - specialize (IH2 (Nat.neq_succ_0 _)).
      destruct (@modes_twins (seq 0 (length (shape X))) _ _ IH1 IH2) as (s2 & t2 & F & F' & H2 & O2).
      { apply Forall_forall. intros m Hm. apply in_seq in Hm. lia. }
      remember (state_after md s (S k)) as u. remember (state_after md t (S k)) as w.
      assert (Eu : state_after md s (S (S k)) = s2).
      { cbn [state_after]. cbn [state_after] in Hequ. rewrite <- Hequ. cbn [md cp_model md_update]. unfold cp_update_factors, ndim. rewrite (tw_X IH1), F. reflexivity. }
      assert (Ew : state_after md t (S (S k)) = t2).
      { cbn [state_after]. cbn [state_after] in Heqw. rewrite <- Heqw. cbn [md cp_model md_update]. unfold cp_update_factors, ndim. rewrite (tw_X' IH1), F'. reflexivity. }
      rewrite Eu, Ew. auto. }
  split; [|exact HI]. destruct HI as [HT HO]. destruct k as [|k].
  - destruct (first_pass H Hd Hne) as (A & B & _). auto.
  - specialize (HO (Nat.neq_succ_0 _)). destruct (@modes_twins (seq 0 (length (shape X))) _ _ HT HO) as (s2 & t2 & F & F' & _).
    { apply Forall_forall. intros m Hm. apply in_seq in Hm. lia. }
    set (u := state_after md s (S k)) in *. set (w := state_after md t (S k)) in *.
    cbn [md cp_model md_update]. unfold cp_update_factors, ndim. rewrite (tw_X HT), (tw_X' HT), F, F'. auto.
Qed.
End Two.
