(** CMTF_ALS in other units and with reordered components: lemmas for C112. *)
From Verif Require Export CmUnitSpec.
From Verif Require Import CoupledTurn CoupledFit CMTFComplete CMTFUpdate CMTFNorm CMTFLoss CMTFFacts ConstrainedFit CPComplete SvdFacts
  Solves RunFacts FitFacts SymFacts CPConstrained.
From Verif Require Import Prelude Lin.
Set Implicit Arguments.
Unset Strict Implicit.
Local Open Scope R_scope.

(** *** Solvers *)
Section Products.
Variables (svd : svd_fun) (n K M M' : nat) (pi : nat -> nat) (g h : R) (A B A' B' : nd).
Hypothesis (HS : svd_contract svd) (HA : is_mat K M A) (HA' : is_mat K M' A') (HB : is_mat n M B) (HB' : is_mat n M' B') (Hp : permutes K pi) (Hg : g <> 0).
Hypothesis EG : forall a b, (a < K)%nat -> (b < K)%nat -> dots M' A' A' (pi a) (pi b) = g * dots M A A a b.
Hypothesis EP : forall i a, (i < n)%nat -> (a < K)%nat -> dots M' B' A' i (pi a) = h * dots M B A i a.

Lemma products_scaled : exists Z Z', rightsolve svd A B = Ok Z /\ rightsolve svd A' B' = Ok Z' /\ is_mat n K Z /\ is_mat n K Z' /\
  forall i a, (i < n)%nat -> (a < K)%nat -> mget Z' i (pi a) = h / g * mget Z i a.
Proof.
  destruct (rightsolve_span HS HA HB) as (Z & T & EZ & HZ & N1 & R1). destruct (rightsolve_span HS HA' HB') as (Z' & T' & EZ' & HZ' & N2 & R2).
  exists Z, Z'. split; [exact EZ|]. split; [exact EZ'|]. split; [exact HZ|]. split; [exact HZ'|]. intros i a Hi Ha.
  pose proof (proj1 Hp) as Hlt.
  set (e := fun a => mget Z' i (pi a) - h / g * mget Z i a).
  assert (D1 : forall a, (a < K)%nat -> sum K (fun b => e b * dots M A A b a) = 0).
  { intros r Hr. unfold e.
    assert (E2 : sum K (fun b => mget Z' i (pi b) * dots M A A b r) = h / g * dots M B A i r).
    { apply (Rmult_eq_reg_l g); [|exact Hg]. rewrite <- sum_scal_l. replace (g * (h / g * dots M B A i r)) with (h * dots M B A i r) by (field; exact Hg).
      rewrite <- EP by auto. rewrite <- (N2 i (pi r)) by auto. rewrite <- (@sum_permuted K pi (fun b => mget Z' i b * dots M' A' A' b (pi r)) Hp).
      apply sum_ext. intros b Hb. rewrite EG by auto. ring. }
    transitivity (sum K (fun b => mget Z' i (pi b) * dots M A A b r) - h / g * sum K (fun b => mget Z i b * dots M A A b r)).
    - rewrite <- sum_scal_l, <- sum_minus. apply sum_ext. intros; ring.
    - rewrite E2, N1 by auto. ring. }
  assert (D2 : forall a, (a < K)%nat -> e a = sum K (fun b => (g * T' i (pi b) - h / g * T i b) * dots M A A b a)).
  { intros r Hr. unfold e. rewrite R1, R2 by auto. rewrite <- (@sum_permuted K pi (fun b => T' i b * dots M' A' A' b (pi r)) Hp).
    rewrite <- sum_scal_l, <- sum_minus. apply sum_ext. intros b Hb. rewrite EG by auto. ring. }
  assert (D3 : sum K (fun a => e a ^ 2) = 0).
  { transitivity (sum K (fun a => sum K (fun b => (g * T' i (pi b) - h / g * T i b) * (e a * dots M A A a b)))).
    - apply sum_ext. intros r Hr. replace (e r ^ 2) with (e r * e r) by ring. rewrite (D2 r Hr) at 2. rewrite <- sum_scal_l.
      apply sum_ext. intros b _. rewrite (dots_sym M A r b). ring.
    - rewrite sum_swap. apply sum_zero. intros b Hb. rewrite sum_scal_l, D1 by auto. ring. }
  assert (D4 : e a ^ 2 = 0) by (apply (sum_nonneg_zero (fun b _ => pow2_ge_0 (e b)) D3 Ha)).
  assert (D5 : e a = 0) by (apply Rsqr_0_uniq; unfold Rsqr; lra). unfold e in D5. lra.
Qed.
End Products.

(** *** Products of columns *)
Notation still := (fun _ i : nat => i).
Lemma colprod_removed K : forall Us Us' a pi m idx r, same_factors K a still pi Us Us' -> (m < length Us)%nat ->
  valid idx (remove_at m (rows Us)) -> (r < K)%nat ->
  a m * colprod (remove_at m Us') idx (pi r) = scale_prod (length Us) a * colprod (remove_at m Us) idx r.
Proof.
  induction Us as [|U Us IH]; intros Us' a pi m idx r H Hm Hv Hr; [cbn in Hm; lia|].
  destruct Us' as [|U' Us']; [destruct H as [H _]; discriminate|]. destruct m as [|m].
  - cbn [remove_at length scale_prod]. cbn [rows map remove_at] in Hv. pose proof (colprod_moved (same_factors_tail H) Hv Hr) as E.
    rewrite moved_id in E. rewrite E. ring.
  - cbn [rows map remove_at] in Hv. inversion Hv as [|i ? idx' ? Hi Hv']; subst. cbn [remove_at colprod length scale_prod].
    pose proof (IH Us' (fun n => a (S n)) pi m idx' r (same_factors_tail H) ltac:(cbn in Hm; lia) Hv' Hr) as E. cbn beta in E.
    pose proof (proj2 H 0%nat i r ltac:(cbn; lia) Hi Hr) as E0. cbn [nth] in E0. rewrite E0.
    replace (a (S m) * (a 0%nat * mget U i r * colprod (remove_at m Us') idx' (pi r))) with (a 0%nat * mget U i r * (a (S m) * colprod (remove_at m Us') idx' (pi r))) by ring.
    rewrite E. ring.
Qed.

Section Sides.
Variables (K : nat) (c : R) (pi : nat -> nat) (a : nat -> R) (X X' : nd) (Us Us' : list nd) (m : nat).
Hypothesis (HD : same_data c still X X') (HF : same_factors K a still pi Us Us') (Hr : rows Us = shape X) (Hr' : rows Us' = shape X').
Hypothesis (Hm : (m < length (shape X))%nat) (Hc : scale_prod (length (shape X)) a = c) (Ha : a m <> 0).
Let C := prodl (remove_at m (shape X)).

Lemma mode_A_scaled r t : (r < K)%nat -> (t < C)%nat -> mode_A X' Us' m (pi r) t = c / a m * mode_A X Us m r t.
Proof.
  intros Hrk Ht. unfold mode_A. rewrite (proj1 HD). apply (Rmult_eq_reg_l (a m)); [|exact Ha].
  rewrite (@colprod_removed K Us Us' a pi m _ r HF); [|rewrite (mode_len Hr); exact Hm|rewrite Hr; now apply valid_nth_indices|exact Hrk].
  rewrite (mode_len Hr), Hc. field. exact Ha.
Qed.
Lemma lhs_scaled r u : (r < K)%nat -> (u < K)%nat -> normal_lhs Us' m (pi r) (pi u) = (c / a m) ^ 2 * normal_lhs Us m r u.
Proof.
  intros Hrk Hu. rewrite <- (@mode_gV X Us m Hr r u), <- (@mode_gV X' Us' m Hr' (pi r) (pi u)). unfold gV. rewrite (proj1 HD), <- sum_scal_l.
  apply sum_ext. intros t Ht. rewrite !mode_A_scaled by auto. ring.
Qed.
Lemma rhs_scaled i r : (i < nth m (shape X) 0)%nat -> (r < K)%nat -> normal_rhs X' Us' m i (pi r) = c * (c / a m) * normal_rhs X Us m i r.
Proof.
  intros Hi Hrk. rewrite <- (@mode_gM X Us m Hm i r Hi), <- (@mode_gM X' Us' m) by (rewrite (proj1 HD); auto). unfold gM.
  rewrite (proj1 HD), <- sum_scal_l. apply sum_ext. intros t Ht. rewrite mode_A_scaled by auto.
  assert (E : mode_B X' m i t = c * mode_B X m i t); [|rewrite E; ring].
  unfold mode_B. rewrite (proj1 HD). rewrite <- (proj2 (proj2 HD)); [now rewrite moved_id|]. apply valid_insert_at; auto. now apply valid_nth_indices.
Qed.
End Sides.

(** *** Two runs *)
Lemma same_factors_replace K a pi Us Us' m Z Z' : same_factors K a still pi Us Us' -> (m < length Us)%nat ->
  (forall i r, (i < nrows Z)%nat -> (r < K)%nat -> mget Z' i (pi r) = a m * mget Z i r) ->
  same_factors K a still pi (replace_at m Z Us) (replace_at m Z' Us').
Proof.
  intros [L H] Hm HZ. split; [now rewrite !length_replace_at|]. intros n i r Hn Hi Hr. rewrite length_replace_at in Hn.
  destruct (Nat.eq_dec m n) as [<-|Hne].
  - rewrite nth_replace_at_eq in Hi by auto. rewrite !nth_replace_at_eq by lia. now apply HZ.
  - rewrite nth_replace_at_neq in Hi by auto. rewrite !nth_replace_at_neq by auto. now apply H.
Qed.

Section Runs.
Variables (env : cp_env) (cs : cp_settings) (K : nat) (ms : list nat) (c : R) (pi : nat -> nat) (N : nat) (a d : nat -> R).
Hypothesis (Hsvd : svd_contract (env_svd env)) (HK : cs_rank cs = K) (HND : NoDup ms) (Hp : permutes K pi) (Hc : c <> 0).
Hypothesis (Hsc : scales_match N ms c a d).
Let md := cmtf_model env cs.

Record both (s t : cmtf_state) : Prop :=
  { bo_dim : length (shape (cp_X (cm_cp s))) = N;
    bo_ok : cm_ok K ms s; bo_ok' : cm_ok K ms t;
    bo_free : free_fit cs (cm_cp s); bo_free' : free_fit cs (cm_cp t);
    bo_re : rescaled K c pi a d s t }.

Lemma both_shape s t : both s t -> shape (cp_X (cm_cp t)) = shape (cp_X (cm_cp s)).
Proof. intros H. apply (re_data (bo_re H)). Qed.
Lemma both_mode s t i : both s t -> (i < length ms)%nat -> (nth i ms 0 < N)%nat.
Proof. intros H Hi. destruct (ck_coup (bo_ok H)) as (_ & _ & HC). destruct (HC i Hi) as (Hm & _). now rewrite (bo_dim H) in Hm. Qed.
Lemma both_cols s t i : both s t -> (i < length ms)%nat -> ncols (nth i (cm_Y t) m0) = ncols (nth i (cm_Y s) m0).
Proof.
  intros H Hi. destruct (ck_coup (bo_ok H)) as (_ & HY & _). destruct (proj2 (re_Y (bo_re H)) i ltac:(lia)) as [E _]. unfold ncols. now rewrite E.
Qed.
Lemma both_Y s t i x y : both s t -> (i < length ms)%nat -> (x < nth (nth i ms 0) (shape (cp_X (cm_cp s))) 0)%nat ->
  (y < ncols (nth i (cm_Y s) m0))%nat -> mget (nth i (cm_Y t) m0) x y = c * mget (nth i (cm_Y s) m0) x y.
Proof.
  intros H Hi Hx Hy. destruct (ck_coup (bo_ok H)) as (_ & HY & HC). destruct (HC i Hi) as (_ & HYi & _).
  destruct (proj2 (re_Y (bo_re H)) i ltac:(lia)) as [_ E]. apply E; auto. now rewrite (is_mat_nrows HYi).
Qed.
Lemma both_V s t i y r : both s t -> (i < length ms)%nat -> (y < ncols (nth i (cm_Y s) m0))%nat -> (r < K)%nat ->
  mget (nth i (cm_V t) m0) y (pi r) = d i * mget (nth i (cm_V s) m0) y r.
Proof.
  intros H Hi Hy Hr. destruct (ck_coup (bo_ok H)) as (HV & _ & HC). destruct (HC i Hi) as (_ & _ & HVi).
  apply (proj2 (re_V (bo_re H))); auto; [lia|]. now rewrite (is_mat_nrows HVi).
Qed.
Lemma both_U s t m i r : both s t -> (m < N)%nat -> (i < nth m (shape (cp_X (cm_cp s))) 0)%nat -> (r < K)%nat ->
  mget (nth m (cm_fms t) m0) i (pi r) = a m * mget (nth m (cm_fms s) m0) i r.
Proof.
  intros H Hm Hi Hr. pose proof (bo_dim H) as HN. pose proof (@rows_nth _ _ _ m (ck_fac (bo_ok H)) ltac:(lia)) as HU.
  apply (proj2 (re_fac (bo_re H))); auto; [rewrite (ck_len (bo_ok H)); lia|]. now rewrite (is_mat_nrows HU).
Qed.
Lemma coupled_scale s t i : both s t -> (i < length ms)%nat -> d i = c / a (nth i ms 0%nat).
Proof.
  intros H Hi. destruct Hsc as (_ & Ha & Hd). pose proof (Hd i Hi) as E. pose proof (Ha _ (both_mode H Hi)) as Hne.
  rewrite <- E. field. exact Hne.
Qed.

Lemma sides_rescaled s t m : both s t -> (m < N)%nat ->
  let n := nth m (shape (cp_X (cm_cp s))) 0%nat in
  exists M M' g h lhs rhs lhs' rhs', cmtf_lhs env cs s m = Ok lhs /\ cmtf_rhs env s m = Ok rhs /\
    cmtf_lhs env cs t m = Ok lhs' /\ cmtf_rhs env t m = Ok rhs' /\
    is_mat K M lhs /\ is_mat n M rhs /\ is_mat K M' lhs' /\ is_mat n M' rhs' /\ g <> 0 /\ h / g = a m /\
    (forall x y, (x < K)%nat -> (y < K)%nat -> dots M' lhs' lhs' (pi x) (pi y) = g * dots M lhs lhs x y) /\
    (forall i x, (i < n)%nat -> (x < K)%nat -> dots M' rhs' lhs' i (pi x) = h * dots M rhs lhs i x).
Proof.
  intros H Hm n. pose proof (bo_dim H) as HN. pose proof (both_shape H) as Es. pose proof (bo_re H) as HRe.
  assert (Hm' : (m < length (shape (cp_X (cm_cp s))))%nat) by lia.
  assert (Hm'' : (m < length (shape (cp_X (cm_cp t))))%nat) by (rewrite Es; lia).
  assert (EM : cm_modes t = cm_modes s) by now rewrite (ck_modes (bo_ok H)), (ck_modes (bo_ok' H)).
  destruct Hsc as (Hprod & Ha & _). pose proof (Ha m Hm) as Ham.
  pose proof (ck_fac (bo_ok H)) as [HU Hr]. pose proof (ck_fac (bo_ok' H)) as [HU' Hr'].
  assert (Hprod' : scale_prod (length (shape (cp_X (cm_cp s)))) a = c) by now rewrite HN.
  pose proof (fun x y => @lhs_scaled K c pi a _ _ _ _ m (re_data HRe) (re_fac HRe) Hr Hr' Hm' Hprod' Ham x y) as EL.
  pose proof (fun i x => @rhs_scaled K c pi a _ _ _ _ m (re_data HRe) (re_fac HRe) Hr Hm' Hprod' Ham i x) as ER.
  pose proof (proj1 Hp) as Hlt.
  assert (Hcr : c / a m <> 0) by (unfold Rdiv; apply Rmult_integral_contrapositive_currified; [exact Hc|now apply Rinv_neq_0_compat]).
  destruct (dict_find (Z.of_nat m) (mode_to_cm_idx (cm_modes s))) as [idxs|] eqn:EF.
  - pose proof EF as EF'. rewrite <- EM in EF'.
    destruct (@sides_gram env cs K ms s m idxs (bo_ok H) HND Hm' EF) as (i & lhs & rhs & M & Hi & Emi & A1 & A2 & A3 & A4 & A5 & A6).
    destruct (@sides_gram env cs K ms t m idxs (bo_ok' H) HND Hm'' EF') as (i' & lhs' & rhs' & M' & Hi' & Emi' & B1 & B2 & B3 & B4 & B5 & B6).
    assert (i' = i) as -> by (apply (proj1 (NoDup_nth ms 0%nat) HND); auto; congruence).
    rewrite Es in B4, B6. pose proof (coupled_scale H Hi) as Ed. rewrite Emi in Ed.
    exists M, M', ((c / a m) ^ 2), (c * (c / a m)), lhs, rhs, lhs', rhs'. do 8 (split; [assumption|]).
    split; [now apply pow_nonzero|]. split; [field; auto|]. split.
    + intros x y Hx Hy. rewrite A5, B5, EL by auto. rewrite Rmult_plus_distr_l. f_equal. rewrite (both_cols H Hi), <- sum_scal_l.
      apply sum_ext. intros j Hj. rewrite !(both_V H Hi) by auto. rewrite Ed. ring.
    + intros j x Hj Hx. fold n in A6, B6. rewrite A6, B6, ER by auto. rewrite Rmult_plus_distr_l. f_equal. rewrite (both_cols H Hi), <- sum_scal_l.
      apply sum_ext. intros y Hy. rewrite (both_V H Hi), (@both_Y s t i j y H Hi) by (auto; rewrite Emi; exact Hj). rewrite Ed. ring.
  - destruct (als_rhs_ok env (ck_data (bo_ok H)) (ck_fac (bo_ok H)) Hm') as (P & EP & HPm & HPe). destruct (als_lhs_ok m HU HK) as (V & EV & HV & HVe).
    destruct (als_rhs_ok env (ck_data (bo_ok' H)) (ck_fac (bo_ok' H)) Hm'') as (P' & EP' & HPm' & HPe'). destruct (als_lhs_ok m HU' HK) as (V' & EV' & HV' & HVe').
    rewrite Es in HPm', HPe'.
    exists K, K, (((c / a m) ^ 2) ^ 2), (c * (c / a m) * (c / a m) ^ 2), V, P, V', P'. unfold cmtf_lhs, cmtf_rhs. rewrite EM, EF.
    do 8 (split; [assumption|]). split; [now repeat apply pow_nonzero|]. split; [field; auto|].
    assert (EVV : forall x y, (x < K)%nat -> (y < K)%nat -> mget V' (pi x) (pi y) = (c / a m) ^ 2 * mget V x y)
      by (intros; rewrite HVe, HVe' by auto; now apply EL).
    split.
    + intros x y Hx Hy. unfold dots. rewrite <- (@sum_permuted K pi _ Hp), <- sum_scal_l. apply sum_ext. intros z Hz. rewrite !EVV by auto. ring.
    + intros i x Hi Hx. unfold dots. rewrite <- (@sum_permuted K pi _ Hp), <- sum_scal_l. apply sum_ext. intros z Hz.
      rewrite EVV, HPe, HPe', ER by auto. ring.
Qed.

Lemma update_rescaled s t m : both s t -> (m < N)%nat ->
  exists s' t', cmtf_update_factor env cs s m = (s', None) /\ cmtf_update_factor env cs t m = (t', None) /\ both s' t'.
Proof.
  intros H Hm. pose proof (bo_dim H) as HN. pose proof (both_shape H) as Es. pose proof (bo_re H) as HRe.
  destruct (sides_rescaled H Hm) as (M & M' & g & h & lhs & rhs & lhs' & rhs' & A1 & A2 & A3 & A4 & HL & HR & HL' & HR' & Hg & Eh & EG & EP).
  destruct (@products_scaled (env_svd env) _ K M M' pi g h lhs rhs lhs' rhs' Hsvd HL HL' HR HR' Hp Hg EG EP) as (Z & Z' & EZ & EZ' & HZ & HZ' & HZe).
  rewrite Eh in HZe.
  destruct (@cm_update_with env cs K ms s m lhs rhs (rightsolve (env_svd env)) Z (bo_ok H)) as (s' & E1 & F & FV & S1 & O1); auto; [lia|apply free_rightsolve, (bo_free H); lia|].
  destruct (@cm_update_with env cs K ms t m lhs' rhs' (rightsolve (env_svd env)) Z' (bo_ok' H)) as (t' & E1' & F' & FV' & S1' & O1'); auto;
    [rewrite Es; lia|apply free_rightsolve, (bo_free' H); rewrite Es; lia|now rewrite Es|].
  exists s', t'. split; [exact E1|]. split; [exact E1'|]. constructor; auto.
  - now rewrite (sp_X (sc_cp S1)).
  - apply (free_fit_same (sc_cp S1)), H.
  - apply (free_fit_same (sc_cp S1')), H.
  - constructor.
    + rewrite (sp_X (sc_cp S1)), (sp_X (sc_cp S1')). apply HRe.
    + rewrite (sp_norm (sc_cp S1)), (sp_norm (sc_cp S1')). apply HRe.
    + rewrite (sc_Y S1), (sc_Y S1'). apply HRe.
    + rewrite F, F'. unfold with_factor. apply same_factors_replace; [apply HRe|rewrite (ck_len (bo_ok H)); lia|].
      intros i r Hi Hr. rewrite (is_mat_nrows HZ) in Hi. now apply HZe.
    + rewrite FV, FV'. apply HRe.
    + intros r Hr. unfold cm_dec. rewrite (sp_w (sc_cp S1)), (sp_w (sc_cp S1')). now apply HRe.
Qed.

Lemma update_modes_rescaled l : forall s t, both s t -> Forall (fun m => (m < N)%nat) l ->
  exists s' t', cmtf_update_modes env cs l s = (s', None) /\ cmtf_update_modes env cs l t = (t', None) /\ both s' t'.
Proof.
  induction l as [|m l IH]; intros s t H Hl; cbn [cmtf_update_modes]; [exists s, t; auto|].
  inversion Hl as [|? ? Hm Hl']; subst. pose proof (bo_dim H) as HN.
  destruct (bo_free H (m := m)) as (_ & (ln & En & Ea) & _); [lia|].
  destruct (bo_free' H (m := m)) as (_ & (ln' & En' & Ea') & _); [rewrite (both_shape H); lia|].
  rewrite En, En'. cbn [not_none bind]. unfold list_get. rewrite Ea, Ea'.
  destruct (update_rescaled H Hm) as (s1 & t1 & -> & -> & H1). exact (IH s1 t1 H1 Hl').
Qed.

Lemma step_rescaled s t i : both s t -> (i < length ms)%nat ->
  exists Z Z', uncoupled_step env s (Z.of_nat (nth i ms 0%nat)) [i] (cm_V s) = (replace_at i Z (cm_V s), None) /\
    uncoupled_step env t (Z.of_nat (nth i ms 0%nat)) [i] (cm_V t) = (replace_at i Z' (cm_V t), None) /\
    both (cm_with_V (replace_at i Z (cm_V s)) s) (cm_with_V (replace_at i Z' (cm_V t)) t).
Proof.
  intros H Hi. pose proof (both_mode H Hi) as HmN. pose proof (bo_dim H) as HN. pose proof (both_shape H) as Es. pose proof (bo_re H) as HRe.
  destruct (ck_coup (bo_ok H)) as (HlV & HlY & HC). destruct (ck_coup (bo_ok' H)) as (HlV' & HlY' & HC').
  destruct (HC i Hi) as (Hm & HYi & HVi). destruct (HC' i Hi) as (Hm' & HYi' & HVi').
  pose proof (rows_nth (ck_fac (bo_ok H)) Hm) as HU. pose proof (rows_nth (ck_fac (bo_ok' H)) Hm') as HU'.
  rewrite Es in HYi', HU'. rewrite (both_cols H Hi) in HYi', HVi'. pose proof (coupled_scale H Hi) as Ed.
  pose proof (proj1 (proj2 Hsc) _ HmN) as Ham. pose proof (fun j r => @both_U s t (nth i ms 0%nat) j r H HmN) as EU.
  pose proof (fun x y => @both_Y s t i x y H Hi) as EY. set (m := nth i ms 0%nat) in *. pose proof (proj1 Hp) as Hlt.
  set (n := nth m (shape (cp_X (cm_cp s))) 0%nat) in *. set (q := ncols (nth i (cm_Y s) m0)) in *.
  destruct (@products_scaled (env_svd env) q K n n pi (a m ^ 2) (c * a m)
    (transp (nth m (cm_fms s) m0)) (transp (nth i (cm_Y s) m0)) (transp (nth m (cm_fms t) m0)) (transp (nth i (cm_Y t) m0)))
    as (Z & Z' & EZ & EZ' & HZ & HZ' & HZe); auto using is_mat_transp, pow_nonzero.
  { intros x y Hx Hy. unfold dots. rewrite <- sum_scal_l. apply sum_ext. intros j Hj.
    rewrite !(mget_transp HU), !(mget_transp HU') by auto. rewrite !EU by auto. ring. }
  { intros y x Hy Hx. unfold dots. rewrite <- sum_scal_l. apply sum_ext. intros j Hj.
    rewrite (mget_transp HU), (mget_transp HU'), (mget_transp HYi), (mget_transp HYi') by auto. rewrite EU, EY by auto. ring. }
  exists Z, Z'.
  assert (Hgo : forall u Y0, cm_ok K ms u -> free_fit cs (cm_cp u) ->
     rightsolve (env_svd env) (transp (nth m (cm_fms u) m0)) (transp (nth i (cm_Y u) m0)) = Ok Y0 ->
     is_mat (ncols (nth i (cm_Y u) m0)) K Y0 ->
     uncoupled_step env u (Z.of_nat m) [i] (cm_V u) = (replace_at i Y0 (cm_V u), None) /\ cm_ok K ms (cm_with_V (replace_at i Y0 (cm_V u)) u)).
  { intros u Y0 HO HF EY0 HY0. destruct (ck_coup HO) as (Q1 & Q2 & Q3). destruct (Q3 i Hi) as (Q4 & Q5 & Q6). fold m in Q4.
    destruct (HF m Q4) as (_ & (l & El & Ea) & _). split.
    - unfold uncoupled_step. cbn [list_get nth_error bind].
      rewrite (@py_get_nat _ (cm_fms u) m m0) by (rewrite (ck_len HO); auto). cbn [bind].
      rewrite (@list_get_nth _ (cm_Y u) i m0), (@list_get_nth _ (cm_V u) i m0) by lia. cbn [bind].
      rewrite El. unfold py_get. assert (Hml : (m < length l)%nat) by (apply nth_error_Some; rewrite Ea; discriminate).
      rewrite py_index_nat by auto. unfold list_get. rewrite Ea. cbn [bind]. rewrite EY0. cbn [bind]. now rewrite (assign_full_mat Q6 HY0).
    - destruct HO as [O1 O2 O3 O4 O5]. constructor; auto. cbn [cm_with_V cm_cp cm_V cm_Y]. split; [now rewrite length_replace_at|].
      split; [exact Q2|]. intros j Hj. destruct (Q3 j Hj) as (P1 & P2 & P3). split; [exact P1|]. split; [exact P2|].
      destruct (Nat.eq_dec i j) as [<-|Hne]; [rewrite nth_replace_at_eq by lia; exact HY0|rewrite nth_replace_at_neq by auto; exact P3]. }
  destruct (Hgo s Z (bo_ok H) (bo_free H) EZ HZ) as [G1 G2].
  destruct (Hgo t Z' (bo_ok' H) (bo_free' H) EZ') as [G1' G2']; [rewrite (both_cols H Hi); exact HZ'|].
  split; [exact G1|]. split; [exact G1'|]. destruct HRe as [R1 R2 R3 R4 R5 R6]. destruct H as [B1 B2 B3 B4 B5 B6]. constructor; auto.
  constructor; auto. cbn [cm_with_V cm_V]. apply same_factors_replace; [exact R5|lia|]. intros y r Hy Hr. rewrite (is_mat_nrows HZ) in Hy.
  rewrite HZe by auto. rewrite Ed. f_equal. field. exact Ham.
Qed.

Lemma loop_rescaled s t : forall n b Vs Vs', (b + n = length ms)%nat -> both (cm_with_V Vs s) (cm_with_V Vs' t) ->
  exists Us Us', uncoupled_loop env s (combine (skipn b (map Z.of_nat ms)) (map (fun i => [i]) (seq b n))) Vs = (Us, None) /\
    uncoupled_loop env t (combine (skipn b (map Z.of_nat ms)) (map (fun i => [i]) (seq b n))) Vs' = (Us', None) /\
    both (cm_with_V Us s) (cm_with_V Us' t).
Proof.
  induction n as [|n IH]; intros b Vs Vs' Hb H.
  - exists Vs, Vs'. rewrite skipn_all2 by (rewrite map_length; lia). auto.
  - destruct (@step_rescaled _ _ b H ltac:(lia)) as (Z & Z' & E & E' & H').
    destruct (IH (S b) (replace_at b Z Vs) (replace_at b Z' Vs')) as (Us & Us' & F & F' & HT); [lia|exact H'|].
    exists Us, Us'. rewrite (@nth_skip _ (map Z.of_nat ms) 0%Z b) by (rewrite map_length; lia).
    change 0%Z with (Z.of_nat 0). rewrite map_nth. cbn [seq map combine uncoupled_loop].
    change (uncoupled_step env s) with (uncoupled_step env (cm_with_V Vs s)). change (uncoupled_step env t) with (uncoupled_step env (cm_with_V Vs' t)).
    cbn [cm_with_V cm_V] in E, E'. rewrite E, E'. auto.
Qed.
Lemma iteration_rescaled s t : both s t ->
  exists s' t', cmtf_update_factors env cs s = (s', None) /\ cmtf_update_factors env cs t = (t', None) /\ both s' t'.
Proof.
  intros H. unfold cmtf_update_factors, ndim. rewrite (both_shape H), (bo_dim H).
  destruct (@update_modes_rescaled (seq 0 N) s t H) as (s1 & t1 & -> & -> & H1).
  { apply Forall_forall. intros m Hm. apply in_seq in Hm. lia. }
  assert (Eself : forall u, cm_with_V (cm_V u) u = u) by now intros [].
  destruct (@loop_rescaled s1 t1 (length ms) 0%nat (cm_V s1) (cm_V t1) ltac:(lia)) as (Us & Us' & E & E' & HT); [now rewrite !Eself|].
  unfold update_uncoupled. cbn [skipn] in E, E'.
  rewrite (dict_of_distinct (modes := cm_modes s1)) by (rewrite (ck_modes (bo_ok H1)); now apply map_nat_nodup).
  rewrite (dict_of_distinct (modes := cm_modes t1)) by (rewrite (ck_modes (bo_ok' H1)); now apply map_nat_nodup).
  rewrite (ck_modes (bo_ok H1)), (ck_modes (bo_ok' H1)), map_length, E, E'. eauto.
Qed.
Lemma passes_rescaled s t j : both s t -> both (state_after md s j) (state_after md t j).
Proof.
  intros H. induction j as [|j IH]; [exact H|]. cbn [state_after]. change (md_update md) with (cmtf_update_factors env cs).
  destruct (iteration_rescaled IH) as (s' & t' & -> & -> & H'). exact H'.
Qed.

(** *** Losses and stopping *)
Lemma weighted_scaled s t idx : both s t -> valid idx (shape (cp_X (cm_cp s))) ->
  cp_entry (cm_fms t) (vget (kt_w (cm_dec t))) K idx = c * cp_entry (cm_fms s) (vget (kt_w (cm_dec s))) K idx.
Proof.
  intros H Hv. pose proof (bo_re H) as HRe. unfold cp_entry. rewrite <- (@sum_permuted K pi _ Hp), <- sum_scal_l. apply sum_ext. intros r Hr.
  rewrite (re_w HRe Hr). rewrite <- (proj2 (ck_fac (bo_ok H))) in Hv. pose proof (colprod_moved (re_fac HRe) Hv Hr) as E. rewrite moved_id in E.
  rewrite E, (ck_len (bo_ok H)), (bo_dim H), (proj1 Hsc). ring.
Qed.
Definition total (s : cmtf_state) : R :=
  coupled_loss K (cp_X (cm_cp s)) (cm_fms s) (vget (kt_w (cm_dec s))) ms (cm_V s) (cm_Y s).
Lemma total_rescaled s t : both s t -> total t = c ^ 2 * total s.
Proof.
  intros H. pose proof (bo_re H) as HRe. unfold total, coupled_loss. rewrite Rmult_plus_distr_l. f_equal.
  - unfold sse. rewrite (both_shape H), <- sumf_scal_l. apply sumf_ext. intros idx Hi. apply in_indices in Hi.
    pose proof (proj2 (proj2 (re_data HRe)) idx Hi) as E. rewrite moved_id in E. rewrite E, (weighted_scaled H Hi). ring.
  - unfold mats_sse. rewrite <- sum_scal_l. apply sum_ext. intros i Hi. pose proof (both_mode H Hi) as HmN.
    destruct (ck_coup (bo_ok H)) as (_ & HlY & HC). destruct (ck_coup (bo_ok' H)) as (_ & _ & HC').
    destruct (HC i Hi) as (Hm & HYi & _). destruct (HC' i Hi) as (_ & HYi' & _).
    unfold mat_sse. rewrite (is_mat_nrows HYi), (is_mat_nrows HYi'), (both_shape H), (both_cols H Hi), <- sum_scal_l. apply sum_ext. intros x Hx.
    rewrite <- sum_scal_l. apply sum_ext. intros y Hy. rewrite (both_Y H Hi Hx Hy).
    replace (sum K (fun r => mget (nth (nth i ms 0%nat) (cm_fms t) m0) x r * mget (nth i (cm_V t) m0) y r))
      with (c * sum K (fun r => mget (nth (nth i ms 0%nat) (cm_fms s) m0) x r * mget (nth i (cm_V s) m0) y r)); [ring|].
    rewrite <- (@sum_permuted K pi (fun r => mget (nth (nth i ms 0%nat) (cm_fms t) m0) x r * mget (nth i (cm_V t) m0) y r) Hp), <- sum_scal_l.
    apply sum_ext. intros r Hr. rewrite (both_U H HmN Hx Hr), (both_V H Hi Hy Hr). rewrite <- (proj2 (proj2 Hsc) i Hi). ring.
Qed.
Lemma loss_total s : cm_ok K ms s -> cmtf_SSE env s = Ok (total s).
Proof. apply cmtf_SSE_ok. Qed.
Lemma loss_of s t j : both s t ->
  loss_at md s j = Ok (Fin (total (state_after md s j))) /\ loss_at md t j = Ok (Fin (total (state_after md t j))).
Proof.
  intros H. pose proof (passes_rescaled j H) as Hj. unfold loss_at. cbn [md cmtf_model md_loss]. fold md.
  rewrite (loss_total (bo_ok Hj)), (loss_total (bo_ok' Hj)). split; reflexivity.
Qed.
Lemma stops_rescaled s t x cf cf' j : both s t -> cf_tol cf' = cf_tol cf -> cf_rel_tol cf' = cf_rel_tol cf ->
  cp_stops md cf' (Fin (c ^ 2 * x)) PInf t j = cp_stops md cf (Fin x) PInf s j.
Proof.
  intros H Et Er. assert (Hq : 0 < c ^ 2) by (assert (0 < c * c) by (now apply Rsqr_pos_lt); lra).
  assert (HL : forall i, total (state_after md t i) = c ^ 2 * total (state_after md s i)) by (intros i; apply total_rescaled, passes_rescaled, H).
  assert (HR : rel_at md (Fin (c ^ 2 * x)) PInf t j = rel_at md (Fin x) PInf s j).
  { destruct j as [|j]; [reflexivity|]. cbn [rel_at]. set (p := match j with O => x | S _ => total (state_after md s j) end).
    assert (P1 : prev_at md (Fin x) s j = Ok (Fin p)) by (destruct j; [reflexivity|cbn [prev_at]; apply (loss_of _ H)]).
    assert (P2 : prev_at md (Fin (c ^ 2 * x)) t j = Ok (Fin (c ^ 2 * p))).
    { destruct j; [reflexivity|]. cbn [prev_at]. rewrite (proj2 (loss_of (S j) H)), HL. reflexivity. }
    rewrite P1, P2, (proj1 (loss_of (S j) H)), (proj2 (loss_of (S j) H)). cbn [bind xsub xdiv]. rewrite HL. f_equal.
    rewrite <- Rmult_minus_distr_l. now apply xdivR_scale. }
  unfold cp_stops. rewrite (proj1 (loss_of j H)), (proj2 (loss_of j H)), HR. cbn [bind].
  destruct (rel_at md _ PInf s j) as [y|]; [|reflexivity]. cbn [bind]. rewrite Et, Er. do 3 f_equal. cbn [xdiv]. rewrite HL.
  pose proof (re_norm (bo_re (passes_rescaled j H))) as En. cbn [md_norm2 md cmtf_model]. fold md.
  match goal with |- xdivR _ ?u = xdivR _ ?v => replace u with (c ^ 2 * v) by (symmetry; exact En) end.
  now apply xdivR_scale.
Qed.
Lemma loops_rescaled ds dt e e' x cf cf' : both (ds_num ds) (ds_num dt) ->
  ds_prev ds = Fin x -> ds_prev dt = Fin (c ^ 2 * x) ->
  ds_rel ds = PInf -> ds_rel dt = PInf -> ds_it dt = ds_it ds -> ds_max dt = ds_max ds ->
  cf_tol cf' = cf_tol cf -> cf_rel_tol cf' = cf_rel_tol cf ->
  cp_fit_loop md cf ds = (e, None) -> cp_fit_loop md cf' dt = (e', None) ->
  ds_it e' = ds_it e /\ both (ds_num e) (ds_num e').
Proof.
  intros H Ep Ep' Er Er' Ei Em Et Et' E E'.
  destruct (cp_fit_lemma E) as (n & Hn & En & Hbefore & Hend). destruct (Hend eq_refl) as [Hstop Hit].
  destruct (cp_fit_lemma E') as (n' & Hn' & En' & Hbefore' & Hend'). destruct (Hend' eq_refl) as [Hstop' Hit'].
  rewrite Ep, Er in Hbefore, Hstop. rewrite Ep', Er' in Hbefore', Hstop'. rewrite Ei, Em in *.
  assert (ES : forall j, cp_stops md cf' (Fin (c ^ 2 * x)) PInf (ds_num dt) j = cp_stops md cf (Fin x) PInf (ds_num ds) j)
    by (intros j; now apply stops_rescaled).
  assert (Enn : n' = n).
  { destruct (Nat.lt_trichotomy n n') as [Hlt|[Heq|Hlt]]; auto.
    - destruct Hstop as [Hs|Hs]; [lia|]. specialize (Hbefore' n Hlt). rewrite ES in Hbefore'. congruence.
    - destruct Hstop' as [Hs|Hs]; [lia|]. specialize (Hbefore n' Hlt). rewrite ES in Hs. congruence. }
  subst n'. split; [congruence|]. rewrite En, En'. now apply passes_rescaled.
Qed.
End Runs.

Section Results.
Variables (env : cp_env) (cs : cp_settings) (K : nat) (ms : list nat) (c : R) (pi : nat -> nat) (a d : nat -> R) (s t : cmtf_state).
Hypothesis (Hsvd : svd_contract (env_svd env)) (HK : cs_rank cs = K) (HND : NoDup ms) (Hp : permutes K pi) (Hc : c <> 0).
Hypothesis (O : cm_ok K ms s) (O' : cm_ok K ms t) (F : free_fit cs (cm_cp s)) (F' : free_fit cs (cm_cp t)).
Hypothesis (Hsc : scales_match (length (shape (cp_X (cm_cp s)))) ms c a d) (HR : rescaled K c pi a d s t).
Let md := cmtf_model env cs.

Lemma begin_both : both cs K ms c pi (length (shape (cp_X (cm_cp s)))) a d s t.
Proof. constructor; auto. Qed.
Lemma iterations_scaled k : let u := state_after md s k in let v := state_after md t k in
  snd (cmtf_update_factors env cs u) = None /\ snd (cmtf_update_factors env cs v) = None /\
  rescaled K c pi a d u v /\ exists x, cmtf_SSE env u = Ok x /\ cmtf_SSE env v = Ok (c ^ 2 * x).
Proof.
  intros u v. pose proof (passes_rescaled Hsvd HK HND Hp Hc Hsc k begin_both) as H. fold md u v in H.
  destruct (iteration_rescaled Hsvd HK HND Hp Hc Hsc H) as (u' & v' & E & E' & _). rewrite E, E'. split; [reflexivity|]. split; [reflexivity|].
  split; [apply H|]. exists (total K ms u). rewrite <- (total_rescaled HK Hp Hsc H). split; apply loss_total; apply H.
Qed.
End Results.

Lemma order_free env cs K ms pi s t : svd_contract (env_svd env) -> cs_rank cs = K -> NoDup ms -> permutes K pi ->
  cm_ok K ms s -> cm_ok K ms t -> free_fit cs (cm_cp s) -> free_fit cs (cm_cp t) ->
  rescaled K 1 pi (fun _ => 1) (fun _ => 1) s t ->
  forall k, cmtf_SSE env (state_after (cmtf_model env cs) t k) = cmtf_SSE env (state_after (cmtf_model env cs) s k).
Proof.
  intros HS HK HN Hp O O' F F' HR k.
  assert (Hsc : scales_match (length (shape (cp_X (cm_cp s)))) ms 1 (fun _ => 1) (fun _ => 1)).
  { split; [|split]; [|intros; lra|intros; ring]. generalize (length (shape (cp_X (cm_cp s)))). intros n. induction n as [|n IH]; cbn [scale_prod]; lra. }
  destruct (@iterations_scaled env cs K ms 1 pi (fun _ => 1) (fun _ => 1) s t HS HK HN Hp R1_neq_R0 O O' F F' Hsc HR k) as (_ & _ & _ & x & E & E').
  rewrite E, E'. f_equal. ring.
Qed.

Section Loops.
Variables (env : cp_env) (cs : cp_settings) (K : nat) (ms : list nat) (c : R) (pi : nat -> nat) (a d : nat -> R) (cf cf' : config) (ds dt : dstate cmtf_state).
Hypothesis (Hsvd : svd_contract (env_svd env)) (HK : cs_rank cs = K) (HK1 : (1 <= K)%nat) (HND : NoDup ms) (Hp : permutes K pi) (Hc : c <> 0).
Let s := ds_num ds.
Let t := ds_num dt.
Hypothesis (O : cm_ok K ms s) (O' : cm_ok K ms t) (F : free_fit cs (cm_cp s)) (F' : free_fit cs (cm_cp t)).
Hypothesis (Hsc : scales_match (length (shape (cp_X (cm_cp s)))) ms c a d) (HR : rescaled K c pi a d s t).
Let md := cmtf_model env cs.

Lemma loops_scaled x : loop_begins env K cf x ds -> loop_begins env K cf' (c ^ 2 * x) dt ->
  ds_max dt = ds_max ds -> cf_tol cf' = cf_tol cf -> cf_rel_tol cf' = cf_rel_tol cf ->
  exists e e', cp_fit_loop md cf ds = (e, None) /\ cp_fit_loop md cf' dt = (e', None) /\
    ds_it e' = ds_it e /\ rescaled K c pi a d (ds_num e) (ds_num e') /\
    exists y, cmtf_SSE env (ds_num e) = Ok y /\ cmtf_SSE env (ds_num e') = Ok (c ^ 2 * y).
Proof.
  intros [B1 B2 B3 B4 B5 B6 B7] [C1 C2 C3 C4 C5 C6 C7] Em Et Er.
  assert (HS : svd_works_rows K (env_svd env)) by (intros m _ A HA; now apply Hsvd).
  pose proof (@coupled_quiet env cs K ms cf ds HK HK1 HND HS O F B1 B2 B3 B6 B7) as Q1.
  pose proof (@coupled_quiet env cs K ms cf' dt HK HK1 HND HS O' F' C1 C2 C3 C6 C7) as Q2.
  destruct (cp_fit_loop (cmtf_model env cs) cf ds) as [e x1] eqn:E1. destruct (cp_fit_loop (cmtf_model env cs) cf' dt) as [e' x2] eqn:E2.
  cbn [snd] in Q1, Q2. subst x1 x2. exists e, e'. split; [exact E1|]. split; [exact E2|].
  pose proof (@begin_both cs K ms c pi a d s t O O' F F' HR) as HB.
  destruct (@loops_rescaled env cs K ms c pi _ a d Hsvd HK HND Hp Hc Hsc ds dt e e' x cf cf' HB B5 C5 B4 C4) as [A H]; auto; [congruence|].
  split; [exact A|]. split; [apply H|]. exists (total K ms (ds_num e)). rewrite <- (total_rescaled HK Hp Hsc H). split; apply loss_total; apply H.
Qed.
End Loops.
