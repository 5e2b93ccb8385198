(** CMTF_ALS on data given in other coordinates: lemmas for C95. *)
From Verif Require Export CoupledTurnSpec.
From Verif Require Import TuckerFacts CoupledFit CMTFComplete CMTFUpdate CMTFNorm CMTFLoss CMTFFacts ConstrainedFit CPComplete CompressFacts SvdFacts
  Solves RunFacts FitFacts MetricsFacts.
From Verif Require Import Prelude Lin.
Set Implicit Arguments.
Unset Strict Implicit.
Local Open Scope R_scope.

(** *** Solvers see their two matrices only through products of rows *)
Definition dots (M : nat) (A B : nd) (i j : nat) : R := sum M (fun t => mget A i t * mget B j t).

Lemma rightsolve_span svd K M n A B : svd_contract svd -> is_mat K M A -> is_mat n M B ->
  exists Z T, rightsolve svd A B = Ok Z /\ is_mat n K Z /\
    (forall i a, (i < n)%nat -> (a < K)%nat -> sum K (fun b => mget Z i b * dots M A A b a) = dots M B A i a) /\
    (forall i a, (i < n)%nat -> (a < K)%nat -> mget Z i a = sum K (fun b => T i b * dots M A A b a)).
Proof.
  intros HS HA HB. destruct (HS _ _ _ HA) as (U & Sv & Vh & ES & HV).
  destruct (rightsolve_entries HB HV ES) as (Z & EZ & HZ & HZe).
  set (z := fun i r => inv_nonzero (vget Sv r) * sum M (fun j => mget B i j * mget Vh r j)) in *.
  exists Z, (fun i b => sum (Nat.min K M) (fun r => inv_nonzero (vget Sv r) ^ 2 * z i r * mget U b r)).
  split; [exact EZ|]. split; [exact HZ|]. split.
  - intros i a Hi Ha. pose proof (rightsolve_normal HV HZe Hi Ha) as E.
    transitivity (sum M (fun j => mprod K (mget Z) (mget A) i j * mget A a j)).
    + unfold mprod, dots. transitivity (sum K (fun b => sum M (fun j => mget Z i b * mget A b j * mget A a j))).
      * apply sum_ext. intros b _. rewrite <- sum_scal_l. apply sum_ext. intros; ring.
      * rewrite sum_swap. apply sum_ext. intros j _. now rewrite sum_scal_r.
    + unfold dots. apply Rminus_diag_uniq. rewrite <- E, <- sum_minus. apply sum_ext. intros; ring.
  - intros i a Hi Ha. rewrite HZe by auto. fold (z i).
    transitivity (sum (Nat.min K M) (fun r => inv_nonzero (vget Sv r) ^ 2 * z i r * (vget Sv r * (vget Sv r * mget U a r)))).
    + apply sum_ext. intros r Hr. unfold z, inv_nonzero. destruct (Req_EM_T (vget Sv r) 0) as [E|E]; [rewrite E; ring|]. field. exact E.
    + transitivity (sum K (fun b => sum (Nat.min K M) (fun r => inv_nonzero (vget Sv r) ^ 2 * z i r * (mget U b r * dots M A A b a)))).
      * rewrite sum_swap. apply sum_ext. intros r Hr. rewrite sum_scal_l. f_equal. unfold dots.
        rewrite <- (svd_right HV Hr Ha), <- sum_scal_l.
        transitivity (sum M (fun t => sum K (fun b => mget U b r * mget A b t) * mget A a t)).
        { apply sum_ext. intros t Ht. rewrite (svd_left HV Hr Ht). ring. }
        transitivity (sum M (fun t => sum K (fun b => mget U b r * (mget A b t * mget A a t)))).
        { apply sum_ext. intros t _. rewrite <- sum_scal_r. apply sum_ext. intros; ring. }
        rewrite sum_swap. apply sum_ext. intros b _. now rewrite sum_scal_l.
      * apply sum_ext. intros b _. rewrite <- sum_scal_r. apply sum_ext. intros; ring.
Qed.

Section Products.
Variables (svd : svd_fun) (n k K M M' : nat) (Q : nat -> nat -> R) (A B A' B' : nd).
Hypothesis (HS : svd_contract svd) (HA : is_mat K M A) (HA' : is_mat K M' A') (HB : is_mat n M B) (HB' : is_mat k M' B').
Hypothesis EG : forall a b, (a < K)%nat -> (b < K)%nat -> dots M A A a b = dots M' A' A' a b.
Hypothesis EP : forall i a, (i < n)%nat -> (a < K)%nat -> dots M B A i a = sum k (fun c => Q i c * dots M' B' A' c a).

Lemma dots_sym N C a b : dots N C C a b = dots N C C b a.
Proof. apply sum_ext. intros; ring. Qed.

Lemma products_free : exists Z Z', rightsolve svd A B = Ok Z /\ rightsolve svd A' B' = Ok Z' /\ lifted n k Q K Z Z'.
Proof.
  destruct (rightsolve_span HS HA HB) as (Z & T & EZ & HZ & N1 & R1). destruct (rightsolve_span HS HA' HB') as (Z' & T' & EZ' & HZ' & N2 & R2).
  exists Z, Z'. split; [exact EZ|]. split; [exact EZ'|]. split; [exact HZ|]. split; [exact HZ'|]. intros i a Hi Ha. unfold mprod.
  set (d := fun a => mget Z i a - sum k (fun c => Q i c * mget Z' c a)).
  assert (D1 : forall a, (a < K)%nat -> sum K (fun b => d b * dots M A A b a) = 0).
  { intros r Hr. unfold d. transitivity (sum K (fun b => mget Z i b * dots M A A b r) - sum k (fun c => Q i c * sum K (fun b => mget Z' c b * dots M' A' A' b r))).
    - rewrite <- (sum_ext (fun b => mget Z i b * dots M A A b r - sum k (fun c => Q i c * (mget Z' c b * dots M' A' A' b r)))).
      + rewrite sum_minus. f_equal. rewrite sum_swap. apply sum_ext. intros c _. now rewrite sum_scal_l.
      + intros b Hb. cbv beta. rewrite EG by auto. rewrite Rmult_minus_distr_r. f_equal. rewrite <- sum_scal_r. apply sum_ext. intros; ring.
    - rewrite N1, EP by auto. apply Rminus_diag_eq. apply sum_ext. intros c Hc. now rewrite N2. }
  assert (D2 : exists Y, forall a, (a < K)%nat -> d a = sum K (fun b => Y b * dots M A A b a)).
  { exists (fun b => T i b - sum k (fun c => Q i c * T' c b)). intros r Hr. unfold d. rewrite R1 by auto.
    transitivity (sum K (fun b => T i b * dots M A A b r) - sum K (fun b => sum k (fun c => Q i c * T' c b) * dots M A A b r)).
    - f_equal. transitivity (sum k (fun c => sum K (fun b => Q i c * T' c b * dots M A A b r))).
      + apply sum_ext. intros c Hc. rewrite R2 by auto. rewrite <- sum_scal_l. apply sum_ext. intros b Hb. rewrite EG by auto. ring.
      + rewrite sum_swap. apply sum_ext. intros b _. now rewrite sum_scal_r.
    - rewrite <- sum_minus. apply sum_ext. intros; ring. }
  destruct D2 as (Y & D2).
  assert (D3 : sum K (fun a => d a ^ 2) = 0).
  { transitivity (sum K (fun a => sum K (fun b => Y b * (d a * dots M A A a b)))).
    - apply sum_ext. intros r Hr. replace (d r ^ 2) with (d r * d r) by ring. rewrite (D2 r Hr) at 2. rewrite <- sum_scal_l.
      apply sum_ext. intros b _. rewrite (dots_sym M A r b). ring.
    - rewrite sum_swap. apply sum_zero. intros b Hb. rewrite sum_scal_l, D1 by auto. ring. }
  assert (D4 : d a ^ 2 = 0) by (apply (sum_nonneg_zero (fun b _ => pow2_ge_0 (d b)) D3 Ha)).
  assert (D5 : d a = 0) by nra. unfold d in D5. lra.
Qed.

(** The orthonormal solver sees only the products of B and A. *)
Lemma orth_products N : is_mat n K N -> (forall i a, (i < n)%nat -> (a < K)%nat -> mget N i a = dots M B A i a) ->
  orthogonal_rightsolve svd A B = orthogonal_rightsolve svd (np_identity K) N.
Proof.
  intros HN EN. assert (HI : is_mat K K (np_identity K)) by apply is_mat_tab2. unfold orthogonal_rightsolve, orthogonal_solve.
  rewrite (transp_transp HB), (transp_transp HN).
  rewrite (@matmul_ok n M K B (transp A)) by auto using is_mat_transp. rewrite (@matmul_ok n K K N (transp (np_identity K))) by auto using is_mat_transp.
  do 3 f_equal. apply tab2_ext. intros i a Hi Ha. transitivity (dots M B A i a).
  - apply sum_ext. intros. now rewrite (mget_transp HA).
  - rewrite <- EN by auto. transitivity (sum K (fun b => delta a b * mget N i b)).
    + symmetry. now apply (@sum_delta_l K a (fun b => mget N i b)).
    + apply sum_ext. intros b Hb. rewrite (mget_transp HI) by auto. unfold np_identity. rewrite mget_tab2 by auto. unfold delta. ring.
Qed.
End Products.

Lemma products_orth svd n k K M M' Q A B A' B' : svd_contract svd -> orth_cols n k Q -> (0 < K)%nat -> k = n -> (K <= n)%nat ->
  is_mat K M A -> is_mat K M' A' -> is_mat n M B -> is_mat k M' B' ->
  (forall i a, (i < n)%nat -> (a < K)%nat -> dots M B A i a = sum k (fun c => Q i c * dots M' B' A' c a)) ->
  exists Z Z', orthogonal_rightsolve svd A B = Ok Z /\ orthogonal_rightsolve svd A' B' = Ok Z' /\ lifted n k Q K Z Z'.
Proof.
  intros HS HO HK Ek HKn HA HA' HB HB' EP.
  set (N := tab2 n K (dots M B A)). set (N' := tab2 k K (dots M' B' A')).
  assert (HN : is_mat n K N) by apply is_mat_tab2. assert (HN' : is_mat k K N') by apply is_mat_tab2.
  rewrite (orth_products svd HA HB HN) by (intros; unfold N; now rewrite mget_tab2).
  rewrite (orth_products svd HA' HB' HN') by (intros; unfold N'; now rewrite mget_tab2).
  apply (orth_solved HS HO HK Ek HKn (is_mat_tab2 K K _)). split; [exact HN|]. split; [exact HN'|].
  intros i a Hi Ha. unfold N. rewrite mget_tab2, EP by auto. apply sum_ext. intros c Hc. unfold N'. now rewrite mget_tab2.
Qed.

Lemma products_ridge svd lam n k K M M' Q A B A' B' : svd_contract svd -> 0 <= lam ->
  is_mat K M A -> is_mat K M' A' -> is_mat n M B -> is_mat k M' B' ->
  (forall a b, (a < K)%nat -> (b < K)%nat -> dots M A A a b = dots M' A' A' a b) ->
  (forall i a, (i < n)%nat -> (a < K)%nat -> dots M B A i a = sum k (fun c => Q i c * dots M' B' A' c a)) ->
  exists Z Z', add_rightsolve_ridge (rightsolve svd) lam A B = Ok Z /\ add_rightsolve_ridge (rightsolve svd) lam A' B' = Ok Z' /\ lifted n k Q K Z Z'.
Proof.
  intros HS Hl HA HA' HB HB' EG EP.
  assert (HR : forall M n A B, is_mat K M A -> is_mat n M B -> exists A2 B2, add_rightsolve_ridge (rightsolve svd) lam A B = rightsolve svd A2 B2 /\
    is_mat K (M + K) A2 /\ is_mat n (M + K) B2 /\
    (forall a b, (a < K)%nat -> (b < K)%nat -> dots (M + K) A2 A2 a b = dots M A A a b + lam * delta a b) /\
    (forall i a, (i < n)%nat -> (a < K)%nat -> dots (M + K) B2 A2 i a = dots M B A i a)).
  { clear - Hl. intros M n A B HA HB.
    assert (HI : is_mat K K (np_map (Rmult (sqrt lam)) (np_identity K))) by (apply is_mat_np_map; apply is_mat_tab2).
    destruct (concat1_ok HA HI) as (A2 & EA & HA2 & HA3 & HA4). destruct (concat1_ok HB (is_mat_zeros n K)) as (B2 & EB & HB2 & HB3 & HB4).
    assert (HI' : forall a j, (a < K)%nat -> (j < K)%nat -> mget A2 a (M + j) = sqrt lam * delta a j).
    { intros a j Ha Hj. rewrite HA4 by auto. rewrite (@mget_np_map _ K K) by (auto; apply is_mat_tab2).
      unfold np_identity. now rewrite mget_tab2 by auto. }
    exists A2, B2. split; [|split; [exact HA2|split; [exact HB2|split]]].
    - unfold add_rightsolve_ridge, shape2. rewrite (proj2 HA), (proj2 HB). cbn [bind]. now rewrite EA, EB.
    - intros a b Ha Hb. unfold dots. rewrite sum_split. f_equal; [apply sum_ext; intros t Ht; now rewrite !HA3|].
      transitivity (sum K (fun t => delta a t * (lam * delta b t))).
      + apply sum_ext. intros t Ht. rewrite !HI' by auto. rewrite <- (sqrt_sqrt lam Hl) at 3. ring.
      + rewrite (@sum_delta_l K a (fun t => lam * delta b t)) by auto. rewrite (delta_sym b a). ring.
    - intros i a Hi Ha. unfold dots. rewrite sum_split. rewrite (@sum_zero K (fun t => mget B2 i (M + t) * mget A2 a (M + t))%R).
      + rewrite Rplus_0_r. apply sum_ext. intros t Ht. now rewrite HA3, HB3.
      + intros t Ht. rewrite HB4, mget_zeros by auto. ring. }
  destruct (HR M n A B HA HB) as (A2 & B2 & E & H1 & H2 & H3 & H4). destruct (HR M' k A' B' HA' HB') as (A2' & B2' & E' & H1' & H2' & H3' & H4').
  rewrite E, E'. apply (products_free HS H1 H1' H2 H2').
  - intros a b Ha Hb. now rewrite H3, H3', EG.
  - intros i a Hi Ha. rewrite H4, EP by auto. apply sum_ext. intros c Hc. now rewrite H4'.
Qed.

(** *** The two sides of an update *)
Lemma sides_gram env cs K ms s m idxs : cm_ok K ms s -> NoDup ms -> (m < length (shape (cp_X (cm_cp s))))%nat ->
  dict_find (Z.of_nat m) (mode_to_cm_idx (cm_modes s)) = Some idxs ->
  exists i lhs rhs N, (i < length ms)%nat /\ nth i ms 0%nat = m /\
    cmtf_lhs env cs s m = Ok lhs /\ cmtf_rhs env s m = Ok rhs /\
    is_mat K N lhs /\ is_mat (nth m (shape (cp_X (cm_cp s))) 0%nat) N rhs /\
    (forall a b, (a < K)%nat -> (b < K)%nat -> dots N lhs lhs a b = normal_lhs (cm_fms s) m a b +
       sum (ncols (nth i (cm_Y s) m0)) (fun j => mget (nth i (cm_V s) m0) j a * mget (nth i (cm_V s) m0) j b)) /\
    forall a r, (a < nth m (shape (cp_X (cm_cp s))) 0)%nat -> (r < K)%nat -> dots N rhs lhs a r =
      normal_rhs (cp_X (cm_cp s)) (cm_fms s) m a r +
      sum (ncols (nth i (cm_Y s) m0)) (fun j => mget (nth i (cm_Y s) m0) a j * mget (nth i (cm_V s) m0) j r).
Proof.
  intros H HND Hm EF. destruct (@coupled_sides env cs K ms s m idxs H Hm EF) as (i & lhs & rhs & N & Hi & Em & HN & EL & ER & HL & HR & _ & Hdot).
  exists i, lhs, rhs, N. do 6 (split; [assumption|]). split; [|exact Hdot].
  destruct (find_coupled H EF) as (i' & rest & Ei & Hi' & Em' & Hall).
  assert (i' = i) as -> by (apply (proj1 (NoDup_nth ms 0%nat) HND); auto; congruence).
  destruct (ck_coup H) as (HlV & HlY & HC). destruct (HC i Hi) as (_ & _ & HV).
  pose proof (ck_fac H) as [HU Hr]. destruct (ck_data H) as (HX & H2 & Hnz).
  unfold cmtf_lhs in EL. rewrite EF in EL. set (X := cp_X (cm_cp s)) in *.
  destruct (@khatri_rao_skip_ok (env_junk env) K (cm_fms s) (Z.of_nat m) m HU) as (KR & EKR & HKR & HKRe).
  { apply py_index_nat. rewrite (ck_len H). exact Hm. } { rewrite (ck_len H). fold X. lia. }
  rewrite Hr in HKR, HKRe. rewrite EKR in EL. cbn [bind] in EL. rewrite (first_of_ok m0 Ei) in EL by (now rewrite HlV). cbn [bind] in EL.
  destruct (concat0_ok HKR HV) as (CC & ECC & HCC & HCC1 & HCC2). rewrite ECC in EL. cbn [bind] in EL. injection EL as <-.
  set (C := prodl (remove_at m (shape X))) in *. set (J := ncols (nth i (cm_Y s) m0)) in *.
  assert (EN : N = (C + J)%nat) by (pose proof (is_mat_transp HCC) as [_ E]; destruct HL as [_ E']; rewrite E in E'; congruence).
  subst N. intros a b Ha Hb. unfold dots. rewrite sum_split. f_equal.
  - transitivity (gV C (mode_A X (cm_fms s) m) a b); [|now apply mode_gV].
    assert (HL1 : forall r c, (r < K)%nat -> (c < C)%nat -> mget (transp CC) r c = mode_A X (cm_fms s) m r c).
    { intros r c Hrk Hc.
      assert (Hv : valid (nth c (indices (remove_at m (shape X))) []) (remove_at m (shape X))) by now apply valid_nth_indices.
      assert (Hra : ravel (remove_at m (shape X)) (nth c (indices (remove_at m (shape X))) []) = c) by now apply ravel_nth_indices.
      rewrite (mget_transp HCC) by (auto; lia). rewrite HCC1 by auto. unfold mode_A. rewrite <- HKRe by auto. now rewrite Hra. }
    apply sum_ext. intros c Hc. now rewrite !HL1.
  - apply sum_ext. intros j Hj. rewrite !(mget_transp HCC) by (auto; lia). now rewrite !HCC2.
Qed.

(** *** Two runs side by side *)
(** *** Scaled columns *)
Lemma clen_lifted K Q U V r : orth_cols (nrows Q) (ncols Q) (mget Q) -> nrows U = nrows Q -> nrows V = ncols Q ->
  (forall i r, (i < nrows Q)%nat -> (r < K)%nat -> mget U i r = mprod (ncols Q) (mget Q) (mget V) i r) -> (r < K)%nat -> clen U r = clen V r.
Proof.
  intros HQ H1 H2 H3 Hr. unfold clen. rewrite H1, H2. f_equal.
  transitivity (sum (nrows Q) (fun i => mprod (ncols Q) (mget Q) (mget V) i r * mprod (ncols Q) (mget Q) (mget V) i r)).
  - apply sum_ext. intros i Hi. rewrite H3 by auto. ring.
  - rewrite (mprod_gram _ _ _ _ HQ). apply sum_ext. intros; ring.
Qed.
Lemma clen_carried K Qs Us Vs m r : isometries Qs -> carried_by K Qs Us Vs -> (m < length Qs)%nat -> (r < K)%nat ->
  clen (nth m Us m0) r = clen (nth m Vs m0) r.
Proof.
  intros HQ H Hm Hr. destruct (carried_nth H Hm) as (H1 & H2 & H3). apply (@clen_lifted K (nth m Qs m0)); auto. apply (iso_nth HQ Hm).
Qed.
Lemma prodf_carried K Qs Us Vs r : isometries Qs -> carried_by K Qs Us Vs -> (r < K)%nat ->
  prodf Us (fun U => clen U r) = prodf Vs (fun U => clen U r).
Proof.
  intros HQ H Hr. induction H as [|Q U V Qs Us Vs H1 H2 H3 H4 IH]; [reflexivity|]. apply Forall_cons_iff in HQ as [[_ HQo] HQ'].
  cbn [prodf]. rewrite (IH HQ'). f_equal. now apply (@clen_lifted K Q).
Qed.
Lemma carried_intro K : forall Qs Us Vs, length Us = length Qs -> length Vs = length Qs ->
  (forall m, (m < length Qs)%nat -> nrows (nth m Us m0) = nrows (nth m Qs m0) /\ nrows (nth m Vs m0) = ncols (nth m Qs m0) /\
    forall i r, (i < nrows (nth m Qs m0))%nat -> (r < K)%nat ->
      mget (nth m Us m0) i r = mprod (ncols (nth m Qs m0)) (mget (nth m Qs m0)) (mget (nth m Vs m0)) i r) -> carried_by K Qs Us Vs.
Proof.
  induction Qs as [|Q Qs IH]; intros [|U Us] [|V Vs] L1 L2 H; try discriminate; constructor.
  1-3: apply (H 0%nat); cbn; lia.
  apply IH; auto. intros m Hm. apply (H (S m)). cbn; lia.
Qed.
(** Columns of both lists multiplied by the same numbers *)
Lemma carried_scale K Qs Us Vs Us' Vs' (c : nat -> nat -> R) : carried_by K Qs Us Vs -> length Us' = length Qs -> length Vs' = length Qs ->
  (forall m, (m < length Qs)%nat -> nrows (nth m Us' m0) = nrows (nth m Qs m0) /\ nrows (nth m Vs' m0) = ncols (nth m Qs m0) /\
    (forall i r, (i < nrows (nth m Qs m0))%nat -> (r < K)%nat -> mget (nth m Us' m0) i r = mget (nth m Us m0) i r * c m r) /\
    (forall i r, (i < ncols (nth m Qs m0))%nat -> (r < K)%nat -> mget (nth m Vs' m0) i r = mget (nth m Vs m0) i r * c m r)) ->
  carried_by K Qs Us' Vs'.
Proof.
  intros H L1 L2 HS. apply carried_intro; auto. intros m Hm. destruct (HS m Hm) as (A & B & C & D). destruct (carried_nth H Hm) as (_ & _ & E).
  split; [exact A|]. split; [exact B|]. intros i r Hi Hr. rewrite C, E by auto. unfold mprod. rewrite <- sum_scal_r. apply sum_ext.
  intros j Hj. rewrite D by auto. ring.
Qed.

Section Runs.
Variables (env : cp_env) (cs : cp_settings) (K : nat) (X G : nd) (nn orth : option (list bool)) (ms : list nat) (Qs Ws : list nd).
Hypothesis (HX : constrained env cs K X nn orth) (HG : constrained env cs K G nn orth) (HR : rotated Qs X G) (HP : permitted nn orth Qs).
Hypothesis (Hnn : forall m, ~ asked nn m) (HND : NoDup ms).
Let md := cmtf_model env cs.

Record turned_both (s t : cmtf_state) : Prop := {
  tb_ok : cm_ok K ms s; tb_ok' : cm_ok K ms t;
  tb_flag : flagged X nn orth (cm_cp s); tb_flag' : flagged G nn orth (cm_cp t);
  tb_fac : carried_by K Qs (cm_fms s) (cm_fms t);
  tb_V : carried_by K Ws (cm_V s) (cm_V t);
  tb_Y : rotated_matrices Qs Ws ms (cm_Y s) (cm_Y t);
  tb_w : forall r, (r < K)%nat -> vget (kt_w (cm_dec s)) r = vget (kt_w (cm_dec t)) r;
  tb_norm : cp_norm (cm_cp s) ^ 2 = cp_norm (cm_cp t) ^ 2 }.

(** Products of the coupled matrices with factors *)
Lemma coupled_right s t i a r : turned_both s t -> (i < length ms)%nat -> (a < nth (nth i ms 0) (shape X) 0)%nat -> (r < K)%nat ->
  sum (ncols (nth i (cm_Y s) m0)) (fun j => mget (nth i (cm_Y s) m0) a j * mget (nth i (cm_V s) m0) j r) =
  sum (ncols (nth (nth i ms 0%nat) Qs m0)) (fun c => mget (nth (nth i ms 0%nat) Qs m0) a c *
    sum (ncols (nth i (cm_Y t) m0)) (fun j => mget (nth i (cm_Y t) m0) c j * mget (nth i (cm_V t) m0) j r)).
Proof.
  intros H Hi Ha Hr. set (m := nth i ms 0%nat) in *. pose proof (tb_Y H) as HY. destruct (rm_cols HY Hi) as [C1 C2].
  destruct (ck_coup (tb_ok H)) as (_ & _ & HC). destruct (HC i Hi) as (Hm & _ & _). rewrite (proj1 (tb_flag H)) in Hm. fold m in Hm.
  destruct (rot_len HR) as [L1 L2]. destruct (@rot_nth _ _ _ HR m) as [N1 N2]; [lia|].
  assert (HiW : (i < length Ws)%nat) by (rewrite (rm_len HY); exact Hi).
  destruct (carried_nth (tb_V H) HiW) as (R1 & R2 & EV). pose proof (iso_nth (rm_iso HY) HiW) as [_ HWo].
  set (W := nth i Ws m0) in *. set (Q := nth m Qs m0) in *. rewrite C1, C2.
  transitivity (sum (nrows W) (fun j => sum (ncols Q) (fun c => mget Q a c *
    (mprod (ncols W) (mget W) (fun d _ => mget (nth i (cm_Y t) m0) c d) j 0 * mprod (ncols W) (mget W) (mget (nth i (cm_V t) m0)) j r)))).
  - apply sum_ext. intros j Hj. rewrite EV by auto. rewrite (rm_data HY Hi) by (fold m Q W; auto; lia). fold m Q W.
    rewrite <- sum_scal_r. apply sum_ext. intros c Hc. rewrite Rmult_assoc. do 2 f_equal. apply sum_ext. intros; ring.
  - rewrite sum_swap. apply sum_ext. intros c Hc. rewrite sum_scal_l. f_equal.
    exact (mprod_gram (fun d _ => mget (nth i (cm_Y t) m0) c d) (mget (nth i (cm_V t) m0)) 0 r HWo).
Qed.
Lemma coupled_left s t i b r : turned_both s t -> (i < length ms)%nat -> (b < nrows (nth i Ws m0))%nat -> (r < K)%nat ->
  sum (nth (nth i ms 0%nat) (shape X) 0%nat) (fun a => mget (nth i (cm_Y s) m0) a b * mget (nth (nth i ms 0%nat) (cm_fms s) m0) a r) =
  sum (ncols (nth i Ws m0)) (fun d => mget (nth i Ws m0) b d *
    sum (nth (nth i ms 0%nat) (shape G) 0%nat) (fun c => mget (nth i (cm_Y t) m0) c d * mget (nth (nth i ms 0%nat) (cm_fms t) m0) c r)).
Proof.
  intros H Hi Hb Hr. set (m := nth i ms 0%nat) in *. pose proof (tb_Y H) as HY.
  destruct (ck_coup (tb_ok H)) as (_ & _ & HC). destruct (HC i Hi) as (Hm & _ & _). rewrite (proj1 (tb_flag H)) in Hm. fold m in Hm.
  destruct (rot_len HR) as [L1 L2]. destruct (@rot_nth _ _ _ HR m) as [N1 N2]; [lia|]. rewrite <- N1, <- N2.
  destruct (@carried_nth _ _ _ _ (tb_fac H) m ltac:(lia)) as (R1 & R2 & EU). pose proof (@iso_nth _ m (ro_iso HR) ltac:(lia)) as [_ HQo].
  set (W := nth i Ws m0) in *. set (Q := nth m Qs m0) in *.
  transitivity (sum (nrows Q) (fun a => mprod (ncols Q) (mget Q) (fun c _ => sum (ncols W) (fun d => mget (nth i (cm_Y t) m0) c d * mget W b d)) a 0 *
     mprod (ncols Q) (mget Q) (mget (nth m (cm_fms t) m0)) a r)).
  - apply sum_ext. intros a Ha. rewrite EU by auto. now rewrite (rm_data HY Hi) by (fold m Q W; auto).
  - rewrite (mprod_gram (fun c _ => sum (ncols W) (fun d => mget (nth i (cm_Y t) m0) c d * mget W b d)) (mget (nth m (cm_fms t) m0)) 0 r HQo).
    transitivity (sum (ncols Q) (fun c => sum (ncols W) (fun d => mget W b d * (mget (nth i (cm_Y t) m0) c d * mget (nth m (cm_fms t) m0) c r)))).
    + apply sum_ext. intros c _. rewrite <- sum_scal_r. apply sum_ext. intros; ring.
    + rewrite sum_swap. apply sum_ext. intros d _. now rewrite sum_scal_l.
Qed.

Lemma sides_turned s t m : turned_both s t -> (m < length (shape X))%nat ->
  let Q := nth m Qs m0 in
  exists N N' lhs rhs lhs' rhs', cmtf_lhs env cs s m = Ok lhs /\ cmtf_rhs env s m = Ok rhs /\
    cmtf_lhs env cs t m = Ok lhs' /\ cmtf_rhs env t m = Ok rhs' /\
    is_mat K N lhs /\ is_mat (nrows Q) N rhs /\ is_mat K N' lhs' /\ is_mat (ncols Q) N' rhs' /\
    (forall a b, (a < K)%nat -> (b < K)%nat -> dots N lhs lhs a b = dots N' lhs' lhs' a b) /\
    (forall i a, (i < nrows Q)%nat -> (a < K)%nat -> dots N rhs lhs i a = sum (ncols Q) (fun c => mget Q i c * dots N' rhs' lhs' c a)).
Proof.
  intros H Hm Q. destruct (rot_len HR) as [L1 L2]. destruct (@rot_nth _ _ _ HR m) as [N1 N2]; [lia|]. fold Q in N1, N2.
  pose proof (proj1 (tb_flag H)) as EX. pose proof (proj1 (tb_flag' H)) as EG.
  assert (Hm' : (m < length (shape (cp_X (cm_cp s))))%nat) by now rewrite EX.
  assert (Hm'' : (m < length (shape (cp_X (cm_cp t))))%nat) by (rewrite EG; lia).
  assert (EM : cm_modes t = cm_modes s) by now rewrite (ck_modes (tb_ok H)), (ck_modes (tb_ok' H)).
  assert (EL : forall a b, (a < K)%nat -> (b < K)%nat -> normal_lhs (cm_fms s) m a b = normal_lhs (cm_fms t) m a b)
    by (intros; now apply (lhs_rotated HR (tb_fac H))).
  assert (ER : forall i a, (i < nrows Q)%nat -> (a < K)%nat -> normal_rhs X (cm_fms s) m i a = sum (ncols Q) (fun c => mget Q i c * normal_rhs G (cm_fms t) m c a)).
  { intros i a Hi Ha. unfold normal_rhs. rewrite (mttkrp_rotated HR (tb_fac H)) by (auto; lia). reflexivity. }
  destruct (dict_find (Z.of_nat m) (mode_to_cm_idx (cm_modes s))) as [idxs|] eqn:EF.
  - pose proof EF as EF'. rewrite <- EM in EF'.
    destruct (@sides_gram env cs K ms s m idxs (tb_ok H) HND Hm' EF) as (i & lhs & rhs & N & Hi & Emi & A1 & A2 & A3 & A4 & A5 & A6).
    destruct (@sides_gram env cs K ms t m idxs (tb_ok' H) HND Hm'' EF') as (i' & lhs' & rhs' & N' & Hi' & Emi' & B1 & B2 & B3 & B4 & B5 & B6).
    assert (i' = i) as -> by (apply (proj1 (NoDup_nth ms 0%nat) HND); auto; congruence).
    rewrite EX in A4, A6. rewrite EG in B4, B6. rewrite <- N1 in A4, A6. rewrite <- N2 in B4, B6.
    exists N, N', lhs, rhs, lhs', rhs'. do 8 (split; [assumption|]). split.
    + intros a b Ha Hb. rewrite A5, B5, EL by auto. f_equal. pose proof (tb_Y H) as HY. destruct (rm_cols HY Hi) as [C1 C2].
      assert (HiW : (i < length Ws)%nat) by (rewrite (rm_len HY); exact Hi).
      destruct (carried_nth (tb_V H) HiW) as (_ & _ & EV). pose proof (iso_nth (rm_iso HY) HiW) as [_ HWo]. rewrite C1, C2.
      rewrite <- (mprod_gram (mget (nth i (cm_V t) m0)) (mget (nth i (cm_V t) m0)) a b HWo). apply sum_ext. intros j Hj. now rewrite !EV.
    + intros j a Hj Ha. rewrite A6, ER by auto. rewrite (@coupled_right s t i j a H Hi) by (auto; rewrite Emi; lia). rewrite Emi. fold Q.
      rewrite <- sum_plus. apply sum_ext. intros c Hc. rewrite B6 by auto. ring.
  - pose proof (cn_rank HX) as HK. pose proof (ck_fac (tb_ok H)) as [HU _]. pose proof (ck_fac (tb_ok' H)) as [HU' _].
    destruct (als_rhs_ok env (ck_data (tb_ok H)) (ck_fac (tb_ok H)) Hm') as (P & EP & HPm & HPe). destruct (als_lhs_ok m HU HK) as (V & EV & HV & HVe).
    destruct (als_rhs_ok env (ck_data (tb_ok' H)) (ck_fac (tb_ok' H)) Hm'') as (P' & EP' & HPm' & HPe'). destruct (als_lhs_ok m HU' HK) as (V' & EV' & HV' & HVe').
    rewrite EX in HPm, HPe. rewrite EG in HPm', HPe'. rewrite <- N1 in HPm, HPe. rewrite <- N2 in HPm', HPe'.
    exists K, K, V, P, V', P'. unfold cmtf_lhs, cmtf_rhs. rewrite EM, EF. rewrite EX in EP |- *. rewrite EG in EP' |- *.
    do 8 (split; [assumption|]).
    assert (EVV : forall a b, (a < K)%nat -> (b < K)%nat -> mget V a b = mget V' a b) by (intros; rewrite HVe, HVe' by auto; now apply EL).
    split.
    + intros a b Ha Hb. apply sum_ext. intros c Hc. now rewrite !EVV.
    + intros i a Hi Ha. unfold dots. transitivity (sum K (fun r => sum (ncols Q) (fun c => mget Q i c * (mget P' c r * mget V' a r)))).
      * apply sum_ext. intros r Hr. rewrite HPe, ER, EVV by auto. rewrite <- sum_scal_r. apply sum_ext. intros c Hc. rewrite HPe' by auto. ring.
      * rewrite sum_swap. apply sum_ext. intros c _. now rewrite sum_scal_l.
Qed.

Lemma solver_turned s t m : turned_both s t -> (m < length (shape X))%nat ->
  let Q := nth m Qs m0 in
  exists N N' lhs rhs lhs' rhs' solve Z Z', cmtf_lhs env cs s m = Ok lhs /\ cmtf_rhs env s m = Ok rhs /\
    cmtf_lhs env cs t m = Ok lhs' /\ cmtf_rhs env t m = Ok rhs' /\
    is_mat K N lhs /\ is_mat K N' lhs' /\
    get_rightsolve env cs (cp_nn (cm_cp s)) (cp_orth (cm_cp s)) m = Ok solve /\
    get_rightsolve env cs (cp_nn (cm_cp t)) (cp_orth (cm_cp t)) m = Ok solve /\
    solve lhs rhs = Ok Z /\ solve lhs' rhs' = Ok Z' /\ lifted (nrows Q) (ncols Q) (mget Q) K Z Z'.
Proof.
  intros H Hm Q. destruct (rot_len HR) as [L1 L2]. destruct (@rot_nth _ _ _ HR m) as [N1 N2]; [lia|]. fold Q in N1, N2.
  destruct (proj2 (tb_flag H) m Hm) as [(a & Fa & Ha) (b & Fb & Hb)]. destruct (proj2 (tb_flag' H) m ltac:(lia)) as [(a' & Fa' & Ha') (b' & Fb' & Hb')].
  assert (a = false) as -> by (destruct a; [exfalso; now apply (Hnn (proj1 Ha eq_refl))|reflexivity]).
  assert (a' = false) as -> by (destruct a'; [exfalso; now apply (Hnn (proj1 Ha' eq_refl))|reflexivity]).
  assert (b' = b) as -> by (destruct b, b'; intuition congruence).
  destruct (penalty_here HX Hm) as (lam & Hp & Hl).
  pose proof (iso_nth (ro_iso HR) (ltac:(lia) : (m < length Qs)%nat)) as [HQm HQo]. fold Q in HQm, HQo.
  destruct (HP (m := m) ltac:(lia)) as [Ho _]. fold Q in Ho.
  destruct (sides_turned H Hm) as (N & N' & lhs & rhs & lhs' & rhs' & A1 & A2 & A3 & A4 & HL & HRm & HL' & HRm' & EG & EP). fold Q in HRm, HRm', EP.
  exists N, N', lhs, rhs, lhs', rhs'.
  pose proof (rightsolve_flags env Fa Fb Hp) as ES. pose proof (rightsolve_flags env Fa' Fb' Hp) as ES'.
  destruct b; cbn [andb] in ES, ES'; cbv zeta in ES, ES'.
  - assert (Hsq : ncols Q = nrows Q) by (apply Ho; now apply Hb).
    assert (HKn : (K <= nrows Q)%nat) by (rewrite N1; apply (cn_fits HX); now apply Hb).
    destruct (products_orth (cn_svd HX) HQo (cn_pos HX) Hsq HKn HL HL' HRm HRm' EP) as (Z & Z' & E1 & E2 & E3).
    destruct (cs_ridge cs); eexists; exists Z, Z'; do 6 (split; [assumption|]); (split; [exact ES|]); (split; [exact ES'|]); [|auto].
    rewrite (ridge_orthogonal (env_svd env) HL HRm Hl), (ridge_orthogonal (env_svd env) HL' HRm' Hl). auto.
  - destruct (cs_ridge cs).
    + destruct (products_ridge (cn_svd HX) Hl HL HL' HRm HRm' EG EP) as (Z & Z' & E1 & E2 & E3).
      eexists; exists Z, Z'; do 6 (split; [assumption|]); (split; [exact ES|]); (split; [exact ES'|]); auto.
    + destruct (products_free (cn_svd HX) HL HL' HRm HRm' EG EP) as (Z & Z' & E1 & E2 & E3).
      eexists; exists Z, Z'; do 6 (split; [assumption|]); (split; [exact ES|]); (split; [exact ES'|]); auto.
Qed.

Lemma update_both s t m : turned_both s t -> (m < length (shape X))%nat ->
  exists s' t', cmtf_update_factor env cs s m = (s', None) /\ cmtf_update_factor env cs t m = (t', None) /\ turned_both s' t'.
Proof.
  intros H Hm. destruct (rot_len HR) as [L1 L2]. destruct (@rot_nth _ _ _ HR m) as [N1 N2]; [lia|].
  pose proof (proj1 (tb_flag H)) as EX. pose proof (proj1 (tb_flag' H)) as EG.
  destruct (solver_turned H Hm) as (N & N' & lhs & rhs & lhs' & rhs' & solve & Z & Z' & A1 & A2 & A3 & A4 & HL & HL' & ES & ES' & EZ & EZ' & HZ & HZ' & HZe).
  destruct (@cm_update_with env cs K ms s m lhs rhs solve Z (tb_ok H)) as (s' & Es & F & FV & S1 & O1); auto; [now rewrite EX|rewrite EX, <- N1; exact HZ|].
  destruct (@cm_update_with env cs K ms t m lhs' rhs' solve Z' (tb_ok' H)) as (t' & Et & F' & FV' & S1' & O1'); auto; [rewrite EG; lia|rewrite EG, <- N2; exact HZ'|].
  exists s', t'. split; [exact Es|]. split; [exact Et|]. constructor; auto.
  - apply (flagged_same (sc_cp S1)), H.
  - apply (flagged_same (sc_cp S1')), H.
  - rewrite F, F'. unfold with_factor. apply carried_replace; [apply H|lia|exact (is_mat_nrows HZ)|exact (is_mat_nrows HZ')|exact HZe].
  - rewrite FV, FV'. apply H.
  - rewrite (sc_Y S1), (sc_Y S1'). apply H.
  - intros r Hr. unfold cm_dec. rewrite (sp_w (sc_cp S1)), (sp_w (sc_cp S1')). now apply H.
  - rewrite (sp_norm (sc_cp S1)), (sp_norm (sc_cp S1')). apply H.
Qed.

Lemma update_modes_both l : forall s t, turned_both s t -> Forall (fun m => (m < length (shape X))%nat) l ->
  exists s' t', cmtf_update_modes env cs l s = (s', None) /\ cmtf_update_modes env cs l t = (t', None) /\ turned_both s' t'.
Proof.
  induction l as [|m l IH]; intros s t H Hl; cbn [cmtf_update_modes]; [exists s, t; auto|].
  inversion Hl as [|? ? Hm Hl']; subst. destruct (rot_len HR) as [_ L2].
  destruct (proj2 (tb_flag H) m Hm) as [(a & (ln & En & Ea) & Ha) _]. destruct (proj2 (tb_flag' H) m ltac:(lia)) as [(a' & (ln' & En' & Ea') & Ha') _].
  assert (a = false) as -> by (destruct a; [exfalso; now apply (Hnn (proj1 Ha eq_refl))|reflexivity]).
  assert (a' = false) as -> by (destruct a'; [exfalso; now apply (Hnn (proj1 Ha' eq_refl))|reflexivity]).
  rewrite En, En'. cbn [not_none bind]. unfold list_get. rewrite Ea, Ea'.
  destruct (update_both H Hm) as (s1 & t1 & -> & -> & H1). exact (IH s1 t1 H1 Hl').
Qed.

Lemma step_both s t i : turned_both s t -> (i < length ms)%nat ->
  exists Z Z', uncoupled_step env s (Z.of_nat (nth i ms 0%nat)) [i] (cm_V s) = (replace_at i Z (cm_V s), None) /\
    uncoupled_step env t (Z.of_nat (nth i ms 0%nat)) [i] (cm_V t) = (replace_at i Z' (cm_V t), None) /\
    turned_both (cm_with_V (replace_at i Z (cm_V s)) s) (cm_with_V (replace_at i Z' (cm_V t)) t).
Proof.
  intros H Hi. pose proof (tb_Y H) as HY. destruct (rm_cols HY Hi) as [C1 C2].
  destruct (ck_coup (tb_ok H)) as (HlV & HlY & HC). destruct (ck_coup (tb_ok' H)) as (HlV' & HlY' & HC').
  destruct (HC i Hi) as (Hm & HYi & HVi). destruct (HC' i Hi) as (Hm' & HYi' & HVi').
  pose proof (rows_nth (ck_fac (tb_ok H)) Hm) as HU. pose proof (rows_nth (ck_fac (tb_ok' H)) Hm') as HU'.
  pose proof (proj1 (tb_flag H)) as EX. pose proof (proj1 (tb_flag' H)) as EG. rewrite EX in *. rewrite EG in *.
  set (m := nth i ms 0%nat) in *. destruct (rot_len HR) as [L1 L2]. destruct (@rot_nth _ _ _ HR m) as [N1 N2]; [lia|].
  assert (HiW : (i < length Ws)%nat) by (rewrite (rm_len HY); exact Hi).
  rewrite C1 in HYi, HVi. rewrite C2 in HYi', HVi'.
  destruct (@products_free (env_svd env) (nrows (nth i Ws m0)) (ncols (nth i Ws m0)) K (nth m (shape X) 0%nat) (nth m (shape G) 0%nat)
    (mget (nth i Ws m0)) (transp (nth m (cm_fms s) m0)) (transp (nth i (cm_Y s) m0)) (transp (nth m (cm_fms t) m0)) (transp (nth i (cm_Y t) m0)))
    as (Z & Z' & EZ & EZ' & HZ & HZ' & HZe); auto using is_mat_transp, (cn_svd HX).
  { intros a b Ha Hb. unfold dots. destruct (@carried_nth _ _ _ _ (tb_fac H) m ltac:(lia)) as (R1 & R2 & EU).
    pose proof (@iso_nth _ m (ro_iso HR) ltac:(lia)) as [_ HQo].
    transitivity (sum (nrows (nth m Qs m0)) (fun j => mget (nth m (cm_fms s) m0) j a * mget (nth m (cm_fms s) m0) j b)).
    { rewrite N1. apply sum_ext. intros j Hj. now rewrite !(mget_transp HU). }
    transitivity (sum (ncols (nth m Qs m0)) (fun j => mget (nth m (cm_fms t) m0) j a * mget (nth m (cm_fms t) m0) j b)).
    { rewrite <- (mprod_gram (mget (nth m (cm_fms t) m0)) (mget (nth m (cm_fms t) m0)) a b HQo). apply sum_ext. intros j Hj. now rewrite !EU. }
    rewrite N2. apply sum_ext. intros j Hj. now rewrite !(mget_transp HU'). }
  { intros b a Hb Ha. unfold dots.
    transitivity (sum (nth m (shape X) 0%nat) (fun j => mget (nth i (cm_Y s) m0) j b * mget (nth m (cm_fms s) m0) j a)).
    { apply sum_ext. intros j Hj. now rewrite (mget_transp HU), (mget_transp HYi). }
    unfold m. rewrite (coupled_left H Hi Hb Ha). apply sum_ext. intros d Hd. f_equal. apply sum_ext. intros c Hc. fold m in Hc |- *.
    now rewrite (mget_transp HU'), (mget_transp HYi'). }
  exists Z, Z'.
  assert (Hgo : forall u T Y0, cm_ok K ms u -> cp_X (cm_cp u) = T -> flagged T nn orth (cm_cp u) -> length (shape T) = length (shape X) ->
     rightsolve (env_svd env) (transp (nth m (cm_fms u) m0)) (transp (nth i (cm_Y u) m0)) = Ok Y0 ->
     is_mat (ncols (nth i (cm_Y u) m0)) K Y0 ->
     uncoupled_step env u (Z.of_nat m) [i] (cm_V u) = (replace_at i Y0 (cm_V u), None) /\ cm_ok K ms (cm_with_V (replace_at i Y0 (cm_V u)) u)).
  { intros u T Y0 HO ET HF HLT EY0 HY0. destruct (ck_coup HO) as (Q1 & Q2 & Q3). destruct (Q3 i Hi) as (Q4 & Q5 & Q6). fold m in Q4.
    destruct (proj2 HF m ltac:(lia)) as [(a & (l & El & Ea) & Ha) _].
    assert (a = false) as -> by (destruct a; [exfalso; now apply (Hnn (proj1 Ha eq_refl))|reflexivity]). split.
    - unfold uncoupled_step. cbn [list_get nth_error bind].
      rewrite (@py_get_nat _ (cm_fms u) m m0) by (rewrite (ck_len HO); auto). cbn [bind].
      rewrite (@list_get_nth _ (cm_Y u) i m0), (@list_get_nth _ (cm_V u) i m0) by lia. cbn [bind].
      rewrite El. unfold py_get. assert (Hml : (m < length l)%nat) by (apply nth_error_Some; rewrite Ea; discriminate).
      rewrite py_index_nat by auto. unfold list_get. rewrite Ea. cbn [bind]. rewrite EY0. cbn [bind]. now rewrite (assign_full_mat Q6 HY0).
    - destruct HO as [O1 O2 O3 O4 O5]. constructor; auto. cbn [cm_with_V cm_cp cm_V cm_Y]. split; [now rewrite length_replace_at|].
      split; [exact Q2|]. intros j Hj. destruct (Q3 j Hj) as (P1 & P2 & P3). split; [exact P1|]. split; [exact P2|].
      destruct (Nat.eq_dec i j) as [<-|Hne]; [rewrite nth_replace_at_eq by lia; exact HY0|rewrite nth_replace_at_neq by auto; exact P3]. }
  destruct (Hgo s X Z (tb_ok H) EX (tb_flag H) eq_refl EZ) as [G1 G2]; [now rewrite C1|].
  destruct (Hgo t G Z' (tb_ok' H) EG (tb_flag' H) L2 EZ') as [G1' G2']; [now rewrite C2|].
  split; [exact G1|]. split; [exact G1'|]. constructor; auto; try apply H. cbn [cm_with_V cm_V].
  apply carried_replace; [apply H|exact HiW|exact (is_mat_nrows HZ)|exact (is_mat_nrows HZ')|exact HZe].
Qed.

Lemma loop_both s t : forall n a Vs Vs', (a + n = length ms)%nat -> turned_both (cm_with_V Vs s) (cm_with_V Vs' t) ->
  exists Us Us', uncoupled_loop env s (combine (skipn a (map Z.of_nat ms)) (map (fun i => [i]) (seq a n))) Vs = (Us, None) /\
    uncoupled_loop env t (combine (skipn a (map Z.of_nat ms)) (map (fun i => [i]) (seq a n))) Vs' = (Us', None) /\
    turned_both (cm_with_V Us s) (cm_with_V Us' t).
Proof.
  induction n as [|n IH]; intros a Vs Vs' Ha H.
  - exists Vs, Vs'. rewrite skipn_all2 by (rewrite map_length; lia). auto.
  - destruct (@step_both _ _ a H ltac:(lia)) as (Z & Z' & E & E' & H').
    destruct (IH (S a) (replace_at a Z Vs) (replace_at a Z' Vs')) as (Us & Us' & F & F' & HT); [lia|exact H'|].
    exists Us, Us'. rewrite (@nth_skip _ (map Z.of_nat ms) 0%Z a) by (rewrite map_length; lia).
    change 0%Z with (Z.of_nat 0). rewrite map_nth. cbn [seq map combine uncoupled_loop].
    change (uncoupled_step env s) with (uncoupled_step env (cm_with_V Vs s)). change (uncoupled_step env t) with (uncoupled_step env (cm_with_V Vs' t)).
    cbn [cm_with_V cm_V] in E, E'. rewrite E, E'. auto.
Qed.

Lemma iteration_both s t : turned_both s t -> exists s' t', cmtf_update_factors env cs s = (s', None) /\ cmtf_update_factors env cs t = (t', None) /\ turned_both s' t'.
Proof.
  intros H. unfold cmtf_update_factors, ndim. rewrite (proj1 (tb_flag H)), (proj1 (tb_flag' H)), (proj2 (rot_len HR)).
  destruct (@update_modes_both (seq 0 (length (shape X))) s t H) as (s1 & t1 & -> & -> & H1).
  { apply Forall_forall. intros m Hm. apply in_seq in Hm. lia. }
  assert (Eself : forall u, cm_with_V (cm_V u) u = u) by now intros [].
  destruct (@loop_both s1 t1 (length ms) 0%nat (cm_V s1) (cm_V t1) ltac:(lia)) as (Us & Us' & E & E' & HT); [now rewrite !Eself|].
  unfold update_uncoupled. cbn [skipn] in E, E'.
  rewrite (dict_of_distinct (modes := cm_modes s1)) by (rewrite (ck_modes (tb_ok H1)); now apply map_nat_nodup).
  rewrite (dict_of_distinct (modes := cm_modes t1)) by (rewrite (ck_modes (tb_ok' H1)); now apply map_nat_nodup).
  rewrite (ck_modes (tb_ok H1)), (ck_modes (tb_ok' H1)), map_length, E, E'. eauto.
Qed.
Lemma passes_both s t j : turned_both s t -> turned_both (state_after md s j) (state_after md t j).
Proof.
  intros H. induction j as [|j IH]; [exact H|]. cbn [state_after]. change (md_update md) with (cmtf_update_factors env cs).
  destruct (iteration_both IH) as (s' & t' & -> & -> & H'). exact H'.
Qed.

(** *** Losses *)
Lemma coupled_sse_both s t i : turned_both s t -> (i < length ms)%nat ->
  mat_sse K (nth (nth i ms 0%nat) (cm_fms s) m0) (nth i (cm_V s) m0) (nth i (cm_Y s) m0) =
  mat_sse K (nth (nth i ms 0%nat) (cm_fms t) m0) (nth i (cm_V t) m0) (nth i (cm_Y t) m0).
Proof.
  intros H Hi. pose proof (tb_Y H) as HY. destruct (rm_cols HY Hi) as [C1 C2].
  destruct (ck_coup (tb_ok H)) as (_ & _ & HC). destruct (ck_coup (tb_ok' H)) as (_ & _ & HC').
  destruct (HC i Hi) as (Hm & HYi & _). destruct (HC' i Hi) as (Hm' & HYi' & _).
  pose proof (proj1 (tb_flag H)) as EX. pose proof (proj1 (tb_flag' H)) as EG. rewrite EX in *. rewrite EG in *.
  set (m := nth i ms 0%nat) in *. destruct (rot_len HR) as [L1 L2]. destruct (@rot_nth _ _ _ HR m) as [N1 N2]; [lia|].
  assert (HiW : (i < length Ws)%nat) by (rewrite (rm_len HY); exact Hi).
  destruct (@carried_nth _ _ _ _ (tb_fac H) m ltac:(lia)) as (_ & _ & EU). pose proof (@iso_nth _ m (ro_iso HR) ltac:(lia)) as [_ HQo].
  destruct (carried_nth (tb_V H) HiW) as (_ & _ & EV). pose proof (iso_nth (rm_iso HY) HiW) as [_ HWo].
  unfold mat_sse. rewrite (is_mat_nrows HYi), (is_mat_nrows HYi'), C1, C2, <- N1, <- N2.
  set (Q := nth m Qs m0) in *. set (W := nth i Ws m0) in *.
  set (e := fun c d => mget (nth i (cm_Y t) m0) c d - sum K (fun r => mget (nth m (cm_fms t) m0) c r * mget (nth i (cm_V t) m0) d r)).
  transitivity (sum (nrows Q) (fun a => sum (nrows W) (fun b => mprod (ncols Q) (mget Q) (fun c b => mprod (ncols W) (mget W) (fun d c => e c d) b c) a b ^ 2))).
  - apply sum_ext. intros a Ha. apply sum_ext. intros b Hb. f_equal. rewrite (rm_data HY Hi) by (fold m Q W; auto). fold m Q W. unfold mprod.
    transitivity (sum (ncols Q) (fun c => mget Q a c * sum (ncols W) (fun d => mget (nth i (cm_Y t) m0) c d * mget W b d)) -
      sum (ncols Q) (fun c => mget Q a c * sum (ncols W) (fun d => mget W b d * sum K (fun r => mget (nth m (cm_fms t) m0) c r * mget (nth i (cm_V t) m0) d r)))).
    + f_equal. transitivity (sum K (fun r => sum (ncols Q) (fun c => mget Q a c * (mget (nth m (cm_fms t) m0) c r * mprod (ncols W) (mget W) (mget (nth i (cm_V t) m0)) b r)))).
      * apply sum_ext. intros r Hr. rewrite EU, EV by auto. unfold mprod at 1. rewrite <- sum_scal_r. apply sum_ext. intros; ring.
      * rewrite sum_swap. apply sum_ext. intros c _. rewrite sum_scal_l. f_equal. unfold mprod.
        transitivity (sum K (fun r => sum (ncols W) (fun d => mget W b d * (mget (nth m (cm_fms t) m0) c r * mget (nth i (cm_V t) m0) d r)))).
        { apply sum_ext. intros r _. rewrite <- sum_scal_l. apply sum_ext. intros; ring. }
        rewrite sum_swap. apply sum_ext. intros d _. now rewrite sum_scal_l.
    + rewrite <- sum_minus. apply sum_ext. intros c _. rewrite <- Rmult_minus_distr_l. f_equal. rewrite <- sum_minus. apply sum_ext. intros d _.
      unfold e. ring.
  - transitivity (sum (nrows W) (fun b => sum (ncols Q) (fun c => mprod (ncols W) (mget W) (fun d c => e c d) b c ^ 2))).
    + rewrite sum_swap. apply sum_ext. intros b Hb.
      transitivity (sum (nrows Q) (fun a => mprod (ncols Q) (mget Q) (fun c b => mprod (ncols W) (mget W) (fun d c => e c d) b c) a b *
        mprod (ncols Q) (mget Q) (fun c b => mprod (ncols W) (mget W) (fun d c => e c d) b c) a b)); [apply sum_ext; intros; ring|].
      rewrite mprod_gram by exact HQo. apply sum_ext. intros; ring.
    + rewrite sum_swap. apply sum_ext. intros c Hc.
      transitivity (sum (nrows W) (fun b => mprod (ncols W) (mget W) (fun d c => e c d) b c * mprod (ncols W) (mget W) (fun d c => e c d) b c)); [apply sum_ext; intros; ring|].
      rewrite mprod_gram by exact HWo. apply sum_ext. intros; unfold e; ring.
Qed.
Lemma loss_both s t : turned_both s t -> cmtf_SSE env t = cmtf_SSE env s.
Proof.
  intros H. rewrite (cmtf_SSE_ok env (tb_ok H)), (cmtf_SSE_ok env (tb_ok' H)). f_equal. unfold coupled_loss. f_equal.
  - rewrite (proj1 (tb_flag H)), (proj1 (tb_flag' H)). rewrite (sse_rotated HR (tb_fac H)). unfold sse. apply sumf_ext. intros idx _. do 2 f_equal.
    unfold cp_entry. apply sum_ext. intros r Hr. now rewrite (tb_w H).
  - unfold mats_sse. apply sum_ext. intros i Hi. symmetry. now apply coupled_sse_both.
Qed.
Lemma stops_both s t x cf cf' j : turned_both s t -> cf_tol cf' = cf_tol cf -> cf_rel_tol cf' = cf_rel_tol cf ->
  cp_stops md cf' x PInf t j = cp_stops md cf x PInf s j.
Proof.
  intros H Et Er.
  assert (HL : forall j, loss_at md t j = loss_at md s j).
  { intros i. unfold loss_at. cbn [md cmtf_model md_loss]. fold md. now rewrite (loss_both (passes_both i H)). }
  unfold cp_stops. rewrite HL. destruct (loss_at md s j) as [l|]; [|reflexivity]. cbn [bind].
  assert (Hrel : rel_at md x PInf t j = rel_at md x PInf s j).
  { destruct j as [|j]; [reflexivity|]. cbn [rel_at]. rewrite HL. destruct j as [|j]; cbn [prev_at]; [reflexivity|]. now rewrite HL. }
  rewrite Hrel. destruct (rel_at md _ PInf s j) as [y|]; [|reflexivity]. cbn [bind]. rewrite Et, Er. do 3 f_equal.
  f_equal. cbn [md_norm2 md cmtf_model]. fold md. f_equal. symmetry. apply (tb_norm (passes_both j H)).
Qed.
Lemma loops_both ds dt d e cf cf' : turned_both (ds_num ds) (ds_num dt) -> ds_prev dt = ds_prev ds ->
  ds_rel ds = PInf -> ds_rel dt = PInf -> ds_it dt = ds_it ds -> ds_max dt = ds_max ds ->
  cf_tol cf' = cf_tol cf -> cf_rel_tol cf' = cf_rel_tol cf ->
  cp_fit_loop md cf ds = (d, None) -> cp_fit_loop md cf' dt = (e, None) ->
  ds_it e = ds_it d /\ exists n, ds_num d = state_after md (ds_num ds) n /\ ds_num e = state_after md (ds_num dt) n.
Proof.
  intros H Ep Er Er' Ei Em Et Et' E E'.
  destruct (cp_fit_lemma E) as (n & Hn & En & Hbefore & Hend). destruct (Hend eq_refl) as [Hstop Hit].
  destruct (cp_fit_lemma E') as (n' & Hn' & En' & Hbefore' & Hend'). destruct (Hend' eq_refl) as [Hstop' Hit'].
  rewrite Er in Hbefore, Hstop. rewrite Ep, Er', Ei, Em in *.
  assert (ES : forall j, cp_stops md cf' (ds_prev ds) PInf (ds_num dt) j = cp_stops md cf (ds_prev ds) PInf (ds_num ds) j) by (intros j; now apply stops_both).
  assert (Enn : n' = n).
  { destruct (Nat.lt_trichotomy n n') as [Hlt|[Heq|Hlt]]; auto.
    - destruct Hstop as [Hs|Hs]; [lia|]. specialize (Hbefore' n Hlt). rewrite ES in Hbefore'. congruence.
    - destruct Hstop' as [Hs|Hs]; [lia|]. specialize (Hbefore n' Hlt). rewrite ES in Hs. congruence. }
  subst n'. split; [congruence|]. exists n. auto.
Qed.

(** *** Complete fits *)
Lemma normalised_both s t s' t' : turned_both s t -> kt_rank (cm_dec s) = K -> kt_rank (cm_dec t) = K ->
  cmtf_normalize eps15 s = Ok s' -> cmtf_normalize eps15 t = Ok t' ->
  turned_both s' t'.
Proof.
  intros H Hr Hr' E E'. destruct (rot_len HR) as [L1 L2]. pose proof (tb_Y H) as HY.
  assert (Hpos : forall U r, clen U r + eps15 <> 0) by (intros U r; pose proof (clen_nonneg U r); pose proof eps15_pos; lra).
  destruct (@cm_normalize_ok eps15 K ms s (tb_ok H) Hr ltac:(auto)) as (z & Ez & A1 & A2 & A3 & A4 & A5 & _).
  destruct (@cm_normalize_ok eps15 K ms t (tb_ok' H) Hr' ltac:(auto)) as (z' & Ez' & B1 & B2 & B3 & B4 & B5 & _).
  rewrite E in Ez. injection Ez as <-. rewrite E' in Ez'. injection Ez' as <-.
  rewrite (proj1 (tb_flag H)) in A2. rewrite (proj1 (tb_flag' H)) in B2.
  pose proof (ck_fac A1) as F1. rewrite A2 in F1. pose proof (ck_fac B1) as F2. rewrite B2 in F2.
  pose proof (ck_coup A1) as (V1 & _ & V1'). pose proof (ck_coup B1) as (V2 & _ & V2').
  destruct (carried_length (tb_fac H)) as [M1 M2].
  assert (Hsame : forall u u' T, cm_ok K ms u -> kt_rank (cm_dec u) = K -> flagged T nn orth (cm_cp u) -> cmtf_normalize eps15 u = Ok u' ->
    flagged T nn orth (cm_cp u') /\ cp_norm (cm_cp u') = cp_norm (cm_cp u) /\
    forall r, (r < K)%nat -> vget (kt_w (cm_dec u')) r = vget (kt_w (cm_dec u)) r * prodf (cm_fms u) (fun U => clen U r)).
  { intros u u' T HO Hrk HF EN. unfold cmtf_normalize in EN. destruct (scale_uncoupled u) as [V|]; [|discriminate]. cbn [bind] in EN.
    destruct (@kt_normalize_of eps15 K (cm_dec u) (proj1 (ck_fac HO)) (ck_w HO) Hrk ltac:(auto)) as (q & Eq & _ & _ & _ & Ew).
    rewrite Eq in EN. cbn [bind] in EN. injection EN as <-. split; [exact HF|]. split; [reflexivity|exact Ew]. }
  destruct (Hsame s s' X (tb_ok H) Hr (tb_flag H) E) as (S1 & S2 & S3). destruct (Hsame t t' G (tb_ok' H) Hr' (tb_flag' H) E') as (T1 & T2 & T3).
  constructor; [exact A1|exact B1|exact S1|exact T1| | |rewrite A3, B3; exact HY| |rewrite S2, T2; apply H].
  3: { intros r Hrk. rewrite S3, T3, (tb_w H) by auto. f_equal. exact (prodf_carried (ro_iso HR) (tb_fac H) Hrk). }
  - apply (@carried_scale K Qs (cm_fms s) (cm_fms t) (cm_fms s') (cm_fms t') (fun m r => / (clen (nth m (cm_fms s) m0) r + eps15)) (tb_fac H)).
    + rewrite L1. exact (mode_len (proj2 F1)).
    + rewrite L1, <- L2. exact (mode_len (proj2 F2)).
    + intros m Hm. destruct (rot_nth HR Hm) as [N1 N2]. destruct (carried_nth (tb_fac H) Hm) as (P1 & P2 & _).
      assert (Hm1 : (m < length (shape X))%nat) by lia. assert (Hm2 : (m < length (shape G))%nat) by lia.
      split; [rewrite N1; exact (is_mat_nrows (rows_nth F1 Hm1))|]. split; [rewrite N2; exact (is_mat_nrows (rows_nth F2 Hm2))|]. split.
      * intros i r Hi Hrk. rewrite A4 by (try exact Hrk; lia). reflexivity.
      * intros i r Hi Hrk. rewrite B4 by (auto; lia). now rewrite (clen_carried (ro_iso HR) (tb_fac H) Hm Hrk).
  - apply (@carried_scale K Ws (cm_V s) (cm_V t) (cm_V s') (cm_V t') (fun i r => clen (nth (nth i ms 0%nat) (cm_fms s) m0) r) (tb_V H)).
    + now rewrite (rm_len HY).
    + now rewrite (rm_len HY).
    + rewrite (rm_len HY). intros i Hi. destruct (rm_cols HY Hi) as [C1 C2]. destruct (V1' i Hi) as (P1 & P2 & P3). destruct (V2' i Hi) as (Q1 & Q2 & Q3).
      rewrite A3 in P3. rewrite B3 in Q3. rewrite A2 in P1. rewrite <- C1, <- C2.
      split; [exact (is_mat_nrows P3)|]. split; [exact (is_mat_nrows Q3)|]. split.
      * intros b r Hb Hrk. now apply A5.
      * intros b r Hb Hrk. rewrite B5 by auto. f_equal. symmetry. apply (clen_carried (ro_iso HR) (tb_fac H)); auto. lia.
Qed.

Section Calls.
Variables (cf cf' : config) (disk disk' : string -> option file) (draws draws' vdraws vdraws' : list nd) (max_its max_its' : option Z) (k k' : kruskal)
  (Y Hs : list nd) (ds dt : dstate cmtf_state).
Let budget := match max_its with Some m => m | None => ds_max ds end.
Let budget' := match max_its' with Some m => m | None => ds_max dt end.
Hypothesis (HA : coupled_call env cs cf K X ms Y nn orth draws vdraws budget (DecArg k) ds).
Hypothesis (HB : coupled_call env cs cf' K G ms Hs nn orth draws' vdraws' budget' (DecArg k') dt).
Hypothesis (HY : rotated_matrices Qs Ws ms Y Hs) (Hno : forall m, ~ asked orth m).
Hypothesis (Hk : carried_by K Qs (kt_fms k) (kt_fms k')) (Hv : carried_by K Ws vdraws vdraws').

Lemma begun_both : exists ds1 dt1,
  cmtf_init_fit env cs disk draws vdraws X Y (map Z.of_nat ms) max_its (DecArg k) ds = (ds1, None) /\
  cmtf_init_fit env cs disk' draws' vdraws' G Hs (map Z.of_nat ms) max_its' (DecArg k') dt = (dt1, None) /\
  turned_both (ds_num ds1) (ds_num dt1) /\ ds_prev dt1 = ds_prev ds1 /\ ds_rel ds1 = PInf /\ ds_rel dt1 = PInf /\
  ds_it ds1 = 0%Z /\ ds_it dt1 = 0%Z /\ ds_max ds1 = budget /\ ds_max dt1 = budget' /\
  kt_rank (cm_dec (ds_num ds1)) = K /\ kt_rank (cm_dec (ds_num dt1)) = K.
Proof.
  destruct HA as (A1 & A2 & A3 & A4 & _). destruct HB as (B1 & B2 & B3 & B4 & _). destruct (rot_len HR) as [L1 L2].
  destruct (@constrained_begin env cs K X nn orth ms HX Hnn disk draws vdraws Y max_its (DecArg k) ds A1 A2 A3 A4)
    as (ds1 & E & It & Mx & _ & _ & Rl & OK & Fl & EY & Rk & _ & Nm & s0 & O0 & F0 & Y0 & W0 & S0 & P0 & V0 & N0 & VE & FE & WE & KE).
  destruct (@constrained_begin env cs K G nn orth ms HG Hnn disk' draws' vdraws' Hs max_its' (DecArg k') dt B1 B2 B3 B4)
    as (dt1 & E' & It' & Mx' & _ & _ & Rl' & OK' & Fl' & EY' & Rk' & _ & Nm' & t0 & O0' & F0' & Y0' & W0' & S0' & P0' & V0' & N0' & VE' & FE' & WE' & KE').
  assert (HN : norm X ^ 2 = norm G ^ 2) by (apply (norm_rotated HR); [apply (cn_data HX)|apply (cn_data HG)]).
  pose proof (ck_coup O0) as (J1 & _ & J1'). pose proof (ck_coup O0') as (J2 & _ & J2').
  pose proof (ck_fac O0) as R0. rewrite (proj1 F0) in R0. pose proof (ck_fac O0') as R0'. rewrite (proj1 F0') in R0'.
  assert (T0 : turned_both s0 t0).
  { constructor; auto.
    - destruct (carried_length Hk) as [K1 K2].
      assert (Es : cm_fms s0 = kt_fms k). { apply (nth_ext _ _ m0 m0); [rewrite K1, L1; exact (mode_len (proj2 R0))|]. intros m _. now apply KE. }
      assert (Et : cm_fms t0 = kt_fms k'). { apply (nth_ext _ _ m0 m0); [rewrite K2, L1, <- L2; exact (mode_len (proj2 R0'))|]. intros m _. now apply KE'. }
      now rewrite Es, Et.
    - apply (@carried_scale K Ws vdraws vdraws' (cm_V s0) (cm_V t0) (fun i r => / clen (nth i vdraws m0) r) Hv).
      + now rewrite (rm_len HY).
      + now rewrite (rm_len HY).
      + intros i Hi'. pose proof Hi' as Hi. rewrite (rm_len HY) in Hi. destruct (rm_cols HY Hi) as [C1 C2].
        destruct (J1' i Hi) as (_ & _ & P3). destruct (J2' i Hi) as (_ & _ & Q3). rewrite Y0 in P3. rewrite Y0' in Q3. rewrite <- C1, <- C2.
        split; [exact (is_mat_nrows P3)|]. split; [exact (is_mat_nrows Q3)|]. split.
        * intros b r Hb Hrk. now apply VE.
        * intros b r Hb Hrk. rewrite VE' by auto. now rewrite (clen_carried (rm_iso HY) Hv Hi' Hrk).
    - now rewrite Y0, Y0'.
    - intros r Hrk. now rewrite W0, W0'.
    - now rewrite N0, N0'. }
  assert (T1 : turned_both (ds_num ds1) (ds_num dt1)).
  { constructor; auto.
    - pose proof (ck_fac OK) as R1. rewrite (proj1 Fl) in R1. pose proof (ck_fac OK') as R1'. rewrite (proj1 Fl') in R1'.
      apply (@carried_scale K Qs (cm_fms s0) (cm_fms t0) (cm_fms (ds_num ds1)) (cm_fms (ds_num dt1)) (fun m r => / (clen (nth m (cm_fms s0) m0) r + eps15)) (tb_fac T0)).
      + rewrite L1. exact (mode_len (proj2 R1)).
      + rewrite L1, <- L2. exact (mode_len (proj2 R1')).
      + intros m Hm. destruct (rot_nth HR Hm) as [N1 N2]. destruct (carried_nth (tb_fac T0) Hm) as (P1 & P2 & _). destruct (carried_length (tb_fac T0)) as [M1 M2].
        assert (Hm1 : (m < length (shape X))%nat) by lia. assert (Hm2 : (m < length (shape G))%nat) by lia.
        split; [rewrite N1; exact (is_mat_nrows (rows_nth R1 Hm1))|]. split; [rewrite N2; exact (is_mat_nrows (rows_nth R1' Hm2))|].
        rewrite FE, FE'. rewrite !(nth_map_in (fun U => scaled eps15 (nrows U) K U) m0) by lia. rewrite P1, P2. unfold scaled. split.
        * intros i r Hi Hrk. rewrite mget_tab2 by auto. now rewrite clen_colnorm.
        * intros i r Hi Hrk. rewrite mget_tab2 by auto. now rewrite (clen_carried (ro_iso HR) (tb_fac T0) Hm Hrk), clen_colnorm.
    - rewrite V0, V0'. apply T0.
    - now rewrite EY, EY'.
    - intros r Hrk. rewrite WE, WE' by auto. exact (prodf_carried (ro_iso HR) (tb_fac T0) Hrk).
    - now rewrite Nm, Nm'. }
  exists ds1, dt1. split; [exact E|]. split; [exact E'|]. split; [exact T1|]. split; [|repeat split; auto].
  pose proof (loss_both T0) as HL. rewrite S0, S0' in HL. injection HL as HL. now rewrite P0, P0', HL.
Qed.

(** After every iteration *)
Lemma iterations_both : exists ds1 dt1,
  cmtf_init_fit env cs disk draws vdraws X Y (map Z.of_nat ms) max_its (DecArg k) ds = (ds1, None) /\
  cmtf_init_fit env cs disk' draws' vdraws' G Hs (map Z.of_nat ms) max_its' (DecArg k') dt = (dt1, None) /\
  forall j, let s := state_after md (ds_num ds1) j in let t := state_after md (ds_num dt1) j in
    carried_by K Qs (cm_fms s) (cm_fms t) /\ carried_by K Ws (cm_V s) (cm_V t) /\
    (exists x, md_loss md s = Ok x /\ md_loss md t = Ok x).
Proof.
  destruct begun_both as (ds1 & dt1 & E & E' & T & _). exists ds1, dt1. split; [exact E|]. split; [exact E'|]. intros j s t.
  pose proof (passes_both j T) as Tj. fold s t in Tj. split; [apply Tj|]. split; [apply Tj|].
  cbn [md cmtf_model md_loss]. rewrite (loss_both Tj), (cmtf_SSE_ok env (tb_ok Tj)). eexists. split; reflexivity.
Qed.

Lemma fits_both : budget' = budget -> cf_tol cf' = cf_tol cf -> cf_rel_tol cf' = cf_rel_tol cf ->
  exists d e, cmtf_fit env cs cf disk draws vdraws X Y (map Z.of_nat ms) max_its (DecArg k) ds = (d, None) /\
    cmtf_fit env cs cf' disk' draws' vdraws' G Hs (map Z.of_nat ms) max_its' (DecArg k') dt = (e, None) /\
    ds_it e = ds_it d /\ carried_by K Qs (cm_fms (ds_num d)) (cm_fms (ds_num e)) /\ carried_by K Ws (cm_V (ds_num d)) (cm_V (ds_num e)) /\
    (forall r, (r < K)%nat -> vget (kt_w (cm_dec (ds_num d))) r = vget (kt_w (cm_dec (ds_num e))) r) /\
    exists x, cmtf_SSE env (ds_num d) = Ok x /\ cmtf_SSE env (ds_num e) = Ok x.
Proof.
  intros Eb Et Er. destruct begun_both as (ds1 & dt1 & E & E' & T & Ep & R1 & R1' & I1 & I1' & M1 & M1' & K1 & K1').
  destruct HA as (A1 & A2 & A3 & A4 & A5 & A6 & A7). destruct HB as (B1 & B2 & B3 & B4 & B5 & B6 & B7).
  destruct (@constrained_complete env cs K X nn orth ms HX Hnn HND cf disk draws vdraws Y max_its (DecArg k) ds A1 A2 A3 A4 A5 A6 A7) as (z & d & _ & Ez & F & _).
  destruct (@constrained_complete env cs K G nn orth ms HG Hnn HND cf' disk' draws' vdraws' Hs max_its' (DecArg k') dt B1 B2 B3 B4 B5 B6 B7) as (z' & e & _ & Ez' & F' & _).
  exists d, e. split; [exact F|]. split; [exact F'|].
  unfold cmtf_fit in F, F'. rewrite E in F. rewrite E' in F'. unfold cmtf_fit_loop in F, F'. fold md in F, F'.
  destruct (cp_fit_loop md cf ds1) as [d2 [x|]] eqn:EL; [discriminate|]. destruct (cp_fit_loop md cf' dt1) as [e2 [x|]] eqn:EL'; [discriminate|].
  destruct (@loops_both ds1 dt1 d2 e2 cf cf' T Ep R1 R1') as [Hit (n & En & En')]; auto; try congruence.
  destruct (cmtf_normalize eps15 (ds_num d2)) as [s'|] eqn:N1; [|discriminate]. destruct (cmtf_normalize eps15 (ds_num e2)) as [t'|] eqn:N2; [|discriminate].
  injection F as <-. injection F' as <-. cbn [ds_num ds_it with_num]. split; [exact Hit|].
  pose proof (passes_both n T) as Tn. rewrite <- En, <- En' in Tn.
  assert (TN : turned_both s' t').
  { apply (@normalised_both _ _ s' t' Tn); auto.
    - rewrite En. unfold md. now rewrite (@after_coupled_rank env cs).
    - rewrite En'. unfold md. now rewrite (@after_coupled_rank env cs). }
  do 2 (split; [apply TN|]). split; [apply TN|]. rewrite (loss_both TN), (cmtf_SSE_ok env (tb_ok TN)). eexists. split; reflexivity.
Qed.
End Calls.
End Runs.
