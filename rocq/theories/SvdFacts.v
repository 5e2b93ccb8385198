(** No fit depends on the svd routine: lemmas for C82. *)
From Coq Require Import FunctionalExtensionality.
From Verif Require Export SvdSpec BestFacts.
From Verif Require Import Prelude Lin.
Set Implicit Arguments.
Unset Strict Implicit.
Local Open Scope R_scope.

(** *** Functions of the singular values *)
Lemma svd_left n m A U S V (G : is_svd n m A U S V) r j : (r < Nat.min n m)%nat -> (j < m)%nat ->
  sum n (fun i => mget U i r * mget A i j) = vget S r * mget V r j.
Proof.
  intros Hr Hj.
  transitivity (sum n (fun i => sum (Nat.min n m) (fun t => (vget S t * mget V t j) * (mget U i r * mget U i t)))).
  - apply sum_ext. intros i Hi. rewrite (svd_product G) by auto. rewrite <- sum_scal_l. apply sum_ext. intros; ring.
  - rewrite sum_swap. transitivity (sum (Nat.min n m) (fun t => delta r t * (vget S t * mget V t j))).
    + apply sum_ext. intros t Ht. rewrite sum_scal_l, Rmult_comm. f_equal. now apply (svd_U_orth G).
    + now apply (@sum_delta_l (Nat.min n m) r (fun t => vget S t * mget V t j)).
Qed.
Lemma svd_right n m A U S V (G : is_svd n m A U S V) r i : (r < Nat.min n m)%nat -> (i < n)%nat ->
  sum m (fun j => mget A i j * mget V r j) = vget S r * mget U i r.
Proof.
  intros Hr Hi.
  transitivity (sum m (fun j => sum (Nat.min n m) (fun t => (vget S t * mget U i t) * (mget V r j * mget V t j)))).
  - apply sum_ext. intros j Hj. rewrite (svd_product G) by auto. rewrite <- sum_scal_r. apply sum_ext. intros; ring.
  - rewrite sum_swap. transitivity (sum (Nat.min n m) (fun t => delta r t * (vget S t * mget U i t))).
    + apply sum_ext. intros t Ht. rewrite sum_scal_l, Rmult_comm. f_equal. now apply (svd_V_orth G).
    + now apply (@sum_delta_l (Nat.min n m) r (fun t => vget S t * mget U i t)).
Qed.

Section Two.
Variables (n m : nat) (A U S V U' S' V' : nd).
Let p := Nat.min n m.
Hypothesis (H : is_svd n m A U S V) (H' : is_svd n m A U' S' V').
Let c r s := sum n (fun i => mget U i r * mget U' i s).
Let d r s := sum m (fun j => mget V r j * mget V' s j).

Lemma cross_1 r s : (r < p)%nat -> (s < p)%nat -> vget S r * d r s = vget S' s * c r s.
Proof.
  intros Hr Hs. unfold d, c. rewrite <- !sum_scal_l.
  transitivity (sum m (fun j => sum n (fun i => mget U i r * (mget A i j * mget V' s j)))).
  - apply sum_ext. intros j Hj. rewrite <- Rmult_assoc, <- (svd_left H) by auto. rewrite <- sum_scal_r.
    apply sum_ext. intros; ring.
  - rewrite sum_swap. apply sum_ext. intros i Hi. rewrite sum_scal_l, (svd_right H') by auto. ring.
Qed.
Lemma cross_2 r s : (r < p)%nat -> (s < p)%nat -> vget S' s * d r s = vget S r * c r s.
Proof.
  intros Hr Hs. unfold d, c. rewrite <- !sum_scal_l.
  transitivity (sum m (fun j => sum n (fun i => mget U' i s * (mget A i j * mget V r j)))).
  - apply sum_ext. intros j Hj.
    replace (vget S' s * (mget V r j * mget V' s j)) with ((vget S' s * mget V' s j) * mget V r j) by ring.
    rewrite <- (svd_left H') by auto. rewrite <- sum_scal_r. apply sum_ext. intros; ring.
  - rewrite sum_swap. apply sum_ext. intros i Hi. rewrite sum_scal_l, (svd_right H) by auto. ring.
Qed.
Lemma apart r s : (r < p)%nat -> (s < p)%nat -> vget S r <> vget S' s -> c r s = 0 /\ d r s = 0.
Proof.
  intros Hr Hs Hne. pose proof (cross_1 Hr Hs) as E1. pose proof (cross_2 Hr Hs) as E2.
  pose proof (svd_S_nonneg H Hr) as P1. pose proof (svd_S_nonneg H' Hs) as P2.
  set (x := vget S r) in *. set (y := vget S' s) in *. set (a := c r s) in *. set (b := d r s) in *.
  assert (Hd : (x - y) * (x + y) <> 0) by (apply Rmult_integral_contrapositive; split; lra).
  split; apply (Rmult_eq_reg_l ((x - y) * (x + y))); auto; rewrite Rmult_0_r.
  - replace ((x - y) * (x + y) * a) with (x * (x * a) - y * (y * a)) by ring. rewrite <- E1, <- E2. ring.
  - replace ((x - y) * (x + y) * b) with (x * (x * b) - y * (y * b)) by ring. rewrite E1, E2. ring.
Qed.

Variable g : R -> R.
Hypothesis g0 : g 0 = 0.
Lemma g_cross r s : (r < p)%nat -> (s < p)%nat -> g (vget S' s) * d r s = g (vget S r) * c r s.
Proof.
  intros Hr Hs. destruct (Req_dec (vget S r) (vget S' s)) as [E|E].
  - rewrite E. destruct (Req_dec (vget S' s) 0) as [E0|E0]; [rewrite E0, g0; ring|]. f_equal.
    pose proof (cross_1 Hr Hs) as E1. rewrite E in E1. now apply Rmult_eq_reg_l in E1.
  - destruct (apart Hr Hs E) as [-> ->]. ring.
Qed.
Lemma g_right r j : (r < p)%nat -> (j < m)%nat -> g (vget S r) * mget V r j = sum p (fun s => g (vget S r) * c r s * mget V' s j).
Proof.
  intros Hr Hj. destruct (Req_dec (vget S r) 0) as [E|E].
  - rewrite E, g0. rewrite sum_zero by (intros; ring). ring.
  - apply (Rmult_eq_reg_l (vget S r)); auto. rewrite <- sum_scal_l.
    transitivity (g (vget S r) * sum n (fun i => mget U i r * mget A i j)); [rewrite (svd_left H) by auto; ring|].
    transitivity (g (vget S r) * sum n (fun i => sum p (fun s => mget U i r * mget U' i s * (vget S' s * mget V' s j)))).
    { f_equal. apply sum_ext. intros i Hi. rewrite (svd_product H') by auto. rewrite <- sum_scal_l. apply sum_ext. intros; ring. }
    rewrite sum_swap, <- sum_scal_l. apply sum_ext. intros s Hs. rewrite sum_scal_r. fold (c r s).
    destruct (Req_dec (vget S r) (vget S' s)) as [Ee|Ee]; [rewrite <- Ee; ring|].
    destruct (apart Hr Hs Ee) as [-> _]. ring.
Qed.
Lemma g_left s i : (s < p)%nat -> (i < n)%nat -> g (vget S' s) * mget U' i s = sum p (fun r => mget U i r * (g (vget S' s) * d r s)).
Proof.
  intros Hs Hi. destruct (Req_dec (vget S' s) 0) as [E|E].
  - rewrite E, g0. rewrite sum_zero by (intros; ring). ring.
  - apply (Rmult_eq_reg_l (vget S' s)); auto. rewrite <- sum_scal_l.
    transitivity (g (vget S' s) * sum m (fun j => mget A i j * mget V' s j)); [rewrite (svd_right H') by auto; ring|].
    transitivity (g (vget S' s) * sum m (fun j => sum p (fun r => (mget U i r * vget S r) * (mget V r j * mget V' s j)))).
    { f_equal. apply sum_ext. intros j Hj. rewrite (svd_product H) by auto. rewrite <- sum_scal_r. apply sum_ext. intros; ring. }
    rewrite sum_swap, <- sum_scal_l. apply sum_ext. intros r Hr. rewrite sum_scal_l. fold (d r s).
    destruct (Req_dec (vget S r) (vget S' s)) as [Ee|Ee]; [rewrite <- Ee; ring|].
    destruct (apart Hr Hs Ee) as [_ ->]. ring.
Qed.
(** U g(S) V is the same for every decomposition. *)
Lemma svd_function i j : (i < n)%nat -> (j < m)%nat ->
  sum p (fun r => mget U i r * g (vget S r) * mget V r j) = sum p (fun r => mget U' i r * g (vget S' r) * mget V' r j).
Proof.
  intros Hi Hj. transitivity (sum p (fun r => sum p (fun s => mget U i r * (g (vget S r) * c r s) * mget V' s j))).
  - apply sum_ext. intros r Hr. rewrite Rmult_assoc, g_right by auto. rewrite <- sum_scal_l. apply sum_ext. intros; ring.
  - rewrite sum_swap. apply sum_ext. intros s Hs. rewrite sum_scal_r. f_equal.
    rewrite (Rmult_comm (mget U' i s)), g_left by auto. apply sum_ext. intros r Hr. now rewrite g_cross.
Qed.
End Two.

(** The sum of the squares of g(S) is the squared norm of U g(S) V. *)
Lemma svd_squares n m A U S V (g : R -> R) : is_svd n m A U S V ->
  frob2 n m (fun i j => sum (Nat.min n m) (fun r => mget U i r * g (vget S r) * mget V r j)) =
  sum (Nat.min n m) (fun r => g (vget S r) ^ 2).
Proof.
  intros H. apply (@all_captured n m (Nat.min n m) (fun i j => sum (Nat.min n m) (fun r => mget U i r * g (vget S r) * mget V r j))
    (mget U) (mget V) (fun r => g (vget S r)));
  [apply (svd_U_orth H)|apply (svd_V_orth H)|reflexivity].
Qed.

(** *** The singular values are determined by the matrix *)
Lemma values_le n m A U S V U' S' V' r : is_svd n m A U S V -> is_svd n m A U' S' V' -> (r < Nat.min n m)%nat ->
  vget S r <= vget S' r.
Proof.
  intros H H' Hr. destruct (Rle_lt_dec (vget S r) (vget S' r)) as [L|L]; auto. exfalso.
  set (t := vget S r) in *. pose proof (svd_S_nonneg H' Hr) as P0.
  set (g := fun x => if Rle_dec t x then 1 else 0). assert (g0 : g 0 = 0) by (unfold g; destruct (Rle_dec t 0); lra).
  assert (E : sum (Nat.min n m) (fun s => g (vget S s) ^ 2) = sum (Nat.min n m) (fun s => g (vget S' s) ^ 2)).
  { rewrite <- (svd_squares g H), <- (svd_squares g H'). apply frob2_ext. intros i j Hi Hj. now apply (svd_function H H'). }
  rewrite (@sum_split _ (Datatypes.S r)) in E by lia.
  assert (E1 : sum (Datatypes.S r) (fun s => g (vget S s) ^ 2) = INR (Datatypes.S r)).
  { rewrite (@sum_ext (Datatypes.S r) _ (fun _ => 1)); [rewrite sum_const; ring|]. intros s Hs.
    pose proof (@svd_S_sorted _ _ _ _ _ _ H s r ltac:(lia)) as P. fold t in P. unfold g. destruct (Rle_dec t (vget S s)); [ring|lra]. }
  assert (E2 : 0 <= sum (Nat.min n m - Datatypes.S r) (fun k => g (vget S (Datatypes.S r + k)) ^ 2))
    by (apply sum_nonneg; intros; apply pow2_ge_0).
  rewrite (@sum_split (Nat.min n m) r (fun s => g (vget S' s) ^ 2)) in E by lia.
  assert (E3 : sum r (fun s => g (vget S' s) ^ 2) <= INR r).
  { replace (INR r) with (sum r (fun _ => 1)) by (rewrite sum_const; ring). apply sum_le. intros s Hs.
    unfold g. destruct (Rle_dec t (vget S' s)); lra. }
  assert (E4 : sum (Nat.min n m - r) (fun k => g (vget S' (r + k)) ^ 2) = 0).
  { apply sum_zero. intros k Hk. pose proof (@svd_S_sorted _ _ _ _ _ _ H' r (r + k)%nat ltac:(lia)) as P.
    unfold g. destruct (Rle_dec t (vget S' (r + k))); [lra|ring]. }
  rewrite S_INR in E1. lra.
Qed.
Lemma values_eq n m A U S V U' S' V' : is_svd n m A U S V -> is_svd n m A U' S' V' -> S = S'.
Proof.
  intros H H'. apply (vec_ext (svd_S_shape H) (svd_S_shape H')). intros r Hr.
  apply Rle_antisym; [now apply (values_le H H')|now apply (values_le H' H)].
Qed.

(** *** The solvers *)
Lemma mat_dec A : (exists n m, is_mat n m A) \/ (forall n m, ~ is_mat n m A).
Proof.
  destruct (Nat.eq_dec (length (data A)) (prodl (shape A))) as [E|E]; [|right; intros n m [W _]; now apply E].
  destruct (list_eq_dec Nat.eq_dec (shape A) [nrows A; ncols A]) as [F|F].
  - left. exists (nrows A), (ncols A). now split.
  - right. intros n m [_ W]. apply F. unfold nrows, ncols. now rewrite W.
Qed.

Lemma bind_assoc {X Y Z : Type} (a : res X) (f : X -> res Y) (g : Y -> res Z) :
  bind (bind a f) g = bind a (fun x => bind (f x) g).
Proof. now destruct a. Qed.

Section Solvers.
Variables (svd svd' : nd -> res (nd * nd * nd)).
Hypothesis Hb : both_svd svd svd'.

(** Transposed product with a function of the singular values, as both solvers form it *)
Lemma product_entries n m A U S V g : is_svd n m A U S V ->
  (do W <- np_mul (transp V) (np_map g S) ; matmul W (transp U)) =
  Ok (tab2 m n (fun j i => sum (Nat.min n m) (fun r => mget U i r * g (vget S r) * mget V r j))).
Proof.
  intros H. destruct H as [HU HS HV _ _ _ _ _]. unfold np_mul.
  rewrite (@broadcast_mat_vec _ m (Nat.min n m)) by (auto using is_mat_transp, is_vec_np_map). cbn [bind].
  rewrite (@matmul_ok m (Nat.min n m) n) by auto using is_mat_transp. f_equal.
  apply mat_ext with (n := m) (m := n); auto. intros j i Hj Hi. rewrite !mget_tab2 by auto. apply sum_ext. intros r Hr.
  rewrite mget_tab2 by auto. rewrite (mget_transp HV), (mget_transp HU), (vget_np_map _ HS) by auto. ring.
Qed.
Lemma product_same n m A U S V U' S' V' g : g 0 = 0 -> is_svd n m A U S V -> is_svd n m A U' S' V' ->
  (do W <- np_mul (transp V') (np_map g S') ; matmul W (transp U')) =
  (do W <- np_mul (transp V) (np_map g S) ; matmul W (transp U)).
Proof.
  intros g0 H H'. rewrite (product_entries g H), (product_entries g H'). f_equal.
  apply mat_ext with (n := m) (m := n); auto. intros j i Hj Hi. rewrite !mget_tab2 by auto. symmetry.
  now apply (svd_function H H').
Qed.

Lemma rightsolve_same : rightsolve svd' = rightsolve svd.
Proof.
  destruct Hb as (H1 & H2 & H3). extensionality A. extensionality B. unfold rightsolve.
  destruct (mat_dec A) as [(n & m & HA)|HA]; [|now rewrite (H3 _ HA)].
  destruct (H1 _ _ _ HA) as (U & S & V & E & F). destruct (H2 _ _ _ HA) as (U' & S' & V' & E' & F').
  rewrite E, E'. cbn [bind]. rewrite <- !bind_assoc. f_equal.
  apply (@product_same n m A); auto. unfold inv_nonzero. destruct (Req_EM_T 0 0); auto. now destruct n0.
Qed.
Lemma orthogonal_solve_same : orthogonal_solve svd' = orthogonal_solve svd.
Proof.
  destruct Hb as (H1 & H2 & H3). extensionality A. extensionality B. unfold orthogonal_solve.
  destruct (matmul (transp B) A) as [BA|e]; auto. cbn [bind].
  destruct (mat_dec BA) as [(n & m & HA)|HA]; [|now rewrite (H3 _ HA)].
  destruct (H1 _ _ _ HA) as (U & S & V & E & F). destruct (H2 _ _ _ HA) as (U' & S' & V' & E' & F').
  rewrite E, E'. cbn [bind]. rewrite <- (values_eq F F').
  destruct (data S) as [|S0 rest] eqn:ES; auto. cbn [bind].
  replace (nrows U') with (nrows U) by (unfold nrows; now rewrite (proj2 (svd_U_shape F)), (proj2 (svd_U_shape F'))).
  replace (ncols U') with (ncols U) by (unfold ncols; now rewrite (proj2 (svd_U_shape F)), (proj2 (svd_U_shape F'))).
  set (tol := INR _ * S0 * _).
  rewrite (values_eq F F') at 1.
  apply (@product_same n m BA); auto. destruct (Rlt_dec tol 0) as [L|L]; auto. exfalso.
  assert (P : 0 <= S0).
  { assert (Hp : (0 < Nat.min n m)%nat) by (destruct (svd_S_shape F) as [W Sh]; unfold wf in W; rewrite ES, Sh in W; cbn in W; lia).
    pose proof (svd_S_nonneg F Hp) as P. unfold vget, get in P. rewrite ES, (proj2 (svd_S_shape F)) in P. exact P. }
  assert (0 <= tol); [|lra]. unfold tol. repeat apply Rmult_le_pos; auto using pos_INR.
  left. apply Rinv_0_lt_compat, pow_lt. lra.
Qed.
Lemma orthogonal_rightsolve_same : orthogonal_rightsolve svd' = orthogonal_rightsolve svd.
Proof. unfold orthogonal_rightsolve. now rewrite orthogonal_solve_same. Qed.
End Solvers.

(** *** The fits *)
Section Fits.
Variables (svd' : nd -> res (nd * nd * nd)).

Section CPs.
Variables (env : cp_env) (cs : cp_settings).
Hypothesis Hb : both_svd (env_svd env) svd'.
Let env' := with_svd svd' env.

Lemma get_same nn orth mode : get_rightsolve env' cs nn orth mode = get_rightsolve env cs nn orth mode.
Proof.
  unfold get_rightsolve. change (env_svd env') with svd'. change (env_nnls env') with (env_nnls env).
  now rewrite (orthogonal_rightsolve_same Hb), (rightsolve_same Hb).
Qed.
Lemma factor_same : cp_update_factor env' cs = cp_update_factor env cs.
Proof.
  extensionality s. extensionality mode. unfold cp_update_factor. rewrite get_same. reflexivity.
Qed.
Lemma modes_same : cp_update_modes env' cs = cp_update_modes env cs.
Proof.
  extensionality l. induction l as [|m l IH]; auto. extensionality s. cbn [cp_update_modes]. rewrite factor_same, IH. reflexivity.
Qed.
Lemma model_same : cp_model env' cs = cp_model env cs.
Proof. unfold cp_model, cp_update_factors. rewrite modes_same. reflexivity. Qed.
Lemma components_same disk draws arg ds : cp_init_components env' cs disk draws arg ds = cp_init_components env cs disk draws arg ds.
Proof. unfold cp_init_components. rewrite model_same. reflexivity. Qed.
Lemma init_same disk draws X max_its arg ds : cp_init_fit env' cs disk draws X max_its arg ds = cp_init_fit env cs disk draws X max_its arg ds.
Proof. unfold cp_init_fit. rewrite components_same. reflexivity. Qed.
Lemma cp_fit_same cf disk draws X max_its arg ds : cp_fit env' cs cf disk draws X max_its arg ds = cp_fit env cs cf disk draws X max_its arg ds.
Proof. unfold cp_fit. now rewrite init_same, model_same. Qed.

Lemma cmtf_modes_same : cmtf_update_modes env' cs = cmtf_update_modes env cs.
Proof.
  extensionality l. induction l as [|m l IH]; auto. extensionality s. cbn [cmtf_update_modes].
  assert (E : cmtf_update_factor env' cs s m = cmtf_update_factor env cs s m)
    by (unfold cmtf_update_factor; rewrite get_same; reflexivity).
  rewrite E, IH. reflexivity.
Qed.
Lemma uncoupled_same s : update_uncoupled env' s = update_uncoupled env s.
Proof.
  unfold update_uncoupled. f_equal. generalize (cm_V s). induction (mode_to_cm_idx (cm_modes s)) as [|[mo idxs] l IH]; intros V; auto.
  cbn [uncoupled_loop].
  assert (E : uncoupled_step env' s mo idxs V = uncoupled_step env s mo idxs V).
  { unfold uncoupled_step. change (env_svd env') with svd'. rewrite (rightsolve_same Hb). reflexivity. }
  rewrite E. destruct (uncoupled_step env s mo idxs V) as [V1 [e|]]; auto.
Qed.
Lemma cmtf_model_same : cmtf_model env' cs = cmtf_model env cs.
Proof.
  unfold cmtf_model. f_equal. extensionality s. unfold cmtf_update_factors. rewrite cmtf_modes_same.
  destruct (cmtf_update_modes env cs (seq 0 (ndim (cp_X (cm_cp s)))) s) as [s1 [e|]]; auto. now rewrite uncoupled_same.
Qed.
Lemma cmtf_loop_same cf ds : cmtf_fit_loop env' cs cf ds = cmtf_fit_loop env cs cf ds.
Proof. unfold cmtf_fit_loop. now rewrite cmtf_model_same. Qed.
Lemma cmtf_init_same disk draws vdraws X Y modes max_its arg ds :
  cmtf_init_fit env' cs disk draws vdraws X Y modes max_its arg ds = cmtf_init_fit env cs disk draws vdraws X Y modes max_its arg ds.
Proof.
  unfold cmtf_init_fit.
  assert (E : cp_init_components env' cs disk draws arg = cp_init_components env cs disk draws arg)
    by (extensionality d0; apply components_same).
  rewrite E. reflexivity.
Qed.
Lemma cmtf_fit_same cf disk draws vdraws X Y modes max_its arg ds :
  cmtf_fit env' cs cf disk draws vdraws X Y modes max_its arg ds = cmtf_fit env cs cf disk draws vdraws X Y modes max_its arg ds.
Proof.
  unfold cmtf_fit. rewrite cmtf_init_same.
  destruct (cmtf_init_fit env cs disk draws vdraws X Y modes max_its arg ds) as [d [e|]]; auto. apply cmtf_loop_same.
Qed.
End CPs.

Section P2s.
Variables (env : p2_env) (ps : p2_settings).
Hypothesis Hb : both_svd (env_svd (pe_cp env)) svd'.
Let env' := with_svd2 svd' env.

Lemma projection_same : p2_update_projection env' = p2_update_projection env.
Proof.
  extensionality s. extensionality k. unfold p2_update_projection. change (env_svd (pe_cp env')) with svd'.
  now rewrite (orthogonal_solve_same Hb).
Qed.
Lemma p2_cp_same : p2_cp_update env' ps = p2_cp_update env ps.
Proof.
  extensionality s. extensionality m. unfold p2_cp_update. change (pe_cp env') with (with_svd svd' (pe_cp env)).
  now rewrite (factor_same (inner_settings ps) Hb).
Qed.
Lemma p2_update_same : p2_update env' ps = p2_update env ps.
Proof.
  extensionality s. unfold p2_update, p2_update_projections, p2_cp_sweep. rewrite projection_same, p2_cp_same. reflexivity.
Qed.
Lemma p2_prepare_same : p2_prepare env' ps = p2_prepare env ps.
Proof.
  extensionality s. unfold p2_prepare. change (pe_cp env') with (with_svd svd' (pe_cp env)).
  assert (E : cp_init_fit (with_svd svd' (pe_cp env)) (inner_settings ps) = cp_init_fit (pe_cp env) (inner_settings ps)).
  { extensionality a. extensionality b. extensionality c. extensionality d. extensionality e. extensionality f. now apply init_same. }
  rewrite E. reflexivity.
Qed.
Lemma p2_model_same : p2_model env' ps = p2_model env ps.
Proof. unfold p2_model. rewrite p2_update_same, p2_prepare_same. reflexivity. Qed.
Lemma p2_components_same disk draws arg ds : p2_init_components env' ps disk draws arg ds = p2_init_components env ps disk draws arg ds.
Proof.
  unfold p2_init_components. rewrite p2_model_same.
  assert (E : p2_init_cp env' ps draws (ds_num ds) = p2_init_cp env ps draws (ds_num ds)).
  { unfold p2_init_cp. change (pe_cp env') with (with_svd svd' (pe_cp env)).
    destruct (stack (p2_X (ds_num ds))) as [X|]; auto. cbn [bind]. now rewrite (cp_fit_same _ Hb). }
  rewrite E. reflexivity.
Qed.
Lemma p2_fit_same cf disk draws X max_its arg ds : p2_fit env' ps cf disk draws X max_its arg ds = p2_fit env ps cf disk draws X max_its arg ds.
Proof.
  assert (E : p2_init_fit env' ps disk draws X max_its arg ds = p2_init_fit env ps disk draws X max_its arg ds).
  { unfold p2_init_fit. destruct (p2_set_target X (ds_num (with_it 0%Z ds))) as [s|]; auto. now rewrite p2_components_same. }
  unfold p2_fit. now rewrite E, p2_model_same.
Qed.
End P2s.
End Fits.
