(** Core consistency: lemmas for C66. *)
From Verif Require Export CoreSpec Core MetricsFacts SignScores Parafac2Sweep.
Set Implicit Arguments.
Unset Strict Implicit.
Local Open Scope R_scope.

(** *** Back substitution *)
Lemma back_length n M b k : length (back n M b k) = k.
Proof. induction k; cbn [back length]; auto. Qed.
Lemma back_nth n M b : forall k j, (k <= n)%nat -> (j < k)%nat ->
  nth j (back n M b k) 0 = nth (n - k + j) (back n M b n) 0.
Proof.
  assert (H : forall d k j, (k + d <= n)%nat -> (j < k)%nat -> nth j (back n M b k) 0 = nth (d + j) (back n M b (k + d)) 0).
  { induction d as [|d IH]; intros k j Hk Hj; [now rewrite Nat.add_0_r|].
    replace (k + S d)%nat with (S (k + d)) by lia. cbn [back Nat.add nth]. apply IH; lia. }
  intros k j Hk Hj. rewrite (H (n - k)%nat) by lia. do 2 f_equal. lia.
Qed.
Lemma sum_drop n i f : (i <= n)%nat -> sum n f = sum i f + sum (n - i) (fun j => f (i + j)%nat).
Proof. intros H. rewrite <- sum_split. now replace (i + (n - i))%nat with n by lia. Qed.
Lemma back_solves n M b : (forall i, (i < n)%nat -> M i i <> 0) ->
  (forall i j, (i < n)%nat -> (j < n)%nat -> (j < i)%nat -> M i j = 0) ->
  forall i, (i < n)%nat -> sum n (fun j => M i j * nth j (back n M b n) 0) = b i.
Proof.
  intros Hd Hu i Hi. rewrite (@sum_drop n i) by lia.
  rewrite (@sum_zero i) by (intros j Hj; rewrite Hu by lia; ring).
  replace (n - i)%nat with (S (n - S i)) by lia. rewrite sum_S_first. rewrite Nat.add_0_r.
  assert (E : nth i (back n M b n) 0 =
              (b i - sum (n - S i) (fun j => M i (S i + j)%nat * nth (S i + j) (back n M b n) 0)) / M i i).
  { replace i with (n - (S (n - S i)) + 0)%nat at 1 by lia. rewrite <- (@back_nth n M b (S (n - S i)) 0) by lia.
    cbn [back nth]. replace (n - S (n - S i))%nat with i by lia. f_equal. f_equal. apply sum_ext. intros j Hj. f_equal.
    rewrite back_nth by lia. f_equal. lia. }
  rewrite E at 1.
  rewrite (@sum_ext (n - S i) (fun k => M i (i + S k)%nat * nth (i + S k) (back n M b n) 0)
             (fun j => M i (S i + j)%nat * nth (S i + j) (back n M b n) 0)).
  - field. auto.
  - intros j Hj. now replace (i + S j)%nat with (S i + j)%nat by lia.
Qed.
Lemma zero_free_true n d : zero_free n d = true <-> forall i, (i < n)%nat -> d i <> 0.
Proof.
  unfold zero_free. rewrite forallb_forall. split.
  - intros H i Hi. specialize (H i ltac:(apply in_seq; lia)). destruct (Req_EM_T (d i) 0); [discriminate|auto].
  - intros H i Hi. apply in_seq in Hi. destruct (Req_EM_T (d i) 0) as [E|]; [|reflexivity]. exfalso. apply (H i); auto. lia.
Qed.

Lemma forallb_exists_false n d : zero_free n d = false -> exists j, (j < n)%nat /\ d j = 0.
Proof.
  intros H. induction n as [|n IH]; [discriminate|]. unfold zero_free in *. rewrite seq_S, forallb_app in H. cbn [Nat.add forallb] in H.
  destruct (Req_EM_T (d n) 0) as [E|E]; [exists n; auto|]. rewrite !andb_true_r in H. destruct (IH H) as (j & Hj & Ej). exists j. split; [lia|exact Ej].
Qed.

(** *** Upper triangular matrices *)
Definition upper (n : nat) (T : nat -> nat -> R) : Prop :=
  forall i j, (i < n)%nat -> (j < n)%nat -> (j < i)%nat -> T i j = 0.
Definition injective (n m : nat) (A : nat -> nat -> R) : Prop :=
  forall c, (forall i, (i < n)%nat -> sum m (fun r => A i r * c r) = 0) -> forall r, (r < m)%nat -> c r = 0.
Lemma upper_injective n T : upper n T -> (forall i, (i < n)%nat -> T i i <> 0) -> injective n n T.
Proof.
  intros HU Hd c Hc.
  assert (H : forall k i, (n - k <= i < n)%nat -> c i = 0).
  { induction k as [|k IH]; intros i Hi; [lia|].
    destruct (Nat.eq_dec i (n - S k)) as [Ei|]; [|apply IH; lia].
    pose proof (Hc i ltac:(lia)) as E. rewrite (@sum_drop n i) in E by lia.
    rewrite (@sum_zero i) in E by (intros j Hj; rewrite HU by lia; ring).
    replace (n - i)%nat with (S (n - S i)) in E by lia. rewrite sum_S_first, Nat.add_0_r in E.
    rewrite sum_zero in E by (intros j Hj; rewrite IH by lia; ring).
    rewrite Rplus_0_r, Rplus_0_l in E. apply Rmult_integral in E as [E|E]; [|exact E]. exfalso. apply (Hd i); [lia|exact E]. }
  intros r Hr. apply (H n). lia.
Qed.
(** A zero on the diagonal: a combination of the columns up to it vanishes *)
Lemma upper_singular n T i : upper n T -> (i < n)%nat -> T i i = 0 -> ~ injective n n T.
Proof.
  intros HU Hi Hz HI.
  assert (H : exists i0, (i0 < n)%nat /\ T i0 i0 = 0 /\ forall j, (j < i0)%nat -> T j j <> 0).
  { revert Hi Hz. induction i as [i IH] using (well_founded_induction Wf_nat.lt_wf). intros Hi Hz.
    destruct (zero_free i (fun j => T j j)) eqn:E.
    - exists i. split; [exact Hi|]. split; [exact Hz|]. now apply zero_free_true.
    - destruct (@forallb_exists_false i (fun j => T j j) E) as (j & Hj & Ej). apply (IH j); auto. lia. }
  destruct H as (k & Hk & Ek & Hd).
  set (x := fun j => nth j (back k T (fun j => - T j k) k) 0).
  set (c := fun j => if Nat.ltb j k then x j else if Nat.eqb j k then 1 else 0).
  assert (Hc : c k = 0).
  { apply (HI c); [|exact Hk]. intros j Hj. rewrite (@sum_drop n k) by lia.
    replace (n - k)%nat with (S (n - S k)) by lia. rewrite sum_S_first, Nat.add_0_r.
    rewrite (@sum_zero (n - S k)).
    - rewrite (@sum_ext k _ (fun r => T j r * x r)) by (intros r Hr; unfold c; destruct (Nat.ltb_spec r k); [reflexivity|lia]).
      assert (E1 : c k = 1) by (unfold c; destruct (Nat.ltb_spec k k); [lia|]; now rewrite Nat.eqb_refl). rewrite E1.
      destruct (Nat.lt_ge_cases j k) as [Hjk|Hjk].
      + unfold x. rewrite (@back_solves k T (fun j => - T j k)); auto; [ring|]. intros; apply HU; lia.
      + rewrite sum_zero by (intros r Hr; rewrite HU by lia; ring).
        destruct (Nat.eq_dec j k) as [->|]; [rewrite Ek|rewrite HU by lia]; ring.
    - intros r Hr. unfold c. destruct (Nat.ltb_spec (k + S r) k); [lia|]. destruct (Nat.eqb_spec (k + S r) k); [lia|]. ring. }
  assert (E1 : c k = 1) by (unfold c; destruct (Nat.ltb_spec k k); [lia|]; now rewrite Nat.eqb_refl). lra.
Qed.

(** *** Least squares through a QR factorisation *)
Lemma wide_not_injective n m A : (n < m)%nat -> (forall i j, (i < n)%nat -> (j < m)%nat -> (j < i)%nat -> A i j = 0) ->
  ~ injective n m A.
Proof.
  intros Hnm HU HI.
  apply (@upper_singular m (fun i j => if Nat.ltb i n then A i j else 0) n); auto.
  - intros i j Hi Hj Hji. destruct (Nat.ltb_spec i n); auto.
  - destruct (Nat.ltb_spec n n); [lia|reflexivity].
  - intros c Hc. apply HI. intros i Hi. rewrite <- (Hc i) by lia. apply sum_ext. intros r Hr.
    destruct (Nat.ltb_spec i n); [reflexivity|lia].
Qed.
Lemma injective_factor n p m A Q T : (forall i j, (i < n)%nat -> (j < m)%nat -> A i j = mprod p Q T i j) ->
  injective n m A -> injective p m T.
Proof.
  intros HA HI c Hc. apply HI. intros i Hi.
  rewrite (@sum_ext m _ (fun r => sum p (fun k => Q i k * (T k r * c r)))).
  - rewrite sum_swap. apply sum_zero. intros k Hk. rewrite sum_scal_l, Hc by auto. ring.
  - intros r Hr. rewrite HA by auto. unfold mprod. rewrite <- sum_scal_r. apply sum_ext. intros. ring.
Qed.
Lemma injective_orth n p m A Q T : (forall i j, (i < n)%nat -> (j < m)%nat -> A i j = mprod p Q T i j) ->
  orth_cols n p Q -> injective p m T -> injective n m A.
Proof.
  intros HA HQ HI c Hc. apply HI. intros k Hk.
  transitivity (sum n (fun i => Q i k * sum m (fun r => A i r * c r))).
  - rewrite (@sum_ext n _ (fun i => Q i k * sum p (fun l => Q i l * sum m (fun r => T l r * c r)))).
    + rewrite (@sum_ext n _ (fun i => sum p (fun l => (Q i k * Q i l) * sum m (fun r => T l r * c r)))).
      * rewrite sum_swap. rewrite (@sum_ext p _ (fun l => delta k l * sum m (fun r => T l r * c r))).
        -- now rewrite sum_delta_l.
        -- intros l Hl. rewrite sum_scal_r. now rewrite HQ.
      * intros i Hi. rewrite <- sum_scal_l. apply sum_ext. intros. ring.
    + intros i Hi. f_equal. rewrite (@sum_ext m _ (fun r => sum p (fun l => Q i l * (T l r * c r)))).
      * rewrite sum_swap. apply sum_ext. intros l Hl. now rewrite sum_scal_l.
      * intros r Hr. rewrite HA by auto. unfold mprod. rewrite <- sum_scal_r. apply sum_ext. intros. ring.
  - apply sum_zero. intros i Hi. rewrite Hc by auto. ring.
Qed.
Lemma qr_injective_tall n m A Q T : is_qr n m A Q T -> injective n m (mget A) -> (m <= n)%nat.
Proof.
  intros HQ HI. destruct (Nat.le_gt_cases m n) as [|Hlt]; [assumption|exfalso].
  apply (@wide_not_injective (Nat.min n m) m (mget T)); [lia|exact (qr_R_upper HQ)|].
  exact (injective_factor (qr_product HQ) HI).
Qed.

(** The residual is orthogonal to the columns, so x is optimal. *)
Lemma normal_optimal n m A b x : (forall r, (r < m)%nat -> sum n (fun i => A i r * (b i - sum m (fun q => A i q * x q))) = 0) ->
  forall y, sum n (fun i => (b i - sum m (fun q => A i q * x q)) ^ 2) <= sum n (fun i => (b i - sum m (fun q => A i q * y q)) ^ 2).
Proof.
  intros H y. set (e := fun i => b i - sum m (fun q => A i q * x q)).
  set (d := fun i => sum m (fun q => A i q * (x q - y q))).
  assert (E : sum n (fun i => (b i - sum m (fun q => A i q * y q)) ^ 2) =
              sum n (fun i => e i ^ 2) + 2 * sum n (fun i => e i * d i) + sum n (fun i => d i ^ 2)).
  { rewrite <- sum_scal_l, <- !Lin.sum_plus. apply sum_ext. intros i Hi.
    assert (Ed : d i = sum m (fun q => A i q * x q) - sum m (fun q => A i q * y q)).
    { unfold d. rewrite <- Lin.sum_minus. apply sum_ext. intros. ring. }
    rewrite Ed. unfold e. ring. }
  assert (Z : sum n (fun i => e i * d i) = 0).
  { unfold d. rewrite (@sum_ext n _ (fun i => sum m (fun q => (A i q * e i) * (x q - y q)))).
    - rewrite sum_swap. apply sum_zero. intros q Hq. rewrite sum_scal_r. unfold e. rewrite H by auto. ring.
    - intros i Hi. rewrite <- sum_scal_l. apply sum_ext. intros. ring. }
  rewrite E, Z. fold (sum n (fun i => e i ^ 2)).
  assert (0 <= sum n (fun i => d i ^ 2)) by (apply sum_nonneg; intros; apply pow2_ge_0).
  change (sum n (fun i => e i ^ 2) <= sum n (fun i => e i ^ 2) + 2 * 0 + sum n (fun i => d i ^ 2)). lra.
Qed.

Definition qr_steps (Q T b : nd) : res nd := do rhs <- matmul (transp Q) b ; solve_triangular T rhs.
Lemma qr_solve n m A b Q T : is_mat n 1 b -> is_qr n m A Q T -> injective n m (mget A) ->
  exists x, qr_steps Q T b = Ok x /\ is_mat m 1 x /\
    forall y, sum n (fun i => (mget b i 0 - sum m (fun q => mget A i q * mget x q 0)) ^ 2) <=
              sum n (fun i => (mget b i 0 - sum m (fun q => mget A i q * y q)) ^ 2).
Proof.
  intros Hb HQ HI. pose proof (qr_injective_tall HQ HI) as Hmn.
  pose proof (qr_Q_shape HQ) as HQs. pose proof (qr_R_shape HQ) as HTs. pose proof (qr_Q_orth HQ) as HO.
  pose proof (qr_R_upper HQ) as HU. pose proof (qr_product HQ) as HP.
  rewrite Nat.min_r in * by auto.
  assert (HTI : injective m m (mget T)) by exact (injective_factor HP HI).
  assert (Hd : forall i, (i < m)%nat -> mget T i i <> 0).
  { intros i Hi Hz. exact (@upper_singular m (mget T) i HU Hi Hz HTI). }
  unfold qr_steps. rewrite (matmul_ok (is_mat_transp HQs) Hb). cbn [bind]. unfold solve_triangular, shape2.
  rewrite (proj2 HTs). cbn [bind]. unfold tab2 at 1. rewrite shape_tab. cbn [bind]. rewrite !Nat.eqb_refl. cbn [negb].
  rewrite (proj2 (zero_free_true m (fun i => mget T i i)) Hd). eexists. split; [reflexivity|]. split; [apply is_mat_tab2|].
  set (rhs := tab2 m 1 (fun i j => sum n (fun k => mget (transp Q) i k * mget b k j))). set (bk := back m (mget T) (fun i => mget rhs i 0) m).
  assert (Hs : forall k, (k < m)%nat -> sum m (fun j => mget T k j * nth j bk 0) = sum n (fun i => mget Q i k * mget b i 0)).
  { intros k Hk. unfold bk. rewrite back_solves by auto. unfold rhs. rewrite mget_tab2 by lia. apply sum_ext. intros i Hi.
    now rewrite (mget_transp HQs). }
  intros y. rewrite (@sum_ext n _ (fun i => (mget b i 0 - sum m (fun q => mget A i q * nth q bk 0)) ^ 2)).
  - apply normal_optimal. intros r Hr.
    assert (HR : forall k, (k < m)%nat -> sum n (fun i => mget Q i k * (mget b i 0 - sum m (fun q => mget A i q * nth q bk 0))) = 0).
    { intros k Hk. rewrite (@sum_ext n _ (fun i => mget Q i k * mget b i 0 -
         sum m (fun l => (mget Q i k * mget Q i l) * sum m (fun q => mget T l q * nth q bk 0)))).
      - rewrite Lin.sum_minus, (sum_swap n m), <- Hs by auto.
        rewrite (@sum_ext m (fun j => sum n _) (fun l => delta k l * sum m (fun q => mget T l q * nth q bk 0))).
        + rewrite sum_delta_l by auto. ring.
        + intros l Hl. rewrite sum_scal_r. now rewrite HO.
      - intros i Hi. rewrite Rmult_minus_distr_l. f_equal. rewrite (@sum_ext m (fun l => _ * _ * _)
          (fun l => mget Q i k * (mget Q i l * sum m (fun q => mget T l q * nth q bk 0)))) by (intros; ring).
        rewrite sum_scal_l. f_equal.
        rewrite (@sum_ext m _ (fun q => sum m (fun l => mget Q i l * (mget T l q * nth q bk 0)))).
        + rewrite sum_swap. apply sum_ext. intros l Hl. now rewrite sum_scal_l.
        + intros q Hq. rewrite HP by auto. unfold mprod. rewrite <- sum_scal_r. apply sum_ext. intros. ring. }
    rewrite (@sum_ext n _ (fun i => sum m (fun k => mget T k r * (mget Q i k * (mget b i 0 - sum m (fun q => mget A i q * nth q bk 0)))))).
    + rewrite sum_swap. apply sum_zero. intros k Hk. rewrite sum_scal_l, HR by auto. ring.
    + intros i Hi. rewrite HP at 1 by auto. unfold mprod. rewrite <- sum_scal_r. apply sum_ext. intros. ring.
  - intros i Hi. do 2 f_equal. apply sum_ext. intros q Hq. rewrite mget_tab2 by lia. reflexivity.
Qed.
(** Without independent columns it raises. *)
Lemma qr_dependent n m A b Q T : is_mat n 1 b -> is_qr n m A Q T -> ~ injective n m (mget A) ->
  qr_steps Q T b = Err (if Nat.ltb n m then ValueError else LinAlgError).
Proof.
  intros Hb HQ HI. pose proof (qr_Q_shape HQ) as HQs. pose proof (qr_R_shape HQ) as HTs.
  unfold qr_steps. rewrite (matmul_ok (is_mat_transp HQs) Hb). cbn [bind]. unfold solve_triangular, shape2.
  rewrite (proj2 HTs). cbn [bind]. unfold tab2 at 1. rewrite shape_tab. cbn [bind]. rewrite !Nat.eqb_refl.
  destruct (Nat.ltb_spec n m) as [Hlt|Hge].
  - destruct (Nat.eqb_spec (Nat.min n m) m); [lia|reflexivity].
  - rewrite Nat.min_r in * by auto. rewrite Nat.eqb_refl. cbn [negb].
    destruct (zero_free m (fun i => mget T i i)) eqn:E; [exfalso|reflexivity].
    apply HI. pose proof (qr_Q_orth HQ) as HO. pose proof (qr_R_upper HQ) as HU. pose proof (qr_product HQ) as HP.
    rewrite Nat.min_r in * by auto. apply (injective_orth HP HO). apply upper_injective; [exact HU|]. now apply zero_free_true.
Qed.
(** At most one least-squares solution: two optimal ones have the same image. *)
Lemma least_squares_exact n m A b x g : injective n m A -> (forall i, (i < n)%nat -> b i = sum m (fun q => A i q * g q)) ->
  (forall y, sum n (fun i => (b i - sum m (fun q => A i q * x q)) ^ 2) <= sum n (fun i => (b i - sum m (fun q => A i q * y q)) ^ 2)) ->
  forall q, (q < m)%nat -> x q = g q.
Proof.
  intros HI Hb Hx q Hq. specialize (Hx g).
  rewrite (@sum_zero n (fun i => (b i - sum m (fun q => A i q * g q)) ^ 2)) in Hx by (intros i Hi; rewrite Hb by auto; ring).
  assert (Z : forall i, (i < n)%nat -> (b i - sum m (fun q => A i q * x q)) ^ 2 = 0).
  { apply sum_nonneg_zero; [intros; apply pow2_ge_0|]. apply Rle_antisym; [exact Hx|]. apply sum_nonneg. intros; apply pow2_ge_0. }
  assert (x q - g q = 0); [|lra]. apply (HI (fun q => x q - g q)); auto. intros i Hi.
  transitivity (sum m (fun q => A i q * x q) - sum m (fun q => A i q * g q)).
  - rewrite <- Lin.sum_minus. apply sum_ext. intros. ring.
  - specialize (Z i Hi). rewrite <- Hb by auto. nra.
Qed.

(** *** The matrix of the least-squares problem *)
Lemma root3 x : 0 <= x -> is_cube_root x (root x 3).
Proof.
  intros Hx. unfold root, is_cube_root. destruct (Req_EM_T x 0) as [->|Hn]; [split; [lra|ring]|].
  assert (Hp : 0 < x) by lra. split; [unfold Rpower; left; apply exp_pos|].
  rewrite <- Rpower_pow by (unfold Rpower; apply exp_pos). rewrite Rpower_mult.
  replace (1 / INR 3 * INR 3) with 1 by (cbn; field). now apply Rpower_1.
Qed.
Lemma broadcast_into_mat_row op n m a b : is_mat n m a -> is_mat 1 m b ->
  broadcast_into op a b = Ok (tab2 n m (fun i j => op (mget a i j) (mget b 0 j))).
Proof.
  intros [Ha Sa] [Hb Sb]. unfold broadcast_into, broadcast. rewrite Sa, Sb.
  assert (E : bshape [n; m] [1; m]%nat = Some [n; m]).
  { unfold bshape. cbn. rewrite Nat.eqb_refl. destruct n as [|[|n]]; cbn; reflexivity. }
  rewrite E. destruct (list_eq_dec _ _ _); [|congruence]. unfold tab2. f_equal. apply tab_ext. intros idx Hv.
  rewrite (@bidx_same [n; m]) by auto.
  apply valid_cons_inv in Hv as (i & idx' & -> & Hi & Hv).
  apply valid_cons_inv in Hv as (j & idx'' & -> & Hj & Hv).
  apply valid_nil_inv in Hv; subst.
  unfold bidx. cbn. unfold mget. destruct (Nat.eqb_spec m 1); [|reflexivity].
  replace j with 0%nat by lia. reflexivity.
Qed.
Lemma spread_ok n1 n2 n3 F A B C : is_mat n1 F A -> is_mat n2 F B -> is_mat n3 F C ->
  exists c A' B' C', spread_weights [A; B; C] = Ok [A'; B'; C'] /\ is_mat n1 F A' /\ is_mat n2 F B' /\ is_mat n3 F C' /\
    (forall r, (r < F)%nat -> is_cube_root (clen A r * clen B r * clen C r) (c r)) /\
    (forall i r, (i < n1)%nat -> (r < F)%nat -> mget A' i r = balanced eps15 A c i r) /\
    (forall i r, (i < n2)%nat -> (r < F)%nat -> mget B' i r = balanced eps15 B c i r) /\
    (forall i r, (i < n3)%nat -> (r < F)%nat -> mget C' i r = balanced eps15 C c i r).
Proof.
  intros HA HB HC. unfold spread_weights.
  assert (HM : mats F [A; B; C]).
  { repeat apply Forall_cons; [rewrite (is_mat_nrows HA)|rewrite (is_mat_nrows HB)|rewrite (is_mat_nrows HC)|]; auto. }
  rewrite (normalize_factors_ok (mats_any HM)). cbn [bind map concat0_list].
  pose proof HM as HM'. apply mats_cons in HM' as [_ HM'].
  destruct (concat_norms HM' (is_mat_norm_keep HA)) as (N & EN & HN & PN). cbn [map] in EN. rewrite EN. cbn [bind].
  set (W := tab2 1 _ _).
  assert (HW : is_mat 1 F W) by (unfold W; rewrite (is_mat_ncols HN); apply is_mat_tab2).
  set (W3 := np_map _ W).
  assert (HW3 : is_mat 1 F W3).
  { destruct HW as [W1 W2]. unfold W3, np_map. split; [unfold wf in *; cbn; now rewrite map_length|exact W2]. }
  assert (EW : forall r, (r < F)%nat -> mget W3 0 r = root (clen A r * clen B r * clen C r) 3).
  { intros r Hr. assert (E0 : mget W 0 r = clen A r * clen B r * clen C r).
    { unfold W. rewrite (is_mat_ncols HN), (is_mat_nrows HN). rewrite mget_tab2 by (auto; try lia). rewrite PN by auto.
      cbn [seq prodf]. rewrite (mget_norm_keep HA) by auto. rewrite <- clen_colnorm. unfold cweight. cbn [prodf]. ring. }
    clearbody W. rewrite <- E0. unfold W3. unfold np_map. unfold mget, get. cbn [shape data].
    rewrite (proj2 HW), ravel2. destruct HW as [W1 W2]. unfold wf in W1. rewrite W2 in W1. cbn in W1.
    rewrite <- (@map_nth _ _ (fun x => root x 3)). apply nth_indep. rewrite map_length, W1. lia. }
  cbn [mapM]. rewrite (is_mat_nrows HA), (is_mat_nrows HB), (is_mat_nrows HC), (is_mat_ncols HA), (is_mat_ncols HB), (is_mat_ncols HC).
  unfold scaled. rewrite !(@broadcast_into_mat_row Rmult _ F) by (try apply is_mat_tab2; auto). cbn [bind].
  exists (fun r => root (clen A r * clen B r * clen C r) 3). do 3 eexists. split; [reflexivity|].
  do 3 (split; [apply is_mat_tab2|]). split.
  - intros r Hr. apply root3. repeat apply Rmult_le_pos; apply clen_nonneg.
  - assert (EB : forall U i r, mget U i r / (colnorm U r + eps15) * root (clen A r * clen B r * clen C r) 3 =
                             balanced eps15 U (fun r => root (clen A r * clen B r * clen C r) 3) i r).
    { intros U i r. unfold balanced. rewrite <- clen_colnorm. unfold Rdiv. ring. }
    repeat split; intros i r Hi Hr; rewrite !mget_tab2 by auto; rewrite EW by auto; apply EB.
Qed.

(** *** Three-way sums over a flat index *)
Lemma sum3_ext n m p f g : (forall i j k, (i < n)%nat -> (j < m)%nat -> (k < p)%nat -> f i j k = g i j k) -> sum3 n m p f = sum3 n m p g.
Proof. intros H. apply sum_ext; intros i Hi. apply sum_ext; intros j Hj. apply sum_ext; intros k Hk. auto. Qed.
Lemma sum3_flat n m p f : sum (n * m * p) f = sum3 n m p (fun i j k => f ((i * m + j) * p + k)%nat).
Proof. rewrite sum_block, sum_block. reflexivity. Qed.
Lemma sum3_nonneg n m p f : (forall i j k, 0 <= f i j k) -> 0 <= sum3 n m p f.
Proof. intros H. unfold sum3. apply sum_nonneg; intros. apply sum_nonneg; intros. apply sum_nonneg; intros. apply H. Qed.
Lemma sum3_zero n m p f : (forall i j k, 0 <= f i j k) -> sum3 n m p f = 0 ->
  forall i j k, (i < n)%nat -> (j < m)%nat -> (k < p)%nat -> f i j k = 0.
Proof.
  intros H E i j k Hi Hj Hk.
  assert (E1 : sum m (fun j => sum p (fun k => f i j k)) = 0).
  { apply (@sum_nonneg_zero n (fun i => sum m (fun j => sum p (fun k => f i j k)))); auto.
    intros; apply sum_nonneg; intros; apply sum_nonneg; intros; apply H. }
  assert (E2 : sum p (fun k => f i j k) = 0).
  { apply (@sum_nonneg_zero m (fun j => sum p (fun k => f i j k))); auto. intros; apply sum_nonneg; intros; apply H. }
  apply (@sum_nonneg_zero p (fun k => f i j k)); auto.
Qed.
Lemma flat_lt n m i j : (i < n)%nat -> (j < m)%nat -> (i * m + j < n * m)%nat.
Proof. intros. nia. Qed.
Lemma kron3_ok n1 n2 n3 F A B C : is_mat n1 F A -> is_mat n2 F B -> is_mat n3 F C ->
  exists k, kron (map transp [A; B; C]) = Ok k /\ is_mat (F * F * F) (n1 * n2 * n3) k /\
    forall i j l r s t, (i < n1)%nat -> (j < n2)%nat -> (l < n3)%nat -> (r < F)%nat -> (s < F)%nat -> (t < F)%nat ->
      mget (transp k) ((i * n2 + j) * n3 + l) ((r * F + s) * F + t) = mget A i r * mget B j s * mget C l t.
Proof.
  intros HA HB HC. unfold kron, list_get. cbn [map nth_error bind length Nat.sub seq foldM].
  destruct (kron_binary_ok (is_mat_transp HA) (is_mat_transp HB)) as (k1 & E1 & Hk1 & Ent1).
  destruct (kron_binary_ok Hk1 (is_mat_transp HC)) as (k2 & E2 & Hk2 & Ent2).
  exists k2. cbn [nth_error Nat.add bind]. rewrite E1. cbn [bind]. rewrite E2. split; [reflexivity|]. split; [exact Hk2|].
  intros i j l r s t Hi Hj Hl Hr Hs Ht. rewrite (mget_transp Hk2) by (auto using flat_lt).
  rewrite Ent2 by (auto using flat_lt). rewrite Ent1 by auto.
  rewrite (mget_transp HA), (mget_transp HB), (mget_transp HC) by auto. reflexivity.
Qed.
Lemma as_column_mat n1 n2 n3 X : wf X -> shape X = [n1; n2; n3] -> is_mat (n1 * n2 * n3) 1 (as_column X) /\
  forall i j k, (i < n1)%nat -> (j < n2)%nat -> (k < n3)%nat ->
    mget (as_column X) ((i * n2 + j) * n3 + k) 0 = get X [i; j; k].
Proof.
  intros HX HS. unfold as_column. split.
  - split; [|cbn; rewrite HS; cbn; f_equal; ring]. unfold wf in *. cbn. rewrite HX, HS. cbn. ring.
  - intros i j k Hi Hj Hk. unfold mget, get. cbn [shape data]. rewrite HS. cbn. f_equal. ring.
Qed.
(** *** Columns of the Kronecker product *)
Lemma tucker_injective n1 n2 n3 F (A B C : nat -> nat -> R) D : injective n1 F A -> injective n2 F B -> injective n3 F C ->
  (forall i j k, (i < n1)%nat -> (j < n2)%nat -> (k < n3)%nat -> tucker_entry F A B C D i j k = 0) ->
  forall r s t, (r < F)%nat -> (s < F)%nat -> (t < F)%nat -> D r s t = 0.
Proof.
  intros HA HB HC H.
  assert (H1 : forall j k r, (j < n2)%nat -> (k < n3)%nat -> (r < F)%nat ->
             sum F (fun s => B j s * sum F (fun t => C k t * D r s t)) = 0).
  { intros j k r Hj Hk Hr. apply (HA (fun r => sum F (fun s => B j s * sum F (fun t => C k t * D r s t)))); auto.
    intros i Hi. rewrite <- (H i j k) by auto. unfold tucker_entry, sum3. apply sum_ext. intros r' Hr'.
    rewrite <- sum_scal_l. apply sum_ext. intros s Hs. rewrite <- Rmult_assoc, <- sum_scal_l. apply sum_ext. intros; ring. }
  assert (H2 : forall k r s, (k < n3)%nat -> (r < F)%nat -> (s < F)%nat -> sum F (fun t => C k t * D r s t) = 0).
  { intros k r s Hk Hr Hs. apply (HB (fun s => sum F (fun t => C k t * D r s t))); auto. }
  intros r s t Hr Hs Ht. apply (HC (fun t => D r s t)); auto.
Qed.
Lemma injective_ext n m A A' : (forall i r, (i < n)%nat -> (r < m)%nat -> A i r = A' i r) -> injective n m A -> injective n m A'.
Proof.
  intros HE HI c Hc. apply HI. intros i Hi. rewrite <- (Hc i Hi). apply sum_ext. intros r Hr. now rewrite HE.
Qed.
Lemma injective_scale n m A d : (forall r, (r < m)%nat -> d r <> 0) -> injective n m A -> injective n m (fun i r => A i r * d r).
Proof.
  intros Hd HI c Hc r Hr. assert (E : d r * c r = 0).
  { apply (HI (fun r => d r * c r)); auto. intros i Hi. rewrite <- (Hc i Hi). apply sum_ext. intros; ring. }
  apply Rmult_integral in E as [E|E]; auto. exfalso. exact (Hd r Hr E).
Qed.
Lemma injective_unscale n m A d : injective n m (fun i r => A i r * d r) -> injective n m A.
Proof.
  intros HI. assert (Hd : forall r, (r < m)%nat -> d r <> 0).
  { intros r Hr Hz. assert (E : delta r r = 0).
    { apply (HI (fun k => delta r k)); auto. intros i Hi.
      rewrite (@sum_ext m _ (fun k => delta r k * (A i k * d k))) by (intros; ring). rewrite sum_delta_l by auto. rewrite Hz. ring. }
    rewrite delta_refl in E. lra. }
  intros c Hc r Hr. assert (E : c r / d r = 0).
  { apply (HI (fun r => c r / d r)); auto. intros i Hi. rewrite <- (Hc i Hi). apply sum_ext. intros q Hq. field. auto. }
  apply Rmult_eq_reg_r with (/ d r); [unfold Rdiv in E; lra|]. apply Rinv_neq_0_compat. auto.
Qed.
(** An independent column is not zero. *)
Lemma injective_clen n m U r : is_mat n m U -> injective n m (mget U) -> (r < m)%nat -> 0 < clen U r.
Proof.
  intros HU HI Hr. destruct (Rle_lt_or_eq_dec _ _ (clen_nonneg U r)) as [H|H]; [exact H|exfalso].
  assert (Z : forall i, (i < n)%nat -> mget U i r = 0).
  { intros i Hi. assert (E : mget U i r ^ 2 = 0); [|nra].
    assert (E2 : sum n (fun i => mget U i r ^ 2) = 0).
    { unfold clen in H. rewrite (is_mat_nrows HU) in H. symmetry in H. apply sqrt_eq_0 in H; [exact H|].
      apply sum_nonneg; intros; apply pow2_ge_0. }
    apply (@sum_nonneg_zero n (fun i => mget U i r ^ 2)); auto. intros; apply pow2_ge_0. }
  assert (E : delta r r = 0).
  { apply (HI (fun k => delta r k)); auto. intros i Hi.
    rewrite (@sum_ext m _ (fun k => delta r k * mget U i k)) by (intros; ring). rewrite sum_delta_l by auto. auto. }
  rewrite delta_refl in E. lra.
Qed.
