(** The linear solvers of base.py. *)
From Verif Require Export BaseFacts Mttkrp Lin.
Set Implicit Arguments.
Unset Strict Implicit.
Local Open Scope R_scope.

Lemma wf_np_map f a : wf a -> wf (np_map f a).
Proof. unfold wf. cbn. now rewrite map_length. Qed.

Lemma is_vec_np_map f n a : is_vec n a -> is_vec n (np_map f a).
Proof. intros [H S]. split; auto using wf_np_map. Qed.

Lemma is_mat_np_map f n m a : is_mat n m a -> is_mat n m (np_map f a).
Proof. intros [H S]. split; auto using wf_np_map. Qed.

Lemma get_np_map f a idx : wf a -> valid idx (shape a) -> get (np_map f a) idx = f (get a idx).
Proof.
  intros H Hv. unfold get. cbn. rewrite nth_indep with (d' := f 0).
  - now rewrite map_nth.
  - rewrite map_length, H. now apply ravel_lt.
Qed.

Lemma vget_np_map f n a i : is_vec n a -> (i < n)%nat -> vget (np_map f a) i = f (vget a i).
Proof. intros [H S] Hi. apply get_np_map; auto. rewrite S. now apply valid1. Qed.

Lemma mget_np_map f n m a i j : is_mat n m a -> (i < n)%nat -> (j < m)%nat ->
  mget (np_map f a) i j = f (mget a i j).
Proof. intros [H S] Hi Hj. apply get_np_map; auto. rewrite S. now apply valid2. Qed.

(** *** rightsolve *)
Section Rightsolve.
  Variables (n m p : nat) (A B U Sv Vh : nd).
  Let k := Nat.min n m.
  Hypothesis (HA : is_mat n m A) (HB : is_mat p m B) (HS : is_svd n m A U Sv Vh).
  Let sinv r := inv_nonzero (vget Sv r).
  Let bv i r := sum m (fun j => mget B i j * mget Vh r j).
  Let c i r := sinv r * bv i r.

  Lemma rightsolve_entries svd : svd A = Ok (U, Sv, Vh) ->
    exists X, rightsolve svd A B = Ok X /\ is_mat p n X /\
      forall i a, (i < p)%nat -> (a < n)%nat -> mget X i a = sum k (fun r => c i r * mget U a r).
  Proof.
    intros E. unfold rightsolve. rewrite E. cbn [bind].
    destruct HS as [HU HSv HV HUo HVo Hnn _ Hprod].
    unfold np_mul. rewrite (@broadcast_mat_vec _ m k) by (auto using is_mat_transp, is_vec_np_map).
    cbn [bind]. rewrite (@matmul_ok m k n) by auto using is_mat_transp. cbn [bind].
    rewrite (@matmul_ok p m n) by auto. eexists; split; [reflexivity|]. split; auto.
    intros i a Hi Ha. rewrite mget_tab2 by auto.
    transitivity (sum m (fun j => sum k (fun r => mget B i j * (mget Vh r j * sinv r * mget U a r)))).
    - apply sum_ext. intros j Hj. rewrite mget_tab2 by auto. rewrite <- sum_scal_l.
      apply sum_ext. intros r Hr. rewrite mget_tab2 by auto.
      rewrite (mget_transp HV) by auto. rewrite (mget_transp HU) by auto.
      rewrite (vget_np_map _ HSv) by auto. reflexivity.
    - rewrite sum_swap. apply sum_ext. intros r Hr. unfold c, bv.
      rewrite <- sum_scal_l, <- sum_scal_r. apply sum_ext. intros. ring.
  Qed.

  Variable X : nat -> nat -> R.
  Hypothesis HX : forall i a, (i < p)%nat -> (a < n)%nat -> X i a = sum k (fun r => c i r * mget U a r).

  Lemma rightsolve_XA i j : (i < p)%nat -> (j < m)%nat ->
    mprod n X (mget A) i j = sum k (fun r => c i r * (vget Sv r * mget Vh r j)).
  Proof.
    intros Hi Hj. unfold mprod. rewrite <- (parseval_cols _ _ (svd_U_orth HS)).
    apply sum_ext. intros a Ha. rewrite HX by auto. f_equal.
    rewrite (svd_product HS) by auto. apply sum_ext. intros; ring.
  Qed.

  Lemma rightsolve_normal : normal_eq p n m X (mget A) (mget B).
  Proof.
    intros i a Hi Ha.
    assert (E1 : sum m (fun j => mprod n X (mget A) i j * mget A a j) =
                 sum k (fun r => (c i r * vget Sv r) * (mget U a r * vget Sv r))).
    { rewrite <- (parseval_rows _ _ (svd_V_orth HS)). apply sum_ext. intros j Hj.
      rewrite rightsolve_XA by auto. rewrite (svd_product HS) by auto.
      f_equal; apply sum_ext; intros; ring. }
    assert (E2 : sum m (fun j => mget B i j * mget A a j) =
                 sum k (fun r => bv i r * (mget U a r * vget Sv r))).
    { transitivity (sum m (fun j => sum k (fun r => mget B i j * mget Vh r j * (mget U a r * vget Sv r)))).
      - apply sum_ext. intros j Hj. rewrite (svd_product HS) by auto. rewrite <- sum_scal_l.
        apply sum_ext. intros; ring.
      - rewrite sum_swap. apply sum_ext. intros r Hr. unfold bv. now rewrite <- sum_scal_r. }
    transitivity (sum m (fun j => mprod n X (mget A) i j * mget A a j) - sum m (fun j => mget B i j * mget A a j)).
    - rewrite <- sum_minus. apply sum_ext. intros; ring.
    - rewrite E1, E2, <- sum_minus. apply sum_zero. intros r Hr. unfold c, sinv, inv_nonzero.
      destruct (Req_EM_T (vget Sv r) 0) as [->|Hz]; [ring|]. field. auto.
  Qed.

  Lemma rightsolve_min_norm Y :
    dist2 p m (mprod n Y (mget A)) (mget B) <= dist2 p m (mprod n X (mget A)) (mget B) ->
    frob2 p n X <= frob2 p n Y.
  Proof.
    intros Hle. rewrite (ls_pythagoras Y rightsolve_normal) in Hle.
    set (D := fun i a => Y i a - X i a) in *.
    pose proof (frob2_nonneg p m (mprod n D (mget A))) as Hnn.
    assert (Hz : frob2 p m (mprod n D (mget A)) = 0) by lra.
    assert (HD : forall i r, (i < p)%nat -> (r < k)%nat ->
               vget Sv r * sum n (fun a => D i a * mget U a r) = 0).
    { intros i r Hi Hr.
      rewrite <- (@orth_rows_coeff k m (mget Vh) (fun r => vget Sv r * sum n (fun a => D i a * mget U a r)) r);
        auto; [|apply (svd_V_orth HS)].
      apply sum_zero. intros j Hj.
      replace (sum k _) with (mprod n D (mget A) i j); [rewrite (frob2_zero Hz) by auto; ring|].
      unfold mprod.
      transitivity (sum n (fun a => sum k (fun r => D i a * mget U a r * (vget Sv r * mget Vh r j)))).
      - apply sum_ext. intros a Ha. rewrite (svd_product HS) by auto. rewrite <- sum_scal_l.
        apply sum_ext. intros; ring.
      - rewrite sum_swap. apply sum_ext. intros s Hs. rewrite sum_scal_r. ring. }
    assert (Hcross : forall i, (i < p)%nat -> sum n (fun a => D i a * X i a) = 0).
    { intros i Hi.
      transitivity (sum k (fun r => c i r * sum n (fun a => D i a * mget U a r))).
      - transitivity (sum n (fun a => sum k (fun r => c i r * (D i a * mget U a r)))).
        + apply sum_ext. intros a Ha. rewrite HX by auto. rewrite <- sum_scal_l. apply sum_ext. intros; ring.
        + rewrite sum_swap. apply sum_ext. intros. now rewrite sum_scal_l.
      - apply sum_zero. intros r Hr. specialize (HD i r Hi Hr). unfold c, sinv, inv_nonzero.
        destruct (Req_EM_T (vget Sv r) 0) as [Hs0|Hs0].
        + rewrite Hs0. ring.
        + apply Rmult_integral in HD as [HD|HD]; [contradiction|]. rewrite HD. ring. }
    unfold frob2. apply sum_le. intros i Hi.
    assert (E : sum n (fun a => Y i a ^ 2) =
                sum n (fun a => X i a ^ 2) + sum n (fun a => D i a ^ 2) + 2 * sum n (fun a => D i a * X i a)).
    { rewrite <- sum_scal_l, <- !sum_plus. apply sum_ext. intros. unfold D. ring. }
    rewrite E, Hcross by auto.
    assert (0 <= sum n (fun a => D i a ^ 2)) by (apply sum_nonneg; intros; apply pow2_ge_0). lra.
  Qed.
End Rightsolve.

Theorem rightsolve_ok svd n m p A B U Sv Vh :
  is_mat n m A -> is_mat p m B -> svd A = Ok (U, Sv, Vh) -> is_svd n m A U Sv Vh ->
  exists X, rightsolve svd A B = Ok X /\ is_mat p n X /\
    normal_eq p n m (mget X) (mget A) (mget B) /\
    (forall Y, dist2 p m (mprod n (mget X) (mget A)) (mget B) <= dist2 p m (mprod n Y (mget A)) (mget B)) /\
    (forall Y, dist2 p m (mprod n Y (mget A)) (mget B) <= dist2 p m (mprod n (mget X) (mget A)) (mget B) ->
       frob2 p n (mget X) <= frob2 p n Y).
Proof.
  intros HA HB E HS. destruct (rightsolve_entries HB HS E) as (X & EX & HXm & HX).
  exists X. split; auto. split; auto.
  assert (Hn : normal_eq p n m (mget X) (mget A) (mget B)) by (eapply rightsolve_normal; eauto).
  split; auto. split.
  - now apply ls_optimal.
  - eapply rightsolve_min_norm; eauto.
Qed.

(** A solvable system is solved. *)
Lemma rightsolve_exact n p m X A B Y :
  (forall Y, dist2 p m (mprod n X A) B <= dist2 p m (mprod n Y A) B) ->
  (forall i j, (i < p)%nat -> (j < m)%nat -> mprod n Y A i j = B i j) ->
  forall i j, (i < p)%nat -> (j < m)%nat -> mprod n X A i j = B i j.
Proof.
  intros H HY i j Hi Hj. specialize (H Y).
  assert (Z : dist2 p m (mprod n Y A) B = 0).
  { apply sum_zero. intros. apply sum_zero. intros. rewrite HY by auto. ring. }
  rewrite Z in H.
  assert (Z2 : frob2 p m (fun i j => mprod n X A i j - B i j) = 0).
  { apply Rle_antisym; [exact H|apply frob2_nonneg]. }
  pose proof (frob2_zero Z2 Hi Hj). cbv beta in *. lra.
Qed.

(** *** non_negative_rightsolve *)
Lemma nonneg_rightsolve_ok nnls n m p A B (x : nat -> nd) :
  is_mat n m A -> is_mat p m B ->
  (forall i, (i < p)%nat -> nnls (transp A) (row B i) = Ok (x i) /\ is_nnls m n (transp A) (row B i) (x i)) ->
  exists X, non_negative_rightsolve nnls A B = Ok X /\ is_mat p n X /\
    (forall i a, (i < p)%nat -> (a < n)%nat -> mget X i a = vget (x i) a).
Proof.
  intros HA HB Hx. unfold non_negative_rightsolve, ndim, shape_at.
  rewrite (proj2 HB), (proj2 HA). cbn [length Nat.eqb nth_error bind].
  match goal with |- exists X, foldM ?f _ _ = _ /\ _ =>
    destruct (@foldM_seq_inv nd f (fun t X => is_mat p n X /\
       forall i a, (i < t)%nat -> (i < p)%nat -> (a < n)%nat -> mget X i a = vget (x i) a)
       0%nat p (np_zeros [p; n])) as (X & E & HX & Hent) end.
  - split; [apply is_mat_zeros|]. intros; lia.
  - intros i X Hi [HX Hent]. cbn in Hi. destruct (Hx i) as [E [Hv _]]; [lia|].
    rewrite E. cbn [bind].
    destruct (@set_slice0_mat p n X i (i + 1)%nat (newaxis0 (x i))) as (X' & E' & HX' & Hent'); auto; try lia.
    + replace (i + 1 - i)%nat with 1%nat by lia. now apply is_mat_newaxis0.
    + exists X'. split; auto. split; auto. intros i' a Hi' Hip Ha. rewrite Hent' by auto.
      destruct (Nat.leb_spec i i'); cbn [andb].
      * destruct (Nat.ltb_spec i' (i + 1)); [|lia]. assert (i' = i) by lia. subst.
        rewrite Nat.sub_diag. apply newaxis0_mget.
      * apply Hent; auto.
  - exists X. split; auto.
Qed.

Lemma dist2_rows p n m X A B :
  dist2 p m (mprod n X A) B =
  sum p (fun i => sum m (fun j => (sum n (fun a => A a j * X i a) - B i j) ^ 2)).
Proof.
  apply sum_ext; intros; apply sum_ext; intros. do 2 f_equal. apply sum_ext. intros; ring.
Qed.

Lemma nonneg_rightsolve_opt n m p A B (x : nat -> nd) X :
  is_mat n m A -> is_mat p m B ->
  (forall i, (i < p)%nat -> is_nnls m n (transp A) (row B i) (x i)) ->
  (forall i a, (i < p)%nat -> (a < n)%nat -> X i a = vget (x i) a) ->
  (forall i a, (i < p)%nat -> (a < n)%nat -> 0 <= X i a) /\
  forall Y, (forall i a, (i < p)%nat -> (a < n)%nat -> 0 <= Y i a) ->
    dist2 p m (mprod n X (mget A)) (mget B) <= dist2 p m (mprod n Y (mget A)) (mget B).
Proof.
  intros HA HB Hx HX. split.
  - intros i a Hi Ha. rewrite HX by auto. apply (Hx i Hi); auto.
  - intros Y HY. rewrite !dist2_rows. apply sum_le. intros i Hi.
    destruct (Hx i Hi) as (_ & _ & Hopt). specialize (Hopt (Y i) (fun a Ha => HY i a Hi Ha)).
    assert (E : forall f : nat -> R,
       sum m (fun i0 => (sum n (fun j => mget (transp A) i0 j * f j) - vget (row B i) i0) ^ 2) =
       sum m (fun j => (sum n (fun a => mget A a j * f a) - mget B i j) ^ 2)).
    { intros f. apply sum_ext. intros j Hj. rewrite (vget_row HB) by auto. do 2 f_equal.
      apply sum_ext. intros a Ha. now rewrite (mget_transp HA). }
    rewrite !E in Hopt. eapply Rle_trans; [|exact Hopt]. right.
    apply sum_ext. intros. do 2 f_equal. apply sum_ext. intros. now rewrite HX.
Qed.

(** *** orthogonal_solve *)
Section Orth.
  Variables (p n m : nat) (A B U Sv Vh : nd).
  Hypothesis (HA : is_mat p n A) (HB : is_mat p m B).
  Let C := tab2 m n (fun j a => sum p (fun t => mget (transp B) j t * mget A t a)).
  Hypothesis HS : is_svd m n C U Sv Vh.
  Let k := Nat.min m n.
  (** the singular values the code keeps *)
  Definition kept (m : nat) (n : nat) (Sv : nd) (r : nat) : Prop :=
    INR (Nat.max m (Nat.min m n)) * vget Sv 0 * / 10 ^ 16 < vget Sv r.

  Lemma orth_solve_entries svd : svd C = Ok (U, Sv, Vh) -> (0 < k)%nat ->
    exists X, orthogonal_solve svd A B = Ok X /\ is_mat n m X /\
      forall a j, (a < n)%nat -> (j < m)%nat ->
        mget X a j = sum k (fun r => (if Rlt_dec (INR (Nat.max m k) * vget Sv 0 * / 10 ^ 16) (vget Sv r)
                                      then 1 else 0) * (mget Vh r a * mget U j r)).
  Proof.
    intros E Hk. unfold orthogonal_solve.
    rewrite (@matmul_ok m p n) by auto using is_mat_transp. cbn [bind]. fold C. rewrite E. cbn [bind].
    destruct HS as [HU HSv HV HUo HVo Hnn _ Hprod].
    assert (Hd : exists l, data Sv = vget Sv 0 :: l).
    { destruct HSv as [Hw Hs]. unfold wf in Hw. rewrite Hs in Hw. cbn in Hw.
      unfold vget, get. rewrite Hs. destruct (data Sv) as [|s l]; cbn in *; [unfold k in Hk; lia|].
      exists l. reflexivity. }
    destruct Hd as [l Hd]. rewrite Hd. cbn [bind].
    unfold nrows, ncols. rewrite (proj2 HU). cbn [nth]. fold k.
    unfold np_mul. rewrite (@broadcast_mat_vec _ n k) by (auto using is_mat_transp, is_vec_np_map).
    cbn [bind]. rewrite (@matmul_ok n k m) by auto using is_mat_transp.
    eexists; split; [reflexivity|]. split; auto.
    intros a j Ha Hj. rewrite mget_tab2 by auto. apply sum_ext. intros r Hr.
    rewrite mget_tab2 by auto. rewrite (mget_transp HV), (mget_transp HU) by auto.
    rewrite (vget_np_map _ HSv) by auto.
    destruct (Rlt_dec _ _); ring.
  Qed.

  Lemma C_entry j a : (j < m)%nat -> (a < n)%nat ->
    mget C j a = sum p (fun t => mget B t j * mget A t a).
  Proof.
    intros Hj Ha. unfold C. rewrite mget_tab2 by auto. apply sum_ext. intros t Ht.
    now rewrite (mget_transp HB).
  Qed.

  (** ||AY - B||^2 for Y with orthonormal rows *)
  Lemma procrustes_expand Y : orth_rows n m Y ->
    dist2 p m (mprod n (mget A) Y) (mget B) =
    frob2 p n (mget A) + frob2 p m (mget B)
    - 2 * sum k (fun r => vget Sv r * sum m (fun j => sum n (fun a => mget Vh r a * Y a j) * mget U j r)).
  Proof.
    intros HY.
    assert (E1 : sum p (fun t => sum m (fun j => mprod n (mget A) Y t j ^ 2)) = frob2 p n (mget A)).
    { apply sum_ext. intros t Ht. unfold mprod.
      transitivity (sum n (fun a => mget A t a * mget A t a)); [|apply sum_ext; intros; ring].
      rewrite <- (parseval_rows _ _ HY). apply sum_ext. intros; ring. }
    assert (E2 : sum p (fun t => sum m (fun j => mprod n (mget A) Y t j * mget B t j)) =
                 sum k (fun r => vget Sv r * sum m (fun j => sum n (fun a => mget Vh r a * Y a j) * mget U j r))).
    { transitivity (sum m (fun j => sum n (fun a => mget C j a * Y a j))).
      - transitivity (sum p (fun t => sum m (fun j => sum n (fun a => mget B t j * mget A t a * Y a j)))).
        { apply sum_ext. intros t Ht. apply sum_ext. intros j Hj. unfold mprod.
          rewrite <- sum_scal_r. apply sum_ext. intros; ring. }
        rewrite sum_swap. apply sum_ext. intros j Hj. rewrite sum_swap. apply sum_ext. intros a Ha.
        rewrite C_entry by auto. now rewrite <- sum_scal_r.
      - transitivity (sum m (fun j => sum n (fun a => sum k (fun r => vget Sv r * (mget Vh r a * Y a j * mget U j r))))).
        { apply sum_ext. intros j Hj. apply sum_ext. intros a Ha. rewrite (svd_product HS) by auto.
          rewrite <- sum_scal_r. apply sum_ext. intros; ring. }
        transitivity (sum m (fun j => sum k (fun r => vget Sv r * (sum n (fun a => mget Vh r a * Y a j) * mget U j r)))).
        { apply sum_ext. intros j Hj. rewrite sum_swap. apply sum_ext. intros r Hr.
          rewrite sum_scal_l, sum_scal_r. reflexivity. }
        rewrite sum_swap. apply sum_ext. intros. now rewrite sum_scal_l. }
    unfold dist2.
    transitivity (sum p (fun t => sum m (fun j => mprod n (mget A) Y t j ^ 2)) + frob2 p m (mget B)
       - 2 * sum p (fun t => sum m (fun j => mprod n (mget A) Y t j * mget B t j))).
    - unfold frob2. rewrite <- sum_scal_l, <- sum_plus, <- sum_minus. apply sum_ext. intros t Ht.
      rewrite <- sum_scal_l, <- sum_plus, <- sum_minus. apply sum_ext. intros; ring.
    - rewrite E1, E2. ring.
  Qed.

  Lemma procrustes_bound Y r : orth_rows n m Y -> (r < k)%nat ->
    sum m (fun j => sum n (fun a => mget Vh r a * Y a j) * mget U j r) <= 1.
  Proof.
    intros HY Hr.
    pose proof (cauchy_schwarz m (fun j => sum n (fun a => mget Vh r a * Y a j)) (fun j => mget U j r)) as CS.
    cbv beta in CS.
    assert (E1 : sum m (fun j => sum n (fun a => mget Vh r a * Y a j) ^ 2) = 1).
    { transitivity (sum n (fun a => mget Vh r a * mget Vh r a)).
      - rewrite <- (parseval_rows _ _ HY). apply sum_ext. intros; ring.
      - rewrite (svd_V_orth HS) by auto. apply delta_refl. }
    assert (E2 : sum m (fun j => mget U j r ^ 2) = 1).
    { transitivity (sum m (fun j => mget U j r * mget U j r)); [apply sum_ext; intros; ring|].
      rewrite (svd_U_orth HS) by auto. apply delta_refl. }
    rewrite E1, E2 in CS. nra.
  Qed.

  Variable X : nat -> nat -> R.
  Hypothesis HX : forall a j, (a < n)%nat -> (j < m)%nat ->
    X a j = sum k (fun r => mget Vh r a * mget U j r).

  Lemma procrustes_rows : (n <= m)%nat -> orth_rows n m X.
  Proof.
    intros Hnm a b Ha Hb. assert (Hk : k = n) by (unfold k; lia).
    transitivity (sum k (fun r => mget Vh r a * mget Vh r b)).
    - rewrite <- (parseval_cols _ _ (svd_U_orth HS)). apply sum_ext. intros j Hj.
      rewrite !HX by auto. reflexivity.
    - assert (Ho : orth_rows n n (mget Vh)).
      { intros r s Hr Hs. apply (svd_V_orth HS); lia. }
      rewrite Hk. exact (orth_square Ho Ha Hb).
  Qed.

  Lemma procrustes_attained r : (n <= m)%nat -> (r < k)%nat ->
    sum m (fun j => sum n (fun a => mget Vh r a * X a j) * mget U j r) = 1.
  Proof.
    intros Hnm Hr.
    transitivity (sum m (fun j => sum k (fun s => delta r s * mget U j s) * mget U j r)).
    - apply sum_ext. intros j Hj. f_equal.
      transitivity (sum n (fun a => sum k (fun s => mget U j s * (mget Vh s a * mget Vh r a)))).
      + apply sum_ext. intros a Ha. rewrite HX by auto. rewrite <- sum_scal_l. apply sum_ext. intros; ring.
      + rewrite sum_swap. apply sum_ext. intros s Hs. rewrite sum_scal_l.
        rewrite (svd_V_orth HS) by auto. rewrite delta_sym. ring.
    - rewrite (@orth_cols_coeff m k (mget U) (delta r) r); auto; [apply delta_refl|apply (svd_U_orth HS)].
  Qed.

  Lemma procrustes_optimal : (n <= m)%nat -> forall Y, orth_rows n m Y ->
    dist2 p m (mprod n (mget A) X) (mget B) <= dist2 p m (mprod n (mget A) Y) (mget B).
  Proof.
    intros Hnm Y HY.
    rewrite (procrustes_expand HY), (procrustes_expand (procrustes_rows Hnm)).
    enough (sum k (fun r => vget Sv r * sum m (fun j => sum n (fun a => mget Vh r a * Y a j) * mget U j r)) <=
            sum k (fun r => vget Sv r * sum m (fun j => sum n (fun a => mget Vh r a * X a j) * mget U j r))) by lra.
    apply sum_le. intros r Hr. apply Rmult_le_compat_l.
    - apply (svd_S_nonneg HS); auto.
    - rewrite (procrustes_attained Hnm Hr). now apply procrustes_bound.
  Qed.
End Orth.

Theorem orthogonal_solve_ok svd p n m A B U Sv Vh :
  is_mat p n A -> is_mat p m B -> (0 < n <= m)%nat ->
  let BA := tab2 m n (fun j a => sum p (fun t => mget (transp B) j t * mget A t a)) in
  svd BA = Ok (U, Sv, Vh) -> is_svd m n BA U Sv Vh ->
  (forall r, (r < n)%nat -> INR m * vget Sv 0 * / 10 ^ 16 < vget Sv r) ->
  exists X, orthogonal_solve svd A B = Ok X /\ is_mat n m X /\ orth_rows n m (mget X) /\
    forall Y, orth_rows n m Y ->
      dist2 p m (mprod n (mget A) (mget X)) (mget B) <= dist2 p m (mprod n (mget A) Y) (mget B).
Proof.
  intros HA HB Hnm BA E HS Hkeep.
  destruct (@orth_solve_entries p n m A B U Sv Vh HA HB HS svd E) as (X & EX & HXm & HX); [lia|].
  assert (HX' : forall a j, (a < n)%nat -> (j < m)%nat ->
     mget X a j = sum (Nat.min m n) (fun r => mget Vh r a * mget U j r)).
  { intros a j Ha Hj. rewrite HX by auto. apply sum_ext. intros r Hr.
    replace (Nat.max m (Nat.min m n)) with m by lia.
    destruct (Rlt_dec _ _) as [|N]; [ring|]. exfalso. apply N. apply Hkeep. lia. }
  exists X. split; auto. split; auto.
  split; [eapply procrustes_rows; eauto; lia|].
  eapply procrustes_optimal; eauto. lia.
Qed.

Theorem orthogonal_solve_truncated svd p n m A B U Sv Vh r0 :
  is_mat p n A -> is_mat p m B -> (0 < n <= m)%nat ->
  let BA := tab2 m n (fun j a => sum p (fun t => mget (transp B) j t * mget A t a)) in
  svd BA = Ok (U, Sv, Vh) -> is_svd m n BA U Sv Vh ->
  (r0 < n)%nat -> vget Sv r0 <= INR m * vget Sv 0 * / 10 ^ 16 ->
  exists X, orthogonal_solve svd A B = Ok X /\ is_mat n m X /\ not (orth_rows n m (mget X)).
Proof.
  intros HA HB Hnm BA E HS Hr0 Hle.
  destruct (@orth_solve_entries p n m A B U Sv Vh HA HB HS svd E) as (X & EX & HXm & HX); [lia|].
  exists X. split; auto. split; auto. intros HO.
  assert (Hk : Nat.min m n = n) by lia. rewrite Hk in *.
  replace (Nat.max m n) with m in * by lia.
  assert (Z : forall j, (j < m)%nat -> sum n (fun a => mget Vh r0 a * mget X a j) = 0).
  { intros j Hj.
    transitivity (sum n (fun r => (if Rlt_dec (INR m * vget Sv 0 * / 10 ^ 16) (vget Sv r) then 1 else 0)
        * mget U j r * delta r0 r)).
    - transitivity (sum n (fun a => sum n (fun r =>
        (if Rlt_dec (INR m * vget Sv 0 * / 10 ^ 16) (vget Sv r) then 1 else 0) * mget U j r
          * (mget Vh r0 a * mget Vh r a)))).
      + apply sum_ext. intros a Ha. rewrite HX by auto. rewrite <- sum_scal_l. apply sum_ext. intros; ring.
      + rewrite sum_swap. apply sum_ext. intros r Hr. rewrite sum_scal_l. f_equal.
        apply (svd_V_orth HS); lia.
    - rewrite (@sumf_single _ r0); auto.
      + destruct (Rlt_dec _ _); [lra|]. ring.
      + intros r Hr Hne. rewrite delta_neq by auto. ring. }
  assert (One : sum n (fun a => mget Vh r0 a * mget Vh r0 a) = 1).
  { rewrite (svd_V_orth HS) by lia. apply delta_refl. }
  rewrite <- (parseval_rows _ _ HO) in One.
  rewrite sum_zero in One; [lra|]. intros j Hj. rewrite Z by auto. ring.
Qed.

Lemma svd_zero n m A U Sv Vh : is_svd n m A U Sv Vh ->
  (forall i j, (i < n)%nat -> (j < m)%nat -> mget A i j = 0) ->
  forall r, (r < Nat.min n m)%nat -> vget Sv r = 0.
Proof.
  intros HS Hz r Hr.
  transitivity (sum n (fun i => sum (Nat.min n m) (fun q => (vget Sv r * delta r q) * mget U i q) * mget U i r)).
  - rewrite (@orth_cols_coeff n (Nat.min n m) (mget U) (fun q => vget Sv r * delta r q) r (svd_U_orth HS) Hr).
    rewrite delta_refl. ring.
  - apply sum_zero. intros i Hi.
    assert (E : sum m (fun j => mget A i j * mget Vh r j) = mget U i r * vget Sv r).
    { rewrite <- (@orth_rows_coeff (Nat.min n m) m (mget Vh) (fun q => mget U i q * vget Sv q) r (svd_V_orth HS) Hr).
      apply sum_ext. intros j Hj. now rewrite (svd_product HS). }
    rewrite sum_zero in E by (intros; rewrite Hz by auto; ring).
    transitivity ((mget U i r * vget Sv r) * mget U i r); [|rewrite <- E; ring].
    f_equal. transitivity (sum (Nat.min n m) (fun q => delta r q * (vget Sv r * mget U i q))).
    + apply sum_ext. intros; ring.
    + rewrite sum_delta_l by auto. ring.
Qed.

Theorem orthogonal_solve_zero svd p n m A B U Sv Vh :
  is_mat p n A -> is_mat p m B -> (0 < Nat.min m n)%nat ->
  let BA := tab2 m n (fun j a => sum p (fun t => mget (transp B) j t * mget A t a)) in
  svd BA = Ok (U, Sv, Vh) -> is_svd m n BA U Sv Vh ->
  (forall j a, (j < m)%nat -> (a < n)%nat -> sum p (fun t => mget B t j * mget A t a) = 0) ->
  orthogonal_solve svd A B = Ok (np_zeros [n; m]).
Proof.
  intros HA HB Hnm BA E HS Hz.
  destruct (@orth_solve_entries p n m A B U Sv Vh HA HB HS svd E) as (X & EX & HXm & HX); [lia|].
  rewrite EX. f_equal. apply (@mat_ext n m); auto using is_mat_zeros.
  assert (HS0 : forall r, (r < Nat.min m n)%nat -> vget Sv r = 0).
  { apply (svd_zero HS). intros j a Hj Ha. unfold BA. rewrite mget_tab2 by auto.
    rewrite <- (Hz j a) by auto. apply sum_ext. intros. now rewrite (mget_transp HB). }
  intros a j Ha Hj. rewrite mget_zeros by auto. rewrite HX by auto. apply sum_zero.
  intros r Hr. rewrite !HS0 by lia. destruct (Rlt_dec _ _) as [L|]; [lra|ring].
Qed.

(** *** ridge *)
Lemma concat1_ok n m q A B : is_mat n m A -> is_mat n q B ->
  exists C, concat1 A B = Ok C /\ is_mat n (m + q) C /\
    (forall i j, (i < n)%nat -> (j < m)%nat -> mget C i j = mget A i j) /\
    (forall i j, (i < n)%nat -> (j < q)%nat -> mget C i (m + j) = mget B i j).
Proof.
  intros [HA SA] [HB SB]. unfold concat1. rewrite SA, SB, Nat.eqb_refl.
  eexists; split; [reflexivity|]. split; auto. split; intros i j Hi Hj; rewrite mget_tab2 by lia.
  - destruct (Nat.ltb_spec j m); [reflexivity|lia].
  - destruct (Nat.ltb_spec (m + j) m); [lia|]. f_equal. lia.
Qed.

Lemma sum_split n m f : sum (n + m) f = sum n f + sum m (fun j => f (n + j)%nat).
Proof. rewrite seq_app, sumf_app. f_equal. cbn. apply sum_shift. Qed.

Lemma ridge_ok solve lam n m p A B : is_mat n m A -> is_mat p m B -> 0 <= lam ->
  exists A' B', add_rightsolve_ridge solve lam A B = solve A' B' /\
    is_mat n (m + n) A' /\ is_mat p (m + n) B' /\
    (forall X, dist2 p (m + n) (mprod n X (mget A')) (mget B') =
               dist2 p m (mprod n X (mget A)) (mget B) + lam * frob2 p n X) /\
    (forall i a, (i < p)%nat -> (a < n)%nat ->
       sum (m + n) (fun j => mget B' i j * mget A' a j) = sum m (fun j => mget B i j * mget A a j)).
Proof.
  intros HA HB Hl. unfold add_rightsolve_ridge, shape2. rewrite (proj2 HA), (proj2 HB). cbn [bind].
  assert (HI : is_mat n n (np_map (Rmult (sqrt lam)) (np_identity n))) by (apply is_mat_np_map; apply is_mat_tab2).
  destruct (concat1_ok HA HI) as (A' & EA & HA' & HA1 & HA2).
  destruct (concat1_ok HB (is_mat_zeros p n)) as (B' & EB & HB' & HB1 & HB2).
  rewrite EA, EB. cbn [bind]. exists A', B'. split; auto. split; auto. split; auto.
  assert (HI' : forall i j, (i < n)%nat -> (j < n)%nat -> mget A' i (m + j) = sqrt lam * delta i j).
  { intros i j Hi Hj. rewrite HA2 by auto. rewrite (@mget_np_map _ n n) by (auto; apply is_mat_tab2).
    unfold np_identity. rewrite mget_tab2 by auto. reflexivity. }
  split.
  - intros X. unfold dist2, frob2. rewrite <- sum_scal_l, <- sum_plus. apply sum_ext. intros i Hi.
    rewrite sum_split. f_equal.
    + apply sum_ext. intros j Hj. rewrite HB1 by auto. do 2 f_equal. apply mprod_ext; auto.
    + rewrite <- sum_scal_l. apply sum_ext. intros j Hj.
      rewrite HB2, mget_zeros by auto.
      assert (E : mprod n X (mget A') i (m + j) = sqrt lam * X i j).
      { unfold mprod. transitivity (sum n (fun k => (sqrt lam * X i k) * delta k j)).
        - apply sum_ext. intros k Hk. rewrite HI' by auto. ring.
        - now rewrite (@sum_delta_r n j (fun k => sqrt lam * X i k)). }
      rewrite E. rewrite Rminus_0_r. rewrite Rpow_mult_distr. f_equal.
      cbn. rewrite Rmult_1_r. now apply sqrt_sqrt.
  - intros i a Hi Ha. rewrite sum_split. rewrite (sum_zero (n := n)).
    + rewrite Rplus_0_r. apply sum_ext. intros j Hj. now rewrite HA1, HB1.
    + intros j Hj. rewrite HB2, mget_zeros by auto. ring.
Qed.

Lemma transp_transp n m a : is_mat n m a -> transp (transp a) = a.
Proof.
  intros H. apply (@mat_ext n m); auto using is_mat_transp.
  intros i j Hi Hj. rewrite (mget_transp (is_mat_transp H)), (mget_transp H); auto.
Qed.

Lemma ridge_orthogonal svd lam n m p A B : is_mat n m A -> is_mat p m B -> 0 <= lam ->
  add_rightsolve_ridge (orthogonal_rightsolve svd) lam A B = orthogonal_rightsolve svd A B.
Proof.
  intros HA HB Hl.
  destruct (ridge_ok (orthogonal_rightsolve svd) HA HB Hl) as (A' & B' & E & HA' & HB' & _ & Hd).
  rewrite E. unfold orthogonal_rightsolve, orthogonal_solve.
  rewrite (transp_transp HB), (transp_transp HB').
  rewrite (@matmul_ok p m n B (transp A)) by auto using is_mat_transp.
  rewrite (@matmul_ok p (m + n) n B' (transp A')) by auto using is_mat_transp.
  do 3 f_equal. apply tab2_ext. intros i a Hi Ha.
  transitivity (sum (m + n) (fun j => mget B' i j * mget A' a j)).
  - apply sum_ext. intros. now rewrite (mget_transp HA').
  - rewrite Hd by auto. apply sum_ext. intros. now rewrite (mget_transp HA).
Qed.

Lemma nonneg_rightsolve_total nnls n m p A B :
  is_mat n m A -> is_mat p m B ->
  (forall i, (i < p)%nat ->
     exists x, nnls (transp A) (row B i) = Ok x /\ is_nnls m n (transp A) (row B i) x) ->
  exists X, non_negative_rightsolve nnls A B = Ok X /\ is_mat p n X /\
    (forall i a, (i < p)%nat -> (a < n)%nat -> 0 <= mget X i a) /\
    (forall Y, (forall i a, (i < p)%nat -> (a < n)%nat -> 0 <= Y i a) ->
       dist2 p m (mprod n (mget X) (mget A)) (mget B) <= dist2 p m (mprod n Y (mget A)) (mget B)).
Proof.
  intros HA HB Hx.
  set (x := fun i => match nnls (transp A) (row B i) with Ok v => v | Err _ => A end).
  assert (Hx' : forall i, (i < p)%nat ->
    nnls (transp A) (row B i) = Ok (x i) /\ is_nnls m n (transp A) (row B i) (x i)).
  { intros i Hi. destruct (Hx i Hi) as (v & E & Hv). unfold x. rewrite E. auto. }
  destruct (nonneg_rightsolve_ok HA HB Hx') as (X & E & HX & Hent).
  exists X. split; auto. split; auto.
  apply (nonneg_rightsolve_opt HA HB (fun i Hi => proj2 (Hx' i Hi)) Hent).
Qed.

Lemma orthogonal_rightsolve_ok svd p n m A B BA U Sv Vh :
  is_mat n p A -> is_mat m p B -> (0 < n <= m)%nat ->
  matmul B (transp A) = Ok BA ->
  svd BA = Ok (U, Sv, Vh) -> is_svd m n BA U Sv Vh ->
  (forall r, (r < n)%nat -> INR m * vget Sv 0 * / 10 ^ 16 < vget Sv r) ->
  exists X, orthogonal_rightsolve svd A B = Ok X /\ is_mat m n X /\ orth_cols m n (mget X) /\
    (forall Y, orth_cols m n Y ->
      dist2 m p (mprod n (mget X) (mget A)) (mget B) <= dist2 m p (mprod n Y (mget A)) (mget B)).
Proof.
  intros HA HB Hnm E ES HS Hkeep.
  rewrite (matmul_ok HB (is_mat_transp HA)) in E. injection E as E.
  destruct (@orthogonal_solve_ok svd p n m (transp A) (transp B) U Sv Vh) as (X & EX & HX & HO & Hopt);
    auto using is_mat_transp.
  { rewrite (transp_transp HB). now rewrite E. }
  { rewrite (transp_transp HB). now rewrite E. }
  unfold orthogonal_rightsolve. rewrite EX. cbn [bind].
  exists (transp X). split; auto. split; auto using is_mat_transp.
  assert (Ht : forall i a, (i < m)%nat -> (a < n)%nat -> mget (transp X) i a = mget X a i).
  { intros. now rewrite (mget_transp HX). }
  split.
  - intros a b Ha Hb. rewrite <- HO by auto. apply sum_ext. intros i Hi. now rewrite !Ht.
  - intros Y HY.
    assert (Edist : forall Z, dist2 p m (mprod n (mget (transp A)) Z) (mget (transp B)) =
                    dist2 m p (mprod n (fun i a => Z a i) (mget A)) (mget B)).
    { intros Z. unfold dist2. rewrite sum_swap. apply sum_ext. intros i Hi. apply sum_ext. intros j Hj.
      rewrite (mget_transp HB) by auto. do 2 f_equal. apply sum_ext. intros a Ha.
      rewrite (mget_transp HA) by auto. ring. }
    specialize (Hopt (fun a i => Y i a) HY). rewrite !Edist in Hopt.
    eapply Rle_trans; [right|exact Hopt]. apply dist2_ext; auto.
    intros. apply mprod_ext; auto.
Qed.

Lemma orthogonal_solve_zero' svd p n m A B BA U Sv Vh :
  is_mat p n A -> is_mat p m B -> (0 < Nat.min m n)%nat ->
  matmul (transp B) A = Ok BA ->
  svd BA = Ok (U, Sv, Vh) -> is_svd m n BA U Sv Vh ->
  (forall j a, (j < m)%nat -> (a < n)%nat -> mget BA j a = 0) ->
  orthogonal_solve svd A B = Ok (np_zeros [n; m]).
Proof.
  intros HA HB Hnm E ES HS Hz. rewrite (matmul_ok (is_mat_transp HB) HA) in E.
  injection E as <-. eapply orthogonal_solve_zero; eauto.
  intros j a Hj Ha. rewrite <- (Hz j a) by auto. rewrite mget_tab2 by auto.
  apply sum_ext. intros. now rewrite (mget_transp HB).
Qed.

Lemma ridge_minimises solve lam n m p A B (feasible : (nat -> nat -> R) -> Prop) :
  is_mat n m A -> is_mat p m B -> 0 <= lam ->
  (forall q A' B', is_mat n q A' -> is_mat p q B' -> exists X, solve A' B' = Ok X /\ is_mat p n X /\
     feasible (mget X) /\
     forall Y, feasible Y -> dist2 p q (mprod n (mget X) (mget A')) (mget B') <= dist2 p q (mprod n Y (mget A')) (mget B')) ->
  exists X, add_rightsolve_ridge solve lam A B = Ok X /\ is_mat p n X /\ feasible (mget X) /\
    forall Y, feasible Y ->
      dist2 p m (mprod n (mget X) (mget A)) (mget B) + lam * frob2 p n (mget X) <=
      dist2 p m (mprod n Y (mget A)) (mget B) + lam * frob2 p n Y.
Proof.
  intros HA HB Hl Hsolve. destruct (ridge_ok solve HA HB Hl) as (A' & B' & E & HA' & HB' & Hd & _).
  destruct (Hsolve _ _ _ HA' HB') as (X & EX & HX & HF & Hopt).
  exists X. rewrite E. repeat (split; auto). intros Y HY. specialize (Hopt Y HY).
  now rewrite !Hd in Hopt.
Qed.

Lemma ridge_rightsolve_ok svd lam n m p A B :
  svd_contract svd -> is_mat n m A -> is_mat p m B -> 0 <= lam ->
  exists X, add_rightsolve_ridge (rightsolve svd) lam A B = Ok X /\ is_mat p n X /\
    forall Y, dist2 p m (mprod n (mget X) (mget A)) (mget B) + lam * frob2 p n (mget X) <=
              dist2 p m (mprod n Y (mget A)) (mget B) + lam * frob2 p n Y.
Proof.
  intros HS HA HB Hl.
  destruct (@ridge_minimises (rightsolve svd) lam n m p A B (fun _ => True)) as (X & E & HX & _ & H); auto.
  - intros q A' B' HA' HB'. destruct (HS _ _ _ HA') as (U & S & V & ES & HSv).
    destruct (rightsolve_ok HA' HB' ES HSv) as (X & EX & HX & _ & H1 & _). exists X. auto.
  - exists X. split; auto.
Qed.

Lemma ridge_nonneg_ok nnls lam n m p A B :
  nnls_contract nnls -> is_mat n m A -> is_mat p m B -> 0 <= lam ->
  exists X, add_rightsolve_ridge (non_negative_rightsolve nnls) lam A B = Ok X /\ is_mat p n X /\
    (forall i a, (i < p)%nat -> (a < n)%nat -> 0 <= mget X i a) /\
    forall Y, (forall i a, (i < p)%nat -> (a < n)%nat -> 0 <= Y i a) ->
      dist2 p m (mprod n (mget X) (mget A)) (mget B) + lam * frob2 p n (mget X) <=
      dist2 p m (mprod n Y (mget A)) (mget B) + lam * frob2 p n Y.
Proof.
  intros HN HA HB Hl.
  apply (@ridge_minimises (non_negative_rightsolve nnls) lam n m p A B
           (fun Z => forall i a, (i < p)%nat -> (a < n)%nat -> 0 <= Z i a)); auto.
  intros q A' B' HA' HB'.
  apply (nonneg_rightsolve_total HA' HB'). intros i Hi.
  apply HN; [now apply is_mat_transp|]. exact (is_vec_row HB' Hi).
Qed.
