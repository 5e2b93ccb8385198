(** The contracts assumed of numpy.linalg.svd, scipy.optimize.nnls and numpy.linalg.qr can be met: every real matrix
    has a singular value decomposition, every non-negative least-squares problem has a solution. *)
From Coq Require Import Lra Psatz IndefiniteDescription.
From Verif Require Export Lin Solves.
Set Implicit Arguments.
Unset Strict Implicit.
Local Open Scope R_scope.

(** ** Positive semidefinite forms: a null vector, or bounded away from zero *)
Definition bil (n : nat) (M : nat -> nat -> R) (x y : nat -> R) : R :=
  sum n (fun i => x i * sum n (fun j => M i j * y j)).
Definition n2 (n : nat) (x : nat -> R) : R := sum n (fun i => x i ^ 2).

Lemma n2_nonneg n x : 0 <= n2 n x.
Proof. apply sum_nonneg. intros. apply pow2_ge_0. Qed.
Lemma n2_zero n x : n2 n x = 0 -> forall i, (i < n)%nat -> x i = 0.
Proof.
  intros H i Hi. assert (x i ^ 2 = 0); [|nra].
  apply (@sum_nonneg_zero n (fun i => x i ^ 2)); auto. intros. apply pow2_ge_0.
Qed.
Lemma n2_ext n x y : (forall i, (i < n)%nat -> x i = y i) -> n2 n x = n2 n y.
Proof. intros H. apply sum_ext. intros. now rewrite H. Qed.
Lemma n2_scal n c x : n2 n (fun i => c * x i) = c ^ 2 * n2 n x.
Proof. unfold n2. rewrite <- sum_scal_l. apply sum_ext. intros. ring. Qed.
Lemma n2_S n x : n2 (S n) x = x 0%nat ^ 2 + n2 n (fun i => x (S i)).
Proof. unfold n2. apply sum_S_first. Qed.

Definition shift (M : nat -> nat -> R) : nat -> nat -> R := fun i j => M (S i) (S j).

Lemma bil_S n M : (forall i, (i < n)%nat -> M (S i) 0%nat = M 0%nat (S i)) -> forall x,
  bil (S n) M x x = x 0%nat ^ 2 * M 0%nat 0%nat
    + 2 * x 0%nat * sum n (fun j => M 0%nat (S j) * x (S j))
    + bil n (shift M) (fun i => x (S i)) (fun i => x (S i)).
Proof.
  intros H x. unfold bil. rewrite sum_S_first, (sum_S_first n (fun j => M 0%nat j * x j)).
  rewrite (@sum_ext n (fun i => x (S i) * sum (S n) (fun j => M (S i) j * x j))
    (fun i => x 0%nat * (M 0%nat (S i) * x (S i)) + x (S i) * sum n (fun j => shift M i j * x (S j)))).
  - rewrite sum_plus, sum_scal_l. ring.
  - intros i Hi. rewrite sum_S_first, H by auto. unfold shift. ring.
Qed.

Lemma bil_rank_one n M b c x :
  bil n (fun i j => M i j - b i * b j * c) x x = bil n M x x - c * sum n (fun i => b i * x i) ^ 2.
Proof.
  unfold bil.
  rewrite (@sum_ext n _ (fun i => x i * sum n (fun j => M i j * x j) - (c * sum n (fun j => b j * x j)) * (b i * x i))).
  - rewrite sum_minus, sum_scal_l. ring.
  - intros i Hi.
    rewrite (@sum_ext n (fun j => (M i j - b i * b j * c) * x j) (fun j => M i j * x j - (c * b i) * (b j * x j))).
    + rewrite sum_minus, sum_scal_l. ring.
    + intros. ring.
Qed.

Lemma psd_null_or_bounded n : forall M,
  (forall i j, (i < n)%nat -> (j < n)%nat -> M i j = M j i) ->
  (forall x, 0 <= bil n M x x) ->
  (exists x, n2 n x <> 0 /\ forall i, (i < n)%nat -> sum n (fun j => M i j * x j) = 0) \/
  (exists c, 0 < c /\ forall x, c * n2 n x <= bil n M x x).
Proof.
  induction n as [|n IH]; intros M Hsym Hpsd.
  { right. exists 1. split; [lra|]. intros x. unfold n2, bil. cbn. lra. }
  assert (Hs0 : forall i, (i < n)%nat -> M (S i) 0%nat = M 0%nat (S i)) by (intros; apply Hsym; lia).
  assert (Hq := @bil_S n M Hs0).
  set (a := M 0%nat 0%nat) in *.
  assert (Ha : 0 <= a).
  { specialize (Hpsd (fun i => delta 0 i)). rewrite Hq in Hpsd. cbv beta in Hpsd. rewrite delta_refl in Hpsd.
    rewrite (sum_zero (n := n) (f := fun j => M 0%nat (S j) * delta 0 (S j))) in Hpsd.
    2:{ intros. rewrite delta_neq by lia. ring. }
    replace (bil n (shift M) (fun i => delta 0 (S i)) (fun i => delta 0 (S i))) with 0 in Hpsd; [lra|].
    symmetry. apply sum_zero. intros. rewrite delta_neq by lia. ring. }
  destruct (Req_dec a 0) as [Hz|Hnz].
  - left. exists (fun i => delta 0 i). split.
    { rewrite n2_S, delta_refl. pose proof (n2_nonneg n (fun i => delta 0 (S i))). nra. }
    assert (Hrow : forall j, (j < n)%nat -> M 0%nat (S j) = 0).
    { intros j Hj. set (b := M 0%nat (S j)). set (d := M (S j) (S j)).
      assert (Hall : forall t, 0 <= 2 * t * b + d).
      { intros t. specialize (Hpsd (fun i => match i with O => t | S i => delta j i end)).
        rewrite Hq in Hpsd. cbv beta iota in Hpsd. rewrite Hz in Hpsd.
        replace (sum n (fun j0 => M 0%nat (S j0) * delta j j0)) with b in Hpsd.
        2:{ symmetry. rewrite (@sum_ext n _ (fun k => delta j k * M 0%nat (S k))) by (intros; ring). now rewrite sum_delta_l. }
        replace (bil n (shift M) (fun i => delta j i) (fun i => delta j i)) with d in Hpsd; [lra|].
        unfold bil. rewrite sum_delta_l by auto.
        rewrite (@sum_ext n _ (fun k => delta j k * shift M j k)) by (intros; ring). now rewrite sum_delta_l. }
      destruct (Req_dec b 0) as [?|Hb]; auto. exfalso.
      specialize (Hall (- (d + 1) / (2 * b))).
      replace (2 * (- (d + 1) / (2 * b)) * b + d) with (-1) in Hall by (field; auto). lra. }
    intros i Hi. rewrite (@sum_ext (S n) _ (fun k => delta 0 k * M i k)) by (intros; ring).
    rewrite sum_delta_l by lia. destruct i as [|i]; auto. rewrite Hs0, Hrow by lia. reflexivity.
  - assert (Hpos : 0 < a) by lra.
    set (b := fun i => M 0%nat (S i)).
    set (M' := fun i j => shift M i j - b i * b j * / a).
    assert (Hq' : forall x, bil (S n) M x x =
       a * (x 0%nat + sum n (fun j => b j * x (S j)) / a) ^ 2 + bil n M' (fun i => x (S i)) (fun i => x (S i))).
    { intros x. rewrite Hq. unfold M'. rewrite bil_rank_one. fold b. unfold b. field. auto. }
    destruct (IH M') as [(x & Hx & Hk)|(c & Hc & Hb)].
    + intros i j Hi Hj. unfold M', shift. rewrite Hsym by lia. ring.
    + intros x. specialize (Hpsd (fun i => match i with O => - sum n (fun j => b j * x j) / a | S i => x i end)).
      rewrite Hq' in Hpsd. cbv beta iota in Hpsd.
      replace (- sum n (fun j => b j * x j) / a + sum n (fun j => b j * x j) / a) with 0 in Hpsd by (field; auto).
      change (bil n M' (fun i => x i) (fun i => x i)) with (bil n M' x x) in Hpsd. lra.
    + left. exists (fun i => match i with O => - sum n (fun j => b j * x j) / a | S i => x i end). split.
      * rewrite n2_S. cbv beta iota. change (n2 n (fun i => x i)) with (n2 n x).
        pose proof (n2_nonneg n x). pose proof (pow2_ge_0 (- sum n (fun j => b j * x j) / a)). lra.
      * intros i Hi. rewrite sum_S_first. cbv beta iota. destruct i as [|i].
        -- fold a. unfold b. field. auto.
        -- rewrite Hs0 by lia. fold (b i). specialize (Hk i ltac:(lia)). unfold M' in Hk.
           rewrite (@sum_ext n _ (fun j => shift M i j * x j - (b i * / a) * (b j * x j))) in Hk by (intros; ring).
           rewrite sum_minus, sum_scal_l in Hk. unfold shift in Hk.
           transitivity (sum n (fun j => M (S i) (S j) * x j) - b i * / a * sum n (fun j => b j * x j)); auto. field. auto.
    + right. set (B := n2 n b).
      assert (HB : 0 <= B) by apply n2_nonneg.
      assert (Hia : 0 < / a) by (apply Rinv_0_lt_compat; auto).
      assert (Hic : 0 < / c) by (apply Rinv_0_lt_compat; auto).
      set (D := 2 * / a + (1 + 2 * B * (/ a) ^ 2) * / c).
      assert (HD : 0 < D).
      { unfold D. assert (0 <= B * (/ a) ^ 2) by (apply Rmult_le_pos; [auto|apply pow2_ge_0]). nra. }
      exists (/ D). split; [apply Rinv_0_lt_compat; auto|]. intros x.
      rewrite Hq', n2_S. set (y := fun i => x (S i)) in *. set (p := sum n (fun j => b j * x (S j))).
      set (t := x 0%nat + p / a). set (q := bil n M' y y).
      assert (Hcs : p ^ 2 <= B * n2 n y) by apply cauchy_schwarz.
      assert (Hy : c * n2 n y <= q) by apply Hb.
      assert (Hy0 : 0 <= n2 n y) by apply n2_nonneg.
      assert (Hx0 : x 0%nat ^ 2 <= 2 * t ^ 2 + 2 * (p ^ 2 * (/ a) ^ 2)).
      { replace (x 0%nat) with (t - p * / a) by (unfold t, Rdiv; ring).
        pose proof (pow2_ge_0 (t + p * / a)). nra. }
      assert (Hy' : n2 n y <= / c * q).
      { apply Rmult_le_reg_l with c; auto. rewrite <- Rmult_assoc, Rinv_r by lra. lra. }
      assert (Ht : t ^ 2 = / a * (a * t ^ 2)) by (field; auto).
      assert (0 <= q) by nra.
      assert (H1 : p ^ 2 * (/ a) ^ 2 <= B * (/ a) ^ 2 * n2 n y).
      { replace (B * (/ a) ^ 2 * n2 n y) with (B * n2 n y * (/ a) ^ 2) by ring.
        apply Rmult_le_compat_r; [apply pow2_ge_0|auto]. }
      assert (H2 : (1 + 2 * B * (/ a) ^ 2) * n2 n y <= (1 + 2 * B * (/ a) ^ 2) * (/ c * q)).
      { apply Rmult_le_compat_l; auto. assert (0 <= B * (/ a) ^ 2) by (apply Rmult_le_pos; [auto|apply pow2_ge_0]). lra. }
      assert (H3 : 0 <= a * t ^ 2) by (apply Rmult_le_pos; [lra|apply pow2_ge_0]).
      apply Rmult_le_reg_l with D; auto. rewrite <- Rmult_assoc, Rinv_r, Rmult_1_l by lra.
      unfold D.
      assert (H4 : 0 <= / a * q) by nra.
      assert (H5 : 0 <= (1 + 2 * B * (/ a) ^ 2) * / c * (a * t ^ 2)).
      { assert (0 <= B * (/ a) ^ 2) by (apply Rmult_le_pos; [auto|apply pow2_ge_0]).
        apply Rmult_le_pos; auto. apply Rmult_le_pos; lra. }
      nra.
Qed.

(** ** The largest singular value is attained *)
Definition mv (m : nat) (A : nat -> nat -> R) (x : nat -> R) (i : nat) : R := sum m (fun j => A i j * x j).
Definition tmv (n : nat) (A : nat -> nat -> R) (y : nat -> R) (j : nat) : R := sum n (fun i => A i j * y i).

Lemma mv_scal m A c x i : mv m A (fun j => c * x j) i = c * mv m A x i.
Proof. unfold mv. rewrite <- sum_scal_l. apply sum_ext. intros. ring. Qed.
Lemma mv_tmv n m A x y : sum n (fun i => y i * mv m A x i) = sum m (fun j => x j * tmv n A y j).
Proof.
  unfold mv, tmv.
  rewrite (@sum_ext n _ (fun i => sum m (fun j => y i * (A i j * x j)))) by (intros; now rewrite sum_scal_l).
  rewrite sum_swap. apply sum_ext. intros j Hj. rewrite <- sum_scal_l. apply sum_ext. intros. ring.
Qed.
Lemma n2_mv n m A x : n2 n (mv m A x) = sum m (fun j => x j * tmv n A (mv m A x) j).
Proof. rewrite <- mv_tmv. unfold n2. apply sum_ext. intros. ring. Qed.
Lemma n2_mv_bound n m A x : n2 n (mv m A x) <= frob2 n m A * n2 m x.
Proof.
  unfold frob2. rewrite <- sum_scal_r. apply sum_le. intros i Hi. unfold mv.
  apply cauchy_schwarz.
Qed.
Lemma n2_unit n x : n2 n x <> 0 -> n2 n (fun i => / sqrt (n2 n x) * x i) = 1.
Proof.
  intros H. pose proof (n2_nonneg n x). rewrite n2_scal.
  rewrite <- (sqrt_sqrt (n2 n x)) at 2 by auto.
  assert (sqrt (n2 n x) <> 0) by (apply Rgt_not_eq, sqrt_lt_R0; lra). field. auto.
Qed.

Lemma top_singular n m A : (1 <= m)%nat ->
  exists v s, n2 m v = 1 /\ 0 <= s /\ (forall j, (j < m)%nat -> tmv n A (mv m A v) j = s ^ 2 * v j) /\
    forall x, n2 n (mv m A x) <= s ^ 2 * n2 m x.
Proof.
  intros Hm.
  set (E := fun r => exists x, n2 m x = 1 /\ r = n2 n (mv m A x)).
  assert (He : n2 m (fun i => delta 0 i) = 1).
  { unfold n2. rewrite (@sum_ext m _ (fun i => delta 0 i * delta 0 i)) by (intros; ring).
    rewrite sum_delta_l by lia. apply delta_refl. }
  destruct (completeness E) as (lam & Hub & Hleast).
  { exists (frob2 n m A). intros r (x & Hx & ->). pose proof (n2_mv_bound n m A x). rewrite Hx in H. lra. }
  { exists (n2 n (mv m A (fun i => delta 0 i))). exists (fun i => delta 0 i). auto. }
  assert (Hbound : forall x, n2 n (mv m A x) <= lam * n2 m x).
  { intros x. destruct (Req_dec (n2 m x) 0) as [Hz|Hz].
    - rewrite Hz. pose proof (n2_mv_bound n m A x) as H. rewrite Hz in H. lra.
    - pose proof (n2_nonneg m x) as H0. set (c := / sqrt (n2 m x)).
      assert (H1 : n2 n (mv m A (fun i => c * x i)) <= lam).
      { apply Hub. exists (fun i => c * x i). split; auto. apply n2_unit; auto. }
      rewrite (n2_ext (y := fun i => c * mv m A x i)) in H1 by (intros; apply mv_scal).
      rewrite n2_scal in H1.
      assert (Hc : c ^ 2 * n2 m x = 1).
      { unfold c. rewrite <- n2_scal. apply n2_unit; auto. }
      apply Rmult_le_reg_l with (c ^ 2).
      + assert (0 < c); [|nra]. unfold c. apply Rinv_0_lt_compat, sqrt_lt_R0. lra.
      + replace (c ^ 2 * (lam * n2 m x)) with (lam * (c ^ 2 * n2 m x)) by ring. rewrite Hc. lra. }
  assert (Hlam : 0 <= lam).
  { pose proof (Hbound (fun i => delta 0 i)) as H. rewrite He in H. pose proof (n2_nonneg n (mv m A (fun i => delta 0 i))). lra. }
  set (M := fun i j => lam * delta i j - sum n (fun k => A k i * A k j)).
  assert (HM : forall x i, (i < m)%nat -> sum m (fun j => M i j * x j) = lam * x i - tmv n A (mv m A x) i).
  { intros x i Hi. unfold M.
    rewrite (@sum_ext m _ (fun j => lam * (delta i j * x j) - sum n (fun k => A k i * A k j) * x j)) by (intros; ring).
    rewrite sum_minus, sum_scal_l, sum_delta_l by auto. f_equal.
    unfold tmv, mv.
    rewrite (@sum_ext m _ (fun j => sum n (fun k => A k i * (A k j * x j)))).
    - rewrite sum_swap. apply sum_ext. intros k Hk. now rewrite sum_scal_l.
    - intros j Hj. rewrite <- sum_scal_r. apply sum_ext. intros; ring. }
  assert (Hbil : forall x, bil m M x x = lam * n2 m x - n2 n (mv m A x)).
  { intros x. unfold bil. rewrite (@sum_ext m _ (fun i => lam * x i ^ 2 - x i * tmv n A (mv m A x) i)).
    - rewrite sum_minus, sum_scal_l, n2_mv. reflexivity.
    - intros i Hi. rewrite HM by auto. ring. }
  destruct (@psd_null_or_bounded m M) as [(x & Hx & Hk)|(c & Hc & Hb)].
  - intros i j Hi Hj. unfold M. rewrite delta_sym. f_equal. apply sum_ext. intros; ring.
  - intros x. rewrite Hbil. specialize (Hbound x). lra.
  - set (c := / sqrt (n2 m x)). exists (fun i => c * x i), (sqrt lam).
    assert (Hs : sqrt lam ^ 2 = lam) by (rewrite <- Rsqr_pow2; apply Rsqr_sqrt; auto).
    rewrite Hs. repeat split; auto.
    + apply n2_unit; auto.
    + apply sqrt_pos.
    + intros j Hj. specialize (Hk j Hj). rewrite HM in Hk by auto.
      unfold tmv. rewrite (@sum_ext n _ (fun i => c * (A i j * mv m A x i))).
      * rewrite sum_scal_l. fold (tmv n A (mv m A x) j). replace (tmv n A (mv m A x) j) with (lam * x j) by lra. ring.
      * intros i Hi. rewrite mv_scal. ring.
  - exfalso. assert (lam <= lam - c); [|lra]. apply Hleast. intros r (x & Hx & ->).
    specialize (Hb x). rewrite Hbil, Hx in Hb. lra.
Qed.

(** ** Reflections *)
Lemma reflection n u : n2 (S n) u = 1 -> exists H : nat -> nat -> R,
  (forall i j, H i j = H j i) /\
  (forall i j, (i < S n)%nat -> (j < S n)%nat -> mprod (S n) H H i j = delta i j) /\
  (forall i, (i < S n)%nat -> H i 0%nat = u i).
Proof.
  intros Hu. destruct (Req_dec (u 0%nat) 1) as [H1|H1].
  - exists delta. split; [|split].
    + apply delta_sym.
    + intros i j Hi Hj. unfold mprod. now rewrite sum_delta_l.
    + intros i Hi. rewrite n2_S, H1 in Hu. destruct i as [|i]; [rewrite delta_refl; auto|].
      rewrite delta_neq by lia. symmetry. apply (@n2_zero n (fun i => u (S i))); [lra|lia].
  - set (w := fun i => u i - delta 0 i).
    assert (Hw0 : w 0%nat = u 0%nat - 1) by (unfold w; rewrite delta_refl; reflexivity).
    assert (Hw : n2 (S n) w = 2 * (1 - u 0%nat)).
    { rewrite n2_S in *. rewrite Hw0.
      rewrite (n2_ext (y := fun i => u (S i))) by (intros; unfold w; rewrite delta_neq by lia; ring).
      nra. }
    set (g := n2 (S n) w) in *. assert (Hg : g <> 0) by lra.
    exists (fun i j => delta i j - 2 * w i * w j * / g). split; [|split].
    + intros i j. rewrite delta_sym. ring.
    + intros i j Hi Hj. unfold mprod.
      rewrite (@sum_ext (S n) _ (fun k => delta i k * (delta k j - 2 * w k * w j * / g)
         - 2 * w i * / g * (w k * delta k j) + 4 * w i * w j * / g * / g * (w k ^ 2))) by (intros; ring).
      rewrite sum_plus, sum_minus, !sum_scal_l, sum_delta_l, sum_delta_r by auto. fold (n2 (S n) w). fold g. field. auto.
    + intros i Hi. rewrite Hw0. rewrite delta_sym. unfold w. rewrite Hw. field. lra.
Qed.

(** ** Singular value decompositions exist *)
Definition has_svd (n m : nat) (A : nat -> nat -> R) : Prop :=
  exists (U : nat -> nat -> R) (s : nat -> R) (V : nat -> nat -> R),
    orth_cols n (Nat.min n m) U /\ orth_rows (Nat.min n m) m V /\
    (forall r, (r < Nat.min n m)%nat -> 0 <= s r) /\
    (forall r t, (r <= t < Nat.min n m)%nat -> s t <= s r) /\
    forall i j, (i < n)%nat -> (j < m)%nat -> A i j = sum (Nat.min n m) (fun r => U i r * s r * V r j).

Definition up (U : nat -> nat -> R) (i j : nat) : R :=
  match i, j with O, O => 1 | S i, S j => U i j | _, _ => 0 end.

Lemma up_orth_cols n k U : orth_cols n k U -> orth_cols (S n) (S k) (up U).
Proof.
  intros H a b Ha Hb. rewrite sum_S_first. destruct a as [|a], b as [|b]; cbn [up].
  - rewrite sum_zero by (intros; ring). rewrite delta_refl. ring.
  - rewrite sum_zero by (intros; ring). rewrite delta_neq by lia. ring.
  - rewrite sum_zero by (intros; ring). rewrite delta_neq by lia. ring.
  - rewrite H by lia. replace (delta (S a) (S b)) with (delta a b) by reflexivity. ring.
Qed.

Lemma reflect_orth_cols n k H U : (forall i j, H i j = H j i) ->
  (forall i j, (i < n)%nat -> (j < n)%nat -> mprod n H H i j = delta i j) ->
  orth_cols n k U -> orth_cols n k (mprod n H U).
Proof.
  intros Hs Hi HU a b Ha Hb. rewrite <- (HU a b Ha Hb).
  assert (HO : orth_cols n n H).
  { intros x y Hx Hy. rewrite <- Hi by auto. unfold mprod. apply sum_ext. intros. now rewrite (Hs x). }
  unfold mprod.
  rewrite <- (@parseval_cols n n H (fun r => U r a) (fun r => U r b) HO).
  apply sum_ext. intros i Hi'. f_equal; apply sum_ext; intros; ring.
Qed.

Lemma svd_exists_fun n : forall m A, has_svd n m A.
Proof.
  induction n as [|n IH]; intros m A.
  { exists (fun _ _ => 0), (fun _ => 0), (fun _ _ => 0). cbn. repeat split; try (intros; lia); intros ? ?; lia. }
  destruct m as [|m].
  { exists (fun _ _ => 0), (fun _ => 0), (fun _ _ => 0). cbn. repeat split; try (intros; lia); intros ? ?; lia. }
  destruct (@top_singular (S n) (S m) A) as (v & s & Hv & Hs & Hvs & Hmax); [lia|].
  destruct (Req_dec s 0) as [Hz|Hnz].
  { assert (HA : forall i j, (i < S n)%nat -> (j < S m)%nat -> A i j = 0).
    { intros i j Hi Hj. specialize (Hmax (fun k => delta j k)). rewrite Hz in Hmax.
      assert (E : n2 (S n) (mv (S m) A (fun k => delta j k)) = 0).
      { pose proof (n2_nonneg (S n) (mv (S m) A (fun k => delta j k))). lra. }
      pose proof (n2_zero E Hi) as E'. unfold mv in E'.
      rewrite (@sum_ext (S m) _ (fun k => delta j k * A i k)) in E' by (intros; ring).
      now rewrite sum_delta_l in E' by auto. }
    exists delta, (fun _ => 0), delta. repeat split.
    - intros a b Ha Hb. rewrite (@sum_ext (S n) _ (fun i => delta a i * delta i b)) by (intros; now rewrite (delta_sym _ a)).
      rewrite sum_delta_l by lia. reflexivity.
    - intros a b Ha Hb. rewrite (@sum_ext (S m) _ (fun j => delta a j * delta j b)) by (intros; now rewrite (delta_sym _ b)).
      rewrite sum_delta_l by lia. reflexivity.
    - intros; lra.
    - intros; lra.
    - intros i j Hi Hj. rewrite HA by auto. symmetry. apply sum_zero. intros; ring. }
  assert (Hpos : 0 < s) by lra.
  set (u := fun i => / s * mv (S m) A v i).
  assert (Hu : n2 (S n) u = 1).
  { unfold u. rewrite n2_scal, n2_mv.
    rewrite (@sum_ext (S m) _ (fun j => s ^ 2 * v j ^ 2)) by (intros; rewrite Hvs by auto; ring).
    rewrite sum_scal_l. fold (n2 (S m) v). rewrite Hv. field. auto. }
  destruct (reflection Hu) as (H & HS & HI & H0).
  destruct (reflection Hv) as (G & GS & GI & G0).
  set (A1 := mprod (S n) H (mprod (S m) A G)).
  assert (HAG : forall i, (i < S n)%nat -> mprod (S m) A G i 0%nat = s * H i 0%nat).
  { intros i Hi. rewrite H0 by auto. unfold u, mprod, mv.
    rewrite (@sum_ext (S m) _ (fun j => A i j * v j)) by (intros; now rewrite G0). field. auto. }
  assert (Hcol : forall i, (i < S n)%nat -> A1 i 0%nat = s * delta i 0).
  { intros i Hi. unfold A1. rewrite <- (HI i 0%nat) by lia. unfold mprod at 1 3.
    rewrite <- sum_scal_l. apply sum_ext. intros k Hk. rewrite HAG by auto. ring. }
  assert (Hrow : forall j, (j < S m)%nat -> A1 0%nat j = s * delta 0 j).
  { intros j Hj. unfold A1. rewrite <- mprod_assoc. rewrite <- (GI 0%nat j) by lia. unfold mprod at 1 3.
    rewrite <- sum_scal_l. apply sum_ext. intros k Hk. rewrite <- Rmult_assoc. f_equal.
    rewrite (GS 0%nat k), G0 by auto. unfold mprod.
    rewrite (@sum_ext (S n) _ (fun i => / s * (A i k * mv (S m) A v i))).
    - rewrite sum_scal_l. fold (tmv (S n) A (mv (S m) A v) k). rewrite Hvs by auto. field. auto.
    - intros i Hi. rewrite (HS 0%nat i), H0 by auto. unfold u. ring. }
  assert (HA : forall i j, (i < S n)%nat -> (j < S m)%nat -> A i j = mprod (S n) H (mprod (S m) A1 G) i j).
  { intros i j Hi Hj. unfold A1.
    transitivity (mprod (S n) H (mprod (S n) H (mprod (S m) (mprod (S m) A G) G)) i j).
    - rewrite <- (@mprod_assoc (S n) (S n) H H).
      transitivity (mprod (S n) delta A i j); [unfold mprod; now rewrite sum_delta_l|].
      apply mprod_ext; [intros; now rewrite HI|]. intros k Hk. rewrite mprod_assoc.
      transitivity (mprod (S m) A delta k j); [unfold mprod; now rewrite sum_delta_r|].
      apply mprod_ext; auto. intros l Hl. now rewrite GI.
    - apply mprod_ext; auto. intros k Hk. now rewrite <- mprod_assoc. }
  destruct (IH m (shift A1)) as (U & t & V & HU & HV & Ht0 & Hts & Hprod).
  set (k := Nat.min n m) in *.
  exists (mprod (S n) H (up U)), (fun r => match r with O => s | S r => t r end),
    (mprod (S m) (up V) G).
  change (Nat.min (S n) (S m)) with (S k).
  assert (Ht : forall r, (r < k)%nat -> t r <= s).
  { intros r Hr.
    assert (Hsq : t r ^ 2 <= s ^ 2 * 1).
    { set (y := fun j => match j with O => 0 | S j => V r j end).
      assert (Hy : n2 (S m) y = 1).
      { rewrite n2_S. unfold y, n2. rewrite (@sum_ext m _ (fun j => V r j * V r j)) by (intros; ring).
        rewrite HV by auto. rewrite delta_refl. ring. }
      set (x := mv (S m) G y).
      assert (Hx : n2 (S m) x = 1).
      { unfold x, n2, mv.
        assert (HO : orth_cols (S m) (S m) G).
        { intros a b Ha Hb. rewrite <- GI by auto. unfold mprod. apply sum_ext. intros. now rewrite (GS a). }
        rewrite <- Hy. unfold n2. rewrite (@sum_ext (S m) (fun i => y i ^ 2) (fun i => y i * y i)) by (intros; ring).
        rewrite <- (@parseval_cols (S m) (S m) G y y HO). apply sum_ext. intros i Hi.
        rewrite (@sum_ext (S m) (fun j => G i j * y j) (fun j => y j * G i j)) by (intros; ring). ring. }
      specialize (Hmax x). rewrite Hx in Hmax. eapply Rle_trans; [|exact Hmax].
      (* |A x|^2 = |H A x|^2 = |A1 y|^2 >= |shift A1 V_r|^2 = t_r^2 *)
      assert (E1 : n2 (S n) (mv (S m) A x) = n2 (S n) (mv (S m) A1 y)).
      { assert (HO : orth_cols (S n) (S n) H).
        { intros a b Ha Hb. rewrite <- HI by auto. unfold mprod. apply sum_ext. intros. now rewrite (HS a). }
        set (z := mv (S m) A x).
        transitivity (n2 (S n) (fun i => sum (S n) (fun r => z r * H i r))).
        - unfold n2. rewrite (@sum_ext (S n) (fun i => z i ^ 2) (fun i => z i * z i)) by (intros; ring).
          rewrite <- (@parseval_cols (S n) (S n) H z z HO). apply sum_ext. intros; ring.
        - apply n2_ext. intros i Hi. unfold z, x, mv, A1, mprod.
          transitivity (sum (S n) (fun a => H i a * sum (S m) (fun j => sum (S m) (fun b => A a b * G b j) * y j))).
          + apply sum_ext. intros a Ha. rewrite Rmult_comm. f_equal.
            transitivity (sum (S m) (fun b => sum (S m) (fun j => A a b * G b j * y j))).
            * apply sum_ext. intros. rewrite <- sum_scal_l. apply sum_ext. intros; ring.
            * rewrite sum_swap. apply sum_ext. intros. now rewrite <- sum_scal_r.
          + transitivity (sum (S n) (fun a => sum (S m) (fun j => H i a * sum (S m) (fun b => A a b * G b j) * y j))).
            * apply sum_ext. intros. rewrite <- sum_scal_l. apply sum_ext. intros; ring.
            * rewrite sum_swap. apply sum_ext. intros. now rewrite <- sum_scal_r. }
      rewrite E1, n2_S.
      assert (E2 : n2 n (fun i => mv (S m) A1 y (S i)) = t r ^ 2).
      { transitivity (n2 n (fun i => t r * U i r)).
        - apply n2_ext. intros i Hi. unfold mv. rewrite sum_S_first. unfold y.
          rewrite (@sum_ext m _ (fun j => sum k (fun a => (U i a * t a) * V a j) * V r j)).
          + rewrite (@orth_rows_coeff k m V (fun a => U i a * t a) r HV) by auto. ring.
          + intros j Hj. fold (shift A1 i j). rewrite Hprod by auto. reflexivity.
        - rewrite n2_scal. unfold n2. rewrite (@sum_ext n _ (fun i => U i r * U i r)) by (intros; ring).
          rewrite HU by auto. rewrite delta_refl. ring. }
      rewrite E2. pose proof (pow2_ge_0 (mv (S m) A1 y 0%nat)). lra. }
    specialize (Ht0 r Hr). nra. }
  repeat split.
  - apply reflect_orth_cols; auto. apply up_orth_cols; auto.
  - intros a b Ha Hb.
    pose proof (@reflect_orth_cols (S m) (S k) G (fun j r => up V r j) GS GI) as HR.
    assert (HV' : orth_cols (S m) (S k) (fun j r => up V r j)).
    { assert (HV0 : orth_cols m k (fun j r => V r j)) by exact HV.
      pose proof (up_orth_cols HV0) as H1. intros c d Hc Hd. rewrite <- (H1 c d Hc Hd). apply sum_ext. intros i Hi.
      destruct i, c, d; reflexivity. }
    rewrite <- (HR HV' a b Ha Hb). apply sum_ext. intros j Hj. unfold mprod.
    f_equal; apply sum_ext; intros; rewrite (GS j); ring.
  - intros r Hr. destruct r as [|r]; [lra|]. apply Ht0. lia.
  - intros r q Hr. destruct q as [|q]; [replace r with 0%nat by lia; lra|].
    destruct r as [|r]; [apply Ht; lia|]. apply Hts. lia.
  - intros i j Hi Hj. rewrite HA by auto.
    assert (HA1 : forall a b, (a < S n)%nat -> (b < S m)%nat ->
       A1 a b = sum (S k) (fun r => up U a r * (match r with O => s | S r => t r end) * up V r b)).
    { intros a b Ha Hb. rewrite sum_S_first. destruct a as [|a].
      - rewrite Hrow by auto. rewrite sum_zero by (intros; cbn [up]; ring). destruct b as [|b]; cbn [up].
        + rewrite delta_refl. ring.
        + rewrite delta_neq by lia. ring.
      - destruct b as [|b].
        + rewrite Hcol by auto. rewrite delta_neq by lia. rewrite sum_zero by (intros; cbn [up]; ring). cbn [up]. ring.
        + cbn [up]. fold (shift A1 a b). rewrite Hprod by lia. ring. }
    set (st := fun r => match r with O => s | S r => t r end) in *.
    transitivity (mprod (S n) H (mprod (S m) (mprod (S k) (fun a r => up U a r * st r) (up V)) G) i j).
    { apply mprod_ext; auto. intros a Ha. apply mprod_ext; auto. intros b Hb. apply HA1; auto. }
    transitivity (mprod (S n) H (mprod (S k) (fun a r => up U a r * st r) (mprod (S m) (up V) G)) i j).
    { apply mprod_ext; auto. intros a Ha. apply mprod_assoc. }
    rewrite <- mprod_assoc. unfold mprod at 1. apply sum_ext. intros r Hr. f_equal.
    unfold mprod. rewrite <- sum_scal_r. apply sum_ext. intros. unfold st. ring.
Qed.

Lemma svd_exists n m A : is_mat n m A -> exists U S Vh, is_svd n m A U S Vh.
Proof.
  intros HA. destruct (svd_exists_fun n m (mget A)) as (U & s & V & HU & HV & H0 & Hs & HP).
  set (k := Nat.min n m) in *.
  exists (tab2 n k U), (tab1 k s), (tab2 k m V). constructor; fold k.
  - apply is_mat_tab2.
  - apply is_vec_tab1.
  - apply is_mat_tab2.
  - intros a b Ha Hb. rewrite <- (HU a b Ha Hb). apply sum_ext. intros. now rewrite !mget_tab2.
  - intros a b Ha Hb. rewrite <- (HV a b Ha Hb). apply sum_ext. intros. now rewrite !mget_tab2.
  - intros r Hr. rewrite vget_tab1 by auto. auto.
  - intros r t Hr. rewrite !vget_tab1 by lia. auto.
  - intros i j Hi Hj. rewrite HP by auto. apply sum_ext. intros r Hr. now rewrite !mget_tab2, vget_tab1.
Qed.

(** ** Non-negative least squares *)
Definition res2 (n m : nat) (A : nat -> nat -> R) (b x : nat -> R) : R := n2 n (fun i => mv m A x i - b i).

(** Unconstrained minimisers exist; the residual grows with the distance from them. *)
Lemma least_squares_exists n m A b : exists x, forall y,
  res2 n m A b y = res2 n m A b x + n2 n (mv m A (fun j => y j - x j)).
Proof.
  set (A' := tab2 m n (fun j i => A i j)). set (B := tab2 1 n (fun _ i => b i)).
  destruct (@svd_exists m n A') as (U & Sv & Vh & HS); [apply is_mat_tab2|].
  destruct (@rightsolve_ok (fun _ => Ok (U, Sv, Vh)) m n 1 A' B U Sv Vh) as (X & _ & HX & Hn & _); auto;
    try apply is_mat_tab2.
  exists (fun j => mget X 0 j). intros y.
  pose proof (ls_pythagoras (fun _ j => y j) Hn) as P. unfold dist2, frob2 in P.
  assert (one : forall f : nat -> R, sum 1 f = f 0%nat) by (intros; cbn; ring).
  rewrite !one in P. unfold res2, n2.
  assert (E : forall Z : nat -> R, forall i, (i < n)%nat ->
     mprod m (fun _ j => Z j) (mget A') 0 i = mv m A Z i).
  { intros Z i Hi. unfold mprod, mv. apply sum_ext. intros j Hj. unfold A'. rewrite mget_tab2 by auto. ring. }
  rewrite (@sum_ext n _ (fun i => (mprod m (fun _ j => y j) (mget A') 0 i - mget B 0 i) ^ 2)).
  2:{ intros i Hi. rewrite E by auto. unfold B. now rewrite mget_tab2 by lia. }
  rewrite P. f_equal.
  - apply sum_ext. intros i Hi. f_equal. f_equal.
    + rewrite <- E by auto. reflexivity.
    + unfold B. now rewrite mget_tab2 by lia.
  - apply sum_ext. intros i Hi. f_equal. rewrite <- E by auto. reflexivity.
Qed.

Lemma some_or_none m (P : nat -> Prop) : (forall j, {P j} + {~ P j}) ->
  (exists j, (j < m)%nat /\ P j) \/ (forall j, (j < m)%nat -> ~ P j).
Proof.
  intros dec. induction m as [|m [(j & Hj & HP)|IH]]; [right; intros; lia|left; exists j; split; auto|].
  destruct (dec m) as [H|H]; [left; exists m; auto|]. right. intros j Hj. destruct (Nat.eq_dec j m); [subst; auto|].
  apply IH. lia.
Qed.

Lemma finite_argmin m (P : nat -> Prop) (g : nat -> R) : (forall j, {P j} + {~ P j}) ->
  (exists j, (j < m)%nat /\ P j) -> exists i, (i < m)%nat /\ P i /\ forall j, (j < m)%nat -> P j -> g i <= g j.
Proof.
  intros dec. induction m as [|m IH]; intros (j & Hj & HP); [lia|].
  destruct (dec m) as [Hm|Hm].
  - destruct (@some_or_none m P dec) as [Hex|Hno].
    + destruct (IH Hex) as (i & Hi & HPi & Hmin). destruct (Rle_dec (g i) (g m)).
      * exists i. repeat split; auto. intros k Hk HPk. destruct (Nat.eq_dec k m); [subst; auto|]. apply Hmin; auto; lia.
      * exists m. repeat split; auto. intros k Hk HPk. destruct (Nat.eq_dec k m); [subst; lra|].
        assert (g i <= g k) by (apply Hmin; auto; lia). lra.
    + exists m. repeat split; auto. intros k Hk HPk. destruct (Nat.eq_dec k m); [subst; lra|].
      exfalso. apply (Hno k); auto; lia.
  - destruct IH as (i & Hi & HPi & Hmin).
    + exists j. split; auto. destruct (Nat.eq_dec j m); [subst; tauto|lia].
    + exists i. repeat split; auto. intros k Hk HPk. destruct (Nat.eq_dec k m); [subst; tauto|]. apply Hmin; auto; lia.
Qed.

Definition skip (i j : nat) : nat := if Nat.ltb j i then j else S j.
Definition unskip (i j : nat) : nat := if Nat.ltb j i then j else (j - 1)%nat.

Lemma sum_skip m i f : (i < S m)%nat -> sum (S m) f = f i + sum m (fun j => f (skip i j)).
Proof.
  revert i f. induction m as [|m IH]; intros i f Hi.
  - replace i with 0%nat by lia. cbn. ring.
  - rewrite sum_S. destruct (Nat.eq_dec i (S m)) as [->|Hne].
    + rewrite Rplus_comm. f_equal. apply sum_ext. intros j Hj. unfold skip. destruct (Nat.ltb_spec j (S m)); auto; lia.
    + rewrite (IH i f) by lia. rewrite (sum_S m). unfold skip at 3. destruct (Nat.ltb_spec m i); [lia|ring].
Qed.

Lemma nnls_exists_fun n m : forall A b, exists x, (forall j, (j < m)%nat -> 0 <= x j) /\
  forall y, (forall j, (j < m)%nat -> 0 <= y j) -> res2 n m A b x <= res2 n m A b y.
Proof.
  induction m as [|m IH]; intros A b.
  { exists (fun _ => 0). split; [intros; lia|]. intros y _. unfold res2, mv. cbn. lra. }
  set (f := res2 n (S m) A b).
  assert (Hext : forall x y, (forall j, (j < S m)%nat -> x j = y j) -> f x = f y).
  { intros x y H. unfold f, res2. apply n2_ext. intros i Hi. f_equal. apply sum_ext. intros j Hj. now rewrite H. }
  (* the faces x_i = 0 *)
  assert (Hfaces : forall k, (k <= S m)%nat -> exists x, (forall j, (j < S m)%nat -> 0 <= x j) /\
    forall i y, (i < k)%nat -> (forall j, (j < S m)%nat -> 0 <= y j) -> y i = 0 -> f x <= f y).
  { induction k as [|k IHk]; intros Hk.
    - exists (fun _ => 0). split; [intros; lra|]. intros; lia.
    - destruct (IHk ltac:(lia)) as (x & Hx & Hmin).
      destruct (IH (fun i j => A i (skip k j)) b) as (z & Hz & Hzmin).
      set (z' := fun j => if Nat.eqb j k then 0 else z (unskip k j)).
      assert (Hz' : forall j, (j < S m)%nat -> 0 <= z' j).
      { intros j Hj. unfold z'. destruct (Nat.eqb_spec j k); [lra|]. apply Hz. unfold unskip.
        destruct (Nat.ltb_spec j k); lia. }
      assert (Hface : forall y, y k = 0 -> f y = res2 n m (fun i j => A i (skip k j)) b (fun j => y (skip k j))).
      { intros y Hy. unfold f, res2. apply n2_ext. intros i Hi. f_equal. unfold mv.
        rewrite (@sum_skip m k) by lia. rewrite Hy. ring. }
      assert (Hzz : f z' = res2 n m (fun i j => A i (skip k j)) b z).
      { rewrite Hface by (unfold z'; now rewrite Nat.eqb_refl). unfold res2. apply n2_ext. intros i Hi. f_equal.
        apply sum_ext. intros j Hj. f_equal. unfold z', unskip, skip.
        destruct (Nat.ltb_spec j k).
        - destruct (Nat.eqb_spec j k); [lia|]. destruct (Nat.ltb_spec j k); [auto|lia].
        - destruct (Nat.eqb_spec (S j) k); [lia|]. destruct (Nat.ltb_spec (S j) k); [lia|]. f_equal. lia. }
      assert (Hk' : forall y, (forall j, (j < S m)%nat -> 0 <= y j) -> y k = 0 -> f z' <= f y).
      { intros y Hy Hyk. rewrite Hzz, (Hface y Hyk). apply Hzmin. intros j Hj. apply Hy. unfold skip.
        destruct (Nat.ltb_spec j k); lia. }
      destruct (Rle_dec (f x) (f z')) as [Hle|Hgt].
      + exists x. split; auto. intros i y Hi Hy Hyi. destruct (Nat.eq_dec i k) as [->|].
        * specialize (Hk' y Hy Hyi). lra.
        * apply (Hmin i); auto; lia.
      + exists z'. split; auto. intros i y Hi Hy Hyi. destruct (Nat.eq_dec i k) as [->|]; auto.
        assert (f x <= f y) by (apply (Hmin i); auto; lia). lra. }
  destruct (Hfaces (S m) (le_n _)) as (w & Hw & Hwmin).
  destruct (least_squares_exists n (S m) A b) as (x & Hx). fold f in Hx.
  destruct (@some_or_none (S m) (fun j => x j < 0) (fun j => Rlt_dec (x j) 0)) as [Hneg|Hpos].
  - exists w. split; auto. intros y Hy.
    destruct (@finite_argmin (S m) (fun j => x j < 0) (fun j => y j / (y j - x j)) (fun j => Rlt_dec (x j) 0) Hneg)
      as (i & Hi & Hxi & Hmin).
    set (t := y i / (y i - x i)) in *.
    assert (Hyi := Hy i Hi).
    assert (Ht : 0 <= t <= 1).
    { unfold t. split.
      - apply Rmult_le_pos; auto. apply Rlt_le, Rinv_0_lt_compat. lra.
      - apply Rmult_le_reg_r with (y i - x i); [lra|]. unfold Rdiv. rewrite Rmult_assoc, Rinv_l by lra. lra. }
    set (z := fun j => y j + t * (x j - y j)).
    assert (Hzi : z i = 0) by (unfold z, t; field; lra).
    assert (Hz : forall j, (j < S m)%nat -> 0 <= z j).
    { intros j Hj. unfold z. pose proof (Hy j Hj) as Hyj. destruct (Rlt_dec (x j) 0) as [Hxj|Hxj].
      - specialize (Hmin j Hj Hxj).
        assert (t * (y j - x j) <= y j); [|lra].
        apply Rle_trans with (y j / (y j - x j) * (y j - x j)).
        + apply Rmult_le_compat_r; lra.
        + right. field. lra.
      - apply Rnot_lt_le in Hxj. nra. }
    apply Rle_trans with (f z); [apply (Hwmin i); auto|].
    rewrite (Hx z), (Hx y). apply Rplus_le_compat_l.
    rewrite (n2_ext (y := fun i0 => (1 - t) * mv (S m) A (fun j => y j - x j) i0)).
    + rewrite n2_scal. rewrite <- (Rmult_1_l (n2 n (mv (S m) A (fun j => y j - x j)))) at 2.
      apply Rmult_le_compat_r; [apply n2_nonneg|nra].
    + intros i0 Hi0. rewrite <- mv_scal. apply sum_ext. intros j Hj. unfold z. ring.
  - exists x. split; [intros j Hj; specialize (Hpos j Hj); lra|]. intros y _. rewrite (Hx y).
    pose proof (n2_nonneg n (mv (S m) A (fun j => y j - x j))). fold f. lra.
Qed.

Lemma nnls_exists n m A b : is_mat n m A -> is_vec n b -> exists x, is_nnls n m A b x.
Proof.
  intros HA Hb. destruct (nnls_exists_fun n m (mget A) (vget b)) as (x & Hx & Hmin).
  exists (tab1 m x). split; [apply is_vec_tab1|]. split.
  - intros j Hj. rewrite vget_tab1 by auto. auto.
  - intros y Hy. specialize (Hmin y Hy). unfold res2, n2, mv in Hmin.
    rewrite (@sum_ext n _ (fun i => (sum m (fun j => mget A i j * x j) - vget b i) ^ 2)); auto.
    intros i Hi. f_equal. f_equal. apply sum_ext. intros j Hj. now rewrite vget_tab1.
Qed.

(** ** Functions with these contracts exist (choice) *)
Theorem svd_contract_satisfiable : exists svd, svd_contract svd.
Proof.
  assert (H : forall A : nd, exists r : nd * nd * nd, forall n m, is_mat n m A ->
     is_svd n m A (fst (fst r)) (snd (fst r)) (snd r)).
  { intros A. destruct (shape A) as [|n [|m [|]]] eqn:E.
    3:{ destruct (Nat.eq_dec (length (data A)) (prodl (shape A))) as [Hw|Hw].
        - destruct (@svd_exists n m A) as (U & Sv & Vh & HS); [split; auto|].
          exists (U, Sv, Vh). intros n' m' [_ HA]. rewrite E in HA. injection HA as <- <-. exact HS.
        - exists (m0, m0, m0). intros n' m' [HA _]. tauto. }
    all: exists (m0, m0, m0); intros n' m' [_ HA]; rewrite E in HA; discriminate. }
  destruct (functional_choice _ H) as (f & Hf).
  exists (fun A => Ok (f A)). intros n m A HA. specialize (Hf A n m HA).
  destruct (f A) as [[U Sv] Vh]. exists U, Sv, Vh. auto.
Qed.

Theorem nnls_contract_satisfiable : exists nnls, nnls_contract nnls.
Proof.
  assert (H : forall p : nd * nd, exists x : nd, forall n m, is_mat n m (fst p) -> is_vec n (snd p) ->
     is_nnls n m (fst p) (snd p) x).
  { intros [A b]. cbn [fst snd]. destruct (shape A) as [|n [|m [|]]] eqn:E.
    3:{ destruct (Nat.eq_dec (length (data A)) (prodl (shape A))) as [Hw|Hw].
        - destruct (list_eq_dec Nat.eq_dec (shape b) [n]) as [Eb|Eb].
          + destruct (Nat.eq_dec (length (data b)) (prodl (shape b))) as [Hb|Hb].
            * destruct (@nnls_exists n m A b) as (x & Hx); [split; auto|split; auto|].
              exists x. intros n' m' [_ HA] _. rewrite E in HA. injection HA as <- <-. exact Hx.
            * exists m0. intros n' m' _ [HB _]. tauto.
          + exists m0. intros n' m' [_ HA] [_ HB]. rewrite E in HA. injection HA as <- <-. congruence.
        - exists m0. intros n' m' [HA _]. tauto. }
    all: exists m0; intros n' m' [_ HA]; rewrite E in HA; discriminate. }
  destruct (functional_choice _ H) as (f & Hf).
  exists (fun A b => Ok (f (A, b))). intros n m A b HA Hb. exists (f (A, b)). split; auto. apply (Hf (A, b)); auto.
Qed.

(** Orthonormal columns for numpy.linalg.qr(_)[0]: the left singular vectors will do. *)
Lemma qr_of_svd svd n m A : svd_contract svd -> is_mat n m A ->
  exists Q, (do (U, _, _) <- svd A ; Ok U) = Ok Q /\ is_mat n (Nat.min n m) Q /\ orth_cols n (Nat.min n m) (mget Q).
Proof.
  intros H HA. destruct (H n m A HA) as (U & Sv & Vh & E & HS). exists U. rewrite E. split; [reflexivity|].
  split; [exact (svd_U_shape HS)|exact (svd_U_orth HS)].
Qed.
