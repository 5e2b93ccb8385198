(** Positive starts see the largest singular value of a non-negative matrix: lemmas for C111. *)
From Verif Require Export RankOneFacts.
From Verif Require LimitFacts.
From Verif Require Import TuckerFacts Prelude Lin.
Set Implicit Arguments.
Unset Strict Implicit.
Local Open Scope R_scope.

Section Perron.
Variables (n m : nat) (A U Sv Vh : nd).
Hypothesis G : is_svd n m A U Sv Vh.
Hypothesis HA : forall i j, (i < n)%nat -> (j < m)%nat -> 0 <= mget A i j.
Let p := Nat.min n m.
Let s j := vget Sv j.
Hypothesis (Hp : (0 < p)%nat) (Hpos : 0 < s 0).
Let coord (w : nat -> R) j := sum m (fun i => mget Vh j i * w i).

Lemma image w i : (i < n)%nat -> sum m (fun j => mget A i j * w j) = sum p (fun j => s j * coord w j * mget U i j).
Proof.
  intros Hi. transitivity (sum m (fun c => sum p (fun j => mget U i j * s j * (mget Vh j c * w c)))).
  - apply sum_ext. intros c Hc. rewrite (svd_product G Hi Hc), <- sum_scal_r. apply sum_ext. intros; unfold s; ring.
  - rewrite sum_swap. apply sum_ext. intros j Hj. rewrite sum_scal_l. unfold coord. ring.
Qed.
Lemma image_norm w : sum n (fun i => sum m (fun j => mget A i j * w j) ^ 2) = sum p (fun j => s j ^ 2 * coord w j ^ 2).
Proof.
  transitivity (sum p (fun j => (s j * coord w j) ^ 2)); [|apply sum_ext; intros; ring].
  transitivity (sum n (fun i => sum p (fun j => s j * coord w j * mget U i j) ^ 2)).
  - apply sum_ext. intros i Hi. now rewrite (image w Hi).
  - exact (@orth_norm n m n (mget U) (fun j => s j * coord w j) (svd_U_orth G)).
Qed.
Lemma rest w : sum m (fun i => (w i - sum p (fun j => coord w j * mget Vh j i)) ^ 2) = sum m (fun i => w i ^ 2) - sum p (fun j => coord w j ^ 2).
Proof.
  assert (E1 : sum m (fun i => sum p (fun j => coord w j * mget Vh j i) ^ 2) = sum p (fun j => coord w j ^ 2)).
  { apply (@orth_norm n m m (fun i j => mget Vh j i) (fun j => coord w j)). intros x y Hx Hy. now apply (svd_V_orth G). }
  assert (E2 : sum m (fun i => w i * sum p (fun j => coord w j * mget Vh j i)) = sum p (fun j => coord w j ^ 2)).
  { transitivity (sum m (fun i => sum p (fun j => coord w j * (mget Vh j i * w i)))).
    - apply sum_ext. intros i Hi. rewrite <- sum_scal_l. apply sum_ext. intros; ring.
    - rewrite sum_swap. apply sum_ext. intros j Hj. rewrite sum_scal_l. unfold coord. ring. }
  transitivity (sum m (fun i => w i ^ 2 + (-2) * (w i * sum p (fun j => coord w j * mget Vh j i)) + sum p (fun j => coord w j * mget Vh j i) ^ 2)).
  - apply sum_ext. intros; ring.
  - rewrite !sum_plus, sum_scal_l, E1, E2. ring.
Qed.

Let z j := mget Vh 0 j.
Let w j := Rabs (z j).
Lemma unit_z : sum m (fun j => z j ^ 2) = 1.
Proof.
  pose proof (svd_V_orth G Hp Hp) as E. unfold delta in E. rewrite Nat.eqb_refl in E. rewrite <- E. apply sum_ext. intros; unfold z; ring.
Qed.
Lemma unit_w1 : sum m (fun j => w j ^ 2) = 1.
Proof. rewrite <- unit_z. apply sum_ext. intros j Hj. unfold w. apply pow2_abs. Qed.
Lemma coord_z j : (j < p)%nat -> coord z j = delta j 0.
Proof. intros Hj. unfold coord, z. exact (svd_V_orth G Hj Hp). Qed.
Lemma norm_z : sum p (fun j => s j ^ 2 * coord z j ^ 2) = s 0 ^ 2.
Proof.
  transitivity (sum p (fun j => delta 0 j * (s j ^ 2))).
  - apply sum_ext. intros j Hj. rewrite (coord_z Hj). unfold delta. rewrite (Nat.eqb_sym 0 j). destruct (j =? 0)%nat; ring.
  - now rewrite (@sum_delta_l p 0 (fun j => s j ^ 2)).
Qed.
Lemma abs_sum l (f : nat -> R) : Rabs (sum l f) <= sum l (fun j => Rabs (f j)).
Proof.
  induction (seq 0 l) as [|i q IH]; cbn [sumf]; [rewrite Rabs_R0; lra|]. eapply Rle_trans; [apply Rabs_triang|]. lra.
Qed.
Lemma grows : s 0 ^ 2 <= sum p (fun j => s j ^ 2 * coord w j ^ 2).
Proof.
  rewrite <- norm_z, <- !image_norm. apply sum_le. intros i Hi. rewrite <- (pow2_abs (sum m (fun j => mget A i j * z j))).
  apply pow_incr. split; [apply Rabs_pos|]. eapply Rle_trans; [apply abs_sum|]. apply sum_le. intros j Hj.
  rewrite Rabs_mult, (Rabs_pos_eq _ (HA Hi Hj)). unfold w. lra.
Qed.
Lemma bessel : sum p (fun j => coord w j ^ 2) <= 1.
Proof.
  rewrite <- unit_w1. pose proof (rest w) as E. assert (H : 0 <= sum m (fun i => (w i - sum p (fun j => coord w j * mget Vh j i)) ^ 2)).
  { apply sum_nonneg. intros; apply pow2_ge_0. } lra.
Qed.
Lemma top_only j : (j < p)%nat -> s j <> s 0 -> coord w j = 0.
Proof.
  intros Hj Hne. assert (Hs : forall i, (i < p)%nat -> 0 <= s i <= s 0).
  { intros i Hi. split; [apply (svd_S_nonneg G Hi)|apply (svd_S_sorted G); lia]. }
  assert (H0 : forall i, (i < p)%nat -> 0 <= (s 0 ^ 2 - s i ^ 2) * coord w i ^ 2).
  { intros i Hi. apply Rmult_le_pos; [|apply pow2_ge_0]. pose proof (pow_incr (s i) (s 0) 2 (Hs i Hi)). lra. }
  assert (ES : sum p (fun i => (s 0 ^ 2 - s i ^ 2) * coord w i ^ 2) = s 0 ^ 2 * sum p (fun i => coord w i ^ 2) - sum p (fun i => s i ^ 2 * coord w i ^ 2)).
  { rewrite <- sum_scal_l. unfold Rminus. rewrite <- (Rmult_1_l (sum p (fun i => s i ^ 2 * coord w i ^ 2))), <- Ropp_mult_distr_l_reverse, <- sum_scal_l, <- sum_plus.
    apply sum_ext. intros; ring. }
  assert (E0 : sum p (fun i => (s 0 ^ 2 - s i ^ 2) * coord w i ^ 2) = 0).
  { apply Rle_antisym; [|now apply sum_nonneg]. rewrite ES. pose proof grows.
    pose proof (Rmult_le_compat_l (s 0 ^ 2) _ _ (pow2_ge_0 _) bessel). lra. }
  pose proof (sum_nonneg_zero H0 E0 Hj) as E. cbn beta in E. apply Rmult_integral in E. destruct E as [E|E].
  - exfalso. destruct (Hs j Hj) as [H1 H2]. assert (H3 : s j < s 0) by lra.
    assert (H4 : (s 0 - s j) * (s 0 + s j) = 0) by lra. apply Rmult_integral in H4. lra.
  - apply Rsqr_0_uniq. unfold Rsqr. lra.
Qed.
Lemma all_of_w i : (i < m)%nat -> w i = sum p (fun j => coord w j * mget Vh j i).
Proof.
  assert (H1 : 1 <= sum p (fun j => coord w j ^ 2)).
  { apply (Rmult_le_reg_l (s 0 ^ 2)); [now apply pow_lt|]. rewrite Rmult_1_r, <- sum_scal_l. eapply Rle_trans; [exact grows|].
    right. apply sum_ext. intros j Hj. destruct (Req_dec (s j) (s 0)) as [E|E]; [now rewrite E|]. rewrite (top_only Hj E). ring. }
  assert (H0 : forall i, (i < m)%nat -> 0 <= (w i - sum p (fun j => coord w j * mget Vh j i)) ^ 2) by (intros; apply pow2_ge_0).
  assert (E : sum m (fun i => (w i - sum p (fun j => coord w j * mget Vh j i)) ^ 2) = 0).
  { apply Rle_antisym; [|now apply sum_nonneg]. rewrite rest, unit_w1. lra. }
  intros Hi. pose proof (sum_nonneg_zero H0 E Hi) as E1. cbn beta in E1. apply Rminus_diag_uniq. apply Rsqr_0_uniq. unfold Rsqr. lra.
Qed.

Lemma positive_sees b : (forall j, (j < m)%nat -> 0 < b j) -> exists t, (t < p)%nat /\ s t = s 0 /\ coord b t <> 0.
Proof.
  intros Hb. destruct (zero_or_not (fun t => if Req_EM_T (s t) (s 0) then coord b t else 0) p) as [Hz|(t & Ht & Hn)].
  2: { exists t. split; [exact Ht|]. destruct (Req_EM_T (s t) (s 0)); [auto|congruence]. }
  exfalso. assert (E : sum m (fun i => w i * b i) = 0).
  { transitivity (sum m (fun i => sum p (fun j => coord w j * (mget Vh j i * b i)))).
    - apply sum_ext. intros i Hi. rewrite (all_of_w Hi), <- sum_scal_r. apply sum_ext. intros; ring.
    - rewrite sum_swap. apply sum_zero. intros j Hj. rewrite sum_scal_l. fold (coord b j). specialize (Hz j Hj). cbn beta in Hz.
      destruct (Req_EM_T (s j) (s 0)) as [E|E]; [rewrite Hz; ring|rewrite (top_only Hj E); ring]. }
  assert (H0 : forall i, (i < m)%nat -> 0 <= w i * b i).
  { intros i Hi. apply Rmult_le_pos; [apply Rabs_pos|left; auto]. }
  assert (Hw : forall i, (i < m)%nat -> w i ^ 2 = 0).
  { intros i Hi. pose proof (sum_nonneg_zero H0 E Hi) as E1. cbn beta in E1. apply Rmult_integral in E1. destruct E1 as [E1|E1].
    - rewrite E1. ring.
    - pose proof (Hb i Hi). lra. }
  pose proof unit_w1 as E1. rewrite (@sum_zero m (fun j => w j ^ 2) Hw) in E1. lra.
Qed.
End Perron.

(** Positive starts are never orthogonal to the data. *)
Lemma positive_not_orthogonal X Us : factors_ok 1 X Us -> nonneg_data X -> energy X <> 0 -> (0 < length (shape X))%nat -> positive_start Us ->
  ~ orthogonal_start 1 X Us.
Proof.
  intros HF HX He Hd HP HO. apply He. pose proof HF as [HU Hr]. pose proof (mode_len Hr) as Hlen.
  unfold energy. rewrite (sumf_indices_axis _ Hd). apply sum_zero. intros i Hi.
  specialize (HO i 0%nat Hi ltac:(lia)). rewrite mttkrp_entry_split in HO by auto.
  assert (HC : forall c, valid c (remove_at 0 (shape X)) -> 0 < colprod (remove_at 0 Us) c 0).
  { intros c Hc. assert (Hc' : valid c (rows (remove_at 0 Us))) by (unfold rows; rewrite map_remove_at; fold (rows Us); now rewrite Hr).
    assert (HP' : forall k i, (k < length (remove_at 0 Us))%nat -> (i < nrows (nth k (remove_at 0 Us) m0))%nat -> 0 < mget (nth k (remove_at 0 Us) m0) i 0).
    { destruct Us as [|U0 l]; [cbn; intros; lia|]. cbn [remove_at] in *. intros k i' Hk Hi'. apply (HP (S k) i'); cbn [length nth]; [lia|exact Hi']. }
    clear - Hc' HP'. revert c Hc'. induction (remove_at 0 Us) as [|U l IH]; intros c Hc; [cbn; lra|].
    destruct c as [|j c]; [cbn; lra|]. cbn [colprod]. inversion Hc; subst. apply Rmult_lt_0_compat.
    - apply (HP' 0%nat j); [cbn; lia|assumption].
    - apply IH; [|assumption]. intros k i' Hk Hi'. apply (HP' (S k) i'); [cbn [length]; lia|exact Hi']. }
  assert (H0 : forall c, In c (indices (remove_at 0 (shape X))) -> 0 <= get X (insert_at 0 i c) * colprod (remove_at 0 Us) c 0).
  { intros c Hc. apply in_indices in Hc. apply Rmult_le_pos; [|left; auto]. apply HX. apply valid_insert_at; auto. }
  apply sumf_zero. intros c Hc. pose proof (@sumf_nonneg_zero _ (indices (remove_at 0 (shape X))) _ H0 HO c Hc) as E. cbn beta in E. apply in_indices in Hc.
  apply Rmult_integral in E. destruct E as [E|E]; [rewrite E; ring|pose proof (HC c Hc); lra].
Qed.

(** Absolute values of rank-one models fit no worse. *)
Lemma mget_abs A i j : mget (nd_abs A) i j = Rabs (mget A i j).
Proof.
  unfold mget, get, nd_abs. cbn [shape data]. rewrite <- Rabs_R0 at 1. now rewrite map_nth.
Qed.
Lemma abs_colprod Us c r : colprod (map nd_abs Us) c r = Rabs (colprod Us c r).
Proof.
  revert c. induction Us as [|U l IH]; intros [|i c]; cbn [map colprod]; try (now rewrite Rabs_R1).
  now rewrite mget_abs, IH, Rabs_mult.
Qed.
Lemma abs_fits X Us : nonneg_data X -> sse X (map nd_abs Us) unit_weights 1 <= sse X Us unit_weights 1.
Proof.
  intros HX. unfold sse. apply sumf_le. intros idx Hi. apply in_indices in Hi. unfold cp_entry. cbn [seq sumf]. rewrite abs_colprod.
  unfold unit_weights. set (x := get X idx). assert (Hx : 0 <= x) by (now apply HX). set (c := colprod Us idx 0).
  pose proof (Rle_abs c) as H. pose proof (pow2_abs c) as E.
  assert (H1 : x * c <= x * Rabs c) by (now apply Rmult_le_compat_l). lra.
Qed.

(** *** Matrices *)
Section Matrix.
Variables (env : cp_env) (cs : cp_settings) (s : cp_state) (nn : nat -> bool) (n m : nat).
Hypothesis (HK : cs_rank cs = 1%nat) (HS : svd_contract (env_svd env)) (HN : nnls_contract (env_nnls env)).
Hypothesis (HC : cp_coherent 1 s) (HO : only_nonneg s nn) (HR : cs_ridge cs = None).
Let X := cp_X s.
Hypothesis (HX : nonneg_data X) (Hsh : shape X = [n; m]) (He : energy X <> 0).
Hypothesis (HP : nonneg_factors 1 (fms s)) (HP1 : positive_start (fms s)).
Let md := cp_model env cs.
Let u := cp_with_constraints (Some (repeat false 2)) (Some (repeat false 2)) s.

Lemma u_free : free_fit cs u.
Proof.
  intros k Hk. change (k < length (shape X))%nat in Hk. rewrite Hsh in Hk. cbn [length] in Hk. split; [exact HR|].
  split; exists (repeat false 2); (split; [reflexivity|]); destruct k as [|[|k]]; try reflexivity; lia.
Qed.
Lemma u_coherent : cp_coherent 1 u.
Proof. destruct HC. constructor; auto. Qed.
Lemma u_twins : twins cs X (fun _ => 0) (fun _ => false) nn u s.
Proof.
  constructor; auto.
  - apply u_coherent.
  - intros k Hk. destruct (u_free Hk) as (_ & F1 & F2). split; [exact F1|]. split; [exact F2|]. unfold penalty. rewrite HR. split; [reflexivity|lra].
  - intros k Hk. destruct (HO Hk) as [F1 F2]. split; [exact F1|]. split; [exact F2|]. unfold penalty. rewrite HR. split; [reflexivity|lra].
Qed.

Lemma matrix_best : exists l, Un_cv (fun k => sse X (fms (state_after md s k)) unit_weights 1) l /\
  (forall Vs w, rows Vs = shape X -> l <= sse X Vs w 1) /\ (exists Vs, factors_ok 1 X Vs /\ sse X Vs unit_weights 1 = l).
Proof.
  pose proof (co_data HC) as HD. fold X in HD. pose proof (proj1 HD) as Hwf. pose proof (co_fac HC) as HF. fold X in HF.
  destruct (HS (conj Hwf Hsh)) as (U & Sv & Vh & _ & G).
  assert (Hd : (0 < length (shape X))%nat) by (rewrite Hsh; cbn; lia).
  assert (Hne : ~ orthogonal_start 1 X (fms u)) by (apply positive_not_orthogonal; auto).
  assert (Hw : svd_works_on 1 1 (env_svd env)) by (intros B HB; exact (HS HB)).
  pose proof (@energy_values u n m Hsh U Sv Vh G) as EV. change (cp_X u) with X in EV.
  assert (Hp : (0 < Nat.min n m)%nat).
  { destruct (Nat.min n m) as [|q] eqn:Eq; [|lia]. exfalso. apply He. rewrite EV. reflexivity. }
  assert (Hs0 : 0 < vget Sv 0).
  { destruct (svd_S_nonneg G Hp) as [H|H]; [exact H|]. exfalso. apply He. rewrite EV. apply sum_zero. intros j Hj.
    pose proof (svd_S_nonneg G Hj). assert (vget Sv j <= vget Sv 0) by (apply (svd_S_sorted G); lia). replace (vget Sv j) with 0 by lra. ring. }
  assert (HA : forall i j, (i < n)%nat -> (j < m)%nat -> 0 <= mget X i j).
  { intros i j Hi Hj. apply HX. rewrite Hsh. repeat constructor; assumption. }
  pose proof (mode_len (proj2 HF)) as Hlen. rewrite Hsh in Hlen. cbn [length] in Hlen.
  assert (En : nrows (nth 1 (fms s) m0) = m).
  { transitivity (nth 1 (rows (fms s)) 0%nat); [symmetry; apply nth_rows; rewrite Hlen; lia|]. rewrite (proj2 HF), Hsh. reflexivity. }
  destruct (@positive_sees n m X U Sv Vh G HA Hp Hs0 (fun j => mget (nth 1 (fms s) m0) j 0)) as (t & Ht & Et & Hsee).
  { intros j Hj. apply HP1; [rewrite Hlen; lia|now rewrite En]. }
  exists (left_out (Nat.min n m) 1 Sv). split; [|split].
  - apply (@LimitFacts.cv_ext (fun k => sse X (fms (state_after md u k)) unit_weights 1)).
    + intros k. destruct (@passes_twins env cs X (fun _ => 0) (fun _ => false) nn HK HS HN HX u s u_twins Hd Hne k) as (_ & HT & _).
      fold md in HT. now rewrite (tw_fac HT).
    + apply (@tends_to_best env cs u n m HK Hw u_coherent u_free Hsh U Sv Vh G t Ht Et).
      unfold right_coord. change (fms (state_after (cp_model env cs) u 0)) with (fms s). rewrite En. exact Hsee.
  - exact (fun Vs w => @matrix_bound X n m U Sv Vh Vs w Hsh G).
  - exact (@matrix_reached X n m 1 U Sv Vh Hwf Hsh G).
Qed.
End Matrix.
