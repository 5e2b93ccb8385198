(** CP_ALS on the same data in other units and in another order: lemmas for C79. *)
From Coq Require Import Permutation.
From Verif Require Export SymSpec CPUpdate SignScores QualityFacts.
From Verif Require Import Prelude Lin.
Set Implicit Arguments.
Unset Strict Implicit.
Local Open Scope R_scope.

(** *** Permutations of 0, ..., n-1 and their inverses *)
Definition inv (n : nat) (f : nat -> nat) (j : nat) : nat :=
  hd 0%nat (filter (fun i => Nat.eqb (f i) j) (seq 0 n)).

Lemma permutes_perm n f : permutes n f -> Permutation (map f (seq 0 n)) (seq 0 n).
Proof.
  intros [Hb Hi]. apply NoDup_Permutation_bis.
  - assert (G : forall l, NoDup l -> (forall i, In i l -> (i < n)%nat) -> NoDup (map f l)).
    { induction l as [|x l IH]; intros Hd Hl; cbn; constructor.
      - inversion Hd; subst. intros Hx. apply in_map_iff in Hx. destruct Hx as (y & E & Hy).
        apply Hi in E; [subst; contradiction|apply Hl; now right|apply Hl; now left].
      - inversion Hd; subst. apply IH; auto. intros i Hx. apply Hl. now right. }
    apply G; [apply seq_NoDup|]. intros i Hx. apply in_seq in Hx. lia.
  - now rewrite map_length.
  - intros x Hx. apply in_map_iff in Hx. destruct Hx as (y & <- & Hy). apply in_seq in Hy. apply in_seq.
    specialize (Hb y). lia.
Qed.

Lemma permutes_onto n f j : permutes n f -> (j < n)%nat -> exists i, (i < n)%nat /\ f i = j.
Proof.
  intros H Hj. assert (Hin : In j (map f (seq 0 n))).
  { apply (Permutation_in _ (Permutation_sym (permutes_perm H))). apply in_seq. lia. }
  apply in_map_iff in Hin. destruct Hin as (i & E & Hx). apply in_seq in Hx. exists i. split; [lia|auto].
Qed.

Lemma inv_r n f j : permutes n f -> (j < n)%nat -> (inv n f j < n)%nat /\ f (inv n f j) = j.
Proof.
  intros H Hj. destruct (permutes_onto H Hj) as (i & Hi & E). unfold inv.
  assert (Hin : In i (filter (fun i => Nat.eqb (f i) j) (seq 0 n))).
  { apply filter_In. split; [apply in_seq; lia|now apply Nat.eqb_eq]. }
  destruct (filter (fun i => Nat.eqb (f i) j) (seq 0 n)) as [|x l] eqn:EF; [contradiction|].
  assert (Hx : In x (filter (fun i => Nat.eqb (f i) j) (seq 0 n))) by (rewrite EF; now left).
  apply filter_In in Hx. destruct Hx as [Hx E1]. apply in_seq in Hx. apply Nat.eqb_eq in E1. cbn. split; [lia|auto].
Qed.
Lemma inv_l n f i : permutes n f -> (i < n)%nat -> inv n f (f i) = i.
Proof.
  intros H Hi. destruct (inv_r H (proj1 H i Hi)) as [A B]. apply (proj2 H); auto.
Qed.
Lemma inv_permutes n f : permutes n f -> permutes n (inv n f).
Proof.
  intros H. split.
  - intros i Hi. now apply inv_r.
  - intros i j Hi Hj E. rewrite <- (proj2 (inv_r H Hi)), <- (proj2 (inv_r H Hj)). now rewrite E.
Qed.

Lemma sumf_perm {A : Type} (l l' : list A) f : Permutation l l' -> sumf l f = sumf l' f.
Proof. induction 1; cbn [sumf] in *; lra. Qed.
Lemma sum_permuted n f g : permutes n f -> sum n (fun i => g (f i)) = sum n g.
Proof. intros H. rewrite <- (sumf_perm g (permutes_perm H)). now rewrite sumf_map. Qed.

Lemma sumf_moved sh : forall sg f, (forall n, (n < length sh)%nat -> permutes (nth n sh 0%nat) (sg n)) ->
  sumf (indices sh) (fun idx => f (moved sg idx)) = sumf (indices sh) f.
Proof.
  induction sh as [|m sh IH]; intros sg f H; [reflexivity|]. rewrite !sumf_indices_cons.
  assert (H0 : permutes m (sg 0%nat)) by (apply (H 0%nat); cbn; lia).
  etransitivity; [|apply (@sum_permuted m (sg 0%nat) _ H0)]. apply sum_ext. intros i Hi. cbn [moved].
  apply (IH (fun n => sg (S n)) (fun idx => f (sg 0%nat i :: idx))). intros n Hn. apply (H (S n)). cbn. lia.
Qed.
Lemma moved_valid sh : forall sg idx, (forall n, (n < length sh)%nat -> permutes (nth n sh 0%nat) (sg n)) ->
  valid idx sh -> valid (moved sg idx) sh.
Proof.
  induction sh as [|m sh IH]; intros sg idx H Hv; inversion Hv; subst; cbn [moved]; constructor.
  - apply (H 0%nat); [cbn; lia|auto].
  - apply IH; auto. intros n Hn. apply (H (S n)). cbn. lia.
Qed.

(** *** Models transport *)
Lemma same_factors_tail K a sg pi U U' Us Us' : same_factors K a sg pi (U :: Us) (U' :: Us') ->
  same_factors K (fun n => a (S n)) (fun n => sg (S n)) pi Us Us'.
Proof.
  intros [Hl H]. cbn in Hl. split; [lia|]. intros n i r Hn Hi Hr. apply (H (S n) i r); cbn; auto. lia.
Qed.
Lemma colprod_moved K Us : forall a sg pi Us' idx r, same_factors K a sg pi Us Us' ->
  valid idx (rows Us) -> (r < K)%nat ->
  colprod Us' (moved sg idx) (pi r) = scale_prod (length Us) a * colprod Us idx r.
Proof.
  induction Us as [|U Us IH]; intros a sg pi Us' idx r H Hv Hr; inversion Hv; subst.
  - destruct Us'; cbn; [ring|destruct H as [H _]; discriminate].
  - destruct Us' as [|U' Us']; [destruct H as [H _]; discriminate|]. cbn [moved colprod length scale_prod].
    rewrite (IH _ _ _ _ _ _ (same_factors_tail H)) by auto.
    pose proof (proj2 H 0%nat x r ltac:(cbn; lia) ltac:(auto) Hr) as E. cbn [nth] in E. rewrite E. ring.
Qed.
Lemma entry_moved K a sg pi Us Us' idx : same_factors K a sg pi Us Us' -> permutes K pi -> valid idx (rows Us) ->
  cp_entry Us' unit_weights K (moved sg idx) = scale_prod (length Us) a * cp_entry Us unit_weights K idx.
Proof.
  intros H Hp Hv. unfold cp_entry. rewrite <- (@sum_permuted K pi _ Hp). rewrite <- sum_scal_l.
  apply sum_ext. intros r Hr. unfold unit_weights. rewrite (colprod_moved H Hv Hr). ring.
Qed.
Lemma sse_moved K c a sg pi X X' Us Us' : same_data c sg X X' -> same_factors K a sg pi Us Us' ->
  permutes K pi -> rows Us = shape X -> scale_prod (length Us) a = c ->
  sse X' Us' unit_weights K = c ^ 2 * sse X Us unit_weights K.
Proof.
  intros (Hs & Hsg & Hd) H Hp Hr Ha. unfold sse. rewrite Hs, <- sumf_scal_l, <- (@sumf_moved _ sg _ Hsg).
  apply sumf_ext. intros idx Hi. apply in_indices in Hi. rewrite Hd by auto.
  rewrite (entry_moved H Hp) by (rewrite Hr; auto). rewrite Ha. ring.
Qed.
Lemma norm_moved c sg X X' : same_data c sg X X' ->
  sumf (indices (shape X')) (fun idx => get X' idx ^ 2) = c ^ 2 * sumf (indices (shape X)) (fun idx => get X idx ^ 2).
Proof.
  intros (Hs & Hsg & Hd). rewrite Hs, <- sumf_scal_l, <- (@sumf_moved _ sg _ Hsg).
  apply sumf_ext. intros idx Hi. apply in_indices in Hi. rewrite Hd by auto. ring.
Qed.

(** *** Scales *)
Definition upd (a : nat -> R) (m : nat) (x : R) (n : nat) : R := if Nat.eqb n m then x else a n.
Lemma scale_ext N : forall a b, (forall n, (n < N)%nat -> a n = b n) -> scale_prod N a = scale_prod N b.
Proof.
  induction N as [|N IH]; intros a b H; cbn; auto. rewrite (H 0%nat) by lia. f_equal. apply IH.
  intros n Hn. apply H. lia.
Qed.
Lemma scale_upd N : forall a m x, (m < N)%nat -> scale_prod N (upd a m x) * a m = scale_prod N a * x.
Proof.
  induction N as [|N IH]; intros a m x Hm; [lia|]. cbn [scale_prod]. destruct m as [|m].
  - replace (scale_prod N (fun n => upd a 0 x (S n))) with (scale_prod N (fun n => a (S n)))
      by (apply scale_ext; reflexivity). unfold upd; cbn. ring.
  - pose proof (IH (fun n => a (S n)) m x ltac:(lia)) as E.
    replace (scale_prod N (fun n => upd a (S m) x (S n))) with (scale_prod N (upd (fun n => a (S n)) m x))
      by (apply scale_ext; reflexivity).
    replace (upd a (S m) x 0%nat) with (a 0%nat) by reflexivity.
    rewrite !Rmult_assoc, E. ring.
Qed.
Lemma scale_nonzero N : forall a, (forall n, (n < N)%nat -> a n <> 0) -> scale_prod N a <> 0.
Proof.
  induction N as [|N IH]; intros a H; cbn; [lra|]. apply Rmult_integral_contrapositive_currified.
  - apply H; lia.
  - apply IH. intros n Hn. apply H; lia.
Qed.
(** the scale of mode m that makes the product c *)
Definition rescale (N : nat) (a : nat -> R) (m : nat) (c : R) : R := c * a m / scale_prod N a.
Lemma scale_rescale N a m c : (m < N)%nat -> (forall n, (n < N)%nat -> a n <> 0) ->
  scale_prod N (upd a m (rescale N a m c)) = c.
Proof.
  intros Hm Ha. pose proof (@scale_upd N a m (rescale N a m c) Hm) as E. unfold rescale in *.
  apply (Rmult_eq_reg_r (a m)); [|now apply Ha]. rewrite E. field. now apply scale_nonzero.
Qed.
Lemma rescale_nonzero N a m c : (m < N)%nat -> c <> 0 -> (forall n, (n < N)%nat -> a n <> 0) -> rescale N a m c <> 0.
Proof.
  intros Hm Hc Ha. unfold rescale, Rdiv. repeat apply Rmult_integral_contrapositive_currified; auto.
  apply Rinv_neq_0_compat. now apply scale_nonzero.
Qed.
Lemma rescale_same N a m : (forall n, (n < N)%nat -> a n <> 0) -> rescale N a m (scale_prod N a) = a m.
Proof. intros Ha. unfold rescale. field. now apply scale_nonzero. Qed.

(** *** The best matrix of smallest size *)
Definition least_best (K : nat) (X : nd) (Us : list nd) (m : nat) (Z : nd) : Prop :=
  let N := nth m (shape X) 0%nat in
  is_mat N K Z /\
  (forall W, is_mat N K W -> sse X (with_factor m Z Us) unit_weights K <= sse X (with_factor m W Us) unit_weights K) /\
  (forall W, is_mat N K W -> sse X (with_factor m W Us) unit_weights K <= sse X (with_factor m Z Us) unit_weights K ->
     frob2 N K (mget Z) <= frob2 N K (mget W)).

Lemma dist2_mid p K C A B Y Z :
  dist2 p C (mprod K (mid Y Z) A) B <= (dist2 p C (mprod K Y A) B + dist2 p C (mprod K Z A) B) / 2.
Proof.
  unfold dist2, Rdiv. rewrite Rmult_plus_distr_r, <- !sum_scal_r, <- sum_plus. apply sumf_le. intros i _.
  rewrite <- !sum_scal_r, <- sum_plus. apply sumf_le. intros j _.
  replace (mprod K (mid Y Z) A i j) with ((mprod K Y A i j + mprod K Z A i j) * / 2).
  - generalize (mprod K Y A i j) (mprod K Z A i j) (B i j). intros x y b.
    pose proof (pow2_ge_0 (x - y)). nra.
  - unfold mprod, mid. rewrite <- sum_plus, <- sum_scal_r. apply sum_ext. intros; field.
Qed.

Lemma least_unique K X Us m Y Z : rows Us = shape X -> (m < length (shape X))%nat ->
  least_best K X Us m Y -> least_best K X Us m Z -> Y = Z.
Proof.
  intros Hr Hm (HY & Y1 & Y2) (HZ & Z1 & Z2). set (N := nth m (shape X) 0%nat) in *. apply (mat_ext HY HZ).
  set (T := tab2 N K (mid (mget Y) (mget Z))). assert (HT : is_mat N K T) by apply is_mat_tab2.
  assert (ET : forall i j, (i < N)%nat -> (j < K)%nat -> mget T i j = mid (mget Y) (mget Z) i j)
    by (intros; unfold T; now rewrite mget_tab2).
  assert (Hsq : sse X (with_factor m Y Us) unit_weights K = sse X (with_factor m Z Us) unit_weights K).
  { apply Rle_antisym; auto. }
  assert (HTs : sse X (with_factor m T Us) unit_weights K <= sse X (with_factor m Z Us) unit_weights K).
  { rewrite !(mode_sse _ Hr Hm) in Hsq |- *.
    pose proof (@dist2_mid N K (prodl (remove_at m (shape X))) (mode_A X Us m) (mode_B X m) (mget Y) (mget Z)) as M.
    fold N in Hsq |- *. rewrite Hsq in M. eapply Rle_trans; [apply Req_le|eapply Rle_trans; [exact M|lra]].
    unfold dist2. apply sum_ext. intros i Hi. apply sum_ext. intros j Hj. do 2 f_equal.
      unfold mprod. apply sum_ext. intros r Hk. now rewrite ET. }
  pose proof (Z2 T HT HTs) as F. rewrite (frob2_ext ET), frob2_mid in F.
  assert (F1 : frob2 N K (mget Y) <= frob2 N K (mget Z)) by (apply Y2; auto; lra).
  apply dist2_eq0. pose proof (dist2_ge0 N K (mget Y) (mget Z)). lra.
Qed.

(** *** Moving the best matrix of smallest size *)
Section Move.
Variables (K : nat) (c : R) (sg : nat -> nat -> nat) (pi : nat -> nat) (X X' : nd).
Hypothesis (HD : same_data c sg X X') (Hp : permutes K pi) (Hc : c <> 0).
Variables (a : nat -> R) (Us Us' : list nd).
Hypothesis (HF : factors_ok K X Us) (HF' : factors_ok K X' Us') (HS : same_factors K a sg pi Us Us').
Hypothesis (Ha : forall n, (n < length (shape X))%nat -> a n <> 0).
Variable (m : nat).
Hypothesis (Hm : (m < length (shape X))%nat).
Let N := nth m (shape X) 0%nat.
Let b := rescale (length (shape X)) a m c.

Definition forth (W : nd) : nd :=
  tab2 N K (fun i r => b * mget W (inv N (sg m) i) (inv K pi r)).
Definition back (W : nd) : nd := tab2 N K (fun i r => / b * mget W (sg m i) (pi r)).

Lemma Hperm : permutes N (sg m).
Proof. apply HD. exact Hm. Qed.
Lemma b_nonzero : b <> 0.
Proof. now apply rescale_nonzero. Qed.
Lemma forth_entry W i r : (i < N)%nat -> (r < K)%nat -> mget (forth W) (sg m i) (pi r) = b * mget W i r.
Proof.
  intros Hi Hr. unfold forth. rewrite mget_tab2 by (try apply Hperm; try apply Hp; auto).
  now rewrite (inv_l Hperm Hi), (inv_l Hp Hr).
Qed.
Lemma back_entry W i r : (i < N)%nat -> (r < K)%nat -> mget W (sg m i) (pi r) = b * mget (back W) i r.
Proof.
  intros Hi Hr. unfold back. rewrite mget_tab2 by auto. field. apply b_nonzero.
Qed.

Lemma replaced W W' : is_mat N K W ->
  (forall i r, (i < N)%nat -> (r < K)%nat -> mget W' (sg m i) (pi r) = b * mget W i r) ->
  same_factors K (upd a m b) sg pi (with_factor m W Us) (with_factor m W' Us').
Proof.
  intros HW E. destruct HS as [Hl H]. pose proof (mode_len (proj2 HF)) as HL.
  unfold with_factor. split; [now rewrite !length_replace_at|].
  intros n i r Hn Hi Hr. rewrite length_replace_at in Hn. unfold upd.
  destruct (Nat.eqb_spec n m) as [->|Hne].
  - rewrite nth_replace_at_eq in Hi by auto. rewrite !nth_replace_at_eq by (auto; lia).
    unfold nrows in Hi. rewrite (proj2 HW) in Hi. now apply E.
  - rewrite nth_replace_at_neq in Hi by auto. rewrite !nth_replace_at_neq by auto. now apply H.
Qed.
Lemma replaced_sse W W' : is_mat N K W ->
  (forall i r, (i < N)%nat -> (r < K)%nat -> mget W' (sg m i) (pi r) = b * mget W i r) ->
  sse X' (with_factor m W' Us') unit_weights K = c ^ 2 * sse X (with_factor m W Us) unit_weights K.
Proof.
  intros HW E. assert (HF1 := factors_ok_replace HF Hm HW).
  apply (@sse_moved K c (upd a m b) sg pi X X' _ _ HD (replaced HW E) Hp (proj2 HF1)).
  unfold with_factor. rewrite length_replace_at, (mode_len (proj2 HF)). now apply scale_rescale.
Qed.
Lemma moved_frob W W' :
  (forall i r, (i < N)%nat -> (r < K)%nat -> mget W' (sg m i) (pi r) = b * mget W i r) ->
  frob2 N K (mget W') = b ^ 2 * frob2 N K (mget W).
Proof.
  intros E. unfold frob2. rewrite <- (@sum_permuted N (sg m) _ Hperm), <- sum_scal_l. apply sum_ext. intros i Hi.
  rewrite <- (@sum_permuted K pi _ Hp), <- sum_scal_l. apply sum_ext. intros r Hr. rewrite E by auto. ring.
Qed.

Lemma move_best Z Z' : least_best K X Us m Z -> least_best K X' Us' m Z' ->
  forall i r, (i < N)%nat -> (r < K)%nat -> mget Z' (sg m i) (pi r) = b * mget Z i r.
Proof.
  intros (HZ & Z1 & Z2) HZ'. fold N in HZ, Z1, Z2.
  assert (Es : shape X' = shape X) by apply HD.
  assert (Hc2 : 0 < c ^ 2) by (assert (0 < c * c) by (now apply Rsqr_pos_lt); lra).
  assert (Hb2 : 0 < b ^ 2) by (assert (0 < b * b) by (apply Rsqr_pos_lt, b_nonzero); lra).
  assert (HB : least_best K X' Us' m (forth Z)).
  { red. rewrite Es. fold N. split; [apply is_mat_tab2|]. split.
    - intros W HW. rewrite (replaced_sse HZ (@forth_entry Z)).
      rewrite (@replaced_sse (back W) W (is_mat_tab2 _ _ _) (@back_entry W)).
      apply Rmult_le_compat_l; [lra|]. apply Z1. apply is_mat_tab2.
    - intros W HW Hle. rewrite (replaced_sse HZ (@forth_entry Z)) in Hle.
      rewrite (@replaced_sse (back W) W (is_mat_tab2 _ _ _) (@back_entry W)) in Hle.
      rewrite (moved_frob (@forth_entry Z)), (moved_frob (@back_entry W)).
      apply Rmult_le_compat_l; [lra|]. apply Z2; [apply is_mat_tab2|].
      now apply (Rmult_le_reg_l (c ^ 2)). }
  assert (Hm' : (m < length (shape X'))%nat) by (now rewrite Es).
  rewrite (least_unique (proj2 HF') Hm' HZ' HB). apply forth_entry.
Qed.
End Move.

(** *** A single-mode update returns the best matrix of smallest size *)
Lemma update_least env cs K s m :
  cp_coherent K s -> cs_rank cs = K -> (m < length (shape (cp_X s)))%nat -> free_mode cs s m ->
  svd_works_on K K (env_svd env) ->
  exists s' Z, cp_update_factor env cs s m = (s', None) /\
    kt_fms (cp_dec s') = with_factor m Z (kt_fms (cp_dec s)) /\ same_problem s s' /\ cp_coherent K s' /\
    least_best K (cp_X s) (kt_fms (cp_dec s)) m Z.
Proof.
  intros H HK Hm Hfree Hsvd. pose proof (co_fac H) as HF. pose proof HF as [HU Hr].
  destruct (als_rhs_ok env (co_data H) HF Hm) as (P & EP & HP & HPe).
  destruct (als_lhs_ok m HU HK) as (V & EV & HV & HVe).
  destruct (Hsvd V HV) as (U & Sv & Vh & ES & HS).
  destruct (rightsolve_ok HV HP ES HS) as (Z & EZ & HZ & Hnormal & _ & Hmin).
  destruct (update_with_solver H Hm EV EP (free_rightsolve env Hfree) EZ HZ)
    as (s' & Es & Hfm & _ & _ & HSP & HC).
  exists s', Z. split; auto. split; auto. split; auto. split; auto.
  set (N := nth m (shape (cp_X s)) 0%nat) in *. set (Us := kt_fms (cp_dec s)) in *. set (X := cp_X s) in *.
  set (C := prodl (remove_at m (shape X))). set (A := mode_A X Us m). set (B := mode_B X m).
  assert (EgV : forall a j, (a < K)%nat -> (j < K)%nat -> mget V a j = gV C A a j).
  { intros a j Ha Hj. rewrite HVe by auto. symmetry. apply mode_gV; auto. }
  assert (EgM : forall i j, (i < N)%nat -> (j < K)%nat -> mget P i j = gM C A B i j).
  { intros i j Hi Hj. rewrite HPe by auto. symmetry. apply mode_gM; auto. }
  assert (Nk : normal_eq N K K (mget Z) (gV C A) (gM C A B)).
  { intros i a Hi Ha. rewrite <- (Hnormal i a Hi Ha). apply sum_ext. intros j Hj.
    rewrite <- EgV, <- EgM by auto. do 2 f_equal. unfold mprod. apply sum_ext. intros k Hk. now rewrite EgV. }
  assert (NZ : normal_eq N K C (mget Z) A B) by (apply gram_normal; now apply gram_exact).
  split; [exact HZ|]. fold N. split.
  - intros W HW. rewrite !(mode_sse K Hr Hm). now apply gram_optimal.
  - intros W HW Hle. rewrite !(mode_sse K Hr Hm) in Hle. fold N C A B in Hle.
    rewrite (ls_pythagoras (mget W) NZ) in Hle.
    assert (E0 : forall i j, (i < N)%nat -> (j < C)%nat -> mprod K (mget W) A i j = mprod K (mget Z) A i j).
    { apply dist2_eq0. apply Rle_trans with (frob2 N C (mprod K (fun i a => mget W i a - mget Z i a) A)); [|lra].
      apply Req_le. unfold dist2, frob2. apply sum_ext. intros i Hi. apply sum_ext. intros j Hj. f_equal.
      unfold mprod. rewrite <- sum_minus. apply sum_ext. intros; ring. }
    assert (NW : normal_eq N K C (mget W) A B).
    { intros i r Hi Hk. rewrite <- (NZ i r Hi Hk). apply sum_ext. intros j Hj. now rewrite E0. }
    apply Hmin. pose proof (proj2 (@gram_normal N K C A B (mget W)) NW) as EW.
    replace (dist2 N K (mprod K (mget W) (mget V)) (mget P)) with 0; [apply dist2_ge0|].
    symmetry. apply sum_zero. intros i Hi. apply sum_zero. intros j Hj. rewrite EgM, <- EW by auto.
    replace (mprod K (mget W) (mget V) i j) with (mprod K (mget W) (gV C A) i j); [ring|].
    unfold mprod. apply sum_ext. intros k Hk. now rewrite EgV.
Qed.

Lemma same_factors_ext K a a' sg pi Us Us' : (forall n, (n < length Us)%nat -> a' n = a n) ->
  same_factors K a sg pi Us Us' -> same_factors K a' sg pi Us Us'.
Proof. intros E [Hl H]. split; auto. intros n i r Hn Hi Hr. rewrite E by auto. auto. Qed.

(** *** Two runs side by side *)
Section Runs.
Variables (env env' : cp_env) (cs cs' : cp_settings) (K : nat).
Hypothesis (HK : cs_rank cs = K) (HK' : cs_rank cs' = K).
Hypothesis (Hsvd : svd_works_on K K (env_svd env)) (Hsvd' : svd_works_on K K (env_svd env')).
Variables (c : R) (sg : nat -> nat -> nat) (pi : nat -> nat).
Hypothesis (Hc : c <> 0) (Hp : permutes K pi).
Let md := cp_model env cs.
Let md' := cp_model env' cs'.
Notation fms s := (kt_fms (cp_dec s)).

Record paired (a : nat -> R) (s s' : cp_state) : Prop := {
  pr_coh : cp_coherent K s; pr_coh' : cp_coherent K s';
  pr_free : free_fit cs s; pr_free' : free_fit cs' s';
  pr_data : same_data c sg (cp_X s) (cp_X s');
  pr_fac : same_factors K a sg pi (fms s) (fms s');
  pr_scale : forall n, (n < length (shape (cp_X s)))%nat -> a n <> 0 }.

Lemma update_paired a s s' m : paired a s s' -> (m < length (shape (cp_X s)))%nat ->
  exists t t', cp_update_factor env cs s m = (t, None) /\ cp_update_factor env' cs' s' m = (t', None) /\
    same_problem s t /\ same_problem s' t' /\
    paired (upd a m (rescale (length (shape (cp_X s))) a m c)) t t'.
Proof.
  intros [HC HC' HF HF' HD HS Ha] Hm.
  assert (Es : shape (cp_X s') = shape (cp_X s)) by apply HD.
  assert (Hm' : (m < length (shape (cp_X s')))%nat) by (now rewrite Es).
  destruct (update_least HC HK Hm (HF m Hm) Hsvd) as (t & Z & E & Ef & HSP & HCt & HL).
  destruct (update_least HC' HK' Hm' (HF' m Hm') Hsvd') as (t' & Z' & E' & Ef' & HSP' & HCt' & HL').
  exists t, t'. split; auto. split; auto. split; auto. split; auto.
  pose proof (@move_best K c sg pi (cp_X s) (cp_X s') HD Hp Hc a _ _ (co_fac HC) (co_fac HC') HS Ha m Hm Z Z' HL HL') as HM.
  constructor; auto.
  - now apply (free_fit_same HSP).
  - now apply (free_fit_same HSP').
  - now rewrite (sp_X HSP), (sp_X HSP').
  - rewrite Ef, Ef'.
    apply (@replaced K c sg pi (cp_X s) a _ _ (co_fac HC) HS m Hm Z Z'); [apply HL|exact HM].
  - rewrite (sp_X HSP). intros n Hn. unfold upd. destruct (Nat.eqb_spec n m); [|auto].
    now apply rescale_nonzero.
Qed.

Lemma modes_paired a l : forall s s', paired a s s' -> scale_prod (length (shape (cp_X s))) a = c ->
  Forall (fun m => (m < length (shape (cp_X s)))%nat) l ->
  exists t t', cp_update_modes env cs l s = (t, None) /\ cp_update_modes env' cs' l s' = (t', None) /\
    same_problem s t /\ same_problem s' t' /\ paired a t t'.
Proof.
  induction l as [|m l IH]; intros s s' HP Hsc Hl.
  - exists s, s'. split; [reflexivity|]. split; [reflexivity|]. split; [apply same_problem_refl|].
    split; [apply same_problem_refl|exact HP].
  - inversion Hl as [|? ? Hm Hl']; subst.
    destruct (update_paired HP Hm) as (t & t' & E & E' & HS & HS' & HP1).
    assert (HP2 : paired a t t').
    { destruct HP1 as [A1 A2 A3 A4 A5 A6 A7]. constructor; auto.
      - revert A6. apply same_factors_ext. intros n Hn. unfold upd. destruct (Nat.eqb_spec n m); auto. subst n.
        rewrite <- Hsc. symmetry. apply rescale_same. apply HP.
      - rewrite (sp_X HS). apply HP. }
    destruct (IH t t' HP2) as (u & u' & F & F' & HT & HT' & HP3); try now rewrite (sp_X HS).
    exists u, u'. cbn [cp_update_modes]. rewrite E, E', F, F'. split; auto. split; auto.
    split; [eapply same_problem_trans; eauto|]. split; [eapply same_problem_trans; eauto|exact HP3].
Qed.

Definition settled (N : nat) (a : nat -> R) : nat -> R := upd a 0 (rescale N a 0 c).

Lemma pass_paired a s s' : paired a s s' ->
  paired (settled (length (shape (cp_X s))) a) (state_after md s 1) (state_after md' s' 1).
Proof.
  intros HP. cbn [state_after md md' cp_model md_update]. unfold cp_update_factors.
  assert (Es : shape (cp_X s') = shape (cp_X s)) by apply (pr_data HP). unfold ndim. rewrite Es.
  pose proof (co_data (pr_coh HP)) as (_ & H2 & _).
  destruct (length (shape (cp_X s))) as [|N] eqn:EN; [lia|].
  destruct (@update_paired a s s' 0 HP ltac:(lia)) as (t & t' & E & E' & HS & HS' & HP1).
  rewrite EN in HP1.
  destruct (@modes_paired (settled (S N) a) (seq 1 N) t t') as (u & u' & F & F' & HT & HT' & HP3).
  - exact HP1.
  - rewrite (sp_X HS), EN. apply scale_rescale; [lia|]. rewrite <- EN. apply HP.
  - rewrite (sp_X HS), EN. apply Forall_forall. intros m Hm. apply in_seq in Hm. lia.
  - cbn [seq cp_update_modes]. rewrite E, E', F, F'. cbn [fst]. exact HP3.
Qed.

Lemma settled_scale N a : (0 < N)%nat -> (forall n, (n < N)%nat -> a n <> 0) -> scale_prod N (settled N a) = c.
Proof. intros. now apply scale_rescale. Qed.

Lemma passes_paired a s s' k : paired a s s' -> scale_prod (length (shape (cp_X s))) a = c ->
  paired a (state_after md s k) (state_after md' s' k).
Proof.
  intros HP Hsc. induction k as [|k IH]; [exact HP|].
  cbn [state_after md md' cp_model md_update]. fold md md'. unfold cp_update_factors.
  assert (Es : shape (cp_X (state_after md' s' k)) = shape (cp_X (state_after md s k))) by apply (pr_data IH).
  unfold ndim. rewrite Es.
  assert (EX : cp_X (state_after md s k) = cp_X s) by (apply (sp_X (proj2 (@after_coherent env cs K s k (pr_coh HP))))).
  destruct (@modes_paired a (seq 0 (length (shape (cp_X (state_after md s k))))) _ _ IH) as (u & u' & F & F' & _ & _ & HP3).
  - now rewrite EX.
  - apply (all_modes (state_after md s k)).
  - rewrite F, F'. exact HP3.
Qed.

Lemma runs_paired a s s' k : paired a s s' ->
  paired (settled (length (shape (cp_X s))) a) (state_after md s (S k)) (state_after md' s' (S k)).
Proof.
  intros HP. rewrite <- !state_after_shift. pose proof (pass_paired HP) as H1. cbn [state_after] in H1.
  apply passes_paired; [exact H1|].
  assert (EX : cp_X (fst (md_update md s)) = cp_X s) by (apply (sp_X (proj2 (@after_coherent env cs K s 1 (pr_coh HP))))).
  rewrite EX. apply settled_scale; [|apply HP]. pose proof (co_data (pr_coh HP)) as (_ & H2 & _). lia.
Qed.

Lemma paired_sse a s s' : paired a s s' -> scale_prod (length (shape (cp_X s))) a = c ->
  sse (cp_X s') (fms s') unit_weights K = c ^ 2 * sse (cp_X s) (fms s) unit_weights K.
Proof.
  intros HP Hsc. apply (sse_moved (pr_data HP) (pr_fac HP) Hp).
  - apply (co_fac (pr_coh HP)).
  - now rewrite (mode_len (proj2 (co_fac (pr_coh HP)))).
Qed.

(** *** Stopping *)
Lemma xdivR_scale q x y : 0 < q -> xdivR (q * x) (q * y) = xdivR x y.
Proof.
  intros Hq. unfold xdivR. destruct (Req_EM_T y 0) as [->|Hy].
  - destruct (Req_EM_T (q * 0) 0) as [_|H]; [|exfalso; apply H; ring].
    destruct (Rlt_dec x 0), (Rlt_dec (q * x) 0); try nra; auto; destruct (Rlt_dec 0 x), (Rlt_dec 0 (q * x)); auto; nra.
  - destruct (Req_EM_T (q * y) 0) as [H|_]; [exfalso; apply Rmult_integral in H; lra|]. f_equal. field. lra.
Qed.
Lemma paired_norm a s s' : paired a s s' -> cp_norm s' ^ 2 = c ^ 2 * cp_norm s ^ 2.
Proof.
  intros HP. rewrite (co_norm (pr_coh HP)), (co_norm (pr_coh' HP)).
  rewrite !norm_energy by (apply (co_data (pr_coh HP)) || apply (co_data (pr_coh' HP))).
  apply (norm_moved (pr_data HP)).
Qed.
Lemma stops_paired a s s' cf cf' k : paired a s s' -> scale_prod (length (shape (cp_X s))) a = c ->
  unit_w K s -> unit_w K s' -> cf_tol cf' = cf_tol cf -> cf_rel_tol cf' = cf_rel_tol cf ->
  cp_stops md' cf' (Fin (sse (cp_X s') (fms s') unit_weights K)) PInf s' k =
  cp_stops md cf (Fin (sse (cp_X s) (fms s) unit_weights K)) PInf s k.
Proof.
  intros HP Hsc HU HU' Et Er.
  assert (Hq : 0 < c ^ 2) by (assert (0 < c * c) by (now apply Rsqr_pos_lt); lra).
  assert (HL : forall j, sse (cp_X s') (fms (state_after md' s' j)) unit_weights K =
                         c ^ 2 * sse (cp_X s) (fms (state_after md s j)) unit_weights K).
  { intros j. pose proof (@passes_paired a s s' j HP Hsc) as HPj.
    pose proof (sp_X (proj2 (@after_coherent env cs K s j (pr_coh HP)))) as X1.
    pose proof (sp_X (proj2 (@after_coherent env' cs' K s' j (pr_coh' HP)))) as X2.
    fold md in X1. fold md' in X2. pose proof (paired_sse HPj) as H. rewrite X1, X2 in H. auto. }
  unfold cp_stops. unfold md, md'. rewrite (@loss_is_sse env cs K s k), (@loss_is_sse env' cs' K s' k) by (apply HP || auto).
  fold md md'. rewrite HL. cbn [bind].
  assert (Hrel : rel_at md' (Fin (sse (cp_X s') (fms s') unit_weights K)) PInf s' k =
                 rel_at md (Fin (sse (cp_X s) (fms s) unit_weights K)) PInf s k).
  { destruct k as [|j]; [reflexivity|]. cbn [rel_at].
    assert (P1 : prev_at md (Fin (sse (cp_X s) (fms s) unit_weights K)) s j = Ok (Fin (sse (cp_X s) (fms (state_after md s j)) unit_weights K))).
    { destruct j; [reflexivity|]. cbn [prev_at]. unfold md. apply loss_is_sse; auto. apply HP. }
    assert (P2 : prev_at md' (Fin (sse (cp_X s') (fms s') unit_weights K)) s' j = Ok (Fin (sse (cp_X s') (fms (state_after md' s' j)) unit_weights K))).
    { destruct j; [reflexivity|]. cbn [prev_at]. unfold md'. apply loss_is_sse; auto. apply HP. }
    rewrite P1, P2. cbn [bind]. unfold md, md'. rewrite (@loss_is_sse env cs K s (S j)), (@loss_is_sse env' cs' K s' (S j)) by (apply HP || auto).
    fold md md'. cbn [bind]. rewrite !HL. cbn [xsub xdiv]. f_equal. rewrite <- Rmult_minus_distr_l. now apply xdivR_scale. }
  rewrite Hrel. destruct (rel_at md _ PInf s k) as [x|]; [|reflexivity]. cbn [bind]. rewrite Et, Er. do 3 f_equal.
  cbn [xdiv]. pose proof (paired_norm (@passes_paired a s s' k HP Hsc)) as Hn.
  cbn [md_norm2 md md' cp_model]. fold md md'.
  match goal with |- xdivR _ ?u = xdivR _ ?v => replace u with (c ^ 2 * v) by (symmetry; exact Hn) end.
  now apply xdivR_scale.
Qed.

Lemma loops_paired a ds ds' d d' cf cf' : paired a (ds_num ds) (ds_num ds') ->
  scale_prod (length (shape (cp_X (ds_num ds)))) a = c ->
  unit_w K (ds_num ds) -> unit_w K (ds_num ds') ->
  ds_prev ds = Fin (sse (cp_X (ds_num ds)) (fms (ds_num ds)) unit_weights K) ->
  ds_prev ds' = Fin (sse (cp_X (ds_num ds')) (fms (ds_num ds')) unit_weights K) ->
  ds_rel ds = PInf -> ds_rel ds' = PInf -> ds_it ds' = ds_it ds -> ds_max ds' = ds_max ds ->
  cf_tol cf' = cf_tol cf -> cf_rel_tol cf' = cf_rel_tol cf ->
  cp_fit_loop md cf ds = (d, None) -> cp_fit_loop md' cf' ds' = (d', None) ->
  ds_it d' = ds_it d /\ exists n, ds_num d = state_after md (ds_num ds) n /\ ds_num d' = state_after md' (ds_num ds') n.
Proof.
  intros HP Hsc HU HU' Ep Ep' Er Er' Ei Em Et Et' E E'.
  destruct (cp_fit_lemma E) as (n & Hn & En & Hbefore & Hend). destruct (Hend eq_refl) as [Hstop Hit].
  destruct (cp_fit_lemma E') as (n' & Hn' & En' & Hbefore' & Hend'). destruct (Hend' eq_refl) as [Hstop' Hit'].
  rewrite Ep, Er in Hbefore, Hstop. rewrite Ep', Er', Ei, Em in *.
  assert (ES : forall k, cp_stops md' cf' (Fin (sse (cp_X (ds_num ds')) (fms (ds_num ds')) unit_weights K)) PInf (ds_num ds') k =
     cp_stops md cf (Fin (sse (cp_X (ds_num ds)) (fms (ds_num ds)) unit_weights K)) PInf (ds_num ds) k).
  { intros k. eapply stops_paired; eauto. }
  assert (Enn : n' = n).
  { destruct (Nat.lt_trichotomy n n') as [Hlt|[Heq|Hlt]]; auto.
    - destruct Hstop as [Hs|Hs]; [lia|]. specialize (Hbefore' n Hlt). rewrite ES in Hbefore'. congruence.
    - destruct Hstop' as [Hs|Hs]; [lia|]. specialize (Hbefore n' Hlt). rewrite ES in Hs. congruence. }
  subst n'. split; [congruence|]. exists n. auto.
Qed.
End Runs.

(** *** The statements *)
Lemma runs_same env env' cs cs' K c sg pi a s s' : cs_rank cs = K -> cs_rank cs' = K ->
  svd_works_on K K (env_svd env) -> svd_works_on K K (env_svd env') -> c <> 0 -> permutes K pi ->
  cp_coherent K s -> cp_coherent K s' -> free_fit cs s -> free_fit cs' s' ->
  same_data c sg (cp_X s) (cp_X s') -> same_factors K a sg pi (kt_fms (cp_dec s)) (kt_fms (cp_dec s')) ->
  (forall n, (n < length (shape (cp_X s)))%nat -> a n <> 0) ->
  exists b, (forall n, (0 < n)%nat -> b n = a n) /\ scale_prod (length (shape (cp_X s))) b = c /\
    forall k, let t := state_after (cp_model env cs) s (S k) in let t' := state_after (cp_model env' cs') s' (S k) in
      same_factors K b sg pi (kt_fms (cp_dec t)) (kt_fms (cp_dec t')) /\
      sse (cp_X s') (kt_fms (cp_dec t')) unit_weights K = c ^ 2 * sse (cp_X s) (kt_fms (cp_dec t)) unit_weights K.
Proof.
  intros HK HK' HS HS' Hc Hp HC HC' HF HF' HD HA Ha.
  assert (HP : paired cs cs' K c sg pi a s s') by (constructor; auto).
  exists (settled c (length (shape (cp_X s))) a).
  split. { intros n Hn. unfold settled, upd. destruct (Nat.eqb_spec n 0); [lia|reflexivity]. }
  assert (Hsc : scale_prod (length (shape (cp_X s))) (settled c (length (shape (cp_X s))) a) = c).
  { apply settled_scale; auto. destruct (co_data HC) as (_ & H2 & _). lia. }
  split; [exact Hsc|]. intros k t t'.
  pose proof (@runs_paired env env' cs cs' K HK HK' HS HS' c sg pi Hc Hp a s s' k HP) as HPk. fold t t' in HPk.
  split; [apply HPk|].
  assert (EX : cp_X t = cp_X s) by (apply (sp_X (proj2 (@after_coherent env cs K s (S k) HC)))).
  assert (EX' : cp_X t' = cp_X s') by (apply (sp_X (proj2 (@after_coherent env' cs' K s' (S k) HC')))).
  rewrite <- EX, <- EX'. apply (paired_sse Hp HPk). now rewrite EX.
Qed.

Lemma fits_same env env' cs cs' K cf cf' disk disk' draws draws' X X' max_its max_its' arg arg' ds dsB ds1 dsB1 c sg pi a :
  let budget := match max_its with Some m => m | None => ds_max ds end in
  let budget' := match max_its' with Some m => m | None => ds_max dsB end in
  plain_call env cs K cf draws X budget arg ds -> plain_call env' cs' K cf' draws' X' budget' arg' dsB ->
  budget' = budget -> cf_tol cf' = cf_tol cf -> cf_rel_tol cf' = cf_rel_tol cf ->
  cp_init_fit env cs disk draws X max_its arg ds = (ds1, None) ->
  cp_init_fit env' cs' disk' draws' X' max_its' arg' dsB = (dsB1, None) ->
  c <> 0 -> permutes K pi -> same_data c sg X X' ->
  same_factors K a sg pi (kt_fms (cp_dec (ds_num ds1))) (kt_fms (cp_dec (ds_num dsB1))) ->
  scale_prod (length (shape X)) a = c ->
  exists d d' e, cp_fit env cs cf disk draws X max_its arg ds = (d, None) /\
    cp_fit env' cs' cf' disk' draws' X' max_its' arg' dsB = (d', None) /\
    ds_it d' = ds_it d /\
    same_factors K a sg pi (kt_fms (cp_dec (ds_num d))) (kt_fms (cp_dec (ds_num d'))) /\
    cp_SSE env (ds_num d) = Ok e /\ cp_SSE env' (ds_num d') = Ok (c ^ 2 * e) /\
    cp_metric env' cs' KExplained (ds_num d') = cp_metric env cs KExplained (ds_num d).
Proof.
  intros budget budget' (A1 & A2 & A3 & A4 & A5 & A6 & A7 & A8 & A9 & A10 & A11)
    (B1 & B2 & B3 & B4 & B5 & B6 & B7 & B8 & B9 & B10 & B11) Eb Et Er E1 E1' Hc Hp HD HA Ha.
  destruct (@complete_fit env cs K cf disk draws X max_its arg ds A1 A2 A3 A4 A5 A6 A7 A8 A9 A10 A11)
    as (x1 & d & F1 & F & FL & HC & HU & HF & EX & Eit & Emax & _ & Eprev & Erel).
  destruct (@complete_fit env' cs' K cf' disk' draws' X' max_its' arg' dsB B1 B2 B3 B4 B5 B6 B7 B8 B9 B10 B11)
    as (x1' & d' & F1' & F' & FL' & HC' & HU' & HF' & EX' & Eit' & Emax' & _ & Eprev' & Erel').
  rewrite E1 in F1. injection F1 as <-. rewrite E1' in F1'. injection F1' as <-.
  assert (Hnz : forall n, (n < length (shape X))%nat -> a n <> 0).
  { intros n Hn H0. apply Hc. rewrite <- Ha. pose proof (@scale_upd (length (shape X)) a n 1 Hn) as E.
    rewrite H0 in E. lra. }
  assert (HP : paired cs cs' K c sg pi a (ds_num ds1) (ds_num dsB1)) by (constructor; rewrite ?EX, ?EX'; auto).
  assert (Hsc : scale_prod (length (shape (cp_X (ds_num ds1)))) a = c) by (now rewrite EX).
  destruct (@loops_paired env env' cs cs' K A1 B1 A3 B3 c sg pi Hc Hp a ds1 dsB1 d d' cf cf' HP Hsc HU HU')
    as [Hit (n & En & En')]; try assumption;
    [now rewrite EX|now rewrite EX'|congruence|rewrite Emax, Emax'; exact Eb|].
  pose proof (@passes_paired env env' cs cs' K A1 B1 A3 B3 c sg pi Hc Hp a _ _ n HP Hsc) as HPn.
  rewrite <- En, <- En' in HPn.
  pose proof (@after_coherent env cs K (ds_num ds1) n HC) as [HCn HSn]. rewrite <- En in HCn, HSn.
  pose proof (@after_coherent env' cs' K (ds_num dsB1) n HC') as [HCn' HSn']. rewrite <- En' in HCn', HSn'.
  assert (Hscn : scale_prod (length (shape (cp_X (ds_num d)))) a = c) by (now rewrite (sp_X HSn)).
  pose proof (paired_sse Hp HPn Hscn) as HE.
  assert (S1 : cp_SSE env (ds_num d) = Ok (sse (cp_X (ds_num d)) (kt_fms (cp_dec (ds_num d))) unit_weights K)).
  { rewrite (cp_SSE_ok env HCn). now rewrite (unit_sse (unit_w_same HSn HU)). }
  assert (S2 : cp_SSE env' (ds_num d') = Ok (c ^ 2 * sse (cp_X (ds_num d)) (kt_fms (cp_dec (ds_num d))) unit_weights K)).
  { rewrite (cp_SSE_ok env' HCn'), (unit_sse (unit_w_same HSn' HU')). now rewrite HE. }
  exists d, d', (sse (cp_X (ds_num d)) (kt_fms (cp_dec (ds_num d))) unit_weights K).
  split; [exact F|]. split; [exact F'|]. split; [exact Hit|]. split; [apply HPn|]. split; [exact S1|]. split; [exact S2|].
  cbn [cp_metric]. unfold cp_explained, explained_of. rewrite S1, S2. cbn [bind]. rewrite (paired_norm HPn).
  rewrite xdivR_scale; [reflexivity|]. assert (0 < c * c) by (now apply Rsqr_pos_lt). lra.
Qed.

(** *** The svd routine does not matter *)
Lemma init_same env env' cs K X disk disk' draws arg d d' e e' : usable_start env cs K X draws arg ->
  env_svd_u env' = env_svd_u env -> ds_num d' = ds_num d ->
  cp_init_components env cs disk draws arg d = (e, None) -> cp_init_components env' cs disk' draws arg d' = (e', None) ->
  ds_num e' = ds_num e.
Proof.
  intros HU Eu Ed. unfold cp_init_components. rewrite Ed.
  assert (Es : cp_init_svd env' cs (ds_num d) = cp_init_svd env cs (ds_num d)) by (unfold cp_init_svd; now rewrite Eu).
  rewrite Es. clear Es.
  destruct HU as [(-> & -> & _)|[(-> & -> & _)|(-> & k & -> & _)]]; cbn.
  - destruct (cp_init_random _ _) as [x|x]; intros E1 E2; inversion E1; inversion E2; reflexivity.
  - destruct (cp_init_svd _ _ _) as [x|x]; intros E1 E2; inversion E1; inversion E2; reflexivity.
  - destruct (cp_check _ _) as [x|x]; cbn; intros E1 E2; inversion E1; inversion E2; reflexivity.
Qed.

Lemma permutes_id n : permutes n (fun i => i).
Proof. split; auto. Qed.
Lemma moved_id idx : moved (fun _ i => i) idx = idx.
Proof. induction idx as [|i idx IH]; cbn; auto. now f_equal. Qed.
Lemma same_data_refl X : same_data 1 (fun _ i => i) X X.
Proof. split; [reflexivity|]. split; [intros; apply permutes_id|]. intros idx _. rewrite moved_id. ring. Qed.
Lemma scale_one N : scale_prod N (fun _ => 1) = 1.
Proof. induction N as [|N IH]; cbn; [reflexivity|]. rewrite IH. ring. Qed.
Lemma same_factors_eq K X Us Us' : factors_ok K X Us -> factors_ok K X Us' ->
  same_factors K (fun _ => 1) (fun _ i => i) (fun r => r) Us Us' -> Us' = Us.
Proof.
  intros [HU Hr] [HU' Hr'] [Hl H]. apply (@nth_ext _ _ _ m0 m0); [exact Hl|]. intros n Hn. rewrite Hl in Hn.
  assert (H1 : is_mat (nrows (nth n Us m0)) K (nth n Us m0)).
  { apply (proj1 (Forall_forall _ _) HU). now apply nth_In. }
  assert (H2 : is_mat (nrows (nth n Us' m0)) K (nth n Us' m0)).
  { apply (proj1 (Forall_forall _ _) HU'). apply nth_In. now rewrite Hl. }
  assert (En : nrows (nth n Us' m0) = nrows (nth n Us m0)).
  { rewrite <- !(map_nth nrows). fold (rows Us) (rows Us'). now rewrite Hr, Hr'. }
  rewrite En in H2. apply (mat_ext H2 H1). intros i r Hi Hk. rewrite (H n i r) by auto. ring.
Qed.

Lemma svd_same env env' cs K cf cf' disk disk' draws X max_its arg ds dsB :
  let budget := match max_its with Some m => m | None => ds_max ds end in
  plain_call env cs K cf draws X budget arg ds -> plain_call env' cs K cf' draws X budget arg dsB ->
  env_svd_u env' = env_svd_u env -> ds_num dsB = ds_num ds -> ds_max dsB = ds_max ds ->
  cf_tol cf' = cf_tol cf -> cf_rel_tol cf' = cf_rel_tol cf ->
  exists d d', cp_fit env cs cf disk draws X max_its arg ds = (d, None) /\
    cp_fit env' cs cf' disk' draws X max_its arg dsB = (d', None) /\
    ds_it d' = ds_it d /\ kt_fms (cp_dec (ds_num d')) = kt_fms (cp_dec (ds_num d)) /\
    kt_w (cp_dec (ds_num d')) = kt_w (cp_dec (ds_num d)) /\ cp_SSE env' (ds_num d') = cp_SSE env (ds_num d).
Proof.
  intros budget HA HB Eu En Em Et Er. pose proof HA as (A1 & A2 & A3 & A4 & A5 & A6 & A7 & A8 & A9 & A10 & A11).
  pose proof HB as (B1 & B2 & B3 & B4 & B5 & B6 & B7 & B8 & B9 & B10 & B11).
  assert (Hb : (match max_its with Some m => m | None => ds_max dsB end) = budget)
    by (unfold budget; destruct max_its; auto).
  assert (Hnn : forall c, free_flags c (length (shape X)) -> match c with Some l => (length l <= length (shape X))%nat | None => True end).
  { intros c' [->| ->]; auto. rewrite repeat_length. lia. }
  destruct (@usable_begun env cs K disk draws X arg ds A1 A4 A5 (Hnn _ A7)) as (k & E & HF & Hw & Hrk).
  destruct (@usable_begun env' cs K disk' draws X arg dsB B1 B4 B5 (Hnn _ B7)) as (k' & E' & HF' & Hw' & Hrk').
  assert (Ek : k' = k).
  { assert (Et0 : ds_num (targeted X dsB) = ds_num (targeted X ds)) by (cbn; now rewrite En).
    pose proof (init_same A5 Eu Et0 E E') as H. apply (f_equal cp_dec) in H. exact H. }
  subst k'.
  destruct (@start_ok env cs K disk draws X max_its arg ds k 0%Z E A4 HF Hw (free_all_false A8) A6) as (F & HC & HU).
  destruct (@start_ok env' cs K disk' draws X max_its arg dsB k 0%Z E' A4 HF Hw (free_all_false B8) B6) as (F' & HC' & HU').
  assert (HB' : plain_call env' cs K cf' draws X (match max_its with Some m => m | None => ds_max dsB end) arg dsB) by (now rewrite Hb).
  destruct (@fits_same env env' cs cs K cf cf' disk disk' draws draws X X max_its max_its arg arg ds dsB _ _ 1
     (fun _ i => i) (fun r => r) (fun _ => 1) HA HB' Hb Et Er F F') as (d & d' & e & G & G' & Hit & HS & S1 & S2 & _).
  - lra.
  - apply permutes_id.
  - apply same_data_refl.
  - split; [reflexivity|]. intros n i r _ _ _.
    change (mget (nth n (kt_fms k) m0) i r = 1 * mget (nth n (kt_fms k) m0) i r). ring.
  - apply scale_one.
  - exists d, d'. split; [exact G|]. split; [exact G'|]. split; [exact Hit|].
    unfold cp_fit in G, G'. rewrite F in G. rewrite F' in G'.
    destruct (fit_reported_true HC G) as [HCd HSd]. destruct (fit_reported_true HC' G') as [HCd' HSd'].
    split.
    + apply (@same_factors_eq K X); auto.
      * pose proof (co_fac HCd) as H. rewrite (sp_X HSd) in H. exact H.
      * pose proof (co_fac HCd') as H. rewrite (sp_X HSd') in H. exact H.
    + split.
      * rewrite (sp_w HSd), (sp_w HSd'). reflexivity.
      * rewrite S1, S2. f_equal. ring.
Qed.
