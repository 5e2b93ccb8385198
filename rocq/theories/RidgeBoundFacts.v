(** Ridge penalties bound the factors of CP_ALS: lemmas for C114. *)
From Verif Require Export PenFixFacts DegenFacts.
From Coq Require Import Rtopology ConstructiveEpsilon.
From Verif Require Import DegenCore CPFit CPExamples.
From Verif Require Import Prelude Lin.
Set Implicit Arguments.
Unset Strict Implicit.
Local Open Scope R_scope.

(** *** One row of the penalised normal equations *)
Section Row.
Variables (K C : nat) (A : nat -> nat -> R) (b u : nat -> R) (lam : R).
Let V r s := sum C (fun c => A r c * A s c).
Let m r := sum C (fun c => b c * A r c).
Let g r := sum K (fun k => u k * V k r) - m r.
Hypothesis (Hl : 0 < lam) (Hn : forall r, (r < K)%nat -> sum K (fun k => g k * V r k) + lam * u r = 0).
Let p c := sum K (fun k => u k * A k c).
Let t r := - g r / lam.
Let q c := sum K (fun k => t k * A k c).

Lemma bilinear (x y : nat -> R) :
  sum C (fun c => sum K (fun k => x k * A k c) * sum K (fun r => y r * A r c)) = sum K (fun r => y r * sum K (fun k => x k * V k r)).
Proof.
  transitivity (sum C (fun c => sum K (fun r => y r * sum K (fun k => x k * (A k c * A r c))))).
  { apply sum_ext. intros c _. rewrite <- sum_scal_l. apply sum_ext. intros r _.
    transitivity (y r * (A r c * sum K (fun k => x k * A k c))); [ring|]. f_equal. rewrite <- sum_scal_l. apply sum_ext. intros; ring. }
  rewrite sum_swap. apply sum_ext. intros r _. rewrite sum_scal_l. f_equal. rewrite sum_swap. apply sum_ext. intros k _. apply sum_scal_l.
Qed.
Lemma row_tv r : (r < K)%nat -> sum K (fun k => t k * V k r) = u r.
Proof.
  intros Hr. specialize (Hn Hr). transitivity (- / lam * sum K (fun k => g k * V r k)).
  - rewrite <- sum_scal_l. apply sum_ext. intros k _. unfold t. replace (V k r) with (V r k); [field; lra|].
    unfold V. apply sum_ext. intros; ring.
  - replace (sum K (fun k => g k * V r k)) with (- (lam * u r)) by lra. field. lra.
Qed.
Lemma row_pq : sum C (fun c => p c * q c) = sum K (fun r => u r ^ 2).
Proof.
  transitivity (sum C (fun c => q c * p c)); [apply sum_ext; intros; ring|]. unfold p, q. rewrite bilinear. apply sum_ext. intros r Hr.
  rewrite row_tv by assumption. ring.
Qed.
Lemma row_bp : sum C (fun c => b c * p c) = sum C (fun c => p c ^ 2) + lam * sum C (fun c => q c ^ 2).
Proof.
  assert (E1 : sum C (fun c => b c * p c) = sum K (fun r => u r * m r)).
  { unfold p. transitivity (sum C (fun c => sum K (fun k => u k * (b c * A k c)))).
    - apply sum_ext. intros c _. rewrite <- sum_scal_l. apply sum_ext. intros; ring.
    - rewrite sum_swap. apply sum_ext. intros r _. apply sum_scal_l. }
  assert (E2 : sum C (fun c => p c ^ 2) = sum K (fun r => u r * sum K (fun k => u k * V k r))).
  { rewrite <- bilinear. apply sum_ext. intros c _. unfold p. ring. }
  assert (E3 : sum C (fun c => q c ^ 2) = sum K (fun r => t r * u r)).
  { transitivity (sum K (fun r => t r * sum K (fun k => t k * V k r))).
    - rewrite <- bilinear. apply sum_ext. intros c _. unfold q. ring.
    - apply sum_ext. intros r Hr. now rewrite row_tv. }
  rewrite E1, E2, E3, <- sum_scal_l, <- sum_plus. apply sum_ext. intros r _. unfold t, g. field. lra.
Qed.
Lemma sum_square x y (f h : nat -> R) :
  sum C (fun c => (x * f c - y * h c) ^ 2) =
  x ^ 2 * sum C (fun c => f c ^ 2) - 2 * x * y * sum C (fun c => f c * h c) + y ^ 2 * sum C (fun c => h c ^ 2).
Proof. rewrite <- !sum_scal_l, <- sum_minus, <- sum_plus. apply sum_ext. intros; ring. Qed.
Lemma sum_square_pos x y (f h : nat -> R) :
  0 <= x ^ 2 * sum C (fun c => f c ^ 2) - 2 * x * y * sum C (fun c => f c * h c) + y ^ 2 * sum C (fun c => h c ^ 2).
Proof. rewrite <- sum_square. apply sum_nonneg. intros. apply sq_pos. Qed.

Lemma row_bound : 16 * (sqrt (3 * lam) * sum K (fun r => u r ^ 2)) <= 9 * sum C (fun c => b c ^ 2).
Proof.
  pose proof (sqrt_sqrt (3 * lam) ltac:(lra)) as Es. pose proof (sqrt_pos (3 * lam)) as Hs. set (s := sqrt (3 * lam)) in *.
  pose proof (sum_square_pos (4 / 3) 1 p b) as H1. pose proof (sum_square_pos 1 s p q) as H2.
  rewrite row_pq in H2. pose proof row_bp as E.
  replace (sum C (fun c => p c * b c)) with (sum C (fun c => b c * p c)) in H1 by (apply sum_ext; intros; ring). rewrite E in H1.
  replace (s ^ 2) with (3 * lam) in H2 by (rewrite <- Es; ring). lra.
Qed.
Lemma row_model : sum C (fun c => p c ^ 2) <= sum C (fun c => b c ^ 2) /\
  sum C (fun c => (p c - b c) ^ 2) <= sum C (fun c => b c ^ 2) - sum C (fun c => p c ^ 2).
Proof.
  assert (Hq : 0 <= lam * sum C (fun c => q c ^ 2)) by (apply Rmult_le_pos; [lra|apply sum_nonneg; intros; apply sq_pos]).
  pose proof (sum_square_pos 1 1 p b) as H1. pose proof row_bp as E.
  assert (E2 : sum C (fun c => (p c - b c) ^ 2) = sum C (fun c => (1 * p c - 1 * b c) ^ 2)) by (apply sum_ext; intros; ring).
  rewrite E2, sum_square in *.
  replace (sum C (fun c => p c * b c)) with (sum C (fun c => b c * p c)) in * by (apply sum_ext; intros; ring). rewrite E in *. split; lra.
Qed.
End Row.

(** *** A factor that solves the penalised normal equations of its mode *)
Lemma frob2_pos n k A : 0 <= frob2 n k A.
Proof. apply sum_nonneg. intros. apply sum_nonneg. intros. apply sq_pos. Qed.
Lemma energy_pos X : 0 <= energy X.
Proof. apply sumf_nonneg. intros. apply sq_pos. Qed.

Section OfMode.
Variables (lam : R) (K : nat) (X : nd) (Us : list nd) (m : nat).
Hypothesis (Hr : rows Us = shape X) (Hm : (m < length (shape X))%nat) (Hl : 0 < lam) (HB : mode_settled false lam K X Us m).
Let N := nth m (shape X) 0%nat.
Let C := prodl (remove_at m (shape X)).
Let U := nth m Us m0.

Lemma row_equations i : (i < N)%nat -> forall r, (r < K)%nat ->
  sum K (fun k => (sum K (fun k0 => mget U i k0 * sum C (fun c => mode_A X Us m k0 c * mode_A X Us m k c)) -
    sum C (fun c => mode_B X m i c * mode_A X Us m k c)) * sum C (fun c => mode_A X Us m r c * mode_A X Us m k c)) + lam * mget U i r = 0.
Proof.
  intros Hi r Hk. destruct (proj1 (@settled_iff lam K X Us m ltac:(lra) false) HB i r Hi Hk) as [H _]. specialize (H eq_refl).
  unfold turned_gap in H. fold U in H. rewrite <- H. f_equal. apply sum_ext. intros k Hkk. f_equal.
  - unfold gap. fold U. unfold mprod. f_equal.
    + apply sum_ext. intros k0 _. f_equal. apply mode_gV; assumption.
    + now apply (mode_gM Us Hm).
  - apply mode_gV; assumption.
Qed.

Lemma factor_bound : 256 * lam * frob2 N K (mget U) ^ 2 <= 27 * energy X ^ 2.
Proof.
  assert (H : 16 * (sqrt (3 * lam) * frob2 N K (mget U)) <= 9 * energy X).
  { rewrite (energy_mode Hm). fold N C. unfold frob2, dist2. rewrite <- !sum_scal_l. apply sum_le. intros i Hi.
    pose proof (row_bound Hl (row_equations Hi)) as G. eapply Rle_trans; [exact G|]. right. f_equal. apply sum_ext. intros; ring. }
  pose proof (frob2_pos N K (mget U)) as Hf. set (f := frob2 N K (mget U)) in *. set (e := energy X) in *. clearbody f e.
  pose proof (sqrt_sqrt (3 * lam) ltac:(lra)) as Es. pose proof (sqrt_pos (3 * lam)) as Hs. set (s := sqrt (3 * lam)) in *. clearbody s.
  assert (G : (16 * (s * f)) * (16 * (s * f)) <= (9 * e) * (9 * e)) by (apply Rmult_le_compat; nra).
  replace ((16 * (s * f)) * (16 * (s * f))) with (256 * (s * s) * f ^ 2) in G by ring. rewrite Es in G. lra.
Qed.

Lemma model_bound : sumf (indices (shape X)) (fun idx => cp_entry Us unit_weights K idx ^ 2) + sse X Us unit_weights K <= energy X.
Proof.
  assert (HU : with_factor m U Us = Us) by (apply with_factor_self; now rewrite (mode_len Hr)).
  assert (E1 : sse X Us unit_weights K = dist2 N C (mprod K (mget U) (mode_A X Us m)) (mode_B X m)).
  { rewrite <- HU at 1. now rewrite (mode_sse K Hr Hm). }
  assert (E2 : sumf (indices (shape X)) (fun idx => cp_entry Us unit_weights K idx ^ 2) = frob2 N C (mprod K (mget U) (mode_A X Us m))).
  { unfold frob2. rewrite (sumf_indices_axis _ Hm). apply sum_ext. intros i Hi. rewrite sumf_indices_seq. apply sum_ext. intros c Hc. f_equal.
    unfold cp_entry, mprod. apply sum_ext. intros r Hk. unfold unit_weights, mode_A. rewrite colprod_insert.
    - fold U. ring.
    - rewrite (mode_len Hr). exact Hm.
    - rewrite (mode_len Hr). now apply (mode_ix_length Hm). }
  rewrite E1, E2, (energy_mode Hm). fold N C. unfold frob2, dist2. rewrite <- sum_plus. apply sum_le. intros i Hi.
  destruct (row_model Hl (row_equations Hi)) as [_ G].
  assert (EB : sum C (fun c => (0 - mode_B X m i c) ^ 2) = sum C (fun c => mode_B X m i c ^ 2)) by (apply sum_ext; intros; ring).
  rewrite EB. unfold mprod. lra.
Qed.
End OfMode.

(** *** Passes *)
Lemma settled_with nn lam K X Us m Z : (m < length Us)%nat -> allowed nn (nth m (shape X) 0%nat) K (mget Z) ->
  (forall Y, allowed nn (nth m (shape X) 0%nat) K Y -> normal_loss lam K X Us m (mget Z) <= normal_loss lam K X Us m Y) ->
  mode_settled nn lam K X (with_factor m Z Us) m.
Proof.
  intros Hm HA HB.
  assert (E : forall Y, normal_loss lam K X (with_factor m Z Us) m Y = normal_loss lam K X Us m Y).
  { intros Y. unfold normal_loss, normal_dist, normal_lhs, normal_rhs, mttkrp_entry, with_factor. now rewrite remove_replace_at. }
  unfold mode_settled. cbv zeta. rewrite E. unfold with_factor at 1 2. rewrite nth_replace_at_eq by assumption.
  split; [exact HA|]. intros Y HY. rewrite E. now apply HB.
Qed.

Section Passes.
Variables (env : cp_env) (cs : cp_settings) (K : nat) (nn : nat -> bool) (lam : nat -> R).
Hypothesis (HK : cs_rank cs = K) (HS : svd_contract (env_svd env)) (HN : nnls_contract (env_nnls env)).
Let md := cp_model env cs.
Notation fms s := (kt_fms (cp_dec s)).

Definition within_bound (X : nd) (Us : list nd) (m : nat) : Prop :=
  256 * lam m * frob2 (nth m (shape X) 0%nat) K (mget (nth m Us m0)) ^ 2 <= 27 * energy X ^ 2.

Lemma modes_bounded l : forall s t, cp_coherent K s -> option_set cs s nn lam -> Forall (fun m => (m < length (shape (cp_X s)))%nat) l ->
  cp_update_modes env cs l s = (t, None) -> forall m, In m l -> nn m = false -> 0 < lam m -> within_bound (cp_X s) (fms t) m.
Proof.
  induction l as [|n l IH]; intros s t HC HO Hl E m Hin Hnn Hlam; [contradiction|]. cbn [cp_update_modes] in E.
  apply Forall_cons_iff in Hl. destruct Hl as [Hn Hl'].
  destruct (@update_settles env cs K nn lam HK HS HN s n HC HO Hn) as (s1 & Z & E1 & HZ & Ef1 & HSP & HC1 & AZ & BZ). rewrite E1 in E.
  assert (HO1 : option_set cs s1 nn lam) by (now apply (option_same HSP)).
  assert (Hl1 : Forall (fun m => (m < length (shape (cp_X s1)))%nat) l) by (now rewrite (sp_X HSP)).
  destruct (in_dec Nat.eq_dec m l) as [Hi|Hi].
  { rewrite <- (sp_X HSP). now apply (IH s1 t). }
  destruct Hin as [<-|Hin]; [|contradiction].
  destruct (@modes_run env cs K nn lam HK HS HN l s1 HC1 HO1 Hl1) as (t' & Et' & _ & _ & Ht'). rewrite E in Et'. injection Et' as <-.
  unfold within_bound. rewrite (Ht' n Hi). rewrite <- (sp_X HSP).
  apply factor_bound; [exact (proj2 (co_fac HC1))|now rewrite (sp_X HSP)|exact Hlam|]. rewrite Ef1, (sp_X HSP), <- Hnn.
  apply settled_with; auto. rewrite (mode_len (proj2 (co_fac HC))). exact Hn.
Qed.

Lemma modes_last l : forall s t, cp_coherent K s -> option_set cs s nn lam -> Forall (fun m => (m < length (shape (cp_X s)))%nat) l ->
  cp_update_modes env cs l s = (t, None) -> l <> [] -> let m := last l 0%nat in mode_settled (nn m) (lam m) K (cp_X s) (fms t) m.
Proof.
  induction l as [|n l IH]; intros s t HC HO Hl E Hne; [congruence|]. cbn [cp_update_modes] in E.
  apply Forall_cons_iff in Hl. destruct Hl as [Hn Hl'].
  destruct (@update_settles env cs K nn lam HK HS HN s n HC HO Hn) as (s1 & Z & E1 & HZ & Ef1 & HSP & HC1 & AZ & BZ). rewrite E1 in E.
  destruct l as [|n' l].
  - cbn in E. injection E as <-. cbn [last]. cbv zeta. rewrite Ef1. apply settled_with; auto. rewrite (mode_len (proj2 (co_fac HC))). exact Hn.
  - rewrite <- (sp_X HSP). apply (IH s1 t); auto; [now apply (option_same HSP)|now rewrite (sp_X HSP)|discriminate].
Qed.

Lemma pass_bounded s : cp_coherent K s -> option_set cs s nn lam ->
  forall k m, (m < length (shape (cp_X s)))%nat -> nn m = false -> 0 < lam m -> within_bound (cp_X s) (fms (state_after md s (S k))) m.
Proof.
  intros HC HO k m Hm Hnn Hlam.
  destruct (@after_coherent env cs K s k HC) as [HCk HSk]. fold md in HCk, HSk. pose proof (option_same HSk HO) as HOk.
  cbn [state_after]. set (u := state_after md s k) in *. cbn [md cp_model md_update]. unfold cp_update_factors.
  destruct (@modes_run env cs K nn lam HK HS HN _ u HCk HOk (all_modes u)) as (t & Et & _). rewrite Et. cbn [fst].
  rewrite <- (sp_X HSk). apply (modes_bounded HCk HOk (all_modes u) Et); auto. apply in_seq. unfold ndim. rewrite (sp_X HSk). lia.
Qed.

Lemma pass_model s : cp_coherent K s -> option_set cs s nn lam -> let m := (length (shape (cp_X s)) - 1)%nat in nn m = false -> 0 < lam m ->
  forall k, let Us := fms (state_after md s (S k)) in
    sumf (indices (shape (cp_X s))) (fun idx => cp_entry Us unit_weights K idx ^ 2) + sse (cp_X s) Us unit_weights K <= energy (cp_X s).
Proof.
  intros HC HO m Hnn Hlam k. cbv zeta.
  destruct (@after_coherent env cs K s k HC) as [HCk HSk]. fold md in HCk, HSk. pose proof (option_same HSk HO) as HOk.
  cbn [state_after]. set (u := state_after md s k) in *. cbn [md cp_model md_update]. unfold cp_update_factors.
  destruct (@modes_run env cs K nn lam HK HS HN _ u HCk HOk (all_modes u)) as (t & Et & HCt & HSt & _). rewrite Et. cbn [fst].
  destruct (co_data HC) as (_ & Hd & _).
  assert (EX : cp_X t = cp_X s) by (rewrite (sp_X HSt); apply (sp_X HSk)).
  assert (El : last (seq 0 (ndim (cp_X u))) 0%nat = m).
  { unfold ndim. rewrite (sp_X HSk). unfold m. replace (length (shape (cp_X s))) with (S (length (shape (cp_X s)) - 1)) at 1 by lia.
    rewrite seq_S, last_last. reflexivity. }
  pose proof (modes_last HCk HOk (all_modes u) Et) as HB. cbv zeta in HB. rewrite El, Hnn, (sp_X HSk) in HB.
  apply (@model_bound (lam m) K (cp_X s) (fms t) m).
  - pose proof (proj2 (co_fac HCt)) as E. now rewrite EX in E.
  - unfold m. lia.
  - exact Hlam.
  - apply HB. unfold ndim. rewrite ?(sp_X HSk). intros E0. apply (f_equal (@length nat)) in E0. rewrite seq_length in E0. cbn in E0. lia.
Qed.
End Passes.

(** *** Lengths of components *)
Lemma bound_le f b e lam : 0 < lam -> 0 <= f -> 0 <= b -> 256 * lam * f ^ 2 <= 27 * e ^ 2 -> 27 * e ^ 2 <= 256 * lam * b ^ 2 -> f <= b.
Proof.
  intros Hl Hf Hb H1 H2. apply Rsqr_incr_0_var; [|exact Hb]. unfold Rsqr. apply (Rmult_le_reg_l (256 * lam)); [lra|].
  replace (f * f) with (f ^ 2) by ring. replace (b * b) with (b ^ 2) by ring. lra.
Qed.
Lemma gram_below K U r : (r < K)%nat -> 0 <= gram U r r <= frob2 (nrows U) K (mget U).
Proof.
  intros Hr. unfold gram, frob2. split; [apply sum_nonneg; intros; nra|]. apply sum_le. intros i _.
  assert (H : mget U i r ^ 2 <= sum K (fun j => mget U i j ^ 2)) by (apply (sum_term_le (f := fun j => mget U i j ^ 2)); [intros; apply sq_pos|exact Hr]). lra.
Qed.
Lemma prodf_below {I} (l : list I) f g : (forall i, In i l -> 0 <= f i <= g i) -> 0 <= prodf l f <= prodf l g.
Proof.
  induction l as [|i l IH]; intros H; cbn; [lra|]. destruct (H i (or_introl eq_refl)). destruct IH; [intros; apply H; now right|].
  split; [now apply Rmult_le_pos|]. apply Rmult_le_compat; auto.
Qed.
Lemma map_nth_seq (Us : list nd) : map (fun m => nth m Us m0) (seq 0 (length Us)) = Us.
Proof.
  apply nth_ext with (d := m0) (d' := m0); [now rewrite map_length, seq_length|]. intros n Hn. rewrite map_length, seq_length in Hn.
  rewrite (nth_indep _ m0 (nth 0 Us m0)) by (now rewrite map_length, seq_length).
  rewrite (map_nth (fun m => nth m Us m0) (seq 0 (length Us)) 0%nat n). now rewrite seq_nth.
Qed.
Lemma inner_below K X Us b r : rows Us = shape X -> (r < K)%nat ->
  (forall m, (m < length (shape X))%nat -> frob2 (nth m (shape X) 0%nat) K (mget (nth m Us m0)) <= b m) ->
  0 <= comp_inner Us r r <= prodf (seq 0 (length (shape X))) b.
Proof.
  intros HR Hr Hb. rewrite comp_inner_gram. unfold gramprod. rewrite <- (map_nth_seq Us) at 1 2. rewrite prodf_map, (mode_len HR).
  apply prodf_below. intros m Hm. apply in_seq in Hm. assert (Hm' : (m < length (shape X))%nat) by lia.
  pose proof (gram_below (nth m Us m0) Hr) as [H1 H2]. split; [exact H1|]. eapply Rle_trans; [exact H2|].
  specialize (Hb m Hm'). replace (nrows (nth m Us m0)) with (nth m (shape X) 0%nat); [exact Hb|]. rewrite <- HR. apply nth_rows.
Qed.

(** *** Bounded sequences have convergent subsequences *)
Lemma subsequence (u : nat -> R) B : (forall n, Rabs (u n) <= B) -> exists l pick, (forall n, (n <= pick n)%nat) /\ Un_cv (fun n => u (pick n)) l.
Proof.
  intros HB. destruct (Bolzano_Weierstrass u (fun c => - B <= c <= B) (compact_P3 (- B) B)) as (l & Hl).
  { intros n. apply abs_le, HB. }
  assert (Hp : forall n, exists p, (n <= p)%nat /\ Rabs (u p - l) < / (INR n + 1)).
  { intros n. assert (Hd : 0 < / (INR n + 1)) by (apply Rinv_0_lt_compat; pose proof (pos_INR n); lra).
    destruct (Hl (fun x => Rabs (x - l) < / (INR n + 1)) n) as (p & H1 & H2); [|now exists p].
    exists (mkposreal _ Hd). intros x Hx. exact Hx. }
  assert (Hdec : forall n p, {(n <= p)%nat /\ Rabs (u p - l) < / (INR n + 1)} + {~ ((n <= p)%nat /\ Rabs (u p - l) < / (INR n + 1))}).
  { intros n p. destruct (le_dec n p); [|right; tauto]. destruct (Rlt_dec (Rabs (u p - l)) (/ (INR n + 1))); [left; tauto|right; tauto]. }
  set (pick n := proj1_sig (constructive_indefinite_ground_description_nat _ (Hdec n) (Hp n))).
  assert (HP : forall n, (n <= pick n)%nat /\ Rabs (u (pick n) - l) < / (INR n + 1)) by (intros n; unfold pick; apply proj2_sig).
  exists l, pick. split; [intros n; apply HP|]. intros eps He.
  destruct (archimed_cor1 eps He) as (N & H1 & H2). exists N. intros n Hn. unfold R_dist.
  apply Rlt_trans with (1 := proj2 (HP n)). apply Rle_lt_trans with (2 := H1). apply Rinv_le_contravar; [now apply lt_0_INR|].
  apply Rle_trans with (INR n); [now apply le_INR|lra].
Qed.
Lemma cv_pick (u : nat -> R) l pick : (forall n, (n <= pick n)%nat) -> Un_cv u l -> Un_cv (fun n => u (pick n)) l.
Proof. intros Hp H eps He. destruct (H eps He) as (N & HN). exists N. intros n Hn. apply HN. specialize (Hp n). lia. Qed.
Lemma subsequences J (u : nat -> nat -> R) B : (forall j n, (j < J)%nat -> Rabs (u j n) <= B) ->
  exists l pick, (forall n, (n <= pick n)%nat) /\ forall j, (j < J)%nat -> Un_cv (fun n => u j (pick n)) (l j).
Proof.
  induction J as [|J IH]; intros HB.
  - exists (fun _ => 0), (fun n => n). split; [auto|intros; lia].
  - destruct IH as (l & pick & Hp & Hc); [intros; apply HB; lia|].
    destruct (@subsequence (fun n => u J (pick n)) B) as (x & pick' & Hp' & Hc'); [intros n; apply HB; lia|].
    exists (fun j => if Nat.eqb j J then x else l j), (fun n => pick (pick' n)). split.
    + intros n. specialize (Hp (pick' n)). specialize (Hp' n). lia.
    + intros j Hj. destruct (Nat.eqb_spec j J) as [->|Hne]; [exact Hc'|].
      apply (cv_pick (u := fun n => u j (pick n))); [exact Hp'|]. apply Hc. lia.
Qed.

(** *** Factor matrices that infinitely many passes come close to *)
Lemma entry_below n K A i r : (i < n)%nat -> (r < K)%nat -> A i r ^ 2 <= frob2 n K A.
Proof.
  intros Hi Hr. unfold frob2. eapply Rle_trans; [|apply (sum_term_le (f := fun i => sum K (fun j => A i j ^ 2))); [|exact Hi]].
  - apply (sum_term_le (f := fun j => A i j ^ 2)); [intros; apply sq_pos|exact Hr].
  - intros. apply sum_nonneg. intros. apply sq_pos.
Qed.
Lemma row_below sh m : (m < length sh)%nat -> (nth m sh 0 <= list_sum sh)%nat.
Proof.
  revert m. induction sh as [|n sh IH]; intros m H; [inversion H|]. change (list_sum (n :: sh)) with (n + list_sum sh)%nat.
  destruct m as [|m]; cbn [nth]; [lia|]. cbn [length] in H. specialize (IH m ltac:(lia)). lia.
Qed.

Lemma accumulate K X (Us : nat -> list nd) b : (forall k, rows (Us k) = shape X) ->
  (forall k m, (m < length (shape X))%nat -> frob2 (nth m (shape X) 0%nat) K (mget (nth m (Us k) m0)) <= b m) ->
  exists Ls pick, factors_ok K X Ls /\ (forall k, (k <= pick k)%nat) /\ tends K (fun k => Us (pick k)) Ls.
Proof.
  intros HR Hb. set (N := length (shape X)). set (D := list_sum (shape X)).
  set (code := fun m i r => ((m * D + i) * K + r)%nat).
  set (u := fun j k => let m := (j / K / D)%nat in let i := (j / K mod D)%nat in let r := (j mod K)%nat in
    if (i <? nth m (shape X) 0)%nat then mget (nth m (Us k) m0) i r else 0).
  assert (Hcode : forall m i r k, (i < nth m (shape X) 0)%nat -> (i < D)%nat -> (r < K)%nat -> u (code m i r) k = mget (nth m (Us k) m0) i r).
  { intros m i r k Hi HiD Hr. unfold u, code.
    assert (E1 : (((m * D + i) * K + r) / K = m * D + i)%nat) by (symmetry; apply Nat.div_unique with r; [exact Hr|ring]).
    assert (E2 : (((m * D + i) * K + r) mod K = r)%nat) by (symmetry; apply Nat.mod_unique with (m * D + i)%nat; [exact Hr|ring]).
    assert (E3 : ((m * D + i) / D = m)%nat) by (symmetry; apply Nat.div_unique with i; [exact HiD|ring]).
    assert (E4 : ((m * D + i) mod D = i)%nat) by (symmetry; apply Nat.mod_unique with m; [exact HiD|ring]).
    rewrite E1, E2, E3, E4. cbv zeta. destruct (Nat.ltb_spec i (nth m (shape X) 0%nat)); [reflexivity|lia]. }
  assert (Hbp : forall m, (m < N)%nat -> 0 <= b m) by (intros m Hm; eapply Rle_trans; [apply frob2_pos|exact (Hb 0%nat m Hm)]).
  assert (Hsp : 0 <= sum N b) by (apply sum_nonneg; exact Hbp).
  destruct (@subsequences (N * D * K) u (1 + sum N b)) as (l & pick & Hp & Hc).
  { intros j k Hj. unfold u. cbv zeta.
    assert (HK : K <> 0%nat) by (intros E; rewrite E, Nat.mul_0_r in Hj; inversion Hj). assert (HD : D <> 0%nat) by (intros E; rewrite E, Nat.mul_0_r in Hj; inversion Hj).
    assert (Hm : (j / K / D < N)%nat).
    { apply Nat.div_lt_upper_bound; [exact HD|]. apply Nat.div_lt_upper_bound; [exact HK|]. replace (K * (D * N))%nat with (N * D * K)%nat by ring. exact Hj. }
    pose proof (Nat.mod_upper_bound j K HK) as Hr. set (m := (j / K / D)%nat) in *. set (i := (j / K mod D)%nat). set (r := (j mod K)%nat) in *.
    destruct (Nat.ltb_spec i (nth m (shape X) 0%nat)) as [Hi|Hi]; [|rewrite Rabs_R0; lra].
    assert (H2 : mget (nth m (Us k) m0) i r ^ 2 <= sum N b).
    { eapply Rle_trans; [apply (@entry_below _ K (mget (nth m (Us k) m0)) i r Hi Hr)|]. eapply Rle_trans; [exact (Hb k m Hm)|].
      now apply sum_term_le. }
    set (x := mget (nth m (Us k) m0) i r) in *. clearbody x. apply Rabs_le. split; nra. }
  set (Ls := map (fun m => tab2 (nth m (shape X) 0%nat) K (fun i r => l (code m i r))) (seq 0 N)).
  assert (Hnth : forall m, (m < N)%nat -> nth m Ls m0 = tab2 (nth m (shape X) 0%nat) K (fun i r => l (code m i r))).
  { intros m Hm. unfold Ls. set (F := fun m => tab2 (nth m (shape X) 0%nat) K (fun i r => l (code m i r))).
    rewrite (nth_indep _ m0 (F 0%nat)) by (now rewrite map_length, seq_length). rewrite map_nth, seq_nth by exact Hm. reflexivity. }
  assert (HL : length Ls = N) by (unfold Ls; now rewrite map_length, seq_length).
  exists Ls, pick. split; [split|split; [exact Hp|]].
  - apply Forall_forall. intros U HU. unfold Ls in HU. apply in_map_iff in HU as (m & <- & _).
    apply (is_mat_tab2 (nth m (shape X) 0%nat) K).
  - apply nth_ext with (d := 0%nat) (d' := 0%nat); [unfold rows; rewrite map_length; exact HL|].
    intros m Hm. unfold rows in Hm. rewrite map_length, HL in Hm. rewrite nth_rows by (now rewrite HL). rewrite Hnth by exact Hm. reflexivity.
  - intros m i r Hm Hi Hr. rewrite HL in Hm. rewrite Hnth in * by exact Hm.
    assert (HiD : (i < D)%nat) by (pose proof (row_below Hm) as H; fold D in H; change (nrows (tab2 (nth m (shape X) 0%nat) K (fun i r => l (code m i r)))) with (nth m (shape X) 0%nat) in Hi; lia).
    change (nrows (tab2 (nth m (shape X) 0%nat) K (fun i r => l (code m i r)))) with (nth m (shape X) 0%nat) in Hi.
    rewrite mget_tab2 by assumption.
    assert (Hj : (code m i r < N * D * K)%nat).
    { unfold code. assert ((m * D + i) < N * D)%nat by nia. nia. }
    pose proof (Hc _ Hj) as G. intros eps He. destruct (G eps He) as (n0 & HG). exists n0. intros n Hn. specialize (HG n Hn).
    rewrite Hcode in HG by assumption. exact HG.
Qed.

Section AllPenalised.
Variables (env : cp_env) (cs : cp_settings) (K : nat) (lam b : nat -> R) (s : cp_state).
Hypotheses (HK : cs_rank cs = K) (HS : svd_contract (env_svd env)) (HN : nnls_contract (env_nnls env)) (HC : cp_coherent K s)
  (HO : option_set cs s (fun _ => false) lam) (Hl : forall m, (m < length (shape (cp_X s)))%nat -> 0 < lam m)
  (Hb : forall m, (m < length (shape (cp_X s)))%nat -> 0 <= b m /\ 27 * energy (cp_X s) ^ 2 <= 256 * lam m * b m ^ 2).
Let Us k := kt_fms (cp_dec (state_after (cp_model env cs) s k)).

Lemma run_rows k : rows (Us k) = shape (cp_X s).
Proof. destruct (@after_coherent env cs K s k HC) as [H1 H2]. pose proof (proj2 (co_fac H1)) as E. rewrite (sp_X H2) in E. exact E. Qed.
Lemma run_bounded k m : (m < length (shape (cp_X s)))%nat -> frob2 (nth m (shape (cp_X s)) 0%nat) K (mget (nth m (Us (S k)) m0)) <= b m.
Proof.
  intros Hm. destruct (Hb Hm) as [B1 B2]. apply (@bound_le _ (b m) (energy (cp_X s)) (lam m)); auto using frob2_pos.
  exact (@pass_bounded env cs K (fun _ => false) lam HK HS HN s HC HO k m Hm eq_refl (Hl Hm)).
Qed.
Lemma run_lengths k r : (r < K)%nat -> comp_inner (Us (S k)) r r <= prodf (seq 0 (length (shape (cp_X s)))) b.
Proof. intros Hr. apply (@inner_below K (cp_X s) (Us (S k)) b r (run_rows (S k)) Hr (run_bounded k)). Qed.
Lemma run_accumulates : exists Ls pick, factors_ok K (cp_X s) Ls /\ (forall k, (k < pick k)%nat) /\ tends K (fun k => Us (pick k)) Ls.
Proof.
  destruct (@accumulate K (cp_X s) (fun k => Us (S k)) b) as (Ls & pick & H1 & H2 & H3); [intros; apply run_rows|intros; now apply run_bounded|].
  exists Ls, (fun k => S (pick k)). split; [exact H1|]. split; [intros k; specialize (H2 k); lia|exact H3].
Qed.
End AllPenalised.

(** Bounds exist for all positive penalties *)
Lemma bounds_exist lam e : 0 < lam -> 0 <= e -> 0 <= sqrt (27 / (256 * lam)) * e /\ 27 * e ^ 2 <= 256 * lam * (sqrt (27 / (256 * lam)) * e) ^ 2.
Proof.
  intros Hl He. assert (Hq : 0 <= 27 / (256 * lam)) by (left; apply Rdiv_lt_0_compat; lra).
  pose proof (sqrt_pos (27 / (256 * lam))). split; [now apply Rmult_le_pos|].
  replace ((sqrt (27 / (256 * lam)) * e) ^ 2) with ((sqrt (27 / (256 * lam)) * sqrt (27 / (256 * lam))) * e ^ 2) by ring.
  rewrite sqrt_sqrt by exact Hq. right. field. lra.
Qed.

(** The data W3 *)
Lemma energy_W3 : energy W3 = 3.
Proof. unfold energy. ev. lra. Qed.
Lemma penalised_W3 env cs l c L s : cs_rank cs = 2%nat -> svd_contract (env_svd env) -> nnls_contract (env_nnls env) -> cp_coherent 2 s ->
  cp_X s = W3 -> option_set cs s (fun _ => false) (fun _ => l) -> 0 < l -> 0 <= c -> 243 <= 256 * l * c ^ 2 -> 1 <= L -> c ^ 3 <= L ^ 2 ->
  forall k, 1 <= (1472 * L ^ 4) ^ 2 * sse W3 (kt_fms (cp_dec (state_after (cp_model env cs) s (S k)))) unit_weights 2.
Proof.
  intros HK HS HN HC HX HO Hl Hc H1 HL H2 k.
  apply short_bound; [|exact HL|].
  - pose proof (@run_rows env cs 2 s HC (S k)) as E. now rewrite HX in E.
  - intros r Hr. rewrite length_unit. apply Rsqr_incr_0_var; [|lra]. unfold Rsqr. rewrite sqrt_sqrt by apply inner_self_pos.
    pose proof (@run_lengths env cs 2 (fun _ => l) (fun _ => c) s HK HS HN HC HO) as G. rewrite HX in G.
    assert (G' : comp_inner (kt_fms (cp_dec (state_after (cp_model env cs) s (S k)))) r r <= c * (c * (c * 1))).
    { apply (fun a b => G a b k r Hr); [intros; exact Hl|]. intros m _. rewrite energy_W3. split; [exact Hc|]. lra. }
    lra.
Qed.
