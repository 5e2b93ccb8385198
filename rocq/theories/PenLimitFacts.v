(** What the iterations of CP_ALS with ridge penalties and non-negative modes tend to: lemmas for C115. *)
From Verif Require Export RidgeBoundFacts.
From Verif Require Import LimitFacts Unique NumPyFacts KruskalFacts.
From Verif Require Import Prelude Lin.
Set Implicit Arguments.
Unset Strict Implicit.
Local Open Scope R_scope.

(** *** The normal equations depend continuously on the factors *)
Lemma cv_prodf {A : Type} (l : list A) (f : A -> nat -> R) (g : A -> R) :
  (forall x, In x l -> Un_cv (f x) (g x)) -> Un_cv (fun k => prodf l (fun x => f x k)) (prodf l g).
Proof.
  induction l as [|x l IH]; intros H; cbn [prodf]; [apply cv_const|].
  apply (@CV_mult (f x) (fun k => prodf l (fun x => f x k))); [apply H; now left|]. apply IH. intros y Hy. apply H. now right.
Qed.

Lemma nrows_rows Us n : nrows (nth n Us m0) = nth n (rows Us) 0%nat.
Proof. unfold rows. change 0%nat with (nrows m0). now rewrite map_nth. Qed.

Lemma tends_gram K Ls : forall Us r s, tends K Us Ls -> (forall k, rows (Us k) = rows Ls) -> (r < K)%nat -> (s < K)%nat ->
  Un_cv (fun k => gramprod (Us k) r s) (gramprod Ls r s).
Proof.
  induction Ls as [|L Ls IH]; intros Us r s HT Hr H1 H2.
  - apply (@cv_ext (fun _ => 1)); [|apply cv_const]. intros k. specialize (Hr k). destruct (Us k); [reflexivity|discriminate].
  - unfold gramprod. cbn [prodf]. apply (@cv_ext (fun k => gram (nth 0 (Us k) m0) r s * gramprod (tl (Us k)) r s)).
    + intros k. specialize (Hr k). destruct (Us k); [discriminate|reflexivity].
    + apply CV_mult.
      * apply (@cv_ext (fun k => sum (nrows L) (fun i => mget (nth 0 (Us k) m0) i r * mget (nth 0 (Us k) m0) i s))).
        { intros k. unfold gram. rewrite nrows_rows, Hr. reflexivity. }
        unfold gram. apply (@cv_sumf _ _ (fun i k => mget (nth 0 (Us k) m0) i r * mget (nth 0 (Us k) m0) i s)). intros i Hi. apply in_seq in Hi.
        apply CV_mult; [apply (HT 0%nat i r)|apply (HT 0%nat i s)]; cbn; auto; lia.
      * apply (IH (fun k => tl (Us k))); auto.
        -- intros n i c Hn Hi Hc. apply (@cv_ext (fun k => mget (nth (S n) (Us k) m0) i c)).
           ++ intros k. specialize (Hr k). destruct (Us k); [discriminate|reflexivity].
           ++ apply (HT (S n) i c); cbn; [lia|exact Hi|exact Hc].
        -- intros k. specialize (Hr k). destruct (Us k) as [|U l]; [discriminate|]. cbn [rows map tl] in *. now injection Hr.
Qed.

Lemma length_remove_le {A} n (l : list A) : (length (remove_at n l) <= length l)%nat.
Proof. revert n. induction l as [|x l IH]; intros [|n]; cbn; try lia. specialize (IH n). lia. Qed.
Lemma tends_remove K Us Ls m : tends K Us Ls -> (m < length Ls)%nat -> tends K (fun k => remove_at m (Us k)) (remove_at m Ls).
Proof.
  intros HT Hm n i r Hn Hi Hr. rewrite length_remove_at in Hn by exact Hm. rewrite nth_remove_at in *.
  apply (@cv_ext (fun k => mget (nth (if (n <? m)%nat then n else S n) (Us k) m0) i r)); [intros k; now rewrite nth_remove_at|].
  apply HT; auto. destruct (n <? m)%nat; lia.
Qed.

Section Continuous.
Variables (K : nat) (X : nd) (Us : nat -> list nd) (Ls : list nd) (m : nat).
Hypotheses (HT : tends K Us Ls) (Hrows : forall k, rows (Us k) = shape X) (HL : rows Ls = shape X) (Hm : (m < length (shape X))%nat).
Let N := nth m (shape X) 0%nat.

Lemma lim_len : (m < length Ls)%nat.
Proof. rewrite <- HL in Hm. unfold rows in Hm. now rewrite map_length in Hm. Qed.
Lemma lim_lhs r s : (r < K)%nat -> (s < K)%nat -> Un_cv (fun k => normal_lhs (Us k) m r s) (normal_lhs Ls m r s).
Proof.
  intros H1 H2. unfold normal_lhs. apply (@tends_gram K (remove_at m Ls) (fun k => remove_at m (Us k))); auto.
  - apply tends_remove; [exact HT|exact lim_len].
  - intros k. now rewrite !rows_remove, Hrows, HL.
Qed.
Lemma lim_rhs i r : (r < K)%nat -> Un_cv (fun k => normal_rhs X (Us k) m i r) (normal_rhs X Ls m i r).
Proof.
  intros Hr. unfold normal_rhs, mttkrp_entry.
  apply (@cv_sumf _ _ (fun idx k => if Nat.eqb (nth m idx 0%nat) i then get X idx * colprod (remove_at m (Us k)) (remove_at m idx) r else 0)).
  intros idx Hi. apply in_indices in Hi. destruct (Nat.eqb (nth m idx 0%nat) i); [|apply cv_const].
  apply CV_mult; [apply cv_const|].
  apply (@tends_colprod K (remove_at m Ls) (fun k => remove_at m (Us k))); auto.
  - apply tends_remove; [exact HT|exact lim_len].
  - intros k. pose proof lim_len. assert (E : length (Us k) = length Ls).
    { apply (f_equal (@length nat)) in HL. specialize (Hrows k). apply (f_equal (@length nat)) in Hrows. unfold rows in *. rewrite map_length in *. congruence. }
    rewrite !length_remove_at; lia.
  - rewrite rows_remove, HL. now apply valid_remove_at.
Qed.
Lemma lim_loss lam (Y : nat -> nat -> nat -> R) Y0 : (forall i r, (i < N)%nat -> (r < K)%nat -> Un_cv (fun k => Y k i r) (Y0 i r)) ->
  Un_cv (fun k => normal_loss lam K X (Us k) m (Y k)) (normal_loss lam K X Ls m Y0).
Proof.
  intros HY. unfold normal_loss, normal_dist, dist2, frob2. fold N.
  assert (Hsq : forall f l, Un_cv f l -> Un_cv (fun k => f k ^ 2) (l ^ 2)).
  { intros f l H. apply (@cv_ext (fun k => f k * f k)); [intros; ring|]. replace (l ^ 2) with (l * l) by ring. now apply CV_mult. }
  apply CV_plus; [|apply CV_mult; [apply cv_const|]].
  - apply (@cv_sumf _ _ (fun i k => sum K (fun j => (mprod K (Y k) (normal_lhs (Us k) m) i j - normal_rhs X (Us k) m i j) ^ 2))).
    intros i Hi. apply in_seq in Hi.
    apply (@cv_sumf _ _ (fun j k => (mprod K (Y k) (normal_lhs (Us k) m) i j - normal_rhs X (Us k) m i j) ^ 2)). intros j Hj. apply in_seq in Hj.
    apply Hsq, CV_minus; [|apply lim_rhs; lia]. unfold mprod.
    apply (@cv_sumf _ _ (fun a k => Y k i a * normal_lhs (Us k) m a j)). intros a Ha. apply in_seq in Ha.
    apply CV_mult; [apply HY; lia|apply lim_lhs; lia].
  - apply (@cv_sumf _ _ (fun i k => sum K (fun j => Y k i j ^ 2))). intros i Hi. apply in_seq in Hi.
    apply (@cv_sumf _ _ (fun j k => Y k i j ^ 2)). intros j Hj. apply in_seq in Hj. apply Hsq, HY; lia.
Qed.

Lemma lim_settled nn lam : (forall k, mode_settled nn lam K X (Us k) m) -> mode_settled nn lam K X Ls m.
Proof.
  intros HB.
  assert (HY : forall i r, (i < N)%nat -> (r < K)%nat -> Un_cv (fun k => mget (nth m (Us k) m0) i r) (mget (nth m Ls m0) i r)).
  { intros i r Hi Hr. apply HT; [exact lim_len| |exact Hr]. rewrite nrows_rows, HL. exact Hi. }
  split.
  - intros E i r Hi Hr. apply (@cv_le (fun _ => 0) (fun k => mget (nth m (Us k) m0) i r)); [|apply cv_const|now apply HY].
    intros k. exact (proj1 (HB k) E i r Hi Hr).
  - intros Y AY. apply (@cv_le (fun k => normal_loss lam K X (Us k) m (mget (nth m (Us k) m0))) (fun k => normal_loss lam K X (Us k) m Y)).
    + intros k. exact (proj2 (HB k) Y AY).
    + now apply (@lim_loss lam (fun k => mget (nth m (Us k) m0))).
    + apply (@lim_loss lam (fun _ => Y)). intros. apply cv_const.
Qed.
End Continuous.

(** *** Passes *)
Section PenLimit.
Variables (env : cp_env) (cs : cp_settings) (K : nat) (nn : nat -> bool) (lam : nat -> R).
Hypothesis (HK : cs_rank cs = K) (HS : svd_contract (env_svd env)) (HN : nnls_contract (env_nnls env)).
Let md := cp_model env cs.
Variable s : cp_state.
Hypotheses (HC : cp_coherent K s) (HO : option_set cs s nn lam).
Let X := cp_X s.
Let Us k := kt_fms (cp_dec (state_after md s k)).
Notation fms s := (kt_fms (cp_dec s)).

Lemma middle_settled m k : (m < length (shape X))%nat ->
  rows (LimitFacts.between m (Us k) (Us (S k))) = shape X /\ mode_settled (nn m) (lam m) K X (LimitFacts.between m (Us k) (Us (S k))) m.
Proof.
  intros Hm. set (N := length (shape X)). destruct (@after_coherent env cs K s k HC) as [HCk HSk]. fold md in HCk, HSk.
  pose proof (option_same HSk HO) as HOk. unfold Us. set (u := state_after md s k) in *.
  assert (Hall : forall a b, (a + b <= N)%nat -> forall v, same_problem u v -> Forall (fun m => (m < length (shape (cp_X v)))%nat) (seq a b)).
  { intros a b Hab v HSv. rewrite (sp_X HSv), (sp_X HSk). apply Forall_forall. intros j Hj. apply in_seq in Hj. fold X. fold N. lia. }
  destruct (@modes_run env cs K nn lam HK HS HN (seq 0 m) u HCk HOk) as (v & Ev & HCv & HSv & Hv0); [apply Hall; [lia|apply same_problem_refl]|].
  pose proof (option_same HSv HOk) as HOv. assert (EXv : cp_X v = X) by (now rewrite (sp_X HSv), (sp_X HSk)).
  destruct (@update_settles env cs K nn lam HK HS HN v m HCv HOv) as (w & Z & Ew & HZ & Ef & HSw & HCw & AZ & BZ); [now rewrite EXv|].
  pose proof (option_same HSw HOv) as HOw. assert (EXw : cp_X w = X) by (now rewrite (sp_X HSw)).
  pose proof (same_problem_trans HSv HSw) as HSuw.
  destruct (@modes_run env cs K nn lam HK HS HN (seq (S m) (N - S m)) w HCw HOw) as (t & Et & HCt & HSt & Ht0); [apply Hall; [lia|exact HSuw]|].
  assert (E1 : cp_update_modes env cs (seq 0 (S m)) u = (w, None)).
  { rewrite seq_S, modes_app, Ev. cbn [plus cp_update_modes]. now rewrite Ew. }
  assert (Ek : state_after md s (S k) = t).
  { cbn [state_after md cp_model md_update]. fold md. fold u. unfold cp_update_factors, ndim. rewrite (sp_X HSk). fold X. fold N.
    replace N with (S m + (N - S m))%nat at 1 by lia. rewrite seq_app, modes_app, E1. cbn [plus]. now rewrite Et. }
  assert (Hlu : length (fms u) = N) by (rewrite (mode_len (proj2 (co_fac HCk))); now rewrite (sp_X HSk)).
  assert (Hlw : length (fms w) = N) by (rewrite (mode_len (proj2 (co_fac HCw))); now rewrite EXw).
  assert (Hlv : length (fms v) = N) by (rewrite (mode_len (proj2 (co_fac HCv))); now rewrite EXv).
  assert (EW : LimitFacts.between m (fms u) (fms t) = fms w).
  { apply (nth_ext _ _ m0 m0); [rewrite LimitFacts.length_between; congruence|]. intros n Hn. rewrite LimitFacts.length_between in Hn.
    rewrite LimitFacts.nth_between by exact Hn. destruct (Nat.leb_spec n m) as [Hnm|Hnm].
    - apply Ht0. intros Hi. apply in_seq in Hi. lia.
    - rewrite Ef. unfold with_factor. rewrite nth_replace_at_neq by lia. symmetry. apply Hv0. intros Hi. apply in_seq in Hi. lia. }
  rewrite Ek, EW. split.
  - rewrite <- EXw. exact (proj2 (co_fac HCw)).
  - rewrite Ef. rewrite EXv in AZ, BZ. apply settled_with; auto. now rewrite Hlv.
Qed.

(** Along any passes whose factors tend to the same limit as those of the passes that follow them *)
Lemma limit_settled Ls pick : factors_ok K X Ls -> tends K (fun k => Us (pick k)) Ls -> tends K (fun k => Us (S (pick k))) Ls ->
  forall m, (m < length (shape X))%nat -> mode_settled (nn m) (lam m) K X Ls m.
Proof.
  intros [HM Hr] H1 H2 m Hm.
  apply (@lim_settled K X (fun k => LimitFacts.between m (Us (pick k)) (Us (S (pick k)))) Ls m); auto.
  - apply LimitFacts.tends_between; auto. intros k. destruct (@after_coherent env cs K s (pick k) HC) as [HCk HSk]. unfold Us, md.
    rewrite (mode_len (proj2 (co_fac HCk))). now rewrite (sp_X HSk), (mode_len Hr).
  - intros k. apply middle_settled. exact Hm.
  - intros k. apply middle_settled. exact Hm.
Qed.
End PenLimit.

Lemma cv_shift f l : Un_cv f l -> Un_cv (fun k => f (S k)) l.
Proof. intros H e He. destruct (H e He) as (n & Hn). exists n. intros k Hk. apply Hn. lia. Qed.
Lemma cv_far f (pick : nat -> nat) l : (forall k, (k < pick k)%nat) -> Un_cv f l -> Un_cv (fun k => f (pick k)) l.
Proof. intros Hp H e He. destruct (H e He) as (n & Hn). exists n. intros k Hk. apply Hn. specialize (Hp k). lia. Qed.

Lemma run_limits env cs K nn lam s Ls : cs_rank cs = K -> svd_contract (env_svd env) -> nnls_contract (env_nnls env) ->
  cp_coherent K s -> option_set cs s nn lam -> let X := cp_X s in
  factors_ok K X Ls -> tends K (fun k => kt_fms (cp_dec (state_after (cp_model env cs) s k))) Ls ->
  (forall m, (m < length (shape X))%nat -> mode_settled (nn m) (lam m) K X Ls m) /\
  ((forall m, (m < length (shape X))%nat -> 0 < lam m) ->
   forall t, cp_coherent K t -> option_set cs t nn lam -> cp_X t = X -> kt_fms (cp_dec t) = Ls ->
     forall k, kt_fms (cp_dec (state_after (cp_model env cs) t k)) = Ls).
Proof.
  intros HK HS HN HC HO X HL HT.
  assert (HB : forall m, (m < length (shape X))%nat -> mode_settled (nn m) (lam m) K X Ls m).
  { apply (@limit_settled env cs K nn lam HK HS HN s HC HO Ls (fun k => k) HL HT).
    intros n i r Hn Hi Hr. exact (cv_shift (HT n i r Hn Hi Hr)). }
  split; [exact HB|]. intros Hpos t HCt HOt EX Ef k. rewrite <- Ef. rewrite <- EX in Hpos, HB. rewrite <- Ef in HB.
  exact (@pass_keeps env cs K nn lam HK HS HN t HCt HOt Hpos HB k).
Qed.

Lemma small_steps env cs K lam s : cs_rank cs = K -> svd_contract (env_svd env) -> nnls_contract (env_nnls env) ->
  cp_coherent K s -> option_set cs s (fun _ => false) lam ->
  let X := cp_X s in let Us k := kt_fms (cp_dec (state_after (cp_model env cs) s k)) in
  (forall m, (m < length (shape X))%nat -> 0 < lam m) ->
  (forall n i r, (n < length (shape X))%nat -> (i < nth n (shape X) 0)%nat -> (r < K)%nat ->
     Un_cv (fun k => mget (nth n (Us (S k)) m0) i r - mget (nth n (Us k) m0) i r) 0) ->
  exists Ls pick, factors_ok K X Ls /\ (forall k, (k < pick k)%nat) /\ tends K (fun k => Us (pick k)) Ls /\
    forall m, (m < length (shape X))%nat -> mode_settled false (lam m) K X Ls m.
Proof.
  intros HK HS HN HC HO X Us Hpos Hst.
  destruct (@run_accumulates env cs K lam (fun m => sqrt (27 / (256 * lam m)) * energy X) s HK HS HN HC HO Hpos) as (Ls & pick & H1 & H2 & H3).
  { intros m Hm. apply bounds_exist; [now apply Hpos|apply energy_pos]. }
  exists Ls, pick. split; [exact H1|]. split; [exact H2|]. split; [exact H3|].
  apply (@limit_settled env cs K (fun _ => false) lam HK HS HN s HC HO Ls pick H1 H3).
  intros n i r Hn Hi Hr. destruct H1 as [HM Er]. fold X in Er.
  assert (Hn' : (n < length (shape X))%nat) by (rewrite <- Er; unfold rows; now rewrite map_length).
  assert (Hi' : (i < nth n (shape X) 0)%nat) by (rewrite <- Er, <- nrows_rows; exact Hi).
  pose proof (CV_plus _ _ _ _ (cv_far H2 (Hst n i r Hn' Hi' Hr)) (H3 n i r Hn Hi Hr)) as H. rewrite Rplus_0_l in H.
  refine (cv_ext _ H). intros k. cbv beta. unfold Us. ring.
Qed.
