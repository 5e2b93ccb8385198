(** Movement and limits of CP_ALS: lemmas for C105. *)
From Verif Require Export LimitSpec FixFacts StopFacts.
From Verif Require Import Prelude Lin.
Set Implicit Arguments.
Unset Strict Implicit.
Local Open Scope R_scope.

(** *** One update *)
Lemma quadratic_zero b c : (forall t, 0 <= b * t + c * t ^ 2) -> 0 <= c -> b = 0.
Proof.
  intros H Hc. destruct (Req_dec b 0) as [|Hb]; auto. exfalso.
  pose proof (H (- b / (c + 1))) as Ht.
  assert (E : b * (- b / (c + 1)) + c * (- b / (c + 1)) ^ 2 = - (b * b) / ((c + 1) * (c + 1))) by (field; lra).
  rewrite E in Ht. assert (0 < b * b) by (now apply Rsqr_pos_lt).
  assert (0 < b * b / ((c + 1) * (c + 1))) by (apply Rmult_lt_0_compat; [auto|apply Rinv_0_lt_compat; nra]).
  assert (- (b * b) / ((c + 1) * (c + 1)) = - (b * b / ((c + 1) * (c + 1)))) by (field; lra). lra.
Qed.

(** The tensor whose entries are those of a model *)
Lemma change2_mode K X Us m Z : rows Us = shape X -> (m < length (shape X))%nat ->
  change2 K X Us (with_factor m Z Us) = frob2 (nth m (shape X) 0%nat) (prodl (remove_at m (shape X)))
    (mprod K (fun i r => mget (nth m Us m0) i r - mget Z i r) (mode_A X Us m)).
Proof.
  intros Hr Hm. pose proof (mode_len Hr) as Hl. unfold change2, frob2.
  rewrite (sumf_indices_axis _ Hm). apply sum_ext. intros i Hi. rewrite sumf_indices_seq. apply sum_ext. intros c Hc.
  f_equal. unfold cp_entry, mprod. rewrite <- sum_minus. apply sum_ext. intros r Hk. unfold with_factor, unit_weights.
  rewrite !colprod_insert.
  - rewrite nth_replace_at_eq by (now rewrite Hl). rewrite remove_replace_at. unfold mode_A. ring.
  - rewrite length_replace_at, Hl. exact Hm.
  - rewrite length_replace_at, Hl. now apply mode_ix_length.
  - now rewrite Hl.
  - rewrite Hl. now apply mode_ix_length.
Qed.

(** The error along the line from Z to the present factor *)
Lemma sse_line K X Us m Z : factors_ok K X Us -> (m < length (shape X))%nat ->
  let N := nth m (shape X) 0%nat in
  let D := tab2 N K (fun i r => mget (nth m Us m0) i r - mget Z i r) in
  exists b, (forall t, sse X (with_factor m (step_to N K Z D t) Us) unit_weights K =
      sse X (with_factor m Z Us) unit_weights K + (b * t + change2 K X Us (with_factor m Z Us) * t ^ 2)) /\
    sse X (with_factor m (step_to N K Z D 1) Us) unit_weights K = sse X Us unit_weights K.
Proof.
  intros [HU Hr] Hm N D. set (C := prodl (remove_at m (shape X))). set (U := nth m Us m0) in *.
  set (P := mprod K (mget Z) (mode_A X Us m)). set (Q := mprod K (mget D) (mode_A X Us m)).
  exists (2 * sum N (fun i => sum C (fun j => (P i j - mode_B X m i j) * Q i j))). split.
  - intros t. assert (Ec : change2 K X Us (with_factor m Z Us) = frob2 N C Q).
    { rewrite (change2_mode K Z Hr Hm). fold N C U. unfold frob2. apply sum_ext. intros i Hi. apply sum_ext. intros j Hj.
      f_equal. unfold Q, mprod. apply sum_ext. intros r Hk. unfold D. now rewrite mget_tab2. }
    rewrite Ec, !(mode_sse K Hr Hm). fold N C P. rewrite <- dist2_step. unfold dist2. apply sum_ext. intros i Hi.
    apply sum_ext. intros j Hj. do 2 f_equal. unfold P, Q, mprod. rewrite <- sum_scal_l, <- sum_plus. apply sum_ext. intros r Hk.
    unfold step_to. rewrite mget_tab2 by auto. ring.
  - rewrite <- (@with_factor_self m Us) at 2 by (now rewrite (mode_len Hr)). rewrite !(mode_sse K Hr Hm). unfold dist2.
    apply sum_ext. intros i Hi. apply sum_ext. intros j Hj. do 2 f_equal. unfold mprod. apply sum_ext. intros r Hk. fold U.
    unfold step_to, D. rewrite !mget_tab2 by auto. ring.
Qed.
Lemma line_best f f1 b c : (forall t, f t = f1 + (b * t + c * t ^ 2)) -> 0 <= c -> (forall t, f1 <= f t) -> f 1 = f1 + c.
Proof.
  intros E Hc Hle. assert (Hb : b = 0).
  { apply (@quadratic_zero b c); [|exact Hc]. intros t. specialize (Hle t). rewrite E in Hle. lra. }
  rewrite E, Hb. ring.
Qed.

Lemma change2_nonneg K X Us Vs : 0 <= change2 K X Us Vs.
Proof. unfold change2. apply sumf_nonneg. intros i _. apply pow2_ge_0. Qed.
Lemma best_pythagoras K X Us m Z : factors_ok K X Us -> (m < length (shape X))%nat -> least_best K X Us m Z ->
  sse X Us unit_weights K = sse X (with_factor m Z Us) unit_weights K + change2 K X Us (with_factor m Z Us).
Proof.
  intros HU Hm (HZ & HB & _). destruct (@sse_line K X Us m Z HU Hm) as (b & E & E1). rewrite <- E1.
  apply (@line_best (fun t => sse X (with_factor m (step_to _ K Z _ t) Us) unit_weights K) _ b); [exact E|apply change2_nonneg|].
  intros t. apply HB. apply is_mat_tab2.
Qed.

(** *** One pass *)
Lemma change2_refl K X Us : change2 K X Us Us = 0.
Proof. unfold change2. apply sumf_zero. intros i _. ring. Qed.
Lemma square_split n x y : 0 < n -> (x + y) ^ 2 <= (n + 1) * x ^ 2 + (n + 1) / n * y ^ 2.
Proof.
  intros Hn. assert (E : (n + 1) * x ^ 2 + (n + 1) / n * y ^ 2 - (x + y) ^ 2 = / n * (n * x - y) ^ 2) by (field; lra).
  pose proof (pow2_ge_0 (n * x - y)). assert (0 < / n) by (now apply Rinv_0_lt_compat).
  assert (0 <= / n * (n * x - y) ^ 2) by (apply Rmult_le_pos; lra). lra.
Qed.
Lemma change2_split K X Us Vs Ws n : 0 < n ->
  change2 K X Us Ws <= (n + 1) * change2 K X Us Vs + (n + 1) / n * change2 K X Vs Ws.
Proof.
  intros Hn. unfold change2. rewrite <- !sumf_scal_l, <- sumf_plus. apply sumf_le. intros idx _.
  set (x := cp_entry Us unit_weights K idx - cp_entry Vs unit_weights K idx).
  set (y := cp_entry Vs unit_weights K idx - cp_entry Ws unit_weights K idx).
  replace (cp_entry Us unit_weights K idx - cp_entry Ws unit_weights K idx) with (x + y) by (unfold x, y; ring).
  now apply square_split.
Qed.

(** *** Sequences of errors that do not increase *)
Lemma descent_limit (L : nat -> R) : (forall k, L (S k) <= L k) -> (forall k, 0 <= L k) ->
  exists l, 0 <= l /\ Un_cv L l /\ forall k, l <= L k.
Proof.
  intros Hd H0. destruct (@decreasing_cv L) as (l & Hl).
  - exact Hd.
  - exists 0. intros x (k & ->). unfold opp_seq. pose proof (H0 k). lra.
  - exists l. assert (Hle : forall k, l <= L k) by (intros k; now apply decreasing_ineq).
    split; [|auto]. destruct (Rle_lt_dec 0 l) as [|Hn]; auto. exfalso.
    destruct (Hl (- l)) as (n & Hcv); [lra|]. specialize (Hcv n (le_n n)). unfold R_dist in Hcv.
    pose proof (H0 n). rewrite Rabs_right in Hcv; lra.
Qed.
Lemma descent_vanish (L C : nat -> R) n : (forall k, 0 <= L k) -> (forall k, 0 <= C k) -> 0 <= n ->
  (forall k, L (S k) <= L k) -> (forall k, C k <= n * (L k - L (S k))) -> Un_cv C 0.
Proof.
  intros H0 HC Hn0 Hle Hc. destruct (descent_limit Hle H0) as (l & _ & Hl & Hd). intros e He.
  set (p := n + 1). assert (Hp : 0 < p) by (unfold p; lra).
  destruct (Hl (e / p)) as (k0 & H); [apply Rmult_lt_0_compat; [auto|now apply Rinv_0_lt_compat]|].
  exists k0. intros k Hk. specialize (H k Hk). unfold R_dist in *. pose proof (Hd k) as Hdk. pose proof (Hd (S k)) as Hdk'.
  rewrite Rabs_right in H by lra. pose proof (HC k). rewrite Rminus_0_r, Rabs_right by lra.
  eapply Rle_lt_trans; [apply Hc|]. apply Rle_lt_trans with (p * (L k - l)).
  - unfold p. apply Rle_trans with (n * (L k - l)); [apply Rmult_le_compat_l; lra|]. lra.
  - apply Rlt_le_trans with (p * (e / p)); [now apply Rmult_lt_compat_l|]. right. field. lra.
Qed.
Lemma descent_total (L C : nat -> R) c : (forall k, C k <= c * (L k - L (S k))) -> forall n, sum n C <= c * (L 0%nat - L n).
Proof.
  intros H. induction n as [|n IH]; [cbn [seq sumf]; lra|]. rewrite sum_S. specialize (H n).
  eapply Rle_trans; [apply Rplus_le_compat; [exact IH|exact H]|]. lra.
Qed.

Section Limit.
Variables (env : cp_env) (cs : cp_settings) (K : nat).
Hypothesis (HK : cs_rank cs = K) (Hsvd : svd_works_on K K (env_svd env)).
Let md := cp_model env cs.
Notation err s := (sse (cp_X s) (fms s) unit_weights K).

Lemma update_moves s m : cp_coherent K s -> free_fit cs s -> (m < length (shape (cp_X s)))%nat ->
  exists t, cp_update_factor env cs s m = (t, None) /\ cp_coherent K t /\ same_problem s t /\
    err s = err t + change2 K (cp_X s) (fms s) (fms t) /\ best_in K (cp_X t) (fms t) m.
Proof.
  intros HC HF Hm. destruct (update_least HC HK Hm (HF m Hm) Hsvd) as (t & Z & E & Ef & HSP & HCt & HL).
  exists t. split; [exact E|]. split; [exact HCt|]. split; [exact HSP|]. rewrite Ef, (sp_X HSP). split.
  - now apply best_pythagoras; [apply (co_fac HC)| |].
  - intros W HW. destruct HL as (_ & HL & _). unfold with_factor in *. rewrite replace_at_twice. now apply HL.
Qed.

Lemma modes_move l : forall s, cp_coherent K s -> free_fit cs s ->
  Forall (fun m => (m < length (shape (cp_X s)))%nat) l ->
  exists t, cp_update_modes env cs l s = (t, None) /\ cp_coherent K t /\ same_problem s t /\
    err t <= err s /\ change2 K (cp_X s) (fms s) (fms t) <= INR (length l) * (err s - err t).
Proof.
  induction l as [|m l IH]; intros s HC HF Hl.
  - exists s. split; [reflexivity|]. split; [exact HC|]. split; [apply same_problem_refl|]. split; [lra|].
    rewrite change2_refl. cbn. lra.
  - apply Forall_cons_iff in Hl. destruct Hl as [Hm Hl].
    destruct (update_moves HC HF Hm) as (t & E & HCt & HSP & HP & _).
    destruct (IH t HCt (free_fit_same HSP HF)) as (u & E2 & HCu & HSu & Hle & Hc); [now rewrite (sp_X HSP)|].
    exists u. cbn [cp_update_modes]. rewrite E, E2. split; [reflexivity|]. split; [exact HCu|].
    split; [eapply same_problem_trans; eauto|].
    pose proof (change2_nonneg K (cp_X s) (fms s) (fms t)) as H0. split; [lra|].
    rewrite (sp_X HSP) in Hc. rewrite (sp_X HSP) in Hle.
    assert (EX : cp_X u = cp_X s) by (now rewrite (sp_X HSu), (sp_X HSP)).
    rewrite EX, (sp_X HSP) in *.
    destruct l as [|m' l].
    + cbn in E2. injection E2 as <-. cbn. lra.
    + set (n := INR (length (m' :: l))) in *.
      assert (Hn : 0 < n) by (unfold n; cbn [length]; apply lt_0_INR; lia).
      assert (En : INR (length (m :: m' :: l)) = n + 1) by (unfold n; cbn [length]; rewrite !S_INR; ring).
      rewrite En. eapply Rle_trans; [apply (@change2_split K (cp_X s) (fms s) (fms t) (fms u) n Hn)|].
      apply Rle_trans with ((n + 1) * change2 K (cp_X s) (fms s) (fms t) +
        (n + 1) / n * (n * (sse (cp_X s) (fms t) unit_weights K - sse (cp_X s) (fms u) unit_weights K))).
      * apply Rplus_le_compat_l. apply Rmult_le_compat_l; [|exact Hc].
        apply Rmult_le_pos; [lra|]. left. now apply Rinv_0_lt_compat.
      * right. rewrite HP. field. lra.
Qed.

Variable s : cp_state.
Hypothesis (HC : cp_coherent K s) (HF : free_fit cs s).
Notation X := (cp_X s).
Notation N := (length (shape X)).
Notation Us k := (fms (state_after md s k)).
Notation L k := (sse X (Us k) unit_weights K).

Lemma pass_moves k : L (S k) <= L k /\ change2 K X (Us k) (Us (S k)) <= INR N * (L k - L (S k)).
Proof.
  destruct (@after_coherent env cs K s k HC) as [HCk HSk]. fold md in HCk, HSk.
  pose proof (free_fit_same HSk HF) as HFk.
  destruct (@modes_move (seq 0 N) (state_after md s k) HCk HFk) as (t & E & _ & HS & Hle & Hc).
  - rewrite (sp_X HSk). apply Forall_forall. intros m Hm. apply in_seq in Hm. lia.
  - assert (Et : state_after md s (S k) = t).
    { cbn [state_after md cp_model md_update]. fold md. unfold cp_update_factors, ndim. rewrite (sp_X HSk). now rewrite E. }
    rewrite Et. rewrite (sp_X HS), (sp_X HSk) in Hle, Hc. rewrite seq_length in Hc. auto.
Qed.

Lemma error_nonneg k : 0 <= L k.
Proof. unfold sse. apply sumf_nonneg. intros i _. apply pow2_ge_0. Qed.

Lemma total_moves n : sum n (fun k => change2 K X (Us k) (Us (S k))) <= INR N * (L 0%nat - L n).
Proof. apply (@descent_total (fun k => L k)). intros k. apply pass_moves. Qed.
Lemma errors_tend : exists l, 0 <= l /\ Un_cv (fun k => L k) l /\ forall k, l <= L k.
Proof. apply (@descent_limit (fun k => L k)); [intros k; apply pass_moves|exact error_nonneg]. Qed.
Lemma moves_vanish : Un_cv (fun k => change2 K X (Us k) (Us (S k))) 0.
Proof.
  apply (@descent_vanish (fun k => L k) _ (INR N)); [exact error_nonneg|intros; apply change2_nonneg|apply pos_INR| |];
    intros k; apply pass_moves.
Qed.

(** *** Limits *)
(** The factors in the middle of a pass: new up to mode m, old behind it *)
Definition between (m : nat) (old new : list nd) : list nd :=
  map (fun n => if (n <=? m)%nat then nth n new m0 else nth n old m0) (seq 0 (length old)).

Lemma modes_app l1 : forall l2 s, cp_update_modes env cs (l1 ++ l2) s =
  match cp_update_modes env cs l1 s with (t, None) => cp_update_modes env cs l2 t | (t, Some e) => (t, Some e) end.
Proof.
  induction l1 as [|m l1 IH]; intros l2 u; [reflexivity|]. cbn [app cp_update_modes].
  destruct (cp_update_factor env cs u m) as [t [e|]]; [reflexivity|]. apply IH.
Qed.

Lemma between_best m k : (m < N)%nat ->
  let Ws := between m (Us k) (Us (S k)) in factors_ok K X Ws /\ best_in K X Ws m.
Proof.
  intros Hm. destruct (@after_coherent env cs K s k HC) as [HCk HSk]. fold md in HCk, HSk.
  pose proof (free_fit_same HSk HF) as HFk. set (u := state_after md s k) in *.
  assert (Hall : forall a b, (a + b <= N)%nat -> forall v, same_problem u v -> Forall (fun m => (m < length (shape (cp_X v)))%nat) (seq a b)).
  { intros a b Hab v HS. rewrite (sp_X HS), (sp_X HSk). apply Forall_forall. intros j Hj. apply in_seq in Hj. lia. }
  destruct (@modes_move (seq 0 m) u HCk HFk) as (v & Ev & HCv & HSv & _); [apply Hall; [lia|apply same_problem_refl]|].
  pose proof (free_fit_same HSv HFk) as HFv. assert (EXv : cp_X v = X) by (now rewrite (sp_X HSv), (sp_X HSk)).
  destruct (@update_moves v m HCv HFv) as (w & Ew & HCw & HSw & _ & HB); [now rewrite EXv|].
  pose proof (free_fit_same HSw HFv) as HFw. assert (EXw : cp_X w = X) by (now rewrite (sp_X HSw)).
  pose proof (same_problem_trans HSv HSw) as HSuw.
  destruct (@modes_move (seq (S m) (N - S m)) w HCw HFw) as (t & Et & HCt & HSt & _); [apply Hall; [lia|exact HSuw]|].
  assert (E1 : cp_update_modes env cs (seq 0 (S m)) u = (w, None)).
  { rewrite seq_S, modes_app, Ev. cbn [plus cp_update_modes]. now rewrite Ew. }
  assert (Ek : state_after md s (S k) = t).
  { cbn [state_after md cp_model md_update]. fold md. fold u. unfold cp_update_factors, ndim. rewrite (sp_X HSk).
    replace N with (S m + (N - S m))%nat at 1 by lia. rewrite seq_app, modes_app, E1. cbn [plus]. now rewrite Et. }
  assert (Hlu : length (fms u) = N) by (rewrite (mode_len (proj2 (co_fac HCk))); now rewrite (sp_X HSk)).
  assert (Hlw : length (fms w) = N) by (rewrite (mode_len (proj2 (co_fac HCw))); now rewrite EXw).
  assert (EW : between m (Us k) (Us (S k)) = fms w).
  { rewrite Ek. fold u. apply (nth_ext _ _ m0 m0); unfold between; rewrite map_length, seq_length; [now rewrite Hlu, Hlw|].
    intros n Hn. rewrite (nth_indep _ m0 ((fun n => if (n <=? m)%nat then nth n (fms t) m0 else nth n (fms u) m0) 0%nat))
      by (now rewrite map_length, seq_length).
    rewrite (map_nth (fun n => if (n <=? m)%nat then nth n (fms t) m0 else nth n (fms u) m0)), seq_nth by auto. cbn [plus].
    destruct (Nat.leb_spec n m) as [Hnm|Hnm].
    - apply (@modes_other env cs K HK Hsvd (seq (S m) (N - S m)) w t n HCw HFw); [apply Hall; [lia|exact HSuw]| |exact Et].
      intros Hi. apply in_seq in Hi. lia.
    - symmetry. apply (@modes_other env cs K HK Hsvd (seq 0 (S m)) u w n HCk HFk); [apply Hall; [lia|apply same_problem_refl]| |exact E1].
      intros Hi. apply in_seq in Hi. lia. }
  change (factors_ok K X (between m (Us k) (Us (S k))) /\ best_in K X (between m (Us k) (Us (S k))) m).
  rewrite EW. rewrite <- EXw. split; [apply (co_fac HCw)|exact HB].
Qed.
End Limit.

(** Sequences of factors whose entries have limits: so has every entry of the tensor, and the error. *)
Lemma cv_const c : Un_cv (fun _ => c) c.
Proof. intros e He. exists 0%nat. intros n _. unfold R_dist. rewrite Rminus_diag_eq, Rabs_R0; auto. Qed.
Lemma cv_ext f g l : (forall k, f k = g k) -> Un_cv f l -> Un_cv g l.
Proof. intros E H e He. destruct (H e He) as (n & Hn). exists n. intros k Hk. rewrite <- E. auto. Qed.
Lemma cv_sumf {A : Type} (l : list A) (f : A -> nat -> R) (g : A -> R) :
  (forall x, In x l -> Un_cv (f x) (g x)) -> Un_cv (fun k => sumf l (fun x => f x k)) (sumf l g).
Proof.
  induction l as [|x l IH]; intros H; cbn [sumf]; [apply cv_const|].
  apply (@CV_plus (f x) (fun k => sumf l (fun x => f x k))); [apply H; now left|]. apply IH. intros y Hy. apply H. now right.
Qed.

Lemma cv_le f g a b : (forall k, f k <= g k) -> Un_cv f a -> Un_cv g b -> a <= b.
Proof.
  intros H Ha Hb. destruct (Rle_lt_dec a b) as [|Hlt]; auto. exfalso. set (e := (a - b) / 2).
  destruct (Ha e) as (n & Hn); [unfold e; lra|]. destruct (Hb e) as (p & Hp); [unfold e; lra|].
  set (k := Nat.max n p). specialize (Hn k ltac:(lia)). specialize (Hp k ltac:(lia)). specialize (H k).
  unfold R_dist in *. apply Rabs_def2 in Hn. apply Rabs_def2 in Hp. unfold e in *. lra.
Qed.

Lemma tends_colprod K Ls : forall Us idx r, tends K Us Ls -> (forall k, length (Us k) = length Ls) -> valid idx (rows Ls) -> (r < K)%nat ->
  Un_cv (fun k => colprod (Us k) idx r) (colprod Ls idx r).
Proof.
  induction Ls as [|L Ls IH]; intros Us idx r HT Hl Hv Hr.
  - apply (@cv_ext (fun _ => 1)); [|apply cv_const]. intros k. specialize (Hl k). destruct (Us k); [reflexivity|discriminate].
  - cbn in Hv. apply valid_cons_inv in Hv as (i & idx' & -> & Hi & Hv). cbn [colprod].
    apply (@cv_ext (fun k => mget (nth 0 (Us k) m0) i r * colprod (tl (Us k)) idx' r)).
    + intros k. specialize (Hl k). destruct (Us k); [discriminate|reflexivity].
    + apply CV_mult.
      * apply (HT 0%nat i r); cbn; [lia|exact Hi|exact Hr].
      * apply (IH (fun k => tl (Us k))); [| |exact Hv|exact Hr].
        -- intros n j c Hn Hj Hc. apply (@cv_ext (fun k => mget (nth (S n) (Us k) m0) j c)).
           ++ intros k. specialize (Hl k). destruct (Us k); [discriminate|reflexivity].
           ++ apply (HT (S n) j c); cbn; [lia|exact Hj|exact Hc].
        -- intros k. specialize (Hl k). destruct (Us k); [discriminate|]. cbn in *. lia.
Qed.

Lemma tends_sse K X Us Ls : tends K Us Ls -> (forall k, length (Us k) = length Ls) -> rows Ls = shape X ->
  Un_cv (fun k => sse X (Us k) unit_weights K) (sse X Ls unit_weights K).
Proof.
  intros HT Hl Hr. unfold sse. apply (@cv_sumf _ _ (fun idx k => (get X idx - cp_entry (Us k) unit_weights K idx) ^ 2)).
  intros idx Hi. rewrite <- Hr in Hi. apply in_indices in Hi.
  assert (HE : Un_cv (fun k => cp_entry (Us k) unit_weights K idx) (cp_entry Ls unit_weights K idx)).
  { unfold cp_entry. apply (@cv_sumf _ _ (fun r k => unit_weights r * colprod (Us k) idx r)). intros r Hk. apply in_seq in Hk.
    apply CV_mult; [apply cv_const|]. apply (tends_colprod HT Hl Hi). lia. }
  assert (HD : Un_cv (fun k => get X idx - cp_entry (Us k) unit_weights K idx) (get X idx - cp_entry Ls unit_weights K idx)).
  { apply CV_minus; [apply cv_const|exact HE]. }
  apply (@cv_ext (fun k => (get X idx - cp_entry (Us k) unit_weights K idx) * (get X idx - cp_entry (Us k) unit_weights K idx))).
  - intros k. ring.
  - replace ((get X idx - cp_entry Ls unit_weights K idx) ^ 2) with
      ((get X idx - cp_entry Ls unit_weights K idx) * (get X idx - cp_entry Ls unit_weights K idx)) by ring.
    now apply CV_mult.
Qed.

Lemma tends_with K Us Ls m W : tends K Us Ls -> (forall k, length (Us k) = length Ls) -> (m < length Ls)%nat ->
  tends K (fun k => with_factor m W (Us k)) (with_factor m W Ls).
Proof.
  intros HT Hl Hm n i r Hn Hi Hr. unfold with_factor in *. rewrite length_replace_at in Hn. destruct (Nat.eq_dec n m) as [->|Hne].
  - rewrite nth_replace_at_eq in * by auto. apply (@cv_ext (fun _ => mget W i r)); [|apply cv_const].
    intros k. now rewrite nth_replace_at_eq by (now rewrite Hl).
  - rewrite nth_replace_at_neq in * by auto. apply (@cv_ext (fun k => mget (nth n (Us k) m0) i r)); [|now apply HT].
    intros k. now rewrite nth_replace_at_neq by auto.
Qed.

Lemma cv_either f g h l : (forall k, h k = f k \/ h k = g k) -> Un_cv f l -> Un_cv g l -> Un_cv h l.
Proof.
  intros H Hf Hg e He. destruct (Hf e He) as (n & Hn). destruct (Hg e He) as (p & Hp). exists (Nat.max n p).
  intros k Hk. destruct (H k) as [-> | ->]; [apply Hn|apply Hp]; lia.
Qed.

Lemma nth_between m old new n : (n < length old)%nat ->
  nth n (between m old new) m0 = if (n <=? m)%nat then nth n new m0 else nth n old m0.
Proof.
  intros Hn. unfold between. rewrite (nth_indep _ m0 ((fun n => if (n <=? m)%nat then nth n new m0 else nth n old m0) 0%nat))
    by (now rewrite map_length, seq_length).
  now rewrite (map_nth (fun n => if (n <=? m)%nat then nth n new m0 else nth n old m0)), seq_nth by auto.
Qed.
Lemma length_between m old new : length (between m old new) = length old.
Proof. unfold between. now rewrite map_length, seq_length. Qed.
Lemma tends_between K m Us Vs Ls : tends K Us Ls -> tends K Vs Ls -> (forall k, length (Us k) = length Ls) ->
  tends K (fun k => between m (Us k) (Vs k)) Ls.
Proof.
  intros HU HV Hl n i r Hn Hi Hr. apply (@cv_either (fun k => mget (nth n (Us k) m0) i r) (fun k => mget (nth n (Vs k) m0) i r)).
  - intros k. rewrite nth_between by (now rewrite Hl). destruct (n <=? m)%nat; auto.
  - now apply HU.
  - now apply HV.
Qed.

Lemma limit_best env cs K s Ls pick : cs_rank cs = K -> svd_works_on K K (env_svd env) -> cp_coherent K s -> free_fit cs s ->
  let Us k := fms (state_after (cp_model env cs) s k) in
  factors_ok K (cp_X s) Ls -> tends K (fun k => Us (pick k)) Ls -> tends K (fun k => Us (S (pick k))) Ls ->
  forall m, (m < length (shape (cp_X s)))%nat -> best_in K (cp_X s) Ls m /\ stationary_in K (cp_X s) Ls m.
Proof.
  intros HK Hsvd HC HF Us HL H1 H2 m Hm. pose proof HL as [HM Hr].
  assert (HB : best_in K (cp_X s) Ls m); [|split; [exact HB|exact (@best_flat K (cp_X s) Ls m HL Hm HB)]].
  assert (HlU : forall k, length (Us k) = length Ls).
  { intros k. destruct (@after_coherent env cs K s k HC) as [HCk HSk]. unfold Us. rewrite (mode_len (proj2 (co_fac HCk))).
    now rewrite (sp_X HSk), (mode_len Hr). }
  intros W HW. set (Ws := fun k => between m (Us (pick k)) (Us (S (pick k)))).
  assert (HT : tends K Ws Ls) by (apply tends_between; auto).
  assert (Hl : forall k, length (Ws k) = length Ls) by (intros k; unfold Ws; rewrite length_between; apply HlU).
  apply (@cv_le (fun k => sse (cp_X s) (Ws k) unit_weights K) (fun k => sse (cp_X s) (with_factor m W (Ws k)) unit_weights K)).
  - intros k. apply (@between_best env cs K HK Hsvd s HC HF m (pick k) Hm). exact HW.
  - now apply tends_sse.
  - apply tends_sse.
    + apply tends_with; auto. now rewrite (mode_len Hr).
    + intros k. unfold with_factor. now rewrite !length_replace_at.
    + exact (proj2 (factors_ok_replace HL Hm HW)).
Qed.

(** A fit that stops because of its tolerance has hardly moved in its last pass. *)
Lemma fit_moves env cs K cf disk draws X max_its arg ds ds1 :
  let budget := match max_its with Some m => m | None => ds_max ds end in
  plain_call env cs K cf draws X budget arg ds ->
  cp_init_fit env cs disk draws X max_its arg ds = (ds1, None) -> energy X <> 0 -> 0 < cf_tol cf < 1 ->
  let Us k := fms (state_after (cp_model env cs) (ds_num ds1) k) in
  let L k := sse X (Us k) unit_weights K in
  exists d n, cp_fit env cs cf disk draws X max_its arg ds = (d, None) /\ ds_it d = Z.of_nat n /\ kt_fms (cp_dec (ds_num d)) = Us n /\
    sum n (fun k => change2 K X (Us k) (Us (S k))) <= INR (length (shape X)) * (L 0%nat - L n) /\
    (ds_it d = budget \/ L n < cf_rel_tol cf * energy X \/
     exists k, n = S k /\ change2 K X (Us k) (Us n) <= INR (length (shape X)) * (cf_tol cf * L k)).
Proof.
  intros budget (A1 & A2 & A3 & A4 & A5 & A6 & A7 & A8 & A9 & A10 & A11) E1 He Ht Us L.
  destruct (@complete_fit env cs K cf disk draws X max_its arg ds A1 A2 A3 A4 A5 A6 A7 A8 A9 A10 A11)
    as (x1 & d & G1 & F & FL & HC & HU & HF & EX & Ei & Em & _ & Ep & Er). rewrite E1 in G1. injection G1 as <-.
  rewrite <- EX in He, Ep.
  destruct (@cp_why_stopped env cs K cf ds1 d A3 A1 HC HU HF He Ht Ep Er FL) as (n & Hn & En & _ & _ & Hwhy).
  rewrite Ei in Hn. cbn [Z.add] in Hn.
  exists d, n. split; [exact F|]. split; [exact Hn|]. split; [now rewrite En|].
  split.
  - pose proof (@total_moves env cs K A1 A3 (ds_num ds1) HC HF n) as H. rewrite EX in H. exact H.
  - rewrite EX in Hwhy. destruct Hwhy as [Hw|[Hw|(k & Ek & Hk & _)]].
    + left. rewrite Hn. rewrite Ei, Em in Hw. fold budget in A9. change (0 < budget)%Z in A9. rewrite Hw. fold budget. lia.
    + right. left. exact Hw.
    + right. right. exists k. split; [exact Ek|].
      pose proof (proj2 (@pass_moves env cs K A1 A3 (ds_num ds1) HC HF k)) as H. rewrite EX in H. subst n.
      eapply Rle_trans; [exact H|]. apply Rmult_le_compat_l; [apply pos_INR|]. left. exact Hk.
Qed.
