(** Invariances of the factor match score, fit scores and leverages. *)
From Coq Require Import String.
From Verif Require Export MetricsFacts.
Set Implicit Arguments.
Unset Strict Implicit.
Local Open Scope R_scope.

(** *** Order of the estimated components *)
Definition via (sg q : list nat) : list nat := map (fun x => nth x sg 0%nat) q.

Lemma nth_via sg q c : (c < length q)%nat -> nth c (via sg q) 0%nat = nth (nth c q 0%nat) sg 0%nat.
Proof.
  intros H. unfold via. rewrite (nth_indep _ 0%nat ((fun x => nth x sg 0%nat) 0%nat)) by now rewrite map_length.
  now rewrite (map_nth (fun x => nth x sg 0%nat)).
Qed.

Lemma clen_colperm_any sg E d : (d < length sg)%nat -> clen (colperm sg E) d = clen E (nth d sg 0%nat).
Proof. apply clen_colperm. Qed.

Lemma rcos_perm sg T E c d : nrows T = nrows E -> (d < length sg)%nat ->
  rcos T (colperm sg E) c d = rcos T E c (nth d sg 0%nat).
Proof.
  intros Hn Hd. unfold rcos. rewrite clen_colperm by auto. do 2 f_equal. apply sum_ext. intros i Hi.
  unfold colperm. rewrite mget_tab2 by (auto; lia). reflexivity.
Qed.

Lemma match_score_perm wp sg Ts Es c d : rows Ts = rows Es -> (d < length sg)%nat ->
  match_score wp Ts (map (colperm sg) Es) c d = match_score wp Ts Es c (nth d sg 0%nat).
Proof.
  intros Hr Hd. unfold match_score, weight_agreement. rewrite cweight_colperm by auto. f_equal.
  revert Es Hr. induction Ts as [|T Ts IH]; intros [|E Es] Hr; cbn; auto; try discriminate Hr.
  cbn in Hr. injection Hr as E1 E2. rewrite rcos_perm by auto. now rewrite IH.
Qed.

Lemma is_perm_in K sg x : is_perm K sg -> (x < K)%nat -> In x sg.
Proof.
  intros (Hl & Hd & Hb) Hx.
  assert (Hi : incl (seq 0 K) sg).
  { apply NoDup_length_incl; auto; [rewrite seq_length; lia|]. intros y Hy. apply in_seq. specialize (Hb y Hy). lia. }
  apply Hi. apply in_seq. lia.
Qed.

Lemma via_assignment K r sg q : is_perm K sg -> assignment K r q -> assignment K r (via sg q).
Proof.
  intros (Hl & Hd & Hb) (H1 & H2 & H3). unfold assignment, via. rewrite map_length. split; auto. split.
  - rewrite Forall_forall in H3. clear H1. induction q as [|x q IH]; cbn; constructor.
    + intros H. apply in_map_iff in H. destruct H as (y & E & Hy). inversion H2; subst.
      assert (y = x).
      { apply (proj1 (NoDup_nth sg 0%nat) Hd); auto.
        - exact (H3 y (or_intror Hy)).
        - exact (H3 x (or_introl eq_refl)). }
      subst. contradiction.
    + apply IH; [now inversion H2|]. intros y Hy. apply H3. now right.
  - rewrite Forall_forall in *. intros x Hx. apply in_map_iff in Hx. destruct Hx as (y & <- & Hy).
    apply Hb. apply nth_In. rewrite Hl. auto.
Qed.

Lemma via_surj K r sg p : is_perm K sg -> assignment K r p -> exists q, assignment K r q /\ via sg q = p.
Proof.
  intros Hs (H1 & H2 & H3).
  assert (Hq : exists q, via sg q = p /\ Forall (fun x => (x < K)%nat) q).
  { clear H1 H2. induction H3 as [|x p Hx H3 (q & E & Hq)].
    - exists []. split; auto.
    - destruct (In_nth _ _ 0%nat (is_perm_in Hs Hx)) as (k & Hk & Ek). exists (k :: q). unfold via in *. cbn. rewrite Ek, E.
      split; auto. constructor; auto. destruct Hs as (<- & _). auto. }
  destruct Hq as (q & E & Hq). exists q. split; auto. split; [|split; auto].
  - rewrite <- H1, <- E. unfold via. now rewrite map_length.
  - subst p. unfold via in H2. now apply NoDup_map_inv in H2.
Qed.

Section Order.
  Variables (red : reduction) (wp : bool) (K K' : nat) (Ts Es : list nd) (sg : list nat).
  Hypothesis HT : mats K Ts.
  Hypothesis HE : mats K' Es.
  Hypothesis Hr : rows Ts = rows Es.
  Hypothesis Hs : is_perm K' sg.
  Let Es' := map (colperm sg) Es.

  Lemma via_comparable q : assignment K' K q -> (comparable wp Ts Es' q <-> comparable wp Ts Es (via sg q)).
  Proof.
    intros (H1 & _ & H3). unfold comparable. unfold via at 1. rewrite map_length. rewrite Forall_forall in H3.
    assert (E : forall c, (c < length q)%nat -> cweight Es' (nth c q 0%nat) = cweight Es (nth c (via sg q) 0%nat)).
    { intros c Hc. unfold Es'. rewrite nth_via by auto. apply cweight_colperm.
      destruct Hs as (-> & _). apply H3. now apply nth_In. }
    split; intros H Hw c Hc; specialize (H Hw c Hc); rewrite E in * by auto; auto.
  Qed.

  Lemma via_total q s : assignment K' K q ->
    (total_score red wp Ts Es' q s <-> total_score red wp Ts Es (via sg q) s).
  Proof.
    intros (H1 & _ & H3). unfold total_score. unfold via at 1. rewrite map_length. rewrite Forall_forall in H3.
    assert (E : forall c, (c < length q)%nat -> match_score wp Ts Es' c (nth c q 0%nat) =
                          match_score wp Ts Es c (nth c (via sg q) 0%nat)).
    { intros c Hc. unfold Es'. rewrite nth_via by auto. apply match_score_perm; auto.
      destruct Hs as (-> & _). apply H3. now apply nth_In. }
    split; apply reduced_ext; intros; rewrite E; auto.
  Qed.
End Order.

Lemma order_lemma red wp K K' Ts Es sg Es' : mats K Ts -> mats K' Es -> rows Ts = rows Es -> Ts <> [] -> (0 < K)%nat ->
  is_perm K' sg -> permute_factors sg Es = Ok Es' ->
  exists m b b', factor_match_score Ts Es wp (reduction_name red) = Ok (m, b) /\
    factor_match_score Ts Es' wp (reduction_name red) = Ok (m, b').
Proof.
  intros HT HE Hr Hn HK Hs HP.
  assert (Hb : forall x, In x sg -> (x < K')%nat) by apply Hs.
  rewrite (permute_factors_ok HE Hb) in HP. injection HP as <-.
  assert (HE' : mats K' (map (colperm sg) Es)) by (destruct Hs as (<- & _); apply mats_colperm).
  assert (Hr' : rows Ts = rows (map (colperm sg) Es)) by now rewrite rows_colperm.
  destruct (fms_lemma red wp HT HE Hr Hn HK) as [(p & s & E1 & A1 & C1 & S1 & M1)|(E1 & N1)];
  destruct (fms_lemma red wp HT HE' Hr' Hn HK) as [(q & t & E2 & A2 & C2 & S2 & M2)|(E2 & N2)].
  - exists (Fin s), (Some p), (Some q). split; auto. rewrite E2. do 2 f_equal. f_equal. apply Rle_antisym.
    + apply (M1 (via sg q) t).
      * now apply via_assignment.
      * apply (@via_comparable wp K K' Ts Es sg Hs q A2). exact C2.
      * apply (@via_total red wp K K' Ts Es sg Hr Hs q t A2). exact S2.
    + destruct (via_surj Hs A1) as (q' & A3 & Eq). subst p. apply (M2 q' s); auto.
      * apply (@via_comparable wp K K' Ts Es sg Hs q' A3). exact C1.
      * apply (@via_total red wp K K' Ts Es sg Hr Hs q' s A3). exact S1.
  - exfalso. destruct (via_surj Hs A1) as (q' & A3 & Eq). subst p. apply (N2 q' A3).
    apply (@via_comparable wp K K' Ts Es sg Hs q' A3). exact C1.
  - exfalso. apply (N1 (via sg q)).
    + now apply via_assignment.
    + apply (@via_comparable wp K K' Ts Es sg Hs q A2). exact C2.
  - exists (Fin (-1)), None, None. auto.
Qed.

(** *** Signs of the estimated components *)
Lemma sign_clen K E E' d : same_up_to_sign K E E' -> (d < K)%nat -> clen E' d = clen E d.
Proof.
  intros (Hn & s & Hs & H) Hd. unfold clen. f_equal. rewrite Hn. apply sum_ext. intros i Hi.
  rewrite H by auto. destruct (Hs d Hd) as [-> | ->]; ring.
Qed.
Lemma sign_rcos K T E E' c d : nrows T = nrows E -> same_up_to_sign K E E' -> (d < K)%nat -> rcos T E' c d = rcos T E c d.
Proof.
  intros Ht HS Hd. unfold rcos. rewrite (sign_clen HS Hd). destruct HS as (Hn & s & Hs & H). f_equal.
  transitivity (Rabs (s d * sum (nrows T) (fun i => mget T i c * mget E i d))).
  - f_equal. rewrite <- sum_scal_l. apply sum_ext. intros i Hi. rewrite H by (auto; lia). ring.
  - rewrite Rabs_mult. destruct (Hs d Hd) as [-> | ->]; [rewrite Rabs_R1|rewrite (Rabs_left (-1)) by lra]; ring.
Qed.
Lemma sign_cweight K Es Es' d : Forall2 (same_up_to_sign K) Es Es' -> (d < K)%nat -> cweight Es' d = cweight Es d.
Proof.
  intros H Hd. unfold cweight. induction H as [|E E' Es Es' H1 H IH]; cbn; auto. rewrite IH. f_equal.
  eapply sign_clen; eauto.
Qed.
Lemma sign_match wp K Ts Es Es' c d : rows Ts = rows Es -> Forall2 (same_up_to_sign K) Es Es' -> (d < K)%nat ->
  match_score wp Ts Es' c d = match_score wp Ts Es c d.
Proof.
  intros Hr H Hd. unfold match_score, weight_agreement. rewrite (sign_cweight H Hd). f_equal.
  revert Ts Hr. induction H as [|E E' Es Es' H1 H IH]; intros [|T Ts] Hr; cbn; auto; try discriminate Hr.
  cbn in Hr. injection Hr as E1 E2. rewrite IH by auto. f_equal. eapply sign_rcos; eauto.
Qed.

Lemma sign_lemma red wp K K' Ts Es Es' : mats K Ts -> mats K' Es -> mats K' Es' -> rows Ts = rows Es -> Ts <> [] ->
  (0 < K)%nat -> Forall2 (same_up_to_sign K') Es Es' ->
  factor_match_score Ts Es' wp (reduction_name red) = factor_match_score Ts Es wp (reduction_name red).
Proof.
  intros HT HE HE' Hr Hn HK HS.
  assert (Hr' : rows Ts = rows Es').
  { rewrite Hr. clear - HS. induction HS as [|E E' Es Es' [H _] HS IH]; cbn; auto. f_equal; auto. }
  assert (Hc : forall p, assignment K' K p -> (comparable wp Ts Es' p <-> comparable wp Ts Es p)).
  { intros p (_ & _ & Hb). rewrite Forall_forall in Hb.
    split; intros H Hw c Hl; specialize (H Hw c Hl);
      [rewrite <- (sign_cweight HS)|rewrite (sign_cweight HS)]; auto; apply Hb; now apply nth_In. }
  assert (Ht : forall p s, assignment K' K p -> (total_score red wp Ts Es' p s <-> total_score red wp Ts Es p s)).
  { intros p s (_ & _ & Hb). rewrite Forall_forall in Hb.
    split; apply reduced_ext; intros c Hl; [|symmetry]; apply (sign_match wp c Hr HS); apply Hb; now apply nth_In. }
  destruct (fms_lemma red wp HT HE Hr Hn HK) as [(p & s & E1 & A1 & C1 & S1 & M1)|(E1 & N1)];
  destruct (fms_lemma red wp HT HE' Hr' Hn HK) as [(q & t & E2 & B2)|(E2 & N2)].
  - assert (B1 : best_assignment red wp Ts Es' K' K p s).
    { split; auto. split; [now apply Hc|]. split; [now apply Ht|]. intros q' s' A' C' S'. apply M1; auto.
      - now apply Hc.
      - now apply Ht. }
    destruct (best_unique B1 B2) as [-> ->]. now rewrite E1.
  - exfalso. apply (N2 p A1). now apply Hc.
  - exfalso. destruct B2 as (A2 & C2 & _). apply (N1 q A2). now apply Hc.
  - now rewrite E1.
Qed.

(** *** Score of a decomposition against itself *)
Lemma rcos_self T c : rcos T T c c = (clen T c / (clen T c + tiny)) ^ 2.
Proof.
  unfold rcos. pose proof (clen_nonneg T c). pose proof tiny_pos.
  assert (E : sum (nrows T) (fun i => mget T i c * mget T i c) = clen T c ^ 2).
  { rewrite clen_sq. apply sum_ext. intros. ring. }
  rewrite E, Rabs_right by (apply Rle_ge; nra). field. lra.
Qed.

Lemma combine_self {A} (l : list A) f : prodf (combine l l) (fun p => f (fst p) (snd p)) = prodf l (fun x => f x x).
Proof. induction l; cbn; auto. now rewrite IHl. Qed.

Lemma self_lemma red wp K Ts t : mats K Ts -> Ts <> [] -> (0 < K)%nat ->
  (wp = true -> forall c, (c < K)%nat -> cweight Ts c <> 0) ->
  reduced red K (fun c => prodf Ts (fun T => (clen T c / (clen T c + tiny)) ^ 2)) t ->
  exists s p, factor_match_score Ts Ts wp (reduction_name red) = Ok (Fin s, Some p) /\ t <= s.
Proof.
  intros HT Hn HK Hw Ht.
  assert (A : assignment K K (seq 0 K)).
  { split; [apply seq_length|]. split; [apply seq_NoDup|]. apply Forall_forall. intros x Hx. apply in_seq in Hx. lia. }
  assert (C : comparable wp Ts Ts (seq 0 K)).
  { intros E c Hc [H _]. rewrite seq_length in Hc. exact (Hw E c Hc H). }
  assert (S1 : total_score red wp Ts Ts (seq 0 K) t).
  { unfold total_score. rewrite seq_length. eapply reduced_ext; [|exact Ht]. intros c Hc. cbn beta.
    rewrite seq_nth by auto. cbn [plus]. unfold match_score.
    rewrite (combine_self Ts (fun T E => rcos T E c c)).
    assert (E : weight_agreement wp Ts Ts c c = 1).
    { unfold weight_agreement. destruct wp; auto. rewrite Rminus_eq_0, Rabs_R0. rewrite Rmax_left by lra.
      field. apply Hw; auto. }
    rewrite E, Rmult_1_l. apply prodf_ext. intros T _. symmetry. apply rcos_self. }
  destruct (fms_lemma red wp HT HT eq_refl Hn HK) as [(p & s & E1 & A1 & C1 & _ & M1)|(E1 & N1)].
  - exists s, p. split; auto. apply (M1 _ _ A C S1).
  - exfalso. exact (N1 _ A C).
Qed.

(** *** percent_explained and tensor_completion_score *)
Lemma sub_same a b : wf a -> wf b -> shape a = shape b ->
  np_sub a b = Ok (tab (shape a) (fun i => get a i - get b i)).
Proof. intros Ha Hb E. unfold np_sub. now rewrite (broadcast_same _ E). Qed.

Definition sq_sum (sh : list nat) (f : list nat -> R) : R := sumf (indices sh) (fun i => f i ^ 2).

Lemma norm2_tab sh f : norm2 (tab sh f) = sq_sum sh f.
Proof.
  rewrite norm2_get by apply wf_tab. rewrite shape_tab. apply sumf_ext. intros i Hi. apply in_indices in Hi.
  rewrite get_tab by auto. ring.
Qed.
Lemma norm2_sq a : wf a -> norm2 a = sq_sum (shape a) (get a).
Proof. intros H. rewrite norm2_get by auto. apply sumf_ext. intros. ring. Qed.
Lemma sq_sum_nonneg sh f : 0 <= sq_sum sh f.
Proof. apply sumf_nonneg. intros. apply pow2_ge_0. Qed.
Lemma sq_sum_zero sh f : sq_sum sh f = 0 <-> forall i, valid i sh -> f i = 0.
Proof.
  split.
  - intros H i Hi. assert (f i ^ 2 = 0).
    { apply (@sumf_nonneg_zero _ (indices sh) (fun i => f i ^ 2)); auto.
      - intros. apply pow2_ge_0.
      - now apply in_indices. }
    nra.
  - intros H. apply sumf_zero. intros i Hi. apply in_indices in Hi. rewrite H by auto. ring.
Qed.

Lemma percent_lemma X Y : wf X -> wf Y -> shape X = shape Y ->
  percent_explained X Y = Ok (xsub (Fin 1) (xdivR (sq_sum (shape X) (fun i => get X i - get Y i)) (sq_sum (shape X) (get X)))).
Proof.
  intros HX HY E. unfold percent_explained. rewrite (sub_same HX HY E). cbn [bind].
  rewrite !norm_pow2, norm2_tab, norm2_sq by auto. reflexivity.
Qed.

Lemma percent_calibrated X Y : wf X -> wf Y -> shape X = shape Y -> sq_sum (shape X) (get X) <> 0 ->
  exists v, percent_explained X Y = Ok (Fin v) /\
    v = 1 - sq_sum (shape X) (fun i => get X i - get Y i) / sq_sum (shape X) (get X) /\ v <= 1 /\ (v = 1 <-> X = Y).
Proof.
  intros HX HY E Hz. rewrite (percent_lemma HX HY E). unfold xdivR.
  destruct (Req_EM_T _ 0); [contradiction|]. eexists. split; [reflexivity|]. split; [reflexivity|].
  set (a := sq_sum (shape X) (get X)) in *. set (b := sq_sum (shape X) (fun i => get X i - get Y i)).
  assert (Ha : 0 < a) by (pose proof (sq_sum_nonneg (shape X) (get X)); fold a in H; lra).
  assert (Hb : 0 <= b) by apply sq_sum_nonneg.
  assert (Hq : 0 <= b / a) by (apply Rmult_le_pos; auto; left; now apply Rinv_0_lt_compat).
  split; [lra|]. split.
  - intros H. assert (b = 0).
    { assert (b / a = 0) by lra. replace b with (b / a * a) by (field; lra). rewrite H0. ring. }
    apply nd_ext; auto. intros i Hi. apply Rminus_diag_uniq. exact (proj1 (sq_sum_zero _ _) H0 i Hi).
  - intros <-. assert (b = 0). { apply sq_sum_zero. intros. ring. } rewrite H. field. lra.
Qed.

Lemma percent_zero X Y : wf X -> wf Y -> shape X = shape Y -> (forall i, valid i (shape X) -> get X i = 0) ->
  percent_explained X Y = Ok (if Req_EM_T (sq_sum (shape X) (get Y)) 0 then NaN else NInf).
Proof.
  intros HX HY E Hz. rewrite (percent_lemma HX HY E).
  assert (E1 : sq_sum (shape X) (get X) = 0) by now apply sq_sum_zero. rewrite E1.
  assert (E2 : sq_sum (shape X) (fun i => get X i - get Y i) = sq_sum (shape X) (get Y)).
  { apply sumf_ext. intros i Hi. apply in_indices in Hi. rewrite Hz by auto. ring. }
  rewrite E2. unfold xdivR. destruct (Req_EM_T 0 0); [|lra]. pose proof (sq_sum_nonneg (shape X) (get Y)).
  destruct (Rlt_dec _ 0); [lra|]. destruct (Rlt_dec 0 _), (Req_EM_T _ 0); cbn; auto; lra.
Qed.

Lemma tcs_lemma X Y W : wf X -> wf Y -> wf W -> shape X = shape Y -> shape W = shape X ->
  tensor_completion_score X Y W =
  Ok (xdivR (sqrt (sq_sum (shape X) (fun i => (1 - get W i) * (get X i - get Y i))))
            (sqrt (sq_sum (shape X) (fun i => (1 - get W i) * get X i)))).
Proof.
  intros HX HY HW E EW. unfold tensor_completion_score. rewrite (sub_same HX HY E). cbn [bind].
  assert (E1 : shape (np_map (fun w => 1 - w) W) = shape W) by reflexivity.
  unfold np_mul. rewrite broadcast_same by (now rewrite E1, shape_tab, EW). cbn [bind].
  rewrite broadcast_same by now rewrite E1, EW. cbn [bind]. unfold norm. rewrite !norm2_tab, E1, EW.
  do 2 f_equal; f_equal; apply sumf_ext; intros i Hi; apply in_indices in Hi;
    rewrite ?get_tab by auto; rewrite get_np_map; auto; now rewrite EW.
Qed.

Lemma tcs_calibrated X Y W : wf X -> wf Y -> wf W -> shape X = shape Y -> shape W = shape X ->
  (exists i, valid i (shape X) /\ get W i <> 1 /\ get X i <> 0) ->
  exists v, tensor_completion_score X Y W = Ok (Fin v) /\ 0 <= v /\
    (v = 0 <-> forall i, valid i (shape X) -> get W i <> 1 -> get X i = get Y i).
Proof.
  intros HX HY HW E EW (i0 & Hi0 & Hw0 & Hx0). rewrite (tcs_lemma HX HY HW E EW).
  set (a := sq_sum (shape X) (fun i => (1 - get W i) * get X i)).
  assert (Ha : 0 < a).
  { pose proof (sq_sum_nonneg (shape X) (fun i => (1 - get W i) * get X i)) as H. fold a in H.
    destruct (Req_EM_T a 0) as [E0|]; [|lra]. exfalso. pose proof (proj1 (sq_sum_zero _ _) E0 i0 Hi0) as H0. cbn beta in H0.
    apply Rmult_integral in H0. destruct H0; lra. }
  pose proof (sqrt_lt_R0 a Ha) as Hs. unfold xdivR. destruct (Req_EM_T (sqrt a) 0); [lra|].
  eexists. split; [reflexivity|].
  set (b := sq_sum (shape X) (fun i => (1 - get W i) * (get X i - get Y i))).
  assert (Hb : 0 <= b) by apply sq_sum_nonneg. pose proof (sqrt_pos b) as Hsb.
  split; [apply Rmult_le_pos; auto; left; now apply Rinv_0_lt_compat|]. split.
  - intros H. assert (sqrt b = 0).
    { replace (sqrt b) with (sqrt b / sqrt a * sqrt a) by (field; lra). rewrite H. ring. }
    apply sqrt_eq_0 in H0; auto. intros i Hi Hw. pose proof (proj1 (sq_sum_zero _ _) H0 i Hi) as H1. cbn beta in H1.
    apply Rmult_integral in H1. destruct H1; lra.
  - intros H. assert (b = 0).
    { apply sq_sum_zero. intros i Hi. destruct (Req_EM_T (get W i) 1) as [->|Hw]; [ring|]. rewrite (H i Hi Hw). ring. }
    rewrite H0, sqrt_0. field. lra.
Qed.

Lemma tcs_ignores X Y X' Y' W : wf X -> wf Y -> wf X' -> wf Y' -> wf W ->
  shape X = shape Y -> shape W = shape X -> shape X' = shape X -> shape Y' = shape X ->
  (forall i, valid i (shape X) -> get W i <> 1 -> get X i = get X' i /\ get Y i = get Y' i) ->
  tensor_completion_score X Y W = tensor_completion_score X' Y' W.
Proof.
  intros HX HY HX' HY' HW E EW E1 E2 H.
  rewrite (tcs_lemma HX HY HW E EW), (@tcs_lemma X' Y' W) by congruence. rewrite E1.
  do 3 f_equal; apply sumf_ext; intros i Hi; apply in_indices in Hi;
    (destruct (Req_EM_T (get W i) 1) as [->|Hw]; [ring|]); destruct (H i Hi Hw) as [EX EY]; rewrite ?EX, ?EY; auto.
Qed.

(** *** leverage *)
Lemma leverage_lemma inv n k F Gi : is_mat n k F ->
  inv (tab2 k k (fun a b => sum n (fun i => mget F i a * mget F i b))) = Ok Gi ->
  is_inverse k (tab2 k k (fun a b => sum n (fun i => mget F i a * mget F i b))) Gi ->
  exists L, leverage inv F = Ok L /\ is_vec n L /\ (forall i, (i < n)%nat -> 0 <= vget L i <= 1) /\
    sum n (fun i => vget L i) = INR k.
Proof.
  intros HF Hinv (HGi & HI). unfold leverage.
  set (g := fun a b => sum n (fun i => mget F i a * mget F i b)) in *.
  rewrite (matmul_ok (is_mat_transp HF) HF). cbn [bind].
  assert (EG : tab2 k k (fun i j => sum n (fun l => mget (transp F) i l * mget F l j)) = tab2 k k g).
  { apply tab2_ext. intros a b Ha Hb. apply sum_ext. intros i Hi. now rewrite (mget_transp HF). }
  rewrite EG, Hinv. cbn [bind].
  rewrite (matmul_ok HF (is_mat_transp HGi)). cbn [bind].
  set (H := tab2 n k _). assert (HH : is_mat n k H) by (unfold H; auto).
  rewrite (matmul_ok HH (is_mat_transp HF)). cbn [bind].
  set (L := tab2 n n _). assert (HL : is_mat n n L) by (unfold L; auto).
  unfold np_diagonal. unfold shape2. destruct HL as [_ EL]. rewrite EL. cbn [bind fst snd]. rewrite Nat.min_id.
  eexists. split; [reflexivity|]. split; [auto|].
  set (gi := mget Gi).
  assert (HI' : forall a b, (a < k)%nat -> (b < k)%nat -> sum k (fun c => g a c * gi c b) = delta a b).
  { intros a b Ha Hb. rewrite <- (HI a b Ha Hb). unfold mprod. apply sum_ext. intros c Hc. now rewrite mget_tab2. }
  set (u := fun i b => sum k (fun a => mget F i a * gi b a)).
  assert (Hu : forall i b, (i < n)%nat -> (b < k)%nat -> sum k (fun b' => g b b' * u i b') = mget F i b).
  { intros i b Hi Hb. unfold u.
    transitivity (sum k (fun a => delta b a * mget F i a)); [|now apply sum_delta_l].
    transitivity (sum k (fun b' => sum k (fun a => g b b' * gi b' a * mget F i a))).
    - apply sum_ext. intros b' Hb'. rewrite <- sum_scal_l. apply sum_ext. intros. ring.
    - rewrite sum_swap. apply sum_ext. intros a Ha. rewrite <- (HI' b a) by auto. now rewrite <- sum_scal_r. }
  set (h := fun i j => sum k (fun b => u i b * mget F j b)).
  assert (EL' : forall i, (i < n)%nat -> vget (tab1 n (fun i => mget L i i)) i = h i i).
  { intros i Hi. rewrite vget_tab1 by auto. unfold L. rewrite mget_tab2 by auto. unfold h. apply sum_ext. intros b Hb.
    rewrite (mget_transp HF) by auto. f_equal. unfold H. rewrite mget_tab2 by auto. unfold u. apply sum_ext.
    intros a Ha. now rewrite (mget_transp HGi). }
  split.
  - intros i Hi. rewrite EL' by auto.
    assert (Hp : sum n (fun j => h i j ^ 2) = h i i).
    { transitivity (sum k (fun b => u i b * sum k (fun b' => g b b' * u i b'))).
      - transitivity (sum n (fun j => sum k (fun b => sum k (fun b' => u i b * u i b' * (mget F j b * mget F j b'))))).
        + apply sum_ext. intros j Hj. cbn [pow]. rewrite Rmult_1_r. unfold h. rewrite sum_mul.
          apply sum_ext. intros. apply sum_ext. intros. ring.
        + rewrite sum_swap. apply sum_ext. intros b Hb. rewrite <- sum_scal_l. rewrite sum_swap.
          apply sum_ext. intros b' Hb'. unfold g. rewrite <- sum_scal_r, <- sum_scal_l. apply sum_ext. intros. ring.
      - unfold h. apply sum_ext. intros b Hb. now rewrite Hu. }
    assert (Hs : h i i ^ 2 <= h i i).
    { rewrite <- Hp at 2. apply (@sum_term_le n (fun j => h i j ^ 2)); auto. intros. apply pow2_ge_0. }
    assert (0 <= h i i) by (rewrite <- Hp; apply sum_nonneg; intros; apply pow2_ge_0).
    split; auto. nra.
  - rewrite (@sum_ext _ _ (fun i => h i i)) by auto.
    transitivity (sum k (fun a => sum k (fun b => g a b * gi b a))).
    + unfold h, u.
      transitivity (sum n (fun i => sum k (fun b => sum k (fun a => mget F i a * gi b a * mget F i b)))).
      { apply sum_ext. intros i Hi. apply sum_ext. intros b Hb. now rewrite <- sum_scal_r. }
      transitivity (sum n (fun i => sum k (fun a => sum k (fun b => mget F i a * gi b a * mget F i b)))).
      { apply sum_ext. intros i Hi. apply sum_swap. }
      rewrite sum_swap. apply sum_ext. intros a Ha. rewrite sum_swap. apply sum_ext. intros b Hb.
      unfold g. rewrite <- sum_scal_r. apply sum_ext. intros. ring.
    + rewrite (@sum_ext _ _ (fun _ => 1)).
      * rewrite sum_const. ring.
      * intros a Ha. rewrite HI' by auto. apply delta_refl.
Qed.

Lemma leverage_err inv n k F e : is_mat n k F ->
  inv (tab2 k k (fun a b => sum n (fun i => mget F i a * mget F i b))) = Err e -> leverage inv F = Err e.
Proof.
  intros HF Hinv. unfold leverage. rewrite (matmul_ok (is_mat_transp HF) HF). cbn [bind].
  assert (EG : tab2 k k (fun i j => sum n (fun l => mget (transp F) i l * mget F l j)) =
               tab2 k k (fun a b => sum n (fun i => mget F i a * mget F i b))).
  { apply tab2_ext. intros a b Ha Hb. apply sum_ext. intros i Hi. now rewrite (mget_transp HF). }
  now rewrite EG, Hinv.
Qed.

(** *** Separate modes *)
Lemma fold_ext {A B} (f g : B -> A -> res B) l b : (forall x y, f x y = g x y) -> foldM f l b = foldM g l b.
Proof. intros H. revert b. induction l as [|a l IH]; intros b; cbn; auto. rewrite H. destruct (g b a); cbn; auto. Qed.

Lemma separate_lemma red K K' Ts Es : mats K Ts -> mats K' Es -> rows Ts = rows Es -> Ts <> [] -> (0 < K)%nat ->
  exists ms ps, separate_mode_factor_match_score Ts Es (reduction_name red) = Ok (ms, ps) /\
    length ms = length Ts /\ length ps = length Ts /\
    forall k, (k < length Ts)%nat ->
      factor_match_score [nth k Ts m0] [nth k Es m0] false (reduction_name red) = Ok (nth k ms NaN, nth k ps None).
Proof.
  intros HT HE Hr Hn HK.
  assert (Hn' : Es <> []). { intros ->. destruct Ts; [congruence|discriminate]. }
  unfold separate_mode_factor_match_score. rewrite fms_reduction_ok, (first_cols_ok HT Hn), (first_cols_ok HE Hn'). cbn [bind].
  assert (Hstep : forall T E, is_mat (nrows T) K T -> is_mat (nrows E) K' E ->
    foldM (fms_step (fun p => do permuted <- permute_factors p [E] ;
                              do scores <- factor_match_scores false true [T] permuted ; red_fun red scores))
          (permutations K (seq 0 K')) (Fin (-1), None) = factor_match_score [T] [E] false (reduction_name red)).
  { intros T E H1 H2. unfold factor_match_score. rewrite fms_reduction_ok.
    assert (M1 : mats K [T]) by (apply mats_cons; split; auto; constructor).
    assert (M2 : mats K' [E]) by (apply mats_cons; split; auto; constructor).
    rewrite (first_cols_ok M1), (first_cols_ok M2) by discriminate. reflexivity. }
  clear Hn Hn'. revert Es HE Hr. induction Ts as [|T Ts IH]; intros [|E Es] HE Hr; try discriminate Hr.
  - exists [], []. cbn. repeat split; auto. intros k Hk. lia.
  - apply mats_cons in HT, HE. destruct HT as [T1 T2], HE as [E1 E2]. cbn in Hr. injection Hr as R1 R2.
    cbn [combine mapM fst snd]. rewrite (Hstep T E T1 E1).
    destruct (@fms_lemma red false K K' [T] [E]) as [(p & s & EF & _)|(EF & _)]; auto.
    { apply mats_cons; split; auto; constructor. } { apply mats_cons; split; auto; constructor. }
    { cbn. now rewrite R1. } { discriminate. }
    + rewrite EF. cbn [bind]. destruct (IH T2 Es E2 R2) as (ms & ps & EI & L1 & L2 & H).
      destruct (mapM _ (combine Ts Es)) as [rs|]; cbn [bind] in EI; [|discriminate]. injection EI as <- <-. cbn [bind map].
      do 2 eexists. split; [reflexivity|]. cbn [length]. split; [now rewrite L1|]. split; [now rewrite L2|].
      intros [|k] Hk; cbn [nth fst snd]; [exact EF|]. apply H. lia.
    + rewrite EF. cbn [bind]. destruct (IH T2 Es E2 R2) as (ms & ps & EI & L1 & L2 & H).
      destruct (mapM _ (combine Ts Es)) as [rs|]; cbn [bind] in EI; [|discriminate]. injection EI as <- <-. cbn [bind map].
      do 2 eexists. split; [reflexivity|]. cbn [length]. split; [now rewrite L1|]. split; [now rewrite L2|].
      intros [|k] Hk; cbn [nth fst snd]; [exact EF|]. apply H. lia.
Qed.

Lemma reduced_mono red n f g s t : (forall c, (c < n)%nat -> f c <= g c) -> reduced red n f s -> reduced red n g t -> s <= t.
Proof.
  intros H. destruct red; cbn.
  - intros [_ H1] [(c & Hc & <-) _]. eapply Rle_trans; [apply H1|apply H]; auto.
  - intros [Hn E1] [_ E2]. assert (0 < INR n) by (apply lt_0_INR; lia).
    apply Rmult_le_reg_r with (INR n); auto. rewrite E1, E2. now apply sum_le.
Qed.

Lemma reduced_exists red n f : (0 < n)%nat -> exists s, reduced red n f s.
Proof. intros H. destruct (red_all red f H) as (s & _ & Hs). eauto. Qed.

Lemma match_score_mode k Ts Es c d : rows Ts = rows Es -> (k < length Ts)%nat ->
  match_score false Ts Es c d <= match_score false [nth k Ts m0] [nth k Es m0] c d.
Proof.
  unfold match_score, weight_agreement. intros Hr Hk. rewrite !Rmult_1_l. cbn [combine prodf fst snd]. rewrite Rmult_1_r.
  revert k Es Hr Hk. induction Ts as [|T Ts IH]; intros k [|E Es] Hr Hk; cbn in Hk; try lia; try discriminate Hr.
  cbn in Hr. injection Hr as R1 R2. cbn [combine prodf fst snd].
  pose proof (rcos_bound c d R1) as B1.
  assert (B2 : 0 <= prodf (combine Ts Es) (fun TE => rcos (fst TE) (snd TE) c d) <= 1).
  { apply prodf_01. intros TE HI. apply rcos_bound. now apply (rows_combine R2). }
  destruct k as [|k]; cbn [nth]; [nra|]. specialize (IH k Es R2). assert (k < length Ts)%nat by lia. specialize (IH H).
  set (x := prodf _ _) in *. set (y := rcos T E c d) in *. nra.
Qed.

Lemma separate_above red K K' Ts Es k s b : mats K Ts -> mats K' Es -> rows Ts = rows Es -> (0 < K)%nat ->
  (k < length Ts)%nat ->
  factor_match_score Ts Es false (reduction_name red) = Ok (Fin s, b) ->
  exists t b', factor_match_score [nth k Ts m0] [nth k Es m0] false (reduction_name red) = Ok (Fin t, b') /\ s <= t.
Proof.
  intros HT HE Hr HK Hk E0.
  assert (Hn : Ts <> []) by (intros ->; cbn in Hk; lia).
  assert (Hlen : length Es = length Ts).
  { rewrite <- (map_length nrows Ts), <- (map_length nrows Es). unfold rows in Hr. now rewrite Hr. }
  assert (H1 : mats K [nth k Ts m0]).
  { apply mats_cons. split; [|constructor]. apply (mats_in HT). now apply nth_In. }
  assert (H2 : mats K' [nth k Es m0]).
  { apply mats_cons. split; [|constructor]. apply (mats_in HE). apply nth_In. lia. }
  assert (H3 : rows [nth k Ts m0] = rows [nth k Es m0]).
  { unfold rows in *. cbn. f_equal. rewrite <- (map_nth nrows), <- (map_nth nrows). now rewrite Hr. }
  destruct (@fms_lemma red false K K' _ _ H1 H2 H3) as [(q & t & E1 & A1 & C1 & S1 & M1)|(E1 & N1)]; auto; try discriminate.
  - exists t, (Some q). split; auto.
    destruct (fms_lemma red false HT HE Hr Hn HK) as [(p & s' & E2 & A2 & C2 & S2 & M2)|(E2 & N2)].
    + rewrite E2 in E0. injection E0 as <- <-.
      assert (HKp : (0 < length p)%nat) by (destruct A2 as [-> _]; auto).
      destruct (reduced_exists red (fun c => match_score false [nth k Ts m0] [nth k Es m0] c (nth c p 0%nat)) HKp) as (u & Hu).
      destruct (M1 p u A2) as [Hle _]; auto. { intros E. discriminate. }
      apply Rle_trans with u; auto. eapply reduced_mono; [|exact S2|exact Hu].
      intros c Hc. now apply match_score_mode.
    + exfalso. apply (N2 q A1). intros E. discriminate.
  - exists (-1), None. split; auto.
    destruct (fms_lemma red false HT HE Hr Hn HK) as [(p & s' & E2 & A2 & C2 & S2 & M2)|(E2 & N2)].
    + exfalso. apply (N1 p A2). intros E. discriminate.
    + rewrite E2 in E0. injection E0 as <- <-. lra.
Qed.

(** *** PARAFAC2 *)
Lemma pf2_lemma K K' tA tC tB eA eC eB wp red : is_mat (nrows tA) K tA -> is_mat (nrows eA) K' eA ->
  factor_match_score_parafac2 tA tC tB eA eC eB wp red = factor_match_score [tA; tC] [eA; eC] wp red.
Proof.
  intros HT HE. unfold factor_match_score_parafac2, factor_match_score, first_cols. reflexivity.
Qed.

(** A helper for examples with one component. *)
Lemma fms_one red Ts Es : mats 1 Ts -> mats 1 Es -> rows Ts = rows Es -> Ts <> [] ->
  factor_match_score Ts Es false (reduction_name red) = Ok (Fin (match_score false Ts Es 0 0), Some [0%nat]).
Proof.
  intros HT HE Hr Hn. assert (HK : (0 < 1)%nat) by lia.
  assert (HA : forall p, assignment 1 1 p -> p = [0%nat]).
  { intros p (H1 & _ & H3). destruct p as [|x [|]]; try discriminate H1. inversion H3; subst. f_equal. lia. }
  assert (A0 : assignment 1 1 [0%nat]). { split; auto. split; repeat constructor; auto. }
  assert (C0 : forall Ts Es p, comparable false Ts Es p) by (intros ? ? ? E; discriminate).
  destruct (fms_lemma red false HT HE Hr Hn HK) as [(p & s & E1 & A1 & C1 & S1 & M1)|(E1 & N1)].
  - rewrite E1. pose proof (HA p A1). subst p. do 3 f_equal.
    destruct red; cbn in S1.
    + destruct S1 as [(c & Hc & <-) _]. replace c with 0%nat by lia. reflexivity.
    + destruct S1 as [_ E]. cbn in E. lra.
  - exfalso. exact (N1 _ A0 (C0 _ _ _)).
Qed.

(** Two components: the permutation attaining the larger score is returned. *)
Lemma fms_two red wp Ts Es s0 s1 : mats 2 Ts -> mats 2 Es -> rows Ts = rows Es -> Ts <> [] ->
  comparable wp Ts Es [0%nat; 1%nat] -> comparable wp Ts Es [1%nat; 0%nat] ->
  total_score red wp Ts Es [0%nat; 1%nat] s0 -> total_score red wp Ts Es [1%nat; 0%nat] s1 -> s0 < s1 ->
  factor_match_score Ts Es wp (reduction_name red) = Ok (Fin s1, Some [1%nat; 0%nat]).
Proof.
  intros HT HE Hr Hn C0 C1 T0 T1 Hlt. assert (HK : (0 < 2)%nat) by lia.
  assert (HA : forall p, assignment 2 2 p -> p = [0%nat; 1%nat] \/ p = [1%nat; 0%nat]).
  { intros p Hp. apply in_permutations_seq in Hp. cbn in Hp. intuition. }
  assert (A0 : assignment 2 2 [0%nat; 1%nat]) by (apply in_permutations_seq; cbn; auto).
  assert (A1 : assignment 2 2 [1%nat; 0%nat]) by (apply in_permutations_seq; cbn; auto).
  destruct (fms_lemma red wp HT HE Hr Hn HK) as [(p & s & E1 & A & C & S & M)|(E1 & N1)].
  - rewrite E1. destruct (HA p A) as [-> | ->].
    + exfalso. pose proof (reduced_unique S T0). subst s. destruct (M _ _ A1 C1 T1). lra.
    + pose proof (reduced_unique S T1). now subst s.
  - exfalso. exact (N1 _ A0 C0).
Qed.

(** *** _factor_match_score_parafac2 *)
Lemma unit_columns_ok K U : is_mat (nrows U) K U -> (forall r, (r < K)%nat -> clen U r <> 0) ->
  unit_columns U = Ok (tab2 (nrows U) K (fun i r => mget U i r / clen U r)).
Proof.
  intros HU Hz. pose proof (is_vec_norm_axis0 HU) as HN. unfold unit_columns, np_div.
  replace (has_zero (norm_axis0 U)) with false.
  - rewrite (broadcast_mat_vec Rdiv HU HN). f_equal. apply tab2_ext. intros i r Hi Hr.
    now rewrite (vget_norm_axis0 HU), <- clen_colnorm.
  - symmetry. apply (has_zero_vec HN). intros r Hr. rewrite (vget_norm_axis0 HU) by auto. rewrite <- clen_colnorm. auto.
Qed.
Lemma unit_self K U r : is_mat (nrows U) K U -> (r < K)%nat -> clen U r <> 0 ->
  sum (nrows U) (fun i => mget (tab2 (nrows U) K (fun i r => mget U i r / clen U r)) i r * mget U i r) = clen U r.
Proof.
  intros HU Hr Hz. rewrite (@sum_ext (nrows U) _ (fun i => mget U i r ^ 2 * / clen U r))
    by (intros i Hi; rewrite mget_tab2 by auto; unfold Rdiv; ring).
  rewrite sum_scal_r. unfold clen in *. set (e := sum (nrows U) (fun i => mget U i r ^ 2)) in *.
  assert (0 <= e) by (apply sum_nonneg; intros; apply pow2_ge_0).
  rewrite <- (sqrt_sqrt e) at 1 by auto. field. exact Hz.
Qed.
Lemma abs_products_lengths K r Us : mats K Us -> (r < K)%nat -> (forall U, In U Us -> clen U r <> 0) -> forall x,
  foldM (fun score TE => do t <- col_get (fst TE) r ; do e <- col_get (snd TE) r ; do d <- vdot t e ; Ok (score * Rabs d))
        (combine (map (fun U => tab2 (nrows U) K (fun i r => mget U i r / clen U r)) Us) Us) x = Ok (x * prodf Us (fun U => clen U r)).
Proof.
  intros HM Hr Hz. induction Us as [|U Us IH]; intros x; cbn [map combine foldM prodf]; [now rewrite Rmult_1_r|].
  apply mats_cons in HM as [HU HM]. cbn [fst snd]. rewrite (col_get_ok (is_mat_tab2 (nrows U) K _) Hr), (col_get_ok HU Hr). cbn [bind].
  rewrite (vdot_ok r (is_mat_tab2 (nrows U) K _) HU). cbn [bind]. rewrite (unit_self HU Hr) by (apply Hz; now left).
  rewrite Rabs_right by (apply Rle_ge, sqrt_pos). rewrite IH by (auto; intros; apply Hz; now right). f_equal. ring.
Qed.
Lemma scores_lengths K tA tC tB eA eC eB : shape_at tA 1 = Ok K -> mats K (eA :: eC :: eB) -> eB <> [] ->
  (forall U r, In U (eA :: eC :: eB) -> (r < K)%nat -> clen U r <> 0) ->
  factor_match_scores_parafac2 false tA tC tB eA eC eB =
  Ok (map (fun r => clen eA r * clen eC r * Rpower (prodf eB (fun U => clen U r)) (1 / INR (length eB))) (seq 0 K)).
Proof.
  intros ES HM Hne Hz. apply mats_cons in HM as [HA HM]. apply mats_cons in HM as [HC HB].
  unfold factor_match_scores_parafac2. rewrite ES. cbn [bind]. rewrite (unit_columns_ok HA) by (intros; apply Hz; auto; now left).
  assert (EB : mapM unit_columns eB = Ok (map (fun U => tab2 (nrows U) K (fun i r => mget U i r / clen U r)) eB)).
  { assert (Hz' : forall U r, In U eB -> (r < K)%nat -> clen U r <> 0) by (intros; apply Hz; auto; now right; right).
    clear - HB Hz'. induction eB as [|U Us IH]; [reflexivity|]. apply mats_cons in HB as [HU HB]. cbn [mapM map].
    rewrite (unit_columns_ok HU) by (intros; apply Hz'; auto; now left). cbn [bind]. rewrite IH; auto. intros; apply Hz'; auto. now right. }
  cbn [bind]. rewrite EB. cbn [bind]. rewrite (unit_columns_ok HC) by (intros; apply Hz; auto; right; now left). cbn [bind].
  rewrite map_length. apply mapM_ok. intros r Hr. apply in_seq in Hr.
  assert (E2 : abs_products [tab2 (nrows eA) K (fun i r => mget eA i r / clen eA r); tab2 (nrows eC) K (fun i r => mget eC i r / clen eC r)] [eA; eC] r
    = Ok (clen eA r * clen eC r)).
  { unfold abs_products. assert (M2 : mats K [eA; eC]) by (repeat (apply mats_cons; split); auto; constructor).
    rewrite (@abs_products_lengths K r [eA; eC] M2) by (try lia; intros U [<-|[<-|[]]]; apply Hz; try lia; cbn; auto).
    cbn [prodf]. f_equal. ring. }
  rewrite E2. cbn [bind]. unfold abs_products.
  rewrite (@abs_products_lengths K r eB HB) by (try lia; intros U HU; apply Hz; try lia; now right; right). cbn [bind].
  destruct (Nat.eqb_spec (length eB) 0) as [E0|_]; [destruct eB; [congruence|discriminate]|].
  rewrite Rmult_1_l. do 2 f_equal. unfold root.
  assert (Hp : 0 < prodf eB (fun U => clen U r)).
  { apply prodf_pos. intros U HU. assert (clen U r <> 0) by (apply Hz; [now right; right|lia]).
    pose proof (sqrt_pos (sum (nrows U) (fun i => mget U i r ^ 2))) as P. fold (clen U r) in P. lra. }
  destruct (Req_EM_T (prodf eB (fun U => clen U r)) 0); [lra|reflexivity].
Qed.
