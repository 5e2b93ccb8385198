(** What penalised and non-negative iterations of Parafac2_ALS tend to: lemmas for C118. *)
From Verif Require Export P2AccumFacts PenLimitFacts P2PenLimitSpec.
From Verif Require Import CompareFacts FixFacts LimitFacts P2LimitFacts Parafac2Sweep Parafac2Safe Unique NumPyFacts.
From Verif Require Import Prelude Lin.
Set Implicit Arguments.
Unset Strict Implicit.
Local Open Scope R_scope.

(** *** The normal equations depend continuously on factors and data *)
Section Moving.
Variables (K : nat) (Xk : nat -> nd) (X : nd) (Us : nat -> list nd) (Ls : list nd) (m : nat).
Hypotheses (HT : tends K Us Ls) (Hsh : forall k, shape (Xk k) = shape X) (HXc : forall idx, In idx (indices (shape X)) -> Un_cv (fun k => get (Xk k) idx) (get X idx)).
Hypotheses (Hrows : forall k, rows (Us k) = shape X) (HL : rows Ls = shape X) (Hm : (m < length (shape X))%nat).
Let N := nth m (shape X) 0%nat.

Lemma mlim_rhs i r : (r < K)%nat -> Un_cv (fun k => normal_rhs (Xk k) (Us k) m i r) (normal_rhs X Ls m i r).
Proof.
  intros Hr. unfold normal_rhs, mttkrp_entry.
  apply (@cv_ext (fun k => sumf (indices (shape X)) (fun idx => if Nat.eqb (nth m idx 0%nat) i then get (Xk k) idx * colprod (remove_at m (Us k)) (remove_at m idx) r else 0))).
  { intros k. now rewrite Hsh. }
  apply (@cv_sumf _ _ (fun idx k => if Nat.eqb (nth m idx 0%nat) i then get (Xk k) idx * colprod (remove_at m (Us k)) (remove_at m idx) r else 0)).
  intros idx Hin. pose proof Hin as Hi. apply in_indices in Hi. destruct (Nat.eqb (nth m idx 0%nat) i); [|apply cv_const].
  apply CV_mult; [now apply HXc|]. pose proof (lim_len HL Hm) as Hlen.
  apply (@tends_colprod K (remove_at m Ls) (fun k => remove_at m (Us k))); auto.
  - apply tends_remove; [exact HT|exact Hlen].
  - intros k. assert (E : length (Us k) = length Ls).
    { apply (f_equal (@length nat)) in HL. specialize (Hrows k). apply (f_equal (@length nat)) in Hrows. unfold rows in *. rewrite map_length in *. congruence. }
    rewrite !length_remove_at; lia.
  - rewrite rows_remove, HL. now apply valid_remove_at.
Qed.
Lemma mlim_loss lam (Y : nat -> nat -> nat -> R) Y0 : (forall i r, (i < N)%nat -> (r < K)%nat -> Un_cv (fun k => Y k i r) (Y0 i r)) ->
  Un_cv (fun k => normal_loss lam K (Xk k) (Us k) m (Y k)) (normal_loss lam K X Ls m Y0).
Proof.
  intros HY. unfold normal_loss, normal_dist, dist2, frob2.
  apply (@cv_ext (fun k => sum N (fun i => sum K (fun j => (mprod K (Y k) (normal_lhs (Us k) m) i j - normal_rhs (Xk k) (Us k) m i j) ^ 2)) +
    lam * sum N (fun i => sum K (fun j => Y k i j ^ 2)))).
  { intros k. now rewrite Hsh. }
  fold N. apply CV_plus; [|apply CV_mult; [apply cv_const|]].
  - apply (@cv_sumf _ _ (fun i k => sum K (fun j => (mprod K (Y k) (normal_lhs (Us k) m) i j - normal_rhs (Xk k) (Us k) m i j) ^ 2))).
    intros i Hi. apply in_seq in Hi.
    apply (@cv_sumf _ _ (fun j k => (mprod K (Y k) (normal_lhs (Us k) m) i j - normal_rhs (Xk k) (Us k) m i j) ^ 2)). intros j Hj. apply in_seq in Hj.
    apply cv_pow2, CV_minus; [|apply mlim_rhs; lia]. unfold mprod.
    apply (@cv_sumf _ _ (fun a k => Y k i a * normal_lhs (Us k) m a j)). intros a Ha. apply in_seq in Ha.
    apply CV_mult; [apply HY; lia|apply (lim_lhs HT Hrows HL Hm); lia].
  - apply (@cv_sumf _ _ (fun i k => sum K (fun j => Y k i j ^ 2))). intros i Hi. apply in_seq in Hi.
    apply (@cv_sumf _ _ (fun j k => Y k i j ^ 2)). intros j Hj. apply in_seq in Hj. apply cv_pow2, HY; lia.
Qed.
Lemma mlim_settled nn lam : (forall k, mode_settled nn lam K (Xk k) (Us k) m) -> mode_settled nn lam K X Ls m.
Proof.
  intros HB.
  assert (HY : forall i r, (i < N)%nat -> (r < K)%nat -> Un_cv (fun k => mget (nth m (Us k) m0) i r) (mget (nth m Ls m0) i r)).
  { intros i r Hi Hr. apply HT; [exact (lim_len HL Hm)| |exact Hr]. rewrite nrows_rows, HL. exact Hi. }
  unfold mode_settled in *. cbv zeta in *. split.
  - intros E i r Hi Hr. apply (@cv_le (fun _ => 0) (fun k => mget (nth m (Us k) m0) i r)); [|apply cv_const|now apply HY].
    intros k. specialize (HB k). rewrite Hsh in HB. exact (proj1 HB E i r Hi Hr).
  - intros Y AY. apply (@cv_le (fun k => normal_loss lam K (Xk k) (Us k) m (mget (nth m (Us k) m0))) (fun k => normal_loss lam K (Xk k) (Us k) m Y)).
    + intros k. specialize (HB k). rewrite Hsh in HB. exact (proj2 HB Y AY).
    + now apply (@mlim_loss lam (fun k => mget (nth m (Us k) m0))).
    + apply (@mlim_loss lam (fun _ => Y)). intros. apply cv_const.
Qed.
End Moving.

Lemma settled_data nn lam K X X' Us m : shape X' = shape X -> (forall idx, In idx (indices (shape X)) -> get X' idx = get X idx) ->
  rows Us = shape X -> (m < length (shape X))%nat -> mode_settled nn lam K X' Us m -> mode_settled nn lam K X Us m.
Proof.
  intros Hs HX Hr Hm H. apply (@mlim_settled K (fun _ => X') X (fun _ => Us) Us m); auto.
  - intros n i r _ _ _. apply cv_const.
  - intros idx Hi. rewrite HX by exact Hi. apply cv_const.
Qed.

Lemma in_indices3 a b c idx : In idx (indices [a; b; c]) -> exists i j k, idx = [i; j; k] /\ (i < a)%nat /\ (j < b)%nat /\ (k < c)%nat.
Proof.
  intros H. apply in_indices in H. inversion H as [|i ? ? ? Hi H1]; subst. inversion H1 as [|j ? ? ? Hj H2]; subst. inversion H2 as [|k ? ? ? Hk H4]; subst.
  inversion H4; subst. exists i, j, k. auto.
Qed.
Lemma mixed_rows u v m : rows u = rows v -> rows (mixed u v m) = rows v.
Proof.
  intros E. unfold rows, mixed in *. rewrite map_app, <- firstn_map, <- skipn_map, E. apply firstn_skipn.
Qed.

Lemma mixed_nth u v m i : length u = 3%nat -> length v = 3%nat -> (m < 3)%nat -> nth i (mixed u v m) m0 = if (i <=? m)%nat then nth i v m0 else nth i u m0.
Proof.
  intros Hu Hv Hm. destruct u as [|a [|b [|c [|? ?]]]]; try discriminate Hu. destruct v as [|a' [|b' [|c' [|? ?]]]]; try discriminate Hv.
  unfold mixed. destruct m as [|[|[|m]]]; [| | |lia]; destruct i as [|[|[|i]]]; reflexivity || (cbn; destruct i; reflexivity).
Qed.

Lemma factors_rows K nI s : p2_ok K nI s -> rows (p2_factors s) = [nI; K; length (p2_X s)].
Proof. intros H. unfold rows, p2_factors. cbn [map]. now rewrite (is_mat_nrows (ok_A H)), (is_mat_nrows (ok_B H)), (is_mat_nrows (ok_C H)). Qed.
(** The tensor of the inner problem *)
Definition is_projected (K nI : nat) (Xs Ps : list nd) (PX : nd) : Prop := shape PX = [nI; K; length Xs] /\
  forall i q k, (i < nI)%nat -> (q < K)%nat -> (k < length Xs)%nat -> get PX [i; q; k] = projected_entry Xs Ps i q k.

Lemma tensor_is K nI Xs Ps : is_projected K nI Xs Ps (projected_tensor K nI Xs Ps).
Proof.
  split; [reflexivity|]. intros i q k Hi Hq Hk. unfold projected_tensor. rewrite get_tab; [reflexivity|]. repeat constructor; auto.
Qed.
Lemma tensor_tends K nI Xs Ps Qs : tends_proj K Xs Ps Qs -> forall idx, In idx (indices [nI; K; length Xs]) ->
  Un_cv (fun k => get (projected_tensor K nI Xs (Ps k)) idx) (get (projected_tensor K nI Xs Qs) idx).
Proof.
  intros HT idx Hi. apply in_indices3 in Hi as (i & q & k & -> & Hi & Hq & Hk).
  rewrite (proj2 (tensor_is K nI Xs Qs)) by auto. apply (@cv_ext (fun j => projected_entry Xs (Ps j) i q k)).
  { intros j. now rewrite (proj2 (tensor_is K nI Xs (Ps j))) by auto. }
  unfold projected_entry. apply (@cv_sumf _ _ (fun j a => mget (nth k Xs m0) i j * mget (nth k (Ps a) m0) j q)). intros j Hj. apply in_seq in Hj.
  apply CV_mult; [apply cv_const|]. apply HT; auto. lia.
Qed.
(** *** Iterations *)
Section Settle.
Variables (env : p2_env) (ps : p2_settings) (K nI : nat).
Let ics := inner_settings ps.
Let cenv := pe_cp env.
Let md := p2_model env ps.
Hypothesis (HK : ps_rank ps = K) (HnI : (0 < nI)%nat) (HK0 : (0 < K)%nat).
Hypothesis (HS : svd_contract (env_svd cenv)) (HN : nnls_contract (env_nnls cenv)).
Hypothesis (H3 : length (ps_nn ps) = 3%nat) (HP : p2_penalties ps).
Let nnf m := nth m (ps_nn ps) false.
Let lamf m := nth m (match ps_ridge ps with Some l => l | None => [] end) 0.

Lemma step_settled PX s m : busy ps K nI PX s -> (m < 3)%nat ->
  exists s' Z, p2_cp_update env ps s m = (s', None) /\ busy ps K nI PX s' /\ p2_X s' = p2_X s /\ p2_Ps s' = p2_Ps s /\
    p2_factors s' = with_factor m Z (p2_factors s) /\ mode_settled (nnf m) (lamf m) K PX (p2_factors s') m.
Proof.
  intros H Hm. destruct (lamf_pen HK HnI HK0 H3 HP Hm) as [L1 L2]. fold (lamf m) in L1, L2.
  assert (Ha : nth_error (ps_nn ps) m = Some (nnf m)) by (apply nth_error_nth'; lia).
  destruct (@cp_step env ps K nI HK HnI HK0 HS HN PX s m (nnf m) (lamf m) H Hm Ha L1 L2) as (s' & E & B' & X' & _ & O' & F' & P').
  pose proof (busy_coherent H) as HC. pose proof (view_options HK HnI HK0 H3 HP H) as HOp. assert (EX : cp_X (forget (p2_view s)) = PX) by apply (bs_X H).
  assert (Hm' : (m < length (shape (cp_X (forget (p2_view s)))))%nat) by (rewrite EX, (bs_shape H); exact Hm).
  destruct (@update_settles cenv ics K nnf lamf HK HS HN _ m HC HOp Hm') as (t & Z & Et & _ & Ef & _ & _ & AZ & BZ).
  pose proof (update_forget Et) as Et'. rewrite EX in AZ, BZ.
  assert (EF : kt_fms (cp_dec (forget (p2_view s))) = p2_factors s) by (cbn; rewrite (rd_cpf (bs_ready H)); reflexivity).
  rewrite EF in Ef, BZ. fold cenv ics in F'. rewrite Et' in F'. cbn [fst] in F'.
  assert (Ef' : kt_fms (cp_dec (forget t)) = kt_fms (cp_dec t)) by reflexivity.
  assert (FF : p2_factors s' = with_factor m Z (p2_factors s)).
  { assert (Fm : p2_factor s' m = Z).
    { rewrite F'. try rewrite Ef'. rewrite Ef. unfold with_factor. now rewrite nth_replace_at_eq by exact Hm. }
    pose proof (O' 0%nat ltac:(lia)) as O0. pose proof (O' 1%nat ltac:(lia)) as O1. pose proof (O' 2%nat ltac:(lia)) as O2.
    unfold p2_factor in *. unfold p2_factors, with_factor. cbn [nth] in O0, O1, O2.
    destruct m as [|[|[|m]]]; [| | |lia]; cbn [nth replace_at] in *.
    - rewrite Fm, O1, O2 by lia. reflexivity.
    - rewrite Fm, O0, O2 by lia. reflexivity.
    - rewrite Fm, O0, O1 by lia. reflexivity. }
  exists s', Z. split; [exact E|]. split; [exact B'|]. split; [exact X'|]. split; [exact P'|]. split; [exact FF|].
  rewrite FF. apply settled_with; auto.
Qed.

Definition all_settled (PX : nd) (old new : list nd) : Prop := forall m, (m < 3)%nat -> mode_settled (nnf m) (lamf m) K PX (mixed old new m) m.

Lemma pass_settled PX s : busy ps K nI PX s -> exists s', p2_cp_sweep env ps s = (s', None) /\ busy ps K nI PX s' /\ p2_X s' = p2_X s /\ p2_Ps s' = p2_Ps s /\
  all_settled PX (p2_factors s) (p2_factors s').
Proof.
  intros H. unfold p2_cp_sweep. assert (En : ndim (cp_X (p2_inner s)) = 3%nat) by (unfold ndim; rewrite (bs_X H), (bs_shape H); reflexivity).
  rewrite En. cbn [seq run_all].
  destruct (@step_settled PX s 0 H ltac:(lia)) as (s1 & Z1 & E1 & B1 & X1 & P1 & F1 & S1). rewrite E1.
  destruct (@step_settled PX s1 1 B1 ltac:(lia)) as (s2 & Z2 & E2 & B2 & X2 & P2 & F2 & S2). rewrite E2.
  destruct (@step_settled PX s2 2 B2 ltac:(lia)) as (s3 & Z3 & E3 & B3 & X3 & P3 & F3 & S3). rewrite E3.
  exists s3. split; [reflexivity|]. split; [exact B3|]. split; [congruence|]. split; [congruence|].
  rewrite F3 in *. rewrite F2 in *. rewrite F1 in *. unfold p2_factors, with_factor in S1, S2, S3 |- *. cbn [replace_at] in S1, S2, S3 |- *.
  intros m Hm. destruct m as [|[|[|m]]]; [| | |lia]; unfold mixed; cbn [firstn skipn app]; assumption.
Qed.

Lemma passes_settled PX (l : list nat) : forall s, busy ps K nI PX s -> l <> [] ->
  exists s', run_all (fun s _ => p2_cp_sweep env ps s) l s = (s', None) /\ busy ps K nI PX s' /\ p2_X s' = p2_X s /\ p2_Ps s' = p2_Ps s /\
    mode_settled (nnf 2) (lamf 2) K PX (p2_factors s') 2 /\ (length l = 1%nat -> all_settled PX (p2_factors s) (p2_factors s')).
Proof.
  induction l as [|x l IH]; intros s H Hne; [congruence|]. cbn [run_all].
  destruct (pass_settled H) as (s1 & E1 & B1 & X1 & P1 & A1). rewrite E1. destruct l as [|y l].
  - exists s1. split; [reflexivity|]. split; [exact B1|]. split; [exact X1|]. split; [exact P1|]. split; [exact (A1 2%nat ltac:(lia))|]. intros _. exact A1.
  - destruct (IH s1 B1 ltac:(discriminate)) as (s2 & E2 & B2 & X2 & P2 & S2 & _). exists s2. split; [exact E2|]. split; [exact B2|].
    split; [congruence|]. split; [congruence|]. split; [exact S2|]. intros E. discriminate E.
Qed.

Lemma iteration_settled s : ready ps K nI s -> (0 < length (p2_X s))%nat -> (forall k, (k < length (p2_X s))%nat -> (0 < width (p2_X s) k)%nat) ->
  (0 < ps_updates ps)%nat -> let v := fst (p2_update env ps s) in forall PX, is_projected K nI (p2_X s) (p2_Ps v) PX ->
  mode_settled (nnf 2) (lamf 2) K PX (p2_factors v) 2 /\ (ps_updates ps = 1%nat -> all_settled PX (p2_factors s) (p2_factors v)).
Proof.
  intros HR HX HW Hu v PX [Hsh HPX]. subst v.
  destruct (@retargeted env ps K nI HK HnI HK0 HS s HR HX HW) as (s2 & PY & X2 & B2 & A2 & BB2 & C2 & _ & HPe & E).
  assert (F2 : p2_factors s2 = p2_factors s) by (unfold p2_factors; congruence).
  destruct (@passes_settled PY (seq 0 (ps_updates ps)) s2 B2) as (s3 & E3 & B3 & X3 & P3 & S3 & T3); [destruct (ps_updates ps); [lia|discriminate]|].
  destruct (@scale_total ps K nI HK HK0 s3 (bs_ready B3)) as (s4 & E4 & X4 & A4 & B4 & C4 & P4).
  assert (EU : p2_update env ps s = (p2_unit_weights s4, None)) by (rewrite E, E3; cbn [and_then]; rewrite E4; reflexivity).
  rewrite EU in *. cbn [fst] in *. change (p2_Ps (p2_unit_weights s4)) with (p2_Ps s4) in HPX. change (p2_factors (p2_unit_weights s4)) with (p2_factors s4).
  assert (F4 : p2_factors s4 = p2_factors s3) by (unfold p2_factors; congruence). rewrite F4. rewrite P4, P3 in HPX. rewrite F2 in T3.
  assert (Hsy : shape PY = shape PX) by (rewrite (bs_shape B2), Hsh; congruence).
  assert (Hgt : forall idx, In idx (indices (shape PX)) -> get PY idx = get PX idx).
  { rewrite Hsh. intros idx Hi. apply in_indices3 in Hi as (i & q & k & -> & Hi & Hq & Hk). rewrite HPX, HPe by auto. reflexivity. }
  assert (Hr3 : rows (p2_factors s3) = shape PX) by (rewrite (factors_rows (rd_ok (bs_ready B3))), Hsh; congruence).
  assert (Hr0 : rows (p2_factors s) = shape PX) by (rewrite (factors_rows (rd_ok HR)), Hsh; congruence).
  assert (Hl3 : length (shape PX) = 3%nat) by (rewrite Hsh; reflexivity).
  split.
  - apply settled_data with PY; auto. rewrite Hl3. lia.
  - intros E1. rewrite seq_length in T3. specialize (T3 E1). intros m Hm. specialize (T3 m Hm). apply settled_data with PY; auto; [|now rewrite Hl3].
    rewrite mixed_rows; congruence.
Qed.
End Settle.

(** *** Runs and limits *)
Section Limits.
Variables (env : p2_env) (ps : p2_settings) (K nI : nat) (Xs : list nd) (s s0 : p2_state).
Let md := p2_model env ps.
Let F j := p2_factors (state_after md s0 j).
Let P j := p2_Ps (state_after md s0 j).
Let n := length Xs.
Let nnf m := nth m (ps_nn ps) false.
Let lamf m := nth m (match ps_ridge ps with Some l => l | None => [] end) 0.
Hypothesis (HD : drawn_settings ps K nI) (HS : svd_contract (env_svd (pe_cp env))) (HN : nnls_contract (env_nnls (pe_cp env))).
Hypothesis (H3 : length (ps_nn ps) = 3%nat) (HP : p2_penalties ps).
Hypothesis (Hup : (0 < ps_updates ps)%nat) (HX : slices_ok nI Xs) (HW : forall k, (k < n)%nat -> (0 < width Xs k)%nat).
Hypothesis (Hs : p2_ok K nI s) (EX : p2_X s = Xs) (EP : p2_prepare env ps s = (s0, None)).

Lemma begun : (0 < n)%nat /\ ready ps K nI s0 /\ p2_X s0 = Xs.
Proof.
  assert (Hn : (0 < n)%nat) by (unfold n; destruct HX as [Hne _]; destruct Xs; [congruence|cbn; lia]). split; [exact Hn|].
  destruct HD as (HK & HO & HnI & HK0). destruct (@prepare_ready env ps K nI HK HO HnI HK0 s Hs) as (t & E & HR & HA & _); [now rewrite EX|].
  rewrite EP in E. injection E as <-. split; [exact HR|]. rewrite <- EX. apply (proj1 HA).
Qed.
Lemma later j : ready ps K nI (state_after md s0 j) /\ p2_X (state_after md s0 j) = Xs.
Proof.
  destruct begun as (_ & HR & E). split; [apply ready_after; [apply HD|exact HR]|]. rewrite <- E. exact (fr_X (after_frame env ps s0 j)).
Qed.
Lemma run_settled j PX : is_projected K nI Xs (P (S j)) PX ->
  mode_settled (nnf 2) (lamf 2) K PX (F (S j)) 2 /\ (ps_updates ps = 1%nat -> forall m, (m < 3)%nat -> mode_settled (nnf m) (lamf m) K PX (mixed (F j) (F (S j)) m) m).
Proof.
  intros HPX. destruct begun as (Hn & _). destruct (later j) as [HR E]. destruct HD as (HK & HO & HnI & HK0).
  pose proof (@iteration_settled env ps K nI HK HnI HK0 HS HN H3 HP (state_after md s0 j) HR) as G. rewrite E in G.
  exact (G Hn HW Hup PX HPX).
Qed.
Lemma F_rows j : rows (F j) = [nI; K; n].
Proof. destruct (later j) as [HR E]. unfold F, n. rewrite <- E. exact (factors_rows (rd_ok HR)). Qed.

Lemma p2_pen_limit Ls Qs pick : rows Ls = [nI; K; n] -> tends K (fun k => F (S (pick k))) Ls -> tends_proj K Xs (fun k => P (S (pick k))) Qs ->
  let PX := projected_tensor K nI Xs Qs in
  mode_settled (nnf 2) (lamf 2) K PX Ls 2 /\
  (ps_updates ps = 1%nat -> tends K (fun k => F (pick k)) Ls -> forall m, (m < 3)%nat -> mode_settled (nnf m) (lamf m) K PX Ls m).
Proof.
  intros HL HT HTP PX. split.
  - apply (@mlim_settled K (fun k => projected_tensor K nI Xs (P (S (pick k)))) PX (fun k => F (S (pick k))) Ls 2); auto.
    + intros idx Hi. now apply (@tensor_tends K nI Xs (fun k => P (S (pick k)))).
    + intros k. apply F_rows.
    + intros k. exact (proj1 (@run_settled (pick k) _ (tensor_is K nI Xs _))).
  - intros H1 HT0 m Hm.
    assert (Hlen : forall j, length (F j) = 3%nat) by reflexivity.
    apply (@mlim_settled K (fun k => projected_tensor K nI Xs (P (S (pick k)))) PX (fun k => mixed (F (pick k)) (F (S (pick k))) m) Ls m); auto.
    + intros i a r Hi Ha Hr. apply (@cv_ext (fun k => mget (if (i <=? m)%nat then nth i (F (S (pick k))) m0 else nth i (F (pick k)) m0) a r)).
      { intros k. now rewrite mixed_nth. }
      destruct (i <=? m)%nat; [now apply (HT i a r)|now apply (HT0 i a r)].
    + intros idx Hi. now apply (@tensor_tends K nI Xs (fun k => P (S (pick k)))).
    + intros k. rewrite mixed_rows; rewrite !F_rows; reflexivity.
    + intros k. exact (proj2 (@run_settled (pick k) _ (tensor_is K nI Xs _)) H1 m Hm).
Qed.
End Limits.

Lemma named_options ps nn lam : length (ps_nn ps) = 3%nat ->
  (forall m, (m < 3)%nat -> nth_error (ps_nn ps) m = Some (nn m) /\ penalty (inner_settings ps) m (lam m)) ->
  (forall m, (m < 3)%nat -> nth m (ps_nn ps) false = nn m) /\ (forall m, (m < 3)%nat -> nth m (match ps_ridge ps with Some l => l | None => [] end) 0 = lam m).
Proof.
  intros H3 H. split; intros m Hm; destruct (H m Hm) as [H1 H2]; [now apply nth_error_nth|].
  unfold penalty in H2. cbn [inner_settings cs_ridge] in H2. destruct (ps_ridge ps); [now apply nth_error_nth|]. rewrite H2. now destruct m.
Qed.
