(** flip_factors, prepare_for_comparison, normalize_factor(s) (utils.py). *)
From Verif Require Export SignFacts.
Set Implicit Arguments.
Unset Strict Implicit.
Local Open Scope R_scope.

Lemma sum_sgn n c : sum n (fun i => sgn (c i)) = INR (npos n c) - INR (nneg n c).
Proof.
  unfold npos, nneg. induction (seq 0 n) as [|i l IH]; cbn [sumf filter length INR]; [lra|].
  rewrite IH. destruct (sgn_cases (c i)) as [[H ->]|[[H ->]|[H ->]]];
    destruct (Rlt_dec 0 (c i)); try lra; destruct (Rlt_dec (c i) 0); try lra;
    cbn [length]; rewrite ?S_INR; lra.
Qed.

(** The first non-zero entry of a column. *)
Lemma first_nonzero_sign_from_nz s l : s <> 0 -> first_nonzero_sign_from s l = s.
Proof. destruct l; cbn; auto. destruct (Req_EM_T s 0); congruence. Qed.

Lemma first_nonzero_sign_spec l :
  let s := first_nonzero_sign_from 0 l in
  ((forall x, In x l -> x = 0) /\ s = 0) \/
  (exists k, (k < length l)%nat /\ (forall j, (j < k)%nat -> nth j l 0 = 0) /\ nth k l 0 <> 0 /\ s = sgn (nth k l 0)).
Proof.
  induction l as [|x l IH]; cbn.
  - left. split; auto. intros x [].
  - destruct (Req_EM_T 0 0) as [_|]; [|congruence].
    destruct (Req_EM_T x 0) as [->|Hx].
    + rewrite sgn_0. destruct IH as [[H E]|(k & Hk & Hj & Hn & E)].
      * left. split; auto. intros x [<-|Hx]; auto.
      * right. exists (S k). split; [lia|]. split; [|split; auto].
        intros [|j] Hj'; auto. apply Hj. lia.
    + right. exists 0%nat. split; [lia|]. split; [intros; lia|]. split; auto.
      rewrite first_nonzero_sign_from_nz; auto. now rewrite sgn_zero_iff.
Qed.

Lemma data_col n m U k : is_mat n m U -> data (col U k) = map (fun i => mget U i k) (seq 0 n).
Proof.
  intros H. unfold col, tab1, tab. cbn [data indices]. rewrite (is_mat_nrows H).
  induction (seq 0 n); cbn [flat_map map app]; auto. cbn [nth]. f_equal. exact IHl.
Qed.

(** What [find_first_nonzero_sign] returns for a column. *)
Lemma first_nonzero_col n m U k : is_mat n m U ->
  ((forall i, (i < n)%nat -> mget U i k = 0) /\ find_first_nonzero_sign (col U k) = 0) \/
  (exists i, (i < n)%nat /\ (forall j, (j < i)%nat -> mget U j k = 0) /\ mget U i k <> 0 /\
     find_first_nonzero_sign (col U k) = sgn (mget U i k)).
Proof.
  intros H. unfold find_first_nonzero_sign. rewrite (data_col _ H).
  assert (Hn : forall i, (i < n)%nat -> nth i (map (fun i => mget U i k) (seq 0 n)) 0 = mget U i k).
  { intros i Hi. rewrite (nth_indep _ 0 (mget U 0 k)) by (rewrite map_length, seq_length; auto).
    rewrite (map_nth (fun i => mget U i k)). now rewrite seq_nth. }
  destruct (first_nonzero_sign_spec (map (fun i => mget U i k) (seq 0 n))) as [[Hz E]|(i & Hi & Hj & Hz & E)].
  - left. split; auto. intros i Hi. rewrite <- Hn by auto. apply Hz. apply nth_In. now rewrite map_length, seq_length.
  - right. rewrite map_length, seq_length in Hi. exists i. rewrite Hn in * by auto.
    repeat split; auto. intros j Hji. rewrite <- Hn by lia. auto.
Qed.

(** The sign of a column, characterised. *)
Lemma column_sign_cases n m U k : is_mat n m U -> (0 < n)%nat ->
  let c := fun i => mget U i k in
  ((nneg n c < npos n c)%nat /\ column_sign U k = 1) \/
  ((npos n c < nneg n c)%nat /\ column_sign U k = -1) \/
  (npos n c = nneg n c /\
   ((forall i, (i < n)%nat -> c i = 0) /\ column_sign U k = 0 \/
    exists i, (i < n)%nat /\ (forall j, (j < i)%nat -> c j = 0) /\ c i <> 0 /\ column_sign U k = sgn (c i))).
Proof.
  intros H Hn. cbn zeta. unfold column_sign. rewrite (is_mat_nrows H).
  rewrite sgn_div by (apply lt_0_INR; auto). rewrite (sum_sgn n (fun i => mget U i k)).
  set (p := npos n (fun i => mget U i k)). set (q := nneg n (fun i => mget U i k)).
  destruct (Nat.lt_trichotomy q p) as [Hlt|[He|Hlt]].
  - left. split; auto. apply lt_INR in Hlt. rewrite sgn_pos by lra. destruct (Req_EM_T 1 0); lra.
  - right. right. split; auto. rewrite He. rewrite Rminus_diag_eq by auto. rewrite sgn_0.
    destruct (Req_EM_T 0 0); [|congruence]. exact (first_nonzero_col k H).
  - right. left. split; auto. apply lt_INR in Hlt. rewrite sgn_neg by lra. destruct (Req_EM_T (-1) 0); lra.
Qed.

Lemma nneg_zero_col n c : (forall i, (i < n)%nat -> c i = 0) -> npos n c = 0%nat /\ nneg n c = 0%nat.
Proof.
  intros H. assert (HS : forall i, In i (seq 0 n) -> c i = 0) by (intros i Hi; apply in_seq in Hi; apply H; lia).
  unfold npos, nneg. induction (seq 0 n); cbn [filter]; auto.
  assert (Ha : c a = 0) by (apply HS; cbn; auto).
  destruct (Rlt_dec 0 (c a)); [lra|]. destruct (Rlt_dec (c a) 0); [lra|]. apply IHl. intros; apply HS; cbn; auto.
Qed.

(** All-zero columns are the only ones with sign 0. *)
Lemma column_sign_pm n m U k : is_mat n m U -> (0 < n)%nat ->
  ((forall i, (i < n)%nat -> mget U i k = 0) /\ column_sign U k = 0) \/
  ((exists i, (i < n)%nat /\ mget U i k <> 0) /\ (column_sign U k = 1 \/ column_sign U k = -1)).
Proof.
  intros H Hn.
  assert (Hnz : (npos n (fun i => mget U i k) <> 0 \/ nneg n (fun i => mget U i k) <> 0)%nat ->
     exists i, (i < n)%nat /\ mget U i k <> 0).
  { intros Hc. destruct (first_nonzero_col k H) as [[Hz _]|(i & Hi & _ & Hne & _)]; eauto.
    destruct (nneg_zero_col Hz). lia. }
  destruct (column_sign_cases k H Hn) as [[Hc E]|[[Hc E]|[_ [[Hz E]|(i & Hi & _ & Hne & E)]]]].
  - right. split; auto. apply Hnz. lia.
  - right. split; auto. apply Hnz. lia.
  - left. auto.
  - right. split; eauto. rewrite E. destruct (sgn_pm Hne); auto.
Qed.

(** The flipped factor. *)
Definition flipped (U : nd) : nd := tab2 (nrows U) (ncols U) (fun i r => mget U i r * column_sign U r).

Lemma flip_list_ok Us : any_mats Us -> Forall (fun U => (0 < nrows U)%nat) Us ->
  flip_list Us = Ok (map flipped Us, map (fun U => tab1 (ncols U) (column_sign U)) Us).
Proof.
  intros HU Hn. unfold flip_list.
  rewrite (@mapM_ok nd (nd * nd) _ (fun U => (flipped U, tab1 (ncols U) (column_sign U)))).
  - cbn [bind]. now rewrite !map_map.
  - intros U HI. unfold any_mats in HU. rewrite Forall_forall in HU, Hn.
    specialize (HU _ HI). specialize (Hn _ HI). unfold signs_of, shape2. assert (HU' := HU). destruct HU' as [_ ->].
    cbn [bind]. destruct (Nat.eqb_spec (nrows U) 0); [lia|]. cbn [bind].
    rewrite (broadcast_into_mat_vec HU (is_vec_tab1 _ _)). cbn [bind]. do 2 f_equal.
    unfold flipped. apply tab2_ext. intros i j Hi Hj. now rewrite vget_tab1.
Qed.

Lemma is_mat_flipped U : is_mat (nrows U) (ncols U) (flipped U).
Proof. unfold flipped. auto. Qed.

Lemma npos_scal n c s : s = 1 -> npos n (fun i => c i * s) = npos n c /\ nneg n (fun i => c i * s) = nneg n c.
Proof.
  intros ->. unfold npos, nneg. split; f_equal; apply filter_ext; intros i; now rewrite Rmult_1_r.
Qed.
Lemma npos_opp n c s : s = -1 -> npos n (fun i => c i * s) = nneg n c /\ nneg n (fun i => c i * s) = npos n c.
Proof.
  intros ->. unfold npos, nneg. split; f_equal; apply filter_ext; intros i;
    destruct (Rlt_dec _ _), (Rlt_dec _ _); auto; lra.
Qed.
Lemma npos_ext n c c' : (forall i, (i < n)%nat -> c i = c' i) -> npos n c = npos n c' /\ nneg n c = nneg n c'.
Proof.
  intros H. unfold npos, nneg. split; f_equal; apply filter_ext_in; intros i Hi; apply in_seq in Hi; rewrite H by lia; auto.
Qed.

(** Canonical form of a flipped column. *)
Lemma flipped_canonical U r : is_mat (nrows U) (ncols U) U -> (0 < nrows U)%nat -> (r < ncols U)%nat ->
  let n := nrows U in let c := fun i => mget (flipped U) i r in
  (nneg n c <= npos n c)%nat /\
  (npos n c = nneg n c ->
     forall i, (i < n)%nat -> c i <> 0 -> (forall j, (j < i)%nat -> c j = 0) -> 0 < c i).
Proof.
  intros HU Hn Hr. cbn zeta.
  assert (Ec : forall i, (i < nrows U)%nat -> mget (flipped U) i r = mget U i r * column_sign U r).
  { intros i Hi. unfold flipped. now rewrite mget_tab2. }
  destruct (npos_ext Ec) as [-> ->].
  destruct (column_sign_cases r HU Hn) as [[Hc E]|[[Hc E]|[Hc [[Hz E]|(i0 & Hi0 & Hj0 & Hne & E)]]]].
  - destruct (npos_scal (nrows U) (fun i => mget U i r) E) as [-> ->]. split; [lia|intros; lia].
  - destruct (npos_opp (nrows U) (fun i => mget U i r) E) as [-> ->]. split; [lia|intros; lia].
  - split.
    + destruct (@nneg_zero_col (nrows U) (fun i => mget U i r * column_sign U r)) as [-> ->]; auto.
      intros i Hi. rewrite Hz by auto. ring.
    + intros _ i Hi Hci. rewrite Ec, Hz in Hci by auto. exfalso. apply Hci. ring.
  - assert (Hpm : column_sign U r = 1 \/ column_sign U r = -1) by (rewrite E; apply sgn_pm; auto).
    split.
    + destruct Hpm as [E1|E1].
      * destruct (npos_scal (nrows U) (fun i => mget U i r) E1) as [-> ->]. lia.
      * destruct (npos_opp (nrows U) (fun i => mget U i r) E1) as [-> ->]. lia.
    + intros _ i Hi Hci Hj. rewrite Ec in * by auto.
      assert (i = i0).
      { destruct (Nat.lt_trichotomy i i0) as [H|[H|H]]; auto.
        - rewrite Hj0 in Hci by auto. exfalso. apply Hci. ring.
        - specialize (Hj i0 H). rewrite Ec in Hj by auto.
          destruct Hpm as [E1|E1]; rewrite E1 in Hj; exfalso; apply Hne; lra. }
      subst i0. rewrite E. destruct (sgn_cases (mget U i r)) as [[H ->]|[[H ->]|[H ->]]]; lra.
Qed.

(** A canonical column has sign 1, or 0 if it is zero. *)
Lemma column_sign_canonical n m V r : is_mat n m V -> (0 < n)%nat ->
  let c := fun i => mget V i r in
  (nneg n c <= npos n c)%nat ->
  (npos n c = nneg n c ->
     forall i, (i < n)%nat -> c i <> 0 -> (forall j, (j < i)%nat -> c j = 0) -> 0 < c i) ->
  column_sign V r = 1 \/ (column_sign V r = 0 /\ forall i, (i < n)%nat -> c i = 0).
Proof.
  intros HV Hn c H1 H2.
  destruct (column_sign_cases r HV Hn) as [[Hc E]|[[Hc E]|[Hc [[Hz E]|(i0 & Hi0 & Hj0 & Hne & E)]]]]; auto.
  - fold c in Hc. lia.
  - left. rewrite E. apply sgn_pos. now apply (H2 Hc i0).
Qed.

Lemma flipped_flipped U : is_mat (nrows U) (ncols U) U -> (0 < nrows U)%nat -> flipped (flipped U) = flipped U.
Proof.
  intros HU Hn. pose proof (is_mat_flipped U) as HF.
  assert (HFF := is_mat_flipped (flipped U)). change (nrows (flipped U)) with (nrows U) in HFF.
  change (ncols (flipped U)) with (ncols U) in HFF.
  eapply mat_ext; eauto. intros i r Hi Hr.
  unfold flipped at 1. rewrite mget_tab2; auto.
  destruct (flipped_canonical HU Hn Hr) as [H1 H2].
  destruct (column_sign_canonical HF Hn H1 H2) as [-> |[-> Hz]]; [ring|].
  rewrite Hz by auto. ring.
Qed.

Lemma flipped_recover U i r : is_mat (nrows U) (ncols U) U -> (0 < nrows U)%nat ->
  (i < nrows U)%nat -> (r < ncols U)%nat -> mget (flipped U) i r * column_sign U r = mget U i r.
Proof.
  intros HU Hn Hi Hr. unfold flipped. rewrite mget_tab2 by auto.
  destruct (column_sign_pm r HU Hn) as [[Hz E]|[_ E]].
  - rewrite Hz by auto. ring.
  - rewrite Rmult_assoc, (pm_sq E). ring.
Qed.

(** *** normalize_factor(s) *)
Lemma normalize_factor_ok eps n m U : is_mat n m U ->
  (forall r, (r < m)%nat -> colnorm U r + eps <> 0) ->
  normalize_factor eps U = Ok (scaled eps n m U, norm_axis0_keep U).
Proof.
  intros HU Hz. unfold normalize_factor. rewrite (div_norms_ok HU Hz). reflexivity.
Qed.

Lemma colnorm_eps_pos U r eps : 0 < eps -> colnorm U r + eps <> 0.
Proof. intros H. pose proof (colnorm_nonneg U r). lra. Qed.

Lemma eps15_pos : 0 < eps15.
Proof. unfold eps15. apply Rinv_0_lt_compat. apply pow_lt. lra. Qed.

Lemma normalize_factors_ok Us : any_mats Us ->
  normalize_factors Us = Ok (map (fun U => scaled eps15 (nrows U) (ncols U) U) Us, map norm_axis0_keep Us).
Proof.
  intros HU. unfold normalize_factors.
  rewrite (@mapM_ok nd (nd * nd) _ (fun U => (scaled eps15 (nrows U) (ncols U) U, norm_axis0_keep U))).
  - cbn [bind]. now rewrite !map_map.
  - intros U HI. unfold any_mats in HU. rewrite Forall_forall in HU.
    apply normalize_factor_ok; auto. intros. apply colnorm_eps_pos, eps15_pos.
Qed.
