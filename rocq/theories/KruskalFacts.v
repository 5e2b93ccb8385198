(** Facts about Kruskal tensors (decompositions.py) and factor utilities (utils.py). *)
From Verif Require Export Decompositions Solves.
Set Implicit Arguments.
Unset Strict Implicit.
Local Open Scope R_scope.

(** *** Small array lemmas *)
Lemma mapM_ok {A B} (f : A -> res B) (g : A -> B) l :
  (forall x, In x l -> f x = Ok (g x)) -> mapM f l = Ok (map g l).
Proof.
  induction l; cbn; intros H; auto. rewrite H by auto. cbn [bind].
  rewrite IHl by auto. reflexivity.
Qed.

Lemma mapM_inv {A B} (f : A -> res B) l ys :
  mapM f l = Ok ys -> Forall2 (fun x y => f x = Ok y) l ys.
Proof.
  revert ys; induction l; cbn; intros ys H.
  - injection H as <-. constructor.
  - destruct (f a) eqn:E; cbn in H; [|discriminate].
    destruct (mapM f l) eqn:E'; cbn in H; [|discriminate]. injection H as <-. constructor; auto.
Qed.

Lemma mats_nil K : mats K []. Proof. constructor. Qed.
Lemma mats_cons K U Us : mats K (U :: Us) <-> is_mat (nrows U) K U /\ mats K Us.
Proof. split; [intros H; inversion H; subst; auto|intros []; constructor; auto]. Qed.

Lemma mats_in K Us U : mats K Us -> In U Us -> is_mat (nrows U) K U.
Proof. intros H. unfold mats in H. rewrite Forall_forall in H. auto. Qed.

Lemma is_mat_nrows n m U : is_mat n m U -> nrows U = n.
Proof. intros [_ H]. unfold nrows. now rewrite H. Qed.
Lemma is_mat_ncols n m U : is_mat n m U -> ncols U = m.
Proof. intros [_ H]. unfold ncols. now rewrite H. Qed.

Lemma shape_at_0 n m U : is_mat n m U -> shape_at U 0 = Ok n.
Proof. intros [_ H]. unfold shape_at. now rewrite H. Qed.
Lemma shape_at_1 n m U : is_mat n m U -> shape_at U 1 = Ok m.
Proof. intros [_ H]. unfold shape_at. now rewrite H. Qed.

Lemma mats_shapes K Us : mats K Us -> mapM (fun U => shape_at U 0) Us = Ok (rows Us).
Proof.
  intros H. apply (@mapM_ok nd nat _ nrows). intros U HU.
  eapply shape_at_0, mats_in; eauto.
Qed.

Lemma vget_newaxis0 n w r : is_vec n w -> mget (newaxis0 w) 0 r = vget w r.
Proof. intros [_ Hs]. unfold mget, vget, get, newaxis0. cbn [shape data]. rewrite Hs. reflexivity. Qed.

Lemma is_mat_newaxis0_vec n w : is_vec n w -> is_mat 1 n (newaxis0 w).
Proof.
  intros [Hw Hs]. unfold newaxis0. split; cbn.
  - unfold wf in *. cbn. rewrite Hw, Hs. cbn. lia.
  - now rewrite Hs.
Qed.

(** *** Construction *)
Lemma kt_construct_ok junk K Us w :
  mats K Us -> is_vec K w -> (2 <= length Us)%nat ->
  exists T, kt_construct junk {| kt_rank := K; kt_fms := Us; kt_w := w |} = Ok T /\
    wf T /\ shape T = rows Us /\
    forall idx, valid idx (rows Us) -> get T idx = cp_entry Us (vget w) K idx.
Proof.
  intros HU Hw Hl. destruct Us as [|U0 Us]; cbn in Hl; [lia|].
  assert (HU' := HU). apply mats_cons in HU' as [H0 Hr].
  unfold kt_construct. cbn [kt_fms kt_w tl]. rewrite (mats_shapes HU). cbn [bind].
  unfold list_get at 1. cbn [nth_error bind].
  destruct (is_mat_newaxis0_vec Hw) as [Hw1 Hw2].
  unfold np_mul. rewrite (broadcast_row_mat Rmult Hw1 Hw2 H0). cbn [bind].
  destruct (@khatri_rao_none_ok junk K Us) as (KR & E & HKR & Hent); auto.
  { destruct Us; cbn in Hl; [lia|discriminate]. }
  rewrite E. cbn [bind].
  rewrite (matmul_ok (is_mat_tab2 _ _ _) (is_mat_transp HKR)). cbn [bind].
  set (M := tab2 _ _ _).
  destruct (@fold_ok M 0%Z 0%nat (rows (U0 :: Us))) as (T & ET & HT & Hs & HTe).
  - apply is_mat_tab2.
  - reflexivity.
  - reflexivity.
  - exists T. split; auto. split; auto. split; auto.
    intros idx Hv. rewrite HTe by auto. cbn [rows map] in Hv.
    apply valid_cons_inv in Hv as (i & idx' & -> & Hi & Hv). cbn [nth remove_at rows map].
    unfold M. rewrite mget_tab2; auto.
    2:{ cbn [rows map remove_at]. now apply ravel_lt. }
    unfold cp_entry. apply sum_ext. intros r Hrk.
    rewrite mget_tab2 by auto. rewrite (mget_transp HKR); auto.
    2:{ now apply ravel_lt. }
    change (map nrows Us) with (rows Us) in *. rewrite Hent by auto. rewrite (vget_newaxis0 _ Hw).
    cbn [colprod]. ring.
Qed.

Lemma kt_construct_one junk K U w :
  is_mat (nrows U) K U -> is_vec K w ->
  kt_construct junk {| kt_rank := K; kt_fms := [U]; kt_w := w |} = Err IndexError.
Proof.
  intros HU Hw. unfold kt_construct. cbn [kt_fms kt_w tl].
  rewrite (@mats_shapes K [U]) by (repeat constructor; apply HU). cbn [bind list_get nth_error].
  destruct (is_mat_newaxis0_vec Hw) as [Hw1 Hw2].
  unfold np_mul. rewrite (broadcast_row_mat Rmult Hw1 Hw2 HU). reflexivity.
Qed.

(** *** Initialisation *)
Lemma foldM_check {A} (f : A -> res unit) l :
  foldM (fun _ x => f x) l tt = Ok tt <-> Forall (fun x => f x = Ok tt) l.
Proof.
  induction l; cbn; [split; auto|].
  destruct (f a) as [[]|e] eqn:E; cbn.
  - rewrite IHl. split; [constructor; auto|intros H; inversion H; auto].
  - split; [discriminate|]. intros H; inversion H; congruence.
Qed.

Lemma check_col_ok U rank :
  (do c <- shape_at U 1; if Nat.eqb c rank then Ok tt else Err ValueError) = Ok tt <-> has_cols rank U.
Proof.
  unfold shape_at, has_cols. destruct (nth_error (shape U) 1) as [c|]; cbn; [|split; discriminate].
  destruct (Nat.eqb_spec c rank); split; intros; try congruence.
Qed.

Lemma kt_init_ok_iff fms w k :
  kt_init fms w = Ok k <->
  exists R, kt_rank k = R /\ kt_fms k = fms /\ fms <> [] /\ Forall (has_cols R) fms /\
    match w with
    | None => kt_w k = np_ones [R]
    | Some w => kt_w k = w /\ nth_error (shape w) 0 = Some R
    end.
Proof.
  unfold kt_init, list_get. destruct fms as [|U0 Us].
  { cbn. split; [discriminate|intros (R & _ & _ & H & _); congruence]. }
  cbn [nth_error bind]. destruct (shape_at U0 1) as [rank|e] eqn:E0; cbn [bind].
  2:{ split; [discriminate|]. intros (R & _ & _ & _ & H & _). inversion H; subst.
      unfold has_cols in *. unfold shape_at in E0. rewrite H2 in E0. discriminate. }
  assert (E0' : has_cols rank U0).
  { unfold shape_at in E0. unfold has_cols. destruct (nth_error (shape U0) 1); congruence. }
  destruct (foldM _ (U0 :: Us) tt) as [[]|e] eqn:EF; cbn [bind].
  - apply foldM_check in EF.
    assert (HC : Forall (has_cols rank) (U0 :: Us)).
    { eapply Forall_impl; [|exact EF]. intros a. apply check_col_ok. }
    destruct w as [w|]; unfold np_len.
    + destruct (shape w) as [|n sh] eqn:Es; cbn [bind nth_error].
      { split; [discriminate|]. intros (R & _ & _ & _ & _ & _ & H). discriminate. }
      destruct (Nat.eqb_spec n rank) as [->|Hn]; cbn [bind]; split.
      * intros H. injection H as <-. exists rank. cbn. repeat split; auto. discriminate.
      * intros (R & H1 & H2 & H3 & H4 & H5 & H6). destruct k; cbn in *. rewrite ?Es in H6. cbn in H6.
        injection H6 as <-. now subst.
      * discriminate.
      * intros (R & H1 & H2 & H3 & H4 & H5 & H6). rewrite ?Es in H6. cbn in H6. injection H6 as <-.
        inversion H4; subst. unfold has_cols in *. congruence.
    + cbn [bind]. split.
      * intros H. injection H as <-. exists rank. cbn. repeat split; auto. discriminate.
      * intros (R & H1 & H2 & H3 & H4 & H5). destruct k; cbn in *.
        assert (R = rank) by (inversion H4; subst; unfold has_cols in *; congruence). now subst.
  - split; [discriminate|]. intros (R & _ & _ & _ & H & _).
    assert (R = rank) by (inversion H; subst; unfold has_cols in *; congruence). subst R.
    assert (foldM (fun (_ : unit) U => do c <- shape_at U 1; if Nat.eqb c rank then Ok tt else Err ValueError)
              (U0 :: Us) tt = Ok tt).
    { apply foldM_check. eapply Forall_impl; [|exact H]. intros a. apply check_col_ok. }
    congruence.
Qed.

Lemma mats_has_cols K Us : mats K Us -> Forall (has_cols K) Us.
Proof. intros H. eapply Forall_impl; [|exact H]. intros U [_ Hs]. unfold has_cols. now rewrite Hs. Qed.

Lemma kt_init_mats K Us w : mats K Us -> Us <> [] -> is_vec K w ->
  kt_init Us (Some w) = Ok {| kt_rank := K; kt_fms := Us; kt_w := w |}.
Proof.
  intros HU Hne [Hw Hs]. apply kt_init_ok_iff. exists K. cbn. rewrite Hs.
  repeat split; auto using mats_has_cols.
Qed.

Lemma kt_init_mats_none K Us : mats K Us -> Us <> [] ->
  kt_init Us None = Ok {| kt_rank := K; kt_fms := Us; kt_w := np_ones [K] |}.
Proof.
  intros HU Hne. apply kt_init_ok_iff. exists K. cbn. repeat split; auto using mats_has_cols.
Qed.

(** What is raised otherwise, for matrices and weight vectors. *)
Lemma kt_init_err fms w :
  any_mats fms -> (forall w0, w = Some w0 -> exists n, is_vec n w0) ->
  (fms = [] -> kt_init fms w = Err IndexError) /\
  (fms <> [] -> (exists k, kt_init fms w = Ok k) \/ kt_init fms w = Err ValueError).
Proof.
  intros HM Hw. split.
  - intros ->. reflexivity.
  - intros Hne. destruct fms as [|U0 Us]; [congruence|].
    inversion HM as [|? ? H0 Hr]; subst.
    unfold kt_init, list_get. cbn [nth_error bind]. rewrite (shape_at_1 H0). cbn [bind].
    assert (HF : forall l, any_mats l ->
      foldM (fun (_ : unit) U => do c <- shape_at U 1; if Nat.eqb c (ncols U0) then Ok tt else Err ValueError) l tt = Ok tt \/
      foldM (fun (_ : unit) U => do c <- shape_at U 1; if Nat.eqb c (ncols U0) then Ok tt else Err ValueError) l tt = Err ValueError).
    { induction 1 as [|U l HU Hl IH]; cbn [foldM]; auto. rewrite (shape_at_1 HU). cbn [bind].
      destruct (Nat.eqb (ncols U) (ncols U0)); cbn [bind]; auto. }
    destruct (HF _ HM) as [-> | ->]; cbn [bind]; auto.
    destruct w as [w|]; cbn [bind]; [|left; eauto].
    destruct (Hw w eq_refl) as (n & _ & Hs). unfold np_len. rewrite Hs. cbn [bind].
    destruct (Nat.eqb n (ncols U0)); cbn [bind]; eauto.
Qed.

(** *** Normalisation *)
Lemma has_zero_false a : has_zero a = false <-> (forall x, In x (data a) -> x <> 0).
Proof.
  unfold has_zero. split.
  - intros H x Hx E. subst. enough (existsb (fun x => if Req_EM_T x 0 then true else false) (data a) = true) by congruence.
    apply existsb_exists. exists 0. split; auto. destruct (Req_EM_T 0 0); congruence.
  - intros H. apply not_true_is_false. intros E. apply existsb_exists in E as (x & Hx & E).
    destruct (Req_EM_T x 0); [apply (H x); auto|discriminate].
Qed.

Lemma has_zero_mat n m a : is_mat n m a ->
  (has_zero a = false <-> forall i j, (i < n)%nat -> (j < m)%nat -> mget a i j <> 0).
Proof.
  intros [Hw Hs]. rewrite has_zero_false. split; intros H.
  - intros i j Hi Hj. apply H. unfold mget, get. apply nth_In. rewrite Hw. apply ravel_lt. rewrite Hs. now apply valid2.
  - intros x Hx. apply (In_nth _ _ 0) in Hx as (q & Hq & <-). rewrite Hw in Hq.
    pose proof (valid_nth_indices Hq) as Hv. pose proof (ravel_nth_indices Hq) as Hr.
    rewrite <- Hr. change (get a (nth q (indices (shape a)) []) <> 0). rewrite Hs in Hv.
    apply valid_cons_inv in Hv as (i & t & E & Hi & Hv). apply valid_cons_inv in Hv as (j & t' & -> & Hj & Hv).
    apply valid_nil_inv in Hv; subst. rewrite Hs, E. now apply H.
Qed.

Lemma has_zero_vec n a : is_vec n a ->
  (has_zero a = false <-> forall i, (i < n)%nat -> vget a i <> 0).
Proof.
  intros [Hw Hs]. rewrite has_zero_false. split; intros H.
  - intros i Hi. apply H. unfold vget, get. apply nth_In. rewrite Hw. apply ravel_lt. rewrite Hs. now apply valid1.
  - intros x Hx. apply (In_nth _ _ 0) in Hx as (q & Hq & <-). unfold wf in Hw. rewrite Hw, Hs in Hq. cbn in Hq.
    specialize (H q). unfold vget, get in H. rewrite Hs in H. cbn in H.
    replace (q * 1 + 0)%nat with q in H by lia. apply H. lia.
Qed.

Lemma is_vec_norm_axis0 n m U : is_mat n m U -> is_vec m (norm_axis0 U).
Proof. intros H. unfold norm_axis0. rewrite (is_mat_ncols H). auto. Qed.
Lemma vget_norm_axis0 n m U r : is_mat n m U -> (r < m)%nat -> vget (norm_axis0 U) r = colnorm U r.
Proof. intros H Hr. unfold norm_axis0. rewrite (is_mat_ncols H). now rewrite vget_tab1. Qed.

Lemma is_mat_norm_keep n m U : is_mat n m U -> is_mat 1 m (norm_axis0_keep U).
Proof. intros H. apply is_mat_newaxis0_vec. now apply (is_vec_norm_axis0 H). Qed.
Lemma mget_norm_keep n m U r : is_mat n m U -> (r < m)%nat -> mget (norm_axis0_keep U) 0 r = colnorm U r.
Proof.
  intros H Hr. unfold norm_axis0_keep. rewrite (vget_newaxis0 _ (is_vec_norm_axis0 H)).
  now apply (vget_norm_axis0 H).
Qed.

Lemma is_mat_map n m f a : is_mat n m a -> is_mat n m (np_map f a).
Proof. intros [Hw Hs]. split; auto. unfold wf, np_map in *. cbn. now rewrite map_length. Qed.
Lemma is_vec_map n f a : is_vec n a -> is_vec n (np_map f a).
Proof. intros [Hw Hs]. split; auto. unfold wf, np_map in *. cbn. now rewrite map_length. Qed.
Lemma mget_map n m f a i j : is_mat n m a -> (i < n)%nat -> (j < m)%nat -> mget (np_map f a) i j = f (mget a i j).
Proof.
  intros [Hw Hs] Hi Hj. unfold mget, get, np_map. cbn [shape data].
  rewrite (nth_indep _ 0 (f 0)). { apply map_nth. }
  rewrite map_length, Hw. apply ravel_lt. rewrite Hs. now apply valid2.
Qed.
Lemma vget_map n f a i : is_vec n a -> (i < n)%nat -> vget (np_map f a) i = f (vget a i).
Proof.
  intros [Hw Hs] Hi. unfold vget, get, np_map. cbn [shape data].
  rewrite (nth_indep _ 0 (f 0)). { apply map_nth. }
  rewrite map_length, Hw. apply ravel_lt. rewrite Hs. now apply valid1.
Qed.

Definition scaled (eps : R) (n m : nat) (U : nd) : nd :=
  tab2 n m (fun i r => mget U i r / (colnorm U r + eps)).

Lemma div_norms_ok eps n m U : is_mat n m U ->
  (forall r, (r < m)%nat -> colnorm U r + eps <> 0) ->
  np_div U (np_map (fun x => x + eps) (norm_axis0_keep U)) = Ok (scaled eps n m U).
Proof.
  intros HU Hz. unfold np_div. pose proof (is_mat_norm_keep HU) as HN.
  pose proof (is_mat_map (fun x => x + eps) HN) as HN'.
  assert (E : has_zero (np_map (fun x => x + eps) (norm_axis0_keep U)) = false).
  { apply (has_zero_mat HN'). intros i j Hi Hj. replace i with 0%nat by lia.
    rewrite (mget_map _ HN) by lia. rewrite (mget_norm_keep HU) by auto. auto. }
  rewrite E. destruct HN' as [HN1 HN2]. rewrite (broadcast_mat_row Rdiv HU HN1 HN2).
  f_equal. apply tab2_ext. intros i j Hi Hj. rewrite (mget_map _ HN) by lia.
  now rewrite (mget_norm_keep HU).
Qed.

Lemma div_norms_zero eps n m U r : is_mat n m U -> (r < m)%nat -> colnorm U r + eps = 0 ->
  np_div U (np_map (fun x => x + eps) (norm_axis0_keep U)) = Err NonFinite.
Proof.
  intros HU Hr Hz. unfold np_div. pose proof (is_mat_norm_keep HU) as HN.
  pose proof (is_mat_map (fun x => x + eps) HN) as HN'.
  destruct (has_zero _) eqn:E; auto.
  exfalso. rewrite (has_zero_mat HN') in E. apply (E 0%nat r); auto.
  rewrite (mget_map _ HN) by lia. now rewrite (mget_norm_keep HU).
Qed.

Lemma is_mat_scaled eps n m U : is_mat n m (scaled eps n m U).
Proof. unfold scaled. auto. Qed.
#[export] Hint Resolve is_mat_scaled : core.

Lemma colnorm_ext n m U V r : is_mat n m U -> is_mat n m V ->
  (forall i, (i < n)%nat -> mget U i r = mget V i r) -> colnorm U r = colnorm V r.
Proof.
  intros HU HV H. unfold colnorm, colnorm2. rewrite (is_mat_nrows HU), (is_mat_nrows HV). f_equal.
  apply sum_ext. intros i Hi. now rewrite H.
Qed.

Lemma colnorm_scal n m U V r c : is_mat n m U -> is_mat n m V ->
  (forall i, (i < n)%nat -> mget V i r = c * mget U i r) -> colnorm V r = Rabs c * colnorm U r.
Proof.
  intros HU HV H. unfold colnorm, colnorm2. rewrite (is_mat_nrows HU), (is_mat_nrows HV).
  rewrite <- sqrt_Rsqr_abs, <- sqrt_mult; [|apply Rle_0_sqr|apply sum_nonneg; intros; apply Rle_0_sqr].
  f_equal. unfold Rsqr. rewrite <- sum_scal_l. apply sum_ext. intros i Hi. rewrite H by auto. ring.
Qed.

Lemma colnorm_scaled eps n m U r : is_mat n m U -> (r < m)%nat -> 0 <= eps -> colnorm U r + eps <> 0 ->
  colnorm (scaled eps n m U) r = colnorm U r / (colnorm U r + eps).
Proof.
  intros HU Hr He Hz. pose proof (colnorm_nonneg U r) as Hn.
  rewrite (@colnorm_scal n m U (scaled eps n m U) r (/ (colnorm U r + eps))); auto.
  - rewrite Rabs_right. { field. auto. } apply Rle_ge. left. apply Rinv_0_lt_compat. lra.
  - intros i Hi. unfold scaled. rewrite mget_tab2 by auto. field. auto.
Qed.

Lemma colnorm_zero_iff n m U r : is_mat n m U ->
  (colnorm U r = 0 <-> forall i, (i < n)%nat -> mget U i r = 0).
Proof.
  intros HU. split.
  - intros H i Hi.
    assert (E : colnorm2 U r = 0) by (rewrite <- colnorm_sq, H; ring).
    unfold colnorm2 in E. rewrite (is_mat_nrows HU) in E.
    apply Rsqr_0_uniq. unfold Rsqr.
    refine (@sum_nonneg_zero n (fun i => mget U i r * mget U i r) _ E i Hi).
    intros. apply Rle_0_sqr.
  - intros H. unfold colnorm, colnorm2. rewrite (is_mat_nrows HU), sum_zero. { apply sqrt_0. }
    intros i Hi. rewrite H by auto. ring.
Qed.

Lemma replace_at_app {A} (l1 : list A) x y l2 : replace_at (length l1) y (l1 ++ x :: l2) = l1 ++ y :: l2.
Proof. induction l1; cbn; auto. now rewrite IHl1. Qed.

Lemma broadcast_into_vec op n a b : is_vec n a -> is_vec n b ->
  broadcast_into op a b = Ok (tab1 n (fun i => op (vget a i) (vget b i))).
Proof.
  intros [Ha Hsa] [Hb Hsb]. unfold broadcast_into. rewrite Hsa, Hsb, bshape_same.
  destruct (list_eq_dec _ _ _); [|congruence]. rewrite broadcast_same by congruence.
  rewrite Hsa. f_equal. apply tab_ext. intros idx Hv.
  apply valid_cons_inv in Hv as (i & t & -> & Hi & Hv). apply valid_nil_inv in Hv; subst. reflexivity.
Qed.

Lemma prodf_app {I} (l1 l2 : list I) f : prodf (l1 ++ l2) f = prodf l1 f * prodf l2 f.
Proof. induction l1; cbn; [ring|rewrite IHl1; ring]. Qed.

Lemma kt_normalize_prefix upd eps K Us w : forall Ws,
  mats K Us -> is_vec K w ->
  (forall U r, In U Us -> (r < K)%nat -> colnorm U r + eps <> 0) ->
  exists w', foldM (kt_normalize_step upd eps) (seq (length Ws) (length Us))
               {| kt_rank := K; kt_fms := Ws ++ Us; kt_w := w |} =
    Ok {| kt_rank := K; kt_fms := Ws ++ map (fun U => scaled eps (nrows U) K U) Us; kt_w := w' |} /\
    is_vec K w' /\
    forall r, (r < K)%nat -> vget w' r = if upd then vget w r * prodf Us (fun U => colnorm U r) else vget w r.
Proof.
  revert w; induction Us as [|U Us IH]; intros w Ws HU Hw Hz.
  - exists w. cbn. split; auto. split; auto. intros. destruct upd; auto. ring.
  - apply mats_cons in HU as [H0 HU]. cbn [length seq foldM].
    unfold kt_normalize_step at 1. cbn [kt_fms kt_w kt_rank].
    unfold list_get at 1. rewrite nth_error_app2 by lia. rewrite Nat.sub_diag. cbn [nth_error bind].
    change (newaxis0 (norm_axis0 U)) with (norm_axis0_keep U).
    rewrite (@div_norms_ok eps (nrows U) K U H0) by (intros; apply Hz; cbn; auto). cbn [bind].
    rewrite (assign_full_mat H0 (is_mat_scaled eps (nrows U) K U)). cbn [bind].
    set (w1 := if upd then tab1 K (fun r => vget w r * vget (norm_axis0 U) r) else w).
    assert (E1 : (if upd then broadcast_into Rmult w (norm_axis0 U) else Ok w) = Ok w1).
    { unfold w1. destruct upd; auto. now rewrite (broadcast_into_vec Rmult Hw (is_vec_norm_axis0 H0)). }
    rewrite E1. cbn [bind]. rewrite replace_at_app.
    assert (Hw1 : is_vec K w1) by (unfold w1; destruct upd; auto).
    destruct (IH w1 (Ws ++ [scaled eps (nrows U) K U])) as (w' & E & Hw' & He); auto.
    { intros. apply Hz; cbn; auto. }
    rewrite <- !app_assoc in E. cbn [app] in E. rewrite app_length in E. cbn [length] in E.
    replace (length Ws + 1)%nat with (S (length Ws)) in E by lia.
    exists w'. split; [exact E|]. split; auto.
    intros r Hr. rewrite He by auto. unfold w1. destruct upd; auto.
    rewrite vget_tab1 by auto. rewrite (vget_norm_axis0 H0) by auto. cbn. ring.
Qed.

Lemma kt_normalize_ok upd eps K Us w :
  mats K Us -> is_vec K w ->
  (forall U r, In U Us -> (r < K)%nat -> colnorm U r + eps <> 0) ->
  exists w', kt_normalize upd eps {| kt_rank := K; kt_fms := Us; kt_w := w |} =
    Ok {| kt_rank := K; kt_fms := map (fun U => scaled eps (nrows U) K U) Us; kt_w := w' |} /\
    is_vec K w' /\
    forall r, (r < K)%nat -> vget w' r = if upd then vget w r * prodf Us (fun U => colnorm U r) else vget w r.
Proof.
  intros HU Hw Hz. exact (@kt_normalize_prefix upd eps K Us w [] HU Hw Hz).
Qed.

Lemma mats_scaled eps K Us : mats K (map (fun U => scaled eps (nrows U) K U) Us).
Proof.
  unfold mats. rewrite Forall_map. apply Forall_forall. intros U _.
  assert (H : is_mat (nrows U) K (scaled eps (nrows U) K U)) by auto.
  now rewrite (is_mat_nrows H).
Qed.
Lemma rows_scaled eps K Us : rows (map (fun U => scaled eps (nrows U) K U) Us) = rows Us.
Proof. unfold rows. rewrite map_map. apply map_ext. reflexivity. Qed.

Lemma colprod_scaled eps K Us idx r : mats K Us -> valid idx (rows Us) -> (r < K)%nat ->
  colprod (map (fun U => scaled eps (nrows U) K U) Us) idx r =
  colprod Us idx r * prodf Us (fun U => / (colnorm U r + eps)).
Proof.
  intros HU. revert idx. induction HU as [|U Us H0 HU IH]; intros idx Hv Hr; cbn [map colprod prodf].
  - ring.
  - cbn in Hv. apply valid_cons_inv in Hv as (i & idx' & -> & Hi & Hv). cbn [colprod].
    rewrite IH by auto. unfold scaled at 1. rewrite mget_tab2 by auto. unfold Rdiv. ring.
Qed.

Lemma prodf_mul {I} (l : list I) f g : prodf l f * prodf l g = prodf l (fun i => f i * g i).
Proof. induction l; cbn; [ring|]. rewrite <- IHl. ring. Qed.

Lemma prodf_ext {I} (l : list I) f g : (forall i, In i l -> f i = g i) -> prodf l f = prodf l g.
Proof. induction l; cbn; intros H; auto. rewrite H by auto. rewrite IHl by auto. reflexivity. Qed.

Lemma prodf_01 {I} (l : list I) f : (forall i, In i l -> 0 <= f i <= 1) -> 0 <= prodf l f <= 1.
Proof.
  induction l; cbn; intros H; [lra|].
  assert (H1 := H a (or_introl eq_refl)). assert (H2 : 0 <= prodf l f <= 1) by auto. nra.
Qed.

Lemma prodf_gap {I} (l : list I) f : (forall i, In i l -> 0 <= f i <= 1) ->
  1 - prodf l f <= sumf l (fun i => 1 - f i).
Proof.
  induction l; cbn; intros H; [lra|].
  assert (H1 := H a (or_introl eq_refl)).
  assert (H2 : 0 <= prodf l f <= 1) by (apply prodf_01; auto).
  assert (H3 : 1 - prodf l f <= sumf l (fun i => 1 - f i)) by auto. nra.
Qed.

Lemma cp_entry_ext Us K w w' idx :
  (forall r, (r < K)%nat -> w r * colprod Us idx r = w' r * colprod Us idx r) ->
  cp_entry Us w K idx = cp_entry Us w' K idx.
Proof. intros H. apply sum_ext. auto. Qed.

(** The normalised tensor's entries. *)
Lemma cp_entry_normalized eps K Us w w' idx :
  mats K Us -> valid idx (rows Us) ->
  (forall r, (r < K)%nat -> w' r = w r * prodf Us (fun U => colnorm U r)) ->
  cp_entry (map (fun U => scaled eps (nrows U) K U) Us) w' K idx =
  sum K (fun r => w r * colprod Us idx r * prodf Us (fun U => colnorm U r / (colnorm U r + eps))).
Proof.
  intros HU Hv Hw. unfold cp_entry. apply sum_ext. intros r Hr.
  rewrite Hw by auto. rewrite colprod_scaled by auto.
  unfold Rdiv. rewrite <- prodf_mul. ring.
Qed.

Lemma clen_colnorm U r : clen U r = colnorm U r.
Proof. unfold clen, colnorm, colnorm2. f_equal. apply sum_ext. intros. ring. Qed.

Lemma clen_nonneg U r : 0 <= clen U r.
Proof. apply sqrt_pos. Qed.

Lemma clen_zero_iff n m U r : is_mat n m U -> (clen U r = 0 <-> forall i, (i < n)%nat -> mget U i r = 0).
Proof. rewrite clen_colnorm. apply colnorm_zero_iff. Qed.

Lemma nth_map_in {A B} (f : A -> B) l m d d' : (m < length l)%nat -> nth m (map f l) d' = f (nth m l d).
Proof.
  intros H. rewrite (nth_indep _ d' (f d)) by (rewrite map_length; auto). apply map_nth.
Qed.

(** Everything about a normalisation in terms of column lengths. *)
Lemma kt_normalize_spec junk upd eps K Us w :
  mats K Us -> is_vec K w -> (2 <= length Us)%nat -> 0 <= eps ->
  (forall U r, In U Us -> (r < K)%nat -> clen U r + eps <> 0) ->
  exists k' T', kt_normalize upd eps {| kt_rank := K; kt_fms := Us; kt_w := w |} = Ok k' /\
    kt_rank k' = K /\ mats K (kt_fms k') /\ rows (kt_fms k') = rows Us /\ is_vec K (kt_w k') /\
    (forall m r, (m < length Us)%nat -> (r < K)%nat ->
       clen (nth m (kt_fms k') m0) r = clen (nth m Us m0) r / (clen (nth m Us m0) r + eps)) /\
    (forall m i r, (m < length Us)%nat -> (i < nrows (nth m Us m0))%nat -> (r < K)%nat ->
       mget (nth m (kt_fms k') m0) i r = mget (nth m Us m0) i r / (clen (nth m Us m0) r + eps)) /\
    (forall r, (r < K)%nat ->
       vget (kt_w k') r = if upd then vget w r * prodf Us (fun U => clen U r) else vget w r) /\
    kt_construct junk k' = Ok T' /\ wf T' /\ shape T' = rows Us /\
    (upd = true -> forall idx, valid idx (rows Us) ->
       get T' idx = sum K (fun r => vget w r * colprod Us idx r *
                                    prodf Us (fun U => clen U r / (clen U r + eps)))).
Proof.
  intros HU Hw Hl He Hz.
  destruct (@kt_normalize_ok upd eps K Us w HU Hw) as (w' & E & Hw' & Hwe).
  { intros U r HI Hr. rewrite <- clen_colnorm. auto. }
  set (Vs := map (fun U => scaled eps (nrows U) K U) Us) in *.
  assert (HV : mats K Vs) by apply mats_scaled.
  assert (HR : rows Vs = rows Us) by apply rows_scaled.
  destruct (@kt_construct_ok junk K Vs w' HV Hw') as (T & ET & HT & HS & HTe).
  { unfold Vs. now rewrite map_length. }
  exists {| kt_rank := K; kt_fms := Vs; kt_w := w' |}, T. cbn [kt_rank kt_fms kt_w].
  assert (Hnth : forall m, (m < length Us)%nat -> nth m Vs m0 = scaled eps (nrows (nth m Us m0)) K (nth m Us m0)).
  { intros m Hm. unfold Vs. now rewrite (nth_map_in (fun U => scaled eps (nrows U) K U) m0). }
  assert (HIn : forall m, (m < length Us)%nat -> In (nth m Us m0) Us) by (intros; now apply nth_In).
  repeat (split; [solve [auto]|]). split.
  { intros m r Hm Hr. rewrite Hnth by auto. rewrite !clen_colnorm.
    apply colnorm_scaled; auto. { now apply (mats_in HU), HIn. } rewrite <- clen_colnorm. auto. }
  split.
  { intros m i r Hm Hi Hr. rewrite Hnth by auto. unfold scaled. rewrite mget_tab2 by auto. now rewrite clen_colnorm. }
  split.
  { intros r Hr. rewrite Hwe by auto. destruct upd; auto. f_equal. apply prodf_ext. intros. now rewrite clen_colnorm. }
  split; auto. split; auto. split; [congruence|].
  intros -> idx Hv. rewrite HTe by now rewrite HR.
  rewrite (@cp_entry_normalized eps K Us (vget w) (vget w')); auto.
  apply sum_ext. intros r Hr. f_equal. apply prodf_ext. intros. now rewrite clen_colnorm.
Qed.

Lemma kt_normalize_zero_col upd K Us w U r :
  mats K Us -> is_vec K w -> In U Us -> (r < K)%nat -> clen U r = 0 ->
  kt_normalize upd 0 {| kt_rank := K; kt_fms := Us; kt_w := w |} = Err NonFinite.
Proof.
  unfold kt_normalize. cbn [kt_fms]. intros HU Hw HI Hr Hc.
  assert (G : forall Us w Ws, mats K Us -> is_vec K w -> In U Us ->
    foldM (kt_normalize_step upd 0) (seq (length Ws) (length Us))
       {| kt_rank := K; kt_fms := Ws ++ Us; kt_w := w |} = Err NonFinite).
  2:{ exact (G Us w [] HU Hw HI). }
  clear HU Hw HI Us w. induction Us as [|V Us IH]; intros w Ws HU Hw HI; [contradiction|].
  apply mats_cons in HU as [H0 HU]. cbn [length seq foldM].
  unfold kt_normalize_step at 1. cbn [kt_fms kt_w kt_rank].
  unfold list_get at 1. rewrite nth_error_app2 by lia. rewrite Nat.sub_diag. cbn [nth_error bind].
  change (newaxis0 (norm_axis0 V)) with (norm_axis0_keep V).
  destruct (has_zero (np_map (fun x => x + 0) (norm_axis0_keep V))) eqn:Ez.
  { unfold np_div. now rewrite Ez. }
  assert (Hnz : forall q, (q < K)%nat -> colnorm V q + 0 <> 0).
  { intros q Hq. pose proof (is_mat_norm_keep H0) as HN.
    rewrite (has_zero_mat (is_mat_map (fun x => x + 0) HN)) in Ez.
    specialize (Ez 0%nat q). rewrite (mget_map _ HN), (mget_norm_keep H0) in Ez by lia. auto. }
  rewrite (@div_norms_ok 0 (nrows V) K V H0 Hnz). cbn [bind].
  rewrite (assign_full_mat H0 (is_mat_scaled 0 (nrows V) K V)). cbn [bind].
  destruct HI as [->|HI]. { exfalso. apply (Hnz r Hr). rewrite <- clen_colnorm, Hc. ring. }
  assert (Hex : exists w1, is_vec K w1 /\ (if upd then broadcast_into Rmult w (norm_axis0 V) else Ok w) = Ok w1).
  { destruct upd; [|exists w; auto]. rewrite (broadcast_into_vec Rmult Hw (is_vec_norm_axis0 H0)). eauto. }
  destruct Hex as (w1 & Hw1 & ->). cbn [bind]. rewrite replace_at_app.
  specialize (IH w1 (Ws ++ [scaled 0 (nrows V) K V]) HU Hw1 HI).
  rewrite <- app_assoc in IH. cbn [app] in IH. rewrite app_length in IH. cbn [length] in IH.
  now replace (length Ws + 1)%nat with (S (length Ws)) in IH by lia.
Qed.

Lemma colprod_times K s Us Vs : mats K Us -> columns_times K s Us Vs ->
  forall idx r, valid idx (rows Us) -> (r < K)%nat ->
    colprod Vs idx r = colprod Us idx r * prodf (seq 0 (length Us)) (fun m => s m r).
Proof.
  revert s Vs. induction Us as [|U Us IH]; intros s Vs HU (HV & HR & He) idx r Hv Hr.
  - destruct Vs; [|discriminate]. cbn. ring.
  - destruct Vs as [|V Vs]; [discriminate|]. cbn in HR. injection HR as HR1 HR2.
    apply mats_cons in HU as [H0 HU]. apply mats_cons in HV as [HV0 HV].
    cbn in Hv. apply valid_cons_inv in Hv as (i & idx' & -> & Hi & Hv).
    cbn [colprod length seq prodf]. rewrite <- seq_shift, prodf_map.
    rewrite (IH (fun m => s (S m)) Vs HU) with (idx := idx'); auto.
    + specialize (He 0%nat i r). cbn in He. rewrite He by (auto; lia). ring.
    + split; auto. split; auto. intros m j q Hm Hj Hq. apply (He (S m) j q); auto. cbn. lia.
Qed.
