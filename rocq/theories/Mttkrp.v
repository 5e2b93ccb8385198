(** MTTKRP and flattening lemmas. *)
From Verif Require Export BaseFacts.
Set Implicit Arguments.
Unset Strict Implicit.

Lemma mttkrp_entry_split X Us k i r : k < length (shape X) -> i < nth k (shape X) 0 ->
  mttkrp_entry X Us k i r =
  sumf (indices (remove_at k (shape X))) (fun rest =>
    (get X (insert_at k i rest) * colprod (remove_at k Us) rest r)%R).
Proof.
  intros Hk Hi. unfold mttkrp_entry. rewrite (sumf_indices_axis _ Hk).
  rewrite (@sumf_single _ i); auto.
  - apply sumf_ext. intros rest Hr. apply in_indices in Hr.
    apply valid_length in Hr. rewrite length_remove_at in Hr by auto.
    rewrite nth_insert_at by lia. rewrite Nat.eqb_refl. now rewrite remove_insert_at by lia.
  - intros j Hj Hne. apply sumf_zero. intros rest Hr. apply in_indices in Hr.
    apply valid_length in Hr. rewrite length_remove_at in Hr by auto.
    rewrite nth_insert_at by lia. destruct (Nat.eqb_spec j i); congruence.
Qed.

Definition general_mttkrp (junk : nat -> nat -> R) X Us mode : res (option nd) :=
  do M <- unfold X mode ;
  do K <- khatri_rao junk Us (Some mode) ;
  do P <- matmul M K ; Ok (Some P).

Lemma general_mttkrp_ok junk X Us K z k :
  wf X -> mats K Us -> rows Us = shape X -> 2 <= length Us ->
  py_index (length Us) z = Some k -> nth k (shape X) 0 <> 0 ->
  exists P, general_mttkrp junk X Us z = Ok (Some P) /\ is_mat (nth k (shape X) 0) K P /\
    forall i r, i < nth k (shape X) 0 -> r < K -> mget P i r = mttkrp_entry X Us k i r.
Proof.
  intros HX HU Hr Hl Hk Hz. unfold general_mttkrp.
  assert (Hlen : ndim X = length Us) by (unfold ndim; rewrite <- Hr; apply map_length).
  assert (Hlt : k < length (shape X)) by (fold (ndim X); rewrite Hlen; apply (py_index_lt Hk)).
  destruct (@unfold_ok X z k) as (M & EM & HM & HMent); auto; [now rewrite Hlen|].
  destruct (@khatri_rao_skip_ok junk K Us z k) as (KR & EK & HK & HKent); auto.
  rewrite Hr in HK, HKent.
  rewrite EM, EK. cbn [bind]. rewrite (matmul_ok HM HK). cbn [bind].
  eexists; split; [reflexivity|]. split; [apply is_mat_tab2|].
  intros i r Hi Hr'. rewrite mget_tab2 by auto. rewrite mttkrp_entry_split by auto.
  rewrite sumf_indices_seq. apply sum_ext. intros c Hc.
  set (rest := nth c (indices (remove_at k (shape X))) []).
  assert (Hv : valid rest (remove_at k (shape X))) by now apply valid_nth_indices.
  assert (Hle : k <= length rest) by (rewrite (valid_length Hv), length_remove_at by auto; lia).
  rewrite <- (HKent rest r) by auto.
  assert (HvI : valid (insert_at k i rest) (shape X)) by now apply valid_insert_at.
  rewrite <- (HMent _ HvI). rewrite nth_insert_at, remove_insert_at by auto.
  unfold rest. rewrite ravel_nth_indices by auto. reflexivity.
Qed.

Lemma moveaxis_id X k z z' : wf X -> py_index (ndim X) z = Some k -> py_index (ndim X) z' = Some k ->
  moveaxis X z z' = Ok X.
Proof.
  intros HX H H'. unfold moveaxis. rewrite H, H'. f_equal.
  pose proof (py_index_lt H) as Hlt. unfold ndim in Hlt.
  rewrite insert_remove_at by auto.
  etransitivity; [|apply (tab_get HX)]. apply tab_ext. intros idx Hv.
  now rewrite insert_remove_at by (now rewrite (valid_length Hv)).
Qed.

Lemma mttkrp3_mode0 junk X Us : wf X -> ndim X = 3 ->
  mttkrp3 junk X Us 0 = general_mttkrp junk X Us 0.
Proof.
  intros HX H. unfold mttkrp3, general_mttkrp, unfold. cbn [Z.eqb].
  rewrite (@moveaxis_id X 0) by (auto; apply py_index_0; lia). cbn [bind].
  unfold shape_z. rewrite H. cbn. destruct (reshape_auto X _); reflexivity.
Qed.

Lemma mttkrp3_mode2 junk X Us z : ndim X = 3 -> length Us = 3 -> z = 2%Z \/ z = (-1)%Z ->
  mttkrp3 junk X Us z = general_mttkrp junk X Us z.
Proof.
  intros H HU Hz. unfold mttkrp3, general_mttkrp, unfold, moveaxis, shape_z. rewrite H.
  destruct Hz as [-> | ->]; cbn [Z.eqb orb py_index bind];
    change (py_index 3 2) with (Some 2); change (py_index 3 (-1)) with (Some 2);
    change (py_index 3 0) with (Some 0); cbn [bind];
    match goal with |- context [reshape_auto ?a ?b] => destruct (reshape_auto a b) end; reflexivity.
Qed.

Lemma broadcast_into_mat op n m a b : is_mat n m a -> is_mat n m b ->
  broadcast_into op a b = Ok (tab2 n m (fun i j => op (mget a i j) (mget b i j))).
Proof.
  intros Ha Hb. unfold broadcast_into. rewrite (broadcast_mat _ Ha Hb).
  rewrite (proj2 Ha), (proj2 Hb), bshape_same.
  destruct (list_eq_dec Nat.eq_dec [n; m] [n; m]); congruence.
Qed.

Lemma is_mat_zeros n m : is_mat n m (np_zeros [n; m]).
Proof. split; [apply wf_tab|reflexivity]. Qed.

Lemma mget_zeros n m i j : i < n -> j < m -> mget (np_zeros [n; m]) i j = 0%R.
Proof. intros. unfold mget, np_zeros. rewrite get_tab; auto. now apply valid2. Qed.

Lemma mttkrp_mid_ok X krp a b c K : wf X -> shape X = [a; b; c] -> is_mat (a * c) K krp ->
  exists P, mttkrp_mid_with_krp X krp = Ok P /\ is_mat b K P /\
    forall j r, j < b -> r < K ->
      mget P j r = sum a (fun i => sum c (fun k => (get X [i; j; k] * mget krp (i * c + k) r)%R)).
Proof.
  intros HX SX HK. unfold mttkrp_mid_with_krp, shape_z, ndim. rewrite SX, (proj2 HK).
  cbn [length]. change (py_index 3 (-1)) with (Some 2). change (py_index 3 (-2)) with (Some 1).
  change (py_index 2 (-1)) with (Some 1). change (py_index 3 0) with (Some 0). cbn [nth bind].
  match goal with |- exists P, foldM ?f _ _ = _ /\ _ =>
    destruct (@foldM_seq_inv nd f (fun t P => is_mat b K P /\
       forall j r, j < b -> r < K ->
         mget P j r = sum t (fun i => sum c (fun k => (get X [i; j; k] * mget krp (i * c + k) r)%R)))
       0 a (np_zeros [b; K])) as (P & E & HP & Hent) end.
  - split; [apply is_mat_zeros|]. intros. now rewrite mget_zeros.
  - intros i P Hi [HP Hent]. cbn in Hi. rewrite Nat.mod_small by lia.
    destruct (wf_row HX SX (proj2 Hi)) as [Hrw Hrs].
    destruct (@slice0_mat (a * c) K krp (i * c) ((i + 1) * c)) as [Hsl Hslent]; auto; [nia|nia|].
    replace ((i + 1) * c - i * c) with c in * by lia.
    rewrite (@matmul_ok b c K) by (auto; split; auto). cbn [bind].
    rewrite (@broadcast_into_mat _ b K) by auto.
    eexists; split; [reflexivity|]. split; [apply is_mat_tab2|].
    intros j r Hj Hr. rewrite !mget_tab2 by auto. rewrite sum_S, Hent by auto. f_equal.
    apply sum_ext. intros k Hk. rewrite Hslent by auto. f_equal.
    unfold mget. rewrite (get_row HX SX); auto; [lia|]. now apply valid2.
  - exists P. auto.
Qed.

Lemma mttkrp3_mode1_ok junk X Us K : wf X -> mats K Us -> rows Us = shape X -> length Us = 3 ->
  exists P, mttkrp3 junk X Us 1 = Ok (Some P) /\ is_mat (nth 1 (shape X) 0) K P /\
    forall i r, i < nth 1 (shape X) 0 -> r < K -> mget P i r = mttkrp_entry X Us 1 i r.
Proof.
  intros HX HU Hr Hl. unfold mttkrp3, mttkrp_mid. cbn [Z.eqb].
  assert (H3 : length (shape X) = 3) by (rewrite <- Hr; unfold rows; now rewrite map_length).
  destruct (@khatri_rao_skip_ok junk K Us 1 1) as (KR & EK & HK & HKent); auto;
    [now rewrite Hl|lia|].
  rewrite Hr in HK, HKent. rewrite EK. cbn [bind].
  destruct (shape X) as [|a [|b [|c [|]]]] eqn:SX; cbn in H3; try lia. clear H3.
  cbn [remove_at prodl] in HK, HKent. rewrite Nat.mul_1_r in HK.
  destruct (@mttkrp_mid_ok X KR a b c K) as (P & EP & HP & Hent); auto.
  rewrite EP. cbn [bind]. exists P. split; auto. split; auto. cbn [nth].
  intros j r Hj Hr'. rewrite Hent by auto.
  rewrite mttkrp_entry_split by (rewrite SX; cbn; lia). rewrite SX. cbn [remove_at].
  rewrite sumf_indices2. apply sum_ext. intros i Hi. apply sum_ext. intros k Hk.
  cbn [insert_at]. f_equal. rewrite <- HKent by (auto; now apply valid2).
  rewrite ravel2. reflexivity.
Qed.

Lemma mttkrp_ok junk X Us K z k :
  wf X -> mats K Us -> rows Us = shape X -> 2 <= length Us ->
  py_index (length Us) z = Some k -> nth k (shape X) 0 <> 0 ->
  ~ (length Us = 3 /\ (z = -2 \/ z = -3)%Z) ->
  exists P, matrix_khatri_rao_product junk X Us z = Ok (Some P) /\ is_mat (nth k (shape X) 0) K P /\
    forall i r, i < nth k (shape X) 0 -> r < K -> mget P i r = mttkrp_entry X Us k i r.
Proof.
  intros HX HU Hr Hl Hk Hz Hn.
  assert (Hlen : ndim X = length Us) by (unfold ndim; rewrite <- Hr; apply map_length).
  unfold matrix_khatri_rao_product. rewrite Hlen, Nat.eqb_refl. cbn [negb].
  destruct (Nat.eqb_spec (length Us) 3) as [H3|H3].
  - rewrite H3 in *. destruct (py_index_Some _ _ Hk) as [Hlt Hcase].
    assert (Cases : (z = 0%Z /\ k = 0 \/ z = 1%Z /\ k = 1 \/ (z = 2%Z \/ z = (-1)%Z) /\ k = 2)) by lia.
    destruct Cases as [[-> ->]|[[-> ->]|[Hz2 ->]]].
    + rewrite mttkrp3_mode0 by auto. apply general_mttkrp_ok; auto; rewrite H3; auto.
    + apply mttkrp3_mode1_ok; auto.
    + rewrite mttkrp3_mode2 by auto. apply general_mttkrp_ok; auto; rewrite H3; auto.
  - apply general_mttkrp_ok; auto.
Qed.

Lemma mttkrp3_none junk X Us z : ndim X = 3 -> length Us = 3 ->
  (z = -2 \/ z = -3)%Z -> matrix_khatri_rao_product junk X Us z = Ok None.
Proof.
  intros H HU Hz. unfold matrix_khatri_rao_product. rewrite H, HU. cbn.
  destruct Hz as [-> | ->]; reflexivity.
Qed.

Lemma mttkrp_assert junk X Us z : ndim X <> length Us ->
  matrix_khatri_rao_product junk X Us z = Err AssertionError.
Proof.
  intros H. unfold matrix_khatri_rao_product.
  destruct (Nat.eqb_spec (ndim X) (length Us)); [contradiction|reflexivity].
Qed.

(** *** Flattening *)
Lemma flatten_loop fs : forall N pre l,
  Forall wf fs -> N = length pre + length l -> length l = list_sum (map (fun f => prodl (shape f)) fs) ->
  foldM (fun (acc : nd * nat) f =>
             let (flattened, offset) := acc in
             let size := prodl (shape f) in
             do out <- set_slice0 flattened offset (offset + size) (mk [size] (data f)) ;
             Ok (out, offset + size)) fs (mk [N] (pre ++ l), length pre)
  = Ok (mk [N] (pre ++ concat (map data fs)), N).
Proof.
  induction fs as [|f fs IH]; intros N pre l Hwf HN Hl; cbn [foldM map concat].
  - cbn in Hl. destruct l; cbn in *; [|lia]. subst N. now rewrite Nat.add_0_r.
  - inversion Hwf as [|? ? Hf Hfs]; subst. unfold wf in Hf. cbn [map list_sum fold_right] in Hl.
    fold (list_sum (map (fun f => prodl (shape f)) fs)) in Hl.
    unfold set_slice0 at 1, slice0. cbn [shape nth tl data].
    rewrite !Nat.min_l by lia.
    destruct (list_eq_dec Nat.eq_dec _ _) as [_|Hne].
    2:{ exfalso. apply Hne. f_equal. lia. }
    cbn [bind]. cbn [prodl]. rewrite Nat.mul_1_r.
    assert (Es : set_slice (pre ++ l) (length pre) (data f) = (pre ++ data f) ++ skipn (length (data f)) l).
    { unfold set_slice. rewrite firstn_app, firstn_all, Nat.sub_diag, firstn_O, app_nil_r.
      rewrite skipn_app. rewrite skipn_all2 by lia.
      replace (length pre + length (data f) - length pre) with (length (data f)) by lia.
      now rewrite <- app_assoc. }
    rewrite Es. replace (length pre + prodl (shape f)) with (length (pre ++ data f)) by (rewrite app_length; lia).
    rewrite IH; auto.
    + now rewrite <- app_assoc.
    + rewrite app_length, skipn_length. lia.
    + rewrite skipn_length. unfold list_sum in *. lia.
Qed.

Lemma flatten_ok junk Us : Forall wf Us ->
  flatten_factors junk Us = Ok (mk [list_sum (map (fun f => prodl (shape f)) Us)] (concat (map data Us))).
Proof.
  intros H. unfold flatten_factors, np_empty. set (N := list_sum _).
  pose proof (@flatten_loop Us N [] (map junk (seq 0 (prodl [N]))) H) as L. cbn [app length] in L.
  rewrite L.
  - reflexivity.
  - rewrite map_length, seq_length. cbn. lia.
  - rewrite map_length, seq_length. cbn. unfold N. lia.
Qed.

Lemma unflatten_loop rank sizes : forall acc pre l rest,
  length l = list_sum sizes * rank ->
  exists Us, foldM (fun (acc : list nd * nat) s =>
             let (factors, offset) := acc in
             let stop := offset + s * rank in
             do matrix <- reshape (slice0 (mk [length (pre ++ l ++ rest)] (pre ++ l ++ rest)) offset stop) [s; rank] ;
             Ok (factors ++ [matrix], stop)) sizes (acc, length pre)
      = Ok (acc ++ Us, length (pre ++ l)) /\
    Forall2 (fun U s => is_mat s rank U) Us sizes /\ concat (map data Us) = l.
Proof.
  induction sizes as [|s sizes IH]; intros acc pre l rest Hl; cbn [foldM].
  - cbn in Hl. destruct l; cbn in Hl; [|lia]. exists []. rewrite !app_nil_r.
    repeat split. constructor.
  - cbn [list_sum fold_right] in Hl. fold (list_sum sizes) in Hl.
    assert (Hs : s * rank <= length l) by (unfold list_sum in *; nia).
    assert (E : firstn (s * rank) (skipn (length pre) (pre ++ l ++ rest)) = firstn (s * rank) l).
    { rewrite skipn_app, skipn_all, Nat.sub_diag. cbn [skipn app].
      rewrite firstn_app. replace (s * rank - length l) with 0 by lia. now rewrite firstn_O, app_nil_r. }
    assert (Em : reshape (slice0 (mk [length (pre ++ l ++ rest)] (pre ++ l ++ rest)) (length pre)
                   (length pre + s * rank)) [s; rank] = Ok (mk [s; rank] (firstn (s * rank) l))).
    { unfold slice0, reshape. cbn [shape nth tl data prodl].
      rewrite !app_length. rewrite !Nat.min_l by lia. rewrite !Nat.mul_1_r.
      replace (length pre + s * rank - length pre) with (s * rank) by lia.
      now rewrite Nat.eqb_refl, E. }
    rewrite Em. cbn [bind].
    destruct (IH (acc ++ [mk [s; rank] (firstn (s * rank) l)]) (pre ++ firstn (s * rank) l)
                 (skipn (s * rank) l) rest) as (Us & EU & HU & HC).
    { rewrite skipn_length. unfold list_sum in *. nia. }
    replace ((pre ++ firstn (s * rank) l) ++ skipn (s * rank) l ++ rest) with (pre ++ l ++ rest) in EU.
    2:{ rewrite <- app_assoc. f_equal. rewrite app_assoc. now rewrite firstn_skipn. }
    replace (length (pre ++ firstn (s * rank) l)) with (length pre + s * rank) in EU
      by (rewrite app_length, firstn_length_le; lia).
    cbv zeta in EU. rewrite EU. exists (mk [s; rank] (firstn (s * rank) l) :: Us). repeat split.
    + rewrite <- !app_assoc. rewrite firstn_skipn. reflexivity.
    + constructor; auto. split; [|reflexivity]. unfold wf; cbn. rewrite firstn_length. lia.
    + cbn [map concat data]. rewrite HC. apply firstn_skipn.
Qed.

Lemma unflatten_ok v rank sizes : is_vec (list_sum sizes * rank) v ->
  exists Us, unflatten_factors v rank sizes = Ok Us /\
    Forall2 (fun U s => is_mat s rank U) Us sizes /\ concat (map data Us) = data v.
Proof.
  intros [Hw Hs]. unfold wf in Hw. rewrite Hs in Hw. cbn [prodl] in Hw. rewrite Nat.mul_1_r in Hw.
  destruct (@unflatten_loop rank sizes [] [] (data v) [] Hw) as (Us & E & HU & HC).
  exists Us. split; [|auto]. unfold unflatten_factors.
  cbn [app length] in E. rewrite app_nil_r in E.
  replace v with (mk [length (data v)] (data v)) by (destruct v; cbn in *; congruence).
  rewrite E. reflexivity.
Qed.

Lemma sizes_rank rank sizes Us : Forall2 (fun U s => is_mat s rank U) Us sizes ->
  list_sum (map (fun f => prodl (shape f)) Us) = list_sum sizes * rank.
Proof.
  intros H; induction H; cbn; auto. unfold list_sum in *. rewrite IHForall2. destruct H as [_ ->]. cbn. nia.
Qed.

Lemma mats_unique rank sizes Us Vs :
  Forall2 (fun U s => is_mat s rank U) Us sizes -> Forall2 (fun U s => is_mat s rank U) Vs sizes ->
  concat (map data Us) = concat (map data Vs) -> Us = Vs.
Proof.
  intros H; revert Vs; induction H; intros Vs HV E; inversion HV as [|x0 ? l1 ? Hx0 Hl1]; subst; auto.
  cbn in E. destruct H as [Hw Hs], Hx0 as [Hw' Hs'].
  unfold wf in *. rewrite Hs in Hw; rewrite Hs' in Hw'.
  assert (Ed : data x = data x0 /\ concat (map data l) = concat (map data l1)).
  { assert (L : length (data x) = length (data x0)) by congruence.
    revert E L. generalize (data x) (data x0) (concat (map data l)) (concat (map data l1)).
    clear. intros l1; induction l1; intros [|b l2] l3 l4 E L; cbn in *; try lia; auto.
    injection E as -> E. destruct (IHl1 _ _ _ E) as [-> ->]; auto. }
  destruct Ed as [Ed Ec]. f_equal; auto.
  destruct x, x0; cbn in *; congruence.
Qed.

Lemma unflatten_flatten junk rank sizes Us : Forall2 (fun U s => is_mat s rank U) Us sizes ->
  exists v, flatten_factors junk Us = Ok v /\ is_vec (list_sum sizes * rank) v /\
    unflatten_factors v rank sizes = Ok Us.
Proof.
  intros H. assert (Hwf : Forall wf Us).
  { clear -H. induction H; constructor; auto. apply H. }
  rewrite flatten_ok by auto. eexists; split; [reflexivity|].
  assert (Hv : is_vec (list_sum sizes * rank)
     (mk [list_sum (map (fun f => prodl (shape f)) Us)] (concat (map data Us)))).
  { split; [|now rewrite (sizes_rank H)]. unfold wf; cbn. rewrite Nat.mul_1_r.
    clear H. induction Hwf; cbn; auto. rewrite app_length, IHHwf. unfold wf in H. unfold list_sum. lia. }
  split; auto. destruct (unflatten_ok Hv) as (Vs & E & HV & HC). rewrite E. f_equal.
  eapply mats_unique; eauto.
Qed.

Lemma flatten_unflatten junk rank sizes v : is_vec (list_sum sizes * rank) v ->
  exists Us, unflatten_factors v rank sizes = Ok Us /\
    Forall2 (fun U s => is_mat s rank U) Us sizes /\ flatten_factors junk Us = Ok v.
Proof.
  intros H. destruct (unflatten_ok H) as (Us & E & HU & HC). exists Us. repeat split; auto.
  rewrite flatten_ok.
  - rewrite HC, (sizes_rank HU). destruct H as [_ Hs]. destruct v; cbn in *; congruence.
  - clear -HU. induction HU; constructor; auto. apply H.
Qed.
