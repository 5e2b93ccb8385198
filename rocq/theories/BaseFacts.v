(** Lemmas about the model of base.py: unfolding, Khatri-Rao, Kronecker, MTTKRP,
    flattening. *)
From Verif Require Export NumPyFacts Base Spec.
Set Implicit Arguments.
Unset Strict Implicit.

(** *** Generic loop lemma *)
Lemma foldM_seq_inv {B : Type} (f : B -> nat -> res B) (P : nat -> B -> Prop) a n b :
  P a b ->
  (forall i b, a <= i < a + n -> P i b -> exists b', f b i = Ok b' /\ P (S i) b') ->
  exists b', foldM f (seq a n) b = Ok b' /\ P (a + n) b'.
Proof.
  revert a b; induction n; intros a b H0 Hs; cbn.
  - exists b. rewrite Nat.add_0_r. auto.
  - destruct (Hs a b) as (b' & E & H1); [lia|auto|].
    rewrite E. cbn. destruct (IHn (S a) b') as (b'' & E' & H2); auto.
    + intros; apply Hs; auto; lia.
    + exists b''. split; auto. now rewrite Nat.add_succ_r.
Qed.

(** *** Row-major positions *)
Lemma position_ravel sh idx : length idx = length sh -> position sh idx = ravel sh idx.
Proof.
  unfold position.
  assert (G : forall acc, length idx = length sh ->
    fold_left (fun acc p => acc * fst p + snd p) (combine sh idx) acc = acc * prodl sh + ravel sh idx).
  { revert idx; induction sh as [|s sh IH]; intros [|i idx] acc H; cbn in *; try lia.
    rewrite IH by lia. lia. }
  intros H. rewrite G by auto. lia.
Qed.

Lemma ravel_app sh1 sh2 i1 i2 : length i1 = length sh1 ->
  ravel (sh1 ++ sh2) (i1 ++ i2) = ravel sh1 i1 * prodl sh2 + ravel sh2 i2.
Proof.
  revert i1; induction sh1 as [|s sh1 IH]; intros [|i i1] H; cbn in *; try lia.
  rewrite IH by lia. rewrite prodl_app. lia.
Qed.

Lemma valid_app sh1 sh2 idx : valid idx (sh1 ++ sh2) ->
  exists i1 i2, idx = i1 ++ i2 /\ valid i1 sh1 /\ valid i2 sh2.
Proof.
  revert idx; induction sh1 as [|s sh1 IH]; intros idx H; cbn in *.
  - exists [], idx. repeat split; auto using valid_nil.
  - apply valid_cons_inv in H as (i & idx' & -> & Hi & Hv).
    apply IH in Hv as (i1 & i2 & -> & H1 & H2).
    exists (i :: i1), i2. repeat split; auto using valid_cons.
Qed.

Lemma valid_app_intro sh1 sh2 i1 i2 : valid i1 sh1 -> valid i2 sh2 -> valid (i1 ++ i2) (sh1 ++ sh2).
Proof. intros H1 H2. now apply Forall2_app. Qed.

Lemma ravel1 n i : ravel [n] [i] = i.
Proof. cbn. lia. Qed.

Lemma ravel2 n m i j : ravel [n; m] [i; j] = i * m + j.
Proof. cbn. lia. Qed.

Lemma get_flat a sh idx idx' : ravel sh idx = ravel (shape a) idx' -> get (mk sh (data a)) idx = get a idx'.
Proof. intros H. unfold get. cbn. now rewrite H. Qed.

(** *** unfold / fold *)
Lemma py_index_lt n z k : py_index n z = Some k -> k < n.
Proof. intros H. apply py_index_Some in H. lia. Qed.

Lemma py_index_0 n : 0 < n -> py_index n 0 = Some 0.
Proof. intros H. exact (py_index_nat H). Qed.

Lemma unfold_ok A n k :
  wf A -> py_index (ndim A) n = Some k -> nth k (shape A) 0 <> 0 ->
  exists M, unfold A n = Ok M /\
    is_mat (nth k (shape A) 0) (prodl (remove_at k (shape A))) M /\
    forall idx, valid idx (shape A) ->
      mget M (nth k idx 0) (ravel (remove_at k (shape A)) (remove_at k idx)) = get A idx.
Proof.
  intros HA Hk Hd. pose proof (py_index_lt Hk) as Hlt. unfold ndim in Hlt.
  unfold unfold, moveaxis, shape_z. rewrite Hk. rewrite py_index_0 by (unfold ndim; lia).
  cbn [bind]. set (d := nth k (shape A) 0) in *. set (sh' := remove_at k (shape A)).
  set (T := tab _ _). unfold reshape_auto.
  assert (Hsh : shape T = d :: sh') by reflexivity.
  assert (Hsz : prodl (shape T) = prodl sh' * d) by (rewrite Hsh; cbn; lia).
  rewrite Hsz, Nat.mod_mul, Nat.div_mul by auto.
  destruct (Nat.eqb_spec d 0) as [|_]; [lia|]. cbn.
  eexists; split; [reflexivity|]. split; [split|].
  - unfold wf; cbn. rewrite map_length, length_flat_map_const with (len := prodl sh').
    + rewrite seq_length. lia.
    + intros; rewrite map_length; apply length_indices.
  - reflexivity.
  - intros idx Hv. unfold mget.
    assert (E : get T (nth k idx 0 :: remove_at k idx) = get A idx).
    { unfold T. rewrite get_tab.
      - cbn [nth remove_at]. f_equal. apply insert_remove_at. now rewrite (valid_length Hv).
      - apply valid_cons; [apply valid_nth; auto|]. now apply valid_remove_at. }
    rewrite <- E. apply (@get_flat T). rewrite Hsh. rewrite ravel2. reflexivity.
Qed.

Lemma unfold_err_axis A n : py_index (ndim A) n = None -> unfold A n = Err ValueError.
Proof. intros H. unfold unfold, moveaxis. now rewrite H. Qed.

Lemma unfold_err_zero A n k : py_index (ndim A) n = Some k -> nth k (shape A) 0 = 0 ->
  unfold A n = Err ValueError.
Proof.
  intros Hk Hd. unfold unfold, moveaxis, shape_z. rewrite Hk.
  pose proof (py_index_lt Hk).
  rewrite py_index_0 by lia. cbn [bind]. rewrite Hd. reflexivity.
Qed.

Lemma fold_ok M n k sh :
  wf M -> py_index (length sh) n = Some k ->
  shape M = [nth k sh 0; prodl (remove_at k sh)] ->
  exists T, fold M n sh = Ok T /\ wf T /\ shape T = sh /\
    forall idx, valid idx sh ->
      get T idx = mget M (nth k idx 0) (ravel (remove_at k sh) (remove_at k idx)).
Proof.
  intros HM Hk Hsh. pose proof (py_index_lt Hk) as Hlt.
  unfold fold, list_pop. rewrite Hk. cbn [bind].
  unfold reshape. rewrite Hsh.
  replace (prodl [nth k sh 0; prodl (remove_at k sh)]) with (prodl (nth k sh 0 :: remove_at k sh))
    by (cbn; lia).
  rewrite Nat.eqb_refl. cbn [bind].
  unfold moveaxis, ndim. cbn [shape length].
  rewrite length_remove_at by auto. replace (S (length sh - 1)) with (length sh) by lia.
  rewrite Hk, py_index_0 by lia.
  eexists; split; [reflexivity|]. split; [apply wf_tab|].
  assert (Esh : insert_at k (nth 0 (nth k sh 0 :: remove_at k sh) 0)
                  (remove_at 0 (nth k sh 0 :: remove_at k sh)) = sh).
  { cbn. now apply insert_remove_at. }
  split; [exact Esh|].
  intros idx Hv. rewrite get_tab by now rewrite Esh.
  cbn [insert_at]. unfold mget. apply get_flat. rewrite Hsh. now rewrite ravel2.
Qed.

Lemma fold_unfold T n : wf T -> forall M, unfold T n = Ok M -> fold M n (shape T) = Ok T.
Proof.
  intros HT M E. destruct (py_index (ndim T) n) as [k|] eqn:Hk.
  2:{ rewrite unfold_err_axis in E by auto. discriminate. }
  destruct (Nat.eq_dec (nth k (shape T) 0) 0) as [Hz|Hz].
  { rewrite (unfold_err_zero Hk Hz) in E. discriminate. }
  destruct (unfold_ok HT Hk Hz) as (M' & E' & [HM HMs] & Hent).
  rewrite E in E'. injection E' as <-.
  destruct (@fold_ok M n k (shape T)) as (T' & E2 & HT' & Hs & Hent'); auto.
  rewrite E2. f_equal. apply nd_ext; auto.
  intros idx Hv. rewrite Hs in Hv. rewrite Hent' by auto. now apply Hent.
Qed.

Lemma ravel_split_surj k sh c i : k < length sh -> i < nth k sh 0 -> c < prodl (remove_at k sh) ->
  exists idx, valid idx sh /\ nth k idx 0 = i /\ ravel (remove_at k sh) (remove_at k idx) = c.
Proof.
  intros Hk Hi Hc. set (rest := nth c (indices (remove_at k sh)) []).
  assert (Hr : valid rest (remove_at k sh)) by now apply valid_nth_indices.
  assert (Hl : k <= length rest).
  { rewrite (valid_length Hr), length_remove_at by auto. lia. }
  exists (insert_at k i rest). split; [now apply valid_insert_at|].
  split; [now apply nth_insert_at|]. rewrite remove_insert_at by auto.
  now apply ravel_nth_indices.
Qed.

Lemma unfold_fold M n k sh :
  py_index (length sh) n = Some k -> nth k sh 0 <> 0 ->
  is_mat (nth k sh 0) (prodl (remove_at k sh)) M ->
  exists T, fold M n sh = Ok T /\ unfold T n = Ok M.
Proof.
  intros Hk Hz [HM Hs]. pose proof (py_index_lt Hk) as Hlt.
  destruct (@fold_ok M n k sh) as (T & E & HT & HTs & Hent); auto.
  exists T. split; auto.
  destruct (@unfold_ok T n k) as (M' & E' & HM' & Hent'); auto.
  { unfold ndim. now rewrite HTs. }
  { now rewrite HTs. }
  rewrite E'. f_equal. rewrite HTs in *.
  eapply mat_ext; [exact HM'|split; eauto|].
  intros i c Hi Hc.
  destruct (@ravel_split_surj k sh c i) as (idx & Hv & <- & <-); auto.
  rewrite Hent' by auto. now apply Hent.
Qed.

(** *** Slices *)
Lemma nth_firstn {A} (l : list A) n k d : k < n -> nth k (firstn n l) d = nth k l d.
Proof.
  revert n k; induction l; intros [|n] [|k] H; cbn; auto; try lia.
  apply IHl. lia.
Qed.

Lemma nth_skipn {A} (l : list A) n k d : nth k (skipn n l) d = nth (n + k) l d.
Proof.
  revert n k; induction l; intros [|n] k; cbn; auto. destruct k; auto.
Qed.

Lemma length_set_slice l off new : off + length new <= length l ->
  length (set_slice l off new) = length l.
Proof.
  intros H. unfold set_slice. rewrite !app_length, firstn_length, skipn_length. lia.
Qed.

Lemma nth_set_slice l off new k d : off + length new <= length l ->
  nth k (set_slice l off new) d =
  if (off <=? k) && (k <? off + length new) then nth (k - off) new d else nth k l d.
Proof.
  intros H. unfold set_slice.
  assert (Hf : length (firstn off l) = off) by (rewrite firstn_length; lia).
  destruct (Nat.leb_spec off k).
  - rewrite app_nth2 by lia. rewrite Hf.
    destruct (Nat.ltb_spec k (off + length new)); cbn.
    + rewrite app_nth1 by lia. reflexivity.
    + rewrite app_nth2 by lia. rewrite nth_skipn. f_equal. lia.
  - cbn. rewrite app_nth1 by lia. now apply nth_firstn.
Qed.

Lemma wf_row n sh a i : wf a -> shape a = n :: sh -> i < n -> wf (row a i) /\ shape (row a i) = sh.
Proof.
  intros H S Hi. unfold wf in *. unfold row. rewrite S in *. cbn in *. split; auto.
  rewrite firstn_length, skipn_length, H. nia.
Qed.

Lemma get_row n sh a i idx : wf a -> shape a = n :: sh -> i < n -> valid idx sh ->
  get (row a i) idx = get a (i :: idx).
Proof.
  intros H S Hi Hv. unfold get, row. rewrite S. cbn.
  rewrite nth_firstn by now apply ravel_lt. now rewrite nth_skipn.
Qed.

Lemma is_vec_row n m a i : is_mat n m a -> i < n -> is_vec m (row a i).
Proof. intros [H S] Hi. destruct (wf_row H S Hi). split; auto. Qed.

Lemma vget_row n m a i j : is_mat n m a -> i < n -> j < m -> vget (row a i) j = mget a i j.
Proof. intros [H S] Hi Hj. unfold vget. rewrite (get_row H S Hi); auto. now apply valid1. Qed.

Lemma newaxis0_mget a j : mget (newaxis0 a) 0 j = vget a j.
Proof. unfold mget, vget, newaxis0. apply get_flat. cbn. lia. Qed.

Lemma is_mat_newaxis0 m a : is_vec m a -> is_mat 1 m (newaxis0 a).
Proof. intros [H S]. split; [|cbn; now rewrite S]. unfold wf in *. cbn. lia. Qed.

Lemma slice0_mat n m a lo hi : is_mat n m a -> lo <= hi -> hi <= n ->
  is_mat (hi - lo) m (slice0 a lo hi) /\
  forall i j, i < hi - lo -> j < m -> mget (slice0 a lo hi) i j = mget a (lo + i) j.
Proof.
  intros [H S] Hlh Hhn. unfold slice0. rewrite S. cbn [nth tl].
  rewrite !Nat.min_l by lia. unfold wf in H. rewrite S in H. cbn in H.
  split; [split|].
  - unfold wf; cbn. rewrite firstn_length, skipn_length, H. nia.
  - reflexivity.
  - intros i j Hi Hj. unfold mget, get. rewrite S. cbn [shape data].
    rewrite !ravel2. cbn [prodl]. rewrite nth_firstn by nia. rewrite nth_skipn. f_equal. lia.
Qed.

Lemma set_slice0_mat n m a lo hi b : is_mat n m a -> lo <= hi -> hi <= n -> is_mat (hi - lo) m b ->
  exists c, set_slice0 a lo hi b = Ok c /\ is_mat n m c /\
    forall i j, i < n -> j < m ->
      mget c i j = if (lo <=? i) && (i <? hi) then mget b (i - lo) j else mget a i j.
Proof.
  intros [H S] Hlh Hhn [Hb Sb]. unfold set_slice0, slice0. rewrite S, Sb. cbn [nth tl shape].
  rewrite !Nat.min_l by lia.
  destruct (list_eq_dec Nat.eq_dec _ _) as [_|N]; [|congruence].
  unfold wf in H, Hb. rewrite S in H; rewrite Sb in Hb. cbn [prodl] in *. rewrite Nat.mul_1_r in *.
  assert (Hle : lo * m + length (data b) <= length (data a)) by nia.
  eexists; split; [reflexivity|]. split; [split; [unfold wf; cbn; rewrite length_set_slice; lia|reflexivity]|].
  intros i j Hi Hj. unfold mget, get. cbn [shape data]. rewrite ?S, ?Sb, !ravel2.
  rewrite nth_set_slice by auto. rewrite Hb.
  destruct (Nat.leb_spec lo i), (Nat.ltb_spec i hi); cbn [andb].
  - destruct (Nat.leb_spec (lo * m) (i * m + j)); [|nia].
    destruct (Nat.ltb_spec (i * m + j) (lo * m + (hi - lo) * m)); [|nia]. cbn [andb].
    f_equal. rewrite Nat.mul_sub_distr_r. assert (lo * m <= i * m) by (apply Nat.mul_le_mono_r; lia). lia.
  - destruct (Nat.leb_spec (lo * m) (i * m + j)); [|nia].
    destruct (Nat.ltb_spec (i * m + j) (lo * m + (hi - lo) * m)); [nia|]. reflexivity.
  - destruct (Nat.leb_spec (lo * m) (i * m + j)); [nia|]. reflexivity.
  - destruct (Nat.leb_spec (lo * m) (i * m + j)); [nia|]. reflexivity.
Qed.

Lemma is_mat_empty junk n m : is_mat n m (np_empty junk [n; m]).
Proof. split; [|reflexivity]. unfold wf; cbn -[Nat.mul]. now rewrite map_length, seq_length. Qed.

(** *** Khatri-Rao *)
Lemma khatri_rao_binary_ok junk nI nJ K A B : is_mat nI K A -> is_mat nJ K B ->
  exists out, khatri_rao_binary junk A B = Ok out /\ is_mat (nI * nJ) K out /\
    forall i j r, i < nI -> j < nJ -> r < K -> mget out (i * nJ + j) r = (mget A i r * mget B j r)%R.
Proof.
  intros HA HB. unfold khatri_rao_binary, shape2.
  rewrite (proj2 HA), (proj2 HB). cbn [bind].
  destruct (@foldM_seq_inv nd
    (fun out i => do rb <- np_mul (newaxis0 (row A i)) B; set_slice0 out (i * nJ) ((i + 1) * nJ) rb)
    (fun t out => is_mat (nI * nJ) K out /\
       forall i j r, i < t -> i < nI -> j < nJ -> r < K -> mget out (i * nJ + j) r = (mget A i r * mget B j r)%R)
    0 nI (np_empty junk [nI * nJ; K])) as (out & E & Ho & Hent).
  - split; [apply is_mat_empty|]. intros; lia.
  - intros i out Hi [Ho Hent]. cbn in Hi.
    pose proof (is_mat_newaxis0 (is_vec_row HA (proj2 Hi))) as Hr.
    unfold np_mul. rewrite (@broadcast_row_mat _ nJ K) by (auto; apply Hr). cbn [bind].
    destruct (@set_slice0_mat (nI * nJ) K out (i * nJ) ((i + 1) * nJ)
       (tab2 nJ K (fun i0 j => (mget (newaxis0 (row A i)) 0 j * mget B i0 j)%R))) as (c & E & Hc & Hcent);
      try nia; auto.
    + replace ((i + 1) * nJ - i * nJ) with nJ by lia. apply is_mat_tab2.
    + exists c. split; auto. split; auto.
      intros i' j r Hi' Hi'' Hj Hr'. rewrite Hcent by (auto; nia).
      destruct (Nat.leb_spec (i * nJ) (i' * nJ + j)).
      * destruct (Nat.ltb_spec (i' * nJ + j) ((i + 1) * nJ)); cbn [andb].
        -- assert (i' = i) by nia. subst i'.
           rewrite mget_tab2 by lia. rewrite newaxis0_mget, (vget_row HA) by lia.
           f_equal. f_equal. lia.
        -- exfalso. nia.
      * cbn [andb]. apply Hent; auto. nia.
  - exists out. split; [exact E|]. split; auto.
Qed.

Lemma list_get_app {A} (pre : list A) x post : list_get (pre ++ x :: post) (length pre) = Ok x.
Proof. unfold list_get. now rewrite nth_error_app2, Nat.sub_diag. Qed.

Lemma foldM_list_get {A} (g : nat -> A -> A -> res A) (pre post : list A) p :
  foldM (fun p i => do f <- list_get (pre ++ post) i; g i p f) (seq (length pre) (length post)) p =
  foldM (fun p (q : nat * A) => g (fst q) p (snd q)) (combine (seq (length pre) (length post)) post) p.
Proof.
  revert pre p; induction post as [|x post IH]; intros pre p; [reflexivity|].
  cbn [length seq combine foldM]. rewrite list_get_app. cbn [bind fst snd].
  destruct (g (length pre) p x) as [p'|e]; [|reflexivity]. cbn [bind].
  specialize (IH (pre ++ [x]) p'). rewrite app_length in IH. cbn in IH.
  rewrite Nat.add_1_r in IH. rewrite <- app_assoc in IH. exact IH.
Qed.

Lemma colprod_app Us Vs i1 i2 r : length i1 = length Us ->
  colprod (Us ++ Vs) (i1 ++ i2) r = (colprod Us i1 r * colprod Vs i2 r)%R.
Proof.
  revert i1; induction Us as [|U Us IH]; intros [|i i1] H; cbn in *; try lia; [lra|].
  rewrite IH by lia. lra.
Qed.

Lemma kr_fold_ok junk K Us : forall a Vs p,
  mats K Us -> is_mat (prodl (rows Vs)) K p ->
  (forall idx r, valid idx (rows Vs) -> r < K -> mget p (ravel (rows Vs) idx) r = colprod Vs idx r) ->
  exists out, foldM (fun p (q : nat * nd) => khatri_rao_binary (junk (fst q)) p (snd q))
                    (combine (seq a (length Us)) Us) p = Ok out /\
    is_mat (prodl (rows (Vs ++ Us))) K out /\
    (forall idx r, valid idx (rows (Vs ++ Us)) -> r < K ->
       mget out (ravel (rows (Vs ++ Us)) idx) r = colprod (Vs ++ Us) idx r).
Proof.
  induction Us as [|U Us IH]; intros a Vs p HU Hp Hent.
  - cbn. exists p. rewrite app_nil_r. auto.
  - inversion HU; subst. cbn [length seq combine foldM fst snd].
    destruct (@khatri_rao_binary_ok (junk a) _ _ _ _ _ Hp H1) as (out & E & Ho & Hoent).
    rewrite E. cbn [bind].
    destruct (IH (S a) (Vs ++ [U]) out) as (out' & E' & Ho' & Hent'); auto.
    + unfold rows. rewrite map_app, prodl_app. cbn. rewrite Nat.mul_1_r. exact Ho.
    + intros idx r Hv Hr. unfold rows in *. rewrite map_app in *. cbn [map] in *.
      apply valid_app in Hv as (i1 & i2 & -> & Hv1 & Hv2).
      apply valid_cons_inv in Hv2 as (j & i3 & -> & Hj & Hv2).
      apply valid_nil_inv in Hv2; subst i3.
      rewrite ravel_app by now apply valid_length.
      rewrite ravel1. cbn [prodl]. rewrite Nat.mul_1_r.
      rewrite Hoent; auto; [|now apply ravel_lt].
      rewrite Hent by auto. rewrite colprod_app.
      * cbn. lra.
      * apply valid_length in Hv1. now rewrite map_length in Hv1.
    + exists out'. rewrite <- app_assoc in Ho', Hent'. auto.
Qed.

Lemma khatri_rao_none_ok junk K Us : mats K Us -> Us <> [] ->
  exists out, khatri_rao junk Us None = Ok out /\ is_mat (prodl (rows Us)) K out /\
    (forall idx r, valid idx (rows Us) -> r < K -> mget out (ravel (rows Us) idx) r = colprod Us idx r).
Proof.
  intros HU Hne. destruct Us as [|U Us]; [congruence|]. inversion HU; subst.
  unfold khatri_rao. cbn [bind]. unfold list_get at 1. cbn [nth_error bind].
  replace (length (U :: Us) - 1) with (length Us) by (cbn; lia).
  destruct (@kr_fold_ok junk K Us 1 [U] U) as (out & E & Ho & Hent); auto.
  - cbn. now rewrite Nat.mul_1_r.
  - intros idx r Hv Hr. cbn in Hv. apply valid_cons_inv in Hv as (i & i' & -> & Hi & Hv).
    apply valid_nil_inv in Hv; subst. cbn. rewrite Rmult_1_r. f_equal. lia.
  - exists out. split; [|split; auto].
    rewrite <- E. apply (foldM_list_get (fun i p f => khatri_rao_binary (junk i) p f) [U] Us U).
Qed.

Lemma khatri_rao_skip junk Us z k : py_index (length Us) z = Some k ->
  khatri_rao junk Us (Some z) = khatri_rao junk (remove_at k Us) None.
Proof. intros H. unfold khatri_rao, list_pop. rewrite H. reflexivity. Qed.

Lemma khatri_rao_skip_ok junk K Us z k : mats K Us -> py_index (length Us) z = Some k ->
  2 <= length Us ->
  exists out, khatri_rao junk Us (Some z) = Ok out /\
    is_mat (prodl (remove_at k (rows Us))) K out /\
    (forall idx r, valid idx (remove_at k (rows Us)) -> r < K ->
       mget out (ravel (remove_at k (rows Us)) idx) r = colprod (remove_at k Us) idx r).
Proof.
  intros HU Hk Hl. rewrite (khatri_rao_skip _ Hk).
  unfold rows. rewrite <- map_remove_at.
  apply khatri_rao_none_ok; [now apply Forall_remove_at|].
  apply py_index_lt in Hk.
  intros E. apply (f_equal (@length nd)) in E. rewrite length_remove_at in E by auto. cbn in E. lia.
Qed.

Lemma khatri_rao_empty junk : khatri_rao junk [] None = Err IndexError.
Proof. reflexivity. Qed.

Lemma khatri_rao_bad_skip junk Us z : py_index (length Us) z = None ->
  khatri_rao junk Us (Some z) = Err IndexError.
Proof. intros H. unfold khatri_rao, list_pop. now rewrite H. Qed.

(** *** Kronecker *)
Lemma kron_binary_ok n m p q A B : is_mat n m A -> is_mat p q B ->
  exists out, kron_binary A B = Ok out /\ is_mat (n * p) (m * q) out /\
    forall i j k l, i < n -> j < m -> k < p -> l < q ->
      mget out (i * p + k) (j * q + l) = (mget A i j * mget B k l)%R.
Proof.
  intros [HA SA] [HB SB]. unfold kron_binary, shape2. rewrite SA, SB. cbn [bind].
  unfold np_mul, broadcast. cbn [shape].
  assert (Eb : bshape [n; 1; m; 1] [1; p; 1; q] = Some [n; p; m; q]).
  { unfold bshape. cbn.
    destruct n as [|[|n]]; destruct p as [|[|p]]; destruct m as [|[|m]]; destruct q as [|[|q]]; reflexivity. }
  rewrite Eb. cbn [bind]. unfold reshape.
  replace (prodl [n * p; m * q]) with (prodl [n; p; m; q]) by (cbn; lia).
  rewrite shape_tab, Nat.eqb_refl. set (T := tab _ _).
  eexists; split; [reflexivity|]. split; [split|].
  - unfold wf, T. cbn [shape data tab]. rewrite map_length, length_indices. cbn. lia.
  - reflexivity.
  - intros i j k l Hi Hj Hk Hl.
    transitivity (get T [i; k; j; l]).
    { unfold mget. apply get_flat. unfold T. rewrite shape_tab. cbn. lia. }
    unfold T. rewrite get_tab by (repeat constructor; auto).
    assert (E1 : bidx [n; 1; m; 1] [i; k; j; l] = [i; 0; j; 0]).
    { unfold bidx; cbn. destruct (Nat.eqb_spec n 1), (Nat.eqb_spec m 1); repeat f_equal; lia. }
    assert (E2 : bidx [1; p; 1; q] [i; k; j; l] = [0; k; 0; l]).
    { unfold bidx; cbn. destruct (Nat.eqb_spec p 1), (Nat.eqb_spec q 1); repeat f_equal; lia. }
    rewrite E1, E2. f_equal; unfold mget; apply get_flat; [rewrite SA|rewrite SB]; cbn; lia.
Qed.

Lemma kron_binary_vectors_ok n m u v : is_vec n u -> is_vec m v ->
  exists out, kron_binary_vectors u v = Ok out /\ is_vec (n * m) out /\
    forall i j, i < n -> j < m -> vget out (i * m + j) = (vget u i * vget v j)%R.
Proof.
  intros [Hu Su] [Hv Sv]. unfold kron_binary_vectors, shape1. rewrite Su, Sv. cbn [bind].
  unfold np_mul, broadcast. cbn [shape].
  assert (Eb : bshape [n; 1] [1; m] = Some [n; m]).
  { unfold bshape. cbn. destruct n as [|[|n]]; destruct m as [|[|m]]; reflexivity. }
  rewrite Eb. cbn [bind]. unfold reshape.
  replace (prodl [n * m]) with (prodl [n; m]) by (cbn; lia).
  rewrite shape_tab, Nat.eqb_refl. set (T := tab _ _).
  eexists; split; [reflexivity|]. split; [split|].
  - unfold wf, T. cbn [shape data tab]. rewrite map_length, length_indices. cbn. lia.
  - reflexivity.
  - intros i j Hi Hj.
    transitivity (get T [i; j]).
    { unfold vget. apply get_flat. unfold T. rewrite shape_tab. cbn. lia. }
    unfold T. rewrite get_tab by (repeat constructor; auto).
    assert (E1 : bidx [n; 1] [i; j] = [i; 0]).
    { unfold bidx; cbn. destruct (Nat.eqb_spec n 1); repeat f_equal; lia. }
    assert (E2 : bidx [1; m] [i; j] = [0; j]).
    { unfold bidx; cbn. destruct (Nat.eqb_spec m 1); repeat f_equal; lia. }
    rewrite E1, E2. f_equal; unfold vget; apply get_flat; [rewrite Su|rewrite Sv]; cbn; lia.
Qed.

Lemma entprod_app As Bs i1 i2 j1 j2 : length i1 = length As -> length j1 = length As ->
  entprod (As ++ Bs) (i1 ++ i2) (j1 ++ j2) = (entprod As i1 j1 * entprod Bs i2 j2)%R.
Proof.
  revert i1 j1; induction As as [|U Us IH]; intros [|i i1] [|j j1] H H'; cbn in *; try lia; [lra|].
  rewrite IH by lia. lra.
Qed.

Lemma kron_fold_ok As : forall a Bs p,
  any_mats As -> is_mat (prodl (map nrows Bs)) (prodl (map ncols Bs)) p ->
  (forall is js, valid is (map nrows Bs) -> valid js (map ncols Bs) ->
     mget p (ravel (map nrows Bs) is) (ravel (map ncols Bs) js) = entprod Bs is js) ->
  exists out, foldM (fun p (q : nat * nd) => kron_binary p (snd q)) (combine (seq a (length As)) As) p = Ok out /\
    is_mat (prodl (map nrows (Bs ++ As))) (prodl (map ncols (Bs ++ As))) out /\
    (forall is js, valid is (map nrows (Bs ++ As)) -> valid js (map ncols (Bs ++ As)) ->
       mget out (ravel (map nrows (Bs ++ As)) is) (ravel (map ncols (Bs ++ As)) js) = entprod (Bs ++ As) is js).
Proof.
  induction As as [|A As IH]; intros a Bs p HA Hp Hent.
  - cbn. exists p. rewrite app_nil_r. auto.
  - inversion HA; subst. cbn [length seq combine foldM fst snd].
    destruct (@kron_binary_ok _ _ _ _ _ _ Hp H1) as (out & E & Ho & Hoent).
    rewrite E. cbn [bind].
    destruct (IH (S a) (Bs ++ [A]) out) as (out' & E' & Ho' & Hent'); auto.
    + rewrite !map_app, !prodl_app. cbn. rewrite !Nat.mul_1_r. exact Ho.
    + intros is js Hi Hj. rewrite !map_app in *. cbn [map] in *.
      apply valid_app in Hi as (i1 & i2 & -> & Hi1 & Hi2).
      apply valid_cons_inv in Hi2 as (i & i3 & -> & Hi & Hi2).
      apply valid_nil_inv in Hi2; subst i3.
      apply valid_app in Hj as (j1 & j2 & -> & Hj1 & Hj2).
      apply valid_cons_inv in Hj2 as (j & j3 & -> & Hj & Hj2).
      apply valid_nil_inv in Hj2; subst j3.
      rewrite !ravel_app by now apply valid_length.
      rewrite !ravel1. cbn [prodl]. rewrite !Nat.mul_1_r.
      rewrite Hoent; auto; [|now apply ravel_lt|now apply ravel_lt].
      rewrite Hent by auto.
      apply valid_length in Hi1, Hj1. rewrite map_length in Hi1, Hj1.
      rewrite entprod_app by auto. cbn. lra.
    + exists out'. rewrite <- app_assoc in Ho', Hent'. auto.
Qed.

Lemma kron_ok As : any_mats As -> As <> [] ->
  exists out, kron As = Ok out /\ is_mat (prodl (map nrows As)) (prodl (map ncols As)) out /\
    (forall is js, valid is (map nrows As) -> valid js (map ncols As) ->
       mget out (ravel (map nrows As) is) (ravel (map ncols As) js) = entprod As is js).
Proof.
  intros HA Hne. destruct As as [|A As]; [congruence|]. inversion HA; subst.
  unfold kron, list_get at 1. cbn [nth_error bind].
  replace (length (A :: As) - 1) with (length As) by (cbn; lia).
  destruct (@kron_fold_ok As 1 [A] A) as (out & E & Ho & Hent); auto.
  - cbn. now rewrite !Nat.mul_1_r.
  - intros is js Hi Hj. cbn in Hi, Hj. apply valid_cons_inv in Hi as (i & i' & -> & Hi & Hv).
    apply valid_nil_inv in Hv; subst. apply valid_cons_inv in Hj as (j & j' & -> & Hj & Hv).
    apply valid_nil_inv in Hv; subst. cbn. rewrite Rmult_1_r. f_equal; lia.
  - exists out. split; [|split; auto].
    rewrite <- E. apply (foldM_list_get (fun i p f => kron_binary p f) [A] As A).
Qed.

Lemma names_axis_py N z k : names_axis N z k <-> py_index N z = Some k.
Proof.
  unfold names_axis. split.
  - intros [H [-> | ->]]; [now apply py_index_nat|now apply py_index_neg].
  - intros H. apply py_index_Some in H. lia.
Qed.
