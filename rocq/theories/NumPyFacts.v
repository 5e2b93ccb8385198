(** Lemmas about the NumPy model. *)
From Verif Require Export NumPy.
Set Implicit Arguments.
Unset Strict Implicit.

Lemma valid_length idx sh : valid idx sh -> length idx = length sh.
Proof. intros H; induction H; cbn; auto. Qed.

Lemma valid_nil_inv idx : valid idx [] -> idx = [].
Proof. intros H; inversion H; auto. Qed.

Lemma valid_cons_inv idx n sh : valid idx (n :: sh) ->
  exists i idx', idx = i :: idx' /\ i < n /\ valid idx' sh.
Proof. intros H; inversion H; subst; eauto. Qed.

Lemma valid_cons i idx n sh : i < n -> valid idx sh -> valid (i :: idx) (n :: sh).
Proof. constructor; auto. Qed.

Lemma valid_nil : valid [] [].
Proof. constructor. Qed.

Lemma valid1 i n : i < n -> valid [i] [n].
Proof. intros; repeat constructor; auto. Qed.

Lemma valid2 i j n m : i < n -> j < m -> valid [i; j] [n; m].
Proof. intros; repeat constructor; auto. Qed.

Lemma ravel_lt sh idx : valid idx sh -> ravel sh idx < prodl sh.
Proof.
  revert idx; induction sh as [|n sh IH]; intros idx H.
  - apply valid_nil_inv in H; subst. cbn. lia.
  - apply valid_cons_inv in H as (i & idx' & -> & Hi & Hv). cbn.
    apply IH in Hv. nia.
Qed.

Lemma length_indices sh : length (indices sh) = prodl sh.
Proof.
  induction sh as [|n sh IH]; cbn; auto.
  rewrite length_flat_map_const with (len := prodl sh).
  - now rewrite seq_length.
  - intros; rewrite map_length; auto.
Qed.

Lemma in_indices idx sh : In idx (indices sh) <-> valid idx sh.
Proof.
  revert idx; induction sh as [|n sh IH]; intros idx; cbn.
  - split; [intros [<-|[]]; constructor|]. intros H; apply valid_nil_inv in H; auto.
  - rewrite in_flat_map. split.
    + intros (i & Hi & Hm). apply in_map_iff in Hm as (idx' & <- & Hm).
      apply in_seq in Hi. apply valid_cons; [lia|]. now apply IH.
    + intros H. apply valid_cons_inv in H as (i & idx' & -> & Hi & Hv).
      exists i. split; [apply in_seq; lia|]. apply in_map. now apply IH.
Qed.

Lemma nth_ravel_indices sh idx : valid idx sh -> nth (ravel sh idx) (indices sh) [] = idx.
Proof.
  revert idx; induction sh as [|n sh IH]; intros idx H.
  - apply valid_nil_inv in H; subst. reflexivity.
  - apply valid_cons_inv in H as (i & idx' & -> & Hi & Hv). cbn [ravel indices].
    rewrite nth_flat_map_const with (len := prodl sh) (b0 := 0).
    + rewrite seq_nth by auto. cbn.
      rewrite nth_indep with (d' := i :: []).
      * rewrite map_nth. now rewrite IH.
      * rewrite map_length, length_indices. now apply ravel_lt.
    + intros; rewrite map_length; apply length_indices.
    + now rewrite seq_length.
    + now apply ravel_lt.
Qed.

Lemma ravel_nth_indices sh k : k < prodl sh -> ravel sh (nth k (indices sh) []) = k.
Proof.
  revert k; induction sh as [|n sh IH]; intros k H.
  - cbn in *. assert (k = 0) by lia. now subst.
  - cbn [prodl] in H.
    assert (HP : prodl sh <> 0) by (intros E; rewrite E in H; lia).
    pose proof (Nat.div_mod k (prodl sh) HP) as Hk.
    pose proof (Nat.mod_upper_bound k (prodl sh) HP) as Hm.
    assert (Hd : k / prodl sh < n) by (apply Nat.div_lt_upper_bound; nia).
    rewrite Hk at 1. rewrite (Nat.mul_comm (prodl sh)).
    cbn [indices].
    rewrite nth_flat_map_const with (len := prodl sh) (b0 := 0).
    + rewrite seq_nth by auto. cbn [Nat.add].
      rewrite nth_indep with (d' := (k / prodl sh) :: []).
      * rewrite map_nth. cbn [ravel]. rewrite IH by auto. lia.
      * rewrite map_length, length_indices. auto.
    + intros; rewrite map_length; apply length_indices.
    + now rewrite seq_length.
    + auto.
Qed.

Lemma valid_nth_indices sh k : k < prodl sh -> valid (nth k (indices sh) []) sh.
Proof.
  intros H. apply in_indices. apply nth_In. now rewrite length_indices.
Qed.

Lemma ravel_inj sh i j : valid i sh -> valid j sh -> ravel sh i = ravel sh j -> i = j.
Proof.
  intros Hi Hj E. rewrite <- (nth_ravel_indices Hi), <- (nth_ravel_indices Hj). now rewrite E.
Qed.

Lemma shape_tab sh f : shape (tab sh f) = sh.
Proof. reflexivity. Qed.

Lemma wf_tab sh f : wf (tab sh f).
Proof. unfold wf, tab; cbn. now rewrite map_length, length_indices. Qed.
#[export] Hint Resolve wf_tab : core.

Lemma get_tab sh f idx : valid idx sh -> get (tab sh f) idx = f idx.
Proof.
  intros H. unfold get, tab; cbn.
  rewrite nth_indep with (d' := f []).
  - rewrite map_nth. now rewrite nth_ravel_indices.
  - rewrite map_length, length_indices. now apply ravel_lt.
Qed.

Lemma is_mat_tab2 n m f : is_mat n m (tab2 n m f).
Proof. split; [apply wf_tab|reflexivity]. Qed.
#[export] Hint Resolve is_mat_tab2 : core.

Lemma is_vec_tab1 n f : is_vec n (tab1 n f).
Proof. split; [apply wf_tab|reflexivity]. Qed.
#[export] Hint Resolve is_vec_tab1 : core.

Lemma mget_tab2 n m f i j : i < n -> j < m -> mget (tab2 n m f) i j = f i j.
Proof. intros. unfold mget, tab2. rewrite get_tab; auto. now apply valid2. Qed.

Lemma vget_tab1 n f i : i < n -> vget (tab1 n f) i = f i.
Proof. intros. unfold vget, tab1. rewrite get_tab; auto. now apply valid1. Qed.

Lemma data_get a : wf a -> data a = map (get a) (indices (shape a)).
Proof.
  intros H. unfold wf in H.
  apply list_ext with (d := 0%R).
  - now rewrite map_length, length_indices.
  - intros k Hk. rewrite H in Hk.
    rewrite nth_indep with (d' := get a []) (l := map _ _).
    + rewrite map_nth. unfold get. now rewrite ravel_nth_indices.
    + now rewrite map_length, length_indices.
Qed.

Lemma tab_get a : wf a -> tab (shape a) (get a) = a.
Proof. intros H. unfold tab. rewrite <- data_get by auto. now destruct a. Qed.

Lemma nd_ext a b : wf a -> wf b -> shape a = shape b ->
  (forall idx, valid idx (shape a) -> get a idx = get b idx) -> a = b.
Proof.
  intros Ha Hb Hs Hg. rewrite <- (tab_get Ha), <- (tab_get Hb).
  unfold tab. rewrite <- Hs. f_equal. apply map_ext_in.
  intros idx Hi. apply Hg. now apply in_indices.
Qed.

Lemma tab_ext sh f g : (forall idx, valid idx sh -> f idx = g idx) -> tab sh f = tab sh g.
Proof.
  intros H. unfold tab. f_equal. apply map_ext_in. intros; apply H. now apply in_indices.
Qed.

Lemma tab2_ext n m f g : (forall i j, i < n -> j < m -> f i j = g i j) -> tab2 n m f = tab2 n m g.
Proof.
  intros H. unfold tab2. apply tab_ext. intros idx Hv.
  apply valid_cons_inv in Hv as (i & idx' & -> & Hi & Hv).
  apply valid_cons_inv in Hv as (j & idx'' & -> & Hj & Hv). cbn. auto.
Qed.

Lemma tab1_ext n f g : (forall i, i < n -> f i = g i) -> tab1 n f = tab1 n g.
Proof.
  intros H. unfold tab1. apply tab_ext. intros idx Hv.
  apply valid_cons_inv in Hv as (i & idx' & -> & Hi & Hv). cbn. auto.
Qed.

Lemma mat_ext n m a b : is_mat n m a -> is_mat n m b ->
  (forall i j, i < n -> j < m -> mget a i j = mget b i j) -> a = b.
Proof.
  intros [Ha Sa] [Hb Sb] H. apply nd_ext; auto; [congruence|].
  rewrite Sa. intros idx Hv.
  apply valid_cons_inv in Hv as (i & idx' & -> & Hi & Hv).
  apply valid_cons_inv in Hv as (j & idx'' & -> & Hj & Hv).
  apply valid_nil_inv in Hv; subst. now apply H.
Qed.

Lemma vec_ext n a b : is_vec n a -> is_vec n b ->
  (forall i, i < n -> vget a i = vget b i) -> a = b.
Proof.
  intros [Ha Sa] [Hb Sb] H. apply nd_ext; auto; [congruence|].
  rewrite Sa. intros idx Hv.
  apply valid_cons_inv in Hv as (i & idx' & -> & Hi & Hv).
  apply valid_nil_inv in Hv; subst. now apply H.
Qed.

Lemma mat_eta n m a : is_mat n m a -> a = tab2 n m (mget a).
Proof.
  intros H. eapply mat_ext; eauto. intros. now rewrite mget_tab2.
Qed.

Lemma vec_eta n a : is_vec n a -> a = tab1 n (vget a).
Proof.
  intros H. eapply vec_ext; eauto. intros. now rewrite vget_tab1.
Qed.

(** *** Sums over data *)
Lemma sumf_data a f : wf a -> sumf (data a) f = sumf (indices (shape a)) (fun idx => f (get a idx)).
Proof. intros H. rewrite data_get by auto. now rewrite sumf_map. Qed.

Lemma sumf_indices2 n m f :
  sumf (indices [n; m]) f = sum n (fun i => sum m (fun j => f [i; j])).
Proof.
  cbn [indices]. rewrite sumf_flat_map. apply sum_ext. intros i Hi.
  rewrite sumf_map, sumf_flat_map. apply sum_ext. intros j Hj. cbn. lra.
Qed.

Lemma sumf_indices1 n f : sumf (indices [n]) f = sum n (fun i => f [i]).
Proof.
  cbn [indices]. rewrite sumf_flat_map. apply sum_ext. intros i Hi. cbn. lra.
Qed.

Lemma sumf_indices_cons n sh f :
  sumf (indices (n :: sh)) f = sum n (fun i => sumf (indices sh) (fun idx => f (i :: idx))).
Proof.
  cbn [indices]. rewrite sumf_flat_map. apply sum_ext. intros i Hi. now rewrite sumf_map.
Qed.

Lemma sumf_indices_seq sh f :
  sumf (indices sh) f = sum (prodl sh) (fun k => f (nth k (indices sh) [])).
Proof.
  rewrite <- length_indices. generalize (indices sh) as l.
  induction l as [|x l IH]; [reflexivity|].
  cbn [length]. rewrite sum_S_first. cbn. now rewrite IH.
Qed.

Lemma norm2_get a : wf a -> norm2 a = sumf (indices (shape a)) (fun idx => (get a idx * get a idx)%R).
Proof. intros. unfold norm2. now rewrite sumf_data. Qed.

Lemma norm2_mat n m a : is_mat n m a ->
  norm2 a = sum n (fun i => sum m (fun j => (mget a i j * mget a i j)%R)).
Proof. intros [H Hs]. rewrite norm2_get, Hs, sumf_indices2 by auto. reflexivity. Qed.

Lemma norm2_nonneg a : (0 <= norm2 a)%R.
Proof. apply sumf_nonneg. intros. nra. Qed.

Lemma norm_sq a : (norm a * norm a)%R = norm2 a.
Proof. unfold norm. apply sqrt_sqrt, norm2_nonneg. Qed.

Lemma norm_pow2 a : (norm a ^ 2)%R = norm2 a.
Proof. cbn. rewrite Rmult_1_r. apply norm_sq. Qed.

Lemma colnorm2_nonneg a r : (0 <= colnorm2 a r)%R.
Proof. apply sumf_nonneg. intros. nra. Qed.

Lemma colnorm_nonneg a r : (0 <= colnorm a r)%R.
Proof. apply sqrt_pos. Qed.

Lemma colnorm_sq a r : (colnorm a r * colnorm a r)%R = colnorm2 a r.
Proof. unfold colnorm. apply sqrt_sqrt, colnorm2_nonneg. Qed.

(** Splitting the sum over all index tuples along one axis. *)
Lemma sumf_indices_axis n sh f : n < length sh ->
  sumf (indices sh) f =
  sum (nth n sh 0) (fun i => sumf (indices (remove_at n sh)) (fun rest => f (insert_at n i rest))).
Proof.
  revert n f; induction sh as [|s sh IH]; intros [|n] f H; cbn in H; try lia.
  - cbn [nth remove_at]. rewrite sumf_indices_cons. reflexivity.
  - cbn [nth remove_at]. rewrite sumf_indices_cons.
    transitivity (sum s (fun i => sum (nth n sh 0) (fun i0 =>
       sumf (indices (remove_at n sh)) (fun rest => f (i :: insert_at n i0 rest))))).
    + apply sum_ext. intros i Hi. apply (IH n (fun idx => f (i :: idx))). lia.
    + rewrite sumf_swap. apply sum_ext. intros i0 Hi0.
      rewrite sumf_indices_cons. apply sum_ext. intros i Hi. reflexivity.
Qed.

Lemma valid_remove_at n idx sh : valid idx sh -> valid (remove_at n idx) (remove_at n sh).
Proof.
  intros H; revert n; induction H; intros [|n]; cbn; try constructor; auto.
  apply IHForall2.
Qed.

Lemma valid_nth n idx sh : valid idx sh -> n < length sh -> nth n idx 0 < nth n sh 0.
Proof.
  intros H; revert n; induction H; intros [|n] Hn; cbn in *; try lia.
  apply IHForall2. lia.
Qed.

Lemma valid_insert_at n i idx sh : n < length sh -> i < nth n sh 0 -> valid idx (remove_at n sh) ->
  valid (insert_at n i idx) sh.
Proof.
  revert n idx; induction sh as [|s sh IH]; intros [|n] idx Hn Hi Hv; cbn in *; try lia.
  - now apply valid_cons.
  - apply valid_cons_inv in Hv as (j & idx' & -> & Hj & Hv).
    cbn. apply valid_cons; auto. apply IH; auto. lia.
Qed.

Lemma valid_insert_both n i s idx sh : n <= length sh -> i < s -> valid idx sh ->
  valid (insert_at n i idx) (insert_at n s sh).
Proof.
  intros Hn Hi H. apply valid_insert_at.
  - rewrite length_insert_at. lia.
  - now rewrite nth_insert_at.
  - now rewrite remove_insert_at.
Qed.

(** *** Matrix product *)
Lemma matmul_ok n p m a b : is_mat n p a -> is_mat p m b ->
  matmul a b = Ok (tab2 n m (fun i j => sum p (fun k => (mget a i k * mget b k j)%R))).
Proof.
  intros [Ha Sa] [Hb Sb]. unfold matmul. rewrite Sa, Sb, Nat.eqb_refl. reflexivity.
Qed.

Lemma is_mat_transp n m a : is_mat n m a -> is_mat m n (transp a).
Proof. intros [H S]. split; [apply wf_tab|]. unfold transp. now rewrite S. Qed.
#[export] Hint Resolve is_mat_transp : core.

Lemma mget_transp n m a i j : is_mat n m a -> i < n -> j < m -> mget (transp a) j i = mget a i j.
Proof.
  intros [H S] Hi Hj. unfold mget, transp. rewrite S. cbn [rev app].
  rewrite get_tab; [reflexivity|]. now apply valid2.
Qed.

(** *** Broadcasting patterns *)
Lemma clip_valid sh idx : valid idx sh -> clip sh idx = idx.
Proof.
  intros H; induction H; cbn; auto. rewrite IHForall2.
  destruct (Nat.eqb_spec y 1); auto. f_equal. lia.
Qed.

Lemma bidx_same sh idx : valid idx sh -> bidx sh idx = idx.
Proof.
  intros H. unfold bidx. rewrite (valid_length H), Nat.sub_diag. cbn. now apply clip_valid.
Qed.

Lemma bshape_rev_same s : bshape_rev s s = Some s.
Proof. induction s as [|x s IH]; cbn; auto. now rewrite IH, Nat.eqb_refl. Qed.

Lemma bshape_same s : bshape s s = Some s.
Proof. unfold bshape. rewrite bshape_rev_same. cbn. now rewrite rev_involutive. Qed.

Lemma broadcast_same op a b : shape a = shape b ->
  broadcast op a b = Ok (tab (shape a) (fun idx => op (get a idx) (get b idx))).
Proof.
  intros H. unfold broadcast. rewrite <- H, bshape_same. f_equal.
  apply tab_ext. intros idx Hv. now rewrite bidx_same.
Qed.

Lemma broadcast_mat op n m a b : is_mat n m a -> is_mat n m b ->
  broadcast op a b = Ok (tab2 n m (fun i j => op (mget a i j) (mget b i j))).
Proof.
  intros [Ha Sa] [Hb Sb]. rewrite broadcast_same by congruence. rewrite Sa.
  unfold tab2. f_equal. apply tab_ext. intros idx Hv.
  apply valid_cons_inv in Hv as (i & idx' & -> & Hi & Hv).
  apply valid_cons_inv in Hv as (j & idx'' & -> & Hj & Hv).
  apply valid_nil_inv in Hv; subst. reflexivity.
Qed.

(** a (1, m)-row or a length-m vector against an (n, m)-matrix *)
Lemma broadcast_row_mat op n m a b : wf a -> shape a = [1; m] -> is_mat n m b ->
  broadcast op a b = Ok (tab2 n m (fun i j => op (mget a 0 j) (mget b i j))).
Proof.
  intros Ha Sa [Hb Sb]. unfold broadcast. rewrite Sa, Sb.
  assert (E : bshape [1; m] [n; m] = Some [n; m]).
  { unfold bshape. cbn. rewrite Nat.eqb_refl. destruct n as [|[|n]]; cbn; reflexivity. }
  rewrite E. unfold tab2. f_equal. apply tab_ext. intros idx Hv.
  rewrite (@bidx_same [n; m]) by auto.
  apply valid_cons_inv in Hv as (i & idx' & -> & Hi & Hv).
  apply valid_cons_inv in Hv as (j & idx'' & -> & Hj & Hv).
  apply valid_nil_inv in Hv; subst.
  unfold bidx. cbn. unfold mget. destruct (Nat.eqb_spec m 1); [|reflexivity].
  replace j with 0 by lia. reflexivity.
Qed.

Lemma broadcast_vec_mat op n m a b : is_vec m a -> is_mat n m b ->
  broadcast op a b = Ok (tab2 n m (fun i j => op (vget a j) (mget b i j))).
Proof.
  intros [Ha Sa] [Hb Sb]. unfold broadcast. rewrite Sa, Sb.
  assert (E : bshape [m] [n; m] = Some [n; m]).
  { unfold bshape. cbn. rewrite Nat.eqb_refl. reflexivity. }
  rewrite E. unfold tab2. f_equal. apply tab_ext. intros idx Hv.
  rewrite (@bidx_same [n; m]) by auto.
  apply valid_cons_inv in Hv as (i & idx' & -> & Hi & Hv).
  apply valid_cons_inv in Hv as (j & idx'' & -> & Hj & Hv).
  apply valid_nil_inv in Hv; subst.
  unfold bidx. cbn. unfold vget. destruct (Nat.eqb_spec m 1); [|reflexivity].
  replace j with 0 by lia. reflexivity.
Qed.

Lemma broadcast_mat_vec op n m a b : is_mat n m a -> is_vec m b ->
  broadcast op a b = Ok (tab2 n m (fun i j => op (mget a i j) (vget b j))).
Proof.
  intros [Ha Sa] [Hb Sb]. unfold broadcast. rewrite Sa, Sb.
  assert (E : bshape [n; m] [m] = Some [n; m]).
  { unfold bshape. cbn. rewrite Nat.eqb_refl. reflexivity. }
  rewrite E. unfold tab2. f_equal. apply tab_ext. intros idx Hv.
  rewrite (@bidx_same [n; m]) by auto.
  apply valid_cons_inv in Hv as (i & idx' & -> & Hi & Hv).
  apply valid_cons_inv in Hv as (j & idx'' & -> & Hj & Hv).
  apply valid_nil_inv in Hv; subst.
  unfold bidx. cbn. unfold vget. destruct (Nat.eqb_spec m 1); [|reflexivity].
  replace j with 0 by lia. reflexivity.
Qed.

Lemma broadcast_mat_row op n m a b : is_mat n m a -> wf b -> shape b = [1; m] ->
  broadcast op a b = Ok (tab2 n m (fun i j => op (mget a i j) (mget b 0 j))).
Proof.
  intros [Ha Sa] Hb Sb. unfold broadcast. rewrite Sa, Sb.
  assert (E : bshape [n; m] [1; m] = Some [n; m]).
  { unfold bshape. cbn. rewrite Nat.eqb_refl. destruct n as [|[|n]]; cbn; reflexivity. }
  rewrite E. unfold tab2. f_equal. apply tab_ext. intros idx Hv.
  rewrite (@bidx_same [n; m]) by auto.
  apply valid_cons_inv in Hv as (i & idx' & -> & Hi & Hv).
  apply valid_cons_inv in Hv as (j & idx'' & -> & Hj & Hv).
  apply valid_nil_inv in Hv; subst.
  unfold bidx. cbn. unfold mget. destruct (Nat.eqb_spec m 1); [|reflexivity].
  replace j with 0 by lia. reflexivity.
Qed.

Lemma assign_full_mat n m a b : is_mat n m a -> is_mat n m b -> assign_full a b = Ok b.
Proof.
  intros Ha Hb. unfold assign_full, broadcast_into.
  rewrite (broadcast_mat _ Ha Hb). destruct Ha as [Ha Sa], Hb as [Hb Sb].
  rewrite Sa, Sb, bshape_same.
  destruct (list_eq_dec Nat.eq_dec [n; m] [n; m]) as [_|N]; [|congruence].
  f_equal. symmetry. apply mat_eta. split; auto.
Qed.
