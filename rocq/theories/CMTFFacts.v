(** Lemmas about CMTF_ALS. *)
From Verif Require Export CMTF CMTFSpec CPFit.
Set Implicit Arguments.
Unset Strict Implicit.
Local Open Scope R_scope.

(** *** The dictionary from modes to matrices *)
Fixpoint positions (k : Z) (l : list Z) (a : nat) : list nat :=
  match l with
  | [] => []
  | x :: l' => if (k =? x)%Z then a :: positions k l' (S a) else positions k l' (S a)
  end.

Lemma dict_find_add k k' i d :
  dict_find k (dict_add k' i d) =
  if (k =? k')%Z then Some (match dict_find k' d with Some l => l ++ [i] | None => [i] end) else dict_find k d.
Proof.
  induction d as [|[k1 l1] d IH]; cbn [dict_add dict_find].
  - destruct (k =? k')%Z; reflexivity.
  - destruct (Z.eqb_spec k' k1) as [<-|Hne]; cbn [dict_find].
    + destruct (Z.eqb_spec k k') as [->|]; reflexivity.
    + rewrite IH. destruct (Z.eqb_spec k k1) as [->|]; [|reflexivity].
      destruct (Z.eqb_spec k1 k'); [congruence|reflexivity].
Qed.

Lemma dict_find_fold k modes : forall a d,
  dict_find k (fold_left (fun d '(i, cm) => dict_add cm i d) (combine (seq a (length modes)) modes) d) =
  match dict_find k d with
  | Some l => Some (l ++ positions k modes a)
  | None => match positions k modes a with [] => None | l => Some l end
  end.
Proof.
  induction modes as [|x modes IH]; intros a d; cbn [length seq combine fold_left positions].
  - destruct (dict_find k d); [now rewrite app_nil_r|reflexivity].
  - rewrite IH, dict_find_add. destruct (Z.eqb_spec k x) as [->|Hne].
    + destruct (dict_find x d) as [l|]; [now rewrite <- app_assoc|reflexivity].
    + reflexivity.
Qed.

Lemma dict_find_modes k modes :
  dict_find k (mode_to_cm_idx modes) = match positions k modes 0 with [] => None | l => Some l end.
Proof. unfold mode_to_cm_idx. rewrite dict_find_fold. reflexivity. Qed.

Lemma in_positions k l : forall a i, In i (positions k l a) <-> (a <= i)%nat /\ nth_error l (i - a) = Some k.
Proof.
  induction l as [|x l IH]; intros a i; cbn [positions].
  - split; [intros []|]. intros [_ H]. destruct (i - a)%nat; discriminate.
  - assert (Hrec : In i (positions k l (S a)) <-> (S a <= i)%nat /\ nth_error (x :: l) (i - a) = Some k).
    { rewrite IH. split; intros [H1 H2]; (split; [lia|]); replace (i - a)%nat with (S (i - S a)) in * by lia; exact H2. }
    destruct (Z.eqb_spec k x) as [->|Hne]; cbn [In]; rewrite Hrec.
    + split.
      * intros [<-|[H1 H2]]; [split; [lia|now rewrite Nat.sub_diag]|split; [lia|auto]].
      * intros [H1 H2]. destruct (Nat.eq_dec a i); [auto|right; split; [lia|auto]].
    + split; intros [H1 H2]; (split; [|auto]); [lia|].
      destruct (Nat.eq_dec a i) as [->|]; [|lia]. rewrite Nat.sub_diag in H2. cbn in H2. congruence.
Qed.

(** The list for a key starts with the first position of that key. *)
Lemma positions_head k l : forall a i rest, positions k l a = i :: rest ->
  (a <= i)%nat /\ nth_error l (i - a) = Some k /\ forall j, (j < i - a)%nat -> nth_error l j <> Some k.
Proof.
  induction l as [|x l IH]; intros a i rest E; cbn [positions] in E; [discriminate|].
  destruct (Z.eqb_spec k x) as [->|Hne].
  - injection E as <- <-. rewrite Nat.sub_diag. split; [lia|]. split; [reflexivity|]. lia.
  - destruct (IH _ _ _ E) as (H1 & H2 & H3). split; [lia|].
    replace (i - a)%nat with (S (i - S a)) by lia. split; [exact H2|].
    intros [|j] Hj; cbn; [congruence|apply H3; lia].
Qed.

(** Keys of the dictionary *)
Lemma dict_add_keys k i d : map fst (dict_add k i d) =
  if existsb (Z.eqb k) (map fst d) then map fst d else map fst d ++ [k].
Proof.
  induction d as [|[k1 l1] d IH]; [reflexivity|]. cbn [dict_add map fst existsb].
  destruct (k =? k1)%Z; [reflexivity|]. cbn [map fst orb]. rewrite IH. destruct (existsb _ _); reflexivity.
Qed.
Lemma nodup_snoc {A} (l : list A) x : NoDup l -> ~ In x l -> NoDup (l ++ [x]).
Proof.
  induction 1 as [|y l Hy Hl IH]; intros Hx; cbn; [repeat constructor; auto|].
  cbn in Hx. constructor; [|apply IH; auto]. rewrite in_app_iff. cbn. intuition.
Qed.
Lemma dict_nodup modes : forall a d, NoDup (map fst d) ->
  NoDup (map fst (fold_left (fun d '(i, cm) => dict_add cm i d) (combine (seq a (length modes)) modes) d)).
Proof.
  induction modes as [|x modes IH]; intros a d H; cbn [length seq combine fold_left]; [exact H|].
  apply IH. rewrite dict_add_keys. destruct (existsb _ _) eqn:E; [exact H|].
  apply nodup_snoc; [exact H|]. intros Hy. assert (existsb (Z.eqb x) (map fst d) = true).
  { apply existsb_exists. exists x. split; auto. apply Z.eqb_refl. }
  congruence.
Qed.
Lemma dict_in_find k l d : NoDup (map fst d) -> In (k, l) d -> dict_find k d = Some l.
Proof.
  induction d as [|[k1 l1] d IH]; intros H Hin; [destruct Hin|]. cbn [map fst] in H. inversion H; subst.
  cbn [dict_find]. destruct Hin as [E|Hin].
  - injection E as -> ->. now rewrite Z.eqb_refl.
  - destruct (Z.eqb_spec k k1) as [->|]; [|auto]. exfalso. apply H2. now apply (in_map fst) in Hin.
Qed.

(** Every entry starts with the first position of its mode. *)
Definition first_pos (modes : list Z) (k : Z) (i : nat) : Prop :=
  nth_error modes i = Some k /\ forall j, (j < i)%nat -> nth_error modes j <> Some k.
Lemma find_first modes k l : dict_find k (mode_to_cm_idx modes) = Some l ->
  exists i rest, l = i :: rest /\ first_pos modes k i.
Proof.
  rewrite dict_find_modes. destruct (positions k modes 0) as [|i rest] eqn:E; [discriminate|].
  intros El. injection El as <-. destruct (positions_head E) as (_ & H2 & H3). rewrite Nat.sub_0_r in *.
  exists i, rest. split; auto. split; auto.
Qed.
Lemma entry_first modes k l : In (k, l) (mode_to_cm_idx modes) -> exists i rest, l = i :: rest /\ first_pos modes k i.
Proof. intros H. apply find_first. apply dict_in_find; auto. apply dict_nodup. constructor. Qed.

(** Modes all different: one entry for each *)
Lemma dict_add_new k i d : ~ In k (map fst d) -> dict_add k i d = d ++ [(k, [i])].
Proof.
  induction d as [|[k1 l1] d IH]; intros H; [reflexivity|]. cbn [map fst In] in H. cbn [dict_add].
  destruct (Z.eqb_spec k k1) as [->|]; [tauto|]. rewrite IH by tauto. reflexivity.
Qed.
Lemma dict_distinct modes : forall a d, NoDup modes -> (forall k, In k modes -> ~ In k (map fst d)) ->
  fold_left (fun d '(i, cm) => dict_add cm i d) (combine (seq a (length modes)) modes) d =
  d ++ combine modes (map (fun i => [i]) (seq a (length modes))).
Proof.
  induction modes as [|x modes IH]; intros a d HN Hd; cbn [length seq combine fold_left map].
  - now rewrite app_nil_r.
  - inversion HN as [|? ? Hx HN']; subst. rewrite dict_add_new by (apply Hd; now left). rewrite IH; auto.
    + now rewrite <- app_assoc.
    + intros k Hk. rewrite map_app, in_app_iff. cbn [map fst In]. intros [H|[H|[]]]; [|congruence].
      apply (Hd k); [now right|auto].
Qed.
Lemma dict_of_distinct modes : NoDup modes ->
  mode_to_cm_idx modes = combine modes (map (fun i => [i]) (seq 0 (length modes))).
Proof. intros H. unfold mode_to_cm_idx. rewrite dict_distinct; auto. Qed.

(** *** States in which everything fits together *)
Record cm_ok (K : nat) (ms : list nat) (s : cmtf_state) : Prop :=
  { ck_data : data_ok (cp_X (cm_cp s));
    ck_fac : factors_ok K (cp_X (cm_cp s)) (cm_fms s);
    ck_w : is_vec K (kt_w (cm_dec s));
    ck_modes : cm_modes s = map Z.of_nat ms;
    ck_coup : coupling_ok K (cp_X (cm_cp s)) ms (cm_V s) (cm_Y s) }.

Lemma ck_len K ms s : cm_ok K ms s -> length (cm_fms s) = length (shape (cp_X (cm_cp s))).
Proof. intros H. destruct (ck_fac H) as [_ E]. now apply mode_len. Qed.

Lemma py_index_nat n k : (k < n)%nat -> py_index n (Z.of_nat k) = Some k.
Proof.
  intros H. unfold py_index. destruct (Z.leb_spec 0 (Z.of_nat k)); [|lia].
  destruct (Z.ltb_spec (Z.of_nat k) (Z.of_nat n)); [|lia]. cbn. now rewrite Nat2Z.id.
Qed.
Lemma py_get_nat {A} (l : list A) k d : (k < length l)%nat -> py_get l (Z.of_nat k) = Ok (nth k l d).
Proof. intros H. unfold py_get. rewrite py_index_nat by auto. now apply list_get_nth. Qed.

Lemma mapM_ext_ok {A B} (f : A -> res B) (g : A -> B) l : (forall x, In x l -> f x = Ok (g x)) -> mapM f l = Ok (map g l).
Proof.
  induction l as [|x l IH]; intros H; cbn [mapM map]; [reflexivity|].
  rewrite (H x) by (now left). cbn [bind]. rewrite IH by (intros; apply H; now right). reflexivity.
Qed.

Lemma coupled_factors_ok K ms s : cm_ok K ms s ->
  coupled_factor_matrices s = Ok (map (fun m => nth m (cm_fms s) m0) ms).
Proof.
  intros H. unfold coupled_factor_matrices. rewrite (ck_modes H).
  rewrite (@mapM_ext_ok _ _ _ (fun z => nth (Z.to_nat z) (cm_fms s) m0)).
  - rewrite map_map. f_equal. apply map_ext. intros m. now rewrite Nat2Z.id.
  - intros z Hz. apply in_map_iff in Hz as (m & <- & Hm). rewrite Nat2Z.id. apply py_get_nat.
    rewrite (ck_len H). destruct (In_nth _ _ 0%nat Hm) as (i & Hi & <-). now apply (ck_coup H).
Qed.

Lemma mat_sse_norm K n U V Y : is_mat n K U -> is_mat (ncols Y) K V -> is_mat n (ncols Y) Y ->
  exists Yh E, matmul U (transp V) = Ok Yh /\ np_sub Y Yh = Ok E /\ norm E ^ 2 = mat_sse K U V Y.
Proof.
  intros HU HV HY. rewrite (matmul_ok HU (is_mat_transp HV)). eexists. eexists. split; [reflexivity|].
  unfold np_sub. rewrite (broadcast_mat Rminus HY (is_mat_tab2 _ _ _)). split; [reflexivity|].
  rewrite norm_pow2, (norm2_mat (is_mat_tab2 _ _ _)). unfold mat_sse. rewrite (is_mat_nrows HY).
  apply sum_ext. intros i Hi. apply sum_ext. intros j Hj. rewrite !mget_tab2 by auto.
  assert (E : sum K (fun k => mget U i k * mget (transp V) k j) = sum K (fun r => mget U i r * mget V j r)).
  { apply sum_ext. intros r Hr. now rewrite (mget_transp HV). }
  rewrite E. ring.
Qed.

Lemma nth_skip {A} (l : list A) d a : (a < length l)%nat -> skipn a l = nth a l d :: skipn (S a) l.
Proof.
  revert a. induction l as [|x l IH]; intros [|a] H; cbn in H; try lia; [reflexivity|].
  cbn [skipn nth]. rewrite IH by lia. reflexivity.
Qed.

Lemma coupled_SSE_ok K ms s : cm_ok K ms s ->
  coupled_SSE s = Ok (mats_sse K (cm_fms s) ms (cm_V s) (cm_Y s)).
Proof.
  intros H. unfold coupled_SSE, reconstructed_coupled_matrices. rewrite (coupled_factors_ok H). cbn [bind].
  destruct (ck_coup H) as (HV & HY & HC). unfold mats_sse.
  set (term i := mat_sse K (nth (nth i ms 0%nat) (cm_fms s) m0) (nth i (cm_V s) m0) (nth i (cm_Y s) m0)).
  assert (G : forall n a acc, (a + n = length ms)%nat ->
    exists Rs, mapM (fun '(scores, loadings) => matmul scores (transp loadings))
      (combine (map (fun m => nth m (cm_fms s) m0) (skipn a ms)) (skipn a (cm_V s))) = Ok Rs /\
    foldM (fun acc '(Y, Yh) => do E <- np_sub Y Yh ; Ok (acc + norm E ^ 2)) (combine (skipn a (cm_Y s)) Rs) acc =
      Ok (acc + sum n (fun i => term (a + i)%nat))).
  { induction n as [|n IH]; intros a acc Ha.
    - exists []. rewrite !skipn_all2 by lia. cbn [map combine mapM foldM]. split; [reflexivity|]. f_equal. cbn. ring.
    - destruct (HC a ltac:(lia)) as (Hm & HYa & HVa).
      rewrite (@nth_skip _ ms 0%nat a), (@nth_skip _ (cm_V s) m0 a), (@nth_skip _ (cm_Y s) m0 a) by lia.
      destruct (mat_sse_norm (rows_nth (ck_fac H) Hm) HVa HYa) as (Yh & E & E1 & E2 & E3).
      destruct (IH (S a) (acc + term a) ltac:(lia)) as (Rs & EM & EF).
      exists (Yh :: Rs). cbn [map combine mapM]. rewrite E1. cbn [bind]. rewrite EM. split; [reflexivity|].
      cbn [combine foldM]. rewrite E2. cbn [bind]. rewrite E3. fold (term a). rewrite EF. f_equal.
      change (S n) with (1 + n)%nat. rewrite sum_split. cbn [seq sumf].
      replace (a + 0)%nat with a by lia. rewrite Rplus_0_r, Rplus_assoc. do 2 f_equal.
      apply sum_ext. intros i Hi. f_equal. lia. }
  destruct (G (length ms) 0%nat 0 ltac:(lia)) as (Rs & EM & EF). cbn [skipn] in EM, EF. rewrite EM. cbn [bind].
  rewrite EF. f_equal. rewrite Rplus_0_l. reflexivity.
Qed.

Lemma cmtf_SSE_ok env K ms s : cm_ok K ms s ->
  cmtf_SSE env s = Ok (coupled_loss K (cp_X (cm_cp s)) (cm_fms s) (vget (kt_w (cm_dec s))) ms (cm_V s) (cm_Y s)).
Proof.
  intros H. destruct (ck_fac H) as [HU Hr]. destruct (ck_data H) as (HX & H2 & _). unfold cmtf_SSE.
  destruct (@kt_construct_of (env_junk env) K (cm_dec s)) as (T & ET & HT & HTs & HTe); auto.
  { apply (ck_w H). } { change (kt_fms (cm_dec s)) with (cm_fms s). now rewrite (ck_len H). }
  rewrite ET. cbn [bind]. change (kt_fms (cm_dec s)) with (cm_fms s) in *. rewrite Hr in HTs, HTe.
  unfold np_sub. rewrite broadcast_same by auto. cbn [bind]. rewrite (coupled_SSE_ok H). cbn [bind]. f_equal.
  unfold coupled_loss. f_equal. rewrite norm2_sq by apply wf_tab. rewrite shape_tab. unfold sse. apply sumf_ext.
  intros idx Hi. apply in_indices in Hi. rewrite get_tab by auto. now rewrite HTe.
Qed.
