(** The reported error, the projected data and the CP sweeps of Parafac2_ALS. *)
From Verif Require Export Parafac2Facts.
Set Implicit Arguments.
Unset Strict Implicit.
Local Open Scope R_scope.

Definition model_T (K : nat) (A B C : nd) (k i a : nat) : R :=
  sum K (fun r => mget C k r * mget A i r * mget B a r).
Lemma pf_entry_T K A B C k P i j :
  pf_entry K A B C k P i j = mprod K (model_T K A B C k) (fun a j => P j a) i j.
Proof.
  unfold pf_entry, mprod, model_T.
  transitivity (sum K (fun r => sum K (fun a => mget A i r * mget C k r * (P j a * mget B a r)))).
  { apply sum_ext. intros r Hr. now rewrite <- sum_scal_l. }
  rewrite sum_swap. apply sum_ext. intros a Ha. rewrite <- sum_scal_r. apply sum_ext. intros r Hr. ring.
Qed.

(** *** The reported SSE *)
Lemma slice_ok K nI s k : p2_ok K nI s -> (k < length (p2_X s))%nat ->
  p2_slice s k = Ok (tab2 nI (width (p2_X s) k) (pf_entry K (p2_A s) (p2_B s) (p2_C s) k (mget (nth k (p2_Ps s) m0)))).
Proof.
  intros H Hk. unfold p2_slice, np_len. pose proof (ok_C H) as HC. rewrite (proj2 HC). cbn [bind].
  destruct (Nat.ltb_spec k (length (p2_X s))); [|lia]. cbn [bind].
  rewrite (@list_get_ok _ _ k m0) by (unfold p2_Ps; rewrite map_length, (ok_nP H); auto). cbn [bind].
  rewrite (matmul_ok (ok_P H Hk) (ok_B H)). cbn [bind].
  unfold np_mul. rewrite (broadcast_vec_mat Rmult (is_vec_row HC Hk) (is_mat_tab2 _ _ _)). cbn [bind].
  rewrite (matmul_ok (ok_A H) (is_mat_transp (is_mat_tab2 _ _ _))). f_equal. apply tab2_ext. intros i j Hi Hj.
  unfold pf_entry. apply sum_ext. intros r Hr.
  rewrite (mget_transp (is_mat_tab2 _ _ _)) by auto. rewrite mget_tab2 by auto.
  rewrite (vget_row HC) by auto. rewrite mget_tab2 by auto. unfold mprod. ring.
Qed.

Lemma foldM_add {A} (F : A -> res R) (G : A -> R) l : (forall p, In p l -> F p = Ok (G p)) -> forall acc,
  foldM (fun acc p => do e <- F p ; Ok (acc + e)) l acc = Ok (acc + sumf l G).
Proof.
  induction l as [|a l IH]; intros H acc; cbn [foldM sumf].
  - now rewrite Rplus_0_r.
  - rewrite H by (now left). cbn [bind]. rewrite IH by (intros; apply H; now right). f_equal. ring.
Qed.
Lemma combine_map_seq {A B} (d : A) (g : nat -> B) (l : list A) : forall a,
  combine l (map g (seq a (length l))) = map (fun k => (nth (k - a) l d, g k)) (seq a (length l)).
Proof.
  induction l as [|x l IH]; intros a; [reflexivity|]. cbn [length seq map combine]. f_equal.
  - now rewrite Nat.sub_diag.
  - rewrite IH. apply map_ext_in. intros k Hk. apply in_seq in Hk.
    replace (k - a)%nat with (S (k - S a)) by lia. reflexivity.
Qed.

Lemma np_sum_mat n m a : is_mat n m a -> np_sum a = sum n (fun i => sum m (fun j => mget a i j)).
Proof. intros [H Hs]. unfold np_sum. rewrite sumf_data by auto. rewrite Hs, sumf_indices2. reflexivity. Qed.

Lemma p2_SSE_ok K nI s : p2_ok K nI s -> p2_SSE s = Ok (pf_sse K nI (p2_A s) (p2_B s) (p2_C s) (p2_X s) (p2_Ps s)).
Proof.
  intros H. unfold p2_SSE, p2_slices. rewrite (ok_shapes H).
  erewrite mapM_ok.
  2:{ intros k Hk. apply in_seq in Hk. now apply slice_ok with (K := K) (nI := nI); [|lia]. }
  cbn [bind]. rewrite (@combine_map_seq _ _ m0).
  set (Y k := tab2 nI (width (p2_X s) k) (pf_entry K (p2_A s) (p2_B s) (p2_C s) k (mget (nth k (p2_Ps s) m0)))).
  set (l := map _ _).
  transitivity (foldM (fun acc p => do e <- (do E <- np_sub (fst p) (snd p) ; Ok (np_sum (np_map (fun x => x ^ 2) E))) ;
                                    Ok (acc + e)) l 0).
  { clear. generalize 0. induction l as [|[x y] l IH]; intros acc; [reflexivity|]. cbn [foldM fst snd].
    destruct (np_sub x y) as [E|e]; cbn [bind]; [apply IH|reflexivity]. }
  rewrite (@foldM_add _ _ (fun p => dist2 nI (ncols (fst p)) (mget (snd p)) (mget (fst p)))).
  - rewrite Rplus_0_l. f_equal. unfold l. rewrite sumf_map. unfold pf_sse. apply sum_ext. intros k Hk.
    cbn [fst snd]. rewrite Nat.sub_0_r. unfold slice_err. fold (width (p2_X s) k). apply dist2_ext; [|reflexivity].
    intros i j Hi Hj. now rewrite mget_tab2.
  - intros p Hp. unfold l in Hp. apply in_map_iff in Hp as (k & <- & Hk). apply in_seq in Hk. cbn [fst snd].
    rewrite Nat.sub_0_r. pose proof (@ok_X _ _ _ H k ltac:(lia)) as HX.
    unfold np_sub. rewrite (broadcast_mat Rminus HX (is_mat_tab2 _ _ _)). cbn [bind].
    rewrite (np_sum_mat (is_mat_map _ (is_mat_tab2 _ _ _))). f_equal. fold (width (p2_X s) k).
    apply sum_ext. intros i Hi. apply sum_ext. intros j Hj.
    rewrite (mget_map _ (is_mat_tab2 _ _ _)) by auto. rewrite !mget_tab2 by auto. ring.
Qed.

(** *** The projected data *)
Lemma set_last_ok nI nJ nK a k s : wf a -> shape a = [nI; nJ; nK] -> is_mat nI nJ s -> (k < nK)%nat ->
  exists a', set_last a k s = Ok a' /\ wf a' /\ shape a' = [nI; nJ; nK] /\
    forall i j l, (i < nI)%nat -> (j < nJ)%nat -> (l < nK)%nat ->
      get a' [i; j; l] = if Nat.eqb l k then mget s i j else get a [i; j; l].
Proof.
  intros Ha Hs Hm Hk. unfold set_last. rewrite Hs. destruct (Nat.ltb_spec k nK); [|lia].
  assert (Hz : is_mat nI nJ (np_zeros [nI; nJ])) by (split; [apply wf_tab|apply shape_tab]).
  rewrite (assign_full_mat Hz Hm). cbn [bind].
  eexists. split; [reflexivity|]. split; [apply wf_tab|]. split; [apply shape_tab|].
  intros i j l Hi Hj Hl. rewrite get_tab; [reflexivity|]. cbn. repeat constructor; auto.
Qed.

Lemma combine_seq_map {A} (d : A) (l : list A) : forall a,
  combine (seq a (length l)) l = map (fun k => (k, nth (k - a) l d)) (seq a (length l)).
Proof.
  induction l as [|x l IH]; intros a; [reflexivity|]. cbn [length seq map combine]. f_equal.
  - now rewrite Nat.sub_diag.
  - rewrite IH. apply map_ext_in. intros k Hk. apply in_seq in Hk.
    replace (k - a)%nat with (S (k - S a)) by lia. reflexivity.
Qed.
Lemma foldM_map {A B C} (f : C -> B -> res C) (g : A -> B) l : forall c,
  foldM f (map g l) c = foldM (fun c x => f c (g x)) l c.
Proof. induction l as [|x l IH]; intros c; cbn [map foldM]; [reflexivity|]. destruct (f c (g x)); cbn [bind]; auto. Qed.

Lemma projected_ok env ps K nI s : p2_ok K nI s -> ps_rank ps = K ->
  exists PX, p2_projected_X env ps s = Ok PX /\ wf PX /\ shape PX = [nI; K; length (p2_X s)] /\
    forall i q k, (i < nI)%nat -> (q < K)%nat -> (k < length (p2_X s))%nat ->
      get PX [i; q; k] = projected_entry (p2_X s) (p2_Ps s) i q k.
Proof.
  intros H HK. unfold p2_projected_X. rewrite (shape_at_0 (ok_A H)), (shape_at_0 (ok_C H)). cbn [bind]. rewrite HK.
  assert (Hl : length (p2_Ps s) = length (p2_X s)) by (unfold p2_Ps; now rewrite map_length, (ok_nP H)).
  rewrite (@combine_seq_map _ m0), foldM_map, Hl.
  destruct (@foldM_seq_inv nd (fun T k => let '(k, P) := (k, nth (k - 0) (p2_Ps s) m0) in
       do Xk <- list_get (p2_X s) k ; do XP <- matmul Xk P ; set_last T k XP)
     (fun n T => wf T /\ shape T = [nI; K; length (p2_X s)] /\
        forall i q k, (i < nI)%nat -> (q < K)%nat -> (k < n)%nat -> (k < length (p2_X s))%nat ->
          get T [i; q; k] = projected_entry (p2_X s) (p2_Ps s) i q k)
     0%nat (length (p2_X s)) (np_empty (env_junk (pe_cp env) 0%nat) [nI; K; length (p2_X s)])) as (T & ET & HT & HTs & HTe).
  - split; [|split; [reflexivity|lia]]. unfold wf, np_empty. cbn [data shape]. now rewrite map_length, seq_length.
  - intros k T Hk (HT & HTs & HTe). cbn beta iota. rewrite Nat.sub_0_r, (@list_get_ok _ _ k m0) by lia. cbn [bind].
    rewrite (matmul_ok (@ok_X _ _ _ H k ltac:(lia)) (@ok_P _ _ _ H k ltac:(lia))). cbn [bind].
    set (XP := tab2 _ _ _). assert (HXP : is_mat nI K XP) by (apply is_mat_tab2).
    destruct (@set_last_ok nI K (length (p2_X s)) T k XP HT HTs HXP ltac:(lia)) as (T' & -> & HT' & HTs' & HTe').
    exists T'. split; [reflexivity|]. split; auto. split; auto. intros i q l Hi Hq Hlk Hll. rewrite HTe' by auto.
    destruct (Nat.eqb_spec l k) as [->|Hne]; [unfold XP; now rewrite mget_tab2|]. apply HTe; auto. lia.
  - exists T. split; [exact ET|]. split; auto.
Qed.

(** *** The splitting identity *)
Lemma project_identity nI J K M P X : orth_cols J K P ->
  dist2 nI J (mprod K M (fun a j => P j a)) X =
  frob2 nI J X - frob2 nI K (mprod J X P) + dist2 nI K M (mprod J X P).
Proof.
  intros HO. unfold dist2, frob2. rewrite <- sum_minus, <- sum_plus. apply sum_ext. intros i Hi.
  set (XP := mprod J X P). set (q := fun j => mprod K M (fun a j => P j a) i j).
  assert (E1 : sum J (fun j => q j * q j) = sum K (fun a => M i a * M i a)).
  { exact (@parseval_cols J K P (M i) (M i) HO). }
  assert (E2 : sum J (fun j => q j * X i j) = sum K (fun a => M i a * XP i a)).
  { transitivity (sum J (fun j => sum K (fun a => M i a * (X i j * P j a)))).
    - apply sum_ext. intros j Hj. unfold q, mprod. rewrite <- sum_scal_r. apply sum_ext. intros a Ha. ring.
    - rewrite sum_swap. apply sum_ext. intros a Ha. unfold XP, mprod. now rewrite <- sum_scal_l. }
  transitivity (sum J (fun j => q j * q j) - 2 * sum J (fun j => q j * X i j) + sum J (fun j => X i j ^ 2)).
  { rewrite <- sum_scal_l, <- sum_minus, <- sum_plus. apply sum_ext. intros j Hj. unfold q. ring. }
  transitivity (sum J (fun j => X i j ^ 2) - sum K (fun a => XP i a ^ 2) +
     (sum K (fun a => M i a * M i a) - 2 * sum K (fun a => M i a * XP i a) + sum K (fun a => XP i a ^ 2))).
  { rewrite E1, E2. ring. }
  f_equal. rewrite <- sum_scal_l, <- sum_minus, <- sum_plus. apply sum_ext. intros a Ha. ring.
Qed.

Lemma sumf_indices3 n m l f : sumf (indices [n; m; l]) f = sum n (fun i => sum m (fun j => sum l (fun k => f [i; j; k]))).
Proof. rewrite sumf_indices_cons. apply sum_ext. intros i Hi. now rewrite sumf_indices2. Qed.

Lemma sse_projected K nI nK A B C PX : shape PX = [nI; K; nK] ->
  sse PX [A; B; C] unit_weights K =
  sum nK (fun k => dist2 nI K (model_T K A B C k) (fun i q => get PX [i; q; k])).
Proof.
  intros Hs. unfold sse. rewrite Hs, sumf_indices3. symmetry.
  transitivity (sum nI (fun i => sum nK (fun k => sum K (fun q => (model_T K A B C k i q - get PX [i; q; k]) ^ 2)))).
  { unfold dist2. apply sum_swap. }
  apply sum_ext. intros i Hi. rewrite sum_swap. apply sum_ext. intros q Hq. apply sum_ext. intros k Hk.
  replace (model_T K A B C k i q) with (cp_entry [A; B; C] unit_weights K [i; q; k]); [ring|].
  unfold cp_entry, unit_weights, model_T. apply sum_ext. intros r Hr. cbn [colprod]. ring.
Qed.

(** What no choice of A, B, C can change: sum_k ||X_k||^2 - ||X_k P_k||^2 *)
Definition lost (K nI : nat) (Xs Ps : list nd) : R :=
  sum (length Xs) (fun k => frob2 nI (width Xs k) (mget (nth k Xs m0)) - frob2 nI K (fun i q => projected_entry Xs Ps i q k)).

Lemma pf_sse_split K nI A B C Xs Ps PX : orth_projections K Xs Ps -> shape PX = [nI; K; length Xs] ->
  (forall i q k, (i < nI)%nat -> (q < K)%nat -> (k < length Xs)%nat -> get PX [i; q; k] = projected_entry Xs Ps i q k) ->
  pf_sse K nI A B C Xs Ps = lost K nI Xs Ps + sse PX [A; B; C] unit_weights K.
Proof.
  intros HO Hs He. rewrite (@sse_projected K nI (length Xs)) by auto. unfold lost, pf_sse. rewrite <- sum_plus.
  apply sum_ext. intros k Hk. unfold slice_err.
  rewrite (@dist2_ext nI (width Xs k) _ _ (mprod K (model_T K A B C k) (fun a j => mget (nth k Ps m0) j a)) (mget (nth k Xs m0)));
    [|intros; apply pf_entry_T|reflexivity].
  rewrite (project_identity _ _ _ (HO k Hk)). f_equal.
  apply dist2_ext; [reflexivity|]. intros i q Hi Hq. rewrite He by auto. reflexivity.
Qed.
