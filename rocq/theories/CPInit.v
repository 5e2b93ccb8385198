(** Initialisation of CP_ALS: lemmas for C42 (same-shape data), C49, C50. *)
From Verif Require Export CPLemmas SignFacts.
Set Implicit Arguments.
Unset Strict Implicit.
Local Open Scope R_scope.

Lemma reset_weights_ok K k : is_vec K (kt_w k) ->
  is_vec K (kt_w (kt_reset_weights k)) /\ forall r, (r < K)%nat -> vget (kt_w (kt_reset_weights k)) r = 1.
Proof.
  intros [Hw Hs]. cbn [kt_reset_weights kt_w]. split.
  - unfold is_vec, wf, np_map in *. cbn in *. now rewrite !map_length.
  - intros r Hr. unfold vget, get, np_map. cbn [shape data]. rewrite Hs, ravel1. rewrite map_map.
    rewrite (nth_indep _ 0 (0 * 0 + 1)); [|rewrite map_length; unfold wf in Hw; rewrite Hw, Hs; cbn; lia].
    rewrite (map_nth (fun x => x * 0 + 1)). ring.
Qed.

(** *** No orthonormality: nothing is replaced *)
Definition all_false (c : option (list bool)) (n : nat) : Prop :=
  match c with None => True | Some l => Forall (fun b => b = false) l /\ (length l <= n)%nat end.

Lemma orth_loop_false env l : forall a d, Forall (fun b => b = false) l -> (a + length l <= length (kt_fms d))%nat ->
  foldM (cp_orthonormalise_step env) (combine (seq a (length l)) l) d = Ok d.
Proof.
  induction l as [|b l IH]; intros a d Hl Hle; [reflexivity|].
  inversion Hl as [|? ? -> Hl']; subst. cbn [length seq combine foldM cp_orthonormalise_step].
  cbn [length] in Hle. rewrite (@list_get_nth _ _ a m0) by lia. cbn [bind]. apply IH; auto. lia.
Qed.

Lemma orthonormalise_false env s : cp_orth s <> None -> all_false (cp_orth s) (length (kt_fms (cp_dec s))) ->
  cp_orthonormalise env s = Ok s.
Proof.
  intros Hne H. unfold cp_orthonormalise. destruct (cp_orth s) as [l|] eqn:E; [|congruence].
  destruct H as [H1 H2]. cbn [not_none bind]. rewrite orth_loop_false by (auto; lia). cbn [bind].
  now destruct s.
Qed.

Lemma all_false_or c s : all_false c (length (kt_fms (cp_dec s))) ->
  all_false (or_unconstrained c s) (length (kt_fms (cp_dec s))).
Proof.
  destruct c; cbn; auto. intros _. split; [|rewrite repeat_length; lia].
  apply Forall_forall. intros b Hb. now apply repeat_spec in Hb.
Qed.

(** What _init_fit leaves behind when the components have been initialised *)
Definition prepared (max_its : option Z) (d1 : dstate cp_state) (l : R) : dstate cp_state :=
  let s := cp_with_dec (kt_reset_weights (cp_dec (ds_num d1))) (ds_num d1) in
  let s := cp_with_constraints (or_unconstrained (cp_nn s) s) (or_unconstrained (cp_orth s) s) s in
  with_conv PInf (Fin l)
    (with_num (cp_with_cache (cp_last s) None s) (match max_its with Some m => with_max m d1 | None => d1 end)).

Definition targeted (X : nd) (ds : dstate cp_state) : dstate cp_state :=
  with_num (cp_with_target X (ds_num ds)) (with_it 0%Z ds).

Lemma init_fit_prepared env cs disk draws X max_its arg ds d1 :
  cp_init_components env cs disk draws arg (targeted X ds) = (d1, None) ->
  all_false (cp_orth (ds_num ds)) (length (kt_fms (cp_dec (ds_num d1)))) ->
  (exists l, cp_SSE env (cp_with_dec (kt_reset_weights (cp_dec (ds_num d1))) (ds_num d1)) = Ok l) ->
  exists l, cp_init_fit env cs disk draws X max_its arg ds = (prepared max_its d1 l, None).
Proof.
  intros E HO [l EL]. exists l. unfold cp_init_fit. fold (targeted X ds). rewrite E.
  destruct (init_keeps_last E) as (_ & _ & _ & _ & _ & HOr). cbn in HOr.
  assert (E1 : ds_num (match max_its with Some m => with_max m d1 | None => d1 end) = ds_num d1)
    by (destruct max_its; reflexivity).
  rewrite E1. rewrite orthonormalise_false.
  - change (cp_SSE env (cp_with_constraints ?a ?b ?s)) with (cp_SSE env s). rewrite EL. reflexivity.
  - cbn. destruct (cp_orth (ds_num d1)); discriminate.
  - cbn [cp_with_constraints cp_orth cp_dec]. 
    match goal with |- all_false (or_unconstrained ?c ?s) _ => apply (@all_false_or c s) end.
    cbn. rewrite HOr. exact HO.
Qed.

(** *** C42 for data of the same shape *)
Lemma second_fit_same_shape env cs cf disk draws X max_its arg ds K m d1 :
  cp_coherent K (ds_num ds) -> cp_last (ds_num ds) = Some m ->
  data_ok X -> shape X = shape (cp_X (ds_num ds)) ->
  cp_init_components env cs disk draws arg (targeted X ds) = (d1, None) ->
  factors_ok K X (kt_fms (cp_dec (ds_num d1))) -> is_vec K (kt_w (cp_dec (ds_num d1))) ->
  all_false (cp_orth (ds_num ds)) (length (shape X)) ->
  (ds_it d1 < match max_its with Some m => m | None => ds_max d1 end)%Z ->
  exists ds', cp_fit env cs cf disk draws X max_its arg ds = (ds', Some TypeError) /\
    kt_fms (cp_dec (ds_num ds')) = kt_fms (cp_dec (ds_num d1)) /\ ds_it ds' = ds_it d1 /\
    ds_logs ds' = ds_logs d1 /\ ds_file ds' = ds_file d1.
Proof.
  intros H HL HX HS E HF Hw HO Hmax.
  pose proof HF as [HU Hr]. pose proof (mode_len Hr) as Hlen.
  destruct (init_keeps_last E) as (HL1 & HC1 & HX1 & HN1 & _ & _).
  cbn [targeted ds_num with_num cp_with_target cp_last cp_cache cp_X cp_norm with_it] in HL1, HC1, HX1, HN1.
  destruct (co_cache H HL) as (Hm & C & EC & HC & _). rewrite <- HS in Hm, HC.
  destruct (@init_fit_prepared env cs disk draws X max_its arg ds d1) as (l & EI); auto.
  { now rewrite Hlen. }
  { unfold cp_SSE. cbn [cp_with_dec cp_last cp_dec]. rewrite HL1, HL.
    destruct (reset_weights_ok Hw) as [Hw1 _].
    destruct (@kt_construct_of (env_junk env) K (kt_reset_weights (cp_dec (ds_num d1)))) as (Y & EY & _); auto.
    { cbn. destruct HX as (_ & H2 & _). now rewrite Hlen. }
    rewrite EY. cbn [bind]. unfold cp_inner. cbn [cp_with_dec cp_dec cp_cache kt_reset_weights kt_fms].
    rewrite (@list_get_nth _ _ m m0) by (rewrite Hlen; auto). rewrite HC1, EC. cbn [bind not_none].
    unfold np_mul. rewrite (broadcast_mat Rmult (rows_nth HF Hm) HC). cbn [bind].
    change (np_map (fun x : R => x + 1) (np_map (fun x : R => x * 0) (kt_w (cp_dec (ds_num d1)))))
      with (kt_w (kt_reset_weights (cp_dec (ds_num d1)))).
    rewrite (broadcast_vec Rmult Hw1 (is_vec_sum_axis0 (is_mat_tab2 _ _ _))). cbn [bind]. eauto. }
  assert (HT : touched (ds_num ds)) by (unfold touched; rewrite HL; discriminate).
  exists (prepared max_its d1 l). split.
  - rewrite (second_fit cf HT EI). unfold prepared.
    assert (Hlt : (ds_it (prepared max_its d1 l) <? ds_max (prepared max_its d1 l))%Z = true).
    { apply Z.ltb_lt. unfold prepared. destruct max_its; exact Hmax. }
    unfold prepared in Hlt. now rewrite Hlt.
  - unfold prepared. destruct max_its; repeat split; reflexivity.
Qed.

(** *** C49 *)
Definition keyword (s : string) : Prop :=
  In (lower s) ["random"; "svd"; "from_checkpoint"; "precomputed"]%string.

Lemma init_case_insensitive env cs cs' disk draws arg ds :
  cs_rank cs = cs_rank cs' -> cs_ridge cs = cs_ridge cs' -> lower (cs_init cs) = lower (cs_init cs') ->
  keyword (cs_init cs) ->
  cp_init_components env cs disk draws arg ds = cp_init_components env cs' disk draws arg ds.
Proof.
  intros HK HR HE HW.
  destruct cs as [K i rd], cs' as [K' i' rd']. cbn [cs_rank cs_ridge cs_init] in *. subst K' rd'.
  unfold cp_init_components, keyword in *. cbn [cs_init]. rewrite <- HE in *.
  assert (EC : forall s d, cp_check {| cs_rank := K; cs_init := i; cs_ridge := rd |} s d =
                           cp_check {| cs_rank := K; cs_init := i'; cs_ridge := rd |} s d) by reflexivity.
  assert (EL : forall f, load_checkpoint (cp_model env {| cs_rank := K; cs_init := i; cs_ridge := rd |}) f None ds =
                         load_checkpoint (cp_model env {| cs_rank := K; cs_init := i'; cs_ridge := rd |}) f None ds)
    by reflexivity.
  destruct HW as [<-|[<-|[<-|[<-|[]]]]]; reflexivity.
Qed.

Lemma init_warning env cs disk draws arg ds :
  arg <> NoArg -> lower (cs_init cs) <> "precomputed"%string -> lower (cs_init cs) <> "from_checkpoint"%string ->
  cp_init_components env cs disk draws arg ds = (ds, Some WarningExc).
Proof.
  intros Ha H1 H2. unfold cp_init_components.
  rewrite <- String.eqb_neq in H1, H2. cbn [existsb]. rewrite H1, H2. cbn [orb negb].
  destruct arg; [congruence|reflexivity|reflexivity].
Qed.

Lemma init_unknown env cs disk draws ds :
  ~ keyword (cs_init cs) -> disk (cs_init cs) = None ->
  cp_init_components env cs disk draws NoArg ds = (ds, Some ValueError).
Proof.
  intros Hk Hd. unfold cp_init_components, keyword in *. cbn [andb]. cbn [In] in Hk.
  rewrite (proj2 (String.eqb_neq _ _)) by intuition. rewrite (proj2 (String.eqb_neq _ _)) by intuition.
  rewrite (proj2 (String.eqb_neq _ _)) by intuition. rewrite (proj2 (String.eqb_neq _ _)) by intuition.
  now rewrite Hd.
Qed.

Lemma fold_min_le l : forall x, (fold_left Nat.min l x <= x)%nat /\ (forall n, In n l -> (fold_left Nat.min l x <= n)%nat).
Proof.
  induction l as [|y l IH]; intros x; cbn; [split; [lia|intros n []]|].
  destruct (IH (Nat.min x y)) as [H1 H2]. split; [lia|]. intros n [->|Hn]; [lia|auto].
Qed.
Lemma fold_min_in l : forall x, fold_left Nat.min l x = x \/ In (fold_left Nat.min l x) l.
Proof.
  induction l as [|y l IH]; intros x; cbn; auto.
  destruct (IH (Nat.min x y)) as [H|H]; auto. rewrite H.
  destruct (Nat.min_spec x y) as [[_ ->]|[_ ->]]; auto.
Qed.

Lemma init_svd_rank env cs disk draws ds :
  lower (cs_init cs) = "svd"%string -> (exists n, In n (shape (cp_X (ds_num ds))) /\ (n < cs_rank cs)%nat) ->
  cp_init_components env cs disk draws NoArg ds = (ds, Some ValueError).
Proof.
  intros Hk (n & Hn & Hlt). unfold cp_init_components. rewrite Hk. cbn -[cp_init_svd].
  unfold cp_init_svd. destruct (shape (cp_X (ds_num ds))) as [|x l]; [destruct Hn|].
  cbn [py_min bind]. destruct (fold_min_le l x) as [H1 H2].
  assert (fold_left Nat.min l x <= n)%nat by (destruct Hn as [->|Hn]; auto).
  rewrite (proj2 (Nat.ltb_lt _ _)) by lia. reflexivity.
Qed.

(** numpy.linalg.svd(M)[0]: an orthogonal matrix *)
Definition svd_u_contract (svd_u : nd -> res nd) : Prop :=
  forall n m A, is_mat n m A -> exists u, svd_u A = Ok u /\ is_mat n n u /\ orth_cols n n (mget u).

Lemma first_columns_ok n k u : is_mat n n u -> orth_cols n n (mget u) -> (k <= n)%nat ->
  exists Q, first_columns u k = Ok Q /\ is_mat n k Q /\ orth_cols n k (mget Q) /\
    forall i r, (i < n)%nat -> (r < k)%nat -> mget Q i r = mget u i r.
Proof.
  intros Hu Ho Hk. unfold first_columns. assert (Hc : ncols u = n) by (unfold ncols; now rewrite (proj2 Hu)).
  rewrite Hc. replace (Nat.min k n) with k by lia. unfold take_cols. rewrite (proj2 Hu).
  rewrite (proj2 (forallb_forall _ _)).
  2:{ intros x Hx. apply in_seq in Hx. apply Nat.ltb_lt. lia. }
  rewrite seq_length. eexists. split; [reflexivity|]. split; [apply is_mat_tab2|].
  assert (He : forall i r, (i < n)%nat -> (r < k)%nat ->
    mget (tab2 n k (fun i0 j => mget u i0 (nth j (seq 0 k) 0%nat))) i r = mget u i r).
  { intros i r Hi Hr. rewrite mget_tab2 by auto. now rewrite seq_nth. }
  split; [|exact He]. intros a b Ha Hb. rewrite <- (Ho a b) by lia. apply sum_ext. intros i Hi. now rewrite !He.
Qed.

Lemma init_svd_ok env cs disk draws ds :
  lower (cs_init cs) = "svd"%string -> svd_u_contract (env_svd_u env) ->
  let X := cp_X (ds_num ds) in
  wf X -> shape X <> [] -> (0 < cs_rank cs)%nat -> (forall n, In n (shape X) -> (cs_rank cs <= n)%nat) ->
  exists d, cp_init_components env cs disk draws NoArg ds = (with_num (cp_with_dec d (ds_num ds)) ds, None) /\
    factors_ok (cs_rank cs) X (kt_fms d) /\ kt_w d = np_ones [cs_rank cs] /\ kt_rank d = cs_rank cs /\
    forall U, In U (kt_fms d) -> orth_cols (nrows U) (cs_rank cs) (mget U).
Proof.
  intros Hk Hsvd X HX Hne Hpos Hall. set (K := cs_rank cs) in *.
  assert (Hf : forall l, (forall i, In i l -> (i < length (shape X))%nat) ->
    exists Us, mapM (fun i => do M <- unfold X (Z.of_nat i) ; do u <- env_svd_u env M ; first_columns u K) l = Ok Us /\
      mats K Us /\ rows Us = map (fun i => nth i (shape X) 0%nat) l /\
      forall U, In U Us -> orth_cols (nrows U) K (mget U)).
  { induction l as [|i l IH]; intros Hl.
    - exists []. split; [reflexivity|]. split; [constructor|]. split; [reflexivity|]. intros U [].
    - destruct IH as (Us & E & HU & Hr & HO). { intros; apply Hl; now right. }
      assert (Hi : (i < length (shape X))%nat) by (apply Hl; now left).
      assert (Hn : (K <= nth i (shape X) 0)%nat) by (apply Hall, nth_In; auto).
      destruct (@unfold_ok X (Z.of_nat i) i) as (M & EM & HM & _); auto.
      { unfold py_index, ndim. destruct (Z.leb_spec 0 (Z.of_nat i)); [|lia].
        destruct (Z.ltb_spec (Z.of_nat i) (Z.of_nat (length (shape X)))); [|lia]. cbn. now rewrite Nat2Z.id. }
      { lia. }
      destruct (Hsvd _ _ _ HM) as (u & Eu & Hu & Ho).
      destruct (first_columns_ok Hu Ho Hn) as (Q & EQ & HQ & HQo & _).
      assert (HnQ : nrows Q = nth i (shape X) 0%nat) by (unfold nrows; now rewrite (proj2 HQ)).
      exists (Q :: Us). cbn [mapM]. rewrite EM. cbn [bind]. rewrite Eu. cbn [bind]. rewrite EQ. cbn [bind].
      rewrite E. cbn [bind].
      split; [reflexivity|]. split; [constructor; [now rewrite HnQ|exact HU]|].
      split; [cbn [rows map]; rewrite HnQ; f_equal; exact Hr|].
      intros U [<-|HI]; [now rewrite HnQ|auto]. }
  destruct (Hf (seq 0 (ndim X))) as (Us & E & HU & Hr & HO).
  { intros i Hi. apply in_seq in Hi. unfold ndim in Hi. lia. }
  assert (HrX : rows Us = shape X).
  { rewrite Hr. unfold ndim. apply nth_ext with (d := 0%nat) (d' := 0%nat); rewrite map_length, seq_length; auto.
    intros n Hn. rewrite (nth_indep _ 0%nat (nth 0 (shape X) 0%nat)) by (now rewrite map_length, seq_length).
    rewrite (map_nth (fun i => nth i (shape X) 0%nat)). now rewrite seq_nth. }
  exists {| kt_rank := K; kt_fms := Us; kt_w := np_ones [K] |}.
  split; [|split; [split; auto|split; [auto|split; auto]]].
  unfold cp_init_components. rewrite Hk. cbn -[cp_init_svd]. unfold cp_init_svd. fold X K.
  destruct (shape X) as [|x l] eqn:Es; [congruence|].
  cbn [py_min bind].
  assert (HKm : (K <= fold_left Nat.min l x)%nat).
  { apply Hall. destruct (fold_min_in l x) as [->|]; [now left|now right]. }
  rewrite (proj2 (Nat.ltb_ge _ _)) by lia.
  rewrite E. cbn [bind]. rewrite (@kt_init_mats_none K Us); auto.
  intros ->. cbn in HrX. discriminate.
Qed.

(** Exactly the decompositions whose factors have the right shape, as far as there are any *)
Definition fits_shape (K : nat) (X : nd) (fms : list nd) : Prop :=
  forall i U, nth_error fms i = Some U -> exists n, nth_error (shape X) i = Some n /\ shape U = [n; K].

Lemma check_loop K sh fms : forall a,
  foldM (fun _ '(i, U) =>
           do (len, rank) <- shape2 U ;
           if negb (rank =? K)%nat then Err ValueError else
           do xlen <- list_get sh i ;
           if negb (len =? xlen)%nat then Err ValueError else Ok tt)
        (combine (seq a (length fms)) fms) tt = Ok tt <->
  forall i U, nth_error fms i = Some U -> exists n, nth_error sh (a + i) = Some n /\ shape U = [n; K].
Proof.
  induction fms as [|U fms IH]; intros a.
  - split; [intros _ [|i] U E; discriminate|reflexivity].
  - cbn [length seq combine foldM].
    assert (Hhead : (do (len, rank) <- shape2 U ;
           if negb (rank =? K)%nat then Err ValueError else
           do xlen <- list_get sh a ;
           if negb (len =? xlen)%nat then Err ValueError else Ok tt) = Ok tt <->
        exists n, nth_error sh a = Some n /\ shape U = [n; K]).
    { unfold shape2, list_get. split.
      - destruct (shape U) as [|n [|k [|? ?]]]; try discriminate. cbn [bind].
        destruct (Nat.eqb_spec k K) as [->|]; [|discriminate]. cbn [negb].
        destruct (nth_error sh a) as [x|]; [|discriminate]. cbn [bind].
        destruct (Nat.eqb_spec n x) as [->|]; [|discriminate]. intros _. eauto.
      - intros (n & -> & ->). cbn [bind]. now rewrite !Nat.eqb_refl. }
    split.
    + intros E [|i] V EV.
      * injection EV as <-. rewrite Nat.add_0_r. apply Hhead.
        destruct (do (len, rank) <- shape2 U ; _) as [[]|]; [reflexivity|discriminate].
      * replace (a + S i)%nat with (S a + i)%nat by lia.
        destruct (do (len, rank) <- shape2 U ; _) as [[]|]; [|discriminate].
        cbn [bind] in E. exact (proj1 (IH (S a)) E i V EV).
    + intros H. rewrite (proj2 Hhead).
      * cbn [bind]. apply (proj2 (IH (S a))). intros i V EV. replace (S a + i)%nat with (a + S i)%nat by lia. now apply (H (S i)).
      * destruct (H 0%nat U eq_refl) as (n & E1 & E2). rewrite Nat.add_0_r in E1. eauto.
Qed.

Lemma cp_check_iff cs s d : cp_check cs s d = Ok tt <-> fits_shape (cs_rank cs) (cp_X s) (kt_fms d).
Proof. unfold cp_check, fits_shape. apply (check_loop (cs_rank cs) (shape (cp_X s)) (kt_fms d) 0). Qed.

Lemma init_precomputed env cs disk draws ds d :
  lower (cs_init cs) = "precomputed"%string ->
  (fits_shape (cs_rank cs) (cp_X (ds_num ds)) (kt_fms d) ->
     cp_init_components env cs disk draws (DecArg d) ds = (with_num (cp_with_dec d (ds_num ds)) ds, None)) /\
  (~ fits_shape (cs_rank cs) (cp_X (ds_num ds)) (kt_fms d) ->
     exists e, cp_init_components env cs disk draws (DecArg d) ds = (ds, Some e)).
Proof.
  intros Hk. unfold cp_init_components. rewrite Hk. cbn -[cp_check]. split; intros H.
  - apply (@cp_check_iff cs (ds_num ds) d) in H. rewrite H. reflexivity.
  - destruct (cp_check cs (ds_num ds) d) as [[]|e] eqn:E.
    + elim H. now apply (@cp_check_iff cs (ds_num ds) d).
    + cbn [bind]. eauto.
Qed.

(** *** C50 *)
Lemma factors_fit K X Us : factors_ok K X Us -> fits_shape K X Us.
Proof.
  intros [HU Hr] i U E. assert (Hi : (i < length Us)%nat) by (apply nth_error_Some; congruence).
  eapply Forall_forall in HU; [|eapply nth_error_In; eauto].
  exists (nrows U). split; [|apply HU]. rewrite <- Hr. unfold rows. now apply map_nth_error.
Qed.

Lemma precomputed_weights env cs disk draws X max_its ds K d :
  lower (cs_init cs) = "precomputed"%string -> cs_rank cs = K -> cp_last (ds_num ds) = None ->
  data_ok X -> factors_ok K X (kt_fms d) -> is_vec K (kt_w d) ->
  all_false (cp_orth (ds_num ds)) (length (shape X)) ->
  exists ds1, cp_init_fit env cs disk draws X max_its (DecArg d) ds = (ds1, None) /\
    kt_fms (cp_dec (ds_num ds1)) = kt_fms d /\ is_vec K (kt_w (cp_dec (ds_num ds1))) /\
    (forall r, (r < K)%nat -> vget (kt_w (cp_dec (ds_num ds1))) r = 1) /\
    cp_coherent K (ds_num ds1) /\ ds_prev ds1 = Fin (sse X (kt_fms d) unit_weights K).
Proof.
  intros Hk HK HL HX HF Hw HO. pose proof HF as [HU Hr]. pose proof (mode_len Hr) as Hlen.
  destruct (@init_precomputed env cs disk draws (targeted X ds) d Hk) as [Hacc _].
  specialize (Hacc ltac:(rewrite HK; now apply factors_fit)).
  destruct (reset_weights_ok Hw) as [Hw1 Hw2].
  set (d1 := with_num (cp_with_dec d (ds_num (targeted X ds))) (targeted X ds)) in *.
  assert (HC : cp_coherent K (cp_with_dec (kt_reset_weights (cp_dec (ds_num d1))) (ds_num d1))).
  { constructor; try (cbn; auto; fail). intros m Em. cbn in Em. congruence. }
  pose proof (cp_SSE_ok env HC) as ES.
  destruct (@init_fit_prepared env cs disk draws X max_its (DecArg d) ds d1) as (l & EI); auto.
  { cbn. now rewrite Hlen. } { eauto. }
  exists (prepared max_its d1 l). split; auto.
  assert (Hl : l = sse X (kt_fms d) unit_weights K).
  { unfold cp_init_fit in EI. fold (targeted X ds) in EI. rewrite Hacc in EI.
    assert (E1 : ds_num (match max_its with Some m => with_max m d1 | None => d1 end) = ds_num d1)
      by (destruct max_its; reflexivity).
    rewrite E1 in EI. rewrite orthonormalise_false in EI.
    - change (cp_SSE env (cp_with_constraints ?a ?b ?s)) with (cp_SSE env s) in EI. rewrite ES in EI.
      apply (f_equal (fun p => ds_prev (fst p))) in EI. cbn [fst] in EI. unfold prepared in EI.
      cbn [ds_prev with_conv] in EI. injection EI as <-.
      cbn [d1 cp_with_dec cp_X cp_dec ds_num with_num targeted kt_reset_weights kt_fms cp_with_target].
      apply sse_ext. intros r Hr'. now rewrite Hw2.
    - cbn. destruct (cp_orth (ds_num ds)); discriminate.
    - cbn [cp_with_constraints cp_orth cp_dec].
      match goal with |- all_false (or_unconstrained ?c ?s) _ => apply (@all_false_or c s) end.
      cbn. now rewrite Hlen. }
  unfold prepared. destruct max_its; cbn [ds_num with_conv with_num ds_prev cp_with_cache cp_dec with_max];
    (split; [reflexivity|]); (split; [exact Hw1|]); (split; [exact Hw2|]); (split; [|now rewrite Hl]);
    (constructor; try apply HC; cbn; intros m Em; congruence).
Qed.
