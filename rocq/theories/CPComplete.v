(** Complete CP_ALS fits: starts, loggers, checkpoints (C46, C70-C72). *)
From Verif Require Export CPRandom RunFacts StorageFacts QualitySpec.
Set Implicit Arguments.
Unset Strict Implicit.
Local Open Scope R_scope.

(** What initialising the components leaves: the decomposition [k] and the counter [i] *)
Definition begun (X : nd) (ds : dstate cp_state) (k : kruskal) (i : Z) : dstate cp_state :=
  with_num (cp_with_dec k (ds_num (targeted X ds))) (with_it i (targeted X ds)).

Lemma free_all_false c n : free_flags c n -> all_false c n.
Proof.
  intros [->| ->]; cbn; auto. split; [|rewrite repeat_length; lia].
  apply Forall_forall. intros b Hb. now apply repeat_spec in Hb.
Qed.

Section Start.
Variables (env : cp_env) (cs : cp_settings) (K : nat).
Let md := cp_model env cs.

Lemma start_ok disk draws X max_its arg ds k i :
  cp_init_components env cs disk draws arg (targeted X ds) = (begun X ds k i, None) ->
  data_ok X -> factors_ok K X (kt_fms k) -> is_vec K (kt_w k) ->
  all_false (cp_orth (ds_num ds)) (length (shape X)) -> cp_last (ds_num ds) = None ->
  let ds1 := prepared max_its (begun X ds k i) (sse X (kt_fms k) unit_weights K) in
  cp_init_fit env cs disk draws X max_its arg ds = (ds1, None) /\ cp_coherent K (ds_num ds1) /\ unit_w K (ds_num ds1).
Proof.
  intros E1 HX HF Hw HO HL. pose proof HF as [HU Hr]. pose proof (mode_len Hr) as Hlen.
  destruct (reset_weights_ok Hw) as [HW1 HW2].
  assert (HC : cp_coherent K (cp_with_dec (kt_reset_weights k) (ds_num (begun X ds k i)))).
  { constructor; auto. cbn. rewrite HL. discriminate. }
  assert (HO' : all_false (cp_orth (ds_num ds)) (length (kt_fms k))) by now rewrite Hlen.
  destruct (@init_fit_prepared env cs disk draws X max_its arg ds (begun X ds k i) E1) as (l & El).
  { exact HO'. }
  { eexists. apply (cp_SSE_ok env HC). }
  assert (Hl : l = sse X (kt_fms k) unit_weights K).
  { clear - El E1 HC HW2 HO'. unfold cp_init_fit in El. fold (targeted X ds) in El. rewrite E1 in El.
    assert (En : ds_num (match max_its with Some m => with_max m (begun X ds k i) | None => begun X ds k i end) = ds_num (begun X ds k i))
      by (destruct max_its; reflexivity).
    rewrite En in El. rewrite orthonormalise_false in El.
    - change (cp_SSE env (cp_with_constraints ?a ?b ?s)) with (cp_SSE env s) in El.
      change (kt_reset_weights (cp_dec (ds_num (begun X ds k i)))) with (kt_reset_weights k) in El.
      rewrite (cp_SSE_ok env HC) in El. apply (f_equal (fun p => match ds_prev (fst p) with Fin x => x | _ => 0 end)) in El.
      cbn [fst ds_prev with_conv prepared] in El. rewrite <- El. apply sse_ext. exact HW2.
    - cbn. destruct (cp_orth (ds_num ds)); discriminate.
    - match goal with |- all_false (cp_orth (cp_with_constraints _ (or_unconstrained ?c ?s) _)) _ => apply (@all_false_or c s) end.
      exact HO'. }
  subst l. cbn zeta. split; [exact El|]. split.
  - destruct HC; constructor; auto. cbn. rewrite HL. discriminate.
  - exact HW2.
Qed.

(** *** Random start with non-negative modes *)
Lemma abs_loop l : forall a d, (a + length l <= length (kt_fms d))%nat ->
  foldM (fun d '(mode, isnn) =>
           do U <- list_get (kt_fms d) mode ;
           Ok (if (isnn : bool) then kt_with_factor mode (np_map Rabs U) d else d))
        (combine (seq a (length l)) l) d =
  Ok {| kt_rank := kt_rank d; kt_w := kt_w d;
        kt_fms := map (fun m => if nth (m - a) l false && (a <=? m)%nat then np_map Rabs (nth m (kt_fms d) m0) else nth m (kt_fms d) m0)
                      (seq 0 (length (kt_fms d))) |}.
Proof.
  induction l as [|b l IH]; intros a d Hle.
  - cbn [length seq combine foldM]. destruct d as [rk fms w]. cbn [kt_fms kt_rank kt_w]. do 2 f_equal.
    transitivity (map (fun m => nth m fms m0) (seq 0 (length fms))).
    + symmetry. clear. induction fms as [|U fms IH]; [reflexivity|]. cbn [length seq map nth]. f_equal.
      rewrite <- seq_shift, map_map. exact IH.
    + apply map_ext. intros m. now destruct (m - a)%nat.
  - cbn [length seq combine foldM]. cbn [length] in Hle. rewrite (@list_get_nth _ _ a m0) by lia. cbn [bind].
    assert (EL : length (kt_fms (if b then kt_with_factor a (np_map Rabs (nth a (kt_fms d) m0)) d else d)) = length (kt_fms d)).
    { destruct b; auto. cbn [kt_with_factor kt_fms]. apply length_replace_at. }
    rewrite IH by (rewrite EL; lia). do 2 f_equal; [now destruct b| |now destruct b].
    rewrite EL. apply map_ext_in. intros m Hm. apply in_seq in Hm.
    destruct (Nat.eq_dec m a) as [->|Hne].
    + rewrite Nat.sub_diag. replace (a <=? a)%nat with true by (symmetry; apply Nat.leb_refl).
      replace (S a <=? a)%nat with false by (symmetry; apply Nat.leb_gt; lia). rewrite Bool.andb_false_r, Bool.andb_true_r.
      cbn [nth]. destruct b; auto. cbn [kt_with_factor kt_fms]. apply nth_replace_at_eq. lia.
    + assert (EN : nth m (kt_fms (if b then kt_with_factor a (np_map Rabs (nth a (kt_fms d) m0)) d else d)) m0 = nth m (kt_fms d) m0).
      { destruct b; auto. cbn [kt_with_factor kt_fms]. apply nth_replace_at_neq. auto. }
      rewrite EN. destruct (Nat.leb_spec a m).
      * replace (S a <=? m)%nat with true by (symmetry; apply Nat.leb_le; lia).
        replace (m - a)%nat with (S (m - S a)) by lia. reflexivity.
      * replace (S a <=? m)%nat with false by (symmetry; apply Nat.leb_gt; lia). now rewrite !Bool.andb_false_r.
Qed.

Lemma is_mat_map_abs n m U : is_mat n m U -> is_mat n m (np_map Rabs U).
Proof. intros [Hw Hs]. split; [|exact Hs]. unfold wf, np_map in *. cbn [shape data]. now rewrite map_length. Qed.
Lemma mget_map_abs n m U i r : is_mat n m U -> (i < n)%nat -> (r < m)%nat -> mget (np_map Rabs U) i r = Rabs (mget U i r).
Proof.
  intros [Hw Hs] Hi Hr. unfold mget, get, np_map. cbn [shape data].
  rewrite (nth_indep _ 0 (Rabs 0)); [apply map_nth|]. rewrite map_length. unfold wf in Hw. rewrite Hw, Hs.
  apply ravel_lt. repeat constructor; auto.
Qed.
Lemma nth_mats Us m : mats K Us -> (m < length Us)%nat -> is_mat (nrows (nth m Us m0)) K (nth m Us m0).
Proof. intros H Hm. eapply Forall_forall in H; [exact H|]. now apply nth_In. Qed.

(** The start of a random initialisation: columns of the draws divided by their length, absolute values in
    the modes that are to be non-negative. *)
Definition random_factor (nn : option (list bool)) (draws : list nd) (m : nat) : nd :=
  let U := nth m (normalised K draws) m0 in
  if match nn with Some l => nth m l false | None => false end then np_map Rabs U else U.

Lemma random_components disk draws X ds : lower (cs_init cs) = "random"%string ->
  data_ok X -> factors_ok K X draws ->
  (match cp_nn (ds_num ds) with Some l => (length l <= length draws)%nat | None => True end) ->
  exists k, cp_init_components env cs disk draws NoArg (targeted X ds) = (begun X ds k 0, None) /\
    factors_ok K X (kt_fms k) /\ is_vec K (kt_w k) /\ kt_rank k = K /\
    kt_fms k = map (random_factor (cp_nn (ds_num ds)) draws) (seq 0 (length draws)).
Proof.
  intros Hi HX HF Hnn. destruct (random_init_ok HX HF) as (k & Ek & Erk & Efm & Hw & HF').
  assert (Hlen : length (kt_fms k) = length draws) by (rewrite Efm; apply map_length).
  unfold cp_init_components. rewrite Hi. cbn [andb String.eqb Ascii.eqb Bool.eqb]. unfold cp_init_random. rewrite Ek. cbn [bind].
  cbn [targeted ds_num with_num cp_with_target cp_nn].
  assert (Hall : forall nn, kt_fms k = map (random_factor None draws) (seq 0 (length draws)) ->
    factors_ok K X (map (random_factor nn draws) (seq 0 (length draws)))).
  { intros nn E. destruct HF' as [HU Hr].
    assert (HUn : forall m, (m < length draws)%nat -> nth m (kt_fms k) m0 = nth m (normalised K draws) m0) by (intros; now rewrite Efm).
    assert (Hn : forall m, (m < length draws)%nat -> is_mat (nrows (nth m (kt_fms k) m0)) K (random_factor nn draws m)).
    { intros m Hm. unfold random_factor. rewrite <- HUn by auto.
      destruct (match nn with Some l => nth m l false | None => false end); [apply is_mat_map_abs|]; apply nth_mats; auto; lia. }
    split.
    - unfold mats. rewrite Forall_map. apply Forall_forall. intros m Hm. apply in_seq in Hm.
      rewrite (is_mat_nrows (Hn m ltac:(lia))). apply Hn. lia.
    - rewrite <- Hr, E. unfold rows. rewrite !map_map. apply map_ext_in. intros m Hm. apply in_seq in Hm.
      rewrite (is_mat_nrows (Hn m ltac:(lia))). unfold random_factor. cbv zeta. rewrite <- HUn by lia. reflexivity. }
  assert (E0 : kt_fms k = map (random_factor None draws) (seq 0 (length draws))).
  { rewrite Efm. unfold random_factor. rewrite <- Hlen, Efm. clear. induction (normalised K draws) as [|U l IH]; [reflexivity|].
    cbn [length seq map nth]. f_equal. rewrite <- seq_shift, map_map. exact IH. }
  destruct (cp_nn (ds_num ds)) as [l|].
  - rewrite abs_loop by (rewrite Hlen; exact Hnn). cbn [bind].
    set (fs := map _ _). assert (EF : fs = map (random_factor (Some l) draws) (seq 0 (length draws))).
    { unfold fs. rewrite Hlen. apply map_ext. intros m. rewrite Nat.sub_0_r. cbn [Nat.leb]. rewrite Bool.andb_true_r. unfold random_factor.
      now rewrite Efm. }
    exists {| kt_rank := kt_rank k; kt_fms := fs; kt_w := kt_w k |}. split; [reflexivity|]. cbn [kt_fms kt_w]. rewrite EF. auto.
  - exists k. split; [reflexivity|]. auto.
Qed.

Lemma usable_begun disk draws X arg ds : cs_rank cs = K -> data_ok X -> usable_start env cs K X draws arg ->
  (match cp_nn (ds_num ds) with Some l => (length l <= length (shape X))%nat | None => True end) ->
  exists k, cp_init_components env cs disk draws arg (targeted X ds) = (begun X ds k 0, None) /\
    factors_ok K X (kt_fms k) /\ is_vec K (kt_w k) /\ kt_rank k = K.
Proof.
  intros HK HX [(Hi & -> & HF)|[(Hi & -> & HS & HK0 & Hall)|(Hi & d & -> & HF & Hw & HR)]] Hnn.
  - destruct (@random_components disk draws X ds Hi HX HF) as (k & E & A & B & C & _); eauto.
    destruct (cp_nn (ds_num ds)); auto. destruct HF as [_ Hr]. now rewrite (mode_len Hr).
  - destruct (@init_svd_ok env cs disk draws (targeted X ds) Hi HS) as (d & E & A & B & C & _).
    + apply HX.
    + cbn. destruct HX as (_ & H2 & _). intros E. rewrite E in H2. cbn in H2. lia.
    + now rewrite HK.
    + now rewrite HK.
    + rewrite HK in *. exists d. split; [exact E|]. split; [exact A|]. rewrite B. split; [apply is_vec_ones|exact C].
  - destruct (@init_precomputed env cs disk draws (targeted X ds) d Hi) as [Hacc _].
    exists d. split; auto. apply Hacc. rewrite HK. now apply factors_fit.
Qed.

Lemma free_flag c n m (s : cp_state) : free_flags c n -> length (kt_fms (cp_dec s)) = n -> (m < n)%nat ->
  exists l, or_unconstrained c s = Some l /\ nth_error l m = Some false.
Proof.
  intros [->| ->] Hl Hm; cbn [or_unconstrained]; [rewrite Hl|]; (eexists; split; [reflexivity|]); now apply nth_error_repeat.
Qed.

Lemma kt_storable k : mats K (kt_fms k) -> kt_fms k <> [] -> is_vec K (kt_w k) -> kt_rank k = K -> storable md k.
Proof.
  intros HU Hne Hw HR. pose proof (kt_init_mats HU Hne Hw) as E.
  destruct (@kt_roundtrip_lemma (kt_fms k) (Some (kt_w k)) k empty_group) as (g & A & B).
  - rewrite E. destruct k; cbn in *. now rewrite HR.
  - apply no_clash_empty.
  - exists g. auto.
Qed.
End Start.
