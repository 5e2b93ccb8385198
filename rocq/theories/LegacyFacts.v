(** Lemmas for C81: random test data and the old initialiser. *)
From Verif Require Export Legacy LegacySpec BestFacts DecompLemmas.
From Verif Require Import Prelude Lin.
Set Implicit Arguments.
Unset Strict Implicit.
Local Open Scope R_scope.

Lemma eps_def : eps15 = / 10 ^ 15. Proof. reflexivity. Qed.

Section Draws.
Variable draw : nat -> list nat -> nd.
Hypothesis Hdraw : rand_ok draw.

Lemma drawn_mat sizes rank m : (m < length sizes)%nat ->
  nth m (drawn draw sizes rank) m0 = draw m [nth m sizes 0%nat; rank] /\
  is_mat (nth m sizes 0%nat) rank (nth m (drawn draw sizes rank) m0).
Proof.
  intros Hm. unfold drawn. rewrite (nth_map_in (fun k => draw k [nth k sizes 0%nat; rank]) 0%nat) by (now rewrite seq_length).
  rewrite seq_nth by auto. cbn [Nat.add]. split; [reflexivity|]. apply Hdraw.
Qed.
Lemma drawn_length sizes rank : length (drawn draw sizes rank) = length sizes.
Proof. unfold drawn. now rewrite map_length, seq_length. Qed.
Lemma is_mat_any n k A : is_mat n k A -> is_mat (nrows A) (ncols A) A.
Proof. intros [Hw Hs]. split; auto. unfold nrows, ncols. rewrite Hs. reflexivity. Qed.
Lemma drawn_any sizes rank : any_mats (drawn draw sizes rank).
Proof.
  apply Forall_forall. intros A HA. destruct (In_nth _ _ m0 HA) as (m & Hm & <-). rewrite drawn_length in Hm.
  apply (is_mat_any (proj2 (@drawn_mat sizes rank m Hm))).
Qed.

Lemma unit_entry n k A i r : is_mat n k A -> (i < n)%nat -> Rabs (mget A i r) <= clen A r.
Proof.
  intros HA Hi. assert (E : nrows A = n) by (unfold nrows; now rewrite (proj2 HA)).
  unfold clen. rewrite E. rewrite <- (sqrt_Rsqr_abs (mget A i r)). apply sqrt_le_1_alt.
  replace (Rsqr (mget A i r)) with (mget A i r ^ 2) by (unfold Rsqr; ring).
  apply (@sum_term_le n (fun i => mget A i r ^ 2)); [intros; apply pow2_ge_0|exact Hi].
Qed.

Lemma random_factors sizes rank : exists Vs norms,
  create_random_factors draw sizes rank = Ok (Vs, norms) /\ length Vs = length sizes /\ length norms = length sizes /\
  forall m, (m < length sizes)%nat ->
    let D := draw m [nth m sizes 0%nat; rank] in let V := nth m Vs m0 in let n := nth m norms m0 in
    is_mat (nth m sizes 0%nat) rank V /\ is_mat 1 rank n /\
    forall r, (r < rank)%nat -> mget n 0 r = clen D r /\ clen V r < 1 /\
      forall i, (i < nth m sizes 0)%nat -> mget V i r * (mget n 0 r + / 10 ^ 15) = mget D i r /\ Rabs (mget V i r) < 1.
Proof.
  destruct (C24_each_lemma (@drawn_any sizes rank)) as (Vs & norms & E & L1 & L2 & H).
  exists Vs, norms. rewrite drawn_length in *. split; [exact E|]. split; [exact L1|]. split; [exact L2|].
  intros m Hm D V n. destruct (@drawn_mat sizes rank m Hm) as [Ed HD]. specialize (H m Hm). rewrite Ed in H, HD. fold D V n in H, HD.
  assert (He : 0 < / 10 ^ 15) by (apply Rinv_0_lt_compat, pow_lt; lra).
  destruct (C24_lemma HD He) as (V' & n' & E' & HV & Hn & Hc). rewrite H in E'. injection E' as <- <-.
  split; [exact HV|]. split; [exact Hn|]. intros r Hr. destruct (Hc r Hr) as (A1 & A2 & _ & A4 & _).
  split; [exact A1|]. split; [exact A4|]. intros i Hi. split; [now apply A2|].
  eapply Rle_lt_trans; [apply (unit_entry r HV Hi)|exact A4].
Qed.

Lemma random_data_raises ktensor sizes rank noise_factor :
  random_data draw ktensor sizes rank noise_factor = Err AttributeError.
Proof.
  unfold random_data. destruct (random_factors sizes rank) as (Vs & norms & E & _). rewrite E. reflexivity.
Qed.
End Draws.

(** *** The old initialiser *)
Lemma mapM_normalized Us : any_mats Us ->
  mapM (fun f => do p <- normalize_factor eps15 f ; Ok (fst p)) Us =
  Ok (map (fun U => scaled eps15 (nrows U) (ncols U) U) Us).
Proof.
  induction Us as [|U Us IH]; intros H; [reflexivity|]. apply Forall_cons_iff in H. destruct H as [HU H].
  cbn [mapM map]. rewrite (@normalize_factor_ok eps15 _ _ U HU) by (intros; apply colnorm_eps_pos, eps15_pos).
  cbn [bind fst]. now rewrite (IH H).
Qed.

Lemma old_random svd_u draw X rank : rand_ok draw -> exists Vs norms,
  create_random_factors draw (shape X) rank = Ok (Vs, norms) /\
  old_init_factors svd_u draw X rank "random" = Ok (Vs, np_ones [length (shape X); rank]).
Proof.
  intros HD. unfold create_random_factors, old_init_factors. rewrite (normalize_factors_ok (drawn_any HD _ _)).
  do 2 eexists. split; [reflexivity|]. change (String.eqb "random" "random") with true. cbn [bind]. unfold old_random_init.
  rewrite (mapM_normalized (drawn_any HD _ _)). reflexivity.
Qed.

Lemma first_columns_min u k : first_columns u k = first_columns u (Nat.min k (ncols u)).
Proof. unfold first_columns. now rewrite <- Nat.min_assoc, Nat.min_id. Qed.

Lemma old_svd svd_u draw X rank : wf X -> (forall n, In n (shape X) -> n <> 0%nat) -> mode_left_vectors svd_u X ->
  exists Vs, old_init_factors svd_u draw X rank "svd" = Ok (Vs, np_ones [length (shape X); rank]) /\
    length Vs = length (shape X) /\
    forall n, (n < length (shape X))%nat ->
      let N := nth n (shape X) 0%nat in let M := mode_width X n in let A := mget (mode_matrix X n) in
      let k := Nat.min rank N in let F := fun i r => (1 + / 10 ^ 15) * mget (nth n Vs m0) i r in
      is_mat N k (nth n Vs m0) /\ orth_cols N k F /\
      forall Q, orth_cols N k Q -> captured N M k A Q <= captured N M k A F.
Proof.
  intros HX Hz HL.
  assert (Hf : forall l, (forall i, In i l -> (i < length (shape X))%nat) ->
    exists Us, mapM (fun i => do M <- unfold X (Z.of_nat i) ; do u <- svd_u M ; first_columns u rank) l = Ok Us /\
      length Us = length l /\ forall t, (t < length l)%nat -> let n := nth t l 0%nat in let N := nth n (shape X) 0%nat in
      is_mat N (Nat.min rank N) (nth t Us m0) /\ exists U S Vh, is_full_svd N (mode_width X n) (mode_matrix X n) U S Vh /\
      orth_cols N (Nat.min rank N) (mget (nth t Us m0)) /\
      forall i r, (i < N)%nat -> (r < Nat.min rank N)%nat -> mget (nth t Us m0) i r = mget U i r).
  { induction l as [|i l IH]; intros Hl.
    - exists []. split; [reflexivity|]. split; [reflexivity|]. cbn. intros; lia.
    - destruct IH as (Us & E & HU & Ht). { intros; apply Hl; now right. }
      assert (Hi : (i < length (shape X))%nat) by (apply Hl; now left).
      assert (Hn : nth i (shape X) 0%nat <> 0%nat) by (apply Hz, nth_In; auto).
      destruct (HL i Hi) as (U & S & Vh & EU & HF).
      assert (Hc : ncols U = nth i (shape X) 0%nat) by (unfold ncols; now rewrite (proj2 (fsvd_U_shape HF))).
      destruct (@first_columns_ok _ (Nat.min rank (nth i (shape X) 0%nat)) _ (fsvd_U_shape HF) (fsvd_U_orth HF) ltac:(lia)) as (Q & EQ & HQ & HQo & HQe).
      exists (Q :: Us). cbn [mapM]. rewrite (unfold_mode HX Hi Hn). cbn [bind]. rewrite EU. cbn [bind].
      rewrite first_columns_min, Hc, EQ. cbn [bind].
      rewrite E. cbn [bind]. split; [reflexivity|]. split; [cbn; now rewrite HU|].
      intros [|t] Hlt; cbn in Hlt; cbn [nth].
      + split; auto. exists U, S, Vh. auto.
      + apply Ht. lia. }
  destruct (Hf (seq 0 (ndim X))) as (Us & E & HU & Ht).
  { intros i Hi. apply in_seq in Hi. unfold ndim in Hi. lia. }
  rewrite seq_length in HU, Ht. unfold ndim in HU, Ht.
  assert (HA : any_mats Us).
  { apply Forall_forall. intros V HV. destruct (In_nth _ _ m0 HV) as (n & Hn & <-). rewrite HU in Hn.
    destruct (Ht n Hn) as [H _]. apply (is_mat_any H). }
  exists (map (fun U => scaled eps15 (nrows U) (ncols U) U) Us). split; [|split].
  - unfold old_init_factors. change (String.eqb "svd" "random") with false. change (String.eqb "svd" "svd") with true. cbn [bind].
    unfold old_svd_init. rewrite E. cbn [bind]. now rewrite (mapM_normalized HA).
  - now rewrite map_length.
  - intros n Hn N M A k F. destruct (Ht n Hn) as (HM & U & S & Vh & HF & HO & He). rewrite seq_nth in * by auto. cbn [Nat.add] in *.
    fold N M k in HM, HF, HO, He.
    assert (EV : nth n (map (fun U => scaled eps15 (nrows U) (ncols U) U) Us) m0 = scaled eps15 N k (nth n Us m0)).
    { rewrite (nth_map_in (fun U => scaled eps15 (nrows U) (ncols U) U) m0) by (now rewrite HU).
      unfold nrows, ncols. now rewrite (proj2 HM). }
    assert (Hrows : nrows (nth n Us m0) = N) by (unfold nrows; now rewrite (proj2 HM)).
    assert (EF : forall i r, (i < N)%nat -> (r < k)%nat -> F i r = mget (nth n Us m0) i r).
    { intros i r Hi Hr. unfold F. rewrite EV. unfold scaled. rewrite mget_tab2 by auto.
      assert (EN : colnorm (nth n Us m0) r = 1).
      { unfold colnorm, colnorm2. rewrite Hrows, (HO r r Hr Hr), delta_refl. apply sqrt_1. }
      rewrite EN. rewrite <- eps_def. pose proof eps15_pos. field. lra. }
    split; [rewrite EV; apply is_mat_tab2|]. split.
    + intros a b Ha Hb. rewrite <- (HO a b Ha Hb). apply sum_ext. intros i Hi. now rewrite !EF by auto.
    + intros Q HQ. assert (EC : captured N M k A F = captured N M k A (mget U)).
      { unfold captured. apply sum_ext. intros q Hq. apply sum_ext. intros j Hj. f_equal. apply sum_ext. intros i Hi.
        rewrite EF by auto. now rewrite He. }
      rewrite EC. apply (first_columns_best HF); auto. unfold k. lia.
Qed.

Lemma old_scheme svd_u draw X rank scheme : scheme <> "random"%string -> scheme <> "svd"%string ->
  old_init_factors svd_u draw X rank scheme = Err ValueError.
Proof.
  intros H1 H2. unfold old_init_factors. apply String.eqb_neq in H1, H2. now rewrite H1, H2.
Qed.
