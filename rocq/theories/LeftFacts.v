(** What a failed preparation of CP_ALS leaves behind (C96). *)
From Verif Require Export LeftSpec CPComplete CPLemmas.
From Verif Require Import Prelude Lin.
Set Implicit Arguments.
Unset Strict Implicit.
Local Open Scope R_scope.

Lemma step_length env d p d' : cp_orthonormalise_step env d p = Ok d' -> length (kt_fms d') = length (kt_fms d).
Proof.
  destruct p as [m o]. unfold cp_orthonormalise_step. destruct (list_get (kt_fms d) m) as [U|]; [|discriminate]. cbn [bind].
  destruct o; [|intros [= <-]; reflexivity]. destruct (env_qr env U) as [Q|]; [|discriminate]. cbn [bind].
  intros [= <-]. cbn [kt_with_factor kt_fms]. apply length_replace_at.
Qed.
Lemma loop_length env l : forall d d', foldM (cp_orthonormalise_step env) l d = Ok d' -> length (kt_fms d') = length (kt_fms d).
Proof.
  induction l as [|p l IH]; intros d d'; cbn [foldM]; [intros [= <-]; reflexivity|].
  destruct (cp_orthonormalise_step env d p) as [d1|] eqn:E; [|discriminate]. cbn [bind]. intros H.
  rewrite (IH _ _ H). now apply step_length in E.
Qed.
Lemma left_length env l : forall d,
  length (kt_fms (foldL (cp_orthonormalise_step env) (fun d _ => d) l d)) = length (kt_fms d).
Proof.
  induction l as [|p l IH]; intros d; cbn [foldL]; [reflexivity|].
  destruct (cp_orthonormalise_step env d p) as [d1|] eqn:E; [|reflexivity]. rewrite IH. now apply step_length in E.
Qed.

(** What initialising the components leaves alone, and that the outcome depends on nothing else *)
Lemma components_rest env cs disk draws arg ds ds' e :
  cp_init_components env cs disk draws arg ds = (ds', e) ->
  ds_logs ds' = ds_logs ds /\ ds_file ds' = ds_file ds /\ ds_max ds' = ds_max ds.
Proof.
  unfold cp_init_components. set (init := lower _).
  assert (HL : forall f, load_checkpoint (cp_model env cs) f None ds = (ds', e) ->
    ds_logs ds' = ds_logs ds /\ ds_file ds' = ds_file ds /\ ds_max ds' = ds_max ds).
  { intros f. unfold load_checkpoint. destruct (lookup _ _) as [fin|]; [|intros [= <- <-]; auto].
    destruct (as_int fin) as [z|]; [|intros [= <- <-]; auto].
    destruct (in_file _ _); [|intros [= <- <-]; cbn; auto].
    destruct (lookup _ (f_groups f)) as [g|]; [|intros [= <- <-]; cbn; auto].
    destruct (do d <- md_load _ g ; _) as [d|]; intros [= <- <-]; cbn; auto. }
  assert (HR : forall r : res cp_state,
    (match r with Ok s => (with_num s ds, None) | Err e => (ds, Some e) end) = (ds', e) ->
    ds_logs ds' = ds_logs ds /\ ds_file ds' = ds_file ds /\ ds_max ds' = ds_max ds).
  { intros [s|e']; intros [= <- <-]; cbn; auto. }
  destruct (_ && _); [intros [= <- <-]; auto|].
  destruct (String.eqb init "random"); [apply HR|].
  destruct (String.eqb init "svd"); [apply HR|].
  destruct (String.eqb init "from_checkpoint").
  { destruct arg as [|k|[f|]]; try (intros [= <- <-]; auto). apply HL. }
  destruct (String.eqb init "precomputed").
  { destruct arg as [|k|p]; try (intros [= <- <-]; auto). apply HR. }
  destruct (disk _) as [f|]; [apply HL|intros [= <- <-]; auto].
Qed.

Section Left.
Variables (env : cp_env) (cs : cp_settings).

Lemma filled_self n c : kept_or_filled n c c.
Proof. now left. Qed.
Lemma filled_or n c s : length (kt_fms (cp_dec s)) = n -> kept_or_filled n c (or_unconstrained c s).
Proof. intros <-. destruct c; [now left|now right]. Qed.

Theorem left_behind disk draws X max_its arg ds ds1 e :
  cp_init_fit env cs disk draws X max_its arg ds = (ds1, Some e) -> only_prepared X max_its ds ds1.
Proof.
  unfold cp_init_fit. fold (targeted X ds).
  destruct (cp_init_components env cs disk draws arg (targeted X ds)) as [d o] eqn:E.
  destruct (init_keeps_last E) as (K1 & K2 & K3 & K4 & K5 & K6). destruct (components_rest E) as (R1 & R2 & R3).
  cbn in K1, K2, K3, K4, K5, K6, R1, R2, R3.
  destruct o as [e0|].
  { intros [= <- <-]. constructor; auto; try (left; congruence). }
  set (d1 := match max_its with Some m => with_max m d | None => d end).
  assert (En : ds_num d1 = ds_num d) by (unfold d1; destruct max_its; reflexivity).
  assert (El : ds_logs d1 = ds_logs ds /\ ds_file d1 = ds_file ds) by (unfold d1; destruct max_its; auto).
  assert (Em : ds_max d1 = ds_max ds \/ Some (ds_max d1) = max_its) by (unfold d1; destruct max_its; cbn; auto).
  rewrite En. set (s0 := cp_with_dec _ (ds_num d)). set (s := cp_with_constraints _ _ s0).
  assert (Hkeep : forall dd s' p q, length (kt_fms (cp_dec s')) = length (kt_fms (cp_dec (ds_num d))) ->
    s' = cp_with_dec dd s -> only_prepared X max_its ds (with_conv p q (with_num s' d1)) /\ only_prepared X max_its ds (with_num s' d1)).
  { intros dd s' p q Hl ->. split; constructor; cbn; try tauto; auto;
      rewrite <- ?K5, <- ?K6; apply filled_or; symmetry; exact Hl. }
  destruct (cp_orthonormalise env s) as [s2|e1] eqn:EO.
  - unfold cp_orthonormalise in EO. destruct (cp_orth s) as [l|]; [|discriminate]. cbn [not_none bind] in EO.
    destruct (foldM _ _ _) as [d2|] eqn:EF; [|discriminate]. cbn [bind] in EO. injection EO as <-.
    apply loop_length in EF. destruct (cp_SSE env (cp_with_dec d2 s)) as [l2|e2]; [discriminate|]. intros [= <- <-].
    now apply (Hkeep d2).
  - intros [= <- <-]. unfold cp_orthonormalise_left. destruct (cp_orth s) as [l|] eqn:Es.
    + eapply (Hkeep _ _ PInf PInf); [|reflexivity]. cbn [cp_with_dec cp_dec]. now rewrite left_length.
    + exfalso. unfold s in Es. cbn in Es. destruct (cp_orth (ds_num d)); discriminate.
Qed.

(** The starts agree when the constraint lists do up to filling in. *)
Lemma random_loop_false l : forall a d, Forall (fun b => b = false) l -> (a + length l <= length (kt_fms d))%nat ->
  foldM (fun d '(mode, isnn) =>
           do U <- list_get (kt_fms d) mode ;
           Ok (if (isnn : bool) then kt_with_factor mode (np_map Rabs U) d else d))
        (combine (seq a (length l)) l) d = Ok d.
Proof.
  induction l as [|b l IH]; intros a d Hl Hle; [reflexivity|].
  inversion Hl as [|? ? -> Hl']; subst. cbn [length seq combine foldM]. cbn [length] in Hle.
  rewrite (@list_get_nth _ _ a m0) by lia. cbn [bind]. apply IH; auto. lia.
Qed.
Lemma repeat_false n : Forall (fun b => b = false) (repeat false n).
Proof. apply Forall_forall. intros b Hb. now apply repeat_spec in Hb. Qed.

Lemma components_transfer disk draws arg D D1 d :
  cp_init_components env cs disk draws arg D = (d, None) ->
  cp_X (ds_num D1) = cp_X (ds_num D) -> ds_it D1 = ds_it D ->
  kept_or_filled (n_factors d) (cp_nn (ds_num D)) (cp_nn (ds_num D1)) ->
  cp_init_components env cs disk draws arg D1 =
    (with_num (cp_with_dec (cp_dec (ds_num d)) (ds_num D1)) (with_it (ds_it d) D1), None).
Proof.
  intros E HX HI HN. unfold cp_init_components in *. set (init := lower _) in *.
  assert (HL : forall f, load_checkpoint (cp_model env cs) f None D = (d, None) ->
    load_checkpoint (cp_model env cs) f None D1 =
    (with_num (cp_with_dec (cp_dec (ds_num d)) (ds_num D1)) (with_it (ds_it d) D1), None)).
  { intros f. unfold load_checkpoint. destruct (lookup _ _) as [fin|]; [|discriminate].
    destruct (as_int fin) as [z|]; [|discriminate].
    destruct (in_file _ _); [|discriminate]. destruct (lookup _ (f_groups f)) as [g|]; [|discriminate].
    assert (Ec : (do d <- md_load (cp_model env cs) g ; do _ <- md_check (cp_model env cs) (ds_num (with_it z D1)) d ; Ok d) =
                 (do d <- md_load (cp_model env cs) g ; do _ <- md_check (cp_model env cs) (ds_num (with_it z D)) d ; Ok d)).
    { cbn [md_load md_check cp_model with_it ds_num]. unfold cp_check. now rewrite HX. }
    rewrite Ec. match goal with |- context [match ?t with Ok _ => _ | Err _ => _ end] => destruct t as [k|] end; [|discriminate]. intros [= <-]. reflexivity. }
  assert (HI' : ds_it D = ds_it D -> with_it (ds_it D) D1 = D1) by (intros _; rewrite <- HI; destruct D1; reflexivity).
  assert (HR : forall f : cp_state -> res cp_state,
    (forall s, f (ds_num D) = Ok s -> d = with_num s D -> f (ds_num D1) = Ok (cp_with_dec (cp_dec s) (ds_num D1))) ->
    (match f (ds_num D) with Ok s => (with_num s D, None) | Err e => (D, Some e) end) = (d, None) ->
    (match f (ds_num D1) with Ok s => (with_num s D1, None) | Err e => (D1, Some e) end) =
    (with_num (cp_with_dec (cp_dec (ds_num d)) (ds_num D1)) (with_it (ds_it d) D1), None)).
  { intros f Hf. destruct (f (ds_num D)) as [s|e']; [|discriminate]. intros [= <-].
    rewrite (Hf s eq_refl eq_refl). cbn [ds_num with_num ds_it]. now rewrite (HI' eq_refl). }
  destruct (_ && _); [discriminate|].
  destruct (String.eqb init "random").
  { revert E. apply (HR (cp_init_random draws)). intros s Es Ed. unfold cp_init_random in *.
    destruct (kt_random_init draws) as [k|]; [|discriminate]. cbn [bind] in *.
    destruct HN as [->|[HN1 HN2]].
    - destruct (cp_nn (ds_num D)) as [l|]; [|injection Es as <-; reflexivity].
      destruct (foldM _ _ k) as [k'|]; [|discriminate]. cbn [bind] in *. injection Es as <-. reflexivity.
    - rewrite HN1 in Es. injection Es as <-. rewrite HN2, random_loop_false; [reflexivity|apply repeat_false|].
      rewrite repeat_length, Ed. unfold n_factors. cbn. lia. }
  destruct (String.eqb init "svd").
  { revert E. apply (HR (cp_init_svd env cs)). intros s Es Ed. unfold cp_init_svd in *. rewrite HX.
    destruct (py_min _); [|discriminate]. cbn [bind] in *. destruct (_ <? _)%nat; [discriminate|].
    destruct (mapM _ _) as [fms|]; [|discriminate]. cbn [bind] in *.
    destruct (kt_init fms None) as [k|]; [|discriminate]. cbn [bind] in *. injection Es as <-. reflexivity. }
  destruct (String.eqb init "from_checkpoint").
  { destruct arg as [|k|[f|]]; try discriminate. now apply HL. }
  destruct (String.eqb init "precomputed").
  { destruct arg as [|k|p]; try discriminate. revert E.
    apply (HR (fun s => do _ <- cp_check cs s k ; Ok (cp_with_dec k s))). intros s Es _.
    assert (Ec : cp_check cs (ds_num D1) k = cp_check cs (ds_num D) k) by (unfold cp_check; now rewrite HX).
    rewrite Ec. destruct (cp_check cs (ds_num D) k); [|discriminate]. cbn [bind] in *. injection Es as <-. reflexivity. }
  destruct (disk _) as [f|]; [now apply HL|discriminate].
Qed.

Lemma filled_done n c c' s : length (kt_fms (cp_dec s)) = n -> kept_or_filled n c c' ->
  or_unconstrained c' s = or_unconstrained c s.
Proof. intros <- [->|[-> ->]]; reflexivity. Qed.

Lemma orthonormalise_length s s' : cp_orthonormalise env s = Ok s' -> length (kt_fms (cp_dec s')) = length (kt_fms (cp_dec s)).
Proof.
  unfold cp_orthonormalise. destruct (cp_orth s) as [l|]; [|discriminate]. cbn [not_none bind].
  destruct (foldM _ _ _) as [d|] eqn:EF; [|discriminate]. cbn [bind]. intros [= <-]. now apply loop_length in EF.
Qed.

Theorem next_preparation disk draws X max_its arg ds ds1 e disk' draws' X' max_its' arg' ds2 :
  cp_init_fit env cs disk draws X max_its arg ds = (ds1, Some e) ->
  cp_init_fit env cs disk' draws' X' max_its' arg' ds = (ds2, None) ->
  (cp_nn (ds_num ds1) = cp_nn (ds_num ds) /\ cp_orth (ds_num ds1) = cp_orth (ds_num ds)) \/ n_factors ds2 = n_factors ds1 ->
  max_its = None \/ max_its' <> None ->
  cp_init_fit env cs disk' draws' X' max_its' arg' ds1 = (ds2, None).
Proof.
  intros E1 E2 Hn Hm. destruct (left_behind E1) as [O1 O2 O3 O4 O5 _ _ O8 O9].
  unfold cp_init_fit in *. fold (targeted X' ds) in E2. fold (targeted X' ds1). clear E1.
  destruct (cp_init_components env cs disk' draws' arg' (targeted X' ds)) as [d o] eqn:E.
  destruct (init_keeps_last E) as (K1 & K2 & K3 & K4 & K5 & K6). destruct (components_rest E) as (R1 & R2 & R3).
  destruct o as [e0|]; [discriminate|].
  set (dm := match max_its' with Some m => with_max m d | None => d end) in *.
  assert (En : ds_num dm = ds_num d) by (unfold dm; destruct max_its'; reflexivity). rewrite En in E2.
  set (s := cp_with_constraints _ _ _) in E2.
  destruct (cp_orthonormalise env s) as [s2|] eqn:EO; [|discriminate].
  destruct (cp_SSE env s2) as [l|] eqn:ES; [|discriminate]. injection E2 as <-.
  assert (HF : n_factors d = n_factors (with_conv PInf (Fin l) (with_num (cp_with_cache (cp_last s2) None s2) dm))).
  { unfold n_factors. cbn. symmetry. apply (orthonormalise_length EO). }
  assert (HNN : kept_or_filled (n_factors d) (cp_nn (ds_num ds)) (cp_nn (ds_num ds1))).
  { destruct Hn as [[Hn _]|Hn]; [now left|]. now rewrite HF, Hn. }
  assert (HOO : kept_or_filled (n_factors d) (cp_orth (ds_num ds)) (cp_orth (ds_num ds1))).
  { destruct Hn as [[_ Hn]|Hn]; [now left|]. now rewrite HF, Hn. }
  rewrite (components_transfer (D1 := targeted X' ds1) E); [|reflexivity|reflexivity|exact HNN].
  set (d1 := with_num _ (with_it (ds_it d) _)).
  set (dm1 := match max_its' with Some m => with_max m d1 | None => d1 end).
  assert (En1 : ds_num dm1 = ds_num d1) by (unfold dm1; destruct max_its'; reflexivity). rewrite En1.
  assert (Es : cp_with_constraints
      (or_unconstrained (cp_nn (cp_with_dec (kt_reset_weights (cp_dec (ds_num d1))) (ds_num d1)))
         (cp_with_dec (kt_reset_weights (cp_dec (ds_num d1))) (ds_num d1)))
      (or_unconstrained (cp_orth (cp_with_dec (kt_reset_weights (cp_dec (ds_num d1))) (ds_num d1)))
         (cp_with_dec (kt_reset_weights (cp_dec (ds_num d1))) (ds_num d1)))
      (cp_with_dec (kt_reset_weights (cp_dec (ds_num d1))) (ds_num d1)) = s).
  { unfold s, cp_with_constraints. cbn in K1, K2, K3, K4, K5, K6. cbn.
    rewrite K1, K2, K3, K4, K5, K6, O4, O5. f_equal.
    - rewrite (filled_done (n := n_factors d) (c := cp_nn (ds_num ds))); [|reflexivity|exact HNN]. reflexivity.
    - rewrite (filled_done (n := n_factors d) (c := cp_orth (ds_num ds))); [|reflexivity|exact HOO]. reflexivity. }
  rewrite Es, EO, ES. f_equal. unfold with_conv, with_num. cbn. cbn in R1, R2, R3.
  assert (EM : ds_max dm1 = ds_max dm).
  { unfold dm1, dm. destruct max_its'; [reflexivity|]. cbn. rewrite R3. destruct Hm as [->|Hm]; [|congruence].
    destruct O3 as [O3|O3]; [exact O3|discriminate]. }
  f_equal; auto.
  - unfold dm1, dm, d1. destruct max_its'; reflexivity.
  - unfold dm1, dm, d1. destruct max_its'; cbn; congruence.
  - unfold dm1, dm, d1. destruct max_its'; cbn; congruence.
Qed.

Theorem next_fit cf disk draws X max_its arg ds ds1 e disk' draws' X' max_its' arg' ds2 :
  cp_init_fit env cs disk draws X max_its arg ds = (ds1, Some e) ->
  cp_init_fit env cs disk' draws' X' max_its' arg' ds = (ds2, None) ->
  (cp_nn (ds_num ds1) = cp_nn (ds_num ds) /\ cp_orth (ds_num ds1) = cp_orth (ds_num ds)) \/ n_factors ds2 = n_factors ds1 ->
  max_its = None \/ max_its' <> None ->
  cp_fit env cs cf disk' draws' X' max_its' arg' ds1 = cp_fit env cs cf disk' draws' X' max_its' arg' ds.
Proof. intros E1 E2 H3 H4. unfold cp_fit. now rewrite (next_preparation E1 E2 H3 H4), E2. Qed.

(** The QR factorisation fails at mode m. *)
Lemma orth_loop_stops l m e : forall a d,
  nth_error l m = Some true -> (a + m < length (kt_fms d))%nat ->
  (forall j, (j < m)%nat -> nth_error l j = Some true -> exists Q, env_qr env (nth (a + j) (kt_fms d) m0) = Ok Q) ->
  env_qr env (nth (a + m) (kt_fms d) m0) = Err e ->
  foldM (cp_orthonormalise_step env) (combine (seq a (length l)) l) d = Err e /\
  exists d', foldL (cp_orthonormalise_step env) (fun d _ => d) (combine (seq a (length l)) l) d = d' /\
    kt_w d' = kt_w d /\ kt_rank d' = kt_rank d /\ length (kt_fms d') = length (kt_fms d) /\
    forall i, ((a <= i < a + m)%nat -> nth_error l (i - a) = Some true ->
               env_qr env (nth i (kt_fms d) m0) = Ok (nth i (kt_fms d') m0)) /\
              (~ ((a <= i < a + m)%nat /\ nth_error l (i - a) = Some true) -> nth i (kt_fms d') m0 = nth i (kt_fms d) m0).
Proof.
  revert l. induction m as [|m IH]; intros [|b l] a d Hm Hlt Hq He; try discriminate Hm.
  - injection Hm as ->. cbn [length seq combine foldM foldL]. unfold cp_orthonormalise_step.
    rewrite Nat.add_0_r in He. rewrite (@list_get_nth _ _ a m0) by lia. cbn [bind]. rewrite He. cbn [bind].
    split; [reflexivity|]. exists d. repeat split; auto. lia.
  - cbn [nth_error] in Hm. cbn [length seq combine foldM foldL].
    replace (cp_orthonormalise_step env d (a, b)) with
      (if b then do Q <- env_qr env (nth a (kt_fms d) m0) ; Ok (kt_with_factor a Q d) else Ok d)
      by (unfold cp_orthonormalise_step; rewrite (@list_get_nth _ _ a m0) by lia; reflexivity).
    destruct b.
    + destruct (Hq 0%nat ltac:(lia) eq_refl) as (Q & EQ). rewrite Nat.add_0_r in EQ. rewrite EQ. cbn [bind].
      assert (Hne : forall i, i <> a -> nth i (kt_fms (kt_with_factor a Q d)) m0 = nth i (kt_fms d) m0).
      { intros i Hi. cbn [kt_with_factor kt_fms]. apply nth_replace_at_neq. congruence. }
      destruct (IH l (S a) (kt_with_factor a Q d) Hm) as (EM & d' & EL & W & R & L & F).
      * cbn [kt_with_factor kt_fms]. rewrite length_replace_at. lia.
      * intros j Hj Hb. rewrite Hne by lia. replace (S a + j)%nat with (a + S j)%nat by lia. apply (Hq (S j)); [lia|exact Hb].
      * rewrite Hne by lia. now replace (S a + m)%nat with (a + S m)%nat by lia.
      * split; [exact EM|]. exists d'. split; [exact EL|]. split; [exact W|]. split; [exact R|].
        split; [rewrite L; cbn [kt_with_factor kt_fms]; apply length_replace_at|].
        intros i. destruct (F i) as [F1 F2]. destruct (Nat.eq_dec i a) as [->|Hi].
        -- assert (Ha : nth a (kt_fms d') m0 = Q).
           { rewrite F2 by lia. cbn [kt_with_factor kt_fms]. apply nth_replace_at_eq. lia. }
           split; [intros; now rewrite Ha|]. rewrite Nat.sub_diag. cbn [nth_error]. intros H. exfalso. apply H. split; [lia|reflexivity].
        -- rewrite (Hne i Hi) in F1, F2. split.
           ++ intros Hr Hb. apply F1; [lia|]. replace (i - a)%nat with (S (i - S a)) in Hb by lia. exact Hb.
           ++ intros H. apply F2. intros [Hr Hb]. apply H. split; [lia|]. replace (i - a)%nat with (S (i - S a)) by lia. exact Hb.
    + destruct (IH l (S a) d Hm) as (EM & d' & EL & W & R & L & F).
      * lia.
      * intros j Hj Hb. replace (S a + j)%nat with (a + S j)%nat by lia. apply (Hq (S j)); [lia|exact Hb].
      * now replace (S a + m)%nat with (a + S m)%nat by lia.
      * cbn [bind]. split; [exact EM|]. exists d'. split; [exact EL|]. split; [exact W|]. split; [exact R|]. split; [exact L|].
        intros i. destruct (F i) as [F1 F2]. split.
        -- intros Hr Hb. destruct (Nat.eq_dec i a) as [->|Hi]; [rewrite Nat.sub_diag in Hb; discriminate|].
           apply F1; [lia|]. replace (i - a)%nat with (S (i - S a)) in Hb by lia. exact Hb.
        -- intros H. apply F2. intros [Hr Hb]. apply H. split; [lia|]. replace (i - a)%nat with (S (i - S a)) by lia. exact Hb.
Qed.

Theorem qr_failure cf disk draws X max_its arg ds d l m e :
  cp_init_components env cs disk draws arg (targeted X ds) = (d, None) ->
  cp_orth (ds_num ds) = Some l -> nth_error l m = Some true -> (m < n_factors d)%nat ->
  let start := kt_fms (cp_dec (ds_num d)) in
  (forall j, (j < m)%nat -> nth_error l j = Some true -> exists Q, env_qr env (nth j start m0) = Ok Q) ->
  env_qr env (nth m start m0) = Err e ->
  exists ds1, cp_fit env cs cf disk draws X max_its arg ds = (ds1, Some e) /\
    n_factors ds1 = n_factors d /\
    (forall j, (j < m)%nat -> nth_error l j = Some true ->
       env_qr env (nth j start m0) = Ok (nth j (kt_fms (cp_dec (ds_num ds1))) m0)) /\
    (forall j, (m <= j)%nat \/ nth_error l j <> Some true -> nth j (kt_fms (cp_dec (ds_num ds1))) m0 = nth j start m0) /\
    kt_w (cp_dec (ds_num ds1)) = kt_w (kt_reset_weights (cp_dec (ds_num d))).
Proof.
  intros E Hl Hm Hlt start Hq He. unfold cp_fit, cp_init_fit. fold (targeted X ds). rewrite E.
  destruct (init_keeps_last E) as (_ & _ & _ & _ & _ & K6). cbn in K6. rewrite Hl in K6.
  set (dm := match max_its with Some m => with_max m d | None => d end).
  assert (En : ds_num dm = ds_num d) by (unfold dm; destruct max_its; reflexivity). rewrite En.
  set (s := cp_with_constraints _ _ _).
  assert (Es : cp_orth s = Some l) by (unfold s; cbn; now rewrite K6).
  destruct (@orth_loop_stops l m e 0%nat (cp_dec s) Hm) as (EM & d' & EL & W & R & L & F); auto.
  unfold cp_orthonormalise. rewrite Es. cbn [not_none bind]. rewrite EM. cbn [bind].
  eexists. split; [reflexivity|]. unfold cp_orthonormalise_left. rewrite Es.
  unfold n_factors. cbn [with_num ds_num cp_with_dec cp_dec]. rewrite EL. split; [exact L|]. split; [|split; [|exact W]].
  - intros j Hj Hb. apply (proj1 (F j)); [lia|]. now rewrite Nat.sub_0_r.
  - intros j Hj. apply (proj2 (F j)). rewrite Nat.sub_0_r. intros [H1 H2]. destruct Hj as [Hj|Hj]; [lia|now apply Hj].
Qed.

(** Flags for more modes than the data have *)
Lemma random_loop_short l : forall a d, Forall (fun b => b = false) l -> (a <= length (kt_fms d) < a + length l)%nat ->
  foldM (fun d '(mode, isnn) =>
           do U <- list_get (kt_fms d) mode ;
           Ok (if (isnn : bool) then kt_with_factor mode (np_map Rabs U) d else d))
        (combine (seq a (length l)) l) d = Err IndexError.
Proof.
  induction l as [|b l IH]; intros a d Hl Hle; cbn [length] in Hle; [lia|].
  inversion Hl as [|? ? -> Hl']; subst. cbn [length seq combine foldM].
  destruct (Nat.eq_dec a (length (kt_fms d))) as [->|Hne].
  - unfold list_get. now rewrite (proj2 (nth_error_None _ _)) by lia.
  - rewrite (@list_get_nth _ _ a m0) by lia. cbn [bind]. apply IH; auto. lia.
Qed.
Lemma orth_loop_short l : forall a d, Forall (fun b => b = false) l -> (a <= length (kt_fms d) < a + length l)%nat ->
  foldM (cp_orthonormalise_step env) (combine (seq a (length l)) l) d = Err IndexError.
Proof.
  induction l as [|b l IH]; intros a d Hl Hle; cbn [length] in Hle; [lia|].
  inversion Hl as [|? ? -> Hl']; subst. cbn [length seq combine foldM cp_orthonormalise_step].
  destruct (Nat.eq_dec a (length (kt_fms d))) as [->|Hne].
  - unfold list_get. now rewrite (proj2 (nth_error_None _ _)) by lia.
  - rewrite (@list_get_nth _ _ a m0) by lia. cbn [bind]. apply IH; auto. lia.
Qed.

Theorem fewer_modes K cf disk draws X max_its arg ds n n' :
  cs_rank cs = K -> data_ok X -> usable_start env cs K X draws arg ->
  cp_orth (ds_num ds) = Some (repeat false n) -> (length (shape X) < n)%nat -> free_flags (cp_nn (ds_num ds)) n' ->
  exists ds', cp_fit env cs cf disk draws X max_its arg ds = (ds', Some IndexError).
Proof.
  intros HK HX HS HO Hn HN.
  assert (Hgo : forall k, cp_init_components env cs disk draws arg (targeted X ds) = (begun X ds k 0, None) ->
    length (kt_fms k) = length (shape X) ->
    exists ds', cp_fit env cs cf disk draws X max_its arg ds = (ds', Some IndexError)).
  { intros k E Hk. unfold cp_fit, cp_init_fit. fold (targeted X ds). rewrite E.
    set (dm := match max_its with Some m => with_max m _ | None => _ end).
    assert (En : ds_num dm = ds_num (begun X ds k 0)) by (unfold dm; destruct max_its; reflexivity). rewrite En.
    set (s := cp_with_constraints _ _ _).
    assert (Es : cp_orth s = Some (repeat false n)) by (unfold s; cbn; now rewrite HO).
    unfold cp_orthonormalise. rewrite Es. cbn [not_none bind].
    rewrite orth_loop_short; [|apply repeat_false|rewrite repeat_length; cbn; lia]. cbn [bind]. eauto. }
  destruct (le_lt_dec n' (length (shape X))) as [Hle|Hlt].
  - destruct (@usable_begun env cs K disk draws X arg ds HK HX HS) as (k & E & [_ HF] & _).
    { destruct HN as [->| ->]; auto. now rewrite repeat_length. }
    apply (Hgo k E). apply (mode_len HF).
  - destruct HS as [(Hi & -> & HF)|HS].
    + destruct HN as [HN|HN].
      * destruct (@usable_begun env cs K disk draws X NoArg ds HK HX) as (k & E & [_ HF'] & _).
        { left. auto. } { now rewrite HN. }
        apply (Hgo k E). apply (mode_len HF').
      * destruct (random_init_ok HX HF) as (k & Ek & _ & _ & _ & HF').
        exists (targeted X ds). unfold cp_fit, cp_init_fit. fold (targeted X ds).
        unfold cp_init_components. rewrite Hi. cbn [andb String.eqb Ascii.eqb Bool.eqb]. unfold cp_init_random. rewrite Ek. cbn [bind].
        cbn [targeted ds_num with_num cp_with_target cp_nn]. rewrite HN.
        rewrite random_loop_short; [reflexivity|apply repeat_false|].
        destruct HF' as [_ HF']. rewrite (mode_len HF'), repeat_length. lia.
    + destruct (@usable_begun env cs K disk draws X arg (with_num (cp_with_constraints None None (ds_num ds)) ds) HK HX) as (k & E & [_ HF'] & _).
      { now right. } { exact I. }
      apply (Hgo k); [|apply (mode_len HF')].
      destruct HS as [(Hi & -> & _)|(Hi & d & -> & _)]; unfold cp_init_components in *; rewrite Hi in *;
        cbn -[cp_init_svd cp_check] in *.
      * unfold cp_init_svd in *. cbn [cp_X cp_with_target cp_with_constraints] in *.
        destruct (py_min _); [|discriminate]. cbn [bind] in *. destruct (_ <? _)%nat; [discriminate|].
        destruct (mapM _ _) as [fms|]; [|discriminate]. cbn [bind] in *.
        destruct (kt_init fms None) as [k'|]; [|discriminate]. cbn [bind] in *. unfold begun, targeted in *. cbn in *.
        injection E as E. subst k'. reflexivity.
      * unfold cp_check in *. cbn [cp_X cp_with_target cp_with_constraints] in *.
        destruct (foldM _ _ tt); [|discriminate]. cbn [bind] in *. unfold begun, targeted in *. cbn in *.
        injection E as E. subst k. reflexivity.
Qed.

(** Flags for fewer modes than the data have *)
Lemma update_until n K : forall a s, cp_coherent K s -> cs_rank cs = K -> cs_ridge cs = None -> svd_works_on K K (env_svd env) ->
  cp_orth s = Some (repeat false (a + n)) -> (exists n', (a + n <= n')%nat /\ cp_nn s = Some (repeat false n')) ->
  (a + n < length (shape (cp_X s)))%nat ->
  exists s', cp_update_modes env cs (seq a (length (shape (cp_X s)) - a)) s = (s', Some IndexError) /\
    same_problem s s' /\ cp_coherent K s' /\
    (forall m, (m < a \/ a + n <= m)%nat -> nth m (kt_fms (cp_dec s')) m0 = nth m (kt_fms (cp_dec s)) m0) /\
    cp_last s' = match n with O => cp_last s | _ => Some (a + n - 1)%nat end.
Proof.
  induction n as [|n IH]; intros a s H HK Hr Hsvd HO (n' & Hn' & HN) Hlt.
  - replace (length (shape (cp_X s)) - a)%nat with (S (length (shape (cp_X s)) - S a)) by lia. cbn [seq cp_update_modes].
    assert (Hm : (a < length (shape (cp_X s)))%nat) by lia.
    destruct (als_rhs_ok env (co_data H) (co_fac H) Hm) as (P & EP & _).
    destruct (als_lhs_ok a (proj1 (co_fac H)) HK) as (V & EV & _).
    unfold cp_update_factor. rewrite EV, EP. cbn [bind]. unfold get_rightsolve. rewrite HO, HN. cbn [not_none bind].
    assert (El : list_get (repeat false (a + 0)) a = Err IndexError).
    { unfold list_get. now rewrite (proj2 (nth_error_None _ _)) by (rewrite repeat_length; lia). }
    destruct (list_get (repeat false n') a) as [b|e] eqn:Eb.
    + cbn [bind]. rewrite El. cbn [bind]. exists s. split; [reflexivity|]. split; [apply same_problem_refl|]. split; [exact H|]. split; auto.
    + assert (e = IndexError) as ->.
      { unfold list_get in Eb. destruct (nth_error _ a); [discriminate|]. now injection Eb. }
      cbn [bind]. exists s. split; [reflexivity|]. split; [apply same_problem_refl|]. split; [exact H|]. split; auto.
  - replace (length (shape (cp_X s)) - a)%nat with (S (length (shape (cp_X s)) - S a)) by lia. cbn [seq cp_update_modes].
    assert (Hm : (a < length (shape (cp_X s)))%nat) by lia.
    assert (Hfree : free_mode cs s a).
    { split; [exact Hr|]. split; eexists; (split; [eassumption|]); apply nth_error_repeat; lia. }
    destruct (update_optimal H HK Hm Hfree Hsvd) as (s1 & Z & E1 & HZ & F1 & SP & HC & _).
    rewrite E1. destruct SP as [SX SN SW Snn Sorth].
    destruct (IH (S a) s1 HC HK Hr Hsvd) as (s' & E2 & SP2 & HC2 & F2 & L2).
    + rewrite Sorth, HO. do 2 f_equal. lia.
    + exists n'. split; [lia|]. now rewrite Snn.
    + rewrite SX. lia.
    + rewrite SX in E2. exists s'. split; [exact E2|].
      split; [eapply same_problem_trans; [|exact SP2]; constructor; auto|]. split; [exact HC2|]. split.
      * intros m Hm'. rewrite F2 by lia. rewrite F1. apply nth_replace_at_neq. lia.
      * rewrite L2. destruct n as [|n]; [|f_equal; lia].
        assert (El : cp_last s1 = Some a).
        { unfold cp_update_factor in E1. destruct (do lhs <- _ ; _) as [[[lhs rhs] sol]|] in E1; [|discriminate].
          destruct (do Z <- _ ; _) in E1; [|discriminate]. injection E1 as <-. reflexivity. }
        rewrite El. f_equal. lia.
Qed.

Theorem more_modes K cf disk draws X max_its arg ds n :
  cs_rank cs = K -> cs_ridge cs = None -> svd_works_on K K (env_svd env) -> data_ok X -> usable_start env cs K X draws arg ->
  cp_last (ds_num ds) = None -> cp_orth (ds_num ds) = Some (repeat false n) -> (n < length (shape X))%nat ->
  free_flags (cp_nn (ds_num ds)) n ->
  (0 < match max_its with Some m => m | None => ds_max ds end)%Z -> cf_rel_tol cf <= 0 ->
  exists ds1 ds', cp_init_fit env cs disk draws X max_its arg ds = (ds1, None) /\
    cp_fit env cs cf disk draws X max_its arg ds = (ds', Some IndexError) /\ ds_it ds' = 0%Z /\
    ds_logs ds' = ds_logs ds /\ ds_file ds' = ds_file ds /\
    (forall m, (n <= m)%nat -> nth m (kt_fms (cp_dec (ds_num ds'))) m0 = nth m (kt_fms (cp_dec (ds_num ds1))) m0) /\
    cp_last (ds_num ds') = match n with O => None | S m => Some m end.
Proof.
  intros HK Hr Hsvd HX HS HL HO Hn HN Hb Htol.
  destruct (@usable_begun env cs K disk draws X arg ds HK HX HS) as (k & E & HF & Hw & HR).
  { destruct HN as [->| ->]; auto. rewrite repeat_length. lia. }
  assert (HAF : all_false (cp_orth (ds_num ds)) (length (shape X))).
  { rewrite HO. split; [apply repeat_false|rewrite repeat_length; lia]. }
  destruct (@start_ok env cs K disk draws X max_its arg ds k 0 E HX HF Hw HAF HL) as (E1 & HC & _).
  set (ds1 := prepared _ _ _) in *.
  assert (HlX : length (kt_fms k) = length (shape X)) by (destruct HF as [_ HF]; apply (mode_len HF)).
  assert (EX : cp_X (ds_num ds1) = X) by (unfold ds1, prepared; destruct max_its; reflexivity).
  assert (EO : cp_orth (ds_num ds1) = Some (repeat false n)) by (unfold ds1, prepared; destruct max_its; cbn; now rewrite HO).
  assert (EN : exists n', (0 + n <= n')%nat /\ cp_nn (ds_num ds1) = Some (repeat false n')).
  { destruct HN as [HN|HN]; [exists (length (shape X))|exists n]; (split; [lia|]);
      unfold ds1, prepared; destruct max_its; cbn; rewrite HN; cbn; now rewrite ?HlX. }
  destruct (@update_until n K 0%nat (ds_num ds1) HC HK Hr Hsvd EO EN) as (s' & EU & SP & HC' & FU & LU).
  { rewrite EX. lia. }
  exists ds1, (with_num s' ds1). split; [exact E1|].
  assert (EL : cp_last (ds_num ds1) = None) by (unfold ds1, prepared; destruct max_its; exact HL).
  assert (Emax : ds_max ds1 = match max_its with Some m => m | None => ds_max ds end) by (unfold ds1, prepared; destruct max_its; reflexivity).
  assert (Eit : ds_it ds1 = 0%Z) by (unfold ds1, prepared; destruct max_its; reflexivity).
  split.
  { unfold cp_fit. rewrite E1. unfold cp_fit_loop. rewrite Emax, Eit.
    set (N := match max_its with Some m => m | None => ds_max ds end) in *.
    destruct (Z.to_nat (N - 0)) as [|N'] eqn:EN'; [lia|]. cbn [cp_loop].
    assert (Estop : cp_stop (cp_model env cs) cf ds1 = Ok false).
    { unfold cp_stop. cbn [md_loss md_norm2 cp_model]. rewrite (cp_SSE_ok env HC). cbn [bind].
      f_equal. apply orb_false_intro; [unfold ds1, prepared; destruct max_its; reflexivity|].
      set (l := sse _ _ _ _). assert (Hl : 0 <= l) by apply sse_nonneg.
      rewrite (co_norm HC), EX. pose proof (pow2_ge_0 (norm X)) as Hnn.
      set (q := (norm X ^ 2)%R) in *. cbn [xdiv]. unfold xdivR.
      destruct (Req_EM_T q 0) as [Hq|Hq].
      - destruct (Rlt_dec l 0); [lra|]. destruct (Rlt_dec 0 l); reflexivity.
      - cbn [xltb]. destruct (Rlt_dec (l / q) (cf_rel_tol cf)) as [Hc|Hc]; [|reflexivity]. exfalso.
        assert (0 <= l / q) by (apply Rmult_le_pos; [exact Hl|]; left; apply Rinv_0_lt_compat; lra). lra. }
    rewrite Estop. cbn [md_update cp_model]. unfold cp_update_factors, ndim.
    rewrite EX in EU |- *. rewrite Nat.sub_0_r in EU. rewrite EU. reflexivity. }
  split; [exact Eit|].
  split; [unfold ds1, prepared; destruct max_its; reflexivity|]. split; [unfold ds1, prepared; destruct max_its; reflexivity|].
  split.
  - intros m Hm. apply FU. lia.
  - cbn [with_num ds_num]. rewrite LU, EL. destruct n; [reflexivity|]. f_equal. lia.
Qed.

Theorem retry K cf disk draws X max_its arg ds ds1 e disk' draws' X' max_its' arg' :
  cs_rank cs = K -> cs_ridge cs = None -> svd_works_on K K (env_svd env) ->
  cp_last (ds_num ds) = None -> cp_nn (ds_num ds) = None -> cp_orth (ds_num ds) = None ->
  cp_init_fit env cs disk draws X max_its arg ds = (ds1, Some e) ->
  data_ok X' -> usable_start env cs K X' draws' arg' ->
  (0 < match max_its' with Some m => m | None => ds_max ds1 end)%Z -> cf_rel_tol cf <= 0 ->
  cp_orth (ds_num ds1) <> None -> n_factors ds1 <> length (shape X') ->
  exists ds', cp_fit env cs cf disk' draws' X' max_its' arg' ds1 = (ds', Some IndexError).
Proof.
  intros HK Hr Hsvd HL HN HO E HX HS Hb Htol Hno Hne. destruct (left_behind E) as [_ _ _ O4 _ _ _ O8 O9].
  rewrite HO in O9. destruct O9 as [O9|[_ O9]]; [congruence|].
  rewrite HN in O8. assert (O8' : free_flags (cp_nn (ds_num ds1)) (n_factors ds1)) by (destruct O8 as [O8|[_ O8]]; [now left|now right]).
  destruct (lt_eq_lt_dec (n_factors ds1) (length (shape X'))) as [[Hlt|He]|Hgt]; [|congruence|].
  - rewrite HL in O4. destruct (@more_modes K cf disk' draws' X' max_its' arg' ds1 _ HK Hr Hsvd HX HS O4 O9 Hlt O8' Hb Htol)
      as (d1 & ds' & _ & E' & _). eauto.
  - apply (fewer_modes (K := K) cf disk' max_its' HK HX HS O9 Hgt O8').
Qed.
End Left.
