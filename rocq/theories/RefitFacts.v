(** CMTF_ALS objects that are fitted again (C100). *)
From Verif Require Export RefitSpec CoupledFit.
From Verif Require Import DecompLemmas FitFacts FitLemmas SignFacts CPFacts Prelude Lin.
Set Implicit Arguments.
Unset Strict Implicit.
Local Open Scope R_scope.

(** *** Two runs of the loop *)
Section Twins.
Context {St D : Type} (md : model St D) (Rel : St -> St -> Prop).
Hypothesis (Hupd : forall a b, Rel a b -> Rel (fst (md_update md a)) (fst (md_update md b)) /\ snd (md_update md a) = snd (md_update md b))
  (Hloss : forall a b, Rel a b -> md_loss md a = md_loss md b) (Hnorm : forall a b, Rel a b -> md_norm2 md a = md_norm2 md b).

Definition alike (a b : dstate St) : Prop :=
  Rel (ds_num a) (ds_num b) /\ ds_it a = ds_it b /\ ds_max a = ds_max b /\ ds_rel a = ds_rel b /\ ds_prev a = ds_prev b.

Lemma twin_loops cf cf' n : cf_tol cf = cf_tol cf' -> cf_rel_tol cf = cf_rel_tol cf' -> forall o i a b a' b' o1 o2, alike a b ->
  cp_loop md cf n o i a = (a', o1, None) -> cp_loop md cf' n o i b = (b', o2, None) -> alike a' b'.
Proof.
  intros Ht Hr. induction n as [|n IH]; intros o i a b a' b' o1 o2 HA; cbn [cp_loop].
  - intros E1 E2. injection E1 as <- <-. injection E2 as <- <-. exact HA.
  - pose proof HA as (H1 & H2 & H3 & H4 & H5). destruct (Hupd H1) as [U1 U2].
    assert (ES : cp_stop md cf a = cp_stop md cf' b) by (unfold cp_stop; now rewrite (Hloss H1), (Hnorm H1), H4, Ht, Hr).
    rewrite <- ES. destruct (cp_stop md cf a) as [[|]|]; [| |discriminate].
    + intros E1 E2. injection E1 as <- <-. injection E2 as <- <-. exact HA.
    + destruct (md_update md (ds_num a)) as [s1 e1]. destruct (md_update md (ds_num b)) as [s2 e2]. cbn [fst snd] in U1, U2. subst e2.
      destruct e1; [discriminate|]. unfold update_convergence. cbn [ds_num with_num ds_prev]. rewrite <- (Hloss U1), <- H5.
      destruct (md_loss md s1) as [l|]; [|discriminate]. cbn [bind].
      destruct (after_iteration md cf _) as [a2 [x|]] eqn:EA; [intros E; exfalso; revert E; discriminate|].
      destruct (after_iteration md cf' _) as [b2 [x|]] eqn:EB; [discriminate|].
      apply after_keeps in EA as (A1 & A2 & A3 & A4 & A5). apply after_keeps in EB as (B1 & B2 & B3 & B4 & B5). cbn in A1, A2, A3, A4, A5, B1, B2, B3, B4, B5.
      apply IH. split; [rewrite A1, B1; exact U1|]. split; [congruence|]. split; [congruence|]. split; congruence.
Qed.

Lemma twin_fit_loops cf cf' a b a' b' : cf_tol cf = cf_tol cf' -> cf_rel_tol cf = cf_rel_tol cf' -> alike a b ->
  cp_fit_loop md cf a = (a', None) -> cp_fit_loop md cf' b = (b', None) -> alike a' b'.
Proof.
  intros Ht Hr HA. pose proof HA as (H1 & H2 & H3 & H4 & H5). unfold cp_fit_loop. rewrite <- H2, <- H3.
  destruct (cp_loop md cf _ None 0%Z a) as [[a2 o1] [x|]] eqn:EA; [intros E; destruct o1; discriminate E|].
  destruct (cp_loop md cf' _ None 0%Z b) as [[b2 o2] [x|]] eqn:EB; [intros _ E; destruct o2; discriminate E|].
  pose proof (twin_loops Ht Hr HA EA EB) as HT.
  destruct o1 as [i1|]; [|discriminate]. destruct o2 as [i2|]; [|intros _ E; discriminate E].
  destruct (cf_freq cf =? 0)%Z; [discriminate|]. destruct (cf_freq cf' =? 0)%Z; [intros _ E; discriminate E|].
  set (p := (negb _ && _)%bool). set (q := (negb ((i2 + 1) mod _ =? 0)%Z && _)%bool). intros E1 E2.
  assert (K1 : ds_num a' = ds_num a2 /\ ds_it a' = ds_it a2 /\ ds_max a' = ds_max a2 /\ ds_rel a' = ds_rel a2 /\ ds_prev a' = ds_prev a2).
  { destruct p; [now apply store_keeps in E1|]. injection E1 as <-. auto. }
  assert (K2 : ds_num b' = ds_num b2 /\ ds_it b' = ds_it b2 /\ ds_max b' = ds_max b2 /\ ds_rel b' = ds_rel b2 /\ ds_prev b' = ds_prev b2).
  { destruct q; [now apply store_keeps in E2|]. injection E2 as <-. auto. }
  destruct K1 as (P1 & P2 & P3 & P4 & P5), K2 as (Q1 & Q2 & Q3 & Q4 & Q5), HT as (T1 & T2 & T3 & T4 & T5).
  split; [rewrite P1, Q1; exact T1|]. split; [congruence|]. split; [congruence|]. split; congruence.
Qed.
End Twins.

(** *** What an update does not read *)
(** Equal but for the mode updated last and its cached right-hand side *)
Definition but_cache (s s' : cmtf_state) : Prop := exists l c, s' = cm_with_cp (cp_with_cache l c (cm_cp s)) s.

Section Cache.
Variables (env : cp_env) (cs : cp_settings).

Lemma but_cache_update s s' m : but_cache s s' ->
  but_cache (fst (cmtf_update_factor env cs s m)) (fst (cmtf_update_factor env cs s' m)) /\
  snd (cmtf_update_factor env cs s m) = snd (cmtf_update_factor env cs s' m).
Proof.
  intros (l & c & ->). unfold cmtf_update_factor, cmtf_lhs, cmtf_rhs, cm_fms, cm_dec.
  cbn [cm_cp cm_with_cp cm_modes cm_V cm_Y cp_dec cp_with_cache cp_X cp_nn cp_orth].
  destruct (bind _ _) as [[[L R] f]|e]; [|split; [|reflexivity]; now exists l, c].
  destruct (bind (f L R) _) as [U|e]; cbn [fst snd]; (split; [|reflexivity]); eexists (Some m), (Some R); reflexivity.
Qed.
Lemma but_cache_modes l : forall s s', but_cache s s' ->
  but_cache (fst (cmtf_update_modes env cs l s)) (fst (cmtf_update_modes env cs l s')) /\
  snd (cmtf_update_modes env cs l s) = snd (cmtf_update_modes env cs l s').
Proof.
  induction l as [|m l IH]; intros s s' H; cbn [cmtf_update_modes]; [now split|].
  assert (En : cp_nn (cm_cp s') = cp_nn (cm_cp s)) by (destruct H as (? & ? & ->); reflexivity). rewrite En.
  destruct (bind _ _) as [[|]|]; cbn [fst snd]; auto.
  destruct (but_cache_update m H) as [U1 U2].
  destruct (cmtf_update_factor env cs s m) as [s1 e1], (cmtf_update_factor env cs s' m) as [s2 e2]. cbn [fst snd] in U1, U2. subst e2.
  destruct e1; [now split|]. now apply IH.
Qed.
Lemma but_cache_factors s s' : but_cache s s' ->
  but_cache (fst (cmtf_update_factors env cs s)) (fst (cmtf_update_factors env cs s')) /\
  snd (cmtf_update_factors env cs s) = snd (cmtf_update_factors env cs s').
Proof.
  intros H. unfold cmtf_update_factors.
  assert (En : cp_X (cm_cp s') = cp_X (cm_cp s)) by (destruct H as (? & ? & ->); reflexivity). rewrite En.
  destruct (but_cache_modes (seq 0 (ndim (cp_X (cm_cp s)))) H) as [U1 U2].
  destruct (cmtf_update_modes env cs _ s) as [s1 e1], (cmtf_update_modes env cs _ s') as [s2 e2]. cbn [fst snd] in U1, U2. subst e2.
  destruct e1; [now split|]. destruct U1 as (l & c & ->). unfold update_uncoupled.
  cbn [cm_modes cm_with_cp cm_V].
  assert (EL : forall d V, uncoupled_loop env (cm_with_cp (cp_with_cache l c (cm_cp s1)) s1) d V = uncoupled_loop env s1 d V).
  { induction d as [|[m ix] d IH]; intros V; [reflexivity|]. cbn [uncoupled_loop].
    change (uncoupled_step env (cm_with_cp (cp_with_cache l c (cm_cp s1)) s1) m ix V) with (uncoupled_step env s1 m ix V).
    destruct (uncoupled_step env s1 m ix V) as [V' [e|]]; [reflexivity|apply IH]. }
  rewrite EL. destruct (uncoupled_loop env s1 _ _) as [V e]. cbn [fst snd]. split; [|reflexivity]. exists l, c. reflexivity.
Qed.
Lemma but_cache_SSE s s' : but_cache s s' -> cmtf_SSE env s = cmtf_SSE env s'.
Proof. intros (l & c & ->). reflexivity. Qed.

(** *** The length of the list of factors, and what updates keep *)
Lemma update_keeps s m : let s' := fst (cmtf_update_factor env cs s m) in
  length (cm_fms s') = length (cm_fms s) /\ cp_nn (cm_cp s') = cp_nn (cm_cp s) /\ cp_orth (cm_cp s') = cp_orth (cm_cp s).
Proof.
  unfold cmtf_update_factor. destruct (bind _ _) as [[[L R] f]|e]; cbn [fst]; [|auto].
  destruct (bind (f L R) _) as [U|e]; cbn; auto. now rewrite length_replace_at.
Qed.
Lemma modes_keep l : forall s, let s' := fst (cmtf_update_modes env cs l s) in
  length (cm_fms s') = length (cm_fms s) /\ cp_nn (cm_cp s') = cp_nn (cm_cp s) /\ cp_orth (cm_cp s') = cp_orth (cm_cp s).
Proof.
  induction l as [|m l IH]; intros s; cbn [cmtf_update_modes fst]; [auto|].
  destruct (bind _ _) as [[|]|]; cbn [fst]; auto.
  pose proof (update_keeps s m) as H. cbn zeta in H. destruct (cmtf_update_factor env cs s m) as [s1 [e|]]; cbn [fst] in *; [exact H|].
  specialize (IH s1). cbn zeta in IH. destruct H as (H1 & H2 & H3), IH as (I1 & I2 & I3). rewrite I1, I2, I3. auto.
Qed.
Lemma factors_keep s : let s' := fst (cmtf_update_factors env cs s) in
  length (cm_fms s') = length (cm_fms s) /\ cp_nn (cm_cp s') = cp_nn (cm_cp s) /\ cp_orth (cm_cp s') = cp_orth (cm_cp s).
Proof.
  unfold cmtf_update_factors. pose proof (modes_keep (seq 0 (ndim (cp_X (cm_cp s)))) s) as H. cbn zeta in H.
  destruct (cmtf_update_modes _ _ _ s) as [s1 [e|]]; cbn [fst] in *; [exact H|].
  unfold update_uncoupled. destruct (uncoupled_loop _ _ _ _). exact H.
Qed.
Lemma after_keep s k : let s' := state_after (cmtf_model env cs) s k in
  length (cm_fms s') = length (cm_fms s) /\ cp_nn (cm_cp s') = cp_nn (cm_cp s) /\ cp_orth (cm_cp s') = cp_orth (cm_cp s).
Proof.
  induction k as [|k IH]; [cbn; auto|]. cbn [state_after]. destruct IH as (I1 & I2 & I3).
  destruct (factors_keep (state_after (cmtf_model env cs) s k)) as (H1 & H2 & H3).
  change (md_update (cmtf_model env cs)) with (cmtf_update_factors env cs). cbn zeta. rewrite H1, H2, H3. auto.
Qed.

Lemma step_len upd eps k i k' : kt_normalize_step upd eps k i = Ok k' -> length (kt_fms k') = length (kt_fms k).
Proof.
  unfold kt_normalize_step. destruct (list_get _ _); [|discriminate]. cbn [bind]. destruct (np_div _ _); [|discriminate]. cbn [bind].
  destruct (assign_full _ _); [|discriminate]. cbn [bind]. destruct (if upd then _ else _); [|discriminate]. cbn [bind].
  intros E. injection E as <-. cbn. apply length_replace_at.
Qed.
Lemma normalize_len upd eps k k' : kt_normalize upd eps k = Ok k' -> length (kt_fms k') = length (kt_fms k).
Proof.
  unfold kt_normalize. generalize (seq 0 (length (kt_fms k))) as l. intros l. revert k. induction l as [|i l IH]; intros k; cbn [foldM].
  - intros E. now injection E as <-.
  - destruct (kt_normalize_step upd eps k i) as [k1|] eqn:E1; [|discriminate]. cbn [bind]. intros E. rewrite (IH _ E). eapply step_len; eauto.
Qed.
Lemma normalize_left_len upd eps k : length (kt_fms (kt_normalize_left upd eps k)) = length (kt_fms k).
Proof.
  unfold kt_normalize_left. generalize (seq 0 (length (kt_fms k))) as l. intros l. revert k. induction l as [|i l IH]; intros k; cbn [foldL]; [reflexivity|].
  destruct (kt_normalize_step upd eps k i) as [k1|] eqn:E1.
  - rewrite IH. eapply step_len; eauto.
  - destruct (bind _ _) as [U|]; cbn; [apply length_replace_at|reflexivity].
Qed.

(** *** The start *)
Definition abs_step (d : kruskal) (p : nat * bool) : res kruskal :=
  let '(mode, isnn) := p in do U <- list_get (kt_fms d) mode ; Ok (if (isnn : bool) then kt_with_factor mode (np_map Rabs U) d else d).
Lemma falses n : forall a d d', foldM abs_step (combine (seq a n) (repeat false n)) d = Ok d' -> d' = d.
Proof.
  induction n as [|n IH]; intros a d d'; cbn [seq repeat combine foldM]; [intros E; now injection E|].
  unfold abs_step at 1. destruct (list_get _ _); [|discriminate]. cbn [bind]. apply IH.
Qed.
Lemma abs_len l : forall d d', foldM abs_step l d = Ok d' -> length (kt_fms d') = length (kt_fms d).
Proof.
  induction l as [|[m b] l IH]; intros d d'; cbn [foldM]; [intros E; now injection E as <-|].
  unfold abs_step at 1. destruct (list_get _ _); [|discriminate]. cbn [bind]. intros E. rewrite (IH _ _ E).
  destruct b; [apply length_replace_at|reflexivity].
Qed.

Lemma random_alike N draws a b a' b' : cp_X a = cp_X b -> filled_in N (cp_nn a) (cp_nn b) ->
  cp_init_random draws a = Ok a' -> cp_init_random draws b = Ok b' -> exists d, a' = cp_with_dec d a /\ b' = cp_with_dec d b.
Proof.
  intros EX HF. unfold cp_init_random. destruct (kt_random_init draws) as [d|]; [|discriminate]. cbn [bind].
  destruct HF as [-> | [-> ->]].
  - destruct (cp_nn a) as [l|].
    + fold abs_step. destruct (foldM abs_step _ d) as [d'|]; [|discriminate]. cbn [bind]. intros E1 E2. injection E1 as <-. injection E2 as <-. eauto.
    + intros E1 E2. injection E1 as <-. injection E2 as <-. eauto.
  - fold abs_step. destruct (foldM abs_step _ d) as [d'|] eqn:E; [|discriminate]. cbn [bind]. rewrite repeat_length in E. apply falses in E. subst d'.
    intros E1 E2. injection E1 as <-. injection E2 as <-. eauto.
Qed.

Lemma load_alike f a b a' b' : cp_X (ds_num a) = cp_X (ds_num b) ->
  load_checkpoint (cp_model env cs) f None a = (a', None) -> load_checkpoint (cp_model env cs) f None b = (b', None) ->
  exists d i, a' = with_num (cp_with_dec d (ds_num a)) (with_it i a) /\ b' = with_num (cp_with_dec d (ds_num b)) (with_it i b).
Proof.
  intros EX. unfold load_checkpoint. destruct (lookup _ _) as [fin|]; [|discriminate]. destruct (as_int fin) as [i|]; [|discriminate].
  destruct (in_file _ _); [|discriminate]. destruct (lookup _ _) as [g|]; [|discriminate].
  assert (EC : forall d, md_check (cp_model env cs) (ds_num (with_it i a)) d = md_check (cp_model env cs) (ds_num (with_it i b)) d).
  { intros d. cbn. unfold cp_check. now rewrite EX. }
  destruct (md_load (cp_model env cs) g) as [d|]; [|discriminate]. cbn [bind]. rewrite EC. destruct (md_check _ _ d); [|discriminate]. cbn [bind].
  intros E1 E2. injection E1 as <-. injection E2 as <-. exists d, i. split; reflexivity.
Qed.

Lemma components_alike N disk draws arg a b a' b' : cp_X (ds_num a) = cp_X (ds_num b) -> filled_in N (cp_nn (ds_num a)) (cp_nn (ds_num b)) ->
  ds_it a = ds_it b -> cp_init_components env cs disk draws arg a = (a', None) -> cp_init_components env cs disk draws arg b = (b', None) ->
  exists d i, a' = with_num (cp_with_dec d (ds_num a)) (with_it i a) /\ b' = with_num (cp_with_dec d (ds_num b)) (with_it i b).
Proof.
  intros EX HF Ei. unfold cp_init_components. destruct (_ && _)%bool; [discriminate|].
  assert (Hw : forall d, exists i, with_num (cp_with_dec d (ds_num a)) a = with_num (cp_with_dec d (ds_num a)) (with_it i a) /\
                           with_num (cp_with_dec d (ds_num b)) b = with_num (cp_with_dec d (ds_num b)) (with_it i b)).
  { intros d. exists (ds_it a). split; [destruct a|rewrite Ei; destruct b]; reflexivity. }
  destruct (String.eqb _ "random").
  { destruct (cp_init_random draws (ds_num a)) as [s1|] eqn:E1; [|discriminate].
    destruct (cp_init_random draws (ds_num b)) as [s2|] eqn:E2; [|intros _ E; discriminate E].
    destruct (random_alike EX HF E1 E2) as (d & -> & ->). intros F1 F2. injection F1 as <-. injection F2 as <-.
    destruct (Hw d) as (i & W1 & W2). exists d, i. auto. }
  destruct (String.eqb _ "svd").
  { unfold cp_init_svd. rewrite <- EX. destruct (py_min _); [|discriminate]. cbn [bind]. destruct (_ <? _)%nat; [discriminate|].
    destruct (mapM _ _); [|discriminate]. cbn [bind]. destruct (kt_init _ _) as [d|]; [|discriminate]. cbn [bind].
    intros F1 F2. injection F1 as <-. injection F2 as <-. destruct (Hw d) as (i & W1 & W2). exists d, i. auto. }
  destruct (String.eqb _ "from_checkpoint").
  { destruct arg as [|k|[f|]]; try discriminate. now apply load_alike. }
  destruct (String.eqb _ "precomputed").
  { destruct arg as [|k|f]; try discriminate. unfold cp_check. rewrite <- EX. destruct (foldM _ _ tt); [|discriminate]. cbn [bind].
    intros F1 F2. injection F1 as <-. injection F2 as <-. destruct (Hw k) as (i & W1 & W2). exists k, i. auto. }
  destruct (disk _) as [f|]; [|discriminate]. now apply load_alike.
Qed.

Lemma orthonormalise_keeps c c' : cp_orthonormalise env c = Ok c' -> exists d, c' = cp_with_dec d c /\ length (kt_fms d) = length (kt_fms (cp_dec c)).
Proof.
  unfold cp_orthonormalise. destruct (cp_orth c) as [l|]; [|discriminate]. cbn [not_none bind].
  destruct (foldM _ _ _) as [d|] eqn:E; [|discriminate]. cbn [bind]. intros F. injection F as <-. exists d. split; [reflexivity|].
  revert E. generalize (cp_dec c), (combine (seq 0 (length l)) l). intros k p. revert k. induction p as [|[m b] p IH]; intros k; cbn [foldM].
  - intros E. now injection E as <-.
  - unfold cp_orthonormalise_step at 1. destruct (list_get _ _) as [U|]; [|discriminate]. cbn [bind]. destruct b.
    + destruct (env_qr env U); [|discriminate]. cbn [bind]. intros E. rewrite (IH _ E). apply length_replace_at.
    + cbn [bind]. apply IH.
Qed.

Lemma fill_same N given now (c c' : cp_state) : filled_in N given now -> length (kt_fms (cp_dec c)) = N ->
  kt_fms (cp_dec c') = kt_fms (cp_dec c) -> or_unconstrained now c' = or_unconstrained given c.
Proof.
  intros [-> | [-> ->]] Hl E; unfold or_unconstrained; [now rewrite E|now rewrite Hl].
Qed.

Lemma init_coupled_alike vdraws N (s s' : cmtf_state) t t' : filled_in N (cp_nn (cm_cp s)) (cp_nn (cm_cp s')) -> cm_Y s = cm_Y s' -> cm_modes s = cm_modes s' ->
  init_coupled vdraws s = Ok t -> init_coupled vdraws s' = Ok t' -> exists V, t = cm_with_V V s /\ t' = cm_with_V V s'.
Proof.
  intros HF EY EM. unfold init_coupled. rewrite EY, EM. generalize (combine (seq 0 (length (cm_modes s'))) (cm_modes s')). intros l.
  assert (HM : forall V V', mapM (fun '(i, mode) => do Y <- list_get (cm_Y s') i ; do _ <- shape_at Y 1 ;
        do _ <- (match cp_nn (cm_cp s) with None => Ok true | Some nn => py_get nn mode end) ;
        do V <- list_get vdraws i ; do Q <- np_div V (norm_axis0 V) ; assign_full V Q) l = Ok V ->
      mapM (fun '(i, mode) => do Y <- list_get (cm_Y s') i ; do _ <- shape_at Y 1 ;
        do _ <- (match cp_nn (cm_cp s') with None => Ok true | Some nn => py_get nn mode end) ;
        do V <- list_get vdraws i ; do Q <- np_div V (norm_axis0 V) ; assign_full V Q) l = Ok V' -> V = V').
  { induction l as [|[i m] l IH]; intros V V'; cbn [mapM]; [congruence|].
    destruct (list_get (cm_Y s') i) as [y|]; [|discriminate]. cbn [bind]. destruct (shape_at y 1); [|discriminate]. cbn [bind].
    destruct (match cp_nn (cm_cp s) with None => _ | Some _ => _ end); [|discriminate].
    destruct (match cp_nn (cm_cp s') with None => _ | Some _ => _ end); [|intros _ E; discriminate E]. cbn [bind].
    destruct (bind (list_get vdraws i) _) as [v|]; [|discriminate]. cbn [bind].
    destruct (mapM _ l) as [V1|] eqn:E1; [|discriminate]. destruct (mapM (fun '(i, mode) => _) l) as [V2|] eqn:E2 in |- *; [|intros _ E; discriminate E].
    cbn [bind]. intros F1 F2. rewrite (IH V1 V2) in F1 by auto. congruence. }
  destruct (mapM _ l) as [V|] eqn:E1 in |- *; [|discriminate]. cbn [bind].
  destruct (mapM _ l) as [V'|] eqn:E2 in |- *; [|intros _ E; discriminate E]. cbn [bind].
  intros F1 F2. injection F1 as <-. injection F2 as <-. rewrite <- (HM _ _ E1 E2). eauto.
Qed.

Lemma init_alike N disk draws vdraws X Y modes max_its arg a b a' b' :
  filled_in N (nn_list a) (nn_list b) -> filled_in N (orth_list a) (orth_list b) ->
  max_its <> None \/ ds_max a = ds_max b ->
  cmtf_init_fit env cs disk draws vdraws X Y modes max_its arg a = (a', None) ->
  cmtf_init_fit env cs disk draws vdraws X Y modes max_its arg b = (b', None) ->
  length (cm_fms (ds_num a')) = N -> alike but_cache a' b'.
Proof.
  intros HF HO Hm. unfold cmtf_init_fit, on_cp. cbn [ds_num with_num with_it cm_cp cm_with_cp cm_with_coupling ds_it ds_max ds_rel ds_prev ds_logs ds_file].
  destruct (cp_init_components env cs disk draws arg _) as [a1 [x|]] eqn:EA; [discriminate|].
  destruct (cp_init_components env cs disk draws arg _) as [b1 [x|]] eqn:EB in |- *; [intros _ E; discriminate E|].
  refine (_ (@components_alike N disk draws arg _ _ a1 b1 _ _ _ EA EB)); [|reflexivity|exact HF|reflexivity].
  intros (d & i & -> & ->). clear EA EB. cbn [ds_num with_num with_it ds_it ds_max ds_rel ds_prev ds_logs ds_file].
  destruct (init_coupled vdraws _) as [s1|] eqn:EA; [|discriminate].
  destruct (init_coupled vdraws _) as [s2|] eqn:EB in |- *; [|intros _ E; discriminate E].
  refine (_ (@init_coupled_alike vdraws N _ _ s1 s2 _ _ _ EA EB)); [|exact HF|reflexivity|reflexivity].
  intros (V & -> & ->). clear EA EB. cbn [cm_cp cm_with_V cm_with_cp cm_with_coupling cm_dec].
  set (c1 := cp_with_constraints _ _ _). set (c2 := cp_with_constraints _ _ (cp_with_dec _ (cp_with_dec d (cp_with_target X (cm_cp (ds_num b)))))).
  destruct (cp_orthonormalise env c1) as [c1'|] eqn:E1; [|discriminate].
  destruct (cp_orthonormalise env c2) as [c2'|] eqn:E2; [|intros _ E; discriminate E].
  pose proof (orthonormalise_keeps E1) as (k1 & -> & Hk1).
  match goal with |- context [cmtf_SSE env ?s] => destruct (cmtf_SSE env s) as [l1|] eqn:L1; [|discriminate] end.
  match goal with |- context [kt_normalize true eps15 ?s] => destruct (kt_normalize true eps15 s) as [n1|] eqn:N1; [|discriminate] end.
  intros F1. assert (El : (length (cm_fms (ds_num a')) = N -> length (kt_fms d) = N)).
  { injection F1 as <-. cbn. unfold cm_fms, cm_dec. cbn. rewrite (normalize_len N1). cbn. unfold cm_dec. cbn. rewrite Hk1. cbn. auto. }
  intros F2 HN. specialize (El HN).
  assert (Ec : exists l c, c2 = cp_with_cache l c c1).
  { exists (cp_last (cm_cp (ds_num b))), (cp_cache (cm_cp (ds_num b))). unfold c1, c2.
    unfold cm_dec. cbn [cp_nn cp_orth cp_dec cp_with_dec cp_with_target cm_cp cm_with_V cm_with_cp]. fold (nn_list a). fold (nn_list b). fold (orth_list a). fold (orth_list b).
    rewrite (@fill_same N (nn_list a) (nn_list b) (cp_with_dec (kt_reset_weights d) (cp_with_dec d (cp_with_target X (cm_cp (ds_num a)))))
      (cp_with_dec (kt_reset_weights d) (cp_with_dec d (cp_with_target X (cm_cp (ds_num b))))) HF El eq_refl).
    rewrite (@fill_same N (orth_list a) (orth_list b) (cp_with_dec (kt_reset_weights d) (cp_with_dec d (cp_with_target X (cm_cp (ds_num a)))))
      (cp_with_dec (kt_reset_weights d) (cp_with_dec d (cp_with_target X (cm_cp (ds_num b))))) HO El eq_refl). reflexivity. }
  destruct Ec as (l & c & Ec). rewrite Ec in E2.
  assert (E2' : cp_orthonormalise env (cp_with_cache l c c1) = do t <- cp_orthonormalise env c1 ; Ok (cp_with_cache l c t)).
  { unfold cp_orthonormalise. cbn [cp_orth cp_with_cache]. destruct (cp_orth c1); [|reflexivity]. cbn [not_none bind cp_dec cp_with_cache].
    destruct (foldM _ _ _); reflexivity. }
  rewrite E2', E1 in E2. cbn [bind] in E2. injection E2 as <-.
  revert F2. match goal with |- context [cmtf_SSE env ?s] => assert (L2 : cmtf_SSE env s = Ok l1) by exact L1; rewrite L2 end.
  match goal with |- context [kt_normalize true eps15 ?s] => assert (N2 : kt_normalize true eps15 s = Ok n1) by exact N1; rewrite N2 end.
  intros F2. injection F1 as <-. injection F2 as <-.
  split; [exists l, None; destruct max_its; reflexivity|]. destruct max_its as [m|]; cbn; auto. destruct Hm as [Hm|Hm]; [congruence|]. auto.
Qed.

Theorem refit_same N cf cf' disk draws vdraws X Y modes max_its arg ds ds' d1 d2 :
  filled_in N (nn_list ds) (nn_list ds') -> filled_in N (orth_list ds) (orth_list ds') ->
  cf_tol cf = cf_tol cf' -> cf_rel_tol cf = cf_rel_tol cf' -> max_its <> None \/ ds_max ds = ds_max ds' ->
  cmtf_fit env cs cf disk draws vdraws X Y modes max_its arg ds = (d1, None) ->
  cmtf_fit env cs cf' disk draws vdraws X Y modes max_its arg ds' = (d2, None) -> length (cm_fms (ds_num d1)) = N ->
  same_result (ds_num d1) (ds_num d2) /\ ds_it d1 = ds_it d2 /\ ds_max d1 = ds_max d2 /\ ds_rel d1 = ds_rel d2 /\ ds_prev d1 = ds_prev d2.
Proof.
  intros HF HO Ht Hr Hm. unfold cmtf_fit.
  destruct (cmtf_init_fit env cs disk draws vdraws X Y modes max_its arg ds) as [a [x|]] eqn:EA; [discriminate|].
  destruct (cmtf_init_fit env cs disk draws vdraws X Y modes max_its arg ds') as [b [x|]] eqn:EB; [intros _ E; discriminate E|].
  unfold cmtf_fit_loop. destruct (cp_fit_loop (cmtf_model env cs) cf a) as [a1 [x|]] eqn:LA; [discriminate|].
  destruct (cp_fit_loop (cmtf_model env cs) cf' b) as [b1 [x|]] eqn:LB; [intros _ E; discriminate E|].
  destruct (cmtf_normalize eps15 (ds_num a1)) as [s1|] eqn:SA; [|discriminate].
  destruct (cmtf_normalize eps15 (ds_num b1)) as [s2|] eqn:SB; [|intros _ E; discriminate E].
  intros F1 F2. injection F1 as <-. injection F2 as <-. cbn [ds_num with_num ds_it ds_max ds_rel ds_prev]. intros HN.
  assert (HNa : length (cm_fms (ds_num a)) = N).
  { rewrite <- HN. destruct (cp_fit_lemma LA) as (k & _ & Ek & _). destruct (after_keep (ds_num a) k) as (Hk & _). rewrite <- Ek in Hk. rewrite <- Hk.
    unfold cmtf_normalize in SA. destruct (scale_uncoupled _); [|discriminate]. cbn [bind] in SA. destruct (kt_normalize _ _ _) as [d|] eqn:Nd; [|discriminate].
    cbn [bind] in SA. injection SA as <-. symmetry. exact (normalize_len Nd). }
  pose proof (init_alike HF HO Hm EA EB HNa) as HA.
  assert (HT : alike but_cache a1 b1).
  { refine (@twin_fit_loops _ _ (cmtf_model env cs) but_cache _ _ _ cf cf' a b a1 b1 Ht Hr HA LA LB).
    - intros x y Hxy. now apply but_cache_factors.
    - intros x y Hxy. cbn. now rewrite (but_cache_SSE Hxy).
    - intros x y (l & c & ->). reflexivity. }
  destruct HT as ((l & c & Eb) & T2 & T3 & T4 & T5). split; [|auto].
  rewrite Eb in SB. unfold cmtf_normalize in SA, SB.
  change (scale_uncoupled (cm_with_cp (cp_with_cache l c (cm_cp (ds_num a1))) (ds_num a1))) with (scale_uncoupled (ds_num a1)) in SB.
  destruct (scale_uncoupled (ds_num a1)) as [V|]; [|discriminate]. cbn [bind] in SA, SB.
  change (cm_dec (cm_with_cp (cp_with_cache l c (cm_cp (ds_num a1))) (ds_num a1))) with (cm_dec (ds_num a1)) in SB.
  destruct (kt_normalize true eps15 (cm_dec (ds_num a1))) as [d|]; [|discriminate]. cbn [bind] in SA, SB.
  injection SA as <-. injection SB as <-. constructor; reflexivity.
Qed.

(** *** The constraint lists after a fit, whatever its outcome *)
Lemma load_keeps_num f a a' e : load_checkpoint (cp_model env cs) f None a = (a', e) -> exists d, ds_num a' = cp_with_dec d (ds_num a).
Proof.
  assert (Hid : forall s, exists d, s = cp_with_dec d s) by (intros s; exists (cp_dec s); now destruct s).
  unfold load_checkpoint. destruct (lookup _ _) as [fin|]; [|intros E; injection E as <- <-; apply Hid].
  destruct (as_int fin) as [i|]; [|intros E; injection E as <- <-; apply Hid].
  destruct (in_file _ _); [|intros E; injection E as <- <-; apply Hid]. destruct (lookup _ _) as [g|]; [|intros E; injection E as <- <-; apply Hid].
  destruct (bind _ _) as [d|]; intros E; injection E as <- <-; [exists d; reflexivity|apply Hid].
Qed.
Lemma components_num disk draws arg a a' e : cp_init_components env cs disk draws arg a = (a', e) -> exists d, ds_num a' = cp_with_dec d (ds_num a).
Proof.
  assert (Hid : exists d, ds_num a = cp_with_dec d (ds_num a)) by (exists (cp_dec (ds_num a)); now destruct (ds_num a)).
  unfold cp_init_components. destruct (_ && _)%bool; [intros E; injection E as <- <-; exact Hid|].
  destruct (String.eqb _ "random").
  { destruct (cp_init_random draws (ds_num a)) as [s|] eqn:E1; intros E; injection E as <- <-; [|exact Hid]. cbn. revert E1. unfold cp_init_random.
    destruct (kt_random_init draws) as [d|]; [|discriminate]. cbn [bind]. destruct (cp_nn _); [|intros E; injection E as <-; eauto].
    destruct (foldM _ _ d) as [d'|]; [|discriminate]. cbn [bind]. intros E. injection E as <-. eauto. }
  destruct (String.eqb _ "svd").
  { destruct (cp_init_svd env cs (ds_num a)) as [s|] eqn:E1; intros E; injection E as <- <-; [|exact Hid]. cbn. revert E1. unfold cp_init_svd.
    destruct (py_min _); [|discriminate]. cbn [bind]. destruct (_ <? _)%nat; [discriminate|].
    destruct (mapM _ _); [|discriminate]. cbn [bind]. destruct (kt_init _ _) as [d|]; [|discriminate]. cbn [bind]. intros E. injection E as <-. eauto. }
  destruct (String.eqb _ "from_checkpoint").
  { destruct arg as [|k|[f|]]; try (intros E; injection E as <- <-; exact Hid). apply load_keeps_num. }
  destruct (String.eqb _ "precomputed").
  { destruct arg as [|k|f]; try (intros E; injection E as <- <-; exact Hid). destruct (bind _ _) as [s|] eqn:E1; intros E; injection E as <- <-; [|exact Hid].
    cbn. revert E1. destruct (cp_check _ _ _); [|discriminate]. cbn [bind]. intros E. injection E as <-. eauto. }
  destruct (disk _) as [f|]; [apply load_keeps_num|]. intros E; injection E as <- <-; exact Hid.
Qed.

Lemma left_len l : forall k, length (kt_fms (foldL (cp_orthonormalise_step env) (fun d _ => d) l k)) = length (kt_fms k).
Proof.
  induction l as [|[m b] l IH]; intros k; cbn [foldL]; [reflexivity|]. unfold cp_orthonormalise_step at 1.
  destruct (list_get _ _) as [U|]; [|reflexivity]. cbn [bind]. destruct b; [|apply IH].
  destruct (env_qr env U); [|reflexivity]. cbn [bind]. rewrite IH. apply length_replace_at.
Qed.

(** Filled in for the number of factors there are *)
Definition filled (a b : dstate cmtf_state) : Prop :=
  filled_in (length (cm_fms (ds_num b))) (nn_list a) (nn_list b) /\ filled_in (length (cm_fms (ds_num b))) (orth_list a) (orth_list b).
Lemma or_filled N given (c : cp_state) : length (kt_fms (cp_dec c)) = N -> filled_in N given (or_unconstrained given c).
Proof. intros E. destruct given; [now left|right]. split; [reflexivity|]. cbn. now rewrite E. Qed.

Lemma init_filled disk draws vdraws X Y modes max_its arg a b e :
  cmtf_init_fit env cs disk draws vdraws X Y modes max_its arg a = (b, e) -> filled a b.
Proof.
  unfold cmtf_init_fit, on_cp. cbn [ds_num with_num with_it cm_cp cm_with_cp cm_with_coupling ds_it ds_max ds_rel ds_prev ds_logs ds_file].
  destruct (cp_init_components env cs disk draws arg _) as [a1 e1] eqn:EA. apply components_num in EA as (d & EA). cbn [ds_num] in EA.
  destruct e1 as [x|].
  { intros E. injection E as <- <-. unfold filled, nn_list, orth_list. cbn [ds_num cm_cp cm_with_cp]. rewrite EA. split; now left. }
  cbn [ds_num]. destruct (init_coupled vdraws _) as [s|] eqn:EC; [|intros E; injection E as <- <-; unfold filled, nn_list, orth_list; cbn [ds_num cm_cp cm_with_cp];
    rewrite EA; split; now left].
  assert (Es : cm_cp s = cp_with_dec d (cp_with_target X (cm_cp (ds_num a)))).
  { revert EC. unfold init_coupled. destruct (mapM _ _); [|discriminate]. cbn [bind]. intros E. injection E as <-. exact EA. }
  clear EC EA. set (c1 := cp_with_constraints _ _ _).
  assert (H1 : filled_in (length (kt_fms d)) (nn_list a) (cp_nn c1)) by (unfold c1, cm_dec; rewrite Es; now apply or_filled).
  assert (H2 : filled_in (length (kt_fms d)) (orth_list a) (cp_orth c1)) by (unfold c1, cm_dec; rewrite Es; now apply or_filled).
  assert (H3 : length (kt_fms (cp_dec c1)) = length (kt_fms d)) by (unfold c1, cm_dec; now rewrite Es).
  clearbody c1.
  assert (Hshow : forall b', (exists p q t, cm_cp (ds_num b') = cp_with_cache p q (cp_with_dec t c1) /\ length (kt_fms t) = length (kt_fms d)) -> filled a b').
  { intros b' (p & q & t & E & El). unfold filled, nn_list, orth_list, cm_fms, cm_dec. rewrite E. cbn. rewrite El. now split. }
  destruct (cp_orthonormalise env c1) as [c1'|] eqn:E1.
  - apply orthonormalise_keeps in E1 as (k1 & -> & Hk1).
    destruct (cmtf_SSE env _) as [l|].
    + match goal with |- context [kt_normalize true eps15 ?s] => destruct (kt_normalize true eps15 s) as [n1|] eqn:N1 end; intros E; injection E as <- <-; apply Hshow.
      * eexists _, _, n1. split; [reflexivity|]. rewrite (normalize_len N1). cbn. congruence.
      * eexists _, _, _. split; [reflexivity|]. etransitivity; [apply (normalize_left_len true eps15)|]. cbn. congruence.
    + intros E; injection E as <- <-; apply Hshow. eexists (cp_last c1), (cp_cache c1), k1. split; [reflexivity|]. congruence.
  - intros E; injection E as <- <-; apply Hshow. unfold cp_orthonormalise_left. destruct (cp_orth c1) as [l|] eqn:Eo.
    + exists (cp_last c1), (cp_cache c1), (foldL (cp_orthonormalise_step env) (fun d _ => d) (combine (seq 0 (length l)) l) (cp_dec c1)).
      split; [reflexivity|]. rewrite left_len. exact H3.
    + eexists (cp_last c1), (cp_cache c1), (cp_dec c1). split; [now destruct c1|exact H3].
Qed.

Lemma filled_keep a b c : filled a b -> length (cm_fms (ds_num c)) = length (cm_fms (ds_num b)) -> nn_list c = nn_list b -> orth_list c = orth_list b -> filled a c.
Proof. intros [H1 H2] E1 E2 E3. unfold filled. now rewrite E1, E2, E3. Qed.

Lemma loop_keeps cf a d e : cmtf_fit_loop env cs cf a = (d, e) ->
  length (cm_fms (ds_num d)) = length (cm_fms (ds_num a)) /\ nn_list d = nn_list a /\ orth_list d = orth_list a.
Proof.
  unfold cmtf_fit_loop. destruct (cp_fit_loop (cmtf_model env cs) cf a) as [b eb] eqn:EB.
  destruct (cp_fit_lemma EB) as (k & _ & Ek & _). destruct (after_keep (ds_num a) k) as (K1 & K2 & K3). rewrite <- Ek in K1, K2, K3.
  destruct eb; [intros E; injection E as <- <-; auto|].
  destruct (cmtf_normalize eps15 (ds_num b)) as [s|] eqn:EN; intros E; injection E as <- <-.
  - revert EN. unfold cmtf_normalize. destruct (scale_uncoupled _); [|discriminate]. cbn [bind]. destruct (kt_normalize _ _ _) as [n|] eqn:N1; [|discriminate].
    cbn [bind]. intros E. injection E as <-. split; [|auto]. rewrite <- K1. exact (normalize_len N1).
  - unfold cmtf_normalize_left. destruct (scale_uncoupled _).
    + split; [|auto]. rewrite <- K1. apply (normalize_left_len true eps15 (cm_dec (ds_num b))).
    + auto.
Qed.
Theorem fit_fills cf disk draws vdraws X Y modes max_its arg ds d e :
  cmtf_fit env cs cf disk draws vdraws X Y modes max_its arg ds = (d, e) ->
  filled_in (length (cm_fms (ds_num d))) (nn_list ds) (nn_list d) /\ filled_in (length (cm_fms (ds_num d))) (orth_list ds) (orth_list d).
Proof.
  unfold cmtf_fit. destruct (cmtf_init_fit env cs disk draws vdraws X Y modes max_its arg ds) as [a ea] eqn:EA.
  pose proof (init_filled EA) as HA. destruct ea; [intros E; injection E as <- <-; exact HA|].
  intros E. apply loop_keeps in E as (E1 & E2 & E3). exact (filled_keep HA E1 E2 E3).
Qed.
Lemma init_lists disk draws vdraws X Y modes max_its arg ds a : cmtf_init_fit env cs disk draws vdraws X Y modes max_its arg ds = (a, None) ->
  nn_list a <> None /\ orth_list a <> None.
Proof.
  unfold cmtf_init_fit. destruct (on_cp _ _) as [b [x|]]; [discriminate|]. destruct (init_coupled vdraws _) as [s|]; [|discriminate].
  set (c1 := cp_with_constraints _ _ _).
  assert (H : cp_nn c1 <> None /\ cp_orth c1 <> None).
  { cbn. split; [destruct (cp_nn (cm_cp s))|destruct (cp_orth (cm_cp s))]; discriminate. }
  clearbody c1. destruct (cp_orthonormalise env c1) as [c2|] eqn:EO; [|discriminate]. apply orthonormalise_keeps in EO as (k & -> & _).
  destruct (cmtf_SSE env _); [|discriminate]. destruct (kt_normalize _ _ _); [|discriminate]. intros E. injection E as <-. exact H.
Qed.
Theorem completed_fills cf disk draws vdraws X Y modes max_its arg ds d :
  cmtf_fit env cs cf disk draws vdraws X Y modes max_its arg ds = (d, None) ->
  let N := length (cm_fms (ds_num d)) in
  nn_list d = Some (match nn_list ds with Some l => l | None => repeat false N end) /\
  orth_list d = Some (match orth_list ds with Some l => l | None => repeat false N end).
Proof.
  intros E N. destruct (fit_fills E) as [F1 F2]. fold N in F1, F2. revert E. unfold cmtf_fit.
  destruct (cmtf_init_fit env cs disk draws vdraws X Y modes max_its arg ds) as [a [x|]] eqn:EA; [discriminate|].
  destruct (init_lists EA) as [H1 H2]. intros E. apply loop_keeps in E as (_ & E2 & E3). rewrite <- E2 in H1. rewrite <- E3 in H2.
  split.
  - destruct F1 as [F1|[F1 F1']]; [rewrite <- F1; destruct (nn_list d); congruence|now rewrite F1].
  - destruct F2 as [F2|[F2 F2']]; [rewrite <- F2; destruct (orth_list d); congruence|now rewrite F2].
Qed.
Lemma filled_trans N a b c : filled_in N a b -> filled_in N b c -> filled_in N a c.
Proof. intros [-> |[-> ->]] [-> |[E ->]]; unfold filled_in; try discriminate; auto. Qed.
Theorem uses_fill N ds d : earlier_uses env cs N ds d -> filled_in N (nn_list ds) (nn_list d) /\ filled_in N (orth_list ds) (orth_list d).
Proof.
  induction 1 as [|d d' cf disk draws vdraws X Y modes max_its arg e _ [I1 I2] E EN|d d' cf max_its e _ [I1 I2] E|d d' _ [I1 I2] E].
  - split; now left.
  - destruct (fit_fills E) as [F1 F2]. rewrite EN in F1, F2. split; eapply filled_trans; eauto.
  - apply loop_keeps in E as (_ & E2 & E3). rewrite E2, E3. destruct max_its; auto.
  - unfold nn_list, orth_list in *. now rewrite E.
Qed.

(** *** Fewer modes *)
Lemma check_len s d : cp_check cs s d = Ok tt -> (length (kt_fms d) <= length (shape (cp_X s)))%nat.
Proof.
  unfold cp_check. set (f := fun (_ : unit) '(i, U) => _). intros E.
  assert (HI : forall l a, foldM f (combine (seq a (length l)) l) tt = Ok tt -> l = [] \/ (a + length l <= length (shape (cp_X s)))%nat).
  { induction l as [|U l IH]; intros a; [now left|]. cbn [length seq combine foldM]. unfold f at 1. destruct (shape2 U) as [[n r]|]; [|discriminate]. cbn [bind].
    destruct (negb (r =? _)%nat); [discriminate|]. unfold list_get at 1. destruct (nth_error (shape (cp_X s)) a) as [z|] eqn:Ez; [|discriminate]. cbn [bind].
    destruct (negb _); [discriminate|]. cbn [bind]. intros F. right. assert (a < length (shape (cp_X s)))%nat by (apply nth_error_Some; congruence).
    destruct (IH _ F) as [-> |Hl]; [cbn; lia|lia]. }
  destruct (HI _ _ E) as [-> |H]; [cbn; lia|lia].
Qed.

Lemma load_len f a a' : load_checkpoint (cp_model env cs) f None a = (a', None) ->
  (length (kt_fms (cp_dec (ds_num a'))) <= length (shape (cp_X (ds_num a))))%nat.
Proof.
  unfold load_checkpoint. destruct (lookup _ _) as [fin|]; [|discriminate]. destruct (as_int fin) as [i|]; [|discriminate].
  destruct (in_file _ _); [|discriminate]. destruct (lookup _ _) as [g|]; [|discriminate].
  destruct (md_load (cp_model env cs) g) as [d|]; [|discriminate]. cbn [bind].
  destruct (md_check (cp_model env cs) (ds_num (with_it i a)) d) as [[]|] eqn:EC; [|discriminate]. cbn [bind]. intros E. injection E as <-.
  exact (check_len EC).
Qed.
Lemma init_fms fms w k : kt_init fms w = Ok k -> kt_fms k = fms.
Proof.
  unfold kt_init. destruct (list_get fms 0) as [U0|]; [|discriminate]. cbn [bind]. destruct (shape_at U0 1) as [r|]; [|discriminate]. cbn [bind].
  destruct (foldM _ fms tt); [|discriminate]. cbn [bind]. destruct w as [w|].
  - destruct (np_len w) as [n|]; [|discriminate]. cbn [bind]. destruct (n =? r)%nat; [|discriminate]. cbn [bind]. intros E. now injection E as <-.
  - cbn [bind]. intros E. now injection E as <-.
Qed.
Lemma components_len disk draws arg a a' : (length draws <= length (shape (cp_X (ds_num a))))%nat ->
  cp_init_components env cs disk draws arg a = (a', None) -> (length (kt_fms (cp_dec (ds_num a'))) <= length (shape (cp_X (ds_num a))))%nat.
Proof.
  intros Hd. unfold cp_init_components. destruct (_ && _)%bool; [discriminate|].
  destruct (String.eqb _ "random").
  { destruct (cp_init_random draws (ds_num a)) as [s|] eqn:E1; [|discriminate]. intros E; injection E as <-. cbn. revert E1. unfold cp_init_random.
    destruct (kt_random_init draws) as [d|] eqn:ER; [|discriminate].
    assert (Ed : length (kt_fms d) = length draws).
    { revert ER. unfold kt_random_init. destruct (kt_init draws None) as [k|] eqn:EK; [|discriminate]. cbn [bind]. intros E. rewrite (normalize_len E).
      now rewrite (init_fms EK). }
    cbn [bind]. destruct (cp_nn _); [|intros E; injection E as <-; cbn; lia].
    fold abs_step. destruct (foldM abs_step _ d) as [d'|] eqn:EF; [|discriminate]. cbn [bind]. intros E. injection E as <-. cbn. rewrite (abs_len EF). lia. }
  destruct (String.eqb _ "svd").
  { destruct (cp_init_svd env cs (ds_num a)) as [s|] eqn:E1; [|discriminate]. intros E; injection E as <-. cbn. revert E1. unfold cp_init_svd.
    destruct (py_min _); [|discriminate]. cbn [bind]. destruct (_ <? _)%nat; [discriminate|].
    destruct (mapM _ _) as [us|] eqn:EM; [|discriminate]. cbn [bind]. destruct (kt_init _ _) as [d|] eqn:EK; [|discriminate]. cbn [bind]. intros E. injection E as <-. cbn.
    apply mapM_length in EM. rewrite seq_length in EM. unfold ndim in EM. rewrite <- EM.
    rewrite (init_fms EK). lia. }
  destruct (String.eqb _ "from_checkpoint").
  { destruct arg as [|k|[f|]]; try discriminate. apply load_len. }
  destruct (String.eqb _ "precomputed").
  { destruct arg as [|k|f]; try discriminate. destruct (cp_check cs (ds_num a) k) as [[]|] eqn:EC; [|discriminate]. cbn [bind]. intros E. injection E as <-.
    exact (check_len EC). }
  destruct (disk _) as [f|]; [apply load_len|discriminate].
Qed.

Lemma orth_steps_len l : forall a k k', foldM (cp_orthonormalise_step env) (combine (seq a (length l)) l) k = Ok k' ->
  l = [] \/ (a + length l <= length (kt_fms k))%nat.
Proof.
  induction l as [|b l IH]; intros a k k'; [now left|]. cbn [length seq combine foldM]. unfold cp_orthonormalise_step at 1.
  unfold list_get at 1. destruct (nth_error (kt_fms k) a) as [U|] eqn:EU; [|discriminate]. cbn [bind].
  assert (Ha : (a < length (kt_fms k))%nat) by (apply nth_error_Some; congruence).
  assert (HI : forall k1, length (kt_fms k1) = length (kt_fms k) -> foldM (cp_orthonormalise_step env) (combine (seq (Datatypes.S a) (length l)) l) k1 = Ok k' ->
    b :: l = [] \/ (a + Datatypes.S (length l) <= length (kt_fms k))%nat).
  { intros k1 E1 F. right. destruct (IH _ _ _ F) as [-> |H]; [cbn; lia|lia]. }
  destruct b; [|now apply HI]. destruct (env_qr env U); [|discriminate]. cbn [bind]. apply HI. apply length_replace_at.
Qed.

Theorem fewer_modes_raise cf disk draws vdraws X Y modes max_its arg ds l : orth_list ds = Some l -> (length (shape X) < length l)%nat ->
  (length draws <= length (shape X))%nat -> snd (cmtf_fit env cs cf disk draws vdraws X Y modes max_its arg ds) <> None.
Proof.
  intros Eo Hl Hd. unfold cmtf_fit.
  destruct (cmtf_init_fit env cs disk draws vdraws X Y modes max_its arg ds) as [a [x|]] eqn:EA; [discriminate|]. exfalso. revert EA.
  unfold cmtf_init_fit, on_cp. cbn [ds_num with_num with_it cm_cp cm_with_cp cm_with_coupling ds_it ds_max ds_rel ds_prev ds_logs ds_file].
  destruct (cp_init_components env cs disk draws arg _) as [a1 [x|]] eqn:EA; [discriminate|].
  pose proof (fun h => @components_len _ _ _ _ _ h EA) as HL. cbn [ds_num cp_X cp_with_target] in HL. specialize (HL Hd).
  apply components_num in EA as (d & EA). cbn [ds_num] in EA. rewrite EA in HL. cbn [ds_num]. destruct (init_coupled vdraws _) as [s|] eqn:EC; [|discriminate].
  assert (Es : cm_cp s = cp_with_dec d (cp_with_target X (cm_cp (ds_num ds)))).
  { revert EC. unfold init_coupled. destruct (mapM _ _); [|discriminate]. cbn [bind]. intros E. injection E as <-. exact EA. }
  set (c1 := cp_with_constraints _ _ _).
  assert (Ec : cp_orth c1 = Some l) by (unfold c1, cm_dec; rewrite Es; cbn; unfold orth_list in Eo; now rewrite Eo).
  assert (Ef : kt_fms (cp_dec c1) = kt_fms d) by (unfold c1, cm_dec; now rewrite Es).
  clearbody c1. unfold cp_orthonormalise. rewrite Ec. cbn [not_none bind].
  destruct (foldM _ _ _) as [k|] eqn:EF; [|discriminate]. apply orth_steps_len in EF as [-> |EF]; cbn in *; [lia|]. rewrite Ef in EF. lia.
Qed.

(** *** More modes *)
Lemma modes_reach l nn s : cp_nn (cm_cp s) = Some nn -> In (length nn) l -> snd (cmtf_update_modes env cs l s) <> None.
Proof.
  revert s. induction l as [|m l IH]; intros s En []; cbn [cmtf_update_modes]; rewrite En; cbn [not_none bind].
  - subst m. unfold list_get. rewrite (proj2 (nth_error_None nn (length nn))) by lia. discriminate.
  - destruct (list_get nn m) as [[|]|]; [discriminate| |discriminate].
    destruct (update_keeps s m) as (_ & K2 & _). destruct (cmtf_update_factor env cs s m) as [s1 [e|]]; [discriminate|]. cbn [fst] in K2. apply IH; [congruence|auto].
Qed.
Lemma SSE_nonneg s l : cmtf_SSE env s = Ok l -> 0 <= l.
Proof.
  unfold cmtf_SSE. destruct (kt_construct _ _); [|discriminate]. cbn [bind]. destruct (np_sub _ _) as [E|]; [|discriminate]. cbn [bind].
  destruct (coupled_SSE s) as [m|] eqn:EM; [|discriminate]. cbn [bind]. intros F. injection F as <-.
  assert (0 <= m).
  { revert EM. unfold coupled_SSE. destruct (reconstructed_coupled_matrices s); [|discriminate]. cbn [bind].
    assert (HI : forall l0 acc, 0 <= acc -> foldM (fun acc '(Y, Yh) => do E <- np_sub Y Yh ; Ok (acc + norm E ^ 2)) l0 acc = Ok m -> 0 <= m).
    { induction l0 as [|[y z] l0 IH]; intros acc Ha; cbn [foldM]; [intros F; now injection F as <-|].
      destruct (np_sub y z) as [e|]; [|discriminate]. cbn [bind]. apply IH. pose proof (pow2_ge_0 (norm e)). lra. }
    apply HI. apply Rle_refl. }
  pose proof (pow2_ge_0 (norm E)). lra.
Qed.
Lemma init_end disk draws vdraws X Y modes max_its arg ds a : cmtf_init_fit env cs disk draws vdraws X Y modes max_its arg ds = (a, None) ->
  ds_rel a = PInf /\ cp_X (cm_cp (ds_num a)) = X.
Proof.
  unfold cmtf_init_fit, on_cp. cbn [ds_num with_num with_it cm_cp cm_with_cp cm_with_coupling ds_it ds_max ds_rel ds_prev ds_logs ds_file].
  destruct (cp_init_components env cs disk draws arg _) as [a1 [x|]] eqn:EA; [discriminate|].
  apply components_num in EA as (d & EA). cbn [ds_num] in EA. cbn [ds_num]. destruct (init_coupled vdraws _) as [s|] eqn:EC; [|discriminate].
  assert (Es : cm_cp s = cp_with_dec d (cp_with_target X (cm_cp (ds_num ds)))).
  { revert EC. unfold init_coupled. destruct (mapM _ _); [|discriminate]. cbn [bind]. intros E. injection E as <-. exact EA. }
  set (c1 := cp_with_constraints _ _ _). assert (Ef : cp_X c1 = X) by (unfold c1, cm_dec; now rewrite Es). clearbody c1.
  destruct (cp_orthonormalise env c1) as [c2|] eqn:EO; [|discriminate]. apply orthonormalise_keeps in EO as (k & -> & _).
  destruct (cmtf_SSE env _); [|discriminate]. destruct (kt_normalize _ _ _); [|discriminate]. intros E. injection E as <-. split; [reflexivity|exact Ef].
Qed.
Theorem more_modes_raise cf disk draws vdraws X Y modes max_its arg ds l : nn_list ds = Some l -> (length l < length (shape X))%nat ->
  cf_rel_tol cf <= 0 -> snd (cmtf_fit env cs cf disk draws vdraws X Y modes max_its arg ds) <> None.
Proof.
  intros En Hl Ht. unfold cmtf_fit.
  destruct (cmtf_init_fit env cs disk draws vdraws X Y modes max_its arg ds) as [a [x|]] eqn:EA; [discriminate|].
  destruct (init_end EA) as [Er EX]. destruct (init_filled EA) as [HF _].
  assert (Ena : cp_nn (cm_cp (ds_num a)) = Some l) by (destruct HF as [HF|[HF _]]; [unfold nn_list in *; congruence|congruence]).
  assert (HL : snd (cp_fit_loop (cmtf_model env cs) cf a) <> None).
  { unfold cp_fit_loop. destruct (Z.to_nat _) as [|n]; cbn [cp_loop]; [discriminate|]. unfold cp_stop.
    cbn [cmtf_model md_loss md_norm2 md_update]. destruct (cmtf_SSE env (ds_num a)) as [v|] eqn:EV; [|discriminate]. cbn [bind].
    rewrite Er. cbn [xabs xltb orb].
    assert (Hx : xltb (xdiv (Fin v) (Fin (cp_norm (cm_cp (ds_num a)) ^ 2))) (Fin (cf_rel_tol cf)) = false).
    { apply SSE_nonneg in EV. cbn [xdiv]. unfold xdivR. pose proof (pow2_ge_0 (cp_norm (cm_cp (ds_num a)))) as Hp.
      destruct (Req_EM_T _ 0) as [|Hne].
      - destruct (Rlt_dec v 0); [lra|]. destruct (Rlt_dec 0 v); reflexivity.
      - cbn [xltb]. destruct (Rlt_dec _ _) as [Hlt|]; [|reflexivity].
        assert (0 <= v / cp_norm (cm_cp (ds_num a)) ^ 2) by (apply Rmult_le_pos; [exact EV|left; apply Rinv_0_lt_compat; lra]). lra. }
    rewrite Hx. unfold cmtf_update_factors.
    pose proof (@modes_reach (seq 0 (ndim (cp_X (cm_cp (ds_num a))))) l (ds_num a) Ena) as HM.
    assert (Hin : In (length l) (seq 0 (ndim (cp_X (cm_cp (ds_num a)))))) by (apply in_seq; unfold ndim; rewrite EX; lia).
    specialize (HM Hin). destruct (cmtf_update_modes env cs _ (ds_num a)) as [s1 [e|]]; [discriminate|]. now cbn in HM. }
  unfold cmtf_fit_loop. destruct (cp_fit_loop _ _ a) as [b [e|]]; [discriminate|]. now cbn in HL.
Qed.
End Cache.

(** *** A used decomposer does what a fresh one does *)
Lemma filled_asked N c c' m : filled_in N c c' -> (asked c' m <-> asked c m).
Proof.
  intros [-> | [-> ->]]; [tauto|]. split; intros (l & E & F); [|discriminate]. injection E as <-.
  apply nth_error_In in F. apply repeat_spec in F. discriminate.
Qed.
Lemma filled_flags N c c' : filled_in N c c' -> flags_for N c -> flags_for N c'.
Proof. intros [-> | [_ ->]] H; [exact H|]. right. eexists. split; [reflexivity|]. apply repeat_length. Qed.
Lemma filled_constrained env cs K X nn orth nn' orth' : filled_in (length (shape X)) nn nn' -> filled_in (length (shape X)) orth orth' ->
  constrained env cs K X nn orth -> constrained env cs K X nn' orth'.
Proof.
  intros Hn Ho []. constructor; auto.
  - now apply (filled_flags Hn).
  - now apply (filled_flags Ho).
  - intros m H1 H2. apply (filled_asked m Hn) in H1. apply (filled_asked m Ho) in H2. now apply (cn_apart m).
  - intros m H1. apply (filled_asked m Ho) in H1. auto.
  - intros m H1. apply (filled_asked m Ho) in H1. auto.
Qed.

Theorem used_like_fresh env cs K X nn orth ms cf cf' disk draws vdraws Y max_its arg ds ds' :
  constrained env cs K X nn orth -> (forall m, ~ asked nn m) -> NoDup ms ->
  usable_start env cs K X draws arg -> coupled_start K X ms Y vdraws ->
  nn_list ds = nn -> orth_list ds = orth -> earlier_uses env cs (length (shape X)) ds ds' ->
  cf_tol cf = cf_tol cf' -> cf_rel_tol cf = cf_rel_tol cf' -> max_its <> None \/ ds_max ds = ds_max ds' ->
  let budget := match max_its with Some m => m | None => ds_max ds end in (0 < budget)%Z ->
  (forall lg, In lg (ds_logs ds) -> exists k, coupled_logger env k lg) -> checkpoints_fit cf budget ds ->
  (forall lg, In lg (ds_logs ds') -> exists k, coupled_logger env k lg) -> checkpoints_fit cf' budget ds' ->
  exists d1 d2, cmtf_fit env cs cf disk draws vdraws X Y (map Z.of_nat ms) max_its arg ds = (d1, None) /\
    cmtf_fit env cs cf' disk draws vdraws X Y (map Z.of_nat ms) max_its arg ds' = (d2, None) /\
    same_result (ds_num d1) (ds_num d2) /\ ds_it d1 = ds_it d2 /\ ds_max d1 = ds_max d2 /\ ds_rel d1 = ds_rel d2 /\ ds_prev d1 = ds_prev d2.
Proof.
  intros HC Hnn HN HU HS En Eo HE Ht Hr Hm budget Hb L1 C1 L2 C2.
  destruct (uses_fill HE) as [Fn Fo]. rewrite En in Fn. rewrite Eo in Fo.
  destruct (@constrained_complete env cs K X nn orth ms HC Hnn HN cf disk draws vdraws Y max_its arg ds HU HS En Eo Hb L1 C1)
    as (a & d1 & n1 & _ & E1 & _ & _ & _ & _ & HF1 & _).
  pose proof (filled_constrained Fn Fo HC) as HC'.
  assert (Hnn' : forall m, ~ asked (nn_list ds') m) by (intros m H; apply (filled_asked m Fn) in H; now apply (Hnn m)).
  assert (Eb : match max_its with Some m => m | None => ds_max ds' end = budget).
  { unfold budget. destruct max_its; auto. destruct Hm as [Hm|Hm]; [congruence|auto]. }
  destruct (@constrained_complete env cs K X _ _ ms HC' Hnn' HN cf' disk draws vdraws Y max_its arg ds' HU HS eq_refl eq_refl)
    as (b & d2 & n2 & _ & E2 & _); rewrite ?Eb; auto.
  exists d1, d2. split; [exact E1|]. split; [exact E2|].
  subst nn orth. refine (refit_same Fn Fo Ht Hr Hm E1 E2 _).
  destruct HF1 as [_ HF1]. rewrite <- HF1. unfold rows. now rewrite map_length.
Qed.
