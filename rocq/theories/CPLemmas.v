(** Fitting twice, initialisation, precomputed weights: lemmas for C42, C49, C50. *)
From Verif Require Export CPUpdate.
Set Implicit Arguments.
Unset Strict Implicit.
Local Open Scope R_scope.

(** *** C42 *)
Definition touched (s : cp_state) : Prop := cp_last s <> None.

Lemma update_touches env cs s m s' e : cp_update_factor env cs s m = (s', e) ->
  s' = s \/ touched s'.
Proof.
  unfold cp_update_factor.
  destruct (do lhs <- als_lhs cs (kt_fms (cp_dec s)) m ; _) as [[[V P] solve]|e0].
  2:{ intros E. injection E as <- <-. auto. }
  destruct (do Z <- solve V P ; _) as [U'|e0]; intros E; injection E as <- <-; right; discriminate.
Qed.
Lemma update_success_touches env cs s m s' : cp_update_factor env cs s m = (s', None) -> touched s'.
Proof.
  unfold cp_update_factor.
  destruct (do lhs <- als_lhs cs (kt_fms (cp_dec s)) m ; _) as [[[V P] solve]|e0]; [|discriminate].
  destruct (do Z <- solve V P ; _) as [U'|e0]; intros E; [|discriminate]. injection E as <-. discriminate.
Qed.
Lemma modes_touch env cs l : forall s s' e, cp_update_modes env cs l s = (s', e) -> s' = s \/ touched s'.
Proof.
  induction l as [|m l IH]; intros s s' e E; cbn [cp_update_modes] in E.
  - injection E as <- <-. auto.
  - destruct (cp_update_factor env cs s m) as [s1 [e1|]] eqn:E1.
    + injection E as <- <-. eapply update_touches; eauto.
    + pose proof (update_success_touches E1). destruct (IH _ _ _ E) as [->|]; auto.
Qed.

Lemma log_keeps_num {St D} (md : model St D) cf (ds ds' : dstate St) e :
  after_iteration md cf ds = (ds', e) -> ds_num ds' = ds_num ds.
Proof.
  unfold after_iteration. destruct (log_all (ds_num ds) (ds_it ds) (ds_logs ds)) as [logs [e1|]].
  { intros E. injection E as <- <-. reflexivity. }
  destruct (cf_freq cf =? 0)%Z; [intros E; injection E as <- <-; reflexivity|].
  destruct (_ && _); [|intros E; injection E as <- <-; reflexivity].
  unfold store_checkpoint. destruct (ds_file (with_logs logs ds)) as [f|]; [|intros E; injection E as <- <-; reflexivity].
  destruct (run_steps _ f) as [f' [e1|]]; [intros E; injection E as <- <-; reflexivity|].
  destruct (store_logs _ f') as [[logs' f''] [e1|]]; intros E; injection E as <- <-; reflexivity.
Qed.
Lemma store_keeps_num {St D} (md : model St D) (ds ds' : dstate St) e :
  store_checkpoint md ds = (ds', e) -> ds_num ds' = ds_num ds.
Proof.
  unfold store_checkpoint. destruct (ds_file ds) as [f|]; [|intros E; injection E as <- <-; reflexivity].
  destruct (run_steps _ f) as [f' [e1|]]; [intros E; injection E as <- <-; reflexivity|].
  destruct (store_logs _ f') as [[logs' f''] e1]; intros E; injection E as <- <-; reflexivity.
Qed.

Lemma loop_touches env cs cf n : forall it i ds ds' it' e,
  cp_loop (cp_model env cs) cf n it i ds = (ds', it', e) ->
  ds_num ds' = ds_num ds \/ touched (ds_num ds').
Proof.
  induction n as [|n IH]; intros it i ds ds' it' e E; cbn [cp_loop] in E.
  { injection E as <- <- <-. auto. }
  destruct (cp_stop (cp_model env cs) cf ds) as [[|]|e1]; try (injection E as <- <- <-; auto; fail).
  cbn [md_update cp_model] in E.
  destruct (cp_update_factors env cs (ds_num ds)) as [s1 e1] eqn:E1.
  pose proof (modes_touch E1) as HT.
  assert (Hc : forall d, ds_num d = s1 -> ds_num d = ds_num ds \/ touched (ds_num d)).
  { intros d ->. exact HT. }
  destruct e1 as [e1|]; [injection E as <- <- <-; now apply Hc|].
  unfold update_convergence in E. cbn [md_loss cp_model ds_num with_num] in E.
  destruct (cp_SSE env s1) as [l|e1]; cbn [bind] in E; [|injection E as <- <- <-; now apply Hc].
  match type of E with context [after_iteration ?md ?cf ?d] =>
    destruct (after_iteration md cf d) as [ds2 e2] eqn:E2 end.
  pose proof (log_keeps_num E2) as Hn. cbn [ds_num with_conv with_num] in Hn.
  destruct e2 as [e2|]; [injection E as <- <- <-; now apply Hc|].
  destruct (IH _ _ _ _ _ _ E) as [H|H]; auto. rewrite H. now apply Hc.
Qed.

Lemma fit_loop_touches env cs cf ds ds' e : cp_fit_loop (cp_model env cs) cf ds = (ds', e) ->
  ds_num ds' = ds_num ds \/ touched (ds_num ds').
Proof.
  unfold cp_fit_loop. destruct (cp_loop _ _ _ _ _ _) as [[ds1 it] e1] eqn:E1. intros E.
  pose proof (loop_touches E1) as HT.
  destruct it as [it|], e1 as [e1|]; try (injection E as <- <-; auto; fail).
  destruct (cf_freq cf =? 0)%Z; [injection E as <- <-; auto|].
  destruct (_ && _); [|injection E as <- <-; auto].
  now rewrite (store_keeps_num E).
Qed.

Definition same_rest (s s' : cp_state) : Prop :=
  cp_last s' = cp_last s /\ cp_cache s' = cp_cache s /\ cp_X s' = cp_X s /\ cp_norm s' = cp_norm s /\
  cp_nn s' = cp_nn s /\ cp_orth s' = cp_orth s.
(** The cache is gone after _init_fit but the mode is still remembered. *)
Lemma init_keeps_last env cs disk draws arg ds ds' e :
  cp_init_components env cs disk draws arg ds = (ds', e) ->
  same_rest (ds_num ds) (ds_num ds').
Proof.
  assert (Hload : forall f, load_checkpoint (cp_model env cs) f None ds = (ds', e) ->
    same_rest (ds_num ds) (ds_num ds')).
  { intros f. unfold load_checkpoint.
    destruct (lookup _ _) as [fin|]; [|intros E; injection E as <- <-; repeat split; reflexivity].
    destruct (as_int fin) as [it|]; [|intros E; injection E as <- <-; repeat split; reflexivity].
    destruct (in_file _ _); [|intros E; injection E as <- <-; repeat split; reflexivity].
    destruct (lookup _ _) as [g|]; [|intros E; injection E as <- <-; repeat split; reflexivity].
    destruct (do d <- _ ; _) as [d|]; intros E; injection E as <- <-; repeat split; reflexivity. }
  unfold cp_init_components.
  destruct (_ && _); [intros E; injection E as <- <-; repeat split; reflexivity|].
  destruct (String.eqb _ _).
  { unfold cp_init_random. destruct (kt_random_init draws) as [d|]; cbn [bind];
      [|intros E; injection E as <- <-; repeat split; reflexivity].
    destruct (cp_nn (ds_num ds)) as [nn|]; [|intros E; injection E as <- <-; repeat split; reflexivity].
    destruct (foldM _ _ d) as [d'|]; cbn [bind]; intros E; injection E as <- <-; repeat split; reflexivity. }
  destruct (String.eqb _ _).
  { unfold cp_init_svd. destruct (py_min _) as [mn|]; cbn [bind]; [|intros E; injection E as <- <-; repeat split; reflexivity].
    destruct (mn <? cs_rank cs)%nat; [intros E; injection E as <- <-; repeat split; reflexivity|].
    destruct (mapM _ _) as [fms|]; cbn [bind]; [|intros E; injection E as <- <-; repeat split; reflexivity].
    destruct (kt_init fms None) as [d|]; cbn [bind]; intros E; injection E as <- <-; repeat split; reflexivity. }
  destruct (String.eqb _ _).
  { destruct arg as [| |[f|]]; try (intros E; injection E as <- <-; repeat split; reflexivity). apply Hload. }
  destruct (String.eqb _ _).
  { destruct arg as [|d|]; try (intros E; injection E as <- <-; repeat split; reflexivity).
    destruct (cp_check _ _ _); cbn [bind]; intros E; injection E as <- <-; repeat split; reflexivity. }
  destruct (disk _) as [f|]; [apply Hload|]. intros E; injection E as <- <-; repeat split; reflexivity.
Qed.

Lemma second_fit env cs cf disk draws X max_its arg ds ds1 :
  touched (ds_num ds) -> cp_init_fit env cs disk draws X max_its arg ds = (ds1, None) ->
  cp_fit env cs cf disk draws X max_its arg ds =
    (ds1, Some (if (ds_it ds1 <? ds_max ds1)%Z then TypeError else UnboundLocalError)).
Proof.
  intros HT EI. unfold cp_fit. rewrite EI. unfold cp_init_fit in EI.
  match type of EI with context [cp_init_components _ _ _ _ _ ?d] => set (d0 := d) in EI end.
  destruct (cp_init_components env cs disk draws arg d0) as [d1 [e1|]] eqn:E1; [discriminate|].
  destruct (init_keeps_last E1) as (HL & HC & HX & HN & _ & _).
  set (d2 := match max_its with Some m => with_max m d1 | None => d1 end) in EI.
  match type of EI with context [cp_orthonormalise _ ?x] => set (s1 := x) in EI end.
  assert (HL1 : cp_last s1 = cp_last (ds_num ds)).
  { change (cp_last s1) with (cp_last (ds_num d2)). unfold d2. destruct max_its; cbn [ds_num with_max]; now rewrite HL. }
  destruct (cp_orthonormalise env s1) as [s2|] eqn:EO; [|discriminate].
  assert (HL2 : cp_last s2 = cp_last s1).
  { unfold cp_orthonormalise in EO. destruct (not_none _) as [l|]; cbn [bind] in EO; [|discriminate].
    destruct (foldM _ _ _) as [d|]; cbn [bind] in EO; [|discriminate]. now injection EO as <-. }
  destruct (cp_SSE env s2) as [l|] eqn:ES; [|discriminate].
  injection EI as <-. cbn [ds_it ds_max with_conv with_num].
  set (d3 := with_conv PInf (Fin l) (with_num (cp_with_cache (cp_last s2) None s2) d2)).
  destruct (cp_last (ds_num ds)) as [m|] eqn:EL; [|now elim HT].
  rewrite HL1 in HL2.
  assert (EN : cp_SSE env (ds_num d3) = Err TypeError).
  { unfold cp_SSE in ES |- *. rewrite HL2 in ES. cbn [d3 ds_num with_conv with_num cp_with_cache cp_last cp_dec].
    rewrite HL2. destruct (kt_construct (env_junk env) (cp_dec s2)) as [Y|]; cbn [bind] in ES |- *; [|discriminate].
    unfold cp_inner in ES |- *. cbn [cp_with_cache cp_dec cp_cache].
    destruct (list_get _ m) as [U|]; cbn [bind] in ES |- *; [reflexivity|discriminate]. }
  unfold cp_fit_loop. change (ds_max d3) with (ds_max d2). change (ds_it d3) with (ds_it d2).
  destruct (Z.ltb_spec (ds_it d2) (ds_max d2)) as [Hlt|Hge].
  - destruct (Z.to_nat (ds_max d2 - ds_it d2)) as [|n] eqn:En; [lia|].
    cbn [cp_loop]. unfold cp_stop. cbn [md_loss cp_model]. rewrite EN. cbn [bind]. reflexivity.
  - replace (Z.to_nat (ds_max d2 - ds_it d2)) with 0%nat by lia. cbn [cp_loop]. reflexivity.
Qed.
