(** Limits of CMTF_ALS, its normalisation and its weights: lemmas for C52, C53, C61, C62. *)
From Verif Require Export CMTFUpdate.
Set Implicit Arguments.
Unset Strict Implicit.
Local Open Scope R_scope.

(** *** C52: non-negativity *)
Lemma cm_update_keeps_nn env cs s m s' e : cmtf_update_factor env cs s m = (s', e) ->
  cp_nn (cm_cp s') = cp_nn (cm_cp s).
Proof.
  unfold cmtf_update_factor. destruct (do lhs <- cmtf_lhs env cs s m ; _) as [[[V P] solve]|e0].
  2:{ intros E. injection E as <- <-. reflexivity. }
  destruct (do Z <- solve V P ; _) as [U'|e0]; intros E; injection E as <- <-; reflexivity.
Qed.

Lemma cm_modes_nn env cs l : forall s s', cmtf_update_modes env cs l s = (s', None) ->
  forall m, In m l -> exists nn, cp_nn (cm_cp s) = Some nn /\ nth_error nn m = Some false.
Proof.
  induction l as [|m1 l IH]; intros s s' E m Hin; [destruct Hin|]. cbn [cmtf_update_modes] in E.
  destruct (cp_nn (cm_cp s)) as [nn|] eqn:En; cbn [not_none bind] in E; [|discriminate].
  unfold list_get in E. destruct (nth_error nn m1) as [[|]|] eqn:E1; try discriminate.
  destruct (cmtf_update_factor env cs s m1) as [s1 [e1|]] eqn:EU; [discriminate|].
  destruct Hin as [<-|Hin]; [eauto|]. destruct (IH _ _ E m Hin) as (nn' & E2 & E3).
  rewrite (cm_update_keeps_nn EU), En in E2. injection E2 as <-. eauto.
Qed.

Lemma cm_nonneg_never env cs s m nn : cp_nn (cm_cp s) = Some nn -> nth_error nn m = Some true ->
  (m < ndim (cp_X (cm_cp s)))%nat -> snd (cmtf_update_factors env cs s) <> None.
Proof.
  intros En Em Hm E. unfold cmtf_update_factors in E.
  destruct (cmtf_update_modes env cs _ s) as [s1 [e1|]] eqn:E1; [discriminate|].
  destruct (cm_modes_nn E1 (m := m)) as (nn' & E2 & E3).
  { apply in_seq. lia. } congruence.
Qed.

Lemma cm_nonneg_fit env cs cf ds ds' m nn : cp_nn (cm_cp (ds_num ds)) = Some nn -> nth_error nn m = Some true ->
  (m < ndim (cp_X (cm_cp (ds_num ds))))%nat ->
  cp_fit_loop (cmtf_model env cs) cf ds = (ds', None) -> ds_num ds' = ds_num ds.
Proof.
  intros En Em Hm E. destruct (fit_loop_state E) as (k & _ & [-> _] & Hok). destruct k as [|k]; [reflexivity|].
  exfalso. apply (@cm_nonneg_never env cs (ds_num ds) m nn); auto. apply (Hok eq_refl 0%nat). lia.
Qed.

Lemma cm_modes_app env cs l1 : forall l2 s s', cmtf_update_modes env cs l1 s = (s', None) ->
  cmtf_update_modes env cs (l1 ++ l2) s = cmtf_update_modes env cs l2 s'.
Proof.
  induction l1 as [|m l1 IH]; intros l2 s s' E; cbn [cmtf_update_modes app] in *.
  - injection E as <-. reflexivity.
  - destruct (do nn <- not_none _ ; _) as [[|]|]; try discriminate.
    destruct (cmtf_update_factor env cs s m) as [s1 [e1|]]; [discriminate|]. now apply IH.
Qed.

Lemma cm_nonneg_attribute_error env cs K ms s m nn : svd_works_rows K (env_svd env) -> cs_rank cs = K -> (1 <= K)%nat ->
  cm_ok K ms s -> cp_nn (cm_cp s) = Some nn -> nth_error nn m = Some true -> (m < ndim (cp_X (cm_cp s)))%nat ->
  (forall j, (j < m)%nat -> free_mode cs (cm_cp s) j) ->
  snd (cmtf_update_factors env cs s) = Some AttributeError.
Proof.
  intros Hsvd HK HK1 H En Em Hm Hfree. unfold ndim in Hm.
  destruct (@cm_modes_decrease env cs K ms (seq 0 m) Hsvd HK HK1 s H) as (s1 & E1 & H1 & HS1 & _).
  { apply Forall_forall. intros j Hj. apply in_seq in Hj. split; [lia|]. apply Hfree. lia. }
  unfold cmtf_update_factors, ndim. replace (length (shape (cp_X (cm_cp s)))) with (m + S (length (shape (cp_X (cm_cp s))) - S m))%nat by lia.
  rewrite seq_app, (cm_modes_app _ E1). cbn [seq cmtf_update_modes Nat.add].
  rewrite (sp_nn (sc_cp HS1)), En. cbn [not_none bind]. unfold list_get. rewrite Em. reflexivity.
Qed.

(** *** C52: of several matrices for one mode only the first counts *)
Definition swapped (i : nat) (Y2 V2 : nd) (s : cmtf_state) : cmtf_state :=
  {| cm_cp := cm_cp s; cm_Y := replace_at i Y2 (cm_Y s); cm_modes := cm_modes s; cm_V := replace_at i V2 (cm_V s) |}.

Lemma nth_error_replace_neq {A} (l : list A) : forall i j x, i <> j -> nth_error (replace_at i x l) j = nth_error l j.
Proof. induction l as [|y l IH]; intros [|i] [|j] x H; cbn; auto; try congruence. Qed.
Lemma nth_error_replace_none {A} (l : list A) : forall i j x,
  (nth_error (replace_at i x l) j = None <-> nth_error l j = None).
Proof. intros. rewrite !nth_error_None, length_replace_at. reflexivity. Qed.
Lemma replace_comm {A} (l : list A) : forall i j x y, i <> j ->
  replace_at i x (replace_at j y l) = replace_at j y (replace_at i x l).
Proof. induction l as [|z l IH]; intros [|i] [|j] x y H; cbn; auto; try congruence. f_equal. auto. Qed.

Lemma list_get_replace {A} (l : list A) i j x : i <> j -> list_get (replace_at i x l) j = list_get l j.
Proof. intros H. unfold list_get. now rewrite nth_error_replace_neq. Qed.

Lemma mapM_get_replace {A} (l : list A) i x idxs :
  match mapM (list_get l) idxs, mapM (list_get (replace_at i x l)) idxs with
  | Ok _, Ok _ => True | Err e, Err e' => e = e' | _, _ => False end.
Proof.
  induction idxs as [|j idxs IH]; cbn [mapM]; auto.
  assert (Ea : list_get l j = match nth_error l j with Some a => Ok a | None => Err IndexError end) by reflexivity.
  assert (Eb : list_get (replace_at i x l) j = match nth_error (replace_at i x l) j with Some a => Ok a | None => Err IndexError end) by reflexivity.
  rewrite Ea, Eb. clear Ea Eb.
  destruct (nth_error l j) eqn:E1, (nth_error (replace_at i x l) j) eqn:E2; cbn [bind]; auto.
  - destruct (mapM (list_get l) idxs), (mapM (list_get (replace_at i x l)) idxs); cbn [bind]; auto.
  - apply nth_error_replace_none in E2. congruence.
  - apply (nth_error_replace_none l i j x) in E1. congruence.
Qed.

Lemma first_of_replace {A} (l : list A) i x j rest : i <> j ->
  first_of (replace_at i x l) (j :: rest) = first_of l (j :: rest).
Proof.
  intros H. unfold first_of. cbn [mapM]. rewrite list_get_replace by auto.
  destruct (list_get l j) as [y|]; cbn [bind]; [|reflexivity].
  pose proof (mapM_get_replace l i x rest) as HM.
  destruct (mapM (list_get l) rest), (mapM (list_get (replace_at i x l)) rest); try destruct HM; reflexivity.
Qed.

Lemma first_not_repeated modes k i j : repeated modes i -> first_pos modes k j -> i <> j.
Proof.
  intros (a & Ha & E) [H1 H2] ->. apply (H2 a); [lia|]. congruence.
Qed.

Section Swap.
Variables (env : cp_env) (cs : cp_settings) (i : nat) (Y2 V2 : nd).

Lemma swap_update_factor s m : repeated (cm_modes s) i ->
  cmtf_update_factor env cs (swapped i Y2 V2 s) m =
  let (s', e) := cmtf_update_factor env cs s m in (swapped i Y2 V2 s', e).
Proof.
  intros HR.
  assert (EL : cmtf_lhs env cs (swapped i Y2 V2 s) m = cmtf_lhs env cs s m).
  { unfold cmtf_lhs. cbn [swapped cm_modes cm_V]. change (cm_fms (swapped i Y2 V2 s)) with (cm_fms s).
    destruct (dict_find _ _) as [idxs|] eqn:E; [|reflexivity].
    destruct (find_first E) as (j & rest & -> & Hj). now rewrite (first_of_replace _ _ _ (first_not_repeated HR Hj)). }
  assert (ER : cmtf_rhs env (swapped i Y2 V2 s) m = cmtf_rhs env s m).
  { unfold cmtf_rhs. cbn [swapped cm_modes cm_Y cm_cp]. change (cm_fms (swapped i Y2 V2 s)) with (cm_fms s).
    destruct (dict_find _ _) as [idxs|] eqn:E; [|reflexivity].
    destruct (find_first E) as (j & rest & -> & Hj). now rewrite (first_of_replace _ _ _ (first_not_repeated HR Hj)). }
  unfold cmtf_update_factor. rewrite EL, ER. change (cm_cp (swapped i Y2 V2 s)) with (cm_cp s).
  change (cm_fms (swapped i Y2 V2 s)) with (cm_fms s).
  destruct (do lhs <- cmtf_lhs env cs s m ; _) as [[[V P] solve]|e0]; [|reflexivity].
  destruct (do Z <- solve V P ; _) as [U'|e0]; reflexivity.
Qed.

Lemma cm_update_keeps s m s' e : cmtf_update_factor env cs s m = (s', e) ->
  cm_modes s' = cm_modes s /\ cm_Y s' = cm_Y s /\ cm_V s' = cm_V s.
Proof.
  unfold cmtf_update_factor. destruct (do lhs <- cmtf_lhs env cs s m ; _) as [[[V P] solve]|e0].
  2:{ intros E. injection E as <- <-. auto. }
  destruct (do Z <- solve V P ; _) as [U'|e0]; intros E; injection E as <- <-; auto.
Qed.
Lemma cm_modes_keep l : forall s s' e, cmtf_update_modes env cs l s = (s', e) ->
  cm_modes s' = cm_modes s /\ cm_Y s' = cm_Y s /\ cm_V s' = cm_V s.
Proof.
  induction l as [|m l IH]; intros s s' e E; cbn [cmtf_update_modes] in E.
  - injection E as <- <-. auto.
  - destruct (do nn <- not_none _ ; _) as [[|]|]; try (injection E as <- <-; auto; fail).
    destruct (cmtf_update_factor env cs s m) as [s1 [e1|]] eqn:E1; destruct (cm_update_keeps E1) as (A & B & C).
    + injection E as <- <-. auto.
    + destruct (IH _ _ _ E) as (A' & B' & C'). repeat split; congruence.
Qed.

Lemma swap_modes l : forall s, repeated (cm_modes s) i ->
  cmtf_update_modes env cs l (swapped i Y2 V2 s) =
  let (s', e) := cmtf_update_modes env cs l s in (swapped i Y2 V2 s', e).
Proof.
  induction l as [|m l IH]; intros s HR; cbn [cmtf_update_modes]; [reflexivity|].
  change (cm_cp (swapped i Y2 V2 s)) with (cm_cp s).
  destruct (do nn <- not_none _ ; _) as [[|]|]; try reflexivity.
  rewrite swap_update_factor by auto. destruct (cmtf_update_factor env cs s m) as [s1 [e1|]] eqn:E1; [reflexivity|].
  apply IH. now rewrite (proj1 (cm_update_keeps E1)).
Qed.

Lemma swap_step s mode j rest V : i <> j ->
  uncoupled_step env (swapped i Y2 V2 s) mode (j :: rest) (replace_at i V2 V) =
  let (V', e) := uncoupled_step env s mode (j :: rest) V in (replace_at i V2 V', e).
Proof.
  intros Hj. unfold uncoupled_step. change (list_get (j :: rest) 0) with (Ok j). cbn [bind].
  change (cm_fms (swapped i Y2 V2 s)) with (cm_fms s). change (cm_cp (swapped i Y2 V2 s)) with (cm_cp s).
  destruct (py_get (cm_fms s) mode) as [U|]; cbn [bind]; [|reflexivity].
  cbn [swapped cm_Y]. rewrite !list_get_replace by auto.
  destruct (list_get (cm_Y s) j) as [Y|]; cbn [bind]; [|reflexivity].
  destruct (list_get V j) as [V0|]; cbn [bind]; [|reflexivity].
  assert (HP : forall solve : nd -> nd -> res nd,
    (do Z <- solve (transp U) (transp Y); do V1 <- assign_full V0 Z; Ok (replace_at j V1 (replace_at i V2 V))) =
    (do V' <- (do Z <- solve (transp U) (transp Y); do V1 <- assign_full V0 Z; Ok (replace_at j V1 V)); Ok (replace_at i V2 V'))).
  { intros solve. destruct (solve _ _) as [Z|]; cbn [bind]; [|reflexivity].
    destruct (assign_full V0 Z) as [V1|]; cbn [bind]; [|reflexivity]. f_equal. apply replace_comm. auto. }
  destruct (cp_nn (cm_cp s)) as [nn|].
  - destruct (py_get nn mode) as [b|]; cbn [bind]; [|reflexivity]. rewrite HP.
    match goal with |- context [bind ?m (fun V' => Ok (replace_at i V2 V'))] => destruct m; reflexivity end.
  - rewrite HP.
    match goal with |- context [bind ?m (fun V' => Ok (replace_at i V2 V'))] => destruct m; reflexivity end.
Qed.

Lemma swap_loop s d : (forall k l, In (k, l) d -> exists j rest, l = j :: rest /\ i <> j) -> forall V,
  uncoupled_loop env (swapped i Y2 V2 s) d (replace_at i V2 V) =
  let (V', e) := uncoupled_loop env s d V in (replace_at i V2 V', e).
Proof.
  intros Hd. induction d as [|[mode idxs] d IH]; intros V; cbn [uncoupled_loop]; [reflexivity|].
  destruct (Hd mode idxs (or_introl eq_refl)) as (j & rest & -> & Hj). rewrite swap_step by auto.
  destruct (uncoupled_step env s mode (j :: rest) V) as [V' [e|]]; [reflexivity|].
  apply IH. intros k l Hin. apply (Hd k l). now right.
Qed.

Lemma step_keeps s mode j rest V V' e : i <> j -> uncoupled_step env s mode (j :: rest) V = (V', e) ->
  nth_error V' i = nth_error V i.
Proof.
  intros Hj. unfold uncoupled_step. change (list_get (j :: rest) 0) with (Ok j). cbn [bind].
  destruct (py_get (cm_fms s) mode) as [U|]; cbn [bind]; [|intros E; injection E as <- <-; reflexivity].
  destruct (list_get (cm_Y s) j) as [Y|]; cbn [bind]; [|intros E; injection E as <- <-; reflexivity].
  destruct (list_get V j) as [V0|]; cbn [bind]; [|intros E; injection E as <- <-; reflexivity].
  assert (HP : forall solve : nd -> nd -> res nd, forall W,
    (do Z <- solve (transp U) (transp Y); do V1 <- assign_full V0 Z; Ok (replace_at j V1 V)) = Ok W ->
    nth_error W i = nth_error V i).
  { intros solve W. destruct (solve _ _) as [Z|]; cbn [bind]; [|discriminate].
    destruct (assign_full V0 Z) as [V1|]; cbn [bind]; [|discriminate]. intros E; injection E as <-.
    apply nth_error_replace_neq. auto. }
  destruct (cp_nn (cm_cp s)) as [nn|].
  - destruct (py_get nn mode) as [b|]; cbn [bind]; [|intros E; injection E as <- <-; reflexivity].
    destruct (do Z <- _ ; _) as [W|] eqn:EW; intros E; injection E as <- <-; [now apply HP in EW|reflexivity].
  - destruct (do Z <- _ ; _) as [W|] eqn:EW; intros E; injection E as <- <-; [now apply HP in EW|reflexivity].
Qed.
Lemma loop_keeps s d : (forall k l, In (k, l) d -> exists j rest, l = j :: rest /\ i <> j) -> forall V V' e,
  uncoupled_loop env s d V = (V', e) -> nth_error V' i = nth_error V i.
Proof.
  intros Hd. induction d as [|[mode idxs] d IH]; intros V V' e E; cbn [uncoupled_loop] in E; [injection E as <- <-; reflexivity|].
  destruct (Hd mode idxs (or_introl eq_refl)) as (j & rest & -> & Hj).
  destruct (uncoupled_step env s mode (j :: rest) V) as [V1 [e1|]] eqn:E1.
  - injection E as <- <-. exact (step_keeps Hj E1).
  - rewrite <- (step_keeps Hj E1). apply (IH (fun k l Hin => Hd k l (or_intror Hin)) _ _ _ E).
Qed.

Lemma entries_other modes k l : repeated modes i -> In (k, l) (mode_to_cm_idx modes) ->
  exists j rest, l = j :: rest /\ i <> j.
Proof.
  intros HR Hin. destruct (entry_first Hin) as (j & rest & -> & Hj). exists j, rest. split; auto.
  exact (first_not_repeated HR Hj).
Qed.

Lemma swap_update s : repeated (cm_modes s) i ->
  cmtf_update_factors env cs (swapped i Y2 V2 s) =
  (let (s', e) := cmtf_update_factors env cs s in (swapped i Y2 V2 s', e)) /\
  nth_error (cm_V (fst (cmtf_update_factors env cs s))) i = nth_error (cm_V s) i /\
  cm_Y (fst (cmtf_update_factors env cs s)) = cm_Y s.
Proof.
  intros HR. unfold cmtf_update_factors. change (cm_cp (swapped i Y2 V2 s)) with (cm_cp s).
  rewrite swap_modes by auto.
  destruct (cmtf_update_modes env cs _ s) as [s1 [e1|]] eqn:E1; destruct (cm_modes_keep E1) as (A & B & C).
  { cbn [fst]. rewrite C. auto. }
  unfold update_uncoupled. cbn [swapped cm_modes cm_V]. fold (swapped i Y2 V2 s1).
  assert (Hd : forall k l, In (k, l) (mode_to_cm_idx (cm_modes s1)) -> exists j rest, l = j :: rest /\ i <> j).
  { intros k l. apply entries_other. now rewrite A. }
  rewrite (swap_loop s1 Hd). destruct (uncoupled_loop env s1 _ (cm_V s1)) as [V' e] eqn:EV.
  split; [reflexivity|]. cbn [fst cm_with_V cm_V cm_Y]. split; [|exact B].
  rewrite (loop_keeps Hd EV). now rewrite C.
Qed.
End Swap.

(** *** C52: the mean squared error *)
Lemma cm_MSE_ok env K ms s : cm_ok K ms s ->
  cmtf_MSE env s = Ok (xdivR (coupled_loss K (cp_X (cm_cp s)) (cm_fms s) (vget (kt_w (cm_dec s))) ms (cm_V s) (cm_Y s))
    (INR (prodl (shape (cp_X (cm_cp s))) + list_sum (map (fun m => nth m (shape (cp_X (cm_cp s))) 0 * K)%nat ms)))).
Proof.
  intros H. unfold cmtf_MSE. rewrite (coupled_factors_ok H). cbn [bind]. rewrite (cmtf_SSE_ok env H). cbn [bind].
  do 3 f_equal. f_equal. f_equal. rewrite map_map. apply map_ext_in. intros m Hm.
  destruct (In_nth _ _ 0%nat Hm) as (i & Hi & <-). destruct (ck_coup H) as (_ & _ & HC).
  destruct (HC i Hi) as (Hl & _). rewrite (proj2 (rows_nth (ck_fac H) Hl)). cbn. lia.
Qed.
