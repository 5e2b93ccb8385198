(** Facts about Experiment (C73). *)
From Verif Require Export ExperimentSpec HlogFacts.
Set Implicit Arguments.
Unset Strict Implicit.
Local Open Scope nat_scope.

Lemma with_group_same ex g f : ex_group (with_group ex g f) ex = Some g.
Proof. unfold ex_group, with_group. cbn [f_groups]. apply lookup_set_same. Qed.
Lemma with_group_only ex g f : only_group ex f (with_group ex g f).
Proof. split; [reflexivity|]. intros e He. unfold ex_group, with_group. cbn [f_groups]. now apply lookup_set_other. Qed.

Lemma lookup_cons_same (V : Type) k (v : V) l : lookup k ((k, v) :: l) = Some v.
Proof. cbn. now rewrite String.eqb_refl. Qed.
Lemma lookup_cons_other (V : Type) k k' (v : V) l : k <> k' -> lookup k ((k', v) :: l) = lookup k l.
Proof. intros H. cbn. apply String.eqb_neq in H. now rewrite H. Qed.
Lemma stored_cons_same k v l : stored_value k ((k, Some v) :: l) = Some v.
Proof. unfold stored_value. now rewrite lookup_cons_same. Qed.
Lemma stored_cons_other k k' v l : k <> k' -> stored_value k ((k', v) :: l) = stored_value k l.
Proof. intros H. unfold stored_value. now rewrite lookup_cons_other. Qed.
Lemma stored_absent k d : ~ In k (keys d) -> stored_value k d = None.
Proof. intros H. apply lookup_None_iff in H. unfold stored_value. now rewrite H. Qed.
Lemma stored_in k d : storable_dict d -> In k (keys d) -> exists v, stored_value k d = Some v /\ In (k, Some v) d.
Proof.
  intros HS HI. induction d as [|[k' v'] d IH]; [destruct HI|]. destruct (string_dec k k') as [->|Hne].
  - destruct v' as [v'|]; [|exfalso; exact (HS k' None (or_introl eq_refl) eq_refl)].
    exists v'. split; [apply stored_cons_same|now left].
  - destruct HI as [HI|HI]; [now cbn in HI; subst|]. destruct IH as (v & E & H).
    + intros a b Hab. apply (HS a b). now right.
    + exact HI.
    + exists v. split; [now rewrite stored_cons_other|now right].
Qed.

(** *** Attributes *)
Lemma attrs_run d : forall g, storable_dict d -> exists g', run_steps (map attr_step d) g = (g', None) /\
  g_data g' = g_data g.
Proof.
  induction d as [|[k v] d IH]; intros g HS; cbn [map run_steps]; [eauto|].
  destruct v as [v|]; [|exfalso; exact (HS k None (or_introl eq_refl) eq_refl)].
  cbn [attr_step snd fst]. unfold attr_step at 1. cbn [snd fst set_attr].
  destruct (IH {| g_attrs := assoc_set k v (g_attrs g); g_data := g_data g |}) as (g' & E & H).
  - intros a b Hab. apply (HS a b). now right.
  - exists g'. split; [exact E|exact H].
Qed.
Lemma attrs_value d : forall g g', is_dict d -> run_steps (map attr_step d) g = (g', None) ->
  forall k, lookup k (g_attrs g') = match stored_value k d with Some v => Some v | None => lookup k (g_attrs g) end.
Proof.
  induction d as [|[k0 v] d IH]; intros g g' HD E k; cbn [map run_steps] in E.
  - injection E as <-. reflexivity.
  - inversion_clear HD as [|? ? Hn HD']. unfold attr_step at 1 in E. cbn [snd fst] in E. destruct v as [v|]; [|discriminate].
    cbn [set_attr] in E. rewrite (IH _ _ HD' E k). cbn [g_attrs]. destruct (string_dec k k0) as [->|Hne].
    + rewrite stored_cons_same, (stored_absent Hn). apply lookup_set_same.
    + rewrite stored_cons_other by exact Hne. now rewrite lookup_set_other.
Qed.
Lemma kept_lookup k d : stored_value k (kept_params d) = if String.eqb k "init" then None else stored_value k d.
Proof.
  induction d as [|[k' v] d IH]; [now destruct (String.eqb k "init")|]. cbn [kept_params filter fst].
  destruct (String.eqb_spec k' "init") as [->|Hi]; cbn [negb].
  - fold (kept_params d). rewrite IH. destruct (String.eqb_spec k "init") as [->|Hk]; [reflexivity|]. now rewrite stored_cons_other.
  - fold (kept_params d). destruct (string_dec k k') as [->|Hne].
    + apply String.eqb_neq in Hi. rewrite Hi. unfold stored_value. now rewrite !lookup_cons_same.
    + rewrite !stored_cons_other by exact Hne. exact IH.
Qed.
Lemma kept_dict d : is_dict d -> is_dict (kept_params d).
Proof.
  unfold is_dict, keys, kept_params. induction d as [|[k v] d IH]; intros H; [constructor|]. inversion_clear H as [|? ? Hn H'].
  cbn [filter fst]. destruct (negb _); [|auto]. cbn [map fst]. constructor; [|auto]. intros HI. apply Hn.
  apply in_map_iff in HI as (x & E & HI). apply filter_In in HI as [HI _]. apply in_map_iff. eauto.
Qed.
Lemma params_run params g : is_dict params -> storable_dict (kept_params params) ->
  exists g', run_steps (map attr_step (kept_params params)) g = (g', None) /\ g_data g' = g_data g /\
    forall k, lookup k (g_attrs g') = attrs_after params g k.
Proof.
  intros HD HS. destruct (attrs_run g HS) as (g' & E & H). exists g'. split; [exact E|]. split; [exact H|]. intros k.
  rewrite (attrs_value (kept_dict HD) E). rewrite kept_lookup. unfold attrs_after. now destruct (String.eqb k "init").
Qed.

(** *** New datasets *)
Lemma new_run d : forall g, is_dict d -> storable_dict d -> (forall n, In n (keys d) -> lookup n (g_data g) = None) ->
  exists g', run_steps (map new_step d) g = (g', None) /\ g_attrs g' = g_attrs g /\
    forall n, lookup n (g_data g') = match stored_value n d with Some v => Some v | None => lookup n (g_data g) end.
Proof.
  induction d as [|[k v] d IH]; intros g HD HS Hn; cbn [map run_steps].
  - exists g. auto.
  - inversion_clear HD as [|? ? Hk HD']. destruct v as [v|]; [|exfalso; exact (HS k None (or_introl eq_refl) eq_refl)].
    unfold new_step at 1. cbn [snd fst]. unfold put_data. rewrite (Hn k (or_introl eq_refl)).
    destruct (IH {| g_attrs := g_attrs g; g_data := g_data g ++ [(k, v)] |}) as (g' & E & A & B).
    + exact HD'.
    + intros a b Hab. apply (HS a b). now right.
    + intros n Hin. cbn [g_data]. rewrite lookup_app. rewrite (Hn n (or_intror Hin)). rewrite lookup_cons_other; [reflexivity|].
      intros ->. contradiction.
    + exists g'. split; [exact E|]. split; [exact A|]. intros n. rewrite B. cbn [g_data]. destruct (string_dec n k) as [->|Hne].
      * rewrite stored_cons_same, (stored_absent Hk), lookup_app, (Hn k (or_introl eq_refl)). apply lookup_cons_same.
      * rewrite (stored_cons_other (Some v) d Hne), lookup_app, lookup_cons_other by exact Hne.
        destruct (stored_value n d); [reflexivity|]. now destruct (lookup n (g_data g)).
Qed.
(** Some name is taken: refused there; nothing stored is lost *)
Lemma new_taken d : forall g n, storable_dict d -> In n (keys d) -> lookup n (g_data g) <> None ->
  exists g', run_steps (map new_step d) g = (g', Some NameExists) /\ g_attrs g' = g_attrs g /\
    forall k v, lookup k (g_data g) = Some v -> lookup k (g_data g') = Some v.
Proof.
  induction d as [|[k v] d IH]; intros g n HS Hin Ht; [destruct Hin|]. cbn [map run_steps].
  destruct v as [v|]; [|exfalso; exact (HS k None (or_introl eq_refl) eq_refl)].
  unfold new_step at 1. cbn [snd fst]. unfold put_data. destruct (lookup k (g_data g)) as [w|] eqn:E.
  - exists g. auto.
  - assert (Hne : n <> k) by congruence. destruct Hin as [Hin|Hin]; [cbn in Hin; congruence|].
    destruct (IH {| g_attrs := g_attrs g; g_data := g_data g ++ [(k, v)] |} n) as (g' & E' & A & B).
    + intros a b Hab. apply (HS a b). now right.
    + exact Hin.
    + cbn [g_data]. rewrite lookup_app. destruct (lookup n (g_data g)); congruence.
    + exists g'. split; [exact E'|]. split; [exact A|]. intros a x Hx. apply B. cbn [g_data]. rewrite lookup_app, Hx. reflexivity.
Qed.

(** *** Overwriting *)
Lemma assign_full_same a b : wf a -> wf b -> shape a = shape b -> assign_full a b = Ok b.
Proof.
  intros Ha Hb E. unfold assign_full, broadcast_into, broadcast. rewrite E, bshape_same.
  destruct (list_eq_dec Nat.eq_dec (shape b) (shape b)) as [_|N]; [|congruence].
  f_equal. transitivity (tab (shape b) (get b)); [|now apply tab_get]. apply tab_ext. intros idx Hv. now rewrite (@bidx_same (shape b)) by auto.
Qed.
Lemma overwrite_ok v old : replaces v old -> overwrite v old = Ok v.
Proof.
  destruct old, v; cbn; try tauto; try reflexivity.
  - intros (H1 & H2 & H3). rewrite assign_full_same by auto. reflexivity.
  - intros ->. now rewrite Nat.eqb_refl.
  - intros ->. now rewrite Nat.eqb_refl.
Qed.
Lemma over_run d : forall g, is_dict d -> replaces_all d g ->
  exists g', run_steps (map over_step d) g = (g', None) /\ g_attrs g' = g_attrs g /\
    forall n, lookup n (g_data g') = match stored_value n d with Some v => Some v | None => lookup n (g_data g) end.
Proof.
  induction d as [|[k v] d IH]; intros g HD HR; cbn [map run_steps].
  - exists g. auto.
  - inversion_clear HD as [|? ? Hk HD']. destruct (HR k v (or_introl eq_refl)) as (x & old & -> & E & HX).
    unfold over_step at 1. cbn [snd fst]. rewrite E. unfold write_data. rewrite E, (overwrite_ok HX). cbn [bind].
    destruct (IH {| g_attrs := g_attrs g; g_data := assoc_set k x (g_data g) |}) as (g' & E' & A & B).
    + exact HD'.
    + intros a b Hab. destruct (HR a b (or_intror Hab)) as (x' & old' & -> & E1 & HX'). exists x', old'. split; [reflexivity|].
      split; [|exact HX']. cbn [g_data]. rewrite lookup_set_other; [exact E1|]. intros ->. apply Hk. apply (in_map fst) in Hab. exact Hab.
    + exists g'. split; [exact E'|]. split; [exact A|]. intros n. rewrite B. cbn [g_data]. destruct (string_dec n k) as [->|Hne].
      * rewrite stored_cons_same, (stored_absent Hk). apply lookup_set_same.
      * now rewrite (stored_cons_other (Some x) d Hne), lookup_set_other.
Qed.
(** Some name is missing: the entries before it are replaced, then KeyError *)
Lemma over_missing pre n v post g : is_dict pre -> replaces_all pre g -> ~ In n (keys pre) -> lookup n (g_data g) = None ->
  exists g', run_steps (map over_step (pre ++ (n, v) :: post)) g = (g', Some KeyError) /\ g_attrs g' = g_attrs g /\
    forall k, lookup k (g_data g') = match stored_value k pre with Some x => Some x | None => lookup k (g_data g) end.
Proof.
  intros HD HR Hn Hl. destruct (over_run HD HR) as (g' & E & A & B). exists g'. split; [|auto].
  rewrite map_app, run_steps_app, E. cbn [map run_steps]. unfold over_step at 1. cbn [fst].
  rewrite B, (stored_absent Hn), Hl. reflexivity.
Qed.
Lemma over_never d : forall g n, In n (keys d) -> lookup n (g_data g) = None ->
  exists g' e, run_steps (map over_step d) g = (g', Some e).
Proof.
  induction d as [|[k v] d IH]; intros g n Hin Hm; [destruct Hin|]. cbn [map run_steps]. unfold over_step at 1. cbn [fst snd].
  destruct (lookup k (g_data g)) as [old|] eqn:E; [|eauto]. destruct v as [v|]; [|eauto]. unfold write_data. rewrite E.
  destruct (overwrite v old) as [v'|e]; cbn [bind]; [|eauto].
  assert (Hne : n <> k) by congruence. destruct Hin as [Hin|Hin]; [cbn in Hin; congruence|].
  apply (IH {| g_attrs := g_attrs g; g_data := assoc_set k v' (g_data g) |} n Hin). cbn [g_data]. now rewrite lookup_set_other.
Qed.
Lemma over_same_names d : forall g g' e, run_steps (map over_step d) g = (g', e) ->
  forall n, lookup n (g_data g) = None -> lookup n (g_data g') = None.
Proof.
  induction d as [|[k v] d IH]; intros g g' e H n Hn; cbn [map run_steps] in H; [injection H as <- _; exact Hn|].
  unfold over_step at 1 in H. cbn [fst snd] in H.
  destruct (lookup k (g_data g)) as [old|] eqn:E; [|injection H as <- _; exact Hn].
  destruct v as [v|]; [|injection H as <- _; exact Hn]. unfold write_data in H. rewrite E in H.
  destruct (overwrite v old) as [v'|e']; cbn [bind] in H; [|injection H as <- _; exact Hn].
  apply (IH _ _ _ H). cbn [g_data]. rewrite lookup_set_other; [exact Hn|congruence].
Qed.
Lemma new_taken_never d : forall g n, In n (keys d) -> lookup n (g_data g) <> None ->
  exists g' e, run_steps (map new_step d) g = (g', Some e).
Proof.
  induction d as [|[k v] d IH]; intros g n Hin Ht; [destruct Hin|]. cbn [map run_steps]. unfold new_step at 1. cbn [fst snd].
  destruct v as [v|]; [|eauto]. unfold put_data. destruct (lookup k (g_data g)) as [w|] eqn:E; [eauto|].
  assert (Hne : n <> k) by congruence. destruct Hin as [Hin|Hin]; [cbn in Hin; congruence|].
  apply (IH {| g_attrs := g_attrs g; g_data := g_data g ++ [(k, v)] |} n Hin).
  cbn [g_data]. rewrite lookup_app. destruct (lookup n (g_data g)); congruence.
Qed.

(** *** run_experiment *)
Lemma no_clash params : (forall k, In k (keys params) -> ~ In k own_keywords) -> clashes params = false.
Proof.
  intros H. unfold clashes. destruct (existsb _ (keys params)) eqn:E; [|reflexivity]. exfalso.
  apply existsb_exists in E as (k & Hk & E). apply existsb_exists in E as (r & Hr & E). apply String.eqb_eq in E as ->.
  exact (H r Hk Hr).
Qed.
Lemma clash params k : In k (keys params) -> In k own_keywords -> clashes params = true.
Proof.
  intros H1 H2. unfold clashes. apply existsb_exists. exists k. split; [exact H1|]. apply existsb_exists. exists k.
  split; [exact H2|apply String.eqb_refl].
Qed.
Lemma kept_storable params : storable_params params -> storable_dict (kept_params params).
Proof.
  intros H k v HI. apply filter_In in HI as [HI Hk]. cbn [fst] in Hk. apply (H k v HI). intros ->. discriminate.
Qed.
Lemma run_none (G : Type) (s t : list (G -> res G)) g g1 : run_steps s g = (g1, None) ->
  run_steps (s ++ t) g = run_steps t g1.
Proof. intros E. now rewrite run_steps_app, E. Qed.

Section Run.
Variables (ex : string) (params : dict) (f : file) (g : group).
Hypothesis Hg : ex_group f ex = Some g.
Hypothesis Hd : is_dict params.
Hypothesis Hc : forall k, In k (keys params) -> ~ In k own_keywords.
Hypothesis Hs : storable_params params.

Lemma run_unfold ef fe cont : exp_run ex params ef fe cont f =
  match ef cont g with
  | (g1, Err e) => (with_group ex g1 f, Some e)
  | (g1, Ok outs) =>
    match run_steps (map attr_step (kept_params params) ++ map (store_step cont) outs) g1 with
    | (g2, Some e) => (with_group ex g2 f, Some e)
    | (g2, None) =>
      match fe outs with
      | Err e => (with_group ex g2 f, Some e)
      | Ok ms => let (g3, e) := run_steps (map (store_step cont) ms) g2 in (with_group ex g3 f, e)
      end
    end
  end.
Proof. unfold exp_run. unfold ex_group in Hg. rewrite Hg, (no_clash Hc). reflexivity. Qed.

Lemma new_run_lemma ef fe g1 outs ms : ef false g = (g1, Ok outs) -> fe outs = Ok ms ->
  is_dict outs -> is_dict ms -> storable_dict outs -> storable_dict ms ->
  (forall n, In n (keys outs) -> lookup n (g_data g1) = None) ->
  (forall n, In n (keys ms) -> lookup n (g_data g1) = None /\ ~ In n (keys outs)) ->
  exists f' g', exp_run ex params ef fe false f = (f', None) /\ ex_group f' ex = Some g' /\ only_group ex f f' /\
    (forall k, lookup k (g_attrs g') = attrs_after params g1 k) /\
    (forall n, lookup n (g_data g') = match stored_value n outs with Some v => Some v | None =>
                                      match stored_value n ms with Some v => Some v | None => lookup n (g_data g1) end end).
Proof.
  intros Hef Hfe Ho Hm So Sm No Nm. rewrite run_unfold, Hef. cbn [store_step].
  destruct (params_run g1 Hd (kept_storable Hs)) as (ga & Ea & Da & Aa). rewrite (run_none _ Ea).
  destruct (@new_run outs ga) as (gb & Eb & Ab & Db); auto.
  { intros n Hn. rewrite Da. auto. }
  rewrite Eb, Hfe. destruct (@new_run ms gb) as (gc & Ec & Ac & Dc); auto.
  { intros n Hn. destruct (Nm n Hn) as [H1 H2]. rewrite Db, (stored_absent H2), Da. exact H1. }
  rewrite Ec. exists (with_group ex gc f), gc. split; [reflexivity|]. split; [apply with_group_same|].
  split; [apply with_group_only|]. split.
  - intros k. rewrite Ac, Ab. apply Aa.
  - intros n. rewrite Dc, Db, Da. destruct (stored_value n ms) eqn:E1.
    + destruct (in_dec string_dec n (keys ms)) as [HI|HI]; [|rewrite (stored_absent HI) in E1; discriminate].
      destruct (Nm n HI) as [_ H]. now rewrite (stored_absent H).
    + reflexivity.
Qed.

Lemma repeat_lemma ef fe g1 outs n : ef false g = (g1, Ok outs) -> storable_dict outs ->
  In n (keys outs) -> lookup n (g_data g1) <> None ->
  exists f' g', exp_run ex params ef fe false f = (f', Some NameExists) /\ ex_group f' ex = Some g' /\ only_group ex f f' /\
    (forall k, lookup k (g_attrs g') = attrs_after params g1 k) /\
    (forall k v, lookup k (g_data g1) = Some v -> lookup k (g_data g') = Some v).
Proof.
  intros Hef So Hin Ht. rewrite run_unfold, Hef. cbn [store_step].
  destruct (params_run g1 Hd (kept_storable Hs)) as (ga & Ea & Da & Aa). rewrite (run_none _ Ea).
  destruct (@new_taken outs ga n) as (gb & Eb & Ab & Db); auto. { now rewrite Da. }
  rewrite Eb. exists (with_group ex gb f), gb. split; [reflexivity|]. split; [apply with_group_same|].
  split; [apply with_group_only|]. split.
  - intros k. rewrite Ab. apply Aa.
  - intros k v Hk. apply Db. now rewrite Da.
Qed.

Lemma continue_lemma ef fe g1 outs ms : ef true g = (g1, Ok outs) -> fe outs = Ok ms ->
  is_dict outs -> is_dict ms -> replaces_all outs g1 -> replaces_all ms g1 -> (forall n, In n (keys ms) -> ~ In n (keys outs)) ->
  exists f' g', exp_run ex params ef fe true f = (f', None) /\ ex_group f' ex = Some g' /\ only_group ex f f' /\
    (forall k, lookup k (g_attrs g') = attrs_after params g1 k) /\
    (forall n, lookup n (g_data g') = match stored_value n outs with Some v => Some v | None =>
                                      match stored_value n ms with Some v => Some v | None => lookup n (g_data g1) end end).
Proof.
  intros Hef Hfe Ho Hm Ro Rm Nm. rewrite run_unfold, Hef. cbn [store_step].
  destruct (params_run g1 Hd (kept_storable Hs)) as (ga & Ea & Da & Aa). rewrite (run_none _ Ea).
  destruct (@over_run outs ga) as (gb & Eb & Ab & Db); auto.
  { intros k v HI. rewrite Da. exact (Ro k v HI). }
  rewrite Eb, Hfe. destruct (@over_run ms gb) as (gc & Ec & Ac & Dc); auto.
  { intros k v HI. destruct (Rm k v HI) as (x & old & H1 & H2 & H3). exists x, old. split; [exact H1|]. split; [|exact H3].
    rewrite Db, Da, H2. rewrite stored_absent; [reflexivity|]. apply Nm. apply (in_map fst) in HI. exact HI. }
  rewrite Ec. exists (with_group ex gc f), gc. split; [reflexivity|]. split; [apply with_group_same|].
  split; [apply with_group_only|]. split.
  - intros k. rewrite Ac, Ab. apply Aa.
  - intros n. rewrite Dc, Db, Da. destruct (stored_value n ms) eqn:E1.
    + destruct (in_dec string_dec n (keys ms)) as [HI|HI]; [|rewrite (stored_absent HI) in E1; discriminate].
      now rewrite (stored_absent (Nm n HI)).
    + reflexivity.
Qed.

Lemma continue_missing_lemma ef fe g1 pre n v post : ef true g = (g1, Ok (pre ++ (n, v) :: post)) ->
  is_dict pre -> replaces_all pre g1 -> ~ In n (keys pre) -> lookup n (g_data g1) = None ->
  exists f' g', exp_run ex params ef fe true f = (f', Some KeyError) /\ ex_group f' ex = Some g' /\ only_group ex f f' /\
    (forall k, lookup k (g_attrs g') = attrs_after params g1 k) /\
    (forall k, lookup k (g_data g') = match stored_value k pre with Some x => Some x | None => lookup k (g_data g1) end).
Proof.
  intros Hef Hp Rp Hn Hl. rewrite run_unfold, Hef. cbn [store_step].
  destruct (params_run g1 Hd (kept_storable Hs)) as (ga & Ea & Da & Aa). rewrite (run_none _ Ea).
  destruct (@over_missing pre n v post ga) as (gb & Eb & Ab & Db); auto.
  { intros k w HI. rewrite Da. exact (Rp k w HI). } { now rewrite Da. }
  rewrite Eb. exists (with_group ex gb f), gb. split; [reflexivity|]. split; [apply with_group_same|].
  split; [apply with_group_only|]. split.
  - intros k. rewrite Ab. apply Aa.
  - intros k. now rewrite Db, Da.
Qed.

Lemma eval_raises_lemma ef fe g1 outs e : ef false g = (g1, Ok outs) -> fe outs = Err e -> is_dict outs -> storable_dict outs ->
  (forall n, In n (keys outs) -> lookup n (g_data g1) = None) ->
  exists f' g', exp_run ex params ef fe false f = (f', Some e) /\ ex_group f' ex = Some g' /\ only_group ex f f' /\
    (forall k, lookup k (g_attrs g') = attrs_after params g1 k) /\
    (forall n, lookup n (g_data g') = match stored_value n outs with Some v => Some v | None => lookup n (g_data g1) end).
Proof.
  intros Hef Hfe Ho So No. rewrite run_unfold, Hef. cbn [store_step].
  destruct (params_run g1 Hd (kept_storable Hs)) as (ga & Ea & Da & Aa). rewrite (run_none _ Ea).
  destruct (@new_run outs ga) as (gb & Eb & Ab & Db); auto.
  { intros n Hn. rewrite Da. auto. }
  rewrite Eb, Hfe. exists (with_group ex gb f), gb. split; [reflexivity|]. split; [apply with_group_same|].
  split; [apply with_group_only|]. split.
  - intros k. rewrite Ab. apply Aa.
  - intros n. now rewrite Db, Da.
Qed.
End Run.

(** A group that has some of the names but not all of them *)
Lemma attr_data d : forall g g' e, run_steps (map attr_step d) g = (g', e) -> g_data g' = g_data g.
Proof.
  induction d as [|[k v] d IH]; intros g g' e H; cbn [map run_steps] in H; [injection H as <- _; reflexivity|].
  unfold attr_step at 1 in H. cbn [snd fst] in H. destruct v as [v|]; [|injection H as <- _; reflexivity].
  cbn [set_attr] in H. apply IH in H. exact H.
Qed.
Lemma stuck_lemma ex params f g (ef : bool -> group -> group * res dict) fe cont n m g' outs :
  ex_group f ex = Some g -> ef cont g = (g', Ok outs) -> g_data g' = g_data g ->
  In n (keys outs) -> lookup n (g_data g) <> None ->
  (forall ms, fe outs = Ok ms -> In m (keys ms)) -> lookup m (g_data g) = None ->
  snd (exp_run ex params ef fe cont f) <> None.
Proof.
  intros Hg Hef Hdat Hn Ln Hm Lm. unfold exp_run. unfold ex_group in Hg. rewrite Hg. destruct (clashes params); [discriminate|].
  rewrite Hef, run_steps_app. destruct (run_steps (map attr_step (kept_params params)) g') as [ga oa] eqn:Ea.
  pose proof (attr_data Ea) as Da. destruct oa as [e|]; [discriminate|]. destruct cont; cbn [store_step].
  - destruct (run_steps (map over_step outs) ga) as [gb ob] eqn:Eb. destruct ob as [e|]; [discriminate|].
    destruct (fe outs) as [ms|e] eqn:Ef; [|discriminate].
    assert (Lb : lookup m (g_data gb) = None) by (apply (over_same_names Eb); rewrite Da, Hdat; exact Lm).
    destruct (over_never (Hm ms eq_refl) Lb) as (gc & e & Ec). rewrite Ec. discriminate.
  - destruct (@new_taken_never outs ga n Hn) as (gb & e & Eb); [rewrite Da, Hdat; exact Ln|]. rewrite Eb. discriminate.
Qed.

(** An attribute that cannot be stored *)
Lemma attr_unstorable d : forall g, ~ storable_dict d -> exists g', run_steps (map attr_step d) g = (g', Some TypeError) /\
  g_data g' = g_data g.
Proof.
  induction d as [|[k v] d IH]; intros g H; [exfalso; apply H; intros k v []|]. cbn [map run_steps]. unfold attr_step at 1. cbn [snd fst].
  destruct v as [v|]; [|eauto]. cbn [set_attr].
  destruct (IH {| g_attrs := assoc_set k v (g_attrs g); g_data := g_data g |}) as (g' & E & D); [|eauto].
  intros H'. apply H. intros a b [E|HI]; [injection E as <- <-; discriminate|]. exact (H' a b HI).
Qed.
Lemma unstorable_lemma ex params f g ef fe cont k g1 outs : ex_group f ex = Some g ->
  (forall k, In k (keys params) -> ~ In k own_keywords) -> In (k, None) params -> k <> "init"%string -> ef cont g = (g1, Ok outs) ->
  exists f' g', exp_run ex params ef fe cont f = (f', Some TypeError) /\ ex_group f' ex = Some g' /\ only_group ex f f' /\
    g_data g' = g_data g1.
Proof.
  intros Hg Hc Hk Hi Hef. unfold exp_run. unfold ex_group in Hg. rewrite Hg, (no_clash Hc), Hef, run_steps_app.
  destruct (@attr_unstorable (kept_params params) g1) as (g' & E & D).
  - intros H. apply (H k None); [|reflexivity]. apply filter_In. split; [exact Hk|]. cbn [fst]. apply String.eqb_neq in Hi. now rewrite Hi.
  - rewrite E. exists (with_group ex g' f), g'. split; [reflexivity|]. split; [apply with_group_same|]. split; [apply with_group_only|exact D].
Qed.

(** *** The constructor *)
Lemma only_refl ex f : only_group ex f f.
Proof. split; auto. Qed.
Lemma only_trans ex f1 f2 f3 : only_group ex f1 f2 -> only_group ex f2 f3 -> only_group ex f1 f3.
Proof. intros [A B] [C D]. split; [congruence|]. intros e He. now rewrite D, B. Qed.
Lemma run_at_group ex (st : string * option dval -> gstep) d : forall f g g' e, ex_group f ex = Some g ->
  run_steps (map st d) g = (g', e) ->
  exists f', run_steps (map (fun kv => at_group ex (st kv)) d) f = (f', e) /\ ex_group f' ex = Some g' /\ only_group ex f f'.
Proof.
  induction d as [|kv d IH]; intros f g g' e Hg E; cbn [map run_steps] in *.
  - injection E as <- <-. exists f. split; [reflexivity|]. split; [exact Hg|apply only_refl].
  - unfold at_group at 1. unfold ex_group in Hg. rewrite Hg. destruct (st kv g) as [g1|e1]; cbn [bind].
    + destruct (IH (with_group ex g1 f) g1 g' e (with_group_same ex g1 f) E) as (f' & E' & A & B). exists f'.
      split; [exact E'|]. split; [exact A|]. eapply only_trans; [apply with_group_only|exact B].
    + injection E as <- <-. exists f. split; [reflexivity|]. split; [exact Hg|apply only_refl].
Qed.
Lemma open_ex ex f : (ex_group f ex <> None \/ in_file ex f = false) ->
  exists f', open_group ex f = Ok f' /\ ex_group f' ex = Some (old_group f ex) /\ only_group ex f f'.
Proof.
  unfold old_group, ex_group. intros H. unfold open_group. destruct (lookup ex (f_groups f)) as [g|] eqn:E.
  - exists f. split; [reflexivity|]. split; [exact E|apply only_refl].
  - destruct H as [H|H]; [congruence|]. rewrite H. unfold create_group. rewrite H. eexists. split; [reflexivity|]. cbn [f_groups].
    split; [rewrite lookup_app, E; apply lookup_cons_same|]. split; [reflexivity|]. intros e He. unfold ex_group. cbn [f_groups].
    rewrite lookup_app, lookup_cons_other by exact He. now destruct (lookup e (f_groups f)).
Qed.
Lemma attrs_at ex d f g : ex_group f ex = Some g -> is_dict d -> storable_dict d ->
  exists f' g', run_steps (map (fun kv => at_group ex (attr_step kv)) d) f = (f', None) /\ ex_group f' ex = Some g' /\
    only_group ex f f' /\ g_data g' = g_data g /\
    (forall k, lookup k (g_attrs g') = match stored_value k d with Some v => Some v | None => lookup k (g_attrs g) end).
Proof.
  intros Hg HD HS. destruct (attrs_run g HS) as (g' & E & D). destruct (run_at_group Hg E) as (f' & E' & A & B).
  exists f', g'. split; [exact E'|]. split; [exact A|]. split; [exact B|]. split; [exact D|]. exact (attrs_value HD E).
Qed.
Lemma in_file_group n f f' : lookup n (f_groups f') = lookup n (f_groups f) -> f_root f' = f_root f -> in_file n f' = in_file n f.
Proof. intros A B. unfold in_file. now rewrite A, B. Qed.
Lemma exp_new_lemma ex attributes metadata f : ex <> "metadata"%string ->
  (ex_group f ex <> None \/ in_file ex f = false) -> (ex_group f "metadata" <> None \/ in_file "metadata" f = false) ->
  is_dict attributes -> storable_dict attributes -> is_dict metadata -> storable_dict metadata ->
  exists f' e ga gm, exp_new ex (Some attributes) (Some metadata) f = (f', e) /\
    ex_group f' ex = Some ga /\ ex_group f' "metadata" = Some gm /\
    g_data ga = g_data (old_group f ex) /\
    (forall k, lookup k (g_attrs ga) = match stored_value k attributes with Some v => Some v | None => lookup k (g_attrs (old_group f ex)) end) /\
    ((forall n, In n (keys metadata) -> lookup n (g_data (old_group f "metadata")) = None) ->
     e = None /\ forall n, lookup n (g_data gm) =
       match stored_value n metadata with Some v => Some v | None => lookup n (g_data (old_group f "metadata")) end) /\
    ((exists n, In n (keys metadata) /\ lookup n (g_data (old_group f "metadata")) <> None) -> e = Some NameExists /\
     forall n v, lookup n (g_data (old_group f "metadata")) = Some v -> lookup n (g_data gm) = Some v).
Proof.
  intros Hne H1 H2 HD HS MD MS. unfold exp_new. cbn [run_steps]. destruct (open_ex H1) as (f1 & E1 & G1 & O1). rewrite E1.
  destruct (attrs_at G1 HD HS) as (f2 & ga & E2 & G2 & O2 & D2 & A2). rewrite (run_none _ E2). cbn [run_steps].
  pose proof (only_trans O1 O2) as O. assert (M2 : ex_group f2 "metadata" = ex_group f "metadata") by (apply O; congruence).
  assert (H2' : ex_group f2 "metadata" <> None \/ in_file "metadata" f2 = false).
  { rewrite M2. destruct H2 as [H2|H2]; [now left|right]. transitivity (in_file "metadata" f); [|exact H2].
    apply in_file_group; [exact M2|exact (proj1 O)]. }
  destruct (open_ex H2') as (f3 & E3 & G3 & O3). rewrite E3.
  assert (Eo : old_group f2 "metadata" = old_group f "metadata") by (unfold old_group; now rewrite M2).
  rewrite Eo in G3.
  destruct (run_steps (map new_step metadata) (old_group f "metadata")) as [gm e] eqn:Em.
  destruct (run_at_group G3 Em) as (f4 & E4 & G4 & O4). exists f4, e, ga, gm. split; [exact E4|].
  split. { destruct O4 as [_ O4]. destruct O3 as [_ O3]. rewrite O4, O3 by congruence. exact G2. }
  split; [exact G4|]. split; [exact D2|]. split; [exact A2|]. split.
  - intros Hn. destruct (@new_run metadata (old_group f "metadata") MD MS Hn) as (g' & E' & _ & B). rewrite E' in Em.
    injection Em as <- <-. auto.
  - intros (n & Hn & Ht). destruct (@new_taken metadata (old_group f "metadata") n MS Hn Ht) as (g' & E' & _ & B). rewrite E' in Em.
    injection Em as <- <-. auto.
Qed.
