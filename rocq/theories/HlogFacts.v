(** The HDF5 logger stores every value once (C40). *)
From Verif Require Export Hlog H5Facts.
Set Implicit Arguments.
Unset Strict Implicit.
Local Open Scope nat_scope.

Definition data_of (f : file) (ex t : string) : option dval :=
  match lookup ex (f_groups f) with Some g => lookup t (g_data g) | None => None end.
Lemma entries_data f ex t l : entries_of f ex t = Some l <-> data_of f ex t = Some (DSeq l).
Proof.
  unfold entries_of, data_of. destruct (lookup ex (f_groups f)) as [g|]; [|split; discriminate].
  destruct (lookup t (g_data g)) as [[]|]; split; intros H; try discriminate; now injection H as ->.
Qed.
Lemma data_group f ex t v : data_of f ex t = Some v -> lookup ex (f_groups f) <> None.
Proof. unfold data_of. destruct (lookup ex (f_groups f)); congruence. Qed.

Lemma write_step f ex n v fn v' : data_of f ex n = Some v -> fn v = Ok v' ->
  exists f', at_group ex (write_data n fn) f = Ok f' /\ data_of f' ex n = Some v' /\
    (forall t, t <> n -> data_of f' ex t = data_of f ex t) /\
    (forall e t, e <> ex -> data_of f' e t = data_of f e t).
Proof.
  unfold data_of, at_group, write_data. destruct (lookup ex (f_groups f)) as [g|] eqn:Eg; [|discriminate].
  intros E1 E2. rewrite E1, E2. cbn [bind]. eexists. split; [reflexivity|]. cbn [f_groups].
  rewrite lookup_set_same. cbn [g_data]. split; [now rewrite lookup_set_same|]. split.
  - intros t Ht. now rewrite lookup_set_other.
  - intros e t He. now rewrite lookup_set_other.
Qed.
Lemma create_step f ex n v : lookup ex (f_groups f) <> None -> data_of f ex n = None ->
  exists f', at_group ex (put_data n v) f = Ok f' /\ data_of f' ex n = Some v /\
    (forall t, t <> n -> data_of f' ex t = data_of f ex t) /\
    (forall e t, e <> ex -> data_of f' e t = data_of f e t) /\ lookup ex (f_groups f') <> None.
Proof.
  unfold data_of, at_group, put_data. destruct (lookup ex (f_groups f)) as [g|] eqn:Eg; [|congruence].
  intros _ E1. rewrite E1. cbn [bind]. eexists. split; [reflexivity|]. cbn [f_groups].
  rewrite lookup_set_same. cbn [g_data]. split; [|split; [|split]].
  - rewrite lookup_app, E1. cbn [lookup]. now rewrite String.eqb_refl.
  - intros t Ht. rewrite lookup_app. cbn [lookup]. apply String.eqb_neq in Ht. rewrite Ht. destruct (lookup t (g_data g)); auto.
  - intros e t He. now rewrite lookup_set_other.
  - discriminate.
Qed.

Section Facts.
Context {P : Type} (to32 : xr -> xr).
Variable ex : string.
Notation target := (string * (P -> res xr))%type.

Definition pair_steps (it prev first : nat) (tv : string * list xr) : list step :=
  [ at_group ex (write_data (fst tv) (resize it));
    at_group ex (write_data (fst tv) (assign_from to32 prev (skipn (prev - first) (snd tv)))) ].

Lemma pair_run it prev first n v l f : data_of f ex n = Some (DSeq l) -> length l = prev -> prev <= it ->
  length (skipn (prev - first) v) = it - prev ->
  exists f', run_steps (pair_steps it prev first (n, v)) f = (f', None) /\
    data_of f' ex n = Some (DSeq (l ++ map to32 (skipn (prev - first) v))) /\
    (forall t, t <> n -> data_of f' ex t = data_of f ex t) /\
    (forall e t, e <> ex -> data_of f' e t = data_of f e t).
Proof.
  intros Hd Hl Hp Hv. cbn [pair_steps run_steps fst snd].
  destruct (@write_step f ex n (DSeq l) (resize it) _ Hd eq_refl) as (f1 & -> & H1 & H2 & H3).
  set (l1 := firstn it l ++ _) in H1.
  assert (E1 : firstn prev l1 = l).
  { unfold l1. rewrite (firstn_all2 (n := it)) by lia. rewrite firstn_app, firstn_all2 by lia.
    replace (prev - length l) with 0 by lia. cbn [firstn]. apply app_nil_r. }
  assert (E2 : length l1 = it).
  { unfold l1. rewrite app_length, repeat_length, firstn_length. lia. }
  destruct (@write_step f1 ex n (DSeq l1) (assign_from to32 prev (skipn (prev - first) v)) (DSeq (l ++ map to32 (skipn (prev - first) v))) H1)
    as (f2 & -> & K1 & K2 & K3).
  { cbn [assign_from]. rewrite E1, E2, Hv, Nat.eqb_refl. reflexivity. }
  exists f2. split; auto. split; auto. split; intros.
  - rewrite K2, H2; auto.
  - rewrite K3, H3; auto.
Qed.

Lemma pairs_run it prev first (tvs : list (string * list xr)) : forall f (old : string -> list xr), NoDup (map fst tvs) -> prev <= it ->
  (forall n v, In (n, v) tvs -> data_of f ex n = Some (DSeq (old n)) /\ length (old n) = prev /\ length (skipn (prev - first) v) = it - prev) ->
  exists f', run_steps (concat (map (pair_steps it prev first) tvs)) f = (f', None) /\
    (forall n v, In (n, v) tvs -> data_of f' ex n = Some (DSeq (old n ++ map to32 (skipn (prev - first) v)))) /\
    (forall t, ~ In t (map fst tvs) -> data_of f' ex t = data_of f ex t) /\
    (forall e t, e <> ex -> data_of f' e t = data_of f e t) /\ (tvs = [] -> f' = f).
Proof.
  induction tvs as [|[n v] tvs IH]; intros f old Hnd Hp H.
  - exists f. cbn. split; auto. split; [tauto|]. auto.
  - cbn [map concat fst] in *. inversion_clear Hnd as [|? ? Hn Hnd']. rewrite run_steps_app.
    destruct (H n v (or_introl eq_refl)) as (H1 & H2 & H3).
    destruct (pair_run H1 H2 Hp H3) as (f1 & -> & K1 & K2 & K3).
    destruct (IH f1 old Hnd' Hp) as (f2 & -> & J1 & J2 & J3 & _).
    { intros n' v' Hin. destruct (H n' v' (or_intror Hin)) as (A & B & C). split; auto. rewrite K2; auto.
      intros ->. apply Hn. apply (in_map fst) in Hin. exact Hin. }
    exists f2. split; auto. split; [|split; [|split; [|discriminate]]].
    + intros n' v' [E|Hin]; [|auto]. injection E as <- <-. rewrite J2; auto.
    + intros t Ht. cbn [In] in Ht. rewrite J2 by tauto. apply K2. intros ->. apply Ht. now left.
    + intros e t He. rewrite J3, K3; auto.
Qed.

(** ** A session *)
Variables (freq : Z) (targets : list target).
Hypothesis names_distinct : NoDup (map fst targets).

Definition inv (n0 : nat) (old : string -> list xr) (ps : list P) (m : nat) (h : hlog P) (f : file) : Prop :=
  hl_ex h = ex /\ hl_freq h = freq /\ hl_targets h = targets /\
  hl_vals h = map (fun t => map (value (snd t)) ps) targets /\
  hl_it h = n0 + length ps /\ hl_prev h = n0 + m /\ hl_first h = n0 /\ m <= length ps /\
  lookup ex (f_groups f) <> None /\
  (forall n t, In (n, t) targets -> length (old n) = n0 /\
     data_of f ex n = Some (DSeq (old n ++ map to32 (map (value t) (firstn m ps))))).

Lemma inv_save n0 old ps m h f : inv n0 old ps m h f ->
  exists h' f', hl_save to32 h f = (h', f', None) /\ inv n0 old ps (length ps) h' f'.
Proof.
  intros (I1 & I2 & I3 & I4 & I5 & I6 & I7 & I8 & I9 & I10). unfold hl_save. rewrite I1.
  destruct (lookup ex (f_groups f)) as [g|] eqn:Eg; [|congruence].
  assert (ES : save_steps to32 h = concat (map (pair_steps (hl_it h) (hl_prev h) (hl_first h))
     (map (fun t => (fst t, map (value (snd t)) ps)) targets))).
  { unfold save_steps. rewrite I1, I3, I4. f_equal. clear. generalize targets. intros l.
    rewrite map_map. induction l as [|t l IH]; [reflexivity|]. cbn [map combine]. now rewrite IH. }
  rewrite ES, I5, I6, I7.
  set (tvs := map _ targets).
  assert (Enames : map fst tvs = map fst targets) by (unfold tvs; rewrite map_map; now apply map_ext).
  pose (cur := fun n => match data_of f ex n with Some (DSeq l) => l | _ => [] end).
  destruct (@pairs_run (n0 + length ps) (n0 + m) n0 tvs f cur) as (f' & -> & K1 & K2 & K3 & K4).
  - now rewrite Enames.
  - lia.
  - intros n v Hin. unfold tvs in Hin. apply in_map_iff in Hin as ([n' t] & E & Hin). cbn [fst snd] in E. injection E as -> <-.
    destruct (I10 n t Hin) as [L1 L2]. unfold cur. rewrite L2. split; auto. split.
    + rewrite app_length, !map_length, firstn_length. lia.
    + replace (n0 + m - n0) with m by lia. rewrite skipn_length, map_length. lia.
  - eexists. exists f'. split; [reflexivity|].
    unfold inv. cbn [hl_ex hl_freq hl_targets hl_vals hl_it hl_prev hl_first with_prev].
    rewrite I5. split; [auto|]. split; [auto|]. split; [auto|]. split; [auto|]. split; [auto|]. split; [auto|]. split; [auto|].
    split; [lia|]. split.
    + destruct tvs as [|[n v] ts] eqn:Et.
      * rewrite K4 by auto. rewrite Eg. discriminate.
      * specialize (K1 n v (or_introl eq_refl)). now apply data_group in K1.
    + intros n t Hin. destruct (I10 n t Hin) as [L1 L2]. split; auto.
      rewrite (K1 n (map (value t) ps)).
      * unfold cur. rewrite L2. rewrite <- app_assoc, <- map_app. do 4 f_equal.
        replace (n0 + m - n0) with m by lia. rewrite skipn_map, <- map_app, firstn_skipn, firstn_all. reflexivity.
      * unfold tvs. apply in_map_iff. exists (n, t). auto.
Qed.

Lemma append_all_ok (p : P) (ts : list target) (f : target -> list xr) vs :
  append_all p ts (map f ts) = (vs, None) ->
  vs = map (fun t => f t ++ [value (snd t) p]) ts /\ forall n t, In (n, t) ts -> exists v, t p = Ok v.
Proof.
  revert vs. induction ts as [|[n t] ts IH]; intros vs; cbn [append_all map].
  - intros H. injection H as <-. split; auto. intros ? ? [].
  - destruct (t p) as [x|e] eqn:E; [|discriminate]. destruct (append_all p ts (map f ts)) as [r e] eqn:Er.
    intros H. injection H as <- ->. destruct (IH r eq_refl) as [-> H2]. split.
    + cbn [snd]. unfold value at 2. now rewrite E.
    + intros n' t' [Eq|Hin]; [injection Eq as <- <-|]; eauto.
Qed.
Lemma append_all_progress (p : P) (ts : list target) : forall vs, (forall n t, In (n, t) ts -> exists v, t p = Ok v) ->
  exists r, append_all p ts vs = (r, None).
Proof.
  induction ts as [|[n t] ts IH]; intros vs H; cbn [append_all]; [eauto|]. destruct vs as [|v vs]; [eauto|].
  destruct (H n t (or_introl eq_refl)) as [x ->]. destruct (IH vs) as [r ->]; [intros; eapply H; right; eauto|]. eauto.
Qed.

Lemma inv_log n0 old ps m h f p h' f' : inv n0 old ps m h f -> hl_log to32 p h f = (h', f', None) ->
  inv n0 old (ps ++ [p]) (if (Z.of_nat (n0 + S (length ps)) mod freq =? 0)%Z then S (length ps) else m) h' f'.
Proof.
  intros HI. pose proof HI as (I1 & I2 & I3 & I4 & I5 & I6 & I7 & I8 & I9 & I10). unfold hl_log. rewrite I2, I3, I4.
  destruct (append_all p targets _) as [vs [x|]] eqn:E; [discriminate|].
  apply append_all_ok in E as [-> HE]. set (h1 := with_count _ _).
  assert (HI1 : inv n0 old (ps ++ [p]) m h1 f).
  { unfold inv, h1. cbn [hl_ex hl_freq hl_targets hl_vals hl_it hl_prev hl_first with_count with_vals].
    rewrite app_length. cbn [length]. split; [auto|]. split; [auto|]. split; [auto|]. split.
    { apply map_ext. intros t. rewrite map_app. reflexivity. }
    split; [lia|]. split; [auto|]. split; [auto|]. split; [lia|]. split; [auto|].
    intros n t Hin. destruct (I10 n t Hin) as [L1 L2]. split; auto. rewrite L2. rewrite firstn_app.
    replace (m - length ps) with 0 by lia. cbn [firstn]. now rewrite app_nil_r. }
  destruct (freq =? 0)%Z; [discriminate|].
  replace (hl_it h1) with (n0 + S (length ps)) by (unfold h1; cbn [hl_it with_count with_vals]; lia).
  destruct (Z.of_nat (n0 + S (length ps)) mod freq =? 0)%Z.
  - destruct (inv_save HI1) as (h2 & f2 & -> & HI2). intros H. injection H as <- <-.
    rewrite app_length in HI2. cbn [length] in HI2. now rewrite Nat.add_1_r in HI2.
  - intros H. injection H as <- <-. exact HI1.
Qed.

Lemma session_lemma evs : forall n0 old ps m h f h' f', inv n0 old ps m h f -> hl_events to32 evs h f = (h', f', None) ->
  inv n0 old (ps ++ params evs) (saved freq n0 (length ps) m evs) h' f'.
Proof.
  induction evs as [|[p|] evs IH]; intros n0 old ps m h f h' f' HI; cbn [hl_events hl_event params flat_map saved].
  - intros H. injection H as <- <-. now rewrite app_nil_r.
  - destruct (hl_log to32 p h f) as [[h1 f1] [x|]] eqn:E; [discriminate|]. intros H.
    pose proof (inv_log HI E) as HI1. apply IH with (1 := HI1) in H. rewrite app_length in H. cbn [length] in H.
    rewrite Nat.add_1_r in H. rewrite <- app_assoc in H. exact H.
  - destruct (inv_save HI) as (h1 & f1 & -> & HI1). intros H. apply IH with (1 := HI1) in H. exact H.
Qed.
Lemma session_progress evs : freq <> 0%Z -> (forall p n t, In p (params evs) -> In (n, t) targets -> exists v, t p = Ok v) ->
  forall n0 old ps m h f, inv n0 old ps m h f -> snd (hl_events to32 evs h f) = None.
Proof.
  intros Hf. induction evs as [|[p|] evs IH]; intros HT n0 old ps m h f HI; cbn [hl_events hl_event]; auto.
  - destruct (hl_log to32 p h f) as [[h1 f1] [x|]] eqn:E.
    + exfalso. pose proof HI as (I1 & I2 & I3 & I4 & I5 & I6 & I7 & I8 & I9 & I10). unfold hl_log in E. rewrite I2, I3, I4 in E.
      destruct (@append_all_progress p targets (map (fun t => map (value (snd t)) ps) targets)) as [r Hr].
      { intros n t Hin. apply (HT p n t); auto. now left. }
      rewrite Hr in E. pose proof (append_all_ok Hr) as [-> _]. assert (E0 : (freq =? 0)%Z = false) by now apply Z.eqb_neq.
      rewrite E0 in E. set (h2 := with_count _ _) in E. destruct (_ =? 0)%Z; [|discriminate].
      destruct (@inv_save n0 old (ps ++ [p]) m h2 f) as (h3 & f3 & E3 & _); [|congruence].
      unfold inv, h2. cbn [hl_ex hl_freq hl_targets hl_vals hl_it hl_prev hl_first with_count with_vals].
      rewrite app_length. cbn [length]. split; [auto|]. split; [auto|]. split; [auto|]. split.
      { apply map_ext. intros t. rewrite map_app. reflexivity. }
      split; [lia|]. split; [auto|]. split; [auto|]. split; [lia|]. split; [auto|].
      intros n t Hin. destruct (I10 n t Hin) as [L1 L2]. split; auto. rewrite L2. rewrite firstn_app.
      replace (m - length ps) with 0 by lia. cbn [firstn]. now rewrite app_nil_r.
    + eapply IH; [|eapply inv_log; eauto]. intros p0 n t Hp. apply HT. now right.
  - destruct (inv_save HI) as (h1 & f1 & -> & HI1). eapply IH; eauto.
Qed.

(** ** Creation *)
Lemma init_run names : forall f, NoDup names -> lookup ex (f_groups f) <> None -> (forall n, In n names -> data_of f ex n = None) ->
  exists f', run_steps (map (fun n => at_group ex (put_data n (DSeq []))) names) f = (f', None) /\
    lookup ex (f_groups f') <> None /\ (forall n, In n names -> data_of f' ex n = Some (DSeq [])) /\
    (forall n, ~ In n names -> data_of f' ex n = data_of f ex n) /\ (forall e t, e <> ex -> data_of f' e t = data_of f e t).
Proof.
  induction names as [|n names IH]; intros f Hnd Hg Hn; cbn [map run_steps].
  - exists f. split; auto. split; auto. split; [intros ? []|]. auto.
  - inversion_clear Hnd as [|? ? Hn1 Hnd1].
    destruct (@create_step f ex n (DSeq []) Hg (Hn n (or_introl eq_refl))) as (f1 & -> & H1 & H2 & H3 & H4).
    destruct (IH f1 Hnd1 H4) as (f2 & -> & K1 & K2 & K3 & K4).
    { intros n' Hin. rewrite H2; [apply Hn; now right|]. intros ->. contradiction. }
    exists f2. split; auto. split; auto. split; [|split].
    + intros n' [<-|Hin]; auto. rewrite K3; auto.
    + intros n' Hin. cbn [In] in Hin. rewrite K3 by tauto. apply H2. intros ->. tauto.
    + intros e t He. rewrite K4, H3; auto.
Qed.
Lemma open_run f : (lookup ex (f_groups f) <> None \/ in_file ex f = false) ->
  exists f', open_group ex f = Ok f' /\ lookup ex (f_groups f') <> None /\ (forall e t, data_of f' e t = data_of f e t).
Proof.
  intros H. unfold open_group. destruct (lookup ex (f_groups f)) as [g|] eqn:E.
  - exists f. rewrite E. split; auto. split; auto. discriminate.
  - destruct H as [H|H]; [congruence|]. rewrite H. unfold create_group. rewrite H. eexists. split; [reflexivity|]. cbn [f_groups].
    rewrite lookup_app, E. cbn [lookup]. rewrite String.eqb_refl. split; [discriminate|]. intros e t. unfold data_of. cbn [f_groups].
    rewrite lookup_app. cbn [lookup]. destruct (String.eqb_spec e ex) as [->|Hne]; [now rewrite E|].
    destruct (lookup e (f_groups f)); auto.
Qed.
Lemma new_lemma f : (lookup ex (f_groups f) <> None \/ in_file ex f = false) ->
  (forall n, In n (map fst targets) -> data_of f ex n = None) ->
  exists f' h, hl_new ex freq targets false f = (f', Ok h) /\ inv 0 (fun _ => []) [] 0 h f'.
Proof.
  intros Hopen Hn. unfold hl_new, hl_init_steps. cbn [run_steps]. destruct (open_run Hopen) as (f1 & -> & G1 & G2).
  destruct (@init_run (map fst targets) f1 names_distinct G1) as (f2 & -> & K1 & K2 & K3 & K4).
  { intros n Hin. rewrite G2. auto. }
  eexists. eexists. split; [reflexivity|]. unfold inv. cbn [hl_ex hl_freq hl_targets hl_vals hl_it hl_prev hl_first length firstn map List.app].
  split; [auto|]. split; [auto|]. split; [auto|]. split; [auto|]. split; [auto|]. split; [auto|]. split; [auto|]. split; [auto|].
  split; [auto|]. intros n t Hin. split; auto. apply K2. apply (in_map fst) in Hin. exact Hin.
Qed.
(** A target of the new logger has a dataset already: refused. *)
Lemma new_refused_lemma f n : In n (map fst targets) -> data_of f ex n <> None ->
  exists f', hl_new ex freq targets false f = (f', Err NameExists) /\
    (forall e t v, data_of f e t = Some v -> data_of f' e t = Some v).
Proof.
  intros Hin Hd. unfold hl_new, hl_init_steps. cbn [run_steps].
  assert (Hg : lookup ex (f_groups f) <> None) by (unfold data_of in Hd; destruct (lookup ex (f_groups f)); congruence).
  destruct (open_run (f := f)) as (f1 & -> & G1 & G2); [now left|].
  assert (Hd1 : data_of f1 ex n <> None) by now rewrite G2.
  assert (HP : forall names f1, In n names -> data_of f1 ex n <> None -> lookup ex (f_groups f1) <> None ->
    exists f', run_steps (map (fun n => at_group ex (put_data n (DSeq []))) names) f1 = (f', Some NameExists) /\
    (forall e t v, data_of f1 e t = Some v -> data_of f' e t = Some v)).
  { clear. induction names as [|n' names IH]; intros f1 Hin Hd Hg; [destruct Hin|]. cbn [map run_steps].
    destruct (data_of f1 ex n') as [v|] eqn:E.
    - exists f1. split; auto. unfold at_group, put_data, data_of in *. destruct (lookup ex (f_groups f1)); [|congruence].
      rewrite E. reflexivity.
    - destruct (@create_step f1 ex n' (DSeq []) Hg E) as (f2 & -> & H1 & H2 & H3 & H4).
      assert (Hne : n <> n') by congruence.
      destruct Hin as [->|Hin]; [congruence|]. destruct (IH f2 Hin) as (f3 & -> & K); auto; [now rewrite H2|].
      exists f3. split; auto. intros e t v Hv. apply K. destruct (String.eqb_spec e ex) as [->|He].
      + rewrite H2; auto. congruence.
      + now rewrite H3. }
  destruct (HP (map fst targets) f1 Hin Hd1 G1) as (f2 & -> & K). exists f2. split; auto.
  intros e t v Hv. apply K. now rewrite G2.
Qed.
(** Continuing: all targets have the same number of entries *)
Lemma continue_session_lemma f n0 (old : string -> list xr) : targets <> [] ->
  (forall n, In n (map fst targets) -> length (old n) = n0 /\ data_of f ex n = Some (DSeq (old n))) ->
  exists h, hl_new ex freq targets true f = (f, Ok h) /\ inv n0 old [] 0 h f.
Proof.
  intros Hne H.
  assert (E : exists n t ts, targets = (n, t) :: ts) by (destruct targets as [|[n t] ts]; [congruence|eauto]).
  destruct E as (n & t & ts & E). destruct (H n) as [L1 L2]; [rewrite E; now left|].
  pose proof (data_group L2) as Hg.
  assert (EL : old_len ex (map fst targets) f = Ok n0).
  { rewrite E. cbn [map fst old_len]. unfold data_of in L2.
    destruct (lookup ex (f_groups f)) as [g|]; [|congruence]. unfold get_data. rewrite L2. cbn [bind dataset_len]. now rewrite L1. }
  unfold hl_new. rewrite EL. cbn [bind]. eexists. split; [reflexivity|]. unfold inv.
  cbn [hl_ex hl_freq hl_targets hl_vals hl_it hl_prev hl_first length firstn map]. rewrite Nat.add_0_r.
  split; [auto|]. split; [auto|]. split; [auto|]. split; [auto|]. split; [auto|]. split; [auto|]. split; [auto|]. split; [auto|].
  split; [congruence|]. intros n' t' Hin. rewrite app_nil_r. apply H. apply (in_map fst) in Hin. exact Hin.
Qed.

(** ** The number of unsaved values *)
Lemma saved_bound (evs : list (hevent P)) : (0 < freq)%Z -> forall n0 k m, m <= k -> (forall j, m < j <= k -> (Z.of_nat (n0 + j) mod freq <> 0)%Z) ->
  let m' := saved freq n0 k m evs in let k' := k + length (params evs) in
  m' <= k' /\ (forall j, m' < j <= k' -> (Z.of_nat (n0 + j) mod freq <> 0)%Z).
Proof.
  intros Hf. induction evs as [|[p|] evs IH]; intros n0 k m Hm H; cbn [saved params flat_map].
  - cbn [length]. rewrite Nat.add_0_r. auto.
  - cbn [List.app length]. change (flat_map _ evs) with (params evs). cbn zeta.
    replace (k + S (length (params evs))) with (S k + length (params evs)) by lia.
    destruct (Z.eqb_spec (Z.of_nat (n0 + S k) mod freq) 0) as [E|E]; apply IH; try lia.
    intros j Hj. destruct (Nat.eq_dec j (S k)) as [->|]; auto. apply H. lia.
  - apply IH; lia.
Qed.
Lemma no_multiple n0 m k : (0 < freq)%Z -> m <= k -> (forall j, m < j <= k -> (Z.of_nat (n0 + j) mod freq <> 0)%Z) ->
  (Z.of_nat (k - m) < freq)%Z.
Proof.
  intros Hf Hm H. destruct (Z.lt_ge_cases (Z.of_nat (k - m)) freq) as [|Hge]; auto. exfalso.
  (* among freq consecutive numbers there is a multiple *)
  set (a := (Z.of_nat (n0 + m) / freq)%Z). pose proof (Z.div_mod (Z.of_nat (n0 + m)) freq ltac:(lia)) as Hd.
  pose proof (Z.mod_pos_bound (Z.of_nat (n0 + m)) freq Hf) as Hb. fold a in Hd.
  apply (H (Z.to_nat (freq * (a + 1)) - n0)).
  - assert (0 <= a)%Z by (apply Z.div_pos; lia). nia.
  - assert (Ha : (0 <= a)%Z) by (apply Z.div_pos; lia).
    replace (Z.of_nat (n0 + (Z.to_nat (freq * (a + 1)) - n0))) with ((a + 1) * freq)%Z by nia. apply Z.mod_mul. lia.
Qed.
End Facts.

(** ** Final forms *)
Section Final.
Context {P : Type} (to32 : xr -> xr).
Notation target := (string * (P -> res xr))%type.

Lemma session_start ex freq (targets : list target) (cont : bool) f f1 h n0 (old : string -> list xr) :
  NoDup (map fst targets) ->
  (if cont then forall n, In n (map fst targets) -> length (old n) = n0 /\ entries_of f ex n = Some (old n)
   else n0 = 0 /\ forall n, old n = []) ->
  hl_new ex freq targets cont f = (f1, Ok h) -> inv to32 ex freq targets n0 old [] 0 h f1.
Proof.
  intros Hnd Hold Hnew. destruct cont.
  - destruct targets as [|t ts] eqn:Et; [discriminate|]. rewrite <- Et in *.
    destruct (@continue_session_lemma P to32 ex freq targets Hnd f n0 old) as (h0 & E & HI).
    + congruence.
    + intros n Hin. destruct (Hold n Hin) as [A B]. split; auto. now apply entries_data.
    + rewrite E in Hnew. injection Hnew as <- <-. exact HI.
  - destruct Hold as [-> Hold].
    assert (Hn : forall n, In n (map fst targets) -> data_of f ex n = None).
    { intros n Hin. destruct (data_of f ex n) eqn:E; auto. exfalso.
      destruct (@new_refused_lemma P ex freq targets f n Hin) as (f2 & E2 & _); congruence. }
    destruct (@new_lemma P to32 ex freq targets Hnd f) as (f2 & h2 & E2 & HI); auto.
    { unfold hl_new, hl_init_steps in Hnew. cbn [run_steps] in Hnew. unfold open_group in Hnew.
      destruct (lookup ex (f_groups f)); [left; discriminate|]. destruct (in_file ex f); [discriminate|auto]. }
    rewrite E2 in Hnew. injection Hnew as <- <-.
    destruct HI as (I1 & I2 & I3 & I4 & I5 & I6 & I7 & I8 & I9 & I10).
    split; [auto|]. split; [auto|]. split; [auto|]. split; [auto|]. split; [auto|]. split; [auto|]. split; [auto|]. split; [auto|].
    split; [auto|]. intros n t Hin. rewrite Hold. now apply I10.
Qed.

(** One session on entries [old] (none for a new logger) *)
Lemma C40_session_lemma ex freq (targets : list target) (cont : bool) f f1 h evs h' f' n0 (old : string -> list xr) :
  NoDup (map fst targets) -> (0 < freq)%Z ->
  (if cont then forall n, In n (map fst targets) -> length (old n) = n0 /\ entries_of f ex n = Some (old n)
   else n0 = 0 /\ forall n, old n = []) ->
  hl_new ex freq targets cont f = (f1, Ok h) -> hl_events to32 evs h f1 = (h', f', None) ->
  let m := saved freq n0 0 0 evs in
  (forall n t, In (n, t) targets ->
     entries_of f' ex n = Some (old n ++ map (fun p => to32 (value t p)) (firstn m (params evs)))) /\
  m <= length (params evs) /\ (Z.of_nat (length (params evs) - m) < freq)%Z.
Proof.
  intros Hnd Hf Hold Hnew Hev. cbn zeta.
  pose proof (session_start Hnd Hold Hnew) as HI.
  pose proof (session_lemma Hnd HI Hev) as (_ & _ & _ & _ & _ & _ & _ & J8 & _ & J10). cbn [List.app length] in J8, J10.
  destruct (@saved_bound P freq evs Hf n0 0 0 (le_n _)) as [B1 B2]; [lia|]. cbn [Nat.add] in B1, B2.
  split; [|split; auto].
  - intros n t Hin. destruct (J10 n t Hin) as [_ J]. apply entries_data. rewrite J. now rewrite map_map.
  - eapply no_multiple; eauto.
Qed.

(** Any number of sessions *)
Lemma continued_lemma ex freq (targets : list target) ss : NoDup (map fst targets) -> (0 < freq)%Z -> forall f f' n0 old,
  (forall n, In n (map fst targets) -> length (old n) = n0 /\ entries_of f ex n = Some (old n)) ->
  hl_sessions to32 ex freq targets true ss f = (f', None) ->
  forall n t, In (n, t) targets -> entries_of f' ex n = Some (old n ++ map (fun p => to32 (value t p)) (kept_of freq n0 ss)).
Proof.
  intros Hnd Hf. induction ss as [|s ss IH]; intros f f' n0 old Hold; cbn [hl_sessions kept_of].
  - intros H n t Hin. injection H as <-. cbn [map]. rewrite app_nil_r. apply Hold. apply (in_map fst) in Hin. exact Hin.
  - destruct (hl_new ex freq targets true f) as [f1 [h|x]] eqn:En; [|discriminate].
    destruct (hl_events to32 s h f1) as [[h2 f2] [x|]] eqn:Ee; [discriminate|]. intros H n t Hin.
    destruct (@C40_session_lemma ex freq targets true f f1 h s h2 f2 n0 old Hnd Hf Hold En Ee) as (S1 & S2 & _).
    set (k := firstn (saved freq n0 0 0 s) (params s)) in *.
    pose (val := fun n => match find (fun t => String.eqb (fst t) n) targets with Some t => snd t | None => fun _ => Ok NaN end).
    assert (Hval : forall n t, In (n, t) targets -> val n = t).
    { intros n' t' Hin'. unfold val. clear -Hnd Hin'. induction targets as [|[a b] ts IHt]; [destruct Hin'|].
      cbn [find fst map] in *. inversion_clear Hnd as [|? ? Hn Hnd'].
      destruct (String.eqb_spec a n') as [->|Hne].
      - destruct Hin' as [E|Hin']; [now injection E|]. exfalso. apply Hn. apply (in_map fst) in Hin'. exact Hin'.
      - destruct Hin' as [E|Hin']; [congruence|]. apply IHt; auto. }
    rewrite (IH f2 f' (n0 + length k) (fun n => old n ++ map (fun p => to32 (value (val n) p)) k)) with (t := t); auto.
    + rewrite (Hval n t Hin), <- app_assoc, <- map_app. reflexivity.
    + intros n' Hin'. apply in_map_iff in Hin' as ([n'' t'] & E & Hin''). cbn [fst] in E. subst n''. rewrite (Hval n' t' Hin''). split.
      * rewrite app_length, map_length. destruct (Hold n') as [-> _]; auto. apply (in_map fst) in Hin''. exact Hin''.
      * apply (S1 n' t' Hin'').
Qed.
Lemma C40_sessions_lemma ex freq (targets : list target) s ss f f' : NoDup (map fst targets) -> (0 < freq)%Z ->
  hl_sessions to32 ex freq targets false (s :: ss) f = (f', None) ->
  forall n t, In (n, t) targets -> entries_of f' ex n = Some (map (fun p => to32 (value t p)) (kept_of freq 0 (s :: ss))).
Proof.
  intros Hnd Hf. cbn [hl_sessions kept_of].
  destruct (hl_new ex freq targets false f) as [f1 [h|x]] eqn:En; [|discriminate].
  destruct (hl_events to32 s h f1) as [[h2 f2] [x|]] eqn:Ee; [discriminate|]. intros H n t Hin.
  destruct (@C40_session_lemma ex freq targets false f f1 h s h2 f2 0 (fun _ => []) Hnd Hf (conj eq_refl (fun _ => eq_refl)) En Ee) as (S1 & S2 & _).
  set (k := firstn (saved freq 0 0 0 s) (params s)) in *.
  pose (val := fun n => match find (fun t => String.eqb (fst t) n) targets with Some t => snd t | None => fun _ => Ok NaN end).
  assert (Hval : forall n t, In (n, t) targets -> val n = t).
  { intros n' t' Hin'. unfold val. clear -Hnd Hin'. induction targets as [|[a b] ts IHt]; [destruct Hin'|].
    cbn [find fst map] in *. inversion_clear Hnd as [|? ? Hn Hnd'].
    destruct (String.eqb_spec a n') as [->|Hne].
    - destruct Hin' as [E|Hin']; [now injection E|]. exfalso. apply Hn. apply (in_map fst) in Hin'. exact Hin'.
    - destruct Hin' as [E|Hin']; [congruence|]. apply IHt; auto. }
  rewrite (@continued_lemma ex freq targets ss Hnd Hf f2 f' (length k) (fun n => map (fun p => to32 (value (val n) p)) k)) with (t := t); auto.
  - rewrite (Hval n t Hin), <- map_app. reflexivity.
  - intros n' Hin'. apply in_map_iff in Hin' as ([n'' t'] & E & Hin''). cbn [fst] in E. subst n''. rewrite (Hval n' t' Hin''). split.
    + now rewrite map_length.
    + apply (S1 n' t' Hin'').
Qed.

(** A session does not fail by itself. *)
Lemma C40_progress_lemma ex freq (targets : list target) f evs : NoDup (map fst targets) -> freq <> 0%Z ->
  in_file ex f = false -> (forall p n t, In p (params evs) -> In (n, t) targets -> exists v, t p = Ok v) ->
  exists f1 h, hl_new ex freq targets false f = (f1, Ok h) /\ snd (hl_events to32 evs h f1) = None.
Proof.
  intros Hnd Hf Hin HT.
  destruct (@new_lemma P to32 ex freq targets Hnd f) as (f2 & h2 & E2 & HI); auto.
  - intros n _. unfold data_of, in_file in *. destruct (lookup ex (f_groups f)); [discriminate|reflexivity].
  - exists f2, h2. split; auto. eapply session_progress; eauto.
Qed.
End Final.
