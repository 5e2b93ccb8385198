(** The statements C32-C37 about whole fits. *)
From Verif Require Export LogFacts.
Set Implicit Arguments.
Unset Strict Implicit.
Local Open Scope nat_scope.

Section Lemmas.
Context {St D : Type} (md : model St D) (cf : config).

(** ** No checkpointing *)
Lemma after_file_neg (d d' : dstate St) e : (cf_freq cf <= 0)%Z -> after_iteration md cf d = (d', e) -> ds_file d' = ds_file d.
Proof.
  intros Hf. unfold after_iteration. destruct (log_all _ _ _) as [logs [x|]]; [intros H; injection H as <- <-; auto|].
  destruct (cf_freq cf =? 0)%Z; [intros H; injection H as <- <-; auto|].
  assert (E1 : (0 <? cf_freq cf)%Z = false) by (apply Z.ltb_ge; lia). rewrite E1, Bool.andb_false_r.
  intros H; injection H as <- <-; auto.
Qed.
Lemma passes_file_neg stop k ds dk : (cf_freq cf <= 0)%Z -> passes md cf stop k ds dk -> ds_file dk = ds_file ds.
Proof.
  intros Hf. induction 1 as [ds|k ds d1 d2 d3 s HP IH Hs Hu Hc Ha]; auto.
  apply conv_ok in Hc as (l & Hl & ->). apply after_file_neg in Ha; auto. rewrite Ha. exact IH.
Qed.
Lemma fails_file_neg pr stop d d' e : (cf_freq cf <= 0)%Z -> fails md cf pr stop d d' e -> ds_file d' = ds_file d.
Proof.
  intros Hf HF. inversion HF as [e' H1|s e' H1 H2|s e' H1 H2 H3|s d2 P1 P2 H1 H2 H3|s d2 d3 e' H1 H2 H3 H4]; subst; auto.
  - apply conv_ok in H3 as (l & Hl & ->). reflexivity.
  - apply conv_ok in H3 as (l & Hl & ->). now apply after_file_neg in H4.
Qed.

Lemma cp_nothing_written ds ds' e : (cf_freq cf <= 0)%Z -> cp_fit_loop md cf ds = (ds', e) -> ds_file ds' = ds_file ds.
Proof.
  intros Hf. unfold cp_fit_loop. destruct (cp_loop _ _ _ _ _ _) as [[d1 it1] e1] eqn:E. intros H.
  apply cp_loop_cases in E as (k & dk & Hk & HP & E). apply passes_file_neg in HP; auto.
  assert (E1 : (0 <? cf_freq cf)%Z = false) by (apply Z.ltb_ge; lia). rewrite E1 in H.
  assert (HH : d1 = ds').
  { destruct it1, e1; try (injection H as <- <-; reflexivity).
    rewrite Bool.andb_false_r in H. destruct (cf_freq cf =? 0)%Z; injection H as <- <-; reflexivity. }
  subst d1. destruct E as [(-> & -> & -> & ->)|[(-> & Hlt & Hs & -> & ->)|(x & -> & Hlt & Hff)]]; auto.
  apply fails_file_neg in Hff; auto. congruence.
Qed.
Lemma pf_nothing_written ds ds' e : (cf_freq cf <= 0)%Z -> pf_fit_loop md cf ds = (ds', e) -> ds_file ds' = ds_file ds.
Proof.
  intros Hf. unfold pf_fit_loop. destruct (md_prepare md (ds_num ds)) as [s [x|]]; [intros H; injection H as <- <-; auto|].
  destruct (pf_loop _ _ _ _) as [d1 e1] eqn:E. intros H.
  apply pf_loop_cases in E as (k & dk & Hk & HP & _ & E). apply passes_file_neg in HP; auto.
  assert (E1 : (0 <? cf_freq cf)%Z = false) by (apply Z.ltb_ge; lia). rewrite E1 in H.
  assert (HH : d1 = ds').
  { destruct e1; try (injection H as <- <-; reflexivity).
    rewrite Bool.andb_false_r in H. destruct (cf_freq cf =? 0)%Z; injection H as <- <-; reflexivity. }
  subst d1. destruct E as [(-> & -> & ->)|[(-> & Hlt & Hs & ->)|(x & -> & Hlt & Hff)]]; auto.
  apply fails_file_neg in Hff; auto. rewrite Hff. exact HP.
Qed.

Lemma cp_freq_zero ds : cf_freq cf = 0%Z -> (ds_it ds < ds_max ds)%Z -> quiet md ds 1 ->
  snd (cp_fit_loop md cf ds) = Some ZeroDivisionError.
Proof.
  intros Hf Hb (Q1 & Q2 & Q3). unfold cp_fit_loop.
  destruct (Z.to_nat (ds_max ds - ds_it ds)) as [|b] eqn:Eb; [lia|]. cbn [cp_loop].
  destruct (Q1 0) as [l0 Hl0]; [lia|]. cbn [state_after] in Hl0. unfold cp_stop. rewrite Hl0. cbn [bind].
  destruct (_ || _)%bool; [now rewrite Hf|].
  destruct (md_update md (ds_num ds)) as [s e] eqn:Eu.
  specialize (Q2 0 ltac:(lia)). cbn [state_after] in Q2. rewrite Eu in Q2. cbn [snd] in Q2. subst e.
  destruct (Q1 1) as [l1 Hl1]; [lia|]. cbn [state_after] in Hl1. rewrite Eu in Hl1. cbn [fst] in Hl1.
  unfold update_convergence. cbn [ds_num with_num]. rewrite Hl1. cbn [bind]. unfold after_iteration.
  cbn [ds_num ds_it ds_logs with_conv with_num].
  destruct (@log_all_progress St s (ds_it ds) (ds_logs ds)) as [logs ->].
  { intros lg Hin. destruct (Q3 0 lg ltac:(lia) Hin) as [v Hv]. cbn [state_after] in Hv. rewrite Eu in Hv. eauto. }
  rewrite Hf. reflexivity.
Qed.

(** ** The final decomposition *)
Lemma stored_has f i d : stored_at md f i d -> has_ckpt f i.
Proof. intros (g & H & _). unfold has_ckpt. congruence. Qed.

Lemma mod_next f n : (1 < f)%Z -> ((n + 1) mod f = 0)%Z -> (n mod f <> 0)%Z.
Proof.
  intros Hf H1 H2. apply Z.mod_divide in H1; [|lia]. apply Z.mod_divide in H2; [|lia].
  assert (Hd : (f | (n + 1) - n)%Z) by (now apply Z.divide_sub_r). replace (n + 1 - n)%Z with 1%Z in Hd by lia.
  apply Z.divide_1_r_nonneg in Hd; lia.
Qed.

(** [last] is the number whose divisibility decides about the final checkpoint *)
Lemma final_saved s f0 f n (final : bool) : (forall i, ~ has_ckpt f0 i) -> run_file md cf s 0 f0 f n final ->
  (0 < cf_freq cf)%Z -> final = true \/ (0 < n /\ (Z.of_nat n mod cf_freq cf = 0)%Z) -> keeps_final md f s n.
Proof.
  intros Hnew (R1 & R2 & _) Hf [->|[Hn Hd]].
  - exists (0 + Z.of_nat n)%Z. split; [lia|auto].
  - destruct n as [|j]; [lia|]. exists (0 + Z.of_nat j)%Z. split; [lia|]. apply R1; [lia|].
    replace (0 + Z.of_nat j + 1)%Z with (Z.of_nat (S j)) by lia. exact Hd.
Qed.
Lemma final_lost s f0 f n : (forall i, ~ has_ckpt f0 i) -> run_file md cf s 0 f0 f n false ->
  ~ (0 < n /\ (Z.of_nat n mod cf_freq cf = 0)%Z) -> loses_final f n.
Proof.
  intros Hnew (_ & _ & R3 & _) Hno i Hi. unfold has_ckpt in Hi.
  destruct (in_dec Z.eq_dec i (all_its cf 0 n false)) as [Hin|Hout].
  - unfold all_its in Hin. rewrite app_nil_r in Hin. apply periodic_in in Hin as [H1 H2].
    destruct (Z.eq_dec (i + 1) (Z.of_nat n)) as [E|]; [|lia]. exfalso. apply Hno. rewrite <- E. split; auto; lia.
  - rewrite R3 in Hi by auto. now apply Hnew in Hi.
Qed.
Lemma keeps_loses f s n : keeps_final md f s n -> ~ loses_final f n.
Proof. intros (i & Hi & Hs) Hl. apply stored_has in Hs. apply Hl in Hs. lia. Qed.

Lemma final_iff s f0 f n last : (forall i, ~ has_ckpt f0 i) ->
  run_file md cf s 0 f0 f n (negb ((Z.of_nat last + 1) mod cf_freq cf =? 0)%Z) -> (0 < cf_freq cf)%Z ->
  (keeps_final md f s n /\ ~ (((Z.of_nat last + 1) mod cf_freq cf = 0)%Z /\ ~ (0 < n /\ (Z.of_nat n mod cf_freq cf = 0)%Z))) \/
  (loses_final f n /\ ((Z.of_nat last + 1) mod cf_freq cf = 0)%Z /\ ~ (0 < n /\ (Z.of_nat n mod cf_freq cf = 0)%Z)).
Proof.
  intros Hnew HR Hf. destruct (Z.eqb_spec ((Z.of_nat last + 1) mod cf_freq cf) 0) as [E|E]; cbn [negb] in HR.
  - assert (Hd : {0 < n /\ (Z.of_nat n mod cf_freq cf = 0)%Z} + {~ (0 < n /\ (Z.of_nat n mod cf_freq cf = 0)%Z)}).
    { destruct (lt_dec 0 n); [|right; lia]. destruct (Z.eq_dec (Z.of_nat n mod cf_freq cf) 0); [left|right]; tauto. }
    destruct Hd as [Hd|Hd].
    + left. split; [|tauto]. eapply final_saved; eauto.
    + right. split; [|tauto]. eapply final_lost; eauto.
  - left. split; [|tauto]. eapply final_saved; eauto.
Qed.

(** ** Loading *)
Lemma load_at f i d dl : stored_at md f i d -> final_attr f <> None -> md_check md (ds_num dl) d = Ok tt ->
  load_checkpoint md f (Some i) dl = (with_num (md_set md (ds_num dl) d) (with_it i dl), None).
Proof.
  intros (g & H1 & H2) Hf Hc. unfold load_checkpoint. fold (final_attr f). destruct (final_attr f); [|congruence].
  unfold in_file. rewrite H1. rewrite H2. cbn [bind ds_num with_it]. rewrite Hc. reflexivity.
Qed.
Lemma load_last f i d dl : stored_at md f i d -> final_attr f = Some (DInt i) -> md_check md (ds_num dl) d = Ok tt ->
  load_checkpoint md f None dl = (with_num (md_set md (ds_num dl) d) (with_it i dl), None).
Proof.
  intros (g & H1 & H2) Hf Hc. unfold load_checkpoint. unfold final_attr in Hf. rewrite Hf. cbn [as_int].
  unfold in_file. rewrite H1. rewrite H2. cbn [bind ds_num with_it]. rewrite Hc. reflexivity.
Qed.
Lemma load_missing f i dl : ~ has_ckpt f i -> g_data (f_root f) = [] -> snd (load_checkpoint md f (Some i) dl) = Some ValueError.
Proof.
  intros Hn Hd. unfold load_checkpoint. destruct (lookup "final_iteration" _); [|reflexivity].
  unfold in_file, has_ckpt in *. rewrite Hd. cbn [lookup]. destruct (lookup (ckpt_name i) (f_groups f)); [exfalso; apply Hn; discriminate|].
  reflexivity.
Qed.
Lemma load_no_file f li dl : final_attr f = None -> load_checkpoint md f li dl = (dl, Some ValueError).
Proof. intros H. unfold load_checkpoint, final_attr in *. now rewrite H. Qed.

(** ** Collisions *)
Lemma store_collides (ds : dstate St) f : ds_file ds = Some f -> known_root md ->
  ready_file (classes_of (ds_logs ds)) f -> has_ckpt f (ds_it ds) ->
  exists f', store_checkpoint md ds = (with_file (Some f') ds, Some NameExists) /\ f_groups f' = f_groups f /\
    final_attr f' = Some (DInt (ds_it ds)) /\
    ((exists c, md_root md = base_root c) -> its_attr f' = its_attr f ++ [ds_it ds]).
Proof.
  intros Hf Hroot Hready Hhas. unfold store_checkpoint. rewrite Hf. unfold ckpt_steps. rewrite run_steps_app.
  destruct (@root_run St D md (ds_it ds) _ f Hroot Hready) as (r & -> & Hready1 & Hfin & Hits).
  rewrite run_steps_app. cbn [run_steps]. unfold create_group, in_file. cbn [f_root f_groups].
  unfold has_ckpt in Hhas. destruct (lookup (ckpt_name (ds_it ds)) (f_groups f)); [|congruence].
  eexists. split; [reflexivity|]. cbn [f_groups]. auto.
Qed.

Lemma collide_lemma ds f : ds_file ds = Some f -> known_root md -> ready_file (classes_of (ds_logs ds)) f ->
  has_ckpt f (ds_it ds) -> (0 < cf_freq cf)%Z -> (ds_it ds < ds_max ds)%Z -> quiet md ds 1 ->
  ((cp_stops md cf (ds_prev ds) (ds_rel ds) (ds_num ds) 0 = Ok false /\ ((ds_it ds + 1) mod cf_freq cf = 0)%Z) \/
   (cp_stops md cf (ds_prev ds) (ds_rel ds) (ds_num ds) 0 = Ok true /\ (1 < cf_freq cf)%Z)) ->
  exists ds' f', cp_fit_loop md cf ds = (ds', Some NameExists) /\ ds_file ds' = Some f' /\
    f_groups f' = f_groups f /\ final_attr f' = Some (DInt (ds_it ds)) /\
    ((exists c, md_root md = base_root c) -> its_attr f' = its_attr f ++ [ds_it ds]).
Proof.
  intros Hfile Hroot Hready Hhas Hf Hb (Q1 & Q2 & Q3) Hc. unfold cp_fit_loop.
  destruct (Z.to_nat (ds_max ds - ds_it ds)) as [|b] eqn:Eb; [lia|]. cbn [cp_loop].
  pose proof (cp_stop_at (passes0 md cf (cp_stop md cf) ds)) as Hst.
  assert (E0 : (cf_freq cf =? 0)%Z = false) by (apply Z.eqb_neq; lia).
  assert (E1 : (0 <? cf_freq cf)%Z = true) by (apply Z.ltb_lt; lia).
  destruct Hc as [[Hs Hd]|[Hs Hd]]; rewrite Hs in Hst; rewrite Hst.
  - destruct (md_update md (ds_num ds)) as [s e] eqn:Eu.
    specialize (Q2 0 ltac:(lia)). cbn [state_after] in Q2. rewrite Eu in Q2. cbn [snd] in Q2. subst e.
    destruct (Q1 1) as [l1 Hl1]; [lia|]. cbn [state_after] in Hl1. rewrite Eu in Hl1. cbn [fst] in Hl1.
    unfold update_convergence. cbn [ds_num with_num]. rewrite Hl1. cbn [bind]. unfold after_iteration.
    cbn [ds_num ds_it ds_logs with_conv with_num].
    destruct (@log_all_progress St s (ds_it ds) (ds_logs ds)) as [logs Hl].
    { intros lg Hin. destruct (Q3 0 lg ltac:(lia) Hin) as [v Hv]. cbn [state_after] in Hv. rewrite Eu in Hv. eauto. }
    rewrite Hl, E0, E1. cbn [ds_it with_logs with_conv with_num]. rewrite Hd. cbn [Z.eqb andb].
    set (d2 := with_logs _ _).
    destruct (@store_collides d2 f) as (f' & -> & G & F & I); auto.
    { unfold d2. cbn [ds_logs with_logs]. destruct (log_all_ok Hl) as [-> _]. exact Hready. }
    eexists. exists f'. split; [reflexivity|]. split; [reflexivity|]. auto.
  - rewrite E0, E1. rewrite Z.mod_small by lia. cbn [Z.eqb negb andb].
    destruct (@store_collides ds f) as (f' & -> & G & F & I); auto.
    eexists. exists f'. split; [reflexivity|]. split; [reflexivity|]. auto.
Qed.

(** ** Interruptions *)
Definition keeps_group (n : string) (s : step) : Prop :=
  forall f f', s f = Ok f' -> lookup n (f_groups f') = lookup n (f_groups f) /\ g_data (f_root f') = g_data (f_root f) /\
    (final_attr f <> None -> final_attr f' <> None).

Lemma keeps_run n l : (forall s, In s l -> keeps_group n s) -> forall f,
  lookup n (f_groups (fst (run_steps l f))) = lookup n (f_groups f) /\
  g_data (f_root (fst (run_steps l f))) = g_data (f_root f) /\
  (final_attr f <> None -> final_attr (fst (run_steps l f)) <> None).
Proof.
  induction l as [|s l IH]; intros H f; cbn [run_steps]; [auto|].
  destruct (s f) as [f1|] eqn:E; [|auto].
  apply (H s) in E as (E1 & E2 & E3); [|now left].
  destruct (IH ltac:(intros; apply H; now right) f1) as (I1 & I2 & I3). rewrite I1, I2. auto.
Qed.

Lemma keeps_firstn n l k : (forall s, In s l -> keeps_group n s) -> forall s, In s (firstn k l) -> keeps_group n s.
Proof. intros H s Hs. apply H. revert Hs. revert k. induction l; intros [|k]; cbn; auto; try tauto. intros [->|Hs]; auto. right.
  apply (IHl ltac:(intros; apply H; now right) k Hs). Qed.

Lemma at_group_keeps n m s : n <> m -> keeps_group n (at_group m s).
Proof.
  intros Hn f f'. unfold at_group. destruct (lookup m (f_groups f)) as [g|]; [|discriminate].
  destruct (s g) as [g'|]; cbn [bind]; [|discriminate]. intros H. injection H as <-. cbn [f_groups f_root].
  rewrite lookup_set_other by auto. auto.
Qed.
Lemma create_keeps n m : n <> m -> keeps_group n (create_group m).
Proof.
  intros Hn f f'. unfold create_group. destruct (in_file m f); [discriminate|]. intros H. injection H as <-. cbn [f_groups f_root].
  rewrite lookup_app. cbn [lookup]. apply String.eqb_neq in Hn. rewrite Hn. destruct (lookup n (f_groups f)); auto.
Qed.
Lemma require_keeps n m : n <> m -> keeps_group n (require_group m).
Proof.
  intros Hn f f'. unfold require_group. destruct (lookup m (f_groups f)); [intros H; injection H as <-; auto|].
  destruct (in_file m f); [discriminate|]. now apply create_keeps.
Qed.
Lemma set_attr_keeps n k v : keeps_group n (at_root (set_attr k v)).
Proof.
  intros f f'. unfold at_root, set_attr. cbn [bind]. intros H. injection H as <-. cbn [f_groups f_root g_data]. split; auto. split; auto.
  unfold final_attr. cbn [f_root g_attrs]. intros H. destruct (String.eqb_spec "final_iteration" k) as [<-|Hne].
  - rewrite lookup_set_same. discriminate.
  - now rewrite lookup_set_other.
Qed.
Lemma root_keeps n it : known_root md -> forall s, In s (map at_root (md_root md it)) -> keeps_group n s.
Proof.
  intros Hroot s Hs. apply in_map_iff in Hs as (gs & <- & Hgs). destruct Hroot as [[c Hc]|Hc]; rewrite Hc in Hgs.
  - cbn [base_root In] in Hgs. destruct Hgs as [<-|[<-|[<-|[]]]]; try apply set_attr_keeps.
    intros f f' E. unfold at_root, append_its in E.
    destruct (lookup "checkpoint_its" (g_attrs (f_root f))) as [[]|]; try discriminate E;
      apply (@set_attr_keeps n "checkpoint_its" _ f f' E).
  - cbn [cmtf_root In] in Hgs. destruct Hgs as [<-|[]]. apply set_attr_keeps.
Qed.
Lemma logs_keep n (logs : list (logger St)) : ~ In n (classes_of logs) ->
  forall s, In s (concat (map logger_steps logs)) -> keeps_group n s.
Proof.
  intros Hn s Hs. apply in_concat in Hs as (l & Hl & Hs). apply in_map_iff in Hl as (lg & <- & Hlg).
  assert (Hne : n <> lg_class lg) by (intros ->; apply Hn; now apply in_map).
  unfold logger_steps in Hs. destruct Hs as [<-|Hs]; [now apply require_keeps|].
  apply in_map_iff in Hs as (gs & <- & _). now apply at_group_keeps.
Qed.

Lemma crash_lemma (ds : dstate St) f k j : known_root md -> plain_classes (classes_of (ds_logs ds)) -> has_ckpt f j ->
  let f' := fst (run_steps (firstn k (all_steps md ds)) f) in
  lookup (ckpt_name j) (f_groups f') = lookup (ckpt_name j) (f_groups f) /\ g_data (f_root f') = g_data (f_root f) /\
  (final_attr f <> None -> final_attr f' <> None).
Proof.
  intros Hroot Hplain Hhas. cbn zeta. unfold all_steps, ckpt_steps.
  destruct (Z.eq_dec j (ds_it ds)) as [->|Hne].
  - (* the name is taken: creating the group is refused *)
    rewrite <- !app_assoc. rewrite run_steps_firstn_app.
    set (l1 := map at_root (md_root md (ds_it ds))).
    destruct (Nat.le_gt_cases k (length l1)) as [Hk|Hk].
    + rewrite (proj2 (Nat.leb_le _ _) Hk). apply keeps_run. apply keeps_firstn. now apply root_keeps.
    + assert (Hk' : (k <=? length l1) = false) by (apply Nat.leb_gt; lia). rewrite Hk'.
      pose proof (@keeps_run (ckpt_name (ds_it ds)) l1 ltac:(now apply root_keeps) f) as HK.
      destruct (run_steps l1 f) as [f1 [x|]]; [exact HK|]. cbn [fst] in HK.
      destruct (k - length l1) as [|k'] eqn:Ek; [lia|]. cbn [List.app firstn run_steps].
      unfold create_group, in_file. destruct HK as (K1 & K2 & K3). rewrite K1. unfold has_ckpt in Hhas.
      destruct (lookup (ckpt_name (ds_it ds)) (f_groups f)); [|congruence]. cbn [fst]. rewrite K1. auto.
  - apply keeps_run. apply keeps_firstn. intros s Hs. rewrite !in_app_iff in Hs.
    assert (Hn : ckpt_name j <> ckpt_name (ds_it ds)) by (intros E; now apply ckpt_name_inj in E).
    destruct Hs as [[Hs|[[<-|[]]|Hs]]|Hs].
    + eapply root_keeps; eauto.
    + now apply create_keeps.
    + apply in_map_iff in Hs as (gs & <- & _). now apply at_group_keeps.
    + eapply logs_keep; eauto. now apply ckpt_not_class.
Qed.

Lemma crash_load_lemma (ds dl : dstate St) f k j : known_root md -> plain_classes (classes_of (ds_logs ds)) -> has_ckpt f j ->
  final_attr f <> None ->
  load_checkpoint md (fst (run_steps (firstn k (all_steps md ds)) f)) (Some j) dl = load_checkpoint md f (Some j) dl.
Proof.
  intros Hroot Hplain Hhas Hfin. destruct (@crash_lemma ds f k j Hroot Hplain Hhas) as (H1 & H2 & H3).
  specialize (H3 Hfin). set (f' := fst _) in *. unfold load_checkpoint. unfold final_attr in *.
  destruct (lookup "final_iteration" (g_attrs (f_root f))); [|congruence].
  destruct (lookup "final_iteration" (g_attrs (f_root f'))); [|congruence].
  unfold in_file. now rewrite H1, H2.
Qed.

Lemma run_steps_prefix {G} (l : list (G -> res G)) : forall g g' e, run_steps l g = (g', Some e) ->
  exists k, run_steps (firstn k l) g = (g', None).
Proof.
  induction l as [|s l IH]; cbn [run_steps]; intros g g' e; [discriminate|].
  destruct (s g) as [g1|x] eqn:E.
  - intros H. apply IH in H as [k Hk]. exists (S k). cbn [firstn run_steps]. now rewrite E.
  - intros H. injection H as <- _. exists 0. reflexivity.
Qed.

(** The file a (possibly failing) store_checkpoint leaves is the one after all or some of its steps *)
Lemma store_all_steps (ds ds' : dstate St) f e : ds_file ds = Some f -> store_checkpoint md ds = (ds', e) ->
  ds_file ds' = Some (fst (run_steps (all_steps md ds) f)) /\ e = snd (run_steps (all_steps md ds) f).
Proof.
  intros Hf. unfold store_checkpoint, all_steps. rewrite Hf, run_steps_app.
  destruct (run_steps (ckpt_steps md (ds_it ds) (md_dec md (ds_num ds))) f) as [f1 [x|]].
  - intros H. injection H as <- <-. auto.
  - assert (HL : forall logs g, let '(_, g', e0) := @store_logs St logs g in run_steps (concat (map logger_steps logs)) g = (g', e0)).
    { clear. induction logs as [|lg logs IH]; intros g; cbn [store_logs map concat run_steps]; auto.
      rewrite run_steps_app. destruct (run_steps (logger_steps lg) g) as [g1 [x|]]; auto.
      specialize (IH g1). destruct (store_logs logs g1) as [[r g2] e2]. exact IH. }
    specialize (HL (ds_logs ds) f1). destruct (store_logs (ds_logs ds) f1) as [[l f2] e2]. rewrite HL.
    intros H. injection H as <- <-. auto.
Qed.

(** Interrupted between moving the pointer and creating the group *)
Lemma hidden_lemma (ds dl : dstate St) f c k : md_root md = base_root c -> ~ has_ckpt f (ds_it ds) ->
  ready_file (classes_of (ds_logs ds)) f -> k = 2 \/ k = 3 ->
  snd (load_checkpoint md (fst (run_steps (firstn k (all_steps md ds)) f)) None dl) = Some ValueError.
Proof.
  intros Hroot Hnew (R1 & R2 & R3) Hk. unfold all_steps, ckpt_steps. rewrite Hroot. cbn [base_root map List.app].
  assert (Hn : lookup (ckpt_name (ds_it ds)) (f_groups f) = None).
  { unfold has_ckpt in Hnew. destruct (lookup _ (f_groups f)); [exfalso; apply Hnew; discriminate|auto]. }
  assert (HA : exists r, at_root (append_its (ds_it ds)) f = Ok {| f_root := r; f_groups := f_groups f |} /\ g_data r = []).
  { unfold at_root, append_its, set_attr. destruct R2 as [->|[l ->]]; cbn [bind]; eexists; split; try reflexivity; exact R1. }
  destruct HA as (r & HA & Hr).
  destruct Hk as [->| ->]; cbn [firstn run_steps]; rewrite HA; cbn [at_root set_attr bind f_root f_groups g_attrs g_data fst].
  - unfold load_checkpoint. cbn [f_root g_attrs]. rewrite lookup_set_same. cbn [as_int]. unfold in_file. cbn [f_groups f_root g_data].
    now rewrite Hn, Hr.
  - unfold load_checkpoint. cbn [f_root g_attrs]. rewrite lookup_set_other by discriminate. rewrite lookup_set_same. cbn [as_int].
    unfold in_file. cbn [f_groups f_root g_data]. now rewrite Hn, Hr.
Qed.

(** ** What loggers hold in memory *)
Lemma store_logs_same (logs : list (logger St)) f l f' e : store_logs logs f = (l, f', e) ->
  Forall2 (fun a b => lg_class b = lg_class a /\ lg_metric b = lg_metric a /\ lg_its b = lg_its a /\ lg_vals b = lg_vals a) logs l.
Proof.
  revert f l f' e. induction logs as [|lg logs IH]; cbn [store_logs]; intros f l f' e.
  - intros H. injection H as <- _ _. constructor.
  - destruct (run_steps (logger_steps lg) f) as [f1 [x|]].
    + intros H. injection H as <- _ _. constructor; [auto|]. clear. induction logs; constructor; auto.
    + destruct (store_logs logs f1) as [[r f2] e2] eqn:E. intros H. injection H as <- _ _. constructor; eauto.
Qed.

Definition grown (s : St) (c0 : Z) (k : nat) (a b : logger St) : Prop :=
  lg_class b = lg_class a /\ lg_metric b = lg_metric a /\ lg_its b = lg_its a ++ its_of c0 k /\
  exists vs, lg_vals b = lg_vals a ++ vs /\
    Forall2 (fun j v => lg_metric a (state_after md s (S j)) = Ok v) (seq 0 k) vs.

Lemma Forall2_trans3 {A} (P Q R : A -> A -> Prop) : (forall a b c, P a b -> Q b c -> R a c) ->
  forall l1 l2 l3, Forall2 P l1 l2 -> Forall2 Q l2 l3 -> Forall2 R l1 l3.
Proof. intros H l1 l2 l3 H1. revert l3. induction H1; intros l3 H2; inversion H2; subst; constructor; eauto. Qed.

Lemma Forall2_impl {A B} (P Q : A -> B -> Prop) l1 l2 : (forall a b, P a b -> Q a b) -> Forall2 P l1 l2 -> Forall2 Q l1 l2.
Proof. intros H. induction 1; constructor; auto. Qed.

Lemma passes_logs stop k ds dk : passes md cf stop k ds dk ->
  Forall2 (grown (ds_num ds) (ds_it ds) k) (ds_logs ds) (ds_logs dk).
Proof.
  induction 1 as [ds|k ds d1 d2 d3 s HP IH Hs Hu Hc Ha].
  - induction (ds_logs ds) as [|lg l IHl]; constructor; auto. unfold grown. cbn [its_of seq map]. rewrite app_nil_r.
    repeat split; auto. exists []. rewrite app_nil_r. auto.
  - pose proof (passes_state HP) as (I1 & I2 & _). apply conv_ok in Hc as (l & Hl & ->).
    assert (Es : state_after md (ds_num ds) (S k) = s) by (cbn [state_after]; rewrite <- I1, Hu; reflexivity).
    unfold after_iteration in Ha. cbn [ds_num ds_it ds_logs with_conv with_num] in Ha.
    destruct (log_all s (ds_it d1) (ds_logs d1)) as [logs [x|]] eqn:El; [discriminate|].
    apply log_all_ok in El as [_ El].
    assert (H1 : Forall2 (grown (ds_num ds) (ds_it ds) (S k)) (ds_logs ds) logs).
    { eapply Forall2_trans3; [|exact IH|exact El]. intros a b c (B1 & B2 & B3 & vs & B4 & B5) Hb. cbn beta in Hb.
      unfold lg_log in Hb. rewrite B2 in Hb. destruct (lg_metric a s) as [v|] eqn:Em; cbn [bind] in Hb; [|discriminate].
      injection Hb as <-. unfold grown. cbn [lg_class lg_metric lg_its lg_vals]. repeat split; auto.
      - rewrite B3, its_of_S, <- app_assoc. now rewrite I2.
      - exists (vs ++ [v]). rewrite B4, <- app_assoc. split; auto. rewrite seq_S. apply Forall2_app; auto.
        constructor; [|constructor]. cbn [Nat.add]. now rewrite Es. }
    destruct (cf_freq cf =? 0)%Z; [discriminate|]. destruct (_ && _)%bool.
    + destruct (store_checkpoint md _) as [d [x|]] eqn:E; [discriminate|]. injection Ha as <-. cbn [ds_logs with_it].
      unfold store_checkpoint in E. cbn [ds_file with_logs] in E. destruct (ds_file (with_conv _ _ _)); [|discriminate].
      destruct (run_steps _ f) as [f' [x|]]; [discriminate|]. cbn [ds_logs with_logs] in E.
      destruct (store_logs logs f') as [[l1 f2] e2] eqn:E2. injection E as <- _. cbn [ds_logs with_file with_logs].
      apply store_logs_same in E2. eapply Forall2_trans3; [|exact H1|exact E2].
      intros a b c (B1 & B2 & B3 & vs & B4 & B5) (C1 & C2 & C3 & C4). unfold grown. rewrite C1, C2, C3, C4. eauto 8.
    + injection Ha as <-. exact H1.
Qed.

Lemma cp_fit_logs ds ds' : cp_fit_loop md cf ds = (ds', None) ->
  Forall2 (grown (ds_num ds) (ds_it ds) (Z.to_nat (ds_it ds' - ds_it ds))) (ds_logs ds) (ds_logs ds').
Proof.
  unfold cp_fit_loop. destruct (cp_loop _ _ _ _ _ _) as [[d1 it1] e1] eqn:E. intros H.
  apply cp_loop_cases in E as (k & dk & Hk & HP & E).
  pose proof (passes_state HP) as (I1 & I2 & _). pose proof (passes_logs HP) as HL.
  assert (HH : exists b : bool, (if b then store_checkpoint md dk else (dk, None)) = (ds', None)).
  { destruct E as [(-> & -> & -> & ->)|[(-> & Hlt & Hs & -> & ->)|(x & -> & Hlt & Hff)]].
    - destruct (Z.to_nat _) as [|j]; [discriminate|]. destruct (cf_freq cf =? 0)%Z; [discriminate|]. eexists; exact H.
    - destruct (cf_freq cf =? 0)%Z; [discriminate|]. eexists; exact H.
    - destruct it1; discriminate. }
  destruct HH as [b Hb]. destruct (final_keeps Hb) as (_ & K2 & _). rewrite K2, I2.
  replace (Z.to_nat _) with k by lia. destruct b.
  - unfold store_checkpoint in Hb. destruct (ds_file dk); [|discriminate].
    destruct (run_steps _ f) as [f' [x|]]; [discriminate|].
    destruct (store_logs (ds_logs dk) f') as [[l1 f2] e2] eqn:E2. injection Hb as <- _. cbn [ds_logs with_file with_logs].
    apply store_logs_same in E2. eapply Forall2_trans3; [|exact HL|exact E2].
    intros a b c (B1 & B2 & B3 & vs & B4 & B5) (C1 & C2 & C3 & C4). unfold grown. rewrite C1, C2, C3, C4. eauto 8.
  - injection Hb as <-. exact HL.
Qed.

(** ** Resuming *)
Lemma related_after (Rel : St -> St -> Prop) s s' k : (forall a b, Rel a b -> Rel (fst (md_update md a)) (fst (md_update md b))) ->
  Rel s s' -> Rel (state_after md s k) (state_after md s' k).
Proof. intros H E. induction k; cbn [state_after]; auto. Qed.
Lemma state_after_add s k m : state_after md (state_after md s k) m = state_after md s (k + m).
Proof. induction m as [|m IH]; [now rewrite Nat.add_0_r|]. rewrite Nat.add_succ_r. cbn [state_after]. now rewrite IH. Qed.

(** The loss, the updates and the metrics do not raise and nothing is stored: no error. *)
Lemma no_fail_neg pr stop k ds dk d' x budget : passes md cf stop k ds dk -> k < budget -> quiet md ds budget ->
  (forall s e, stop s = Err e -> exists e', md_loss md (ds_num s) = Err e') ->
  (cf_freq cf < 0)%Z -> (pr = true -> cf_print cf <> 0%Z) -> fails md cf pr stop dk d' x -> False.
Proof.
  intros HP Hk (Q1 & Q2 & Q3) Hstop Hf Hpr HF. pose proof (passes_state HP) as (I1 & I2 & _).
  pose proof (passes_metrics HP) as HM.
  assert (Hl1 : forall s, fst (md_update md (ds_num dk)) = s -> state_after md (ds_num ds) (S k) = s).
  { intros s <-. cbn [state_after]. now rewrite I1. }
  inversion HF as [e' H1|s e' H1 H2|s e' H1 H2 H3|s d2 P1 P2 H1 H2 H3|s d2 d3 e' H1 H2 H3 H4]; subst.
  - apply Hstop in H1 as [e1 H1]. rewrite I1 in H1. destruct (Q1 k) as [l Hl]; [lia|]. congruence.
  - specialize (Q2 k Hk). rewrite <- I1, H2 in Q2. discriminate.
  - unfold update_convergence in H3. cbn [ds_num with_num] in H3. destruct (Q1 (S k)) as [l Hl]; [lia|].
    rewrite (Hl1 s) in Hl by (now rewrite H2). rewrite Hl in H3. discriminate.
  - now apply Hpr.
  - apply conv_ok in H3 as (l & Hl & ->). unfold after_iteration in H4. cbn [ds_num ds_it ds_logs with_conv with_num] in H4.
    destruct (@log_all_progress St s (ds_it dk) (ds_logs dk)) as [logs Hlg].
    { intros lg Hin. destruct (metric_in HM Hin) as (lg' & Hi & <-).
      destruct (Q3 k lg' Hk Hi) as [v Hv]. rewrite (Hl1 s) in Hv by (now rewrite H2). eauto. }
    rewrite Hlg in H4. assert (E0 : (cf_freq cf =? 0)%Z = false) by (apply Z.eqb_neq; lia).
    assert (E1 : (0 <? cf_freq cf)%Z = false) by (apply Z.ltb_ge; lia).
    rewrite E0, E1, Bool.andb_false_r in H4. discriminate.
Qed.
Lemma cp_quiet_neg ds : (cf_freq cf < 0)%Z -> (ds_it ds < ds_max ds)%Z -> quiet md ds (Z.to_nat (ds_max ds - ds_it ds)) ->
  snd (cp_fit_loop md cf ds) = None.
Proof.
  intros Hf Hb HQ. unfold cp_fit_loop. destruct (cp_loop _ _ _ _ _ _) as [[d1 it1] e1] eqn:E.
  apply cp_loop_cases in E as (k & dk & Hk & HP & E).
  assert (E0 : (cf_freq cf =? 0)%Z = false) by (apply Z.eqb_neq; lia).
  assert (E1 : (0 <? cf_freq cf)%Z = false) by (apply Z.ltb_ge; lia). rewrite E0, E1.
  destruct E as [(-> & -> & -> & ->)|[(-> & Hlt & Hs & -> & ->)|(x & -> & Hlt & Hff)]].
  - destruct (Z.to_nat _) as [|j] eqn:Eb; [lia|]. now rewrite Bool.andb_false_r.
  - now rewrite Bool.andb_false_r.
  - exfalso. eapply no_fail_neg; eauto.
    + intros s0 e0. unfold cp_stop. destruct (md_loss md (ds_num s0)) as [l|e']; [discriminate|]. eauto.
    + discriminate.
Qed.
Lemma pf_quiet_neg ds s : (cf_freq cf < 0)%Z -> cf_print cf <> 0%Z -> md_prepare md (ds_num ds) = (s, None) ->
  quiet md (with_num s ds) (Z.to_nat (ds_max ds - ds_it ds)) -> snd (pf_fit_loop md cf ds) = None.
Proof.
  intros Hf Hp Hprep HQ. unfold pf_fit_loop. rewrite Hprep. destruct (pf_loop _ _ _ _) as [d1 e1] eqn:E.
  apply pf_loop_cases in E as (k & dk & Hk & HP & _ & E).
  assert (E0 : (cf_freq cf =? 0)%Z = false) by (apply Z.eqb_neq; lia).
  assert (E1 : (0 <? cf_freq cf)%Z = false) by (apply Z.ltb_ge; lia). rewrite E0, E1, Bool.andb_false_r.
  destruct E as [(-> & -> & ->)|[(-> & Hlt & Hs & ->)|(x & -> & Hlt & Hff)]]; auto.
  exfalso. eapply no_fail_neg; eauto. discriminate.
Qed.

(** PARAFAC2: the first update is due for a checkpoint that exists, or the loop stops at once at a
    number that is not due *)
Lemma pf_collide_lemma ds s f : ds_file ds = Some f -> known_root md -> ready_file (classes_of (ds_logs ds)) f ->
  has_ckpt f (ds_it ds) -> (0 < cf_freq cf)%Z -> cf_print cf <> 0%Z -> (ds_it ds < ds_max ds)%Z ->
  md_prepare md (ds_num ds) = (s, None) -> quiet md (with_num s ds) 1 ->
  ((pf_stops md cf (ds_prev ds) (ds_rel ds) s 0 = Ok false /\ ((ds_it ds + 1) mod cf_freq cf = 0)%Z) \/
   (pf_stops md cf (ds_prev ds) (ds_rel ds) s 0 = Ok true /\ ((ds_it ds + 1) mod cf_freq cf <> 0)%Z)) ->
  exists ds' f', pf_fit_loop md cf ds = (ds', Some NameExists) /\ ds_file ds' = Some f' /\
    f_groups f' = f_groups f /\ final_attr f' = Some (DInt (ds_it ds)) /\
    ((exists c, md_root md = base_root c) -> its_attr f' = its_attr f ++ [ds_it ds]).
Proof.
  intros Hfile Hroot Hready Hhas Hf Hp Hb Hprep (Q1 & Q2 & Q3) Hc. unfold pf_fit_loop. rewrite Hprep.
  cbn [ds_num with_num] in Q1, Q2, Q3. cbn [ds_max ds_it with_num].
  destruct (Z.to_nat (ds_max ds - ds_it ds)) as [|b] eqn:Eb; [lia|]. cbn [pf_loop].
  assert (Hst : Ok (pf_stop cf (with_num s ds)) = pf_stops md cf (ds_prev ds) (ds_rel ds) s 0) by reflexivity.
  assert (E0 : (cf_freq cf =? 0)%Z = false) by (apply Z.eqb_neq; lia).
  assert (E1 : (0 <? cf_freq cf)%Z = true) by (apply Z.ltb_lt; lia).
  assert (E2 : (cf_print cf =? 0)%Z = false) by (apply Z.eqb_neq; lia).
  destruct Hc as [[Hs Hd]|[Hs Hd]]; rewrite Hs in Hst; injection Hst as Hst; rewrite Hst.
  - cbn [ds_num with_num]. destruct (md_update md s) as [s1 e] eqn:Eu.
    specialize (Q2 0 ltac:(lia)). cbn [state_after] in Q2. rewrite Eu in Q2. cbn [snd] in Q2. subst e.
    destruct (Q1 1) as [l1 Hl1]; [lia|]. cbn [state_after] in Hl1. rewrite Eu in Hl1. cbn [fst] in Hl1.
    unfold update_convergence. cbn [ds_num with_num]. rewrite Hl1. cbn [bind]. rewrite E2. unfold after_iteration.
    cbn [ds_num ds_it ds_logs with_conv with_num].
    destruct (@log_all_progress St s1 (ds_it ds) (ds_logs ds)) as [logs Hl].
    { intros lg Hin. destruct (Q3 0 lg ltac:(lia) Hin) as [v Hv]. cbn [state_after] in Hv. rewrite Eu in Hv. eauto. }
    rewrite Hl, E0, E1. cbn [ds_it with_logs with_conv with_num]. rewrite Hd. cbn [Z.eqb andb].
    set (d2 := with_logs _ _).
    destruct (@store_collides d2 f) as (f' & -> & G & F & I); auto.
    { unfold d2. cbn [ds_logs with_logs]. destruct (log_all_ok Hl) as [-> _]. exact Hready. }
    eexists. exists f'. split; [reflexivity|]. split; [reflexivity|]. auto.
  - rewrite E0, E1. cbn [ds_it with_num]. apply Z.eqb_neq in Hd. rewrite Hd. cbn [negb andb].
    destruct (@store_collides (with_num s ds) f) as (f' & -> & G & F & I); auto.
    eexists. exists f'. split; [reflexivity|]. split; [reflexivity|]. auto.
Qed.

(** ** The history of events a fit produces *)
Lemma do_events_app h1 h2 (logs : list (logger St)) f : do_events md (h1 ++ h2) logs f =
  match do_events md h1 logs f with (l, g, None) => do_events md h2 l g | r => r end.
Proof.
  revert logs f. induction h1 as [|ev h1 IH]; intros logs f; cbn [List.app do_events]; auto.
  destruct (do_event md ev logs f) as [[l g] [x|]]; auto.
Qed.
Lemma fit_events_S s c0 n : fit_events md cf s c0 (S n) = fit_events md cf s c0 n ++ pass_events md cf s c0 n.
Proof. unfold fit_events. rewrite seq_S, flat_map_app. cbn [flat_map Nat.add]. now rewrite app_nil_r. Qed.

Lemma store_event (ds ds' : dstate St) f : ds_file ds = Some f -> store_checkpoint md ds = (ds', None) ->
  exists f', ds_file ds' = Some f' /\ do_events md [@EStore St D (ds_it ds) (md_dec md (ds_num ds))] (ds_logs ds) f = (ds_logs ds', f', None).
Proof.
  intros Hf. unfold store_checkpoint. rewrite Hf. cbn [do_events do_event].
  destruct (run_steps _ f) as [f1 [x|]]; [discriminate|].
  destruct (store_logs (ds_logs ds) f1) as [[l f2] e2]. intros H. injection H as <- ->. exists f2. auto.
Qed.
Lemma passes_events stop k ds dk f : (0 < cf_freq cf)%Z -> passes md cf stop k ds dk -> ds_file ds = Some f ->
  exists f', ds_file dk = Some f' /\
    do_events md (fit_events md cf (ds_num ds) (ds_it ds) k) (ds_logs ds) f = (ds_logs dk, f', None).
Proof.
  intros Hf. induction 1 as [ds|k ds d1 d2 d3 s HP IH Hs Hu Hc Ha]; intros Hfile.
  - exists f. auto.
  - destruct (IH Hfile) as (f1 & Hf1 & HE). pose proof (passes_state HP) as (I1 & I2 & _).
    apply conv_ok in Hc as (l & Hl & ->).
    assert (Es : state_after md (ds_num ds) (S k) = s) by (cbn [state_after]; rewrite <- I1, Hu; reflexivity).
    rewrite fit_events_S, do_events_app, HE. unfold pass_events. rewrite Es, <- I2. cbn [do_events do_event].
    unfold after_iteration in Ha. cbn [ds_num ds_it ds_logs with_conv with_num] in Ha.
    destruct (log_all s (ds_it d1) (ds_logs d1)) as [logs [x|]]; [discriminate|].
    assert (E0 : (cf_freq cf =? 0)%Z = false) by (apply Z.eqb_neq; lia).
    assert (E1 : (0 <? cf_freq cf)%Z = true) by (apply Z.ltb_lt; lia).
    rewrite E0, E1, Bool.andb_true_r in Ha. cbn [ds_it with_logs with_conv with_num] in Ha.
    destruct ((ds_it d1 + 1) mod cf_freq cf =? 0)%Z.
    + destruct (store_checkpoint md _) as [d [x|]] eqn:E; [discriminate|]. injection Ha as <-.
      apply store_event with (f := f1) in E; auto.
    + injection Ha as <-. exists f1. auto.
Qed.
Lemma cp_fit_events ds ds' f : (0 < cf_freq cf)%Z -> ds_file ds = Some f -> cp_fit_loop md cf ds = (ds', None) ->
  exists n f' (final : bool), ds_it ds' = (ds_it ds + Z.of_nat n)%Z /\ ds_num ds' = state_after md (ds_num ds) n /\
    ds_file ds' = Some f' /\
    do_events md (fit_events md cf (ds_num ds) (ds_it ds) n ++
                  if final then [@EStore St D (ds_it ds') (md_dec md (ds_num ds'))] else []) (ds_logs ds) f = (ds_logs ds', f', None).
Proof.
  intros Hf Hfile. unfold cp_fit_loop. destruct (cp_loop _ _ _ _ _ _) as [[d1 it1] e1] eqn:E. intros H.
  apply cp_loop_cases in E as (k & dk & Hk & HP & E).
  pose proof (passes_state HP) as (I1 & I2 & _). destruct (passes_events Hf HP Hfile) as (f1 & Hf1 & HE).
  assert (HH : exists b : bool, (if b then store_checkpoint md dk else (dk, None)) = (ds', None)).
  { destruct E as [(-> & -> & -> & ->)|[(-> & Hlt & Hs & -> & ->)|(x & -> & Hlt & Hff)]].
    - destruct (Z.to_nat _) as [|j]; [discriminate|]. destruct (cf_freq cf =? 0)%Z; [discriminate|]. eexists; exact H.
    - destruct (cf_freq cf =? 0)%Z; [discriminate|]. eexists; exact H.
    - destruct it1; discriminate. }
  destruct HH as [b Hb]. destruct (final_keeps Hb) as (K1 & K2 & _). exists k. destruct b.
  - apply store_event with (f := f1) in Hb as (f' & Hf' & Hev); auto. exists f', true. rewrite K1, K2, I1, I2.
    split; auto. split; auto. split; auto. rewrite do_events_app, HE. rewrite I1, I2 in Hev. exact Hev.
  - injection Hb as <-. exists f1, false. rewrite app_nil_r. auto.
Qed.

(** ** Resuming from a checkpoint *)
Lemma resume_lemma (Rel : St -> St -> Prop) s0 f i m dl prev logs file d2 :
  (forall a b, Rel a b -> md_dec md a = md_dec md b /\ Rel (fst (md_update md a)) (fst (md_update md b))) ->
  Rel (md_set md (ds_num dl) (md_dec md (state_after md s0 (S (Z.to_nat i))))) (state_after md s0 (S (Z.to_nat i))) ->
  (0 <= i)%Z -> (i < m)%Z ->
  stored_at md f i (md_dec md (state_after md s0 (S (Z.to_nat i)))) -> final_attr f <> None ->
  md_check md (ds_num dl) (md_dec md (state_after md s0 (S (Z.to_nat i)))) = Ok tt ->
  let d1 := fst (load_checkpoint md f (Some i) dl) in
  let ds := start (ds_num d1) prev (ds_it d1) m logs file in
  cp_fit_loop md cf ds = (d2, None) ->
  (forall k, k < Z.to_nat (m - i) -> cp_stops md cf prev PInf (ds_num d1) k <> Ok true) ->
  md_dec md (ds_num d2) = md_dec md (state_after md s0 (Z.to_nat (m + 1))) /\ ds_it d2 = m /\
  Forall2 (fun a b => lg_its b = lg_its a ++ its_of i (Z.to_nat (m - i))) logs (ds_logs d2).
Proof.
  intros HU HS Hi Hm Hst Hfin Hck d1 ds Hfit Hnc.
  assert (E1 : d1 = with_num (md_set md (ds_num dl) (md_dec md (state_after md s0 (S (Z.to_nat i))))) (with_it i dl)).
  { unfold d1. now rewrite (load_at Hst Hfin Hck). }
  assert (Ei : ds_it d1 = i) by now rewrite E1.
  pose proof (cp_fit_lemma Hfit) as (n & Hn & Hnum & Hlt & Hend). cbn zeta in *.
  unfold ds in Hn, Hnum, Hlt, Hend. cbn [ds_prev ds_rel ds_num ds_max ds_it start] in Hn, Hnum, Hlt, Hend.
  rewrite Ei in *. destruct (Hend eq_refl) as [[->|Hstop] Hit].
  2:{ destruct (Nat.eq_dec n (Z.to_nat (m - i))) as [->|Hne]; [|exfalso; apply (Hnc n); [lia|auto]].
      clear Hstop. split; [|split; [lia|]].
      - rewrite Hnum. replace (Z.to_nat (m + 1)) with (S (Z.to_nat i) + Z.to_nat (m - i)) by lia.
        rewrite <- state_after_add. apply HU. apply related_after with (Rel := Rel); [apply HU|]. rewrite E1. exact HS.
      - pose proof (cp_fit_logs Hfit) as HL. unfold ds in HL. cbn [ds_num ds_it start ds_logs] in HL. rewrite Ei, Hit in HL.
        replace (Z.to_nat (i + Z.of_nat (Z.to_nat (m - i)) - i)) with (Z.to_nat (m - i)) in HL by lia.
        eapply Forall2_impl; [|exact HL]. intros a b (_ & _ & H & _). exact H. }
  split; [|split; [lia|]].
  - rewrite Hnum. replace (Z.to_nat (m + 1)) with (S (Z.to_nat i) + Z.to_nat (m - i)) by lia.
    rewrite <- state_after_add. apply HU. apply related_after with (Rel := Rel); [apply HU|]. rewrite E1. exact HS.
  - pose proof (cp_fit_logs Hfit) as HL. unfold ds in HL. cbn [ds_num ds_it start ds_logs] in HL. rewrite Ei, Hit in HL.
    replace (Z.to_nat (i + Z.of_nat (Z.to_nat (m - i)) - i)) with (Z.to_nat (m - i)) in HL by lia.
    eapply Forall2_impl; [|exact HL]. intros a b (_ & _ & H & _). exact H.
Qed.
Lemma uninterrupted_lemma s0 prev logs file m d1 :
  cp_fit_loop md cf (start s0 prev 0 m logs file) = (d1, None) ->
  (forall k, k < Z.to_nat m -> cp_stops md cf prev PInf s0 k <> Ok true) ->
  ds_num d1 = state_after md s0 (Z.to_nat m) /\ Forall2 (fun a b => lg_its b = lg_its a ++ its_of 0 (Z.to_nat m)) logs (ds_logs d1).
Proof.
  intros Hfit Hnc. pose proof (cp_fit_lemma Hfit) as (n & Hn & Hnum & Hlt & Hend). cbn zeta in *.
  cbn [ds_prev ds_rel ds_num ds_max ds_it start] in Hn, Hnum, Hlt, Hend. rewrite Z.sub_0_r in *.
  destruct (Hend eq_refl) as [Hor Hit].
  assert (n = Z.to_nat m) as ->.
  { destruct Hor as [|Hs]; auto. destruct (Nat.eq_dec n (Z.to_nat m)); auto. exfalso. apply (Hnc n); [lia|auto]. }
  split; auto. pose proof (cp_fit_logs Hfit) as HL. cbn [ds_num ds_it start ds_logs] in HL. rewrite Hit in HL.
  replace (Z.to_nat (0 + Z.of_nat (Z.to_nat m) - 0)) with (Z.to_nat m) in HL by lia.
  eapply Forall2_impl; [|exact HL]. intros a b (_ & _ & H & _). exact H.
Qed.

(** ** Loggers during a fit *)
Definition due (c0 : Z) (j : nat) : Prop := ((c0 + Z.of_nat j + 1) mod cf_freq cf = 0)%Z.
Definition entries (s : St) (c0 : Z) (m : nat) : list (St * Z) :=
  map (fun j => (state_after md s (S j), (c0 + Z.of_nat j)%Z)) (seq 0 m).
Lemma logged_app (h1 h2 : list (event St D)) : logged (h1 ++ h2) = logged h1 ++ logged h2.
Proof. apply flat_map_app. Qed.
Lemma entries_S s c0 m : entries s c0 (S m) = entries s c0 m ++ [(state_after md s (S m), (c0 + Z.of_nat m)%Z)].
Proof. unfold entries. rewrite seq_S, map_app. reflexivity. Qed.
Lemma logged_fit s c0 n : logged (fit_events md cf s c0 n) = entries s c0 n.
Proof.
  induction n as [|n IH]; [reflexivity|]. rewrite fit_events_S, logged_app, IH, entries_S. f_equal.
  unfold pass_events. cbn [logged flat_map List.app]. destruct (_ =? 0)%Z; reflexivity.
Qed.
Lemma split_events s c0 n :
  (existsb is_store (fit_events md cf s c0 n) = false /\ forall j, j < n -> ~ due c0 j) \/
  exists m h1 it d h2, m < n /\ fit_events md cf s c0 n = h1 ++ EStore it d :: h2 /\ existsb is_store h2 = false /\
    logged h1 = entries s c0 (S m) /\ due c0 m /\ forall j, S m <= j < n -> ~ due c0 j.
Proof.
  induction n as [|n IH]; [left; split; [reflexivity|lia]|]. rewrite fit_events_S. unfold pass_events, due in *.
  destruct (Z.eqb_spec ((c0 + Z.of_nat n + 1) mod cf_freq cf) 0) as [Hd|Hd].
  - right. exists n, (fit_events md cf s c0 n ++ [ELog (state_after md s (S n)) (c0 + Z.of_nat n)]),
      (c0 + Z.of_nat n)%Z, (md_dec md (state_after md s (S n))), []. split; [lia|]. rewrite <- app_assoc. split; [reflexivity|].
    split; [reflexivity|]. rewrite logged_app, logged_fit, entries_S. split; [reflexivity|]. split; auto. lia.
  - destruct IH as [[H1 H2]|(m & h1 & it & d & h2 & Hm & E & H1 & H2 & H3 & H4)].
    + left. rewrite existsb_app, H1. split; [reflexivity|]. intros j Hj. destruct (Nat.eq_dec j n) as [->|]; auto. apply H2. lia.
    + right. exists m, h1, it, d, (h2 ++ [ELog (state_after md s (S n)) (c0 + Z.of_nat n)]). split; [lia|].
      rewrite E, <- app_assoc. split; [reflexivity|]. rewrite existsb_app, H1. split; [reflexivity|]. split; auto. split; auto.
      intros j Hj. destruct (Nat.eq_dec j n) as [->|]; auto. apply H4. lia.
Qed.
Lemma entries_its s c0 m : map snd (entries s c0 m) = its_of c0 m.
Proof. unfold entries, its_of. rewrite map_map. reflexivity. Qed.

Lemma fit_logs_lemma ds ds' f lg : (0 < cf_freq cf)%Z -> known_root md -> ds_file ds = Some f ->
  plain_classes (classes_of (ds_logs ds)) -> NoDup (classes_of (ds_logs ds)) -> Forall (@fresh St) (ds_logs ds) ->
  ready_file (classes_of (ds_logs ds)) f -> In lg (ds_logs ds) -> lookup (lg_class lg) (f_groups f) = None ->
  cp_fit_loop md cf ds = (ds', None) ->
  exists f' n m, ds_file ds' = Some f' /\ ds_it ds' = (ds_it ds + Z.of_nat n)%Z /\ m <= n /\
    its_in f' (lg_class lg) = its_of (ds_it ds) m /\
    Forall2 (fun s v => lg_metric lg s = Ok v) (map (fun j => state_after md (ds_num ds) (S j)) (seq 0 m)) (vals_in f' (lg_class lg)) /\
    (forall j, m <= j < n -> ~ due (ds_it ds) j).
Proof.
  intros Hf Hroot Hfile Hplain Hnd Hfr Hready Hin Habs Hfit.
  destruct (cp_fit_events Hf Hfile Hfit) as (n & f' & final & Hit & Hnum & Hf' & HE).
  exists f', n.
  assert (HM : forall s c0 m, map fst (entries s c0 m) = map (fun j => state_after md s (S j)) (seq 0 m)).
  { intros. unfold entries. now rewrite map_map. }
  destruct final.
  - destruct (@C39_lemma St D md _ _ _ [] _ f _ f' lg Hroot Hplain Hnd Hfr Hready Hin Habs HE eq_refl) as [H1 H2].
    rewrite logged_fit in H1, H2. exists n. rewrite H1, entries_its. rewrite HM in H2. split; [auto|]. split; [auto|]. split; [lia|].
    split; [auto|]. split; [auto|]. lia.
  - rewrite app_nil_r in HE. destruct (@split_events (ds_num ds) (ds_it ds) n) as [[H1 H2]|(m & h1 & it & d & h2 & Hm & E & H1 & H2 & H3 & H4)].
    + exists 0. assert (Hc : In (lg_class lg) (classes_of (ds_logs ds))) by now apply in_map.
      pose proof (@C39_none_lemma St D md _ _ f _ f' _ Hroot Hplain Hfr Hready Hc HE H1) as Hsame.
      unfold its_in, vals_in. rewrite Hsame, Habs. split; [auto|]. split; [auto|]. split; [lia|]. split; [reflexivity|].
      split; [constructor|]. intros j Hj. apply H2. lia.
    + rewrite E in HE.
      destruct (@C39_lemma St D md _ _ _ _ _ f _ f' lg Hroot Hplain Hnd Hfr Hready Hin Habs HE H1) as [K1 K2].
      rewrite H2 in K1, K2. exists (S m). rewrite K1, entries_its. rewrite HM in K2. split; [auto|]. split; [auto|]. split; [lia|].
      split; [auto|]. split; auto.
Qed.
End Lemmas.

(** ** Final forms *)
Lemma lose_cond f n : (0 < f)%Z ->
  ((Z.of_nat n + 1) mod f = 0 /\ (1 < f \/ n = 0%nat))%Z <->
  ((Z.of_nat n + 1) mod f = 0)%Z /\ ~ (0 < n /\ (Z.of_nat n mod f = 0)%Z).
Proof.
  intros Hf. split.
  - intros [H1 [H2| ->]]; (split; [exact H1|]); [|lia]. intros [_ H]. now apply (mod_next H2 H1).
  - intros [H1 H2]. split; auto. destruct (Z.eq_dec f 1) as [->|]; [|lia]. rewrite Z.mod_1_r in H2. right. lia.
Qed.
Section Final.
Context {St D : Type} (md : model St D) (cf : config).

Lemma C33_cp_budget_lemma ds f0 ds' : checkpointed md cf ds (ds_num ds) f0 -> (forall i, ~ has_ckpt f0 i) -> ds_it ds = 0%Z ->
  cp_fit_loop md cf ds = (ds', None) -> ds_it ds' = ds_max ds ->
  exists f, ds_file ds' = Some f /\ keeps_final md f (ds_num ds) (Z.to_nat (ds_max ds)).
Proof.
  intros (H1 & H2 & H3 & H4 & H5 & H6) Hnew H0 HF Hmax.
  destruct (@cp_run_lemma St D md cf ds f0 ds' None H1 H2 H3 H4 H5 H6 (fun j _ => Hnew _) HF) as [K _].
  destruct (K eq_refl) as (n & last & f & A & B & C & E & _ & _ & F). clear K.
  rewrite H0 in *. exists f. split; auto. rewrite Z.sub_0_r in *.
  destruct C as [[C1 C2]|[C1 [C2 C3]]].
  - rewrite <- C1. destruct (final_iff Hnew F H1) as [[K _]|(_ & K1 & K2)]; auto.
    exfalso. apply K2. split; [lia|]. now replace (Z.of_nat n) with (Z.of_nat last + 1)%Z by lia.
  - exfalso. lia.
Qed.
Lemma C33_cp_stopped_lemma ds f0 ds' : checkpointed md cf ds (ds_num ds) f0 -> (forall i, ~ has_ckpt f0 i) -> ds_it ds = 0%Z ->
  cp_fit_loop md cf ds = (ds', None) -> (ds_it ds' < ds_max ds)%Z ->
  let n := Z.to_nat (ds_it ds') in
  let f := cf_freq cf in
  exists file, ds_file ds' = Some file /\
    ((((Z.of_nat n + 1) mod f = 0 /\ (1 < f \/ n = 0%nat))%Z -> loses_final file n) /\
     (~ ((Z.of_nat n + 1) mod f = 0 /\ (1 < f \/ n = 0%nat))%Z -> keeps_final md file (ds_num ds) n)).
Proof.
  intros (H1 & H2 & H3 & H4 & H5 & H6) Hnew H0 HF Hmax. cbn zeta.
  destruct (@cp_run_lemma St D md cf ds f0 ds' None H1 H2 H3 H4 H5 H6 (fun j _ => Hnew _) HF) as [K _].
  destruct (K eq_refl) as (n & last & f & A & B & C & E & _ & _ & F). clear K.
  rewrite H0 in *. exists f. split; auto. rewrite Z.sub_0_r in *.
  replace (Z.to_nat (ds_it ds')) with n by lia.
  destruct C as [[C1 C2]|[C1 [C2 ->]]]; [lia|]. rewrite (lose_cond n H1).
  destruct (final_iff Hnew F H1) as [[K1 K2]|(K1 & K2)]; tauto.
Qed.
Lemma C33_pf_lemma ds s f0 ds' : md_prepare md (ds_num ds) = (s, None) ->
  checkpointed md cf ds s f0 -> (forall i, ~ has_ckpt f0 i) -> ds_it ds = 0%Z ->
  pf_fit_loop md cf ds = (ds', None) ->
  let n := Z.to_nat (ds_it ds') in
  let f := cf_freq cf in
  exists file, ds_file ds' = Some file /\
    ((((Z.of_nat n + 1) mod f = 0 /\ (1 < f \/ n = 0%nat))%Z -> loses_final file n) /\
     (~ ((Z.of_nat n + 1) mod f = 0 /\ (1 < f \/ n = 0%nat))%Z -> keeps_final md file s n)).
Proof.
  intros Hp (H1 & H2 & H3 & H4 & H5 & H6) Hnew H0 HF. cbn zeta.
  destruct (@pf_run_lemma St D md cf ds s f0 ds' None H1 H2 Hp H3 H4 H5 H6 (fun j _ => Hnew _) HF) as [K _].
  destruct (K eq_refl) as (n & f & A & B & C & E & _ & _ & F). clear K.
  rewrite H0 in *. exists f. split; auto. replace (Z.to_nat (ds_it ds')) with n by lia.
  rewrite (lose_cond n H1). rewrite Z.add_0_l in F.
  destruct (final_iff Hnew F H1) as [[K1 K2]|(K1 & K2)]; tauto.
Qed.

Lemma periodic_nonempty s f0 f n final : run_file md cf s 0 f0 f n final -> (all_its cf 0 n final <> []) -> final_attr f <> None.
Proof.
  intros (_ & _ & _ & _ & R5) H. rewrite R5. destruct (rev (all_its cf 0 n final)) eqn:E; [|discriminate].
  apply (f_equal (@rev Z)) in E. rewrite rev_involutive in E. exfalso. now apply H.
Qed.
Lemma C34_periodic_lemma s f0 f n final j dl :
  run_file md cf s 0 f0 f n final -> (0 < cf_freq cf)%Z -> j < n -> ((Z.of_nat j + 1) mod cf_freq cf = 0)%Z ->
  md_check md (ds_num dl) (md_dec md (state_after md s (S j))) = Ok tt ->
  load_checkpoint md f (Some (Z.of_nat j)) dl =
    (with_num (md_set md (ds_num dl) (md_dec md (state_after md s (S j)))) (with_it (Z.of_nat j) dl), None).
Proof.
  intros HR Hf Hj Hd Hc. pose proof HR as (R1 & _). apply load_at; auto.
  - apply (R1 j Hj). exact Hd.
  - apply (periodic_nonempty HR). intros E.
    assert (Hin : In (Z.of_nat j) (all_its cf 0 n final)).
    { unfold all_its. apply in_or_app. left. apply periodic_in. split; [lia|exact Hd]. }
    rewrite E in Hin. exact Hin.
Qed.
Lemma C34_final_lemma s f0 f n dl :
  run_file md cf s 0 f0 f n true -> md_check md (ds_num dl) (md_dec md (state_after md s n)) = Ok tt ->
  load_checkpoint md f (Some (Z.of_nat n)) dl =
    (with_num (md_set md (ds_num dl) (md_dec md (state_after md s n))) (with_it (Z.of_nat n) dl), None) /\
  load_checkpoint md f None dl = load_checkpoint md f (Some (Z.of_nat n)) dl.
Proof.
  intros HR Hc. pose proof HR as (_ & R2 & _ & _ & R5). specialize (R2 eq_refl). cbn [Z.add] in R2.
  unfold all_its in R5. rewrite rev_app_distr in R5. cbn [rev List.app] in R5.
  replace (0 + Z.of_nat n)%Z with (Z.of_nat n) in * by lia.
  rewrite (load_last R2 R5 Hc). rewrite (load_at R2); auto. congruence.
Qed.
Lemma all_its_sorted c0 n final i z l : rev (all_its cf c0 n final) = z :: l -> In i (all_its cf c0 n final) -> (i <= z)%Z.
Proof.
  unfold all_its. destruct final.
  - rewrite rev_app_distr. cbn [rev List.app]. intros H. injection H as <- _. rewrite in_app_iff.
    intros [Hi|[<-|[]]]; [|lia]. apply periodic_in in Hi. lia.
  - rewrite app_nil_r. revert z l. induction n as [|n IH]; [discriminate|]. rewrite periodic_S.
    destruct (_ =? 0)%Z.
    + rewrite rev_app_distr. cbn [rev List.app]. intros z l H. injection H as <- _. rewrite in_app_iff.
      intros [Hi|[<-|[]]]; [|lia]. apply periodic_in in Hi. lia.
    + rewrite app_nil_r. exact IH.
Qed.
Lemma all_its_has s f0 f n final i : run_file md cf s 0 f0 f n final -> In i (all_its cf 0 n final) -> has_ckpt f i.
Proof.
  intros (R1 & R2 & _) Hi. unfold all_its in Hi. apply in_app_or in Hi as [Hi|Hi].
  - apply periodic_in in Hi as [H1 H2]. apply (@stored_has St D md) with (d := md_dec md (state_after md s (S (Z.to_nat i)))).
    replace i with (0 + Z.of_nat (Z.to_nat i))%Z at 1 by lia. apply R1; [lia|]. now replace (0 + Z.of_nat (Z.to_nat i))%Z with i by lia.
  - destruct final; [|destruct Hi]. destruct Hi as [<-|[]]. eapply stored_has. apply R2. reflexivity.
Qed.
Lemma C34_latest_lemma s f0 f n final dl :
  run_file md cf s 0 f0 f n final -> (forall i, ~ has_ckpt f0 i) -> (0 < cf_freq cf)%Z -> (exists i, has_ckpt f i) ->
  exists i, has_ckpt f i /\ (forall j, has_ckpt f j -> (j <= i)%Z) /\
    load_checkpoint md f None dl = load_checkpoint md f (Some i) dl.
Proof.
  intros HR Hnew Hf [i0 Hi0]. pose proof HR as (_ & _ & R3 & _ & R5).
  assert (Hin : forall i, has_ckpt f i -> In i (all_its cf 0 n final)).
  { intros i Hi. destruct (in_dec Z.eq_dec i (all_its cf 0 n final)) as [|Hn]; auto. exfalso.
    unfold has_ckpt in Hi. rewrite (R3 i Hn) in Hi. now apply Hnew in Hi. }
  destruct (rev (all_its cf 0 n final)) as [|z l] eqn:E.
  - exfalso. apply (f_equal (@rev Z)) in E. rewrite rev_involutive in E. apply Hin in Hi0. rewrite E in Hi0. exact Hi0.
  - exists z. assert (Hz : In z (all_its cf 0 n final)) by (rewrite in_rev, E; now left).
    split; [eapply all_its_has; eauto|]. split; [intros j Hj; eapply all_its_sorted; eauto|].
    unfold load_checkpoint. unfold final_attr in R5. rewrite R5. reflexivity.
Qed.

Lemma C35_lemma (Rel : St -> St -> Prop) s0 f i m dl prev logs file d2 prev' logs' file' d3 :
  (forall a b, Rel a b -> md_dec md a = md_dec md b /\ Rel (fst (md_update md a)) (fst (md_update md b))) ->
  Rel (md_set md (ds_num dl) (md_dec md (state_after md s0 (S (Z.to_nat i))))) (state_after md s0 (S (Z.to_nat i))) ->
  (0 <= i < m)%Z ->
  stored_at md f i (md_dec md (state_after md s0 (S (Z.to_nat i)))) -> final_attr f <> None ->
  md_check md (ds_num dl) (md_dec md (state_after md s0 (S (Z.to_nat i)))) = Ok tt ->
  let d1 := fst (load_checkpoint md f (Some i) dl) in
  cp_fit_loop md cf (start (ds_num d1) prev (ds_it d1) m logs file) = (d2, None) ->
  (forall k, k < Z.to_nat (m - i) -> cp_stops md cf prev PInf (ds_num d1) k <> Ok true) ->
  cp_fit_loop md cf (start s0 prev' 0 (m + 1) logs' file') = (d3, None) ->
  (forall k, k < Z.to_nat (m + 1) -> cp_stops md cf prev' PInf s0 k <> Ok true) ->
  md_dec md (ds_num d2) = md_dec md (ds_num d3) /\ ds_it d2 = m /\ ds_it d3 = (m + 1)%Z /\
  Forall2 (fun a b => lg_its b = lg_its a ++ its_of i (Z.to_nat (m - i))) logs (ds_logs d2).
Proof.
  intros HU HS [Hi Hm] Hst Hfin Hck d1 H1 H2 H3 H4.
  destruct (resume_lemma HU HS Hi Hm Hst Hfin Hck H1 H2) as (A & B & C).
  destruct (uninterrupted_lemma H3 H4) as [E _]. rewrite E. split; auto. split; auto. split; auto.
  pose proof (cp_fit_lemma H3) as (n & Hn & Hnum & Hlt & Hend). cbn zeta in *.
  cbn [ds_prev ds_rel ds_num ds_max ds_it start] in *. destruct (Hend eq_refl) as [Hor Hit]. rewrite Hit.
  destruct Hor as [->|Hs]; [lia|].
  destruct (Nat.eq_dec n (Z.to_nat (m + 1))); [lia|]. exfalso. apply (H4 n); [lia|auto].
Qed.

Lemma C36_resume_lemma s0 c f0 f n final i dl prev max logs :
  run_file md cf s0 0 f0 f n final -> md_root md = base_root c -> (0 < cf_freq cf)%Z ->
  i < n -> ((Z.of_nat i + 1) mod cf_freq cf = 0)%Z ->
  md_check md (ds_num dl) (md_dec md (state_after md s0 (S i))) = Ok tt ->
  ready_file (classes_of logs) f -> (Z.of_nat i < max)%Z ->
  let d1 := fst (load_checkpoint md f (Some (Z.of_nat i)) dl) in
  let ds := start (ds_num d1) prev (ds_it d1) max logs (Some f) in
  quiet md ds 1 -> cp_stops md cf prev PInf (ds_num d1) 0 = Ok false ->
  exists ds' f', cp_fit_loop md cf ds = (ds', Some NameExists) /\ ds_file ds' = Some f' /\
    f_groups f' = f_groups f /\ 2 <= count_occ Z.eq_dec (its_attr f') (Z.of_nat i).
Proof.
  intros HR Hroot Hf Hi Hd Hck Hready Hmax d1 ds HQ Hns.
  assert (E1 : ds_it d1 = Z.of_nat i) by (unfold d1; now rewrite (C34_periodic_lemma HR Hf Hi Hd Hck)).
  pose proof HR as (R1 & _ & _ & R4 & _).
  assert (Hin : In (Z.of_nat i) (periodic (cf_freq cf) 0 n)) by (apply periodic_in; split; [lia|exact Hd]).
  destruct (@collide_lemma St D md cf ds f) as (ds' & f' & A & B & C & E & F); auto.
  - left. now exists c.
  - unfold ds. cbn [ds_it start]. rewrite E1. eapply all_its_has; eauto. unfold all_its. apply in_or_app. auto.
  - unfold ds. cbn [ds_it ds_max start]. lia.
  - left. split; auto. unfold ds. cbn [ds_it start]. rewrite E1. exact Hd.
  - exists ds', f'. split; auto. split; auto. split; auto.
    assert (Hb : exists c, md_root md = base_root c) by eauto. rewrite (F Hb), (R4 Hb).
    unfold ds. cbn [ds_it start]. rewrite E1. unfold all_its. rewrite !count_occ_app. cbn [count_occ].
    destruct (Z.eq_dec (Z.of_nat i) (Z.of_nat i)); [|congruence].
    apply (count_occ_In Z.eq_dec) in Hin. lia.
Qed.
End Final.
