(** Checkpoints and loggers in the file. *)
From Verif Require Export FitFacts.
Set Implicit Arguments.
Unset Strict Implicit.
Local Open Scope nat_scope.

(** ** Association lists and groups *)
Lemma assoc_set_id {V} k (v : V) l : lookup k l = Some v -> assoc_set k v l = l.
Proof.
  induction l as [|[k' v'] l IH]; cbn [lookup assoc_set]; [discriminate|].
  destruct (String.eqb_spec k k') as [->|Hn].
  - intros H. injection H as ->. reflexivity.
  - intros H. now rewrite IH.
Qed.
Lemma assoc_set_twice {V} k (v v' : V) l : assoc_set k v (assoc_set k v' l) = assoc_set k v l.
Proof.
  induction l as [|[k0 v0] l IH]; cbn [assoc_set].
  - now rewrite String.eqb_refl.
  - destruct (String.eqb k k0) eqn:E; cbn [assoc_set]; [now rewrite String.eqb_refl|]. rewrite E. now rewrite IH.
Qed.

Lemma run_at_group n l : forall f g, lookup n (f_groups f) = Some g ->
  run_steps (map (at_group n) l) f =
  let (g', e) := run_steps l g in ({| f_root := f_root f; f_groups := assoc_set n g' (f_groups f) |}, e).
Proof.
  induction l as [|s l IH]; intros f g Hg; cbn [map run_steps].
  - rewrite assoc_set_id by auto. now destruct f.
  - unfold at_group at 1. rewrite Hg. destruct (s g) as [g1|e]; cbn [bind].
    + rewrite (IH _ g1) by (cbn [f_groups]; apply lookup_set_same). cbn [f_root f_groups].
      destruct (run_steps l g1) as [g2 e2]. now rewrite assoc_set_twice.
    + rewrite assoc_set_id by auto. now destruct f.
Qed.

(** ** Sequences *)
Lemma write_ints name a g :
  (lookup name (g_data g) = None \/ exists l, lookup name (g_data g) = Some (DInts l)) ->
  exists g', run_steps (write_sequence name (DInts a)) g = (g', None) /\ g_attrs g' = g_attrs g /\
    lookup name (g_data g') =
      Some (DInts (match lookup name (g_data g) with Some (DInts l) => l | _ => [] end ++ a)) /\
    forall n, n <> name -> lookup n (g_data g') = lookup n (g_data g).
Proof.
  intros H. unfold write_sequence. cbn [run_steps]. unfold grow_or_create.
  destruct H as [H|[l H]].
  - rewrite H. unfold put_data. rewrite H. cbn [dv_zeros]. unfold write_data. cbn [g_data].
    rewrite lookup_app, H. cbn [lookup]. rewrite String.eqb_refl. cbn [dv_write_tail bind].
    rewrite repeat_length, Nat.sub_diag. cbn [firstn List.app]. eexists. split; [reflexivity|].
    cbn [g_attrs g_data]. split; auto. rewrite lookup_set_same. split; auto.
    intros n Hn. rewrite lookup_set_other by auto. rewrite lookup_app. cbn [lookup].
    apply String.eqb_neq in Hn. rewrite Hn. now destruct (lookup n (g_data g)).
  - rewrite H. unfold write_data at 1. rewrite H. cbn [dv_grow dv_len bind]. unfold write_data. cbn [g_data g_attrs].
    rewrite lookup_set_same. cbn [dv_write_tail bind]. rewrite app_length, repeat_length.
    replace (length l + length a - length a) with (length l) by lia.
    rewrite firstn_app, firstn_all, Nat.sub_diag. cbn [firstn]. rewrite app_nil_r.
    eexists. split; [reflexivity|]. cbn [g_attrs g_data]. split; auto. rewrite lookup_set_same. split; auto.
    intros n Hn. now rewrite !lookup_set_other by auto.
Qed.

Lemma write_seq name a g :
  (lookup name (g_data g) = None \/ exists l, lookup name (g_data g) = Some (DSeq l)) ->
  exists g', run_steps (write_sequence name (DSeq a)) g = (g', None) /\ g_attrs g' = g_attrs g /\
    lookup name (g_data g') =
      Some (DSeq (match lookup name (g_data g) with Some (DSeq l) => l | _ => [] end ++ a)) /\
    forall n, n <> name -> lookup n (g_data g') = lookup n (g_data g).
Proof.
  intros H. unfold write_sequence. cbn [run_steps]. unfold grow_or_create.
  destruct H as [H|[l H]].
  - rewrite H. unfold put_data. rewrite H. cbn [dv_zeros]. unfold write_data. cbn [g_data].
    rewrite lookup_app, H. cbn [lookup]. rewrite String.eqb_refl. cbn [dv_write_tail bind].
    rewrite repeat_length, Nat.sub_diag. cbn [firstn List.app]. eexists. split; [reflexivity|].
    cbn [g_attrs g_data]. split; auto. rewrite lookup_set_same. split; auto.
    intros n Hn. rewrite lookup_set_other by auto. rewrite lookup_app. cbn [lookup].
    apply String.eqb_neq in Hn. rewrite Hn. now destruct (lookup n (g_data g)).
  - rewrite H. unfold write_data at 1. rewrite H. cbn [dv_grow dv_len bind]. unfold write_data. cbn [g_data g_attrs].
    rewrite lookup_set_same. cbn [dv_write_tail bind]. rewrite app_length, repeat_length.
    replace (length l + length a - length a) with (length l) by lia.
    rewrite firstn_app, firstn_all, Nat.sub_diag. cbn [firstn]. rewrite app_nil_r.
    eexists. split; [reflexivity|]. cbn [g_attrs g_data]. split; auto. rewrite lookup_set_same. split; auto.
    intros n Hn. now rewrite !lookup_set_other by auto.
Qed.

Definition g_its (g : group) : list Z :=
  match lookup "iterations" (g_data g) with Some (DInts l) => l | _ => [] end.
Definition g_vals (g : group) : list xr :=
  match lookup "values" (g_data g) with Some (DSeq l) => l | _ => [] end.

Lemma write_both its vals g : seq_group g ->
  exists g', run_steps (write_sequence "iterations" (DInts its) ++ write_sequence "values" (DSeq vals)) g = (g', None) /\
    seq_group g' /\ g_its g' = g_its g ++ its /\ g_vals g' = g_vals g ++ vals.
Proof.
  intros [H1 H2]. destruct (@write_ints "iterations" its g H1) as (g1 & R1 & A1 & L1 & O1).
  assert (H2' : lookup "values" (g_data g1) = None \/ exists l, lookup "values" (g_data g1) = Some (DSeq l)).
  { rewrite O1 by discriminate. exact H2. }
  destruct (@write_seq "values" vals g1 H2') as (g2 & R2 & A2 & L2 & O2).
  exists g2. rewrite run_steps_app, R1. split; [exact R2|].
  assert (E1 : lookup "iterations" (g_data g2) = Some (DInts (g_its g ++ its))).
  { rewrite O2 by discriminate. exact L1. }
  assert (E2 : lookup "values" (g_data g2) = Some (DSeq (g_vals g ++ vals))).
  { rewrite L2. rewrite O1 by discriminate. reflexivity. }
  unfold seq_group, g_its, g_vals in *. rewrite E1, E2. eauto 8.
Qed.

(** ** Loggers *)
Section Ckpt.
Context {St D : Type} (md : model St D) (cf : config).

Lemma logger_run (lg : logger St) classes f : ready_file classes f -> In (lg_class lg) classes ->
  exists f', run_steps (logger_steps lg) f = (f', None) /\ ready_file classes f' /\ f_root f' = f_root f /\
    (forall n, n <> lg_class lg -> lookup n (f_groups f') = lookup n (f_groups f)) /\
    lookup (lg_class lg) (f_groups f') <> None /\
    its_in f' (lg_class lg) = its_in f (lg_class lg) ++ latest_its lg /\
    vals_in f' (lg_class lg) = vals_in f (lg_class lg) ++ latest_vals lg.
Proof.
  intros (R1 & R2 & R3) Hc. unfold logger_steps. cbn [run_steps].
  set (c := lg_class lg) in *.
  assert (Hreq : exists f1 g, require_group c f = Ok f1 /\ f_root f1 = f_root f /\
     lookup c (f_groups f1) = Some g /\ seq_group g /\
     (forall n, n <> c -> lookup n (f_groups f1) = lookup n (f_groups f)) /\
     g_its g = its_in f c /\ g_vals g = vals_in f c).
  { unfold require_group, its_in, vals_in. destruct (lookup c (f_groups f)) as [g|] eqn:E.
    - exists f, g. repeat split; auto; now apply (R3 c Hc g).
    - unfold create_group, in_file. rewrite E, R1. cbn [lookup].
      eexists. exists empty_group. split; [reflexivity|]. cbn [f_root f_groups].
      rewrite lookup_app, E. cbn [lookup]. rewrite String.eqb_refl.
      repeat split; auto. intros n Hn. rewrite lookup_app. cbn [lookup].
      apply String.eqb_neq in Hn. rewrite Hn. now destruct (lookup n (f_groups f)). }
  destruct Hreq as (f1 & g & -> & Hr & Hg & Hseq & Hoth & Hi & Hv).
  rewrite (run_at_group _ Hg).
  destruct (@write_both (latest_its lg) (latest_vals lg) g Hseq) as (g' & -> & Hs' & Hi' & Hv').
  eexists. split; [reflexivity|]. cbn [f_root f_groups].
  split; [|split; [|split; [|split; [|split]]]].
  - split; [cbn [f_root]; now rewrite Hr|]. split; [cbn [f_root]; now rewrite Hr|].
    intros c0 Hc0 g0. cbn [f_groups]. destruct (String.eqb_spec c0 c) as [->|Hn].
    + rewrite lookup_set_same. intros E. now injection E as <-.
    + rewrite lookup_set_other by auto. rewrite Hoth by auto. intros E. now apply (R3 c0).
  - auto.
  - intros n Hn. rewrite lookup_set_other by auto. auto.
  - rewrite lookup_set_same. discriminate.
  - unfold its_in at 1. cbn [f_groups]. rewrite lookup_set_same. change (g_its g' = its_in f c ++ latest_its lg). congruence.
  - unfold vals_in at 1. cbn [f_groups]. rewrite lookup_set_same. change (g_vals g' = vals_in f c ++ latest_vals lg). congruence.
Qed.

(** What one store adds to the dataset of class [c] *)
Definition its_added (c : string) (logs : list (logger St)) : list Z :=
  concat (map (fun lg => if String.eqb (lg_class lg) c then latest_its lg else []) logs).
Definition vals_added (c : string) (logs : list (logger St)) : list xr :=
  concat (map (fun lg => if String.eqb (lg_class lg) c then latest_vals lg else []) logs).

Lemma store_logs_ok (logs : list (logger St)) classes : (forall lg, In lg logs -> In (lg_class lg) classes) ->
  forall f, ready_file classes f ->
  exists f', store_logs logs f = (map lg_committed logs, f', None) /\ ready_file classes f' /\
    f_root f' = f_root f /\
    (forall n, ~ In n (classes_of logs) -> lookup n (f_groups f') = lookup n (f_groups f)) /\
    (forall c, In c (classes_of logs) -> lookup c (f_groups f') <> None) /\
    (forall c, its_in f' c = its_in f c ++ its_added c logs) /\
    (forall c, vals_in f' c = vals_in f c ++ vals_added c logs).
Proof.
  induction logs as [|lg logs IH]; intros Hc f Hf.
  - exists f. cbn [store_logs map]. split; [|split; [|split; [|split; [|split; [|split]]]]]; auto.
    + intros c. cbn. now rewrite app_nil_r.
    + intros c. cbn. now rewrite app_nil_r.
  - destruct (@logger_run lg classes f Hf) as (f1 & E1 & Rf1 & Rr1 & O1 & N1 & I1 & V1); [apply Hc; now left|].
    destruct (IH ltac:(intros; apply Hc; now right) f1 Rf1) as (f2 & E2 & Rf2 & Rr2 & O2 & N2 & I2 & V2).
    exists f2. cbn [store_logs map]. rewrite E1, E2. split; auto. split; auto. split; [congruence|].
    split; [|split; [|split]].
    + intros n Hn. cbn [classes_of map In] in Hn. rewrite O2 by tauto. apply O1. intros ->. apply Hn. now left.
    + intros c [<-|Hin]; [|now apply N2].
      destruct (in_dec string_dec (lg_class lg) (classes_of logs)) as [Hi|Hi]; [now apply N2|].
      now rewrite O2.
    + intros c. rewrite I2. unfold its_added. cbn [map concat]. rewrite app_assoc. f_equal.
      destruct (String.eqb_spec (lg_class lg) c) as [<-|Hn]; [exact I1|].
      rewrite app_nil_r. unfold its_in. rewrite O1 by auto. reflexivity.
    + intros c. rewrite V2. unfold vals_added. cbn [map concat]. rewrite app_assoc. f_equal.
      destruct (String.eqb_spec (lg_class lg) c) as [<-|Hn]; [exact V1|].
      rewrite app_nil_r. unfold vals_in. rewrite O1 by auto. reflexivity.
Qed.

(** ** One checkpoint *)
Lemma root_run it classes f : known_root md -> ready_file classes f ->
  exists r, run_steps (map at_root (md_root md it)) f = ({| f_root := r; f_groups := f_groups f |}, None) /\
    ready_file classes {| f_root := r; f_groups := f_groups f |} /\
    lookup "final_iteration" (g_attrs r) = Some (DInt it) /\
    ((exists c, md_root md = base_root c) -> its_attr {| f_root := r; f_groups := f_groups f |} = its_attr f ++ [it]).
Proof.
  intros Hroot (R1 & R2 & R3). rewrite run_at_root. destruct Hroot as [[c ->]| Hc].
  - cbn [base_root run_steps]. unfold append_its. unfold its_attr. destruct R2 as [R2|[l R2]]; rewrite R2; cbn [set_attr].
    + eexists. split; [reflexivity|]. cbn [f_root g_attrs g_data].
      repeat (rewrite lookup_set_same || rewrite lookup_set_other by discriminate). 
      split; [|split]; auto. split; [exact R1|]. split; [|exact R3].
      right. cbn [f_root g_attrs]. repeat (rewrite lookup_set_same || rewrite lookup_set_other by discriminate). eauto.
    + eexists. split; [reflexivity|]. cbn [f_root g_attrs g_data].
      repeat (rewrite lookup_set_same || rewrite lookup_set_other by discriminate). 
      split; [|split]; auto. split; [exact R1|]. split; [|exact R3].
      right. cbn [f_root g_attrs]. repeat (rewrite lookup_set_same || rewrite lookup_set_other by discriminate). eauto.
  - rewrite Hc. cbn [cmtf_root run_steps set_attr]. eexists. split; [reflexivity|].
    cbn [g_attrs]. rewrite lookup_set_same. split; [|split]; auto.
    + split; [exact R1|]. split; [|exact R3].
      cbn [f_root g_attrs]. rewrite lookup_set_other by discriminate. exact R2.
    + intros [c Hb]. exfalso. assert (length (base_root c it) = length (cmtf_root it)) by congruence. discriminate.
Qed.

Lemma store_ok (ds : dstate St) f : ds_file ds = Some f -> known_root md ->
  ready_file (classes_of (ds_logs ds)) f -> plain_classes (classes_of (ds_logs ds)) ->
  storable md (md_dec md (ds_num ds)) -> ~ has_ckpt f (ds_it ds) ->
  exists f', store_checkpoint md ds = (with_file (Some f') (with_logs (map lg_committed (ds_logs ds)) ds), None) /\
    ready_file (classes_of (ds_logs ds)) f' /\
    stored_at md f' (ds_it ds) (md_dec md (ds_num ds)) /\
    (forall n, n <> ckpt_name (ds_it ds) -> ~ In n (classes_of (ds_logs ds)) ->
       lookup n (f_groups f') = lookup n (f_groups f)) /\
    final_attr f' = Some (DInt (ds_it ds)) /\
    ((exists c, md_root md = base_root c) -> its_attr f' = its_attr f ++ [ds_it ds]) /\
    (forall c, In c (classes_of (ds_logs ds)) -> lookup c (f_groups f') <> None) /\
    (forall c, In c (classes_of (ds_logs ds)) -> its_in f' c = its_in f c ++ its_added c (ds_logs ds)) /\
    (forall c, In c (classes_of (ds_logs ds)) -> vals_in f' c = vals_in f c ++ vals_added c (ds_logs ds)).
Proof.
  intros Hf Hroot Hready Hplain (g & Hst & Hld) Hnew. unfold store_checkpoint. rewrite Hf.
  set (it := ds_it ds) in *. set (cs := classes_of (ds_logs ds)) in *.
  unfold ckpt_steps. rewrite run_steps_app.
  destruct (@root_run it cs f Hroot Hready) as (r & -> & Hready1 & Hfin & Hits).
  rewrite run_steps_app. cbn [run_steps]. unfold create_group at 1, in_file. cbn [f_root f_groups].
  assert (Hn : lookup (ckpt_name it) (f_groups f) = None).
  { unfold has_ckpt in Hnew. destruct (lookup (ckpt_name it) (f_groups f)); [exfalso; apply Hnew; discriminate|auto]. }
  rewrite Hn. assert (Hd : g_data r = []) by apply Hready1. rewrite Hd. cbn [lookup].
  assert (Hl : lookup (ckpt_name it) (f_groups f ++ [(ckpt_name it, empty_group)]) = Some empty_group).
  { rewrite lookup_app, Hn. cbn [lookup]. now rewrite String.eqb_refl. }
  rewrite (@run_at_group _ _ {| f_root := r; f_groups := f_groups f ++ [(ckpt_name it, empty_group)] |} empty_group Hl).
  rewrite Hst. cbn [f_root f_groups].
  set (f1 := {| f_root := r; f_groups := assoc_set _ _ _ |}).
  assert (Ho1 : forall n, n <> ckpt_name it -> lookup n (f_groups f1) = lookup n (f_groups f)).
  { intros n Hne. unfold f1. cbn [f_groups]. rewrite lookup_set_other by auto. rewrite lookup_app. cbn [lookup].
    apply String.eqb_neq in Hne. rewrite Hne. now destruct (lookup n (f_groups f)). }
  assert (Hready2 : ready_file cs f1).
  { destruct Hready1 as (Q1 & Q2 & Q3). split; [exact Q1|]. split; [exact Q2|].
    intros c Hc g0 Hg0. rewrite Ho1 in Hg0 by (now apply Hplain). now apply (Q3 c). }
  destruct (@store_logs_ok (ds_logs ds) cs ltac:(intros; now apply in_map) f1 Hready2)
    as (f2 & -> & R2 & Rr2 & O2 & N2 & I2 & V2).
  exists f2. split; [reflexivity|]. split; auto. split.
  { exists g. split; auto. rewrite O2.
    - unfold f1. cbn [f_groups]. apply lookup_set_same.
    - intros Hin. now apply (Hplain _ it) in Hin. }
  split; [intros n Hne Hni; rewrite O2 by auto; now apply Ho1|].
  split; [unfold final_attr; rewrite Rr2; exact Hfin|].
  split; [intros Hb; unfold its_attr; rewrite Rr2; now apply Hits|].
  split; auto. split.
  - intros c Hc. rewrite I2. f_equal. unfold its_in. rewrite Ho1 by now apply Hplain. reflexivity.
  - intros c Hc. rewrite V2. f_equal. unfold vals_in. rewrite Ho1 by now apply Hplain. reflexivity.
Qed.

(** ** Logging *)
Lemma log_all_ok s it (logs : list (logger St)) logs' : log_all s it logs = (logs', None) ->
  classes_of logs' = classes_of logs /\ Forall2 (fun lg lg' => lg_log s it lg = Ok lg') logs logs'.
Proof.
  revert logs'. induction logs as [|lg logs IH]; cbn [log_all]; intros logs'.
  - intros H. injection H as <-. split; auto.
  - destruct (lg_log s it lg) as [lg'|] eqn:E; [|discriminate].
    destruct (log_all s it logs) as [rest e]. intros H. injection H as <- ->.
    destruct (IH rest eq_refl) as [H1 H2]. split; [|constructor; auto].
    cbn [classes_of map]. unfold classes_of in H1. rewrite H1. f_equal.
    unfold lg_log in E. destruct (lg_metric lg s); cbn [bind] in E; [|discriminate]. now injection E as <-.
Qed.
Lemma log_all_progress s it (logs : list (logger St)) :
  (forall lg, In lg logs -> exists v, lg_metric lg s = Ok v) -> exists logs', log_all s it logs = (logs', None).
Proof.
  induction logs as [|lg logs IH]; intros H; cbn [log_all]; [eauto|].
  unfold lg_log. destruct (H lg) as [v ->]; [now left|]. cbn [bind].
  destruct IH as [l ->]; [intros; apply H; now right|]. eauto.
Qed.
Lemma log_all_metric s it (logs : list (logger St)) logs' e : log_all s it logs = (logs', e) ->
  map (@lg_metric St) logs' = map (@lg_metric St) logs /\ classes_of logs' = classes_of logs.
Proof.
  revert logs' e. induction logs as [|lg logs IH]; cbn [log_all]; intros logs' e.
  - intros H. injection H as <- <-. auto.
  - destruct (lg_log s it lg) as [lg'|] eqn:E; [|intros H; injection H as <- <-; auto].
    destruct (log_all s it logs) as [rest e0]. intros H. injection H as <- <-.
    destruct (IH rest e0 eq_refl) as [H1 H2]. unfold lg_log in E.
    destruct (lg_metric lg s); cbn [bind] in E; [|discriminate]. injection E as <-.
    cbn [map lg_metric classes_of lg_class]. unfold classes_of in H2. rewrite H1. split; f_equal; auto.
Qed.
End Ckpt.
