(** Histories of log and checkpoint events (C39). *)
From Verif Require Export RunFacts.
Set Implicit Arguments.
Unset Strict Implicit.
Local Open Scope nat_scope.

Section Hist.
Context {St D : Type} (md : model St D).

Definition mval (m : St -> res xr) (s : St) : xr := match m s with Ok v => v | Err _ => NaN end.
(** Loggers whose unsaved entries are [pend] *)
Definition pending (pend : list (St * Z)) (lg : logger St) : Prop :=
  latest_its lg = map snd pend /\ latest_vals lg = map (fun p => mval (lg_metric lg) (fst p)) pend /\
  lg_prev lg <= length (lg_its lg) /\ length (lg_vals lg) = length (lg_its lg) /\
  (forall p, In p pend -> exists v, lg_metric lg (fst p) = Ok v).

Lemma pending_log pend lg s it lg' : pending pend lg -> lg_log s it lg = Ok lg' -> pending (pend ++ [(s, it)]) lg'.
Proof.
  intros (H1 & H2 & H3 & H4 & H5). unfold lg_log. destruct (lg_metric lg s) as [v|] eqn:Em; cbn [bind]; [|discriminate].
  intros H. injection H as <-. unfold pending, latest_its, latest_vals in *. cbn [lg_its lg_vals lg_metric lg_prev].
  rewrite !skipn_app, !map_app, H1, H2, !app_length.
  replace (lg_prev lg - length (lg_its lg)) with 0 by lia. replace (lg_prev lg - length (lg_vals lg)) with 0 by lia.
  cbn [map skipn fst snd length]. repeat split; auto; try lia.
  - unfold mval at 3. now rewrite Em.
  - intros p Hp. apply in_app_or in Hp as [Hp|[<-|[]]]; auto. cbn [fst]. eauto.
Qed.
Lemma pending_commit pend lg : pending pend lg -> pending [] (lg_committed lg).
Proof.
  intros (H1 & H2 & H3 & H4 & H5). unfold pending, latest_its, latest_vals in *. cbn [lg_committed lg_its lg_vals lg_prev lg_metric].
  unfold latest_its. rewrite skipn_length. cbn [map]. repeat split; auto; try (apply skipn_all2; lia); try lia. intros p [].
Qed.

Definition its_add (c : string) (logs : list (logger St)) (pend : list (St * Z)) : list Z :=
  concat (map (fun lg => if String.eqb (lg_class lg) c then map snd pend else []) logs).
Definition vals_add (c : string) (logs : list (logger St)) (pend : list (St * Z)) : list xr :=
  concat (map (fun lg => if String.eqb (lg_class lg) c then map (fun p => mval (lg_metric lg) (fst p)) pend else []) logs).

Lemma added_pending c logs pend : Forall (pending pend) logs ->
  its_added c logs = its_add c logs pend /\ vals_added c logs = vals_add c logs pend.
Proof.
  unfold its_added, its_add, vals_added, vals_add. induction 1 as [|lg logs (H1 & H2 & _) _ [IH1 IH2]]; cbn [map concat]; auto.
  rewrite IH1, IH2, H1, H2. auto.
Qed.

Definition kind_of (lg : logger St) : string * (St -> res xr) := (lg_class lg, lg_metric lg).
Lemma add_kinds c (logs logs' : list (logger St)) pend : map kind_of logs = map kind_of logs' ->
  its_add c logs pend = its_add c logs' pend /\ vals_add c logs pend = vals_add c logs' pend.
Proof.
  unfold its_add, vals_add. revert logs'. induction logs as [|lg logs IH]; intros [|lg' logs']; cbn [map concat]; try discriminate; auto.
  intros H. injection H as Hc Hm Hr. destruct (IH _ Hr) as [-> ->]. rewrite Hc, Hm. auto.
Qed.
Lemma content_ext {A} (f g : list (St * Z) -> list A) : (forall p, f p = g p) -> forall (h : list (event St D)) p, content f p h = content g p h.
Proof. intros E. induction h as [|[s it|it d] h IH]; intros p; cbn [content]; auto. now rewrite E, IH. Qed.

Lemma kinds_classes (l l' : list (logger St)) : map kind_of l = map kind_of l' -> classes_of l = classes_of l'.
Proof. intros H. apply (f_equal (map fst)) in H. rewrite !map_map in H. exact H. Qed.

Lemma log_all_pending s it logs : forall logs' pend, log_all s it logs = (logs', None) -> Forall (pending pend) logs ->
  Forall (pending (pend ++ [(s, it)])) logs' /\ map kind_of logs' = map kind_of logs.
Proof.
  induction logs as [|lg logs IH]; cbn [log_all]; intros logs' pend.
  - intros H _. injection H as <-. auto.
  - destruct (lg_log s it lg) as [lg'|] eqn:E; [|discriminate].
    destruct (log_all s it logs) as [rest e]. intros H HF. injection H as <- ->.
    inversion HF as [|? ? H1 H2]; subst. destruct (IH rest pend eq_refl H2) as [I1 I2]. split.
    + constructor; auto. eapply pending_log; eauto.
    + cbn [map]. rewrite I2. f_equal. unfold lg_log in E. destruct (lg_metric lg s); cbn [bind] in E; [|discriminate].
      now injection E as <-.
Qed.

Lemma ckpt_run_groups it d classes f f' : known_root md -> ready_file classes f -> plain_classes classes ->
  run_steps (ckpt_steps md it d) f = (f', None) ->
  ready_file classes f' /\ forall n, n <> ckpt_name it -> lookup n (f_groups f') = lookup n (f_groups f).
Proof.
  intros Hroot Hready Hplain. unfold ckpt_steps. rewrite run_steps_app.
  destruct (@root_run St D md it classes f Hroot Hready) as (r & -> & Hready1 & Hfin & Hits).
  rewrite run_steps_app. cbn [run_steps]. unfold create_group, in_file. cbn [f_root f_groups].
  assert (Hd : g_data r = []) by apply Hready1. rewrite Hd. cbn [lookup].
  destruct (lookup (ckpt_name it) (f_groups f)) eqn:Hn; [discriminate|].
  assert (Hl : lookup (ckpt_name it) (f_groups f ++ [(ckpt_name it, empty_group)]) = Some empty_group).
  { rewrite lookup_app, Hn. cbn [lookup]. now rewrite String.eqb_refl. }
  rewrite (@run_at_group _ _ {| f_root := r; f_groups := f_groups f ++ [(ckpt_name it, empty_group)] |} empty_group Hl).
  destruct (run_steps (md_store md d) empty_group) as [g e]. cbn [f_root f_groups]. intros H. injection H as <- ->.
  assert (Ho : forall n, n <> ckpt_name it ->
     lookup n (assoc_set (ckpt_name it) g (f_groups f ++ [(ckpt_name it, empty_group)])) = lookup n (f_groups f)).
  { intros n Hne. rewrite lookup_set_other by auto. rewrite lookup_app. cbn [lookup].
    apply String.eqb_neq in Hne. rewrite Hne. now destruct (lookup n (f_groups f)). }
  split; auto. destruct Hready1 as (Q1 & Q2 & Q3). split; [exact Q1|]. split; [exact Q2|].
  intros c Hc g0. cbn [f_groups]. rewrite Ho by now apply Hplain. now apply (Q3 c).
Qed.

Lemma history_lemma h : forall logs f logs' f' pend classes,
  known_root md -> ready_file classes f -> plain_classes classes -> classes_of logs = classes ->
  Forall (pending pend) logs -> do_events md h logs f = (logs', f', None) ->
  map kind_of logs' = map kind_of logs /\ ready_file classes f' /\
  (forall c, In c classes -> its_in f' c = its_in f c ++ content (its_add c logs) pend h) /\
  (forall c, In c classes -> vals_in f' c = vals_in f c ++ content (vals_add c logs) pend h) /\
  (forall p, In p (logged h) -> forall lg, In lg logs -> exists v, lg_metric lg (fst p) = Ok v) /\
  (existsb is_store h = false -> forall c, In c classes -> lookup c (f_groups f') = lookup c (f_groups f)).
Proof.
  induction h as [|ev h IH]; intros logs f logs' f' pend classes Hroot Hready Hplain Hcl HP; cbn [do_events].
  - intros H. injection H as <- <-. cbn [content logged flat_map existsb].
    split; auto. split; auto. split; [intros; now rewrite app_nil_r|]. split; [intros; now rewrite app_nil_r|].
    split; auto. intros p [].
  - destruct ev as [s it|it d]; cbn [do_event].
    + destruct (log_all s it logs) as [logs1 [x|]] eqn:El; [discriminate|].
      destruct (log_all_pending El HP) as [HP1 HK].
      intros H. apply IH with (pend := pend ++ [(s, it)]) (classes := classes) in H; auto.
      2:{ rewrite (kinds_classes HK). exact Hcl. }
      destruct H as (H1 & H2 & H3 & H4 & H5 & H6). split; [congruence|]. split; auto. cbn [content logged flat_map existsb is_store].
      split; [|split; [|split]].
      * intros c Hc. rewrite H3 by auto. f_equal. apply content_ext. intros p. apply (add_kinds c p HK).
      * intros c Hc. rewrite H4 by auto. f_equal. apply content_ext. intros p. apply (add_kinds c p HK).
      * assert (HM : forall q, (forall lg, In lg logs1 -> exists v, lg_metric lg q = Ok v) ->
                     forall lg, In lg logs -> exists v, lg_metric lg q = Ok v).
        { intros q Hq lg Hin. apply (in_map kind_of) in Hin. rewrite <- HK in Hin.
          apply in_map_iff in Hin as (lg1 & E & Hi). destruct (Hq lg1 Hi) as [v Hv]. exists v.
          unfold kind_of in E. injection E as _ Em. now rewrite <- Em. }
        intros p [<-|Hp].
        -- apply HM. intros lg Hin. rewrite Forall_forall in HP1. destruct (HP1 lg Hin) as (_ & _ & _ & _ & Hpm).
           apply (Hpm (s, it)). apply in_or_app. right. now left.
        -- apply HM. intros lg Hin. now apply H5.
      * intros Hno c Hc. now apply H6.
    + destruct (run_steps (ckpt_steps md it d) f) as [f1 [x|]] eqn:Er; [discriminate|].
      destruct (@ckpt_run_groups it d classes f f1 Hroot Hready Hplain Er) as [Hr1 Ho1].
      destruct (@store_logs_ok St logs classes ltac:(intros; rewrite <- Hcl; now apply in_map) f1 Hr1)
        as (f2 & -> & R2 & Rr2 & O2 & N2 & I2 & V2).
      intros H. apply IH with (pend := []) (classes := classes) in H; auto.
      * destruct H as (H1 & H2 & H3 & H4 & H5 & H6).
        assert (HK : map kind_of (map lg_committed logs) = map kind_of logs) by (rewrite map_map; reflexivity).
        split; [congruence|]. split; auto. cbn [content logged flat_map existsb is_store].
        split; [|split; [|split]].
        -- intros c Hc. rewrite H3, I2 by auto. destruct (added_pending c HP) as [-> _].
           unfold its_in at 1. rewrite Ho1 by now apply Hplain. fold (its_in f c).
           rewrite (content_ext (g := its_add c logs)); [|intros p; apply (add_kinds c p HK)].
           now rewrite app_assoc.
        -- intros c Hc. rewrite H4, V2 by auto. destruct (added_pending c HP) as [_ ->].
           unfold vals_in at 1. rewrite Ho1 by now apply Hplain. fold (vals_in f c).
           rewrite (content_ext (g := vals_add c logs)); [|intros p; apply (add_kinds c p HK)].
           now rewrite app_assoc.
        -- intros p Hp lg Hin. apply (in_map lg_committed) in Hin. now apply (H5 p Hp) in Hin.
        -- discriminate.
      * now rewrite committed_classes.
      * rewrite Forall_forall in *. intros lg Hin. apply in_map_iff in Hin as (lg0 & <- & Hin).
        eapply pending_commit; eauto.
Qed.

(** *** One logger per class *)
Lemma content_id {A} (g : St * Z -> A) (h1 : list (event St D)) : forall pend it d h2, existsb is_store h2 = false ->
  content (map g) pend (h1 ++ EStore it d :: h2) = map g (pend ++ logged h1).
Proof.
  assert (Hno : forall (h2 : list (event St D)) pend, existsb is_store h2 = false -> content (map g) pend h2 = []).
  { induction h2 as [|[s it|it d] h2 IH]; intros pend; cbn [content existsb is_store orb]; auto. discriminate. }
  induction h1 as [|[s i|i d'] h1 IH]; intros pend it d h2 H; cbn [List.app content logged flat_map].
  - rewrite Hno by auto. now rewrite !app_nil_r.
  - rewrite IH by auto. now rewrite <- app_assoc.
  - rewrite IH by auto. cbn [List.app]. now rewrite map_app.
Qed.

Lemma unique_add c lg logs pend : In lg logs -> NoDup (classes_of logs) -> lg_class lg = c ->
  its_add c logs pend = map snd pend /\ vals_add c logs pend = map (fun p => mval (lg_metric lg) (fst p)) pend.
Proof.
  unfold its_add, vals_add. intros Hin Hnd <-.
  assert (Hz : forall l : list (logger St), ~ In (lg_class lg) (classes_of l) ->
     (forall A (h : logger St -> list A), concat (map (fun x => if String.eqb (lg_class x) (lg_class lg) then h x else []) l) = [])).
  { clear. induction l as [|x l IH]; intros Hni A h; cbn [map concat]; auto. cbn [classes_of map In] in Hni.
    destruct (String.eqb_spec (lg_class x) (lg_class lg)) as [E|E]; [exfalso; tauto|]. rewrite IH; auto. }
  induction logs as [|x logs IH]; [destruct Hin|]. cbn [classes_of map] in Hnd. inversion Hnd as [|? ? N1 N2]; subst.
  cbn [map concat]. destruct Hin as [->|Hin].
  - rewrite String.eqb_refl, !Hz by auto. now rewrite !app_nil_r.
  - destruct (String.eqb_spec (lg_class x) (lg_class lg)) as [E|E].
    + exfalso. apply N1. rewrite E. now apply in_map.
    + now apply IH.
Qed.

Lemma fresh_pending lg : fresh lg -> pending [] lg.
Proof. intros (H1 & H2 & H3). unfold pending, latest_its, latest_vals. rewrite H1, H2, H3. cbn. repeat split; auto. intros p []. Qed.

Lemma C39_lemma h1 it d h2 logs f logs' f' lg :
  known_root md -> plain_classes (classes_of logs) -> NoDup (classes_of logs) -> Forall fresh logs ->
  ready_file (classes_of logs) f -> In lg logs -> lookup (lg_class lg) (f_groups f) = None ->
  do_events md (h1 ++ EStore it d :: h2) logs f = (logs', f', None) -> existsb is_store h2 = false ->
  its_in f' (lg_class lg) = map snd (logged h1) /\
  Forall2 (fun s v => lg_metric lg s = Ok v) (map fst (logged h1)) (vals_in f' (lg_class lg)).
Proof.
  intros Hroot Hplain Hnd Hfr Hready Hin Habs HD Hno.
  assert (HP : Forall (pending []) logs) by (eapply Forall_impl; [|exact Hfr]; apply fresh_pending).
  destruct (history_lemma Hroot Hready Hplain eq_refl HP HD) as (_ & _ & H3 & H4 & H5 & _).
  assert (Hc : In (lg_class lg) (classes_of logs)) by now apply in_map.
  rewrite H3, H4 by auto. unfold its_in, vals_in. rewrite Habs. cbn [List.app].
  rewrite (content_ext (g := map snd)) by (intros p; now apply (unique_add p Hin Hnd)).
  rewrite (content_ext (g := map (fun p => mval (lg_metric lg) (fst p)))) by (intros p; now apply (unique_add p Hin Hnd)).
  rewrite !content_id by auto. cbn [List.app]. split; auto.
  assert (HM : forall p, In p (logged h1) -> exists v, lg_metric lg (fst p) = Ok v).
  { intros p Hp. apply (H5 p); auto. unfold logged. rewrite flat_map_app. apply in_or_app. now left. }
  clear -HM. induction (logged h1) as [|p l IH]; cbn [map]; constructor.
  - destruct (HM p) as [v Hv]; [now left|]. unfold mval. now rewrite Hv.
  - apply IH. intros; apply HM; now right.
Qed.

Lemma C39_none_lemma h logs f logs' f' c :
  known_root md -> plain_classes (classes_of logs) -> Forall fresh logs ->
  ready_file (classes_of logs) f -> In c (classes_of logs) ->
  do_events md h logs f = (logs', f', None) -> existsb is_store h = false ->
  lookup c (f_groups f') = lookup c (f_groups f).
Proof.
  intros Hroot Hplain Hfr Hready Hin HD Hno.
  assert (HP : Forall (pending []) logs) by (eapply Forall_impl; [|exact Hfr]; apply fresh_pending).
  destruct (history_lemma Hroot Hready Hplain eq_refl HP HD) as (_ & _ & _ & _ & _ & H6). now apply H6.
Qed.

(** Two loggers of one class: each checkpoint appends the entries since the last one twice. *)
Lemma C39_shared_lemma h lgA lgB f logs' f' :
  known_root md -> plain_classes [lg_class lgA] -> lg_class lgB = lg_class lgA -> fresh lgA -> fresh lgB ->
  ready_file [lg_class lgA] f -> lookup (lg_class lgA) (f_groups f) = None ->
  do_events md h [lgA; lgB] f = (logs', f', None) ->
  its_in f' (lg_class lgA) = content (fun seg => map snd seg ++ map snd seg) [] h.
Proof.
  intros Hroot Hplain E HA HB Hready Habs HD.
  assert (HP : Forall (pending []) [lgA; lgB]) by (repeat constructor; apply fresh_pending; assumption).
  assert (Hr2 : ready_file (classes_of [lgA; lgB]) f).
  { destruct Hready as (R1 & R2 & R3). split; auto. split; auto. cbn [classes_of map]. rewrite E.
    intros c [<-|[<-|[]]] g Hg; congruence. }
  assert (Hp2 : plain_classes (classes_of [lgA; lgB])).
  { cbn [classes_of map]. rewrite E. intros c i [<-|[<-|[]]]; apply Hplain; now left. }
  destruct (history_lemma Hroot Hr2 Hp2 eq_refl HP HD) as (_ & _ & H3 & _).
  rewrite H3 by now left. unfold its_in. rewrite Habs. cbn [List.app]. apply content_ext. intros p.
  unfold its_add. cbn [map concat]. now rewrite E, String.eqb_refl, app_nil_r.
Qed.
End Hist.
