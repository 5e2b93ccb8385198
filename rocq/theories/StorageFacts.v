(** Round trips through HDF5 groups. *)
From Verif Require Export H5Facts EvolvingFacts.
Set Implicit Arguments.
Unset Strict Implicit.
Local Open Scope nat_scope.

Definition no_clash (names : list string) (g : group) : Prop :=
  forall n, In n names -> lookup n (g_data g) = None.

Lemma kt_init_again Us w k : kt_init Us w = Ok k -> kt_init (kt_fms k) (Some (kt_w k)) = Ok k.
Proof.
  rewrite !kt_init_ok_iff. intros (K & H1 & H2 & H3 & H4 & H5). exists K.
  repeat split; auto. - now rewrite H2. - now rewrite H2. - destruct w as [w|].
    + destruct H5 as [-> H5]. auto.
    + rewrite H5. reflexivity.
Qed.

Lemma fm_name_neq i : "weights" <> fm_name i. Proof. discriminate. Qed.

Definition kt_names (n : nat) : list string := map fm_name (seq 0 n) ++ ["weights"].

Lemma kt_store_run k g : no_clash (kt_names (length (kt_fms k))) g ->
  run_steps (kt_store k) g =
  ({| g_attrs := assoc_set "rank" (DInt (Z.of_nat (kt_rank k)))
                   (assoc_set "n_factor_matrices" (DInt (Z.of_nat (length (kt_fms k))))
                      (assoc_set "type" (DStr "KruskalTensor") (g_attrs g)));
      g_data := (g_data g ++ named fm_name 0 (kt_fms k)) ++ [("weights", DArr (kt_w k))] |}, None).
Proof.
  intros Hc. unfold kt_store. rewrite run_steps_app. cbn [run_steps prepare_group set_attr g_attrs g_data].
  rewrite run_steps_app. rewrite put_arrays_ok; cbn [g_attrs g_data].
  - cbn [run_steps]. unfold put_data. cbn [g_data]. rewrite lookup_app, Hc.
    + rewrite lookup_named_other by (intros; apply fm_name_neq). reflexivity.
    + unfold kt_names. apply in_or_app. right. now left.
  - exact fm_name_inj.
  - intros i Hi. apply Hc. unfold kt_names. apply in_or_app. left. apply in_map. apply in_seq. lia.
Qed.

Lemma kt_roundtrip_lemma Us w k g : kt_init Us w = Ok k -> no_clash (kt_names (length (kt_fms k))) g ->
  exists g', run_steps (kt_store k) g = (g', None) /\ kt_load g' = Ok k.
Proof.
  intros Hk Hc. eexists. split; [now apply kt_store_run|].
  unfold kt_load, check_group, get_attr. cbn [g_attrs].
  repeat (rewrite lookup_set_same || rewrite lookup_set_other by discriminate). cbn [bind]. rewrite String.eqb_refl. cbn [bind].
  cbn [bind as_int].
  rewrite (@load_named fm_name (kt_fms k)).
  - cbn [bind]. unfold load_array at 1, get_data. cbn [g_data].
    rewrite lookup_app, lookup_app, Hc.
    2:{ unfold kt_names. apply in_or_app. right. now left. }
    rewrite lookup_named_other by (intros; apply fm_name_neq). cbn [lookup String.eqb]. cbn [bind as_arr].
    eapply kt_init_again; eauto.
  - exact fm_name_inj.
  - intros i Hi. cbn [g_data]. rewrite lookup_app, lookup_app, Hc.
    + pose proof (@lookup_named fm_name fm_name_inj (kt_fms k) 0 i Hi) as H. cbn [Nat.add] in H. now rewrite H.
    + unfold kt_names. apply in_or_app. left. apply in_map. apply in_seq. lia.
Qed.

(** Storing where one of the names is taken *)
Lemma put_err n v g : lookup n (g_data g) <> None -> put_data n v g = Err NameExists.
Proof. intros H. unfold put_data. destruct (lookup n (g_data g)); congruence. Qed.

Definition put_or_attr (s : gstep) : Prop :=
  (exists k v, s = set_attr k v) \/ (exists n v, s = put_data n v).

Lemma store_clash l n v g : (forall s, In s l -> put_or_attr s) -> In (put_data n v) l ->
  lookup n (g_data g) <> None -> snd (run_steps l g) = Some NameExists.
Proof.
  intros Hl HI Hn. apply (@run_steps_err group l (fun g => lookup n (g_data g) <> None) NameExists (put_data n v)); auto.
  - intros. now apply put_err.
  - intros s g1 g2 Hs HP E. destruct (Hl s Hs) as [(k & u & ->)|(m & u & ->)].
    + unfold set_attr in E. injection E as <-. exact HP.
    + unfold put_data in E. destruct (lookup m (g_data g1)); [discriminate|]. injection E as <-. cbn.
      rewrite lookup_app. destruct (lookup n (g_data g1)); congruence.
  - intros s g1 e Hs HP E. destruct (Hl s Hs) as [(k & u & ->)|(m & u & ->)].
    + discriminate.
    + unfold put_data in E. destruct (lookup m (g_data g1)); congruence.
Qed.

Lemma put_arrays_kind name l s : In s (put_arrays name l) -> put_or_attr s.
Proof. intros H. apply in_map_iff in H as (p & <- & _). right. eauto. Qed.
Lemma put_arrays_in name l i : i < length l -> exists v, In (put_data (name i) v) (put_arrays name l).
Proof.
  intros Hi. exists (DArr (nth i l m0)). unfold put_arrays. apply in_map_iff. exists (i, nth i l m0). split; auto.
  replace (i, nth i l m0) with (nth i (combine (seq 0 (length l)) l) (0, m0)).
  - apply nth_In. rewrite combine_length, seq_length. lia.
  - rewrite combine_nth by now rewrite seq_length. rewrite seq_nth; auto.
Qed.

Lemma kt_store_kind k s : In s (kt_store k) -> put_or_attr s.
Proof.
  unfold kt_store. rewrite !in_app_iff. intros [H|[H|H]].
  - cbn in H. destruct H as [<-|[<-|[<-|[]]]]; left; unfold prepare_group; eauto.
  - now apply put_arrays_kind in H.
  - cbn in H. destruct H as [<-|[]]. right. eauto.
Qed.
Lemma kt_clash_lemma k n g : In n (kt_names (length (kt_fms k))) -> lookup n (g_data g) <> None ->
  snd (run_steps (kt_store k) g) = Some NameExists.
Proof.
  intros Hn Hg. unfold kt_names in Hn. apply in_app_or in Hn as [Hn|[<-|[]]].
  - apply in_map_iff in Hn as (i & <- & Hi). apply in_seq in Hi.
    destruct (@put_arrays_in fm_name (kt_fms k) i) as (v & Hv); [lia|].
    eapply store_clash; eauto using kt_store_kind. unfold kt_store. rewrite !in_app_iff. eauto.
  - eapply store_clash; eauto using kt_store_kind. unfold kt_store. rewrite !in_app_iff. right. right. now left.
Qed.

Lemma check_group_wrong cls s g : lookup "type" (g_attrs g) = Some (DStr s) -> s <> cls ->
  check_group cls g = Err WarningExc.
Proof.
  intros H Hn. unfold check_group, get_attr. rewrite H. cbn [bind]. apply String.eqb_neq in Hn. now rewrite Hn.
Qed.

Definition wrong_kind (cls : string) (g : group) : Prop :=
  exists s, lookup "type" (g_attrs g) = Some (DStr s) /\ s <> cls.

Lemma kt_load_wrong g : wrong_kind "KruskalTensor" g -> kt_load g = Err WarningExc.
Proof. intros (s & H & Hn). unfold kt_load. now rewrite (check_group_wrong H Hn). Qed.
Lemma ev_load_wrong g : wrong_kind "EvolvingTensor" g -> ev_load g = Err WarningExc.
Proof. intros (s & H & Hn). unfold ev_load. now rewrite (check_group_wrong H Hn). Qed.
Lemma pf_load_wrong g : wrong_kind "Parafac2Tensor" g -> pf_load g = Err WarningExc.
Proof. intros (s & H & Hn). unfold pf_load. now rewrite (check_group_wrong H Hn). Qed.

(** ** EvolvingTensor *)
Definition ev_names (n : nat) : list string := "A" :: map B_name (seq 0 n) ++ ["C"].

Lemma ev_store_run e g : no_clash (ev_names (length (ev_B e))) g ->
  run_steps (ev_store e) g =
  ({| g_attrs := assoc_set "num_Bs" (DInt (Z.of_nat (length (ev_B e))))
                  (assoc_set "warning" (DBool (ev_warning e))
                   (assoc_set "all_same_size" (DBool (ev_same e))
                    (assoc_set "rank" (DInt (Z.of_nat (ev_rank e)))
                      (assoc_set "type" (DStr "EvolvingTensor") (g_attrs g)))));
      g_data := ((g_data g ++ [("A", DArr (ev_A e))]) ++ named B_name 0 (ev_B e)) ++ [("C", DArr (ev_C e))] |}, None).
Proof.
  intros Hc. unfold ev_store. rewrite run_steps_app. cbn [run_steps prepare_group set_attr g_attrs g_data].
  unfold put_data at 1. cbn [g_data g_attrs]. rewrite Hc by now left.
  rewrite run_steps_app. rewrite put_arrays_ok; cbn [g_attrs g_data].
  - cbn [run_steps]. unfold put_data. cbn [g_data]. rewrite lookup_app, lookup_app, Hc.
    + cbn [lookup String.eqb]. rewrite lookup_named_other by discriminate. reflexivity.
    + unfold ev_names. right. apply in_or_app. right. now left.
  - exact B_name_inj.
  - intros i Hi. rewrite lookup_app, Hc; [reflexivity|]. right. apply in_or_app. left. apply in_map. apply in_seq. lia.
Qed.

Lemma load_ok n g a : lookup n (g_data g) = Some (DArr a) -> load_array n g = Ok a.
Proof. intros H. unfold load_array, get_data. now rewrite H. Qed.

Lemma ev_load_type_error e g : no_clash (ev_names (length (ev_B e))) g ->
  exists g', run_steps (ev_store e) g = (g', None) /\ ev_load g' = Err TypeError.
Proof.
  intros Hc. eexists. split; [now apply ev_store_run|].
  unfold ev_load, check_group, get_attr. cbn [g_attrs].
  repeat (rewrite lookup_set_same || rewrite lookup_set_other by discriminate). cbn [bind]. rewrite String.eqb_refl. cbn [bind].
  rewrite (@load_ok "A" _ (ev_A e)). 2:{ cbn [g_data]. rewrite !lookup_app, Hc by now left. reflexivity. }
  cbn [bind as_int].
  rewrite (@load_named B_name (ev_B e)).
  - cbn [bind]. rewrite (@load_ok "C" _ (ev_C e)).
    2:{ cbn [g_data]. rewrite !lookup_app, Hc by (right; apply in_or_app; right; now left).
        rewrite lookup_named_other by discriminate. reflexivity. }
    reflexivity.
  - exact B_name_inj.
  - intros i Hi. cbn [g_data]. rewrite !lookup_app, Hc.
    + cbn [lookup].
      replace (String.eqb (B_name i) "A") with false by reflexivity.
      pose proof (@lookup_named B_name B_name_inj (ev_B e) 0 i Hi) as H. cbn [Nat.add] in H. now rewrite H.
    + right. apply in_or_app. left. apply in_map. apply in_seq. lia.
Qed.

(** ** Parafac2Tensor *)
Definition pf_names (n : nat) : list string := "A" :: "blueprint_B" :: "C" :: map pm_name (seq 0 n).

Lemma pf_store_run t g : no_clash (pf_names (length (pf_P t))) g ->
  run_steps (pf_store t) g =
  ({| g_attrs := assoc_set "n_projection_matrices" (DInt (Z.of_nat (length (pf_P t))))
                  (assoc_set "warning" (DBool (ev_warning (pf_ev t)))
                   (assoc_set "all_same_size" (DBool (ev_same (pf_ev t)))
                    (assoc_set "rank" (DInt (Z.of_nat (ev_rank (pf_ev t))))
                      (assoc_set "type" (DStr "Parafac2Tensor") (g_attrs g)))));
      g_data := (((g_data g ++ [("A", DArr (ev_A (pf_ev t)))]) ++ [("blueprint_B", DArr (pf_blueprint t))]) ++
                [("C", DArr (ev_C (pf_ev t)))]) ++ named pm_name 0 (pf_P t) |}, None).
Proof.
  intros Hc. unfold pf_store. rewrite run_steps_app.
  assert (E : forall n v g0, lookup n (g_data g0) = None ->
            put_data n v g0 = Ok {| g_attrs := g_attrs g0; g_data := g_data g0 ++ [(n, v)] |}).
  { intros n v g0 H. unfold put_data. now rewrite H. }
  cbn [run_steps prepare_group set_attr g_attrs g_data].
  rewrite E by (cbn [g_data]; apply Hc; now left). cbn [g_attrs g_data].
  rewrite E by (cbn [g_data]; rewrite lookup_app, Hc by (right; now left); reflexivity). cbn [g_attrs g_data].
  rewrite E by (cbn [g_data]; rewrite !lookup_app, Hc by (right; right; now left); reflexivity). cbn [g_attrs g_data].
  rewrite put_arrays_ok; cbn [g_attrs g_data].
  - reflexivity.
  - exact pm_name_inj.
  - intros i Hi. rewrite !lookup_app, Hc; [reflexivity|]. right. right. right. apply in_map. apply in_seq. lia.
Qed.

Lemma pf_init_again A B C Ps warn t : pf_init A B C Ps warn = Ok t ->
  pf_init (ev_A (pf_ev t)) (pf_blueprint t) (ev_C (pf_ev t)) (pf_P t) (ev_warning (pf_ev t)) = Ok t.
Proof.
  unfold pf_init. intros E.
  destruct (shape_at A 1) as [r|] eqn:E1; cbn [bind] in E; [|discriminate].
  destruct (check_all_same_size Ps) as [b|] eqn:E3; cbn [bind] in E; [|discriminate].
  destruct (shape_at A 0) as [i|] eqn:E4; cbn [bind] in E; [|discriminate].
  destruct (projected_factor B Ps) as [Bs|] eqn:E2; cbn [bind] in E; [|discriminate].
  destruct (mapM _ Bs) as [ss|] eqn:E5; cbn [bind] in E; [|discriminate].
  injection E as <-. cbn [pf_ev ev_A pf_blueprint ev_C pf_P ev_warning]. rewrite E1; cbn [bind]; rewrite E3; cbn [bind]. rewrite E4. cbn [bind]. rewrite E2. cbn [bind]. rewrite E5. reflexivity.
Qed.

Lemma pf_roundtrip_lemma A B C Ps warn t g : pf_init A B C Ps warn = Ok t ->
  no_clash (pf_names (length (pf_P t))) g ->
  exists g', run_steps (pf_store t) g = (g', None) /\ pf_load g' = Ok t.
Proof.
  intros Ht Hc. eexists. split; [now apply pf_store_run|].
  unfold pf_load, check_group, get_attr. cbn [g_attrs].
  repeat (rewrite lookup_set_same || rewrite lookup_set_other by discriminate). cbn [bind]. rewrite String.eqb_refl. cbn [bind].
  rewrite (@load_ok "A" _ (ev_A (pf_ev t))). 2:{ cbn [g_data]. rewrite !lookup_app, Hc by now left. reflexivity. }
  rewrite (@load_ok "blueprint_B" _ (pf_blueprint t)).
  2:{ cbn [g_data]. rewrite !lookup_app, Hc by (right; now left). reflexivity. }
  rewrite (@load_ok "C" _ (ev_C (pf_ev t))).
  2:{ cbn [g_data]. rewrite !lookup_app, Hc by (right; right; now left). reflexivity. }
  cbn [bind as_bool as_int].
  rewrite (@load_named pm_name (pf_P t)).
  - cbn [bind]. eapply pf_init_again; eauto.
  - exact pm_name_inj.
  - intros i Hi. cbn [g_data]. rewrite !lookup_app, Hc.
    + cbn [lookup].
      replace (String.eqb (pm_name i) "A") with false by reflexivity.
      replace (String.eqb (pm_name i) "blueprint_B") with false by reflexivity.
      replace (String.eqb (pm_name i) "C") with false by reflexivity.
      pose proof (@lookup_named pm_name pm_name_inj (pf_P t) 0 i Hi) as H. cbn [Nat.add] in H. now rewrite H.
    + right. right. right. apply in_map. apply in_seq. lia.
Qed.

(** ** Whole files *)
Lemma run_at_root l : forall f, run_steps (map at_root l) f =
  let (r, e) := run_steps l (f_root f) in ({| f_root := r; f_groups := f_groups f |}, e).
Proof.
  induction l as [|s l IH]; intros f; cbn [map run_steps].
  - now destruct f.
  - unfold at_root at 1. destruct (s (f_root f)) as [r|e]; cbn [bind].
    + rewrite IH. reflexivity.
    + now destruct f.
Qed.

Lemma no_clash_empty names : no_clash names empty_group.
Proof. intros n _. reflexivity. Qed.
