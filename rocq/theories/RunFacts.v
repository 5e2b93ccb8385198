(** Which checkpoints and log entries a run leaves behind. *)
From Verif Require Export CkptFacts.
Set Implicit Arguments.
Unset Strict Implicit.
Local Open Scope nat_scope.

Lemma periodic_S freq c0 n : periodic freq c0 (S n) =
  periodic freq c0 n ++ (if ((c0 + Z.of_nat n + 1) mod freq =? 0)%Z then [(c0 + Z.of_nat n)%Z] else []).
Proof. unfold periodic. rewrite seq_S, map_app, filter_app. reflexivity. Qed.

Lemma periodic_in freq c0 n i :
  In i (periodic freq c0 n) <-> (c0 <= i < c0 + Z.of_nat n)%Z /\ ((i + 1) mod freq = 0)%Z.
Proof.
  unfold periodic. rewrite filter_In, in_map_iff, Z.eqb_eq. split.
  - intros [(j & <- & Hj) H]. apply in_seq in Hj. split; auto; lia.
  - intros [H1 H2]. split; auto. exists (Z.to_nat (i - c0)). split; [lia|]. apply in_seq. lia.
Qed.

Lemma its_of_S c0 n : its_of c0 (S n) = its_of c0 n ++ [(c0 + Z.of_nat n)%Z].
Proof. unfold its_of. now rewrite seq_S, map_app. Qed.

Section Run.
Context {St D : Type} (md : model St D) (cf : config).

Lemma has_ckpt_dec f i : {has_ckpt f i} + {~ has_ckpt f i}.
Proof. unfold has_ckpt. destruct (lookup (ckpt_name i) (f_groups f)); [left; discriminate|right; congruence]. Qed.

Lemma ckpt_not_class (logs : list (logger St)) i : plain_classes (classes_of logs) -> ~ In (ckpt_name i) (classes_of logs).
Proof. intros H Hin. now apply (H _ i) in Hin. Qed.

Lemma committed_classes (logs : list (logger St)) : classes_of (map lg_committed logs) = classes_of logs.
Proof. unfold classes_of. rewrite map_map. reflexivity. Qed.

Lemma after_spec (d : dstate St) f logs : (0 < cf_freq cf)%Z -> ds_file d = Some f -> known_root md ->
  ready_file (classes_of (ds_logs d)) f -> plain_classes (classes_of (ds_logs d)) ->
  log_all (ds_num d) (ds_it d) (ds_logs d) = (logs, None) ->
  (((ds_it d + 1) mod cf_freq cf = 0)%Z -> storable md (md_dec md (ds_num d)) /\ ~ has_ckpt f (ds_it d)) ->
  exists d' f', after_iteration md cf d = (d', None) /\ ds_file d' = Some f' /\
    classes_of (ds_logs d') = classes_of (ds_logs d) /\ ready_file (classes_of (ds_logs d)) f' /\
    (((ds_it d + 1) mod cf_freq cf = 0)%Z ->
       stored_at md f' (ds_it d) (md_dec md (ds_num d)) /\
       (forall n, n <> ckpt_name (ds_it d) -> ~ In n (classes_of (ds_logs d)) -> lookup n (f_groups f') = lookup n (f_groups f)) /\
       final_attr f' = Some (DInt (ds_it d)) /\
       ((exists c, md_root md = base_root c) -> its_attr f' = its_attr f ++ [ds_it d])) /\
    (((ds_it d + 1) mod cf_freq cf <> 0)%Z -> f' = f).
Proof.
  intros Hf Hfile Hroot Hready Hplain Hlog Hst. unfold after_iteration. rewrite Hlog.
  destruct (log_all_ok Hlog) as [Hcl _].
  assert (E0 : (cf_freq cf =? 0)%Z = false) by (apply Z.eqb_neq; lia). rewrite E0.
  assert (E1 : (0 <? cf_freq cf)%Z = true) by (apply Z.ltb_lt; lia). rewrite E1, Bool.andb_true_r.
  cbn [ds_it with_logs]. destruct (Z.eqb_spec ((ds_it d + 1) mod cf_freq cf) 0) as [Hd|Hd].
  - destruct (Hst Hd) as [Hs Hn].
    destruct (@store_ok St D md (with_logs logs d) f) as (f' & -> & R & S1 & O & F & I & _); cbn [ds_logs ds_file with_logs ds_num ds_it];
      try rewrite Hcl; auto.
    cbn [ds_it with_logs with_file]. eexists. exists f'. split; [reflexivity|]. cbn [ds_file with_it with_file ds_logs with_logs].
    cbn [ds_logs with_logs ds_it ds_num] in *. rewrite Hcl in *.
    split; auto. rewrite committed_classes, Hcl. split; auto. split; auto. split; [auto|congruence].
  - eexists. exists f. split; [reflexivity|]. cbn [ds_file with_it with_logs ds_logs]. split; auto. split; auto. split; auto. split; auto; contradiction.
Qed.

(** The file after [n] passes *)
Definition accounted (s : St) (c0 : Z) (f0 f : file) (n : nat) : Prop :=
  (forall j, j < n -> ((c0 + Z.of_nat j + 1) mod cf_freq cf = 0)%Z ->
     stored_at md f (c0 + Z.of_nat j) (md_dec md (state_after md s (S j)))) /\
  (forall i, ~ In i (periodic (cf_freq cf) c0 n) -> lookup (ckpt_name i) (f_groups f) = lookup (ckpt_name i) (f_groups f0)) /\
  ((exists c, md_root md = base_root c) -> its_attr f = its_attr f0 ++ periodic (cf_freq cf) c0 n) /\
  final_attr f = match rev (periodic (cf_freq cf) c0 n) with [] => final_attr f0 | z :: _ => Some (DInt z) end.

Lemma passes_accounted stop n ds dn f0 : passes md cf stop n ds dn -> (0 < cf_freq cf)%Z -> known_root md ->
  ds_file ds = Some f0 -> ready_file (classes_of (ds_logs ds)) f0 -> plain_classes (classes_of (ds_logs ds)) ->
  (forall k, k < n -> storable md (md_dec md (state_after md (ds_num ds) (S k)))) ->
  (forall j, j < n -> ~ has_ckpt f0 (ds_it ds + Z.of_nat j)) ->
  exists f, ds_file dn = Some f /\ classes_of (ds_logs dn) = classes_of (ds_logs ds) /\
    ready_file (classes_of (ds_logs ds)) f /\ accounted (ds_num ds) (ds_it ds) f0 f n.
Proof.
  intros HP Hf Hroot Hfile Hready Hplain. induction HP as [ds|k ds d1 d2 d3 s HP IH Hs Hu Hc Ha]; intros Hst Hnew.
  - exists f0. split; auto. split; auto. split; auto. split; [lia|]. split; auto. split; [|reflexivity].
    intros _. cbn. now rewrite app_nil_r.
  - destruct IH as (f & Hf1 & Hcl & Hr1 & A1 & A2 & A3 & A4); auto.
    pose proof (passes_state HP) as (I1 & I2 & _).
    apply conv_ok in Hc as (l & Hl & ->).
    set (d2 := with_conv _ _ _) in *.
    assert (Hlog : exists logs, log_all (ds_num d2) (ds_it d2) (ds_logs d2) = (logs, None)).
    { unfold after_iteration in Ha. destruct (log_all _ _ _) as [logs [x|]]; [discriminate|eauto]. }
    destruct Hlog as [logs Hlog].
    assert (Es : state_after md (ds_num ds) (S k) = s).
    { cbn [state_after]. rewrite <- I1, Hu. reflexivity. }
    destruct (@after_spec d2 f logs) as (d' & f' & Ha' & Hf' & Hcl' & Hr' & S1 & S2); auto.
    + unfold d2; cbn [ds_logs with_conv with_num]. rewrite Hcl. exact Hr1.
    + unfold d2; cbn [ds_logs with_conv with_num]. rewrite Hcl. exact Hplain.
    + intros Hdue. cbn [ds_num ds_it d2 with_conv with_num] in *. split.
      * rewrite <- Es. apply Hst. lia.
      * unfold has_ckpt. rewrite A2, I2; [apply Hnew; lia|]. rewrite periodic_in. lia.
    + rewrite Ha in Ha'. injection Ha' as <-. cbn [ds_num ds_it ds_logs d2 with_conv with_num] in *.
      rewrite Hcl in *. rewrite I2 in *. exists f'. split; auto. split; auto. split; auto.
      destruct (Z.eq_dec ((ds_it ds + Z.of_nat k + 1) mod cf_freq cf) 0) as [Hd|Hd].
      * destruct (S1 Hd) as (T1 & T2 & T3 & T4). split; [|split; [|split]].
        -- intros j Hj Hdj. destruct (Nat.eq_dec j k) as [->|]; [rewrite Es; exact T1|].
           destruct (A1 j) as (g & G1 & G2); auto; [lia|]. exists g. split; auto.
           rewrite T2; auto; [|now apply ckpt_not_class]. intros E. apply ckpt_name_inj in E. lia.
        -- intros i Hi. rewrite periodic_S in Hi. apply Z.eqb_eq in Hd. rewrite Hd in Hi.
           rewrite in_app_iff in Hi. rewrite T2.
           ++ apply A2. tauto.
           ++ intros E. apply ckpt_name_inj in E. apply Hi. right. left. auto.
           ++ now apply ckpt_not_class.
        -- intros Hb. rewrite (T4 Hb), (A3 Hb), periodic_S. apply Z.eqb_eq in Hd. rewrite Hd. now rewrite app_assoc.
        -- rewrite T3, periodic_S. apply Z.eqb_eq in Hd. rewrite Hd, rev_app_distr. reflexivity.
      * rewrite (S2 Hd) in *. split; [|split; [|split]].
        -- intros j Hj Hdj. destruct (Nat.eq_dec j k) as [->|]; [contradiction|]. apply A1; auto; lia.
        -- intros i Hi. rewrite periodic_S in Hi. apply Z.eqb_neq in Hd. rewrite Hd, app_nil_r in Hi. auto.
        -- intros Hb. rewrite (A3 Hb), periodic_S. apply Z.eqb_neq in Hd. now rewrite Hd, app_nil_r.
        -- rewrite A4, periodic_S. apply Z.eqb_neq in Hd. now rewrite Hd, app_nil_r.
Qed.

(** The file after the fit: periodic checkpoints, then possibly the final one *)
Lemma accounted_end (ds dn : dstate St) f0 f n (final : bool) ds' e : (0 < cf_freq cf)%Z -> known_root md ->
  ds_num dn = state_after md (ds_num ds) n -> ds_it dn = (ds_it ds + Z.of_nat n)%Z ->
  ds_file dn = Some f -> classes_of (ds_logs dn) = classes_of (ds_logs ds) ->
  ready_file (classes_of (ds_logs ds)) f -> plain_classes (classes_of (ds_logs ds)) ->
  accounted (ds_num ds) (ds_it ds) f0 f n ->
  storable md (md_dec md (state_after md (ds_num ds) n)) -> ~ has_ckpt f0 (ds_it ds + Z.of_nat n) ->
  (if final then store_checkpoint md dn else (dn, None)) = (ds', e) ->
  e = None /\ exists f', ds_file ds' = Some f' /\ ready_file (classes_of (ds_logs ds)) f' /\
    classes_of (ds_logs ds') = classes_of (ds_logs ds) /\
    run_file md cf (ds_num ds) (ds_it ds) f0 f' n final.
Proof.
  intros Hf Hroot I1 I2 Hfile Hcl Hr Hplain (A1 & A2 & A3 & A4) Hst Hnew. destruct final.
  - destruct (@store_ok St D md dn f) as (f' & -> & R & S1 & O & F & I & _); auto.
    + now rewrite Hcl.
    + now rewrite Hcl.
    + now rewrite I1.
    + rewrite I2. unfold has_ckpt. rewrite A2; auto. rewrite periodic_in. lia.
    + intros H. injection H as <- <-. split; auto. exists f'. cbn [ds_file with_file ds_logs with_logs].
      rewrite Hcl, I1, I2 in *. split; auto. split; auto. split; [now rewrite committed_classes|].
      split; [|split; [|split; [|split]]].
      * intros j Hj Hd. destruct (A1 j Hj Hd) as (g & G1 & G2). exists g. split; auto.
        rewrite O; auto; [|now apply ckpt_not_class]. intros E. apply ckpt_name_inj in E. lia.
      * auto.
      * intros i Hi. unfold all_its in Hi. rewrite in_app_iff in Hi. rewrite O.
        -- apply A2. tauto.
        -- intros E. apply ckpt_name_inj in E. apply Hi. right. left. auto.
        -- now apply ckpt_not_class.
      * intros Hb. rewrite (I Hb), (A3 Hb). unfold all_its. now rewrite app_assoc.
      * rewrite F. unfold all_its. now rewrite rev_app_distr.
  - intros H. injection H as <- <-. split; auto. exists f. split; auto. split; auto. split; auto.
    unfold run_file, all_its. rewrite app_nil_r. split; [|split; [|split; [|split]]]; auto. discriminate.
Qed.

Lemma passes_metrics stop n ds dn : passes md cf stop n ds dn ->
  map (@lg_metric St) (ds_logs dn) = map (@lg_metric St) (ds_logs ds).
Proof.
  induction 1 as [ds|k ds d1 d2 d3 s HP IH Hs Hu Hc Ha]; auto. rewrite <- IH.
  apply conv_ok in Hc as (l & Hl & ->). unfold after_iteration in Ha. cbn [ds_num ds_it ds_logs with_conv with_num] in Ha.
  destruct (log_all _ _ _) as [logs [x|]] eqn:El; [discriminate|].
  apply log_all_metric in El as [El _].
  destruct (cf_freq cf =? 0)%Z; [discriminate|]. destruct (_ && _)%bool.
  - destruct (store_checkpoint md _) as [d [x|]] eqn:E; [discriminate|]. injection Ha as <-. cbn [ds_logs with_it].
    unfold store_checkpoint in E. cbn [ds_file with_logs] in E. destruct (ds_file (with_conv _ _ _)); [|discriminate].
    destruct (run_steps _ f) as [f' [x|]]; [discriminate|].
    assert (HL : forall logs f l f' e, @store_logs St logs f = (l, f', e) -> map (@lg_metric St) l = map (@lg_metric St) logs).
    { clear. induction logs as [|lg logs IH]; cbn [store_logs]; intros f l f' e.
      - intros H. injection H as <- <- <-. auto.
      - destruct (run_steps (logger_steps lg) f) as [f1 [x|]]; [intros H; injection H as <- <- <-; auto|].
        destruct (store_logs logs f1) as [[r f2] e2] eqn:E. intros H. injection H as <- <- <-.
        cbn [map]. rewrite (IH _ _ _ _ E). reflexivity. }
    cbn [ds_logs with_logs] in E. destruct (store_logs logs f') as [[l1 f2] e2] eqn:E2. injection E as <- _.
    cbn [ds_logs with_file with_logs]. rewrite (HL _ _ _ _ _ E2). exact El.
  - injection Ha as <-. cbn [ds_logs with_it with_logs]. exact El.
Qed.

Lemma metric_in (l l' : list (logger St)) lg : map (@lg_metric St) l = map (@lg_metric St) l' -> In lg l ->
  exists lg', In lg' l' /\ lg_metric lg' = lg_metric lg.
Proof.
  intros H Hin. apply (in_map (@lg_metric St)) in Hin. rewrite H in Hin. apply in_map_iff in Hin as (lg' & E & Hi). eauto.
Qed.

Lemma no_fail pr stop k ds dk d' x budget f0 : passes md cf stop k ds dk -> k < budget -> quiet md ds budget ->
  (forall s e, stop s = Err e -> exists e', md_loss md (ds_num s) = Err e') ->
  (0 < cf_freq cf)%Z -> known_root md ->
  ds_file ds = Some f0 -> ready_file (classes_of (ds_logs ds)) f0 -> plain_classes (classes_of (ds_logs ds)) ->
  (forall k, k < budget -> storable md (md_dec md (state_after md (ds_num ds) (S k)))) ->
  (forall j, j < budget -> ~ has_ckpt f0 (ds_it ds + Z.of_nat j)) ->
  (pr = true -> cf_print cf <> 0%Z) -> fails md cf pr stop dk d' x -> False.
Proof.
  intros HP Hk (Q1 & Q2 & Q3) Hstop Hf Hroot Hfile Hready Hplain Hst Hnew Hpr HF.
  pose proof (passes_state HP) as (I1 & I2 & _).
  destruct (@passes_accounted stop k ds dk f0 HP) as (f & Hf1 & Hcl & Hr & A1 & A2 & A3 & A4); auto.
  { intros; apply Hst; lia. } { intros; apply Hnew; lia. }
  inversion HF as [e' H1|s e' H1 H2|s e' H1 H2 H3|s d2 P1 P2 H1 H2 H3|s d2 d3 e' H1 H2 H3 H4]; subst.
  - apply Hstop in H1 as [e1 H1]. rewrite I1 in H1. destruct (Q1 k) as [l Hl]; [lia|congruence].
  - specialize (Q2 k Hk). rewrite <- I1, H2 in Q2. discriminate.
  - unfold update_convergence in H3. cbn [ds_num with_num] in H3.
    destruct (Q1 (S k)) as [l Hl]; [lia|]. cbn [state_after] in Hl. rewrite <- I1, H2 in Hl. cbn [fst] in Hl.
    rewrite Hl in H3. discriminate.
  - now apply Hpr.
  - apply conv_ok in H3 as (l & Hl & ->).
    set (d2 := with_conv _ _ _) in *.
    assert (Es : state_after md (ds_num ds) (S k) = s).
    { cbn [state_after]. rewrite <- I1, H2. reflexivity. }
    destruct (@log_all_progress St (ds_num d2) (ds_it d2) (ds_logs d2)) as [logs Hlog].
    { intros lg Hin. cbn [d2 ds_logs ds_num with_conv with_num] in *. rewrite <- Es.
      destruct (metric_in (passes_metrics HP) Hin) as (lg' & Hin' & <-). now apply Q3. }
    destruct (@after_spec d2 f logs) as (d4 & f' & Ha' & _); auto.
    + unfold d2; cbn [ds_logs with_conv with_num]. now rewrite Hcl.
    + unfold d2; cbn [ds_logs with_conv with_num]. now rewrite Hcl.
    + intros Hdue. cbn [ds_num ds_it d2 with_conv with_num] in *. split; [rewrite <- Es; apply Hst; lia|].
      unfold has_ckpt. rewrite A2, I2; [apply Hnew; lia|]. rewrite periodic_in. lia.
    + rewrite Ha' in H4. discriminate.
Qed.

(** ** CP *)
Lemma cp_run_lemma ds f0 ds' e : (0 < cf_freq cf)%Z -> known_root md ->
  ds_file ds = Some f0 -> ready_file (classes_of (ds_logs ds)) f0 -> plain_classes (classes_of (ds_logs ds)) ->
  (forall k, storable md (md_dec md (state_after md (ds_num ds) k))) ->
  (forall j, j <= Z.to_nat (ds_max ds - ds_it ds) -> ~ has_ckpt f0 (ds_it ds + Z.of_nat j)) ->
  cp_fit_loop md cf ds = (ds', e) ->
  (e = None -> exists n last f, ds_num ds' = state_after md (ds_num ds) n /\ ds_it ds' = (ds_it ds + Z.of_nat n)%Z /\
    ((n = Z.to_nat (ds_max ds - ds_it ds) /\ n = S last) \/
     (n < Z.to_nat (ds_max ds - ds_it ds) /\ cp_stops md cf (ds_prev ds) (ds_rel ds) (ds_num ds) n = Ok true /\ last = n)) /\
    ds_file ds' = Some f /\ ready_file (classes_of (ds_logs ds)) f /\ classes_of (ds_logs ds') = classes_of (ds_logs ds) /\
    run_file md cf (ds_num ds) (ds_it ds) f0 f n (negb ((Z.of_nat last + 1) mod cf_freq cf =? 0)%Z)) /\
  ((ds_it ds < ds_max ds)%Z -> quiet md ds (Z.to_nat (ds_max ds - ds_it ds)) -> e = None).
Proof.
  intros Hf Hroot Hfile Hready Hplain Hst Hnew. unfold cp_fit_loop. set (budget := Z.to_nat _) in *.
  destruct (cp_loop _ _ _ _ _ _) as [[d1 it1] e1] eqn:E. intros H.
  apply cp_loop_cases in E as (k & dk & Hk & HP & E).
  pose proof (passes_state HP) as (I1 & I2 & _).
  destruct (@passes_accounted _ k ds dk f0 HP) as (f & Hf1 & Hcl & Hr & Hacc); auto.
  { intros; apply Hnew; lia. }
  assert (E0 : (cf_freq cf =? 0)%Z = false) by (apply Z.eqb_neq; lia).
  assert (E1 : (0 <? cf_freq cf)%Z = true) by (apply Z.ltb_lt; lia).
  destruct E as [(-> & -> & -> & ->)|[(-> & Hlt & Hs & -> & ->)|(x & -> & Hlt & Hff)]].
  - destruct budget as [|j] eqn:Eb.
    { injection H as <- <-. split; [discriminate|]. unfold budget in Eb. lia. }
    rewrite E0, E1, Bool.andb_true_r in H.
    destruct (@accounted_end ds dk f0 f (S j) _ ds' e Hf Hroot I1 I2 Hf1 Hcl Hr Hplain Hacc (Hst _) (Hnew _ (le_n _)) H)
      as (-> & f' & F1 & F2 & F3 & F4).
    split; auto. intros _. exists (S j), j, f'. apply final_keeps in H as (K1 & K2 & _).
    rewrite K1, K2. split; auto. split; auto.
  - rewrite E0, E1, Bool.andb_true_r in H.
    destruct (@accounted_end ds dk f0 f k _ ds' e Hf Hroot I1 I2 Hf1 Hcl Hr Hplain Hacc (Hst _) (Hnew _ Hk) H)
      as (-> & f' & F1 & F2 & F3 & F4).
    split; auto. intros _. exists k, k, f'. apply final_keeps in H as (K1 & K2 & _).
    rewrite K1, K2. split; auto. split; auto. split; [|auto]. right. split; auto. split; auto. now rewrite <- (cp_stop_at HP).
  - assert (H' : (d1, Some x) = (ds', e)) by (destruct it1; exact H). injection H' as <- <-.
    split; [discriminate|]. intros Hb HQ.
    exfalso. apply (@no_fail false (cp_stop md cf) k ds dk d1 x budget f0); auto.
    + intros s0 e0. unfold cp_stop. destruct (md_loss md (ds_num s0)) as [l|e']; [discriminate|]. eauto.
    + intros; apply Hnew; lia.
    + discriminate.
Qed.

(** ** PARAFAC2 *)
Lemma pf_run_lemma ds s f0 ds' e : (0 < cf_freq cf)%Z -> known_root md -> md_prepare md (ds_num ds) = (s, None) ->
  ds_file ds = Some f0 -> ready_file (classes_of (ds_logs ds)) f0 -> plain_classes (classes_of (ds_logs ds)) ->
  (forall k, storable md (md_dec md (state_after md s k))) ->
  (forall j, j <= Z.to_nat (ds_max ds - ds_it ds) -> ~ has_ckpt f0 (ds_it ds + Z.of_nat j)) ->
  pf_fit_loop md cf ds = (ds', e) ->
  (e = None -> exists n f, ds_num ds' = state_after md s n /\ ds_it ds' = (ds_it ds + Z.of_nat n)%Z /\ (n = Z.to_nat (ds_max ds - ds_it ds) \/
     (n < Z.to_nat (ds_max ds - ds_it ds) /\ pf_stops md cf (ds_prev ds) (ds_rel ds) s n = Ok true)) /\
    ds_file ds' = Some f /\ ready_file (classes_of (ds_logs ds)) f /\ classes_of (ds_logs ds') = classes_of (ds_logs ds) /\
    run_file md cf s (ds_it ds) f0 f n (negb ((ds_it ds + Z.of_nat n + 1) mod cf_freq cf =? 0)%Z)) /\
  (quiet md (with_num s ds) (Z.to_nat (ds_max ds - ds_it ds)) -> cf_print cf <> 0%Z -> e = None).
Proof.
  intros Hf Hroot Hprep Hfile Hready Hplain Hst Hnew. unfold pf_fit_loop. rewrite Hprep. cbn [ds_max ds_it with_num].
  set (ds0 := with_num s ds) in *. set (budget := Z.to_nat _) in *.
  destruct (pf_loop _ _ _ _) as [d1 e1] eqn:E. intros H.
  apply pf_loop_cases in E as (k & dk & Hk & HP & _ & E).
  pose proof (passes_state HP) as (I1 & I2 & _).
  destruct (@passes_accounted _ k ds0 dk f0 HP) as (f & Hf1 & Hcl & Hr & Hacc); auto.
  { intros; apply Hnew; lia. }
  assert (E0 : (cf_freq cf =? 0)%Z = false) by (apply Z.eqb_neq; lia).
  assert (E1 : (0 <? cf_freq cf)%Z = true) by (apply Z.ltb_lt; lia).
  destruct E as [(-> & -> & ->)|[(-> & Hlt & Hs & ->)|(x & -> & Hlt & Hff)]].
  - rewrite E0, E1, Bool.andb_true_r, I2 in H.
    destruct (@accounted_end ds0 dk f0 f budget _ ds' e Hf Hroot I1 I2 Hf1 Hcl Hr Hplain Hacc (Hst _) (Hnew _ (le_n _)) H)
      as (-> & f' & F1 & F2 & F3 & F4).
    split; auto. intros _. exists budget, f'. apply final_keeps in H as (K1 & K2 & _).
    rewrite K1, K2. split; auto. split; auto.
  - rewrite E0, E1, Bool.andb_true_r, I2 in H.
    destruct (@accounted_end ds0 dk f0 f k _ ds' e Hf Hroot I1 I2 Hf1 Hcl Hr Hplain Hacc (Hst _) (Hnew _ Hk) H)
      as (-> & f' & F1 & F2 & F3 & F4).
    split; auto. intros _. exists k, f'. apply final_keeps in H as (K1 & K2 & _).
    rewrite K1, K2. split; auto. split; auto. split; [|auto]. right. split; auto.
    rewrite <- Hs. symmetry. apply (pf_stop_at HP).
  - injection H as <- <-.
    split; [discriminate|]. intros HQ Hp. exfalso.
    apply (@no_fail true (fun d => Ok (pf_stop cf d)) k ds0 dk d1 x budget f0); auto.
    + discriminate.
    + intros; apply Hnew; lia.
Qed.
End Run.
