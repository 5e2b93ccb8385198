(** The fit loops: passes, counters and stopping. *)
From Verif Require Export FitSpec NamesFacts.
Set Implicit Arguments.
Unset Strict Implicit.
Local Open Scope nat_scope.

Section Fit.
Context {St D : Type} (md : model St D) (cf : config).

(** ** What a checkpoint leaves alone *)
Lemma store_keeps (ds ds' : dstate St) e : store_checkpoint md ds = (ds', e) ->
  ds_num ds' = ds_num ds /\ ds_it ds' = ds_it ds /\ ds_max ds' = ds_max ds /\ ds_rel ds' = ds_rel ds /\
  ds_prev ds' = ds_prev ds.
Proof.
  unfold store_checkpoint. destruct (ds_file ds) as [f|]; [|intros H; injection H as <- <-; auto].
  destruct (run_steps _ f) as [f' [x|]]; [intros H; injection H as <- <-; cbn; auto|].
  destruct (store_logs _ f') as [[l f''] e']. intros H. injection H as <- <-. cbn. auto 6.
Qed.

Lemma after_keeps (ds ds' : dstate St) e : after_iteration md cf ds = (ds', e) ->
  ds_num ds' = ds_num ds /\ ds_max ds' = ds_max ds /\ ds_rel ds' = ds_rel ds /\ ds_prev ds' = ds_prev ds /\
  ds_it ds' = (match e with None => ds_it ds + 1 | Some _ => ds_it ds end)%Z.
Proof.
  unfold after_iteration. destruct (log_all _ _ _) as [logs el]. destruct el as [x|].
  - intros H; injection H as <- <-; cbn; auto 6.
  - destruct (cf_freq cf =? 0)%Z; [intros H; injection H as <- <-; cbn; auto 6|].
    destruct (_ && _)%bool.
    + destruct (store_checkpoint md _) as [d [x|]] eqn:E; apply store_keeps in E; cbn in E;
        destruct E as (E1 & E2 & E3 & E4 & E5); intros H; injection H as <- <-; cbn; auto 6.
      rewrite E2. auto 6.
    + intros H; injection H as <- <-; cbn; auto 6.
Qed.

(** ** Passes *)
(** [passes stop k ds ds']: [k] complete loop passes lead from [ds] to [ds']. *)
Inductive passes (stop : dstate St -> res bool) : nat -> dstate St -> dstate St -> Prop :=
| passes0 ds : passes stop 0 ds ds
| passesS k ds d1 d2 d3 s : passes stop k ds d1 -> stop d1 = Ok false ->
    md_update md (ds_num d1) = (s, None) -> update_convergence md (with_num s d1) = Ok d2 ->
    after_iteration md cf d2 = (d3, None) -> passes stop (S k) ds d3.

(** A pass that raises [e] and leaves [d'].  [pr]: the loop divides by the print frequency. *)
Inductive fails (pr : bool) (stop : dstate St -> res bool) (d : dstate St) : dstate St -> exn -> Prop :=
| fail_stop e : stop d = Err e -> fails pr stop d d e
| fail_update s e : stop d = Ok false -> md_update md (ds_num d) = (s, Some e) -> fails pr stop d (with_num s d) e
| fail_conv s e : stop d = Ok false -> md_update md (ds_num d) = (s, None) ->
    update_convergence md (with_num s d) = Err e -> fails pr stop d (with_num s d) e
| fail_print s d2 : pr = true -> cf_print cf = 0%Z -> stop d = Ok false -> md_update md (ds_num d) = (s, None) ->
    update_convergence md (with_num s d) = Ok d2 -> fails pr stop d d2 ZeroDivisionError
| fail_after s d2 d3 e : stop d = Ok false -> md_update md (ds_num d) = (s, None) ->
    update_convergence md (with_num s d) = Ok d2 -> after_iteration md cf d2 = (d3, Some e) ->
    fails pr stop d d3 e.

Lemma passes_cons stop ds d1 d2 d3 s k ds' : stop ds = Ok false ->
  md_update md (ds_num ds) = (s, None) -> update_convergence md (with_num s ds) = Ok d2 ->
  after_iteration md cf d2 = (d1, None) -> passes stop k d1 ds' -> d3 = ds' -> passes stop (S k) ds d3.
Proof.
  intros H1 H2 H3 H4 HP ->. induction HP as [|k d e1 e2 e3 s' HP IH]; [|econstructor; eauto].
  eapply passesS; eauto. constructor.
Qed.

Lemma cp_loop_cases n : forall it i ds ds' it' e, cp_loop md cf n it i ds = (ds', it', e) ->
  exists k dk, k <= n /\ passes (cp_stop md cf) k ds dk /\
   ((e = None /\ k = n /\ ds' = dk /\ it' = match k with O => it | S j => Some (i + Z.of_nat j)%Z end) \/
    (e = None /\ k < n /\ cp_stop md cf dk = Ok true /\ ds' = dk /\ it' = Some (i + Z.of_nat k)%Z) \/
    (exists x, e = Some x /\ k < n /\ fails false (cp_stop md cf) dk ds' x)).
Proof.
  induction n as [|n IH]; intros it i ds ds' it' e; cbn [cp_loop].
  - intros H. injection H as <- <- <-. exists 0, ds. split; [lia|]. split; [constructor|]. auto.
  - destruct (cp_stop md cf ds) as [[|]|x] eqn:Es.
    + intros H. injection H as <- <- <-. exists 0, ds. split; [lia|]. split; [constructor|]. right. left.
      repeat split; auto; try lia. f_equal. lia.
    + destruct (md_update md (ds_num ds)) as [s [x|]] eqn:Eu.
      { intros H. injection H as <- <- <-. exists 0, ds. split; [lia|]. split; [constructor|]. right. right.
        exists x. split; auto. split; [lia|]. now apply fail_update. }
      destruct (update_convergence md (with_num s ds)) as [d2|x] eqn:Ec.
      2:{ intros H. injection H as <- <- <-. exists 0, ds. split; [lia|]. split; [constructor|]. right. right.
          exists x. split; auto. split; [lia|]. now apply fail_conv. }
      destruct (after_iteration md cf d2) as [d3 [x|]] eqn:Ea.
      { intros H. injection H as <- <- <-. exists 0, ds. split; [lia|]. split; [constructor|]. right. right.
        exists x. split; auto. split; [lia|]. eapply fail_after; eauto. }
      intros H. apply IH in H as (k & dk & Hk & HP & H).
      exists (S k), dk. split; [lia|]. split; [eapply passes_cons; eauto|].
      destruct H as [(-> & -> & -> & ->)|[(-> & Hlt & Hs & -> & ->)|(x & -> & Hlt & Hf)]].
      * left. repeat split; auto. destruct n; f_equal; lia.
      * right. left. repeat split; auto; try lia. f_equal; lia.
      * right. right. exists x. repeat split; auto; lia.
    + intros H. injection H as <- <- <-. exists 0, ds. split; [lia|]. split; [constructor|]. right. right.
      exists x. split; auto. split; [lia|]. now apply fail_stop.
Qed.

Lemma cp_loop_passes k ds dk : passes (cp_stop md cf) k ds dk -> forall n it i,
  cp_loop md cf (k + n) it i ds =
  cp_loop md cf n (match k with O => it | S j => Some (i + Z.of_nat j)%Z end) (i + Z.of_nat k)%Z dk.
Proof.
  induction 1 as [ds|k ds d1 d2 d3 s HP IH Hs Hu Hc Ha]; intros n it i.
  - cbn [Nat.add]. f_equal. lia.
  - replace (S k + n) with (k + S n) by lia. rewrite IH. cbn [cp_loop]. rewrite Hs, Hu, Hc, Ha.
    f_equal. lia.
Qed.

Lemma pf_loop_cases n : forall ds ds' e, pf_loop md cf n ds = (ds', e) ->
  exists k dk, k <= n /\ passes (fun d => Ok (pf_stop cf d)) k ds dk /\ (k = 0 \/ cf_print cf <> 0%Z) /\
   ((e = None /\ k = n /\ ds' = dk) \/
    (e = None /\ k < n /\ pf_stop cf dk = true /\ ds' = dk) \/
    (exists x, e = Some x /\ k < n /\ fails true (fun d => Ok (pf_stop cf d)) dk ds' x)).
Proof.
  induction n as [|n IH]; intros ds ds' e; cbn [pf_loop].
  - intros H. injection H as <- <-. exists 0, ds. split; [lia|]. split; [constructor|]. auto.
  - destruct (pf_stop cf ds) eqn:Es.
    + intros H. injection H as <- <-. exists 0, ds. split; [lia|]. split; [constructor|]. split; auto.
      right. left. repeat split; auto; lia.
    + destruct (md_update md (ds_num ds)) as [s [x|]] eqn:Eu.
      { intros H. injection H as <- <-. exists 0, ds. split; [lia|]. split; [constructor|]. split; auto. right. right.
        exists x. split; auto. split; [lia|]. apply fail_update; auto. now rewrite Es. }
      destruct (update_convergence md (with_num s ds)) as [d2|x] eqn:Ec.
      2:{ intros H. injection H as <- <-. exists 0, ds. split; [lia|]. split; [constructor|]. split; auto. right. right.
          exists x. split; auto. split; [lia|]. apply fail_conv; auto. now rewrite Es. }
      destruct (cf_print cf =? 0)%Z eqn:Ep.
      { intros H. injection H as <- <-. exists 0, ds. split; [lia|]. split; [constructor|]. split; auto. right. right.
        exists ZeroDivisionError. split; auto. split; [lia|]. eapply fail_print; eauto. 2:now rewrite Es. now apply Z.eqb_eq. }
      apply Z.eqb_neq in Ep.
      destruct (after_iteration md cf d2) as [d3 [x|]] eqn:Ea.
      { intros H. injection H as <- <-. exists 0, ds. split; [lia|]. split; [constructor|]. split; auto. right. right.
        exists x. split; auto. split; [lia|]. eapply fail_after; eauto. now rewrite Es. }
      intros H. apply IH in H as (k & dk & Hk & HP & _ & H).
      exists (S k), dk. split; [lia|]. split.
      { eapply passes_cons; eauto. now rewrite Es. }
      split; auto.
      destruct H as [(-> & -> & ->)|[(-> & Hlt & Hs & ->)|(x & -> & Hlt & Hf)]].
      * left. auto.
      * right. left. repeat split; auto; lia.
      * right. right. exists x. repeat split; auto; lia.
Qed.

Lemma pf_loop_passes k ds dk : passes (fun d => Ok (pf_stop cf d)) k ds dk -> cf_print cf <> 0%Z -> forall n,
  pf_loop md cf (k + n) ds = pf_loop md cf n dk.
Proof.
  intros HP Hp. apply Z.eqb_neq in Hp. induction HP as [ds|k ds d1 d2 d3 s HP IH Hs Hu Hc Ha]; intros n; auto.
  replace (S k + n) with (k + S n) by lia. rewrite IH. cbn [pf_loop].
  injection Hs as Hs. now rewrite Hs, Hu, Hc, Hp, Ha.
Qed.

(** ** What passes do to the state *)
Lemma conv_ok d d2 : update_convergence md d = Ok d2 -> exists l, md_loss md (ds_num d) = Ok l /\
  d2 = with_conv (xdiv (xsub (ds_prev d) l) (ds_prev d)) l d.
Proof. unfold update_convergence. destruct (md_loss md _) as [l|]; cbn [bind]; [|discriminate].
  intros H. injection H as <-. eauto. Qed.

Lemma passes_state stop k ds dk : passes stop k ds dk ->
  ds_num dk = state_after md (ds_num ds) k /\ ds_it dk = (ds_it ds + Z.of_nat k)%Z /\ ds_max dk = ds_max ds /\
  prev_at md (ds_prev ds) (ds_num ds) k = Ok (ds_prev dk) /\
  rel_at md (ds_prev ds) (ds_rel ds) (ds_num ds) k = Ok (ds_rel dk).
Proof.
  induction 1 as [ds|k ds d1 d2 d3 s HP IH Hs Hu Hc Ha].
  - cbn [state_after prev_at rel_at]. repeat split; auto. lia.
  - destruct IH as (I1 & I2 & I3 & I4 & I5).
    apply conv_ok in Hc as (l & Hl & ->). cbn [ds_num with_num] in Hl.
    apply after_keeps in Ha as (A1 & A2 & A3 & A4 & A5). cbn in A1, A2, A3, A4, A5.
    assert (Es : state_after md (ds_num ds) (S k) = s).
    { cbn [state_after]. rewrite <- I1, Hu. reflexivity. }
    split; [congruence|]. split; [rewrite A5, I2; lia|]. split; [congruence|].
    assert (El : loss_at md (ds_num ds) (S k) = Ok l) by (unfold loss_at; now rewrite Es).
    split; [cbn [prev_at]; now rewrite El, A4|].
    unfold rel_at. rewrite I4. cbn [bind]. rewrite El. cbn [bind]. now rewrite A3.
Qed.

Lemma cp_stop_at k ds dk : passes (cp_stop md cf) k ds dk ->
  cp_stop md cf dk = cp_stops md cf (ds_prev ds) (ds_rel ds) (ds_num ds) k.
Proof.
  intros HP. apply passes_state in HP as (I1 & _ & _ & _ & I5).
  unfold cp_stop, cp_stops, loss_at. rewrite I1, I5. now destruct (md_loss md _).
Qed.
Lemma pf_stop_at k ds dk : passes (fun d => Ok (pf_stop cf d)) k ds dk ->
  Ok (pf_stop cf dk) = pf_stops md cf (ds_prev ds) (ds_rel ds) (ds_num ds) k.
Proof. intros HP. apply passes_state in HP as (I1 & _ & _ & _ & I5). unfold pf_stops. now rewrite I5. Qed.

Lemma passes_stops stop k ds dk : passes stop k ds dk -> forall j, j < k ->
  exists dj, passes stop j ds dj /\ stop dj = Ok false.
Proof.
  induction 1 as [ds|k ds d1 d2 d3 s HP IH Hs Hu Hc Ha]; intros j Hj; [lia|].
  destruct (Nat.eq_dec j k) as [->|]; [eauto|]. apply IH. lia.
Qed.

Lemma fails_state pr stop d d' e : fails pr stop d d' e ->
  ((ds_num d' = ds_num d /\ stop d = Err e) \/
   (ds_num d' = fst (md_update md (ds_num d)) /\ stop d = Ok false)) /\
  ds_it d' = ds_it d /\ ds_max d' = ds_max d.
Proof.
  intros H. inversion H as [e' H1|s e' H1 H2|s e' H1 H2 H3|s d2 P1 P2 H1 H2 H3|s d2 d3 e' H1 H2 H3 H4]; subst.
  - auto.
  - rewrite H2. cbn. auto.
  - rewrite H2. cbn. auto.
  - rewrite H2. apply conv_ok in H3 as (l & _ & ->). cbn. auto.
  - rewrite H2. apply conv_ok in H3 as (l & _ & ->). apply after_keeps in H4 as (A1 & A2 & A3 & A4 & A5).
    cbn in *. repeat split; auto.
Qed.

(** ** The whole fit *)
Lemma final_keeps (b : bool) ds ds' e : (if b then store_checkpoint md ds else (ds, None)) = (ds', e) ->
  ds_num ds' = ds_num ds /\ ds_it ds' = ds_it ds /\ ds_max ds' = ds_max ds.
Proof.
  destruct b; [|intros H; injection H as <- <-; auto].
  intros H. apply store_keeps in H. tauto.
Qed.

Lemma cp_fit_lemma ds ds' e : cp_fit_loop md cf ds = (ds', e) ->
  let stops := cp_stops md cf (ds_prev ds) (ds_rel ds) (ds_num ds) in
  let budget := Z.to_nat (ds_max ds - ds_it ds) in
  exists n, n <= budget /\ ds_num ds' = state_after md (ds_num ds) n /\
    (forall k, k < n -> stops k = Ok false) /\
    (e = None -> (n = budget \/ stops n = Ok true) /\ ds_it ds' = (ds_it ds + Z.of_nat n)%Z).
Proof.
  cbn zeta. unfold cp_fit_loop. destruct (cp_loop _ _ _ _ _ _) as [[d1 it1] e1] eqn:E. intros H.
  apply cp_loop_cases in E as (k & dk & Hk & HP & E).
  pose proof (passes_state HP) as (I1 & I2 & _).
  assert (Hst : forall j, j < k -> cp_stops md cf (ds_prev ds) (ds_rel ds) (ds_num ds) j = Ok false).
  { intros j Hj. destruct (passes_stops HP Hj) as (dj & HPj & Hs). now rewrite <- (cp_stop_at HPj). }
  destruct E as [(-> & -> & -> & ->)|[(-> & Hlt & Hs & -> & ->)|(x & -> & Hlt & Hf)]].
  - set (n := Z.to_nat _) in *. exists n. split; auto.
    assert (HH : ds_num ds' = ds_num dk /\ (e = None -> ds_it ds' = ds_it dk)).
    { destruct n as [|j]; [injection H as <- <-; auto|].
      destruct (cf_freq cf =? 0)%Z; [injection H as <- <-; auto|]. apply final_keeps in H. tauto. }
    destruct HH as [HH1 HH2]. rewrite HH1. split; auto. split; auto. intros He. rewrite (HH2 He). auto.
  - exists k. split; auto.
    assert (HH : ds_num ds' = ds_num dk /\ (e = None -> ds_it ds' = ds_it dk)).
    { destruct (cf_freq cf =? 0)%Z; [injection H as <- <-; auto|]. apply final_keeps in H. tauto. }
    destruct HH as [HH1 HH2]. rewrite HH1. split; auto. split; auto. intros He. rewrite (HH2 He).
    rewrite <- (cp_stop_at HP). auto.
  - assert (H' : (d1, Some x) = (ds', e)) by (destruct it1; exact H). clear H. injection H' as <- <-. apply fails_state in Hf as ([[F1 F2]|[F1 F2]] & F3 & F4).
    + exists k. split; auto. rewrite F1. repeat split; auto; discriminate.
    + exists (S k). split; [lia|]. split; [rewrite F1, I1; reflexivity|]. split; [|discriminate].
      intros j Hj. destruct (Nat.eq_dec j k) as [->|]; [|apply Hst; lia]. now rewrite <- (cp_stop_at HP).
Qed.

Lemma pf_fit_lemma ds ds' e s : md_prepare md (ds_num ds) = (s, None) -> pf_fit_loop md cf ds = (ds', e) ->
  let stops := pf_stops md cf (ds_prev ds) (ds_rel ds) s in
  let budget := Z.to_nat (ds_max ds - ds_it ds) in
  exists n, n <= budget /\ ds_num ds' = state_after md s n /\
    (forall k, k < n -> stops k = Ok false) /\
    (e = None -> (n = budget \/ stops n = Ok true) /\ ds_it ds' = (ds_it ds + Z.of_nat n)%Z).
Proof.
  cbn zeta. unfold pf_fit_loop. intros ->. cbn [ds_max ds_it with_num].
  set (ds0 := with_num s ds). replace (ds_prev ds) with (ds_prev ds0) by reflexivity.
  replace (ds_rel ds) with (ds_rel ds0) by reflexivity. replace s with (ds_num ds0) by reflexivity.
  replace (ds_it ds) with (ds_it ds0) by reflexivity. replace (ds_max ds) with (ds_max ds0) by reflexivity.
  destruct (pf_loop _ _ _ _) as [d1 e1] eqn:E. intros H.
  apply pf_loop_cases in E as (k & dk & Hk & HP & _ & E).
  pose proof (passes_state HP) as (I1 & I2 & _).
  assert (Hst : forall j, j < k -> pf_stops md cf (ds_prev ds0) (ds_rel ds0) (ds_num ds0) j = Ok false).
  { intros j Hj. destruct (passes_stops HP Hj) as (dj & HPj & Hs). now rewrite <- (pf_stop_at HPj). }
  destruct E as [(-> & -> & ->)|[(-> & Hlt & Hs & ->)|(x & -> & Hlt & Hf)]].
  - exists (Z.to_nat (ds_max ds0 - ds_it ds0)). split; auto.
    assert (HH : ds_num ds' = ds_num dk /\ (e = None -> ds_it ds' = ds_it dk)).
    { destruct (cf_freq cf =? 0)%Z; [injection H as <- <-; auto|]. apply final_keeps in H. tauto. }
    destruct HH as [HH1 HH2]. rewrite HH1. split; auto. split; auto. intros He. rewrite (HH2 He). auto.
  - exists k. split; auto.
    assert (HH : ds_num ds' = ds_num dk /\ (e = None -> ds_it ds' = ds_it dk)).
    { destruct (cf_freq cf =? 0)%Z; [injection H as <- <-; auto|]. apply final_keeps in H. tauto. }
    destruct HH as [HH1 HH2]. rewrite HH1. split; auto. split; auto. intros He. rewrite (HH2 He).
    rewrite <- (pf_stop_at HP), Hs. auto.
  - injection H as <- <-. apply fails_state in Hf as ([[F1 F2]|[F1 F2]] & F3 & F4).
    + discriminate.
    + exists (S k). split; [lia|]. split; [rewrite F1, I1; reflexivity|]. split; [|discriminate].
      intros j Hj. destruct (Nat.eq_dec j k) as [->|]; [|apply Hst; lia]. now rewrite <- (pf_stop_at HP).
Qed.

(** ** No iterations left *)
Lemma cp_no_budget ds : (ds_max ds <= ds_it ds)%Z -> cp_fit_loop md cf ds = (ds, Some UnboundLocalError).
Proof. intros H. unfold cp_fit_loop. replace (Z.to_nat _) with 0 by lia. reflexivity. Qed.

Lemma pf_no_budget ds s : (ds_max ds <= ds_it ds)%Z -> md_prepare md (ds_num ds) = (s, None) ->
  pf_fit_loop md cf ds =
    if (cf_freq cf =? 0)%Z then (with_num s ds, Some ZeroDivisionError) else
    if (negb ((ds_it ds + 1) mod cf_freq cf =? 0) && (0 <? cf_freq cf))%Z then store_checkpoint md (with_num s ds)
    else (with_num s ds, None).
Proof. intros H Hp. unfold pf_fit_loop. rewrite Hp. cbn [ds_max ds_it with_num].
  replace (Z.to_nat _) with 0 by lia. reflexivity. Qed.

(** ** Continuing equals fitting longer *)
Lemma with_max_same (ds : dstate St) : with_max (ds_max ds) ds = ds. Proof. now destruct ds. Qed.
Lemma with_max_twice (ds : dstate St) a b : with_max a (with_max b ds) = with_max a ds. Proof. reflexivity. Qed.

Lemma store_max m (ds ds' : dstate St) e : store_checkpoint md ds = (ds', e) ->
  store_checkpoint md (with_max m ds) = (with_max m ds', e).
Proof.
  unfold store_checkpoint. cbn [ds_file ds_it ds_num ds_logs with_max].
  destruct (ds_file ds) as [f|]; [|intros H; injection H as <- <-; auto].
  destruct (run_steps _ f) as [f' [x|]]; [intros H; injection H as <- <-; cbn; auto|].
  destruct (store_logs _ f') as [[l f''] e']. intros H. injection H as <- <-. reflexivity.
Qed.

Lemma after_max m (ds ds' : dstate St) e : after_iteration md cf ds = (ds', e) ->
  after_iteration md cf (with_max m ds) = (with_max m ds', e).
Proof.
  unfold after_iteration. cbn [ds_num ds_it ds_logs with_max]. destruct (log_all _ _ _) as [logs [x|]].
  - intros H; injection H as <- <-; reflexivity.
  - destruct (cf_freq cf =? 0)%Z; [intros H; injection H as <- <-; reflexivity|].
    cbn [ds_it with_logs with_max].
    destruct (_ && _)%bool.
    + destruct (store_checkpoint md (with_logs logs ds)) as [d e1] eqn:E.
      change (with_logs logs (with_max m ds)) with (with_max m (with_logs logs ds)).
      rewrite (store_max m E). destruct e1; intros H; injection H as <- <-; reflexivity.
    + intros H; injection H as <- <-; reflexivity.
Qed.

Lemma passes_max m k ds dk : passes (cp_stop md cf) k ds dk ->
  passes (cp_stop md cf) k (with_max m ds) (with_max m dk).
Proof.
  induction 1 as [ds|k ds d1 d2 d3 s HP IH Hs Hu Hc Ha]; [constructor|].
  eapply passesS with (d2 := with_max m d2); eauto.
  - apply conv_ok in Hc as (l & Hl & ->). cbn [ds_num with_num] in Hl.
    unfold update_convergence. cbn [ds_num with_num with_max]. now rewrite Hl.
  - now apply after_max.
Qed.

Lemma continue_lemma ds n m d1 : (cf_freq cf < 0)%Z -> (ds_it ds < n)%Z -> (n < m)%Z ->
  cp_fit_loop md cf (with_max n ds) = (d1, None) ->
  cp_continue_fit md cf (Some m) d1 = cp_fit_loop md cf (with_max m ds).
Proof.
  intros Hf Hn Hm H. unfold cp_continue_fit.
  assert (E0 : (cf_freq cf =? 0)%Z = false) by (apply Z.eqb_neq; lia).
  assert (E1 : (0 <? cf_freq cf)%Z = false) by (apply Z.ltb_ge; lia).
  assert (HF : forall d, cp_fit_loop md cf d =
     match cp_loop md cf (Z.to_nat (ds_max d - ds_it d)) None 0%Z d with
     | (d', _, Some e) => (d', Some e)
     | (d', None, None) => (d', Some UnboundLocalError)
     | (d', Some _, None) => (d', None) end).
  { intros d. unfold cp_fit_loop. destruct (cp_loop _ _ _ _ _ _) as [[d' [j|]] [x|]]; auto.
    now rewrite E0, E1, Bool.andb_false_r. }
  rewrite HF in H. rewrite !HF. cbn [ds_max ds_it with_max] in *.
  destruct (cp_loop md cf (Z.to_nat (n - ds_it ds)) None 0 (with_max n ds)) as [[d' it'] e'] eqn:E.
  apply cp_loop_cases in E as (k & dk & Hk & HP & E).
  pose proof (passes_state HP) as (_ & I2 & _). cbn [ds_it with_max] in I2.
  pose proof (passes_max m HP) as HPm. rewrite with_max_twice in HPm.
  assert (Hloop : forall b, cp_loop md cf (k + b) None 0 (with_max m ds) =
     cp_loop md cf b (match k with O => None | S j => Some (0 + Z.of_nat j)%Z end) (0 + Z.of_nat k) (with_max m dk)).
  { intros b. apply (cp_loop_passes HPm). }
  destruct E as [(-> & -> & -> & ->)|[(-> & Hlt & Hs & -> & ->)|(x & -> & Hlt & Hff)]]; [| |destruct it'; discriminate H].
  - destruct (Z.to_nat (n - ds_it ds)) as [|j] eqn:Ej; [lia|]. injection H as <-.
    replace (Z.to_nat (m - ds_it ds)) with (S j + Z.to_nat (m - ds_it dk)) by lia.
    rewrite Hloop.
    (* the loop index does not matter without checkpointing, and at least one pass is left *)
    destruct (Z.to_nat (m - ds_it dk)) as [|b] eqn:Eb; [lia|].
    assert (HI : forall b0 it1 i1 it2 i2 d, (exists z, it1 = Some z) -> (exists z, it2 = Some z) ->
       match cp_loop md cf b0 it1 i1 d with
       | (d', _, Some e) => (d', Some e) | (d', None, None) => (d', Some UnboundLocalError)
       | (d', Some _, None) => (d', None) end =
       match cp_loop md cf b0 it2 i2 d with
       | (d', _, Some e) => (d', Some e) | (d', None, None) => (d', Some UnboundLocalError)
       | (d', Some _, None) => (d', None) end).
    { clear. induction b0 as [|b0 IH]; intros it1 i1 it2 i2 d [z1 ->] [z2 ->]; cbn [cp_loop]; auto.
      destruct (cp_stop md cf d) as [[|]|]; auto. destruct (md_update md (ds_num d)) as [s [x|]]; auto.
      destruct (update_convergence md (with_num s d)) as [d2|]; auto.
      destruct (after_iteration md cf d2) as [d3 [x|]]; auto. apply IH; eauto. }
    cbn [cp_loop]. destruct (cp_stop md cf (with_max m dk)) as [[|]|]; auto.
    destruct (md_update md (ds_num (with_max m dk))) as [s [x|]]; auto.
    destruct (update_convergence md (with_num s (with_max m dk))) as [d2|]; auto.
    destruct (after_iteration md cf d2) as [d3 [x|]]; auto. apply HI; eauto.
  - injection H as <-.
    replace (Z.to_nat (m - ds_it ds)) with (k + Z.to_nat (m - ds_it dk)) by lia.
    rewrite Hloop.
    destruct (Z.to_nat (m - ds_it dk)) as [|b] eqn:Eb; [lia|]. cbn [cp_loop].
    assert (Hs' : cp_stop md cf (with_max m dk) = Ok true) by exact Hs. now rewrite Hs'.
Qed.
End Fit.
