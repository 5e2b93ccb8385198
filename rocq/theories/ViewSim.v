(** Runs of the fit loop of CP on two kinds of states, one of which is a view of the other. *)
From Verif Require Import Prelude NumPy Decomposer.
Set Implicit Arguments.
Unset Strict Implicit.

Section View.
Context {S1 S2 D : Type} (md1 : model S1 D) (md2 : model S2 D) (f : S1 -> S2) (P : S1 -> Prop).

(** The same record, its metric read through the view *)
Record log_view (l1 : logger S1) (l2 : logger S2) : Prop :=
  { lv_class : lg_class l1 = lg_class l2; lv_vals : lg_vals l1 = lg_vals l2; lv_its : lg_its l1 = lg_its l2;
    lv_prev : lg_prev l1 = lg_prev l2; lv_metric : forall s, lg_metric l1 s = lg_metric l2 (f s) }.
Record ds_view (d1 : dstate S1) (d2 : dstate S2) : Prop :=
  { dv_num : ds_num d2 = f (ds_num d1); dv_it : ds_it d1 = ds_it d2; dv_max : ds_max d1 = ds_max d2;
    dv_rel : ds_rel d1 = ds_rel d2; dv_last : ds_prev d1 = ds_prev d2;
    dv_logs : Forall2 log_view (ds_logs d1) (ds_logs d2); dv_file : ds_file d1 = ds_file d2 }.

Hypothesis (Hcls : md_class md1 = md_class md2) (Hstore : md_store md1 = md_store md2) (Hroot : md_root md1 = md_root md2)
  (Hdec : forall s, md_dec md1 s = md_dec md2 (f s))
  (Hloss : forall s, md_loss md1 s = md_loss md2 (f s))
  (Hnorm : forall s, md_norm2 md1 s = md_norm2 md2 (f s))
  (Hupd : forall s, P s -> P (fst (md_update md1 s)) /\ md_update md2 (f s) = (f (fst (md_update md1 s)), snd (md_update md1 s))).
Context (cf : config).

Lemma view_log_all s it : forall l1 l2, Forall2 log_view l1 l2 ->
  snd (log_all s it l1) = snd (log_all (f s) it l2) /\ Forall2 log_view (fst (log_all s it l1)) (fst (log_all (f s) it l2)).
Proof.
  intros l1 l2 H. induction H as [|a b l1 l2 [H1 H2 H3 H4 H5] HL [E1 E2]]; [split; constructor|]. cbn [log_all]. unfold lg_log. rewrite H5.
  destruct (lg_metric b (f s)) as [v|e]; cbn [bind]; [|split; [reflexivity|constructor; [now constructor|exact HL]]].
  destruct (log_all s it l1) as [r1 e1], (log_all (f s) it l2) as [r2 e2]. cbn [fst snd] in *. split; [exact E1|].
  constructor; [|exact E2]. constructor; cbn; congruence.
Qed.
Lemma view_store_logs : forall l1 l2, Forall2 log_view l1 l2 -> forall fl,
  snd (store_logs l1 fl) = snd (store_logs l2 fl) /\ snd (fst (store_logs l1 fl)) = snd (fst (store_logs l2 fl)) /\
  Forall2 log_view (fst (fst (store_logs l1 fl))) (fst (fst (store_logs l2 fl))).
Proof.
  intros l1 l2 H. induction H as [|a b l1 l2 Hab HL IH]; intros fl; [split; [reflexivity|split; [reflexivity|constructor]]|].
  pose proof Hab as [H1 H2 H3 H4 H5]. cbn [store_logs].
  assert (Es : logger_steps a = logger_steps b).
  { unfold logger_steps, latest_its, latest_vals. now rewrite H1, H2, H3, H4. }
  rewrite Es. destruct (run_steps (logger_steps b) fl) as [f' [e|]]; [split; [reflexivity|split; [reflexivity|now constructor]]|].
  specialize (IH f'). destruct (store_logs l1 f') as [[r1 g1] e1], (store_logs l2 f') as [[r2 g2] e2]. cbn [fst snd] in *.
  destruct IH as (E1 & E2 & E3). split; [exact E1|]. split; [exact E2|]. constructor; [|exact E3].
  constructor; cbn; unfold latest_its; congruence.
Qed.

Definition view_res (r1 : dstate S1 * option exn) (r2 : dstate S2 * option exn) : Prop := ds_view (fst r1) (fst r2) /\ snd r1 = snd r2.
Lemma view_checkpoint d1 d2 : ds_view d1 d2 -> view_res (store_checkpoint md1 d1) (store_checkpoint md2 d2) /\
  ds_num (fst (store_checkpoint md1 d1)) = ds_num d1.
Proof.
  intros H. pose proof H as [H1 H2 H3 H4 H5 H6 H7]. unfold store_checkpoint. rewrite <- H7.
  destruct (ds_file d1) as [fl|]; [|split; [split; [exact H|reflexivity]|reflexivity]].
  assert (Es : ckpt_steps md1 (ds_it d1) (md_dec md1 (ds_num d1)) = ckpt_steps md2 (ds_it d2) (md_dec md2 (ds_num d2))).
  { unfold ckpt_steps. now rewrite Hroot, Hstore, Hdec, H1, H2. }
  rewrite Es. destruct (run_steps _ fl) as [f' [e|]]; [split; [split; [constructor; auto|reflexivity]|reflexivity]|].
  destruct (view_store_logs H6 f') as (E1 & E2 & E3).
  destruct (store_logs (ds_logs d1) f') as [[r1 g1] e1], (store_logs (ds_logs d2) f') as [[r2 g2] e2]. cbn [fst snd] in *.
  split; [|reflexivity]. split; [constructor; auto; cbn; congruence|exact E1].
Qed.
Lemma view_after d1 d2 : ds_view d1 d2 -> view_res (after_iteration md1 cf d1) (after_iteration md2 cf d2) /\
  ds_num (fst (after_iteration md1 cf d1)) = ds_num d1.
Proof.
  intros H. pose proof H as [H1 H2 H3 H4 H5 H6 H7]. unfold after_iteration. rewrite H1, <- H2.
  destruct (view_log_all (ds_num d1) (ds_it d1) H6) as [E1 E2].
  destruct (log_all (ds_num d1) (ds_it d1) (ds_logs d1)) as [l1 e1], (log_all (f (ds_num d1)) (ds_it d1) (ds_logs d2)) as [l2 e2].
  cbn [fst snd] in *. subst e2.
  assert (HV : ds_view (with_logs l1 d1) (with_logs l2 d2)) by (constructor; auto).
  destruct e1 as [e|]; [split; [split; [exact HV|reflexivity]|reflexivity]|].
  destruct (cf_freq cf =? 0)%Z; [split; [split; [exact HV|reflexivity]|reflexivity]|].
  change (ds_it (with_logs l2 d2)) with (ds_it d2). change (ds_it (with_logs l1 d1)) with (ds_it d1). rewrite <- H2.
  destruct (((ds_it d1 + 1) mod cf_freq cf =? 0) && (0 <? cf_freq cf))%Z.
  - destruct (view_checkpoint HV) as [[V1 V2] V3].
    destruct (store_checkpoint md1 (with_logs l1 d1)) as [a1 e1], (store_checkpoint md2 (with_logs l2 d2)) as [a2 e2]. cbn [fst snd] in *. subst e2.
    destruct e1 as [e|]; [split; [split; [exact V1|reflexivity]|exact V3]|].
    split; [split; [|reflexivity]|exact V3]. destruct V1. constructor; cbn; auto; congruence.
  - split; [split; [|reflexivity]|reflexivity]. destruct HV. constructor; cbn; auto; congruence.
Qed.
Lemma view_loop n : forall it i d1 d2, P (ds_num d1) -> ds_view d1 d2 ->
  let '(a1, j1, e1) := cp_loop md1 cf n it i d1 in let '(a2, j2, e2) := cp_loop md2 cf n it i d2 in
  ds_view a1 a2 /\ j1 = j2 /\ e1 = e2 /\ P (ds_num a1).
Proof.
  induction n as [|n IH]; intros it i d1 d2 HP H; [cbn; auto|]. pose proof H as [H1 H2 H3 H4 H5 H6 H7]. cbn [cp_loop].
  assert (Es : cp_stop md1 cf d1 = cp_stop md2 cf d2).
  { unfold cp_stop. now rewrite Hloss, Hnorm, H1, H4. }
  rewrite Es. destruct (cp_stop md2 cf d2) as [[|]|e]; [auto| |auto].
  destruct (Hupd HP) as [HP' EU]. rewrite H1, EU. destruct (md_update md1 (ds_num d1)) as [s' [e|]]; cbn [fst snd] in *.
  { split; [constructor; auto|]. auto. }
  assert (HV : ds_view (with_num s' d1) (with_num (f s') d2)) by (constructor; auto).
  unfold update_convergence. cbn [ds_num with_num]. rewrite Hloss. destruct (md_loss md2 (f s')) as [l|e]; cbn [bind]; [|auto].
  set (c1 := with_conv _ _ (with_num s' d1)). set (c2 := with_conv _ _ (with_num (f s') d2)).
  assert (HC : ds_view c1 c2).
  { constructor; auto. cbn. now rewrite H5. }
  destruct (view_after HC) as [[V1 V2] V3].
  destruct (after_iteration md1 cf c1) as [a1 e1], (after_iteration md2 cf c2) as [a2 e2]. cbn [fst snd] in *. subst e2.
  assert (HPa : P (ds_num a1)) by (rewrite V3; exact HP').
  destruct e1 as [e|]; [auto|]. now apply IH.
Qed.
Theorem view_fit_loop d1 d2 : P (ds_num d1) -> ds_view d1 d2 ->
  view_res (cp_fit_loop md1 cf d1) (cp_fit_loop md2 cf d2) /\ P (ds_num (fst (cp_fit_loop md1 cf d1))).
Proof.
  intros HP H. unfold cp_fit_loop. rewrite <- (dv_max H), <- (dv_it H).
  pose proof (view_loop (Z.to_nat (ds_max d1 - ds_it d1)) None 0%Z HP H) as HL.
  destruct (cp_loop md1 cf _ None 0%Z d1) as [[a1 j1] e1], (cp_loop md2 cf _ None 0%Z d2) as [[a2 j2] e2].
  destruct HL as (HV & <- & <- & HPa). destruct e1 as [e|]; [destruct j1; (split; [split; [exact HV|reflexivity]|exact HPa])|].
  destruct j1 as [j|]; [|split; [split; [exact HV|reflexivity]|exact HPa]].
  destruct (cf_freq cf =? 0)%Z; [split; [split; [exact HV|reflexivity]|exact HPa]|].
  destruct (negb ((j + 1) mod cf_freq cf =? 0) && (0 <? cf_freq cf))%Z; [|split; [split; [exact HV|reflexivity]|exact HPa]].
  destruct (view_checkpoint HV) as [V1 V3]. split; [exact V1|]. now rewrite V3.
Qed.
End View.
