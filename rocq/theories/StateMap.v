(** Runs of the fit loop on states that differ in what no step looks at. *)
From Verif Require Import Prelude NumPy Decomposer.
Set Implicit Arguments.
Unset Strict Implicit.

Section Map.
Context {St D : Type} (md : model St D) (cf : config) (f : St -> St) (P : St -> Prop).
Hypothesis (Hdec : forall s, P s -> md_dec md (f s) = md_dec md s)
  (Hloss : forall s, P s -> md_loss md (f s) = md_loss md s)
  (Hnorm : forall s, P s -> md_norm2 md (f s) = md_norm2 md s)
  (Hupd : forall s, P s -> P (fst (md_update md s)) /\ md_update md (f s) = (f (fst (md_update md s)), snd (md_update md s))).

Definition blind_log (lg : logger St) : Prop := forall s, P s -> lg_metric lg (f s) = lg_metric lg s.
Definition mapped (ds : dstate St) : dstate St := with_num (f (ds_num ds)) ds.
Definition fit_for (ds : dstate St) : Prop := P (ds_num ds) /\ Forall blind_log (ds_logs ds).

Lemma log_all_mapped s it logs : P s -> Forall blind_log logs ->
  log_all (f s) it logs = log_all s it logs /\ Forall blind_log (fst (log_all s it logs)).
Proof.
  intros HP. induction logs as [|lg logs IH]; intros H; [split; [reflexivity|constructor]|]. inversion H as [|? ? H1 H2]; subst.
  destruct (IH H2) as [E1 E2]. cbn [log_all]. unfold lg_log. rewrite (H1 s HP). destruct (lg_metric lg s) as [v|e]; cbn [bind]; [|split; [reflexivity|exact H]].
  rewrite E1. destruct (log_all s it logs) as [rest e]. split; [reflexivity|]. constructor; [exact H1|exact E2].
Qed.
Lemma store_logs_blind logs : forall fl, Forall blind_log logs -> Forall blind_log (fst (fst (store_logs logs fl))).
Proof.
  induction logs as [|lg logs IH]; intros fl H; [constructor|]. inversion H as [|? ? H1 H2]; subst. cbn [store_logs].
  destruct (run_steps _ fl) as [fl' [e|]]; [exact H|]. specialize (IH fl' H2). destruct (store_logs logs fl') as [[r g] e]. constructor; [exact H1|exact IH].
Qed.
Lemma store_mapped ds : fit_for ds ->
  store_checkpoint md (mapped ds) = (mapped (fst (store_checkpoint md ds)), snd (store_checkpoint md ds)) /\ fit_for (fst (store_checkpoint md ds)).
Proof.
  intros [HP HL]. unfold store_checkpoint. cbn [mapped with_num ds_file ds_num ds_it ds_logs]. rewrite (Hdec HP).
  destruct (ds_file ds) as [fl|]; [|split; [reflexivity|now split]].
  destruct (run_steps _ fl) as [fl' [e|]]; [split; [reflexivity|now split]|].
  pose proof (store_logs_blind fl' HL) as HB. destruct (store_logs (ds_logs ds) fl') as [[logs g] e]. split; [reflexivity|now split].
Qed.
Lemma after_mapped ds : fit_for ds ->
  after_iteration md cf (mapped ds) = (mapped (fst (after_iteration md cf ds)), snd (after_iteration md cf ds)) /\ fit_for (fst (after_iteration md cf ds)).
Proof.
  intros [HP HL]. unfold after_iteration. cbn [mapped with_num ds_num ds_it ds_logs].
  destruct (log_all_mapped (ds_it ds) HP HL) as [E1 E2]. rewrite E1. destruct (log_all (ds_num ds) (ds_it ds) (ds_logs ds)) as [logs [e|]]; cbn [fst] in E2.
  - split; [reflexivity|now split].
  - destruct (cf_freq cf =? 0)%Z; [split; [reflexivity|now split]|].
    cbn [ds_it with_logs mapped with_num]. destruct (((ds_it ds + 1) mod cf_freq cf =? 0) && (0 <? cf_freq cf))%Z; [|split; [reflexivity|now split]].
    match goal with |- context [store_checkpoint md ?x] => change x with (mapped (with_logs logs ds)) end.
    destruct (@store_mapped (with_logs logs ds)) as [E3 E4]; [now split|].
    rewrite E3. destruct (store_checkpoint md (with_logs logs ds)) as [d [e|]]; (split; [reflexivity|exact E4]).
Qed.
Lemma loop_mapped n : forall it i ds, fit_for ds -> let '(d, j, e) := cp_loop md cf n it i ds in
  cp_loop md cf n it i (mapped ds) = (mapped d, j, e) /\ fit_for d.
Proof.
  induction n as [|n IH]; intros it i ds HF; [split; [reflexivity|exact HF]|]. destruct HF as [HP HL]. cbn [cp_loop].
  assert (Es : cp_stop md cf (mapped ds) = cp_stop md cf ds).
  { unfold cp_stop. cbn [mapped with_num ds_num ds_rel]. now rewrite (Hloss HP), (Hnorm HP). }
  rewrite Es. destruct (cp_stop md cf ds) as [[|]|e]; [split; [reflexivity|now split]| |split; [reflexivity|now split]].
  destruct (Hupd HP) as [HP' EU]. cbn [mapped with_num ds_num]. rewrite EU. destruct (md_update md (ds_num ds)) as [s' [e|]]; cbn [fst snd] in *.
  { split; [reflexivity|now split]. }
  change (with_num (f s') (mapped ds)) with (mapped (with_num s' ds)).
  assert (Ec : update_convergence md (mapped (with_num s' ds)) = do d <- update_convergence md (with_num s' ds) ; Ok (mapped d)).
  { unfold update_convergence. cbn [mapped with_num ds_num ds_prev]. rewrite (Hloss HP'). destruct (md_loss md s'); reflexivity. }
  change (with_num (f s') (with_num (f (ds_num ds)) ds)) with (mapped (with_num s' ds)). rewrite Ec.
  destruct (update_convergence md (with_num s' ds)) as [d2|e] eqn:E2; cbn [bind]; [|split; [reflexivity|now split]].
  assert (H2 : fit_for d2).
  { unfold update_convergence in E2. destruct (md_loss md _) in E2; cbn [bind] in E2; [|discriminate]. injection E2 as <-. now split. }
  destruct (after_mapped H2) as [E3 H3]. rewrite E3. destruct (after_iteration md cf d2) as [d3 [e|]]; [split; [reflexivity|exact H3]|].
  apply IH. exact H3.
Qed.
Lemma fit_loop_mapped ds : fit_for ds ->
  cp_fit_loop md cf (mapped ds) = (mapped (fst (cp_fit_loop md cf ds)), snd (cp_fit_loop md cf ds)) /\ fit_for (fst (cp_fit_loop md cf ds)).
Proof.
  intros HF. unfold cp_fit_loop. change (ds_max (mapped ds)) with (ds_max ds). change (ds_it (mapped ds)) with (ds_it ds).
  pose proof (loop_mapped (Z.to_nat (ds_max ds - ds_it ds)) None 0%Z HF) as H.
  destruct (cp_loop md cf _ None 0%Z ds) as [[d [j|]] e]; destruct H as [-> Hd]; (destruct e as [e|]; [split; [reflexivity|exact Hd]|]);
    [|split; [reflexivity|exact Hd]].
  destruct (cf_freq cf =? 0)%Z; [split; [reflexivity|exact Hd]|].
  destruct (negb ((j + 1) mod cf_freq cf =? 0) && (0 <? cf_freq cf))%Z; [|split; [reflexivity|exact Hd]]. now apply store_mapped.
Qed.
End Map.
