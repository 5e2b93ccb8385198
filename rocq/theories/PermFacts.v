(** itertools.permutations: every assignment once, in lexicographic order. *)
From Coq Require Import Sorting.Sorted.
From Verif Require Export Metrics MetricsSpec.
Set Implicit Arguments.
Unset Strict Implicit.
Local Open Scope nat_scope.

Lemma in_picks {A} (l : list A) x l' :
  In (x, l') (picks l) <-> exists l1 l2, l = l1 ++ x :: l2 /\ l' = l1 ++ l2.
Proof.
  revert x l'. induction l as [|a l IH]; intros x l'; cbn [picks In].
  - split; [tauto|]. intros ([|? ?] & l2 & E & _); discriminate.
  - split.
    + intros [E|H].
      * injection E as -> ->. exists [], l'. auto.
      * apply in_map_iff in H. destruct H as ([y r] & E & H). cbn in E. injection E as -> <-.
        apply IH in H. destruct H as (l1 & l2 & -> & ->). exists (a :: l1), l2. auto.
    + intros ([|b l1] & l2 & E & E').
      * left. cbn in *. injection E as -> ->. now subst.
      * right. cbn in *. injection E as -> ->. apply in_map_iff. exists (x, l1 ++ l2). subst. split; auto.
        apply IH. eauto.
Qed.

Lemma in_permutations {A} r : forall (l : list A), NoDup l -> forall p,
  In p (permutations r l) <-> length p = r /\ NoDup p /\ incl p l.
Proof.
  induction r as [|r IH]; intros l Hl p; cbn [permutations].
  - split.
    + intros [<-|[]]. repeat split; [constructor|]. intros x [].
    + intros (H & _). destruct p; [|discriminate]. now left.
  - rewrite in_flat_map. split.
    + intros ([x l'] & H1 & H2). cbn [fst snd] in H2. apply in_map_iff in H2. destruct H2 as (q & <- & H2).
      apply in_picks in H1. destruct H1 as (l1 & l2 & -> & ->).
      pose proof (NoDup_remove _ _ _ Hl) as [Hn Hx].
      apply IH in H2; auto. destruct H2 as (E & Hq & Hi). cbn. repeat split; auto.
      * constructor; auto.
      * intros y [->|Hy]; [apply in_or_app; right; now left|].
        specialize (Hi _ Hy). apply in_app_or in Hi. apply in_or_app. destruct Hi; auto. right. now right.
    + intros (E & Hp & Hi). destruct p as [|x q]; [discriminate|]. cbn in E. injection E as E.
      assert (Hx : In x l) by (apply Hi; now left). apply in_split in Hx. destruct Hx as (l1 & l2 & ->).
      exists (x, l1 ++ l2). split; [apply in_picks; eauto|]. cbn [fst snd]. apply in_map.
      pose proof (NoDup_remove _ _ _ Hl) as [Hn Hx]. inversion Hp; subst. apply IH; auto.
      repeat split; auto. intros y Hy. assert (Hy' : In y (l1 ++ x :: l2)) by (apply Hi; now right).
      apply in_app_or in Hy'. apply in_or_app. destruct Hy' as [?|[->|?]]; auto. contradiction.
Qed.

Lemma in_permutations_seq n r p : In p (permutations r (seq 0 n)) <-> assignment n r p.
Proof.
  rewrite in_permutations by apply seq_NoDup. unfold assignment, incl. rewrite Forall_forall.
  split; intros (H1 & H2 & H3); repeat split; auto; intros x Hx; specialize (H3 x Hx); rewrite in_seq in *; lia.
Qed.

Lemma SSorted_app {A} (R : A -> A -> Prop) l1 l2 :
  StronglySorted R l1 -> StronglySorted R l2 -> (forall x y, In x l1 -> In y l2 -> R x y) ->
  StronglySorted R (l1 ++ l2).
Proof.
  induction 1 as [|a l1 H IH Ha]; cbn; intros H2 Hc; auto.
  constructor.
  - apply IH; auto; intros; apply Hc; auto; now right.
  - apply Forall_app. split; auto. apply Forall_forall. intros y Hy. apply Hc; [now left|auto].
Qed.

Lemma SSorted_flat_map {A B} (R : B -> B -> Prop) (f : A -> list B) l :
  (forall x, In x l -> StronglySorted R (f x)) ->
  StronglySorted (fun x y => forall a b, In a (f x) -> In b (f y) -> R a b) l ->
  StronglySorted R (flat_map f l).
Proof.
  intros Hf H. induction H as [|x l H IH Hx]; cbn; [constructor|].
  apply SSorted_app.
  - apply Hf. now left.
  - apply IH. intros; apply Hf; now right.
  - intros a b Ha Hb. apply in_flat_map in Hb. destruct Hb as (y & Hy & Hb).
    rewrite Forall_forall in Hx. eapply Hx; eauto.
Qed.

Lemma SSorted_map {A B} (R : B -> B -> Prop) (f : A -> B) l :
  StronglySorted (fun x y => R (f x) (f y)) l -> StronglySorted R (map f l).
Proof. induction 1; cbn; constructor; auto. apply Forall_map. auto. Qed.

Lemma SSorted_impl {A} (R Q : A -> A -> Prop) l :
  (forall x y, In x l -> In y l -> R x y -> Q x y) -> StronglySorted R l -> StronglySorted Q l.
Proof.
  intros H Hs. revert H. induction Hs as [|x l Hs IH Hx]; intros H; constructor.
  - apply IH. intros; apply H; auto; now right.
  - rewrite Forall_forall in *. intros y Hy. apply H; [now left|now right|auto].
Qed.

Lemma picks_sorted l : StronglySorted lt l ->
  StronglySorted (fun a b => fst a < fst b) (picks l) /\
  Forall (fun a => StronglySorted lt (snd a) /\ In (fst a) l) (picks l).
Proof.
  induction 1 as [|x l H [IH1 IH2] Hx]; cbn [picks].
  - split; constructor.
  - split.
    + constructor.
      * apply SSorted_map. exact IH1.
      * apply Forall_map. eapply Forall_impl; [|exact IH2]. intros [y r] [_ Hy]. cbn in *.
        rewrite Forall_forall in Hx. auto.
    + constructor; cbn; [split; auto|].
      apply Forall_map. apply Forall_forall. intros [y r] Hy. cbn.
      rewrite Forall_forall in IH2. pose proof (IH2 _ Hy) as [A B]. cbn in *. split; auto.
      constructor; auto. apply in_picks in Hy. destruct Hy as (l1 & l2 & -> & ->).
      rewrite Forall_app in *. destruct Hx as [? Hx]. inversion Hx; auto.
Qed.

Lemma permutations_sorted r : forall l, StronglySorted lt l -> StronglySorted lex_lt (permutations r l).
Proof.
  induction r as [|r IH]; intros l Hl; cbn [permutations].
  - constructor; constructor.
  - destruct (picks_sorted Hl) as [H1 H2]. apply SSorted_flat_map.
    + intros [x l'] Hx. cbn [fst snd]. rewrite Forall_forall in H2. destruct (H2 _ Hx) as [H3 _]. cbn in H3.
      apply SSorted_map. eapply SSorted_impl; [|apply IH; exact H3]. intros p q _ _ H. cbn. right. auto.
    + eapply SSorted_impl; [|exact H1]. intros [x lx] [y ly] _ _ Hlt a b Ha Hb. cbn [fst snd] in *.
      apply in_map_iff in Ha, Hb. destruct Ha as (a' & <- & _), Hb as (b' & <- & _). cbn. now left.
Qed.

Lemma seq_sorted n a : StronglySorted lt (seq a n).
Proof.
  revert a. induction n as [|n IH]; intros a; cbn; constructor; auto.
  apply Forall_forall. intros x Hx. apply in_seq in Hx. lia.
Qed.

Lemma lex_lt_irrefl p : ~ lex_lt p p.
Proof. induction p as [|x p IH]; cbn; [tauto|]. intros [H|[_ H]]; [lia|auto]. Qed.
Lemma lex_lt_trans p : forall q s, lex_lt p q -> lex_lt q s -> lex_lt p s.
Proof.
  induction p as [|x p IH]; intros [|y q] [|z s]; cbn; try tauto.
  intros [H|[-> H]] [H'|[-> H']]; auto; try (left; lia). right. eauto.
Qed.
Lemma lex_lt_total p : forall q, length p = length q -> lex_lt p q \/ p = q \/ lex_lt q p.
Proof.
  induction p as [|x p IH]; intros [|y q]; cbn; try discriminate; auto.
  intros E. injection E as E. destruct (lt_eq_lt_dec x y) as [[H| ->]|H]; auto.
  destruct (IH q E) as [H|[->|H]]; auto 6.
Qed.

(** The loop keeps the first best score. *)
Definition fms_value (v : option R) : xr := match v with Some s => Fin s | None => NaN end.

Definition fms_inv (val : list nat -> option R) (l : list (list nat)) (acc : xr * option (list nat)) : Prop :=
  match snd acc with
  | None => fst acc = Fin (-1) /\ (forall q, In q l -> val q = None)
  | Some p => exists s, fst acc = Fin s /\ In p l /\ val p = Some s /\
      forall q s', In q l -> val q = Some s' -> (s' <= s)%R /\ (lex_lt q p -> (s' < s)%R)
  end.

Lemma fms_loop score val todo : forall done acc,
  (forall p, In p (done ++ todo) -> score p = Ok (fms_value (val p))) ->
  (forall p s, In p (done ++ todo) -> val p = Some s -> (0 <= s)%R) ->
  StronglySorted lex_lt (done ++ todo) -> fms_inv val done acc ->
  exists acc', foldM (fms_step score) todo acc = Ok acc' /\ fms_inv val (done ++ todo) acc'.
Proof.
  induction todo as [|p todo IH]; intros done acc Hs Hp Hl Hinv; cbn [foldM].
  - exists acc. rewrite app_nil_r. auto.
  - assert (Hin : In p (done ++ p :: todo)) by (apply in_or_app; right; now left).
    unfold fms_step at 1. rewrite (Hs _ Hin). cbn [bind].
    assert (Ea : done ++ p :: todo = (done ++ [p]) ++ todo) by now rewrite <- app_assoc.
    rewrite Ea in Hs, Hp, Hl |- *. apply IH; auto. clear IH.
    assert (Hd : forall q, In q done -> lex_lt q p).
    { intros q Hq. rewrite <- Ea in Hl. clear - Hl Hq. induction done as [|a done IHd]; [destruct Hq|].
      cbn in Hl. inversion Hl as [|? ? H1 H2]; subst. destruct Hq as [->|Hq].
      - rewrite Forall_forall in H2. apply H2. apply in_or_app. right. now left.
      - auto. }
    assert (Hin' : In p ((done ++ [p]) ++ todo)) by now rewrite <- Ea.
    pose proof (fun s => Hp p s Hin') as Hp'.
    unfold fms_inv in *. destruct acc as [m [b|]]; cbn [fst snd] in *.
    + destruct Hinv as (s & -> & Hb & Hvb & Hmax).
      destruct (val p) as [t|] eqn:Et; cbn [fms_value xltb].
      * destruct (Rlt_dec s t) as [Hlt|Hge]; cbn [fst snd].
        -- exists t. split; auto. split; [apply in_or_app; right; now left|]. split; auto.
           intros q s' Hq Hv. apply in_app_or in Hq. destruct Hq as [Hq|[<-|[]]].
           ++ destruct (Hmax _ _ Hq Hv). split; intros; lra.
           ++ rewrite Et in Hv. injection Hv as <-. split; [lra|]. intros H. now apply lex_lt_irrefl in H.
        -- exists s. split; auto. split; [apply in_or_app; now left|]. split; auto.
           intros q s' Hq Hv. apply in_app_or in Hq. destruct Hq as [Hq|[<-|[]]]; auto.
           rewrite Et in Hv. injection Hv as <-. split; [lra|]. intros H.
           exfalso. apply (@lex_lt_irrefl p). eapply lex_lt_trans; eauto.
      * cbn [fst snd]. exists s. split; auto. split; [apply in_or_app; now left|]. split; auto.
        intros q s' Hq Hv. apply in_app_or in Hq. destruct Hq as [Hq|[<-|[]]]; auto. congruence.
    + destruct Hinv as (-> & Hnone).
      destruct (val p) as [t|] eqn:Et; cbn [fms_value xltb].
      * specialize (Hp' t eq_refl). destruct (Rlt_dec (-1) t) as [Hlt|Hge]; [|lra]. cbn [fst snd].
        exists t. split; auto. split; [apply in_or_app; right; now left|]. split; auto.
        intros q s' Hq Hv. apply in_app_or in Hq. destruct Hq as [Hq|[<-|[]]].
        -- rewrite Hnone in Hv by auto. discriminate.
        -- rewrite Et in Hv. injection Hv as <-. split; [lra|]. intros H. now apply lex_lt_irrefl in H.
      * cbn [fst snd]. split; auto. intros q Hq. apply in_app_or in Hq. destruct Hq as [Hq|[<-|[]]]; auto.
Qed.
