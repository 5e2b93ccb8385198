(** Checkpoint names: injectivity and order. *)
From Coq Require Import Sorted Permutation.
From Verif Require Export StorageFacts Decomposer.
Set Implicit Arguments.
Unset Strict Implicit.
Local Open Scope nat_scope.

Lemma ckpt_name_inj a b : ckpt_name a = ckpt_name b -> a = b.
Proof. unfold ckpt_name. intros H. apply append_inj in H. now apply fmt_int_inj in H. Qed.

Lemma compare_append p s1 s2 : String.compare (p ++ s1)%string (p ++ s2)%string = String.compare s1 s2.
Proof.
  induction p as [|c p IH]; [reflexivity|]. cbn [String.append String.compare].
  assert (H : Ascii.compare c c = Eq) by (unfold Ascii.compare; apply N.compare_refl).
  now rewrite H.
Qed.

Lemma ckpt_name_compare a b : (0 <= a < 100000)%Z -> (0 <= b < 100000)%Z ->
  String.compare (ckpt_name a) (ckpt_name b) = (a ?= b)%Z.
Proof.
  intros Ha Hb. unfold ckpt_name. rewrite compare_append. unfold fmt_int.
  assert (E1 : (a <? 0)%Z = false) by (apply Z.ltb_ge; lia).
  assert (E2 : (b <? 0)%Z = false) by (apply Z.ltb_ge; lia). rewrite E1, E2.
  rewrite fmt_nat_compare.
  - rewrite <- N2Z.inj_compare, !Z2N.id by lia. reflexivity.
  - change (10 ^ N.of_nat 5)%N with 100000%N. lia.
  - change (10 ^ N.of_nat 5)%N with 100000%N. lia.
Qed.

(** *** The order on strings *)
Definition sle (a b : string) : Prop := String.compare b a <> Lt.
Definition slt (a b : string) : Prop := String.compare a b = Lt.

Lemma acompare_antisym a b : Ascii.compare b a = CompOpp (Ascii.compare a b).
Proof. unfold Ascii.compare. apply N.compare_antisym. Qed.

Lemma acompare_eq a b : Ascii.compare a b = Eq -> a = b.
Proof. unfold Ascii.compare. intros H. apply N.compare_eq in H.
  rewrite <- (ascii_N_embedding a), <- (ascii_N_embedding b). now rewrite H. Qed.

Lemma acompare_refl a : Ascii.compare a a = Eq.
Proof. apply N.compare_refl. Qed.

Lemma slt_trans : forall a b c, slt a b -> slt b c -> slt a c.
Proof.
  unfold slt. induction a as [|x a IH]; intros [|y b] [|z c]; cbn [String.compare]; try congruence.
  destruct (Ascii.compare x y) eqn:Exy; try congruence.
  - apply acompare_eq in Exy as ->. destruct (Ascii.compare y z) eqn:Eyz; try congruence; eauto.
  - intros _. destruct (Ascii.compare y z) eqn:Eyz; try congruence.
    + intros _. apply acompare_eq in Eyz as ->. now rewrite Exy.
    + intros _. replace (Ascii.compare x z) with Lt; [reflexivity|].
      unfold Ascii.compare in *. symmetry. rewrite N.compare_lt_iff in *. lia.
Qed.

Lemma slt_irrefl a : ~ slt a a.
Proof. unfold slt. induction a as [|x a IH]; cbn [String.compare]; [discriminate|]. now rewrite acompare_refl. Qed.

Lemma sle_cases a b : sle a b -> slt a b \/ a = b.
Proof.
  unfold sle, slt. rewrite String.compare_antisym. destruct (String.compare a b) eqn:E; cbn; intros H.
  - right. now apply String.compare_eq_iff.
  - now left.
  - congruence.
Qed.
Lemma slt_sle a b : slt a b -> sle a b.
Proof. unfold sle, slt. rewrite (String.compare_antisym b a). intros ->. cbn. discriminate. Qed.
Lemma sle_refl a : sle a a. Proof. unfold sle. apply slt_irrefl. Qed.
Lemma sle_trans a b c : sle a b -> sle b c -> sle a c.
Proof.
  intros H1 H2. apply sle_cases in H1 as [H1| ->]; auto. apply sle_cases in H2 as [H2| ->]; apply slt_sle; auto.
  eapply slt_trans; eauto.
Qed.
Lemma sle_antisym a b : sle a b -> sle b a -> a = b.
Proof.
  intros H1 H2. apply sle_cases in H1 as [H1|]; auto. apply sle_cases in H2 as [H2|]; auto.
  exfalso. eapply slt_irrefl, slt_trans; eauto.
Qed.

(** *** Insertion sort *)
Lemma insert_perm s l : Permutation (s :: l) (insert_sorted s l).
Proof.
  induction l as [|t l IH]; cbn [insert_sorted]; auto. destruct (String.ltb t s); auto.
  rewrite perm_swap. now constructor.
Qed.
Lemma py_sorted_perm l : Permutation l (py_sorted l).
Proof. induction l as [|a l IH]; cbn [py_sorted fold_right]; auto.
  etransitivity; [|apply insert_perm]. now constructor. Qed.

Lemma ltb_spec t s : if String.ltb t s then slt t s else sle s t.
Proof. unfold String.ltb, slt, sle. destruct (String.compare t s); congruence. Qed.

Lemma insert_sorted_ok s l : StronglySorted sle l -> StronglySorted sle (insert_sorted s l).
Proof.
  induction 1 as [|t l Hl IH Hf]; cbn [insert_sorted].
  - repeat constructor.
  - pose proof (ltb_spec t s) as Hlt. destruct (String.ltb t s).
    + constructor; auto. rewrite Forall_forall in *. intros x Hx.
      apply Permutation_in with (l' := s :: l) in Hx; [|symmetry; apply insert_perm].
      destruct Hx as [<-|Hx]; auto. now apply slt_sle.
    + constructor; [constructor; auto|]. constructor; auto.
      rewrite Forall_forall in *. intros x Hx. eapply sle_trans; eauto.
Qed.
Lemma py_sorted_sorted l : StronglySorted sle (py_sorted l).
Proof. induction l; cbn [py_sorted fold_right]; [constructor|]. now apply insert_sorted_ok. Qed.

Lemma filter_sorted {A} (R : A -> A -> Prop) p l : StronglySorted R l -> StronglySorted R (filter p l).
Proof.
  induction 1 as [|t l Hl IH Hf]; cbn [filter]; [constructor|]. destruct (p t); auto.
  constructor; auto. rewrite Forall_forall in *. intros x Hx. apply filter_In in Hx as [Hx _]. auto.
Qed.

Lemma filter_perm {A} (p : A -> bool) l l' : Permutation l l' -> Permutation (filter p l) (filter p l').
Proof.
  induction 1; cbn [filter]; auto.
  - destruct (p x); auto.
  - destruct (p x), (p y); auto. apply perm_swap.
  - etransitivity; eauto.
Qed.

Lemma sorted_unique l : forall l', StronglySorted sle l -> StronglySorted sle l' -> Permutation l l' -> l = l'.
Proof.
  induction l as [|a l IH]; intros l' H1 H2 HP.
  - apply Permutation_nil in HP. congruence.
  - destruct l' as [|b l']; [symmetry in HP; apply Permutation_nil in HP; discriminate|].
    inversion H1 as [|? ? S1 F1]; inversion H2 as [|? ? S2 F2]; subst. rewrite Forall_forall in *.
    assert (E : a = b).
    { apply sle_antisym.
      - assert (Hb : In b (a :: l)) by (eapply Permutation_in; [symmetry; exact HP|now left]).
        destruct Hb as [->|Hb]; [apply sle_refl|auto].
      - assert (Ha : In a (b :: l')) by (eapply Permutation_in; [exact HP|now left]).
        destruct Ha as [->|Ha]; [apply sle_refl|auto]. }
    subst. f_equal. apply IH; auto. eapply Permutation_cons_inv; eauto.
Qed.

Lemma iter_lemma f its :
  (forall i, In i its -> (0 <= i < 100000)%Z) -> StronglySorted Z.lt its ->
  Permutation (filter (String.prefix "checkpoint") (file_names f)) (map ckpt_name its) ->
  iter_checkpoints f = map ckpt_name its.
Proof.
  intros Hr Hs HP. apply sorted_unique.
  - apply filter_sorted, py_sorted_sorted.
  - clear HP. induction Hs as [|a l Hl IH Hf]; cbn [map]; constructor.
    + apply IH. intros; apply Hr; now right.
    + rewrite Forall_forall in *. intros x Hx. apply in_map_iff in Hx as (b & <- & Hb).
      apply slt_sle. unfold slt. rewrite ckpt_name_compare.
      * apply Z.compare_lt_iff. auto.
      * apply Hr. now left.
      * apply Hr. now right.
  - etransitivity; [|exact HP]. apply filter_perm. symmetry. apply py_sorted_perm.
Qed.
