(** Facts about association lists, steps and integer formatting. *)
From Verif Require Export Storage KruskalFacts.
From Coq Require Import Permutation Sorted.
Set Implicit Arguments.
Unset Strict Implicit.
Local Open Scope nat_scope.

(** ** Association lists *)
Section Assoc.
Context {V : Type}.
Implicit Types l : list (string * V).

Lemma lookup_set_same k v l : lookup k (assoc_set k v l) = Some v.
Proof.
  induction l as [|[k' v'] l IH]; cbn; [now rewrite String.eqb_refl|].
  destruct (String.eqb k k') eqn:E; cbn; [now rewrite String.eqb_refl|]. now rewrite E.
Qed.
Lemma lookup_set_other k k' v l : k <> k' -> lookup k (assoc_set k' v l) = lookup k l.
Proof.
  intros H. induction l as [|[k1 v1] l IH]; cbn.
  - apply String.eqb_neq in H. now rewrite H.
  - destruct (String.eqb_spec k' k1) as [<-|H1]; cbn.
    + apply String.eqb_neq in H. now rewrite H.
    + now rewrite IH.
Qed.
Lemma lookup_app k l1 l2 :
  lookup k (l1 ++ l2) = match lookup k l1 with Some v => Some v | None => lookup k l2 end.
Proof. induction l1 as [|[k' v'] l1 IH]; cbn; auto. destruct (String.eqb k k'); auto. Qed.
Lemma lookup_None_iff k l : lookup k l = None <-> ~ In k (map fst l).
Proof.
  induction l as [|[k' v'] l IH]; cbn; [tauto|].
  destruct (String.eqb_spec k k') as [->|H].
  - split; [discriminate|]. intros H. exfalso. apply H. now left.
  - rewrite IH. split; intros H1; [intros [H2|H2]; [congruence|auto]|auto].
Qed.
Lemma lookup_map k (f : string -> string) l : (forall a b, f a = f b -> a = b) ->
  lookup (f k) (map (fun p => (f (fst p), snd p)) l) = lookup k l.
Proof.
  intros Hf. induction l as [|[k' v'] l IH]; cbn; auto.
  destruct (String.eqb_spec k k') as [->|H].
  - now rewrite String.eqb_refl.
  - destruct (String.eqb_spec (f k) (f k')) as [E|_]; auto. now apply Hf in E.
Qed.
Lemma map_fst_set k v l : In k (map fst l) -> map fst (assoc_set k v l) = map fst l.
Proof.
  induction l as [|[k' v'] l IH]; cbn; [tauto|]. intros H.
  destruct (String.eqb_spec k k') as [<-|Hn]; cbn; auto. f_equal. apply IH. destruct H; [congruence|auto].
Qed.
End Assoc.

(** ** Running steps *)
Lemma run_steps_app {G} (l1 l2 : list (G -> res G)) g :
  run_steps (l1 ++ l2) g =
  match run_steps l1 g with (g', None) => run_steps l2 g' | r => r end.
Proof. revert g. induction l1 as [|s l1 IH]; intros g; cbn; auto. destruct (s g); auto. Qed.

Lemma run_steps_firstn_app {G} n (l1 l2 : list (G -> res G)) g :
  run_steps (firstn n (l1 ++ l2)) g =
  if Nat.leb n (length l1) then run_steps (firstn n l1) g
  else match run_steps l1 g with (g', None) => run_steps (firstn (n - length l1) l2) g' | r => r end.
Proof.
  rewrite firstn_app. destruct (Nat.leb_spec n (length l1)).
  - replace (n - length l1) with 0 by lia. cbn. now rewrite app_nil_r.
  - rewrite firstn_all2 by lia. apply run_steps_app.
Qed.

(** ** Digits *)
Definition dval_of (l : list N) (a : N) : N := fold_left (fun a d => (10 * a + d)%N) l a.
Definition is_digit (d : N) : Prop := (d < 10)%N.

Lemma digits_from_val fuel : forall n acc, (n < 2 ^ N.of_nat fuel)%N ->
  dval_of (digits_from fuel n acc) 0 = dval_of acc n.
Proof.
  induction fuel as [|fuel IH]; intros n acc Hn.
  - cbn [dval_of digits_from]. f_equal. apply N.lt_1_r in Hn. now rewrite Hn.
  - cbn [digits_from]. pose proof (N.div_mod' n 10) as Hd.
    destruct (N.eqb_spec (n / 10) 0) as [E|E].
    + cbn [dval_of fold_left]. rewrite E in Hd. unfold dval_of. f_equal. lia.
    + rewrite IH.
      * unfold dval_of. cbn [fold_left]. f_equal. lia.
      * rewrite Nat2N.inj_succ, N.pow_succ_r' in Hn. apply N.div_lt_upper_bound; lia.
Qed.

Lemma size_lt n : (n < 2 ^ N.size n)%N.
Proof. destruct n; [reflexivity|]. apply N.size_gt. Qed.

Lemma digits_val n : dval_of (digits n) 0 = n.
Proof.
  unfold digits. rewrite digits_from_val; auto.
  rewrite Nat2N.inj_succ, N2Nat.id, N.pow_succ_r'. pose proof (size_lt n). lia.
Qed.

Lemma digits_from_digit fuel : forall n acc, Forall is_digit acc -> Forall is_digit (digits_from fuel n acc).
Proof.
  induction fuel as [|fuel IH]; intros n acc H; cbn [digits_from]; auto.
  assert (H' : Forall is_digit ((n mod 10)%N :: acc)).
  { constructor; auto. unfold is_digit. apply N.mod_lt. lia. }
  destruct (n / 10 =? 0)%N; auto.
Qed.
Lemma digits_digit n : Forall is_digit (digits n).
Proof. apply digits_from_digit. constructor. Qed.

Lemma digits_from_length fuel k : forall n acc, (n < 10 ^ N.of_nat (S k))%N ->
  length (digits_from fuel n acc) <= S k + length acc.
Proof.
  revert fuel. induction k as [|k IH]; intros fuel n acc H.
  - destruct fuel; cbn [digits_from]; [lia|].
    replace (n / 10)%N with 0%N by (symmetry; apply N.div_small; exact H). cbn. lia.
  - destruct fuel as [|fuel]; cbn [digits_from]; [lia|].
    destruct (n / 10 =? 0)%N; [cbn; lia|].
    etransitivity; [apply IH|cbn; lia].
    rewrite Nat2N.inj_succ, N.pow_succ_r' in H. apply N.div_lt_upper_bound; lia.
Qed.
Lemma digits_from_length_lb fuel : forall n acc, (0 < fuel) -> length acc < length (digits_from fuel n acc).
Proof.
  induction fuel as [|fuel IH]; intros n acc H; [lia|]. cbn [digits_from].
  destruct (n / 10 =? 0)%N; [cbn; lia|].
  destruct fuel; [cbn; lia|]. etransitivity; [|apply IH; lia]. cbn. lia.
Qed.
Lemma digits_nonempty n : 0 < length (digits n).
Proof. unfold digits. apply (@digits_from_length_lb _ n []). lia. Qed.

Lemma zero_pad_val w l : dval_of (zero_pad w l) 0 = dval_of l 0.
Proof.
  unfold zero_pad, dval_of. rewrite fold_left_app. f_equal. induction (w - length l); cbn; auto.
Qed.
Lemma zero_pad_digit w l : Forall is_digit l -> Forall is_digit (zero_pad w l).
Proof.
  intros H. unfold zero_pad. apply Forall_app. split; auto. apply Forall_forall. intros x Hx.
  apply repeat_spec in Hx. subst. unfold is_digit. lia.
Qed.
Lemma zero_pad_length w n : (n < 10 ^ N.of_nat (S w))%N -> length (zero_pad (S w) (digits n)) = S w.
Proof.
  intros H. unfold zero_pad. rewrite app_length, repeat_length.
  pose proof (@digits_from_length (S (N.to_nat (N.size n))) w n [] H) as H1. fold (digits n) in H1. cbn [length] in H1. lia.
Qed.

Lemma digit_char_val d : is_digit d -> N_of_ascii (digit_char d) = (48 + d)%N.
Proof. intros H. unfold digit_char, is_digit in *. apply N_ascii_embedding. lia. Qed.

Lemma string_of_digits_inj l1 : forall l2, Forall is_digit l1 -> Forall is_digit l2 ->
  string_of_digits l1 = string_of_digits l2 -> l1 = l2.
Proof.
  induction l1 as [|d1 l1 IH]; intros [|d2 l2] H1 H2 E; cbn in E; try discriminate; auto.
  inversion_clear H1 as [|? ? Hd1 Hl1]. inversion_clear H2 as [|? ? Hd2 Hl2]. injection E as E1 E2.
  f_equal; [|now apply IH]. apply (f_equal N_of_ascii) in E1. rewrite !digit_char_val in E1 by auto. lia.
Qed.

Lemma fmt_nat_inj w n m : fmt_nat w n = fmt_nat w m -> n = m.
Proof.
  intros E. apply string_of_digits_inj in E; try (apply zero_pad_digit, digits_digit).
  apply (f_equal (fun l => dval_of l 0)) in E. rewrite !zero_pad_val in E.
  now rewrite !digits_val in E.
Qed.

Lemma fmt_nat_head w n : exists d s, is_digit d /\ fmt_nat w n = String (digit_char d) s.
Proof.
  unfold fmt_nat. pose proof (zero_pad_digit w (digits_digit n)) as H.
  destruct (zero_pad w (digits n)) as [|d l] eqn:E.
  - apply (f_equal (@length N)) in E. unfold zero_pad in E. rewrite app_length in E. cbn [length] in E.
    pose proof (digits_nonempty n). lia.
  - inversion_clear H. exists d, (string_of_digits l). auto.
Qed.

Lemma fmt_int_inj w z1 z2 : fmt_int w z1 = fmt_int w z2 -> z1 = z2.
Proof.
  assert (Hm : forall w' n s, fmt_nat w' n <> String "-" s).
  { intros w' n s E. destruct (fmt_nat_head w' n) as (d & s' & Hd & E'). rewrite E' in E. injection E as E _.
    apply (f_equal N_of_ascii) in E. rewrite digit_char_val in E by auto. change (N_of_ascii "-") with 45%N in E. lia. }
  unfold fmt_int. intros E.
  destruct (Z.ltb_spec z1 0) as [H1|H1], (Z.ltb_spec z2 0) as [H2|H2].
  - injection E as E. apply fmt_nat_inj in E. lia.
  - symmetry in E. now apply Hm in E.
  - now apply Hm in E.
  - apply fmt_nat_inj in E. lia.
Qed.

(** ** Order of padded numbers *)
Lemma dval_of_app l a : dval_of l a = (a * 10 ^ N.of_nat (length l) + dval_of l 0)%N.
Proof.
  revert a. induction l as [|d l IH]; intros a; cbn [dval_of fold_left length]; [cbn; lia|].
  fold (dval_of l (10 * a + d)). fold (dval_of l (10 * 0 + d)). rewrite IH, (IH (10 * 0 + d)%N).
  rewrite Nat2N.inj_succ, N.pow_succ_r'. lia.
Qed.
Lemma dval_of_lt l : Forall is_digit l -> (dval_of l 0 < 10 ^ N.of_nat (length l))%N.
Proof.
  induction 1 as [|d l Hd Hl IH]; [reflexivity|].
  change (dval_of (d :: l) 0) with (dval_of l (10 * 0 + d)). rewrite dval_of_app.
  cbn [length]. rewrite Nat2N.inj_succ, N.pow_succ_r'. unfold is_digit in Hd. nia.
Qed.

Lemma ascii_compare_digits d1 d2 : is_digit d1 -> is_digit d2 ->
  Ascii.compare (digit_char d1) (digit_char d2) = (d1 ?= d2)%N.
Proof.
  intros H1 H2. unfold Ascii.compare. rewrite !digit_char_val by auto.
  destruct (N.compare_spec d1 d2), (N.compare_spec (48 + d1) (48 + d2)); auto; lia.
Qed.

Lemma compare_digits l1 : forall l2, length l1 = length l2 -> Forall is_digit l1 -> Forall is_digit l2 ->
  String.compare (string_of_digits l1) (string_of_digits l2) = (dval_of l1 0 ?= dval_of l2 0)%N.
Proof.
  induction l1 as [|d1 l1 IH]; intros [|d2 l2] Hl H1 H2; cbn in Hl; try lia; [reflexivity|].
  inversion_clear H1 as [|? ? Hd1 Hl1]. inversion_clear H2 as [|? ? Hd2 Hl2].
  cbn [string_of_digits String.compare]. rewrite ascii_compare_digits by auto.
  change (dval_of (d1 :: l1) 0) with (dval_of l1 (10 * 0 + d1)).
  change (dval_of (d2 :: l2) 0) with (dval_of l2 (10 * 0 + d2)).
  rewrite (dval_of_app l1), (dval_of_app l2).
  assert (Hlen : length l1 = length l2) by lia. rewrite Hlen.
  pose proof (dval_of_lt Hl1) as B1. pose proof (dval_of_lt Hl2) as B2. rewrite Hlen in B1.
  rewrite IH by auto.
  set (p := (10 ^ N.of_nat (length l2))%N) in *. set (v1 := dval_of l1 0) in *. set (v2 := dval_of l2 0) in *.
  destruct (N.compare_spec d1 d2) as [<-|H|H].
  - destruct (N.compare_spec v1 v2); symmetry; [apply N.compare_eq_iff|apply N.compare_lt_iff|apply N.compare_gt_iff]; lia.
  - symmetry. apply N.compare_lt_iff. nia.
  - symmetry. apply N.compare_gt_iff. nia.
Qed.

Lemma fmt_nat_compare w n m : (n < 10 ^ N.of_nat (S w))%N -> (m < 10 ^ N.of_nat (S w))%N ->
  String.compare (fmt_nat (S w) n) (fmt_nat (S w) m) = (n ?= m)%N.
Proof.
  intros Hn Hm. unfold fmt_nat. rewrite compare_digits.
  - rewrite !zero_pad_val. now rewrite !digits_val.
  - now rewrite !zero_pad_length.
  - apply zero_pad_digit, digits_digit.
  - apply zero_pad_digit, digits_digit.
Qed.

Lemma append_inj p s1 s2 : (p ++ s1 = p ++ s2)%string -> s1 = s2.
Proof. induction p; cbn; auto. intros H. injection H. auto. Qed.

Lemma fm_name_inj i j : fm_name i = fm_name j -> i = j.
Proof. intros H. apply append_inj, fmt_nat_inj in H. lia. Qed.
Lemma B_name_inj i j : B_name i = B_name j -> i = j.
Proof. intros H. apply append_inj, fmt_nat_inj in H. lia. Qed.
Lemma pm_name_inj i j : pm_name i = pm_name j -> i = j.
Proof. intros H. apply append_inj, fmt_nat_inj in H. lia. Qed.

Lemma map_nth_seq {A} (d : A) l : map (fun i => nth i l d) (seq 0 (length l)) = l.
Proof.
  induction l as [|a l IH]; cbn; auto. f_equal. rewrite <- seq_shift, map_map. exact IH.
Qed.

(** ** Storing a sequence of arrays *)
Definition named (name : nat -> string) (from : nat) (l : list nd) : list (string * dval) :=
  map (fun p => (name (fst p), DArr (snd p))) (combine (seq from (length l)) l).

Lemma put_arrays_gen name : (forall i j, name i = name j -> i = j) -> forall l from g,
  (forall i, from <= i < from + length l -> lookup (name i) (g_data g) = None) ->
  run_steps (map (fun p => put_data (name (fst p)) (DArr (snd p))) (combine (seq from (length l)) l)) g =
  ({| g_attrs := g_attrs g; g_data := g_data g ++ named name from l |}, None).
Proof.
  intros Hn. induction l as [|a l IH]; intros from g Hg.
  - cbn. destruct g; cbn. now rewrite app_nil_r.
  - cbn [length seq combine map run_steps fst snd]. unfold put_data at 1. rewrite (Hg from) by (cbn; lia).
    rewrite IH.
    + cbn [g_attrs g_data]. unfold named. cbn [length seq combine map fst snd]. now rewrite <- app_assoc.
    + intros i Hi. cbn [g_data]. rewrite lookup_app, Hg by (cbn; lia). cbn.
      destruct (String.eqb_spec (name i) (name from)) as [E|_]; auto. apply Hn in E. lia.
Qed.
Lemma put_arrays_ok name l g : (forall i j, name i = name j -> i = j) ->
  (forall i, i < length l -> lookup (name i) (g_data g) = None) ->
  run_steps (put_arrays name l) g =
  ({| g_attrs := g_attrs g; g_data := g_data g ++ named name 0 l |}, None).
Proof. intros Hn Hg. apply put_arrays_gen; auto. intros i Hi. apply Hg. lia. Qed.

Lemma lookup_named name : (forall i j, name i = name j -> i = j) -> forall l from i, i < length l ->
  lookup (name (from + i)) (named name from l) = Some (DArr (nth i l m0)).
Proof.
  intros Hn. induction l as [|a l IH]; intros from i Hi; cbn in Hi; [lia|].
  unfold named. cbn [length seq combine map lookup fst snd]. destruct i.
  - now rewrite Nat.add_0_r, String.eqb_refl.
  - destruct (String.eqb_spec (name (from + S i)) (name from)) as [E|_]; [apply Hn in E; lia|].
    replace (from + S i) with (S from + i) by lia. apply IH. lia.
Qed.
Lemma lookup_named_other name k l from : (forall i, k <> name i) -> lookup k (named name from l) = None.
Proof.
  intros H. apply lookup_None_iff. unfold named. rewrite map_map. cbn. intros HI. apply in_map_iff in HI as (p & E & _).
  now apply (H (fst p)).
Qed.

Lemma load_named name l g : (forall i j, name i = name j -> i = j) ->
  (forall i, i < length l -> lookup (name i) (g_data g) = Some (DArr (nth i l m0))) ->
  mapM (fun i => load_array (name i) g) (py_range (Z.of_nat (length l))) = Ok l.
Proof.
  intros Hn H. unfold py_range. rewrite Nat2Z.id.
  rewrite <- (map_nth_seq m0 l) at 2.
  apply mapM_ok. intros i Hi. apply in_seq in Hi. unfold load_array, get_data. rewrite H by lia. reflexivity.
Qed.

Lemma run_steps_err {G} (l : list (G -> res G)) (P : G -> Prop) e s : In s l ->
  (forall g, P g -> s g = Err e) ->
  (forall s' g g', In s' l -> P g -> s' g = Ok g' -> P g') ->
  (forall s' g e', In s' l -> P g -> s' g = Err e' -> e' = e) ->
  forall g, P g -> snd (run_steps l g) = Some e.
Proof.
  induction l as [|s0 l IH]; intros HI Hs HP HE g Hg; [contradiction|]. cbn [run_steps].
  destruct (s0 g) as [g'|e'] eqn:E.
  - destruct HI as [->|HI]; [rewrite Hs in E by auto; discriminate|].
    apply IH; auto.
    + intros s' g1 g2 Hin. apply HP. now right.
    + intros s' g1 e1 Hin. apply HE. now right.
    + apply (HP s0 g g'); auto. now left.
  - cbn. f_equal. apply (HE s0 g e'); auto. now left.
Qed.
