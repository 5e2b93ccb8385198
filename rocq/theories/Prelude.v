(** Common ground: Python exceptions as values, Python list operations,
    finite sums and products over lists, elementary list lemmas. *)
From Coq Require Export List Arith ZArith Lia Bool Reals Lra.
Export ListNotations.
Open Scope R_scope.
Open Scope nat_scope.

Set Implicit Arguments.

(** Python exceptions that the modelled code can raise. [NameExists] stands for
    the error h5py raises when a link name already exists in a group
    (ValueError or RuntimeError, depending on the h5py version).
    [WarningExc] is [raise Warning(...)], which the code uses as an exception.
    [NonFinite] is not a Python exception: it marks the runs in which NumPy would
    put NaN or an infinity into an array, which arrays of this model cannot hold. *)
Inductive exn : Type :=
| ValueError | TypeError | IndexError | AttributeError | KeyError
| ZeroDivisionError | UnboundLocalError | AssertionError
| NotImplementedError | WarningExc | NameExists | LinAlgError | OSError
| NonFinite.

Inductive res (A : Type) : Type :=
| Ok (a : A)
| Err (e : exn).
Arguments Ok {A} a.
Arguments Err {A} e.

Definition bind {A B : Type} (m : res A) (k : A -> res B) : res B :=
  match m with Ok a => k a | Err e => Err e end.

Notation "'do' x <- m ; k" := (bind m (fun x => k))
  (at level 200, x pattern, m at level 100, k at level 200, right associativity).

(** Run a Python [for x in l: acc = f acc x] loop whose body may raise. *)
Fixpoint foldM {A B : Type} (f : B -> A -> res B) (l : list A) (b : B) : res B :=
  match l with
  | [] => Ok b
  | x :: l' => do b' <- f b x; foldM f l' b'
  end.

(** A Python list comprehension whose element expression may raise. *)
Fixpoint mapM {A B : Type} (f : A -> res B) (l : list A) : res (list B) :=
  match l with
  | [] => Ok []
  | x :: l' => do y <- f x; do ys <- mapM f l'; Ok (y :: ys)
  end.

(** Python index normalisation: [i] may be negative, counting from the end. *)
Definition py_index (n : nat) (i : Z) : option nat :=
  if (0 <=? i)%Z && (i <? Z.of_nat n)%Z then Some (Z.to_nat i)
  else if (- Z.of_nat n <=? i)%Z && (i <? 0)%Z then Some (Z.to_nat (i + Z.of_nat n))
  else None.

(** Remove / insert / replace the element at a position. *)
Fixpoint remove_at {A : Type} (n : nat) (l : list A) {struct l} : list A :=
  match l, n with
  | [], _ => []
  | _ :: l', O => l'
  | x :: l', S n' => x :: remove_at n' l'
  end.

Fixpoint insert_at {A : Type} (n : nat) (x : A) (l : list A) {struct n} : list A :=
  match n, l with
  | O, _ => x :: l
  | S n', y :: l' => y :: insert_at n' x l'
  | S _, [] => [x]
  end.

Fixpoint replace_at {A : Type} (n : nat) (x : A) (l : list A) {struct l} : list A :=
  match l, n with
  | [], _ => []
  | _ :: l', O => x :: l'
  | y :: l', S n' => y :: replace_at n' x l'
  end.

(** Product of a list of naturals ([np.prod] of a shape). *)
Fixpoint prodl (l : list nat) : nat :=
  match l with [] => 1 | n :: l' => n * prodl l' end.

(** Finite sums and products of reals indexed by a list. *)
Fixpoint sumf {I : Type} (l : list I) (f : I -> R) : R :=
  match l with
  | [] => 0%R
  | i :: l' => (f i + sumf l' f)%R
  end.

Fixpoint prodf {I : Type} (l : list I) (f : I -> R) : R :=
  match l with
  | [] => 1%R
  | i :: l' => (f i * prodf l' f)%R
  end.

(** [sum n f] = sum of [f i] for [i < n]. *)
Notation "'sum' n f" := (sumf (seq 0 n) f) (at level 10, n at level 9, f at level 9).

(** ------------------------------------------------------------------ *)
(** Lemmas *)

Lemma prodl_cons n l : prodl (n :: l) = n * prodl l.
Proof. reflexivity. Qed.

Lemma prodl_app l1 l2 : prodl (l1 ++ l2) = prodl l1 * prodl l2.
Proof. induction l1 as [|n l1 IH]; cbn -[Nat.mul]; [lia|]. rewrite IH. lia. Qed.

Lemma py_index_Some n i k : py_index n i = Some k ->
  k < n /\ ((0 <= i)%Z /\ i = Z.of_nat k \/ (i < 0)%Z /\ (i + Z.of_nat n)%Z = Z.of_nat k).
Proof.
  unfold py_index.
  destruct ((0 <=? i)%Z && (i <? Z.of_nat n)%Z) eqn:E1.
  - intros H; injection H as <-. apply andb_true_iff in E1 as [E1 E2].
    apply Z.leb_le in E1. apply Z.ltb_lt in E2. lia.
  - destruct ((- Z.of_nat n <=? i)%Z && (i <? 0)%Z) eqn:E2; [|discriminate].
    intros H; injection H as <-. apply andb_true_iff in E2 as [E2 E3].
    apply Z.leb_le in E2. apply Z.ltb_lt in E3. lia.
Qed.

Lemma py_index_nat n k : k < n -> py_index n (Z.of_nat k) = Some k.
Proof.
  intros H. unfold py_index.
  replace ((0 <=? Z.of_nat k)%Z) with true by (symmetry; apply Z.leb_le; lia).
  replace ((Z.of_nat k <? Z.of_nat n)%Z) with true by (symmetry; apply Z.ltb_lt; lia).
  cbn. f_equal. lia.
Qed.

Lemma py_index_neg n k : k < n -> py_index n (Z.of_nat k - Z.of_nat n) = Some k.
Proof.
  intros H. unfold py_index.
  replace ((0 <=? Z.of_nat k - Z.of_nat n)%Z) with false by (symmetry; apply Z.leb_gt; lia).
  cbn [andb].
  replace ((- Z.of_nat n <=? Z.of_nat k - Z.of_nat n)%Z) with true by (symmetry; apply Z.leb_le; lia).
  replace ((Z.of_nat k - Z.of_nat n <? 0)%Z) with true by (symmetry; apply Z.ltb_lt; lia).
  cbn. f_equal. lia.
Qed.

Lemma py_index_None n i : (i < - Z.of_nat n \/ Z.of_nat n <= i)%Z -> py_index n i = None.
Proof.
  intros H. unfold py_index.
  destruct ((0 <=? i)%Z && (i <? Z.of_nat n)%Z) eqn:E1.
  { apply andb_true_iff in E1 as [E1 E2]. apply Z.leb_le in E1. apply Z.ltb_lt in E2. lia. }
  destruct ((- Z.of_nat n <=? i)%Z && (i <? 0)%Z) eqn:E2; [|reflexivity].
  apply andb_true_iff in E2 as [E2 E3]. apply Z.leb_le in E2. apply Z.ltb_lt in E3. lia.
Qed.

Section ListOps.
  Context {A : Type}.
  Implicit Types (l : list A) (x d : A).

  Lemma length_remove_at n l : n < length l -> length (remove_at n l) = length l - 1.
  Proof.
    revert n; induction l as [|y l IH]; intros n H; cbn in *; [lia|].
    destruct n; cbn; [lia|]. rewrite IH by lia. lia.
  Qed.

  Lemma length_insert_at n x l : length (insert_at n x l) = S (length l).
  Proof.
    revert l; induction n; intros l; destruct l; cbn; auto.
  Qed.

  Lemma length_replace_at n x l : length (replace_at n x l) = length l.
  Proof.
    revert n; induction l as [|y l IH]; intros n; destruct n; cbn; auto.
  Qed.

  Lemma remove_insert_at n x l : n <= length l -> remove_at n (insert_at n x l) = l.
  Proof.
    revert l; induction n; intros l H; destruct l; cbn in *; try lia; auto.
    now rewrite IHn by lia.
  Qed.

  Lemma nth_insert_at n x l d : n <= length l -> nth n (insert_at n x l) d = x.
  Proof.
    revert l; induction n; intros l H; destruct l; cbn in *; try lia; auto.
    apply IHn; lia.
  Qed.

  Lemma insert_remove_at n l d : n < length l -> insert_at n (nth n l d) (remove_at n l) = l.
  Proof.
    revert n; induction l as [|y l IH]; intros n H; cbn in *; [lia|].
    destruct n; cbn; [reflexivity|]. rewrite IH by lia. reflexivity.
  Qed.

  Lemma nth_replace_at_eq n x l d : n < length l -> nth n (replace_at n x l) d = x.
  Proof.
    revert n; induction l as [|y l IH]; intros n H; cbn in *; [lia|].
    destruct n; cbn; auto. apply IH; lia.
  Qed.

  Lemma nth_replace_at_neq n m x l d : n <> m -> nth m (replace_at n x l) d = nth m l d.
  Proof.
    revert n m; induction l as [|y l IH]; intros n m H; [reflexivity|].
    destruct n as [|n], m as [|m]; cbn; auto; congruence.
  Qed.

  Lemma replace_at_insert n x y l : n <= length l ->
    replace_at n x (insert_at n y l) = insert_at n x l.
  Proof.
    revert l; induction n; intros l H; destruct l; cbn in *; try lia; auto.
    now rewrite IHn by lia.
  Qed.

  Lemma remove_replace_at n x l : remove_at n (replace_at n x l) = remove_at n l.
  Proof.
    revert n; induction l as [|y l IH]; intros n; cbn; auto.
    destruct n; cbn; auto. now rewrite IH.
  Qed.

  Lemma replace_at_same n l d : n < length l -> replace_at n (nth n l d) l = l.
  Proof.
    revert n; induction l as [|y l IH]; intros n H; cbn in *; [lia|].
    destruct n; cbn; auto. now rewrite IH by lia.
  Qed.

  Lemma replace_at_twice n x y l : replace_at n x (replace_at n y l) = replace_at n x l.
  Proof.
    revert n; induction l as [|z l IH]; intros n; cbn; auto.
    destruct n; cbn; auto. now rewrite IH.
  Qed.

  Lemma Forall_remove_at (P : A -> Prop) n l : Forall P l -> Forall P (remove_at n l).
  Proof.
    intros H; revert n; induction H; intros n; cbn; auto.
    destruct n; auto.
  Qed.

  Lemma Forall_replace_at (P : A -> Prop) n x l : Forall P l -> P x -> Forall P (replace_at n x l).
  Proof.
    intros H Hx; revert n; induction H; intros n; cbn; auto.
    destruct n; auto.
  Qed.

  Lemma list_ext l1 l2 d : length l1 = length l2 ->
    (forall i, i < length l1 -> nth i l1 d = nth i l2 d) -> l1 = l2.
  Proof. intros. eapply nth_ext; eauto. Qed.

  Lemma nth_flat_map_const {B : Type} (f : B -> list A) (l : list B) (len i j : nat) (b0 : B) d :
    (forall b, In b l -> length (f b) = len) -> i < length l -> j < len ->
    nth (i * len + j) (flat_map f l) d = nth j (f (nth i l b0)) d.
  Proof.
    revert i; induction l as [|b l IH]; intros i Hl Hi Hj; cbn in *; [lia|].
    destruct i.
    - cbn. rewrite app_nth1; auto. rewrite Hl; auto.
    - rewrite app_nth2; rewrite Hl by auto; [|lia].
      replace (S i * len + j - len) with (i * len + j) by lia.
      apply IH; auto; lia.
  Qed.

  Lemma length_flat_map_const {B : Type} (f : B -> list A) (l : list B) (len : nat) :
    (forall b, In b l -> length (f b) = len) -> length (flat_map f l) = length l * len.
  Proof.
    induction l as [|b l IH]; intros Hl; cbn; auto.
    rewrite app_length, Hl, IH; auto; cbn in *; auto.
  Qed.
End ListOps.

Lemma map_remove_at {A B} (f : A -> B) n l : map f (remove_at n l) = remove_at n (map f l).
Proof. revert n; induction l; intros [|n]; cbn; auto. now rewrite IHl. Qed.

Lemma map_insert_at {A B} (f : A -> B) n x l : map f (insert_at n x l) = insert_at n (f x) (map f l).
Proof. revert l; induction n; intros [|y l]; cbn; auto. now rewrite IHn. Qed.

Lemma map_replace_at {A B} (f : A -> B) n x l : map f (replace_at n x l) = replace_at n (f x) (map f l).
Proof. revert n; induction l; intros [|n]; cbn; auto. now rewrite IHl. Qed.

Lemma combine_remove_at {A B} n (l : list A) (k : list B) : length l = length k ->
  combine (remove_at n l) (remove_at n k) = remove_at n (combine l k).
Proof.
  revert n k; induction l; intros [|n] [|y k] H; cbn in *; auto; try lia.
  now rewrite IHl by lia.
Qed.

Lemma prodl_insert_at n x l : prodl (insert_at n x l) = x * prodl l.
Proof.
  revert l; induction n; intros [|y l]; cbn -[Nat.mul]; auto.
  rewrite IHn. lia.
Qed.

Lemma prodl_remove_at n l : n < length l -> nth n l 0 * prodl (remove_at n l) = prodl l.
Proof.
  revert n; induction l as [|y l IH]; intros [|n] H; cbn -[Nat.mul] in *; try lia.
  rewrite <- (IH n) by lia. lia.
Qed.

(** *** Sums *)
Section Sums.
  Context {I : Type}.
  Implicit Types (l : list I) (f g : I -> R).
  Local Open Scope R_scope.

  Lemma sumf_ext l f g : (forall i, In i l -> f i = g i) -> sumf l f = sumf l g.
  Proof.
    induction l as [|i l IH]; cbn; intros H; auto.
    rewrite H, IH; auto.
  Qed.

  Lemma sumf_app l1 l2 f : sumf (l1 ++ l2) f = sumf l1 f + sumf l2 f.
  Proof. induction l1; cbn; [lra|]. rewrite IHl1; lra. Qed.

  Lemma sumf_plus l f g : sumf l (fun i => f i + g i) = sumf l f + sumf l g.
  Proof. induction l; cbn; [lra|]. rewrite IHl; lra. Qed.

  Lemma sumf_minus l f g : sumf l (fun i => f i - g i) = sumf l f - sumf l g.
  Proof. induction l; cbn; [lra|]. rewrite IHl; lra. Qed.

  Lemma sumf_opp l f : sumf l (fun i => - f i) = - sumf l f.
  Proof. induction l; cbn; [lra|]. rewrite IHl; lra. Qed.

  Lemma sumf_scal_l l c f : sumf l (fun i => c * f i) = c * sumf l f.
  Proof. induction l; cbn; [lra|]. rewrite IHl; lra. Qed.

  Lemma sumf_scal_r l c f : sumf l (fun i => f i * c) = sumf l f * c.
  Proof. induction l; cbn; [lra|]. rewrite IHl; lra. Qed.

  Lemma sumf_zero l f : (forall i, In i l -> f i = 0) -> sumf l f = 0.
  Proof. induction l; cbn; intros H; auto. rewrite H, IHl; auto; lra. Qed.

  Lemma sumf_const l c : sumf l (fun _ => c) = INR (length l) * c.
  Proof. induction l; cbn [sumf length]; [cbn; lra|]. rewrite IHl, S_INR; lra. Qed.

  Lemma sumf_nonneg l f : (forall i, In i l -> 0 <= f i) -> 0 <= sumf l f.
  Proof.
    induction l; cbn; intros H; [lra|].
    assert (0 <= f a) by auto. assert (0 <= sumf l f) by auto. lra.
  Qed.

  Lemma sumf_le l f g : (forall i, In i l -> f i <= g i) -> sumf l f <= sumf l g.
  Proof.
    induction l; cbn; intros H; [lra|].
    assert (f a <= g a) by auto. assert (sumf l f <= sumf l g) by auto. lra.
  Qed.

  Lemma sumf_nonneg_zero l f : (forall i, In i l -> 0 <= f i) -> sumf l f = 0 ->
    forall i, In i l -> f i = 0.
  Proof.
    induction l as [|a l IH]; cbn; intros H Hs i Hi; [tauto|].
    assert (0 <= f a) by auto.
    assert (0 <= sumf l f) by (apply sumf_nonneg; auto).
    destruct Hi as [<-|Hi]; [lra|]. apply IH; auto; lra.
  Qed.

  Lemma sumf_term_le l f i : (forall j, In j l -> 0 <= f j) -> In i l -> f i <= sumf l f.
  Proof.
    induction l as [|a l IH]; cbn; intros H Hi; [tauto|].
    assert (0 <= f a) by auto.
    assert (0 <= sumf l f) by (apply sumf_nonneg; auto).
    destruct Hi as [<-|Hi]; [lra|]. assert (f i <= sumf l f) by auto. lra.
  Qed.

  Lemma sumf_Rabs l f : Rabs (sumf l f) <= sumf l (fun i => Rabs (f i)).
  Proof.
    induction l; cbn; [rewrite Rabs_R0; lra|].
    eapply Rle_trans; [apply Rabs_triang|]. lra.
  Qed.

  Lemma prodf_ext l f g : (forall i, In i l -> f i = g i) -> prodf l f = prodf l g.
  Proof. induction l; cbn; intros H; auto. rewrite H, IHl; auto. Qed.

  Lemma prodf_app l1 l2 f : prodf (l1 ++ l2) f = prodf l1 f * prodf l2 f.
  Proof. induction l1; cbn; [lra|]. rewrite IHl1; lra. Qed.

  Lemma prodf_mult l f g : prodf l (fun i => f i * g i) = prodf l f * prodf l g.
  Proof. induction l; cbn; [lra|]. rewrite IHl; lra. Qed.

  Lemma prodf_one l f : (forall i, In i l -> f i = 1) -> prodf l f = 1.
  Proof. induction l; cbn; intros H; auto. rewrite H, IHl; auto; lra. Qed.

  Lemma prodf_nonneg l f : (forall i, In i l -> 0 <= f i) -> 0 <= prodf l f.
  Proof.
    induction l; cbn; intros H; [lra|].
    apply Rmult_le_pos; auto.
  Qed.

  Lemma prodf_pos l f : (forall i, In i l -> 0 < f i) -> 0 < prodf l f.
  Proof.
    induction l; cbn; intros H; [lra|].
    apply Rmult_lt_0_compat; auto.
  Qed.
End Sums.

Lemma sumf_swap {I J : Type} (l : list I) (k : list J) (f : I -> J -> R) :
  sumf l (fun i => sumf k (fun j => f i j)) = sumf k (fun j => sumf l (fun i => f i j)).
Proof.
  induction l; cbn.
  - rewrite sumf_zero; auto.
  - rewrite IHl. rewrite <- sumf_plus. reflexivity.
Qed.

Lemma sumf_map {I J : Type} (h : I -> J) (l : list I) (f : J -> R) :
  sumf (map h l) f = sumf l (fun i => f (h i)).
Proof. induction l; cbn; auto. now rewrite IHl. Qed.

Lemma prodf_map {I J : Type} (h : I -> J) (l : list I) (f : J -> R) :
  prodf (map h l) f = prodf l (fun i => f (h i)).
Proof. induction l; cbn; auto. now rewrite IHl. Qed.

Lemma sumf_flat_map {I J : Type} (h : I -> list J) (l : list I) (f : J -> R) :
  sumf (flat_map h l) f = sumf l (fun i => sumf (h i) f).
Proof. induction l; cbn; auto. now rewrite sumf_app, IHl. Qed.

Lemma prodf_sumf_l {I J} (l : list I) (k : list J) (f : I -> R) (g : J -> R) :
  (sumf l f * sumf k g)%R = sumf l (fun i => sumf k (fun j => f i * g j)%R).
Proof.
  rewrite <- sumf_scal_r. apply sumf_ext; intros i _. now rewrite sumf_scal_l.
Qed.

Lemma sumf_single n (i : nat) (f : nat -> R) :
  i < n -> (forall j, j < n -> j <> i -> f j = 0%R) -> sum n f = f i.
Proof.
  intros Hi Hz.
  assert (Hs : seq 0 n = seq 0 i ++ i :: seq (S i) (n - i - 1)).
  { replace n with (i + S (n - i - 1)) at 1 by lia. rewrite seq_app. reflexivity. }
  rewrite Hs, sumf_app. cbn [sumf].
  rewrite (sumf_zero (seq 0 i)); [rewrite (sumf_zero (seq (S i) _)); [lra|]|].
  - intros j Hj; apply in_seq in Hj; apply Hz; lia.
  - intros j Hj; apply in_seq in Hj; apply Hz; lia.
Qed.

Lemma sum_ext n f g : (forall i, i < n -> f i = g i) -> sum n f = sum n g.
Proof. intros H. apply sumf_ext. intros i Hi; apply in_seq in Hi. apply H; lia. Qed.

Lemma sum_S n f : sum (S n) f = (sum n f + f n)%R.
Proof. rewrite seq_S, sumf_app. cbn. lra. Qed.

Lemma sum_S_first n f : sum (S n) f = (f 0%nat + sum n (fun i => f (S i)))%R.
Proof. cbn. f_equal. rewrite <- seq_shift, sumf_map. reflexivity. Qed.

Lemma sum_shift a n f : sumf (seq a n) f = sum n (fun i => f (a + i)).
Proof.
  revert a f; induction n; intros a f; cbn; auto. f_equal.
  - f_equal; lia.
  - rewrite IHn, (IHn 1). apply sum_ext. intros; f_equal; lia.
Qed.

(** Splitting a range of length [n*m] row-major. *)
Lemma sum_block n m f : sum (n * m) f = sum n (fun i => sum m (fun j => f (i * m + j))).
Proof.
  induction n; [reflexivity|].
  rewrite sum_S, <- IHn. replace (S n * m) with (n * m + m) by lia.
  rewrite seq_app, sumf_app. f_equal.
  cbn. rewrite sum_shift. apply sum_ext; intros; f_equal; lia.
Qed.

Lemma sumf_nth_seq (l : list R) f :
  sumf l f = sum (length l) (fun i => f (nth i l 0%R)).
Proof.
  induction l as [|x l IH]; [reflexivity|].
  cbn [length]. rewrite sum_S_first. cbn. now rewrite IH.
Qed.
