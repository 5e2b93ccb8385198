(** Components of a tensor are determined by the tensor (C93). *)
From Verif Require Import Metrics MetricsMore MatchFacts CP UniqueSpec Exists Solves CPFacts NumPyFacts KruskalFacts Spec.
From Verif Require Import Prelude Lin.
Set Implicit Arguments.
Unset Strict Implicit.
Local Open Scope R_scope.

(** *** Inverses *)
Lemma left_inverse n K A : is_mat n K A -> independent_columns n K A ->
  exists L, forall i r, (i < K)%nat -> (r < K)%nat -> sum n (fun a => L i a * mget A a r) = delta i r.
Proof.
  intros HA HI. destruct (svd_exists HA) as (U & Sv & Vh & HS).
  destruct (@rightsolve_ok (fun _ => Ok (U, Sv, Vh)) n K K A (tab2 K K delta) U Sv Vh) as (X & _ & HX & Hn & _); auto.
  exists (mget X). intros i r Hi Hr.
  enough (E : mprod n (mget X) (mget A) i r - delta i r = 0) by (unfold mprod in E; lra).
  apply (HI (fun j => mprod n (mget X) (mget A) i j - delta i j)); auto.
  intros a Ha. rewrite <- (Hn i a Hi Ha). apply sum_ext. intros j Hj. rewrite mget_tab2 by auto. ring.
Qed.

Lemma square_inverse K P :
  (forall x, (forall r, (r < K)%nat -> sum K (fun i => x i * P i r) = 0) -> forall i, (i < K)%nat -> x i = 0) ->
  exists Pi, (forall i r, (i < K)%nat -> (r < K)%nat -> sum K (fun k => Pi i k * P k r) = delta i r) /\
             (forall i r, (i < K)%nat -> (r < K)%nat -> sum K (fun k => P i k * Pi k r) = delta i r).
Proof.
  intros HI. destruct (@svd_exists_fun K K P) as (U & s & V & HU & HV & _ & _ & HP).
  rewrite Nat.min_id in *.
  pose proof (orth_square HV) as HV'. pose proof (orth_square' HU) as HU'.
  assert (Hs : forall r, (r < K)%nat -> s r <> 0).
  { intros r Hr E.
    assert (Hz : forall i, (i < K)%nat -> U i r = 0).
    { apply (HI (fun i => U i r)). intros j Hj.
      transitivity (sum K (fun i => sum K (fun q => (s q * V q j) * U i q) * U i r)).
      - apply sum_ext. intros i Hi. rewrite HP by auto. rewrite Rmult_comm. f_equal. apply sum_ext. intros. ring.
      - rewrite (orth_cols_coeff _ HU Hr). rewrite E. ring. }
    pose proof (HU r r Hr Hr) as H1. rewrite delta_refl in H1.
    rewrite sum_zero in H1; [lra|]. intros i Hi. rewrite Hz by auto. ring. }
  exists (fun i k => sum K (fun q => V q i * / s q * U k q)). split; intros i r Hi Hr.
  - transitivity (sum K (fun k => sum K (fun q => (V q i * / s q) * U k q) * sum K (fun q => (s q * V q r) * U k q))).
    + apply sum_ext. intros k Hk. rewrite HP by auto. f_equal. apply sum_ext. intros. ring.
    + rewrite (parseval_cols _ _ HU). rewrite <- (HV' i r Hi Hr). apply sum_ext. intros q Hq. field. auto.
  - transitivity (sum K (fun k => sum K (fun q => (U i q * s q) * V q k) * sum K (fun q => (/ s q * U r q) * V q k))).
    + apply sum_ext. intros k Hk. rewrite HP by auto. f_equal. apply sum_ext. intros. ring.
    + rewrite (parseval_rows _ _ HV). rewrite <- (HU' i r Hi Hr). apply sum_ext. intros q Hq. field. auto.
Qed.

(** *** Three-way arrays; the third index runs over anything *)
Section Core.
  Variables (J : Type) (D : J -> Prop) (n1 n2 K : nat) (A B A' B' : nd) (G G' : J -> nat -> R).
  Hypothesis HA : is_mat n1 K A.
  Hypothesis HB : is_mat n2 K B.
  Hypothesis IA : independent_columns n1 K A.
  Hypothesis IB : independent_columns n2 K B.
  Hypothesis HG : forall i, (i < K)%nat -> exists c, D c /\ G c i <> 0.
  Hypothesis HG2 : forall i j x y, (i < K)%nat -> (j < K)%nat -> i <> j ->
    (forall c, D c -> x * G c i + y * G c j = 0) -> x = 0 /\ y = 0.
  Hypothesis HT : forall a b c, (a < n1)%nat -> (b < n2)%nat -> D c ->
    sum K (fun r => mget A a r * mget B b r * G c r) = sum K (fun r => mget A' a r * mget B' b r * G' c r).

  Lemma core : exists sg : nat -> nat,
    (forall i, (i < K)%nat -> (sg i < K)%nat) /\
    (forall i j, (i < K)%nat -> (j < K)%nat -> sg i = sg j -> i = j) /\
    forall i a b c, (i < K)%nat -> (a < n1)%nat -> (b < n2)%nat -> D c ->
      mget A a i * mget B b i * G c i = mget A' a (sg i) * mget B' b (sg i) * G' c (sg i).
  Proof.
    destruct (left_inverse HA IA) as (L & HL). destruct (left_inverse HB IB) as (M & HM).
    set (P := fun i r => sum n1 (fun a => L i a * mget A' a r)).
    set (Q := fun j r => sum n2 (fun b => M j b * mget B' b r)).
    (* contracting the second mode *)
    assert (H2 : forall a j c, (a < n1)%nat -> (j < K)%nat -> D c ->
      mget A a j * G c j = sum K (fun r => mget A' a r * Q j r * G' c r)).
    { intros a j c Ha Hj Hc.
      transitivity (sum n2 (fun b => M j b * sum K (fun r => mget A a r * mget B b r * G c r))).
      - transitivity (sum K (fun r => delta j r * (mget A a r * G c r))); [now rewrite sum_delta_l|].
        transitivity (sum K (fun r => sum n2 (fun b => M j b * mget B b r) * (mget A a r * G c r))).
        + apply sum_ext. intros r Hr. now rewrite HM.
        + transitivity (sum K (fun r => sum n2 (fun b => M j b * (mget A a r * mget B b r * G c r)))).
          * apply sum_ext. intros r Hr. rewrite <- sum_scal_r. apply sum_ext. intros. ring.
          * rewrite sum_swap. apply sum_ext. intros b Hb. now rewrite sum_scal_l.
      - transitivity (sum n2 (fun b => sum K (fun r => M j b * (mget A' a r * mget B' b r * G' c r)))).
        + apply sum_ext. intros b Hb. rewrite HT by auto. now rewrite sum_scal_l.
        + rewrite sum_swap. apply sum_ext. intros r Hr. unfold Q.
          rewrite (Rmult_comm (mget A' a r)), Rmult_assoc, <- sum_scal_r. apply sum_ext. intros. ring. }
    assert (H1 : forall b i c, (b < n2)%nat -> (i < K)%nat -> D c ->
      mget B b i * G c i = sum K (fun r => P i r * mget B' b r * G' c r)).
    { intros b i c Hb Hi Hc.
      transitivity (sum n1 (fun a => L i a * sum K (fun r => mget A a r * mget B b r * G c r))).
      - transitivity (sum K (fun r => delta i r * (mget B b r * G c r))); [now rewrite sum_delta_l|].
        transitivity (sum K (fun r => sum n1 (fun a => L i a * mget A a r) * (mget B b r * G c r))).
        + apply sum_ext. intros r Hr. now rewrite HL.
        + transitivity (sum K (fun r => sum n1 (fun a => L i a * (mget A a r * mget B b r * G c r)))).
          * apply sum_ext. intros r Hr. rewrite <- sum_scal_r. apply sum_ext. intros. ring.
          * rewrite sum_swap. apply sum_ext. intros a Ha. now rewrite sum_scal_l.
      - transitivity (sum n1 (fun a => sum K (fun r => L i a * (mget A' a r * mget B' b r * G' c r)))).
        + apply sum_ext. intros a Ha. rewrite HT by auto. now rewrite sum_scal_l.
        + rewrite sum_swap. apply sum_ext. intros r Hr. unfold P.
          rewrite Rmult_assoc, <- sum_scal_r. apply sum_ext. intros. ring. }
    (* contracting both *)
    assert (H12 : forall i j c, (i < K)%nat -> (j < K)%nat -> D c ->
      delta i j * G c j = sum K (fun r => P i r * Q j r * G' c r)).
    { intros i j c Hi Hj Hc. transitivity (sum n1 (fun a => L i a * (mget A a j * G c j))).
      - rewrite <- (HL i j Hi Hj), <- sum_scal_r. apply sum_ext. intros. ring.
      - transitivity (sum n1 (fun a => sum K (fun r => L i a * (mget A' a r * Q j r * G' c r)))).
        + apply sum_ext. intros a Ha. rewrite H2 by auto. now rewrite sum_scal_l.
        + rewrite sum_swap. apply sum_ext. intros r Hr. unfold P. rewrite Rmult_assoc, <- sum_scal_r.
          apply sum_ext. intros. ring. }
    destruct (@square_inverse K P) as (Pi & HPl & HPr).
    { intros x Hx i Hi. destruct (HG Hi) as (c & Hc & Hne).
      assert (E : x i * G c i = 0).
      { transitivity (sum K (fun k => delta i k * (x k * G c i))); [now rewrite sum_delta_l|].
        transitivity (sum K (fun k => x k * (delta k i * G c i))).
        { apply sum_ext. intros k Hk. rewrite (delta_sym i k). ring. }
        transitivity (sum K (fun k => sum K (fun r => x k * P k r * (Q i r * G' c r)))).
        - apply sum_ext. intros k Hk. rewrite H12 by auto. rewrite <- sum_scal_l. apply sum_ext. intros. ring.
        - rewrite sum_swap. apply sum_zero. intros r Hr. rewrite sum_scal_r, Hx by auto. ring. }
      apply Rmult_integral in E as [E|E]; [exact E|contradiction]. }
    assert (H3 : forall s j c, (s < K)%nat -> (j < K)%nat -> D c -> Pi s j * G c j = Q j s * G' c s).
    { intros s j c Hs Hj Hc. transitivity (sum K (fun i => Pi s i * (delta i j * G c j))).
      - transitivity (sum K (fun i => (Pi s i * G c j) * delta i j)); [now rewrite sum_delta_r|]. apply sum_ext. intros. ring.
      - transitivity (sum K (fun i => sum K (fun r => Pi s i * P i r * (Q j r * G' c r)))).
        + apply sum_ext. intros i Hi. rewrite H12 by auto. rewrite <- sum_scal_l. apply sum_ext. intros. ring.
        + rewrite sum_swap. transitivity (sum K (fun r => delta s r * (Q j r * G' c r))).
          * apply sum_ext. intros r Hr. rewrite sum_scal_r. now rewrite HPl.
          * now rewrite sum_delta_l. }
    (* a row of Pi has one entry *)
    assert (Hone : forall s j j', (s < K)%nat -> (j < K)%nat -> (j' < K)%nat -> Pi s j <> 0 -> Pi s j' <> 0 -> j = j').
    { intros s j j' Hs Hj Hj' E E'. destruct (Nat.eq_dec j j') as [|Hne]; auto. exfalso.
      destruct (@HG2 j j' (Q j' s * Pi s j) (- (Q j s * Pi s j')) Hj Hj' Hne) as [E1 _].
      { intros c Hc. pose proof (H3 s j c Hs Hj Hc) as Ea. pose proof (H3 s j' c Hs Hj' Hc) as Eb.
        rewrite Rmult_assoc, Ea. replace (- (Q j s * Pi s j') * G c j') with (- (Q j s * (Pi s j' * G c j'))) by ring.
        rewrite Eb. ring. }
      apply Rmult_integral in E1 as [E1|E1]; [|contradiction].
      destruct (HG Hj') as (c & Hc & Hnz). pose proof (H3 s j' c Hs Hj' Hc) as Eb. rewrite E1, Rmult_0_l in Eb.
      apply Rmult_integral in Eb as [Eb|Eb]; contradiction. }
    assert (Hex : forall j, (j < K)%nat -> exists s, (s < K)%nat /\ Pi s j <> 0).
    { intros j Hj. destruct (@some_or_none K (fun s => Pi s j <> 0)) as [(s & Hs & E)|Hno].
      - intros s. destruct (Req_EM_T (Pi s j) 0); [right|left]; auto.
      - eauto.
      - exfalso. pose proof (HPr j j Hj Hj) as E. rewrite delta_refl in E. rewrite sum_zero in E; [lra|].
        intros k Hk. specialize (Hno k Hk). destruct (Req_dec (Pi k j) 0) as [Ez|Ez]; [rewrite Ez; ring|tauto]. }
    assert (Hch : exists sg : nat -> nat, forall j, (j < K)%nat -> (sg j < K)%nat /\ Pi (sg j) j <> 0).
    { clear -Hex. revert Hex. generalize K at 1 3. intros N. induction N as [|N IH]; intros Hex.
      - exists (fun j => j). intros; lia.
      - destruct IH as (f & Hf); [intros; apply Hex; lia|]. destruct (Hex N ltac:(lia)) as (s & Hs & E).
        exists (fun j => if Nat.eq_dec j N then s else f j). intros j Hj. destruct (Nat.eq_dec j N) as [->|]; auto.
        apply Hf. lia. }
    destruct Hch as (sg & Hsg). exists sg. split; [intros; now apply Hsg|]. split.
    { intros i j Hi Hj E. destruct (Hsg i Hi) as [Hs Ei]. destruct (Hsg j Hj) as [_ Ej]. rewrite <- E in Ej.
      eapply Hone; eauto. }
    intros j a b c Hj Ha Hb Hc. destruct (Hsg j Hj) as [Hs Es]. set (s := sg j) in *.
    assert (HP0 : forall t r, (t < K)%nat -> (r < K)%nat -> Pi t j <> 0 -> Pi t j * P j r = delta t r).
    { intros t r Ht Hr Et. rewrite <- (HPl t r Ht Hr). symmetry. rewrite (@sumf_single _ j); [reflexivity|auto|].
      intros k Hk Hne. destruct (Req_dec (Pi t k) 0) as [E|E]; [rewrite E; ring|].
      exfalso. apply Hne. apply (Hone t); auto; lia. }
    assert (HPz : forall r, (r < K)%nat -> r <> s -> P j r = 0).
    { intros r Hr Hne. pose proof (HP0 s r Hs Hr Es) as E. rewrite delta_neq in E by auto.
      apply Rmult_integral in E as [E|E]; [contradiction|exact E]. }
    assert (HQz : forall r c, (r < K)%nat -> r <> s -> D c -> Q j r * G' c r = 0).
    { intros r c' Hr Hne Hc'. rewrite <- H3 by auto. destruct (Req_dec (Pi r j) 0) as [E|E]; [rewrite E; ring|].
      exfalso. pose proof (HP0 r r Hr Hr E) as E1. rewrite delta_refl, HPz in E1 by auto. lra. }
    assert (Ea : forall a c, (a < n1)%nat -> D c -> mget A a j * G c j = mget A' a s * (Q j s * G' c s)).
    { intros a' c' Ha' Hc'. rewrite H2 by auto. rewrite (@sumf_single _ s); [ring|auto|].
      intros r Hr Hne. rewrite Rmult_assoc, HQz by (auto; lia). ring. }
    assert (Eb : forall b c, (b < n2)%nat -> D c -> mget B b j * G c j = P j s * mget B' b s * G' c s).
    { intros b' c' Hb' Hc'. rewrite H1 by auto. rewrite (@sumf_single _ s); [ring|auto|].
      intros r Hr Hne. rewrite HPz by (auto; lia). ring. }
    assert (Ec : forall c, D c -> G c j = P j s * Q j s * G' c s).
    { intros c' Hc'. pose proof (H12 j j c' Hj Hj Hc') as E. rewrite delta_refl, Rmult_1_l in E. rewrite E.
      rewrite (@sumf_single _ s); [ring|auto|].
      intros r Hr Hne. rewrite HPz by (auto; lia). ring. }
    destruct (HG Hj) as (d & Hd & Hnz).
    assert (Hg : G' d s <> 0 /\ P j s <> 0 /\ Q j s <> 0).
    { rewrite (Ec d Hd) in Hnz. repeat split; intros E; apply Hnz; rewrite E; ring. }
    destruct Hg as (Hg & Hp & Hq).
    assert (EA : mget A a j * P j s = mget A' a s).
    { pose proof (Ea a d Ha Hd) as E. rewrite (Ec d Hd) in E. apply (Rmult_eq_reg_r (Q j s * G' d s)); [|now apply Rmult_integral_contrapositive].
      lra. }
    assert (EB : mget B b j * Q j s = mget B' b s).
    { pose proof (Eb b d Hb Hd) as E. rewrite (Ec d Hd) in E. apply (Rmult_eq_reg_r (P j s * G' d s)); [|now apply Rmult_integral_contrapositive].
      lra. }
    rewrite (Ec c Hc), <- EA, <- EB. ring.
  Qed.
End Core.

(** *** Any number of modes *)
Lemma nth_remove_at {A} (d : A) l : forall n k, nth k (remove_at n l) d = nth (if (k <? n)%nat then k else S k) l d.
Proof.
  induction l as [|x l IH]; intros n k.
  - replace (remove_at n (@nil A)) with (@nil A) by (now destruct n). now rewrite !nth_overflow by (cbn; lia).
  - destruct n as [|n]; [reflexivity|]. destruct k as [|k]; [reflexivity|]. cbn [remove_at nth]. rewrite IH.
    change (S k <? S n)%nat with (k <? n)%nat. destruct (k <? n)%nat; reflexivity.
Qed.

Lemma rows_remove n Us : rows (remove_at n Us) = remove_at n (rows Us).
Proof. apply map_remove_at. Qed.
Lemma length_rows Us : length (rows Us) = length Us.
Proof. apply map_length. Qed.
Lemma nth_rows Us m : (m < length Us)%nat -> nth m (rows Us) 0%nat = nrows (nth m Us m0).
Proof. intros H. unfold rows. rewrite (@nth_indep _ (map nrows Us) m 0%nat (nrows m0)) by (now rewrite map_length). apply map_nth. Qed.

Lemma column_entry K U r : is_mat (nrows U) K U -> clen U r <> 0 -> exists i, (i < nrows U)%nat /\ mget U i r <> 0.
Proof.
  intros HU H. destruct (@some_or_none (nrows U) (fun i => mget U i r <> 0)) as [(i & Hi & E)|Hno].
  - intros i. destruct (Req_EM_T (mget U i r) 0); [right|left]; auto.
  - eauto.
  - exfalso. apply H. apply (clen_zero_iff _ HU). intros i Hi. specialize (Hno i Hi).
    destruct (Req_dec (mget U i r) 0); tauto.
Qed.
Lemma colprod_entry K Us r : mats K Us -> (forall U, In U Us -> clen U r <> 0) ->
  exists idx, valid idx (rows Us) /\ colprod Us idx r <> 0.
Proof.
  intros HU. induction HU as [|U Us H0 HU IH]; intros Hz.
  - exists []. split; [constructor|]. cbn. lra.
  - destruct IH as (idx & Hv & E); [intros; apply Hz; now right|].
    destruct (column_entry H0 (Hz U (or_introl eq_refl))) as (i & Hi & Ei).
    exists (i :: idx). split; [now constructor|]. cbn. now apply Rmult_integral_contrapositive.
Qed.

(** An index of the full array and its parts *)
Lemma colprod_parts Us a b i j idx r : (a < b < length Us)%nat -> (length idx + 2 = length Us)%nat ->
  colprod Us (insert_at b j (insert_at a i idx)) r =
  mget (nth a Us m0) i r * mget (nth b Us m0) j r * colprod (remove_at a (remove_at b Us)) idx r.
Proof.
  intros Hab Hl. rewrite colprod_insert; [|lia|rewrite length_insert_at by lia; lia].
  rewrite colprod_insert; [|rewrite length_remove_at by lia; lia|rewrite length_remove_at by lia; lia].
  rewrite nth_remove_at. destruct (Nat.ltb_spec a b); [|lia]. ring.
Qed.

Lemma not_parallel_parts K Us m c d x y : mats K Us -> (m < length Us)%nat -> not_parallel (nth m Us m0) c d ->
  (forall U, In U Us -> clen U c <> 0) -> (forall U, In U Us -> clen U d <> 0) ->
  (forall idx, valid idx (rows Us) -> x * colprod Us idx c + y * colprod Us idx d = 0) -> x = 0 /\ y = 0.
Proof.
  intros HU Hm HN Hc Hd H.
  assert (Hpart : forall r, (forall U, In U Us -> clen U r <> 0) -> exists rest, valid rest (remove_at m (rows Us)) /\
            colprod (remove_at m Us) rest r <> 0).
  { intros r Hr. rewrite <- rows_remove. apply (@colprod_entry K); [now apply Forall_remove_at|].
    intros U HUin. apply Hr. rewrite <- (firstn_skipn m Us). clear -HUin. revert m HUin. induction Us as [|V Us IH]; intros m HUin.
    - destruct m; destruct HUin.
    - rewrite firstn_skipn. destruct m; cbn in HUin; [now right|]. destruct HUin as [->|HUin]; [now left|right].
      apply IH in HUin. now rewrite firstn_skipn in HUin. }
  assert (Hlin : forall rest, valid rest (remove_at m (rows Us)) ->
     x * colprod (remove_at m Us) rest c = 0 /\ y * colprod (remove_at m Us) rest d = 0).
  { intros rest Hv. apply HN. intros i Hi.
    assert (Hv' : valid (insert_at m i rest) (rows Us)).
    { apply valid_insert_at; auto; [now rewrite length_rows|]. now rewrite nth_rows. }
    specialize (H _ Hv'). pose proof (valid_length Hv) as Hl. rewrite length_remove_at, length_rows in Hl by (now rewrite length_rows).
    rewrite !colprod_insert in H by lia. lra. }
  split.
  - destruct (Hpart c Hc) as (rest & Hv & E). destruct (Hlin rest Hv) as [E1 _].
    apply Rmult_integral in E1 as [E1|E1]; [exact E1|contradiction].
  - destruct (Hpart d Hd) as (rest & Hv & E). destruct (Hlin rest Hv) as [_ E1].
    apply Rmult_integral in E1 as [E1|E1]; [exact E1|contradiction].
Qed.

Lemma in_remove_at {A} (x : A) l : forall n, In x (remove_at n l) -> In x l.
Proof.
  induction l as [|y l IH]; intros [|n] H; cbn in *; auto. destruct H as [->|H]; auto. right. eauto.
Qed.

Theorem components_unique K Ts w Es v : mats K Ts -> mats K Es -> rows Ts = rows Es -> identifiable K Ts ->
  (forall c, (c < K)%nat -> w c <> 0) ->
  (forall idx, valid idx (rows Ts) -> cp_entry Ts w K idx = cp_entry Es v K idx) ->
  exists q, same_components K w Ts v Es q.
Proof.
  intros HT HE Hr (Hnz & a & b & Hab & IA & IB & Hpar) Hw Heq.
  assert (HlE : length Es = length Ts) by (rewrite <- (length_rows Es), <- Hr; apply length_rows).
  assert (Hmat : forall m, (m < length Ts)%nat -> is_mat (nrows (nth m Ts m0)) K (nth m Ts m0)).
  { intros m Hm. apply (proj1 (Forall_forall _ _) HT). now apply nth_In. }
  set (RT := remove_at a (remove_at b Ts)). set (RE := remove_at a (remove_at b Es)).
  set (Dm := fun idx => valid idx (rows RT)).
  assert (Hrows : rows RT = remove_at a (remove_at b (rows Ts))) by (unfold RT; now rewrite !rows_remove).
  assert (HlR : length RT = (length Ts - 2)%nat) by (unfold RT; rewrite !length_remove_at; rewrite ?length_remove_at; lia).
  assert (HDl : forall idx, Dm idx -> (length idx + 2 = length Ts)%nat).
  { intros idx Hd. apply valid_length in Hd. rewrite length_rows in Hd. lia. }
  assert (Hfull : forall idx i j, Dm idx -> (i < nrows (nth a Ts m0))%nat -> (j < nrows (nth b Ts m0))%nat ->
            valid (insert_at b j (insert_at a i idx)) (rows Ts)).
  { intros idx i j Hd Hi Hj. unfold Dm in Hd. rewrite Hrows in Hd.
    apply valid_insert_at; [rewrite length_rows; lia|rewrite nth_rows by lia; exact Hj|].
    apply valid_insert_at; auto; [rewrite length_remove_at; rewrite length_rows; lia|].
    rewrite nth_remove_at. destruct (Nat.ltb_spec a b); [|lia]. rewrite nth_rows by lia. exact Hi. }
  assert (HRT : mats K RT) by (unfold RT; now do 2 apply Forall_remove_at).
  assert (HRin : forall U, In U RT -> In U Ts) by (intros U HU; now do 2 apply in_remove_at in HU).
  destruct (@core (list nat) Dm (nrows (nth a Ts m0)) (nrows (nth b Ts m0)) K (nth a Ts m0) (nth b Ts m0)
             (nth a Es m0) (nth b Es m0) (fun idx r => w r * colprod RT idx r) (fun idx r => v r * colprod RE idx r))
    as (sg & Hsg & Hinj & Hsame); auto.
  - apply Hmat. lia.
  - apply Hmat. lia.
  - intros i Hi. destruct (@colprod_entry K RT i HRT) as (idx & Hv & E).
    { intros U HU. apply Hnz; auto. }
    exists idx. split; [exact Hv|]. apply Rmult_integral_contrapositive. split; [now apply Hw|exact E].
  - assert (Hord : forall i j x y, (i < j < K)%nat ->
      (forall c, Dm c -> x * (w i * colprod RT c i) + y * (w j * colprod RT c j) = 0) -> x = 0 /\ y = 0).
    { intros i j x y Hij H. destruct (Hpar i j Hij) as (m & Hm & Hma & Hmb & HN).
      assert (Hpos : exists m', (m' < length RT)%nat /\ nth m' RT m0 = nth m Ts m0).
      { exists (if (m <? a)%nat then m else if (m <? b)%nat then (m - 1)%nat else (m - 2)%nat).
        unfold RT. rewrite !nth_remove_at. fold RT. rewrite HlR.
        destruct (Nat.ltb_spec m a); [|destruct (Nat.ltb_spec m b)].
        - destruct (Nat.ltb_spec m a); [|lia]. destruct (Nat.ltb_spec m b); [|lia]. split; [lia|reflexivity].
        - destruct (Nat.ltb_spec (m - 1) a); [lia|]. destruct (Nat.ltb_spec (S (m - 1)) b); [|lia].
          split; [lia|]. f_equal. lia.
        - destruct (Nat.ltb_spec (m - 2) a); [lia|]. destruct (Nat.ltb_spec (S (m - 2)) b); [lia|].
          split; [lia|]. f_equal. lia. }
      destruct Hpos as (m' & Hm' & Em'). rewrite <- Em' in HN.
      destruct (@not_parallel_parts K RT m' i j (x * w i) (y * w j) HRT Hm' HN) as [E1 E2].
      + intros U HU. apply Hnz; auto. lia.
      + intros U HU. apply Hnz; auto. lia.
      + intros idx Hv. specialize (H idx Hv). lra.
      + pose proof (Hw i ltac:(lia)). pose proof (Hw j ltac:(lia)). split.
        * apply Rmult_integral in E1 as [E1|E1]; [exact E1|contradiction].
        * apply Rmult_integral in E2 as [E2|E2]; [exact E2|contradiction]. }
    intros i j x y Hi Hj Hne H. destruct (Nat.lt_ge_cases i j).
    + apply (Hord i j); auto.
    + destruct (Hord j i y x) as [E1 E2]; [lia| |auto]. intros c Hc. specialize (H c Hc). lra.
  - intros i j idx Hi Hj Hd. pose proof (Heq _ (Hfull idx i j Hd Hi Hj)) as E. unfold cp_entry in E.
    transitivity (sum K (fun r => w r * colprod Ts (insert_at b j (insert_at a i idx)) r)).
    + apply sum_ext. intros r Hr'. rewrite colprod_parts by (auto using HDl; lia). fold RT. ring.
    + rewrite E. apply sum_ext. intros r Hr'.
      rewrite (@colprod_parts Es) by (rewrite ?HlE; auto using HDl; lia). fold RE. ring.
  - exists (map sg (seq 0 K)).
    assert (Hq : forall c, (c < K)%nat -> nth c (map sg (seq 0 K)) 0%nat = sg c).
    { intros c Hc. rewrite (@nth_indep _ _ c 0%nat (sg 0%nat)) by (now rewrite map_length, seq_length).
      rewrite map_nth. now rewrite seq_nth. }
    split; [split; [now rewrite map_length, seq_length|split]|].
    + apply NoDup_nth with (d := 0%nat). rewrite map_length, seq_length. intros i j Hi Hj. rewrite !Hq by auto. auto.
    + apply Forall_forall. intros x Hx. apply in_map_iff in Hx as (c & <- & Hc). apply in_seq in Hc. apply Hsg. lia.
    + intros c idx Hc Hv. rewrite Hq by auto.
      pose proof (valid_length Hv) as Hl. rewrite length_rows in Hl.
      set (j := nth b idx 0%nat). set (i := nth a idx 0%nat). set (rest := remove_at a (remove_at b idx)).
      assert (Eidx : idx = insert_at b j (insert_at a i rest)).
      { unfold j, i, rest. rewrite <- (@insert_remove_at _ b idx 0%nat) at 1 by lia. f_equal.
        rewrite <- (@insert_remove_at _ a (remove_at b idx) 0%nat) at 1 by (rewrite length_remove_at; lia). f_equal.
        rewrite nth_remove_at. destruct (Nat.ltb_spec a b); [reflexivity|lia]. }
      assert (Hd : Dm rest). { unfold Dm, rest. rewrite Hrows. now do 2 apply valid_remove_at. }
      assert (Hi : (i < nrows (nth a Ts m0))%nat) by (rewrite <- nth_rows by lia; apply valid_nth; auto; rewrite length_rows; lia).
      assert (Hj : (j < nrows (nth b Ts m0))%nat) by (rewrite <- nth_rows by lia; apply valid_nth; auto; rewrite length_rows; lia).
      pose proof (Hsame c i j rest Hc Hi Hj Hd) as E.
      rewrite Eidx, colprod_parts by (auto using HDl; lia). rewrite (@colprod_parts Es) by (rewrite ?HlE; auto using HDl; lia).
      fold RT RE. lra.
Qed.

(** Equal components have proportional columns. *)
Lemma equal_columns K Ts Es c d w v m : mats K Ts -> mats K Es -> rows Ts = rows Es -> w <> 0 -> (m < length Ts)%nat ->
  (forall T, In T Ts -> clen T c <> 0) ->
  (forall idx, valid idx (rows Ts) -> w * colprod Ts idx c = v * colprod Es idx d) ->
  multiple_columns (nth m Ts m0) (nth m Es m0) c d /\ clen (nth m Es m0) d <> 0.
Proof.
  intros HT HE Hr Hw Hm Hnz H.
  assert (HlE : length Es = length Ts) by (rewrite <- (length_rows Es), <- Hr; apply length_rows).
  assert (HTm : is_mat (nrows (nth m Ts m0)) K (nth m Ts m0)) by (apply (proj1 (Forall_forall _ _) HT); now apply nth_In).
  assert (HEm : is_mat (nrows (nth m Es m0)) K (nth m Es m0)) by (apply (proj1 (Forall_forall _ _) HE); apply nth_In; lia).
  assert (Hrm : nrows (nth m Es m0) = nrows (nth m Ts m0)) by (rewrite <- !nth_rows by lia; now rewrite Hr).
  destruct (@colprod_entry K (remove_at m Ts) c) as (rest & Hv & Hg).
  { now apply Forall_remove_at. } { intros U HU. apply Hnz. now apply in_remove_at in HU. }
  rewrite rows_remove in Hv. pose proof (valid_length Hv) as Hl. rewrite length_remove_at, length_rows in Hl by (now rewrite length_rows).
  assert (Hk : forall i, (i < nrows (nth m Ts m0))%nat ->
     w * (mget (nth m Ts m0) i c * colprod (remove_at m Ts) rest c) = v * (mget (nth m Es m0) i d * colprod (remove_at m Es) rest d)).
  { intros i Hi. rewrite <- !colprod_insert by lia. apply H. apply valid_insert_at; auto; [now rewrite length_rows|]. now rewrite nth_rows. }
  set (g := colprod (remove_at m Ts) rest c) in *. set (h := colprod (remove_at m Es) rest d) in *.
  destruct (column_entry HTm (Hnz _ (nth_In _ _ Hm))) as (i0 & Hi0 & E0).
  assert (Hvh : v * h <> 0).
  { intros E. specialize (Hk i0 Hi0). replace (v * (mget (nth m Es m0) i0 d * h)) with (mget (nth m Es m0) i0 d * (v * h)) in Hk by ring.
    rewrite E, Rmult_0_r in Hk. repeat (apply Rmult_integral in Hk as [Hk|Hk]; [contradiction|]). contradiction. }
  assert (Hsc : forall i, (i < nrows (nth m Ts m0))%nat -> mget (nth m Es m0) i d = (w * g / (v * h)) * mget (nth m Ts m0) i c).
  { intros i Hi. specialize (Hk i Hi). apply (Rmult_eq_reg_r (v * h)); [|exact Hvh].
    transitivity (w * (mget (nth m Ts m0) i c * g)); [lra|]. field. split; intros E; apply Hvh; rewrite E; ring. }
  assert (Hs : w * g / (v * h) <> 0).
  { unfold Rdiv. repeat (apply Rmult_integral_contrapositive; split); auto. now apply Rinv_neq_0_compat. }
  split; [now exists (w * g / (v * h))|].
  intros E. apply (clen_zero_iff _ HEm) with (i := i0) in E; [|lia]. rewrite Hsc in E by auto.
  apply Rmult_integral in E as [E|E]; contradiction.
Qed.

Lemma assignment_onto K q d : assignment K K q -> (d < K)%nat -> exists c, (c < K)%nat /\ nth c q 0%nat = d.
Proof.
  intros (Hl & HN & Hb) Hd. assert (Hin : In d q).
  { apply (@NoDup_length_incl _ q (seq 0 K) HN); [rewrite seq_length; lia| |apply in_seq; lia].
    intros x Hx. rewrite Forall_forall in Hb. apply in_seq. specialize (Hb x Hx). lia. }
  destruct (In_nth _ _ 0%nat Hin) as (c & Hc & E). exists c. split; [lia|exact E].
Qed.

Lemma unique_columns K Ts w Es v q : mats K Ts -> mats K Es -> rows Ts = rows Es -> identifiable K Ts ->
  (forall c, (c < K)%nat -> w c <> 0) -> same_components K w Ts v Es q ->
  (forall m c, (m < length Ts)%nat -> (c < K)%nat -> multiple_columns (nth m Ts m0) (nth m Es m0) c (nth c q 0%nat)) /\
  forall E d, In E Es -> (d < K)%nat -> clen E d <> 0.
Proof.
  intros HT HE Hr (Hnz & _) Hw (Hq & H).
  assert (HlE : length Es = length Ts) by (rewrite <- (length_rows Es), <- Hr; apply length_rows).
  split.
  - intros m c Hm Hc. apply (@equal_columns K Ts Es c (nth c q 0%nat) (w c) (v (nth c q 0%nat)) m); auto.
  - intros E d HEin Hd. destruct (In_nth _ _ m0 HEin) as (m & Hm & <-). destruct (assignment_onto Hq Hd) as (c & Hc & <-).
    apply (@equal_columns K Ts Es c (nth c q 0%nat) (w c) (v (nth c q 0%nat)) m); auto. lia.
Qed.

Lemma unique_score red K Ts Es l : mats K Ts -> mats K Es -> rows Ts = rows Es -> identifiable K Ts -> (0 < K)%nat ->
  (forall idx, valid idx (rows Ts) -> cp_entry Ts unit_weights K idx = cp_entry Es unit_weights K idx) ->
  0 < l -> (forall T c, In T Ts -> (c < K)%nat -> l <= clen T c) -> (forall E d, In E Es -> (d < K)%nat -> l <= clen E d) ->
  exists s p, factor_match_score Ts Es true (reduction_name red) = Ok (Fin s, Some p) /\ kept_share l (length Ts) <= s.
Proof.
  intros HT HE Hr HI HK Heq Hl HlT HlE.
  destruct (components_unique (w := unit_weights) (v := unit_weights) HT HE Hr HI) as (q & Hq & Hs); auto.
  { intros c Hc. unfold unit_weights. lra. }
  assert (Hne : Ts <> []). { destruct HI as (_ & a & b & Hab & _). intros ->. cbn in Hab. lia. }
  apply (@close_scores red K K Ts Es q (fun _ => 1) (fun _ => 0) l (kept_share l (length Ts))); auto.
  - intros c Hc. now left.
  - intros c Hc. split; [lra|]. unfold rel_dist2, comp_dist2.
    rewrite sumf_zero; [unfold Rdiv; rewrite Rmult_0_l; lra|].
    intros idx Hin. apply in_indices in Hin. specialize (Hs c idx Hc Hin). unfold unit_weights in Hs. rewrite Hs. ring.
  - rewrite Rminus_0_r. destruct red; cbn [reduced].
    + split; [exists 0%nat; split; [exact HK|ring]|]. intros. lra.
    + split; [exact HK|]. rewrite sum_const. ring.
Qed.

(** *** Reconstructed tensors *)
Lemma perfect_reconstruction junk junk' K Ts w Es v k k' X Y : mats K Ts -> mats K Es -> rows Ts = rows Es -> identifiable K Ts ->
  is_vec K w -> is_vec K v -> (forall c, (c < K)%nat -> vget w c <> 0) ->
  kt_init Ts (Some w) = Ok k -> kt_init Es (Some v) = Ok k' ->
  kt_construct junk k = Ok X -> kt_construct junk' k' = Ok Y -> percent_explained X Y = Ok (Fin 1) ->
  exists q, same_components K (vget w) Ts (vget v) Es q.
Proof.
  intros HT HE Hr HI Hw Hv Hwz Ek Ek' EX EY Hp.
  assert (H2 : (2 <= length Ts)%nat). { destruct HI as (_ & a & b & Hab & _). lia. }
  assert (HlE : length Es = length Ts) by (rewrite <- (length_rows Es), <- Hr; apply length_rows).
  assert (Hne : Ts <> []) by (intros ->; cbn in H2; lia). assert (Hne' : Es <> []) by (intros ->; cbn in HlE; lia).
  rewrite (kt_init_mats HT Hne Hw) in Ek. injection Ek as <-. rewrite (kt_init_mats HE Hne' Hv) in Ek'. injection Ek' as <-.
  destruct (kt_construct_ok junk HT Hw H2) as (X' & EX' & HXw & HXs & HXe). rewrite EX in EX'. injection EX' as <-.
  destruct (kt_construct_ok junk' HE Hv ltac:(lia)) as (Y' & EY' & HYw & HYs & HYe). rewrite EY in EY'. injection EY' as <-.
  assert (Es' : shape X = shape Y) by congruence.
  destruct (Req_dec (sq_sum (shape X) (get X)) 0) as [E0|E0].
  - rewrite (percent_zero HXw HYw Es') in Hp by (now apply sq_sum_zero). destruct (Req_EM_T _ 0); discriminate.
  - destruct (percent_calibrated HXw HYw Es' E0) as (x & Ex & _ & _ & Hiff). rewrite Hp in Ex. injection Ex as Ex.
    assert (EXY : X = Y) by (apply Hiff; auto).
    apply components_unique; auto. intros idx Hidx. rewrite <- HXe by auto. rewrite EXY. apply HYe. now rewrite <- Hr.
Qed.

Lemma exact_fit env junk K Ts w s : cp_coherent K s -> mats K Ts -> identifiable K Ts -> is_vec K w ->
  (forall c, (c < K)%nat -> vget w c <> 0) ->
  kt_construct junk {| kt_rank := K; kt_fms := Ts; kt_w := w |} = Ok (cp_X s) -> cp_SSE env s = Ok 0 ->
  exists q, same_components K (vget w) Ts (vget (kt_w (cp_dec s))) (kt_fms (cp_dec s)) q.
Proof.
  intros H HT HI Hw Hwz EX E.
  assert (H2 : (2 <= length Ts)%nat). { destruct HI as (_ & a & b & Hab & _). lia. }
  destruct (kt_construct_ok junk HT Hw H2) as (X' & EX' & HXw & HXs & HXe). rewrite EX in EX'. injection EX' as <-.
  rewrite (cp_SSE_ok env H) in E. injection E as E. destruct (co_fac H) as [HU Hr].
  apply components_unique; auto; [congruence|]. intros idx Hidx. rewrite <- HXe by auto.
  assert (Hz : get (cp_X s) idx - cp_entry (kt_fms (cp_dec s)) (vget (kt_w (cp_dec s))) K idx = 0).
  { apply (proj1 (@sq_sum_zero (shape (cp_X s)) (fun idx => get (cp_X s) idx - cp_entry (kt_fms (cp_dec s)) (vget (kt_w (cp_dec s))) K idx)) E idx).
    now rewrite HXs. }
  lra.
Qed.
