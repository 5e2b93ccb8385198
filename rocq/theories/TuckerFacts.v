(** CP_ALS on tensors given in other coordinates: lemmas for C94. *)
From Verif Require Export TuckerSpec ConstrainedFit.
From Verif Require Import CompressFacts QualityFacts.
From Verif Require Import Prelude Lin.
Set Implicit Arguments.
Unset Strict Implicit.
Local Open Scope R_scope.

(** *** Matrices *)
Lemma mprod_gram n k Q A B r s : orth_cols n k Q ->
  sum n (fun i => mprod k Q A i r * mprod k Q B i s) = sum k (fun a => A a r * B a s).
Proof.
  intros H. rewrite <- (parseval_cols (fun a => A a r) (fun a => B a s) H). apply sum_ext. intros i _. unfold mprod. f_equal; apply sum_ext; intros; ring.
Qed.
Lemma mprod_back n k Q A a r : orth_cols n k Q -> (a < k)%nat -> sum n (fun i => Q i a * mprod k Q A i r) = A a r.
Proof.
  intros H Ha. unfold mprod. transitivity (sum n (fun i => sum k (fun b => A b r * (Q i a * Q i b)))).
  { apply sum_ext. intros i _. rewrite <- sum_scal_l. apply sum_ext. intros; ring. }
  rewrite sum_swap. transitivity (sum k (fun b => delta a b * A b r)).
  { apply sum_ext. intros b Hb. rewrite sum_scal_l, (H a b Ha Hb). ring. }
  now apply (@sum_delta_l k a (fun b => A b r)).
Qed.

Lemma sum_split_prod {J : Type} n (l : list J) f g :
  sum n (fun i => sumf l (fun j => f i * g j)) = sum n f * sumf l g.
Proof. rewrite <- sum_scal_r. apply sum_ext. intros i _. apply sumf_scal_l. Qed.

(** *** Factors *)
Lemma carried_length K Qs Us Vs : carried_by K Qs Us Vs -> length Us = length Qs /\ length Vs = length Qs.
Proof. induction 1 as [|? ? ? ? ? ? ? ? ? ? [IH1 IH2]]; cbn; auto. Qed.
Lemma carried_remove K Qs Us Vs : carried_by K Qs Us Vs -> forall m, carried_by K (remove_at m Qs) (remove_at m Us) (remove_at m Vs).
Proof. induction 1; intros [|m]; cbn; try constructor; auto. Qed.
Lemma carried_replace K Qs Us Vs : carried_by K Qs Us Vs -> forall m U V, (m < length Qs)%nat ->
  nrows U = nrows (nth m Qs m0) -> nrows V = ncols (nth m Qs m0) ->
  (forall i r, (i < nrows (nth m Qs m0))%nat -> (r < K)%nat -> mget U i r = mprod (ncols (nth m Qs m0)) (mget (nth m Qs m0)) (mget V) i r) ->
  carried_by K Qs (replace_at m U Us) (replace_at m V Vs).
Proof.
  induction 1 as [|Q U V Qs Us Vs H1 H2 H3 H4 IH]; intros [|m] U' V' Hm HU HV HE; cbn in Hm; try lia.
  - cbn [replace_at nth] in *. constructor; auto.
  - cbn [replace_at nth] in *. constructor; auto. apply IH; auto. lia.
Qed.
Lemma carried_nth K Qs Us Vs : carried_by K Qs Us Vs -> forall m, (m < length Qs)%nat ->
  nrows (nth m Us m0) = nrows (nth m Qs m0) /\ nrows (nth m Vs m0) = ncols (nth m Qs m0) /\
  forall i r, (i < nrows (nth m Qs m0))%nat -> (r < K)%nat ->
    mget (nth m Us m0) i r = mprod (ncols (nth m Qs m0)) (mget (nth m Qs m0)) (mget (nth m Vs m0)) i r.
Proof. induction 1; intros [|m] Hm; cbn in Hm; try lia; cbn [nth]; auto. apply IHcarried_by. lia. Qed.

Lemma iso_remove Qs m : isometries Qs -> isometries (remove_at m Qs).
Proof. intros H. revert m. induction H; intros [|m]; cbn; try constructor; auto. apply IHForall. Qed.
Lemma iso_nth Qs m : isometries Qs -> (m < length Qs)%nat ->
  is_mat (nrows (nth m Qs m0)) (ncols (nth m Qs m0)) (nth m Qs m0) /\ orth_cols (nrows (nth m Qs m0)) (ncols (nth m Qs m0)) (mget (nth m Qs m0)).
Proof. intros H Hm. exact (proj1 (Forall_forall _ _) H _ (nth_In _ _ Hm)). Qed.

Lemma colprod_forth K Qs Us Vs : carried_by K Qs Us Vs -> forall idx r, valid idx (rows Qs) -> (r < K)%nat ->
  colprod Us idx r = sumf (indices (map ncols Qs)) (fun j => entprod Qs idx j * colprod Vs j r).
Proof.
  induction 1 as [|Q U V Qs Us Vs H1 H2 H3 H4 IH]; intros idx r Hv Hr.
  - apply valid_nil_inv in Hv as ->. cbn. lra.
  - unfold rows in Hv. cbn [map] in Hv |- *. apply valid_cons_inv in Hv as (i & idx' & -> & Hi & Hv). rewrite sumf_indices_cons. cbn [entprod colprod].
    rewrite H3, (IH _ _ Hv Hr) by auto. unfold mprod. rewrite <- sum_split_prod. apply sum_ext. intros j Hj. apply sumf_ext. intros; ring.
Qed.
Lemma colprod_back K Qs Us Vs : isometries Qs -> carried_by K Qs Us Vs -> forall j r, valid j (map ncols Qs) -> (r < K)%nat ->
  sumf (indices (rows Qs)) (fun idx => entprod Qs idx j * colprod Us idx r) = colprod Vs j r.
Proof.
  intros HI HC. revert HI. induction HC as [|Q U V Qs Us Vs H1 H2 H3 H4 IH]; intros HI j r Hv Hr.
  - apply valid_nil_inv in Hv as ->. cbn. lra.
  - inversion HI as [|? ? [HM HO] HI']; subst. cbn [map] in Hv. apply valid_cons_inv in Hv as (a & j' & -> & Ha & Hv).
    unfold rows. cbn [map]. rewrite sumf_indices_cons. cbn [entprod colprod]. fold (rows Qs).
    rewrite <- (IH HI' _ _ Hv Hr), <- (@mprod_back (nrows Q) (ncols Q) (mget Q) (mget V) a r HO Ha).
    rewrite <- sum_split_prod. apply sum_ext. intros i Hi. apply sumf_ext. intros idx _. rewrite H3 by auto. ring.
Qed.
Lemma energy_rotated Qs : isometries Qs -> forall f,
  sumf (indices (rows Qs)) (fun idx => sumf (indices (map ncols Qs)) (fun j => f j * entprod Qs idx j) ^ 2) =
  sumf (indices (map ncols Qs)) (fun j => f j ^ 2).
Proof.
  induction 1 as [|Q Qs [HM HO] HI IH]; intros f.
  - cbn. ring.
  - unfold rows. cbn [map]. rewrite !sumf_indices_cons. fold (rows Qs).
    set (F := fun a idx => sumf (indices (map ncols Qs)) (fun j => f (a :: j) * entprod Qs idx j)).
    transitivity (sumf (indices (rows Qs)) (fun idx => sum (nrows Q) (fun i => mprod (ncols Q) (mget Q) (fun a _ => F a idx) i 0 * mprod (ncols Q) (mget Q) (fun a _ => F a idx) i 0))).
    { rewrite sumf_swap. apply sumf_ext. intros idx _. apply sum_ext. intros i _. rewrite sumf_indices_cons. cbn [entprod].
      assert (E : sum (ncols Q) (fun a => sumf (indices (map ncols Qs)) (fun j => f (a :: j) * (mget Q i a * entprod Qs idx j))) = mprod (ncols Q) (mget Q) (fun a _ => F a idx) i 0).
      { unfold mprod, F. apply sum_ext. intros a _. rewrite <- sumf_scal_l. apply sumf_ext. intros; ring. }
      rewrite E. ring. }
    transitivity (sumf (indices (rows Qs)) (fun idx => sum (ncols Q) (fun a => F a idx ^ 2))).
    { apply sumf_ext. intros idx _. rewrite (mprod_gram _ _ _ _ HO). apply sum_ext. intros; ring. }
    rewrite sumf_swap. apply sum_ext. intros a _. apply (IH (fun j => f (a :: j))).
Qed.
Lemma gramprod_rotated K Qs Us Vs r s : isometries Qs -> carried_by K Qs Us Vs -> (r < K)%nat -> (s < K)%nat -> gramprod Us r s = gramprod Vs r s.
Proof.
  intros HI HC Hr Hs. revert HI. induction HC as [|Q U V Qs Us Vs H1 H2 H3 H4 IH]; intros HI; [reflexivity|].
  inversion HI as [|? ? [HM HO] HI']; subst. unfold gramprod in *. cbn [prodf]. rewrite (IH HI'). f_equal.
  unfold gram. rewrite H1, H2, <- (mprod_gram (mget V) (mget V) r s HO). apply sum_ext. intros i Hi. now rewrite !H3.
Qed.
Lemma entprod_insert Qs : forall m i j is js, (m < length Qs)%nat -> length Qs = S (length is) -> length Qs = S (length js) ->
  entprod Qs (insert_at m i is) (insert_at m j js) = mget (nth m Qs m0) i j * entprod (remove_at m Qs) is js.
Proof.
  induction Qs as [|Q Qs IH]; intros [|m] i j is js Hm Hi Hj; cbn in Hm; try lia; [reflexivity|].
  destruct is as [|i' is]; [cbn in Hi; lia|]. destruct js as [|j' js]; [cbn in Hj; lia|]. cbn [length] in *.
  cbn [insert_at entprod nth remove_at]. rewrite IH by lia. ring.
Qed.

(** *** Data and models *)
Section Data.
Variables (K : nat) (Qs : list nd) (X G : nd) (Us Vs : list nd).
Hypothesis (HR : rotated Qs X G) (HC : carried_by K Qs Us Vs).

Lemma rot_len : length Qs = length (shape X) /\ length (shape G) = length (shape X).
Proof. split; [rewrite <- (ro_rows HR)|rewrite <- (ro_cols HR), <- (ro_rows HR)]; unfold rows; now rewrite !map_length. Qed.
Lemma rot_nth m : (m < length Qs)%nat -> nrows (nth m Qs m0) = nth m (shape X) 0%nat /\ ncols (nth m Qs m0) = nth m (shape G) 0%nat.
Proof.
  intros Hm. rewrite <- (ro_rows HR), <- (ro_cols HR). unfold rows.
  split; [rewrite (nth_indep _ 0%nat (nrows m0)) by (now rewrite map_length)|rewrite (nth_indep _ 0%nat (ncols m0)) by (now rewrite map_length)]; now rewrite map_nth.
Qed.

Lemma mttkrp_rotated m i r : (m < length Qs)%nat -> (i < nth m (shape X) 0)%nat -> (r < K)%nat ->
  mttkrp_entry X Us m i r = mprod (ncols (nth m Qs m0)) (mget (nth m Qs m0)) (mttkrp_entry G Vs m) i r.
Proof.
  intros Hm Hi Hr. destruct rot_len as [L1 L2]. destruct (rot_nth Hm) as [N1 N2].
  rewrite mttkrp_entry_split by lia. unfold mprod. rewrite N2.
  set (Q := nth m Qs m0) in *. set (sh := remove_at m (shape X)). set (sg := remove_at m (shape G)).
  assert (Esh : sh = rows (remove_at m Qs)) by (unfold sh, rows; rewrite map_remove_at; fold (rows Qs); now rewrite (ro_rows HR)).
  assert (Esg : sg = map ncols (remove_at m Qs)) by (unfold sg; rewrite map_remove_at; now rewrite (ro_cols HR)).
  transitivity (sumf (indices sh) (fun rest => sum (nth m (shape G) 0%nat) (fun j => sumf (indices sg) (fun js =>
     (mget Q i j * get G (insert_at m j js)) * (entprod (remove_at m Qs) rest js * colprod (remove_at m Us) rest r))))).
  { apply sumf_ext. intros rest Hre. apply in_indices in Hre.
    assert (Lr : length Qs = S (length rest)).
    { apply valid_length in Hre. unfold sh in Hre. rewrite length_remove_at in Hre by lia. lia. }
    rewrite (ro_data HR). 2:{ apply valid_insert_at; auto; lia. }
    rewrite (sumf_indices_axis (n := m)) by lia. fold sg. rewrite <- sum_scal_r. apply sum_ext. intros j Hj.
    rewrite <- sumf_scal_r. apply sumf_ext. intros js Hjs. apply in_indices in Hjs.
    assert (Lj : length Qs = S (length js)).
    { apply valid_length in Hjs. unfold sg in Hjs. rewrite length_remove_at in Hjs by lia. lia. }
    rewrite entprod_insert by auto. fold Q. ring. }
  rewrite sumf_swap. apply sum_ext. intros j Hj. rewrite mttkrp_entry_split by lia. fold sg. rewrite <- sumf_scal_l, sumf_swap.
  apply sumf_ext. intros js Hjs. apply in_indices in Hjs. rewrite sumf_scal_l, Esh.
  rewrite (@colprod_back K _ _ (remove_at m Vs) (iso_remove m (ro_iso HR)) (carried_remove HC m)) by (auto; now rewrite <- Esg). ring.
Qed.

Lemma sse_rotated w : sse X Us w K = sse G Vs w K.
Proof.
  unfold sse. rewrite <- (ro_rows HR) at 1. rewrite <- (ro_cols HR), <- (energy_rotated (ro_iso HR)).
  apply sumf_ext. intros idx Hi. apply in_indices in Hi. f_equal.
  rewrite (ro_data HR) by (now rewrite <- (ro_rows HR)). rewrite <- (ro_cols HR).
  transitivity (sumf (indices (map ncols Qs)) (fun j => get G j * entprod Qs idx j) -
    sumf (indices (map ncols Qs)) (fun j => cp_entry Vs w K j * entprod Qs idx j)).
  - f_equal. unfold cp_entry. transitivity (sum K (fun r => sumf (indices (map ncols Qs)) (fun j => w r * colprod Vs j r * entprod Qs idx j))).
    + apply sum_ext. intros r Hr. rewrite (colprod_forth HC Hi Hr), <- sumf_scal_l. apply sumf_ext. intros; ring.
    + rewrite sumf_swap. apply sumf_ext. intros j _. now rewrite sumf_scal_r.
  - rewrite <- sumf_minus. apply sumf_ext. intros; ring.
Qed.
Lemma norm_rotated : wf X -> wf G -> norm X ^ 2 = norm G ^ 2.
Proof.
  intros HX HG. rewrite !norm_pow2, !norm2_get by auto. rewrite <- (ro_rows HR) at 1. rewrite <- (ro_cols HR).
  transitivity (sumf (indices (map ncols Qs)) (fun j => get G j ^ 2)); [|apply sumf_ext; intros; ring].
  rewrite <- (energy_rotated (ro_iso HR)). apply sumf_ext. intros idx Hi. apply in_indices in Hi.
  rewrite (ro_data HR) by (now rewrite <- (ro_rows HR)). rewrite <- (ro_cols HR). ring.
Qed.
Lemma lhs_rotated m r s : (r < K)%nat -> (s < K)%nat -> normal_lhs Us m r s = normal_lhs Vs m r s.
Proof. intros Hr Hs. unfold normal_lhs. exact (gramprod_rotated (iso_remove m (ro_iso HR)) (carried_remove HC m) Hr Hs). Qed.
End Data.

(** *** Nothing is lost *)
Fixpoint pulled (K : nat) (Qs Us : list nd) : list nd :=
  match Qs, Us with
  | Q :: Qs, U :: Us => tab2 (ncols Q) K (fun a r => sum (nrows Q) (fun i => mget Q i a * mget U i r)) :: pulled K Qs Us
  | _, _ => []
  end.
Fixpoint pushed (K : nat) (Qs Vs : list nd) : list nd :=
  match Qs, Vs with
  | Q :: Qs, V :: Vs => tab2 (nrows Q) K (mprod (ncols Q) (mget Q) (mget V)) :: pushed K Qs Vs
  | _, _ => []
  end.
Lemma nrows_tab2 n m f : nrows (tab2 n m f) = n.
Proof. exact (is_mat_nrows (is_mat_tab2 n m f)). Qed.
Lemma pushed_carried K Qs : forall Vs, mats K Vs -> rows Vs = map ncols Qs ->
  carried_by K Qs (pushed K Qs Vs) Vs /\ mats K (pushed K Qs Vs) /\ rows (pushed K Qs Vs) = rows Qs.
Proof.
  induction Qs as [|Q Qs IH]; intros [|V Vs] HV Hr; cbn in Hr; try discriminate.
  - split; [constructor|]. split; [constructor|reflexivity].
  - injection Hr as E1 E2. inversion HV as [|? ? H1 H2]; subst. destruct (IH Vs H2 E2) as (A & B & C). cbn [pushed]. split; [|split].
    + constructor; auto. intros i r Hi Hr. now rewrite mget_tab2.
    + constructor; [|exact B]. rewrite nrows_tab2. apply is_mat_tab2.
    + unfold rows in *. cbn [map]. now rewrite C, nrows_tab2.
Qed.
Lemma pulled_shape K Qs : forall Us, length Us = length Qs -> mats K (pulled K Qs Us) /\ rows (pulled K Qs Us) = map ncols Qs.
Proof.
  induction Qs as [|Q Qs IH]; intros [|U Us] Hl; cbn in Hl; try discriminate; [split; [constructor|reflexivity]|].
  destruct (IH Us ltac:(lia)) as [A B]. cbn [pulled map]. split.
  - constructor; [|exact A]. rewrite nrows_tab2. apply is_mat_tab2.
  - unfold rows in *. cbn [map]. now rewrite B, nrows_tab2.
Qed.
Lemma colprod_pulled K Qs : forall Us j r, rows Us = rows Qs -> valid j (map ncols Qs) -> (r < K)%nat ->
  colprod (pulled K Qs Us) j r = sumf (indices (rows Qs)) (fun idx => entprod Qs idx j * colprod Us idx r).
Proof.
  induction Qs as [|Q Qs IH]; intros [|U Us] j r Hr Hv Hk; cbn in Hr; try discriminate.
  - apply valid_nil_inv in Hv as ->. cbn. lra.
  - injection Hr as E1 E2. cbn [map] in Hv. apply valid_cons_inv in Hv as (a & j' & -> & Ha & Hv).
    unfold rows. cbn [map pulled colprod]. rewrite sumf_indices_cons. cbn [entprod colprod]. fold (rows Qs).
    rewrite mget_tab2, (IH Us j' r E2 Hv Hk) by auto. rewrite <- sum_split_prod. apply sum_ext. intros i _. apply sumf_ext. intros; ring.
Qed.
Lemma sumf_prod_swap {A B : Type} (l : list A) (l' : list B) (f : A -> R) (g : B -> R) (e : A -> B -> R) :
  sumf l (fun a => f a * sumf l' (fun b => g b * e a b)) = sumf l' (fun b => g b * sumf l (fun a => e a b * f a)).
Proof.
  transitivity (sumf l (fun a => sumf l' (fun b => g b * (e a b * f a)))).
  - apply sumf_ext. intros a _. rewrite <- sumf_scal_l. apply sumf_ext. intros; ring.
  - rewrite sumf_swap. apply sumf_ext. intros b _. now rewrite sumf_scal_l.
Qed.
Lemma energy_pulled Qs f : isometries Qs ->
  sumf (indices (map ncols Qs)) (fun j => sumf (indices (rows Qs)) (fun idx => entprod Qs idx j * f idx) ^ 2) <= sumf (indices (rows Qs)) (fun idx => f idx ^ 2).
Proof.
  intros HI. set (h := fun j => sumf (indices (rows Qs)) (fun idx => entprod Qs idx j * f idx)).
  set (q := fun idx => sumf (indices (map ncols Qs)) (fun j => h j * entprod Qs idx j)).
  assert (E1 : sumf (indices (rows Qs)) (fun idx => q idx ^ 2) = sumf (indices (map ncols Qs)) (fun j => h j ^ 2)) by (apply (energy_rotated HI)).
  assert (E2 : sumf (indices (rows Qs)) (fun idx => f idx * q idx) = sumf (indices (map ncols Qs)) (fun j => h j ^ 2)).
  { unfold q. rewrite sumf_prod_swap. apply sumf_ext. intros j _. fold (h j). ring. }
  assert (E3 : 0 <= sumf (indices (rows Qs)) (fun idx => (f idx - q idx) ^ 2)) by (apply sumf_nonneg; intros; apply pow2_ge_0).
  assert (E4 : sumf (indices (rows Qs)) (fun idx => (f idx - q idx) ^ 2) =
    sumf (indices (rows Qs)) (fun idx => f idx ^ 2) - 2 * sumf (indices (rows Qs)) (fun idx => f idx * q idx) + sumf (indices (rows Qs)) (fun idx => q idx ^ 2)).
  { rewrite <- sumf_scal_l, <- sumf_minus, <- sumf_plus. apply sumf_ext. intros; ring. }
  rewrite E4, E1, E2 in E3. fold h. change (sumf (indices (map ncols Qs)) (fun j => h j ^ 2) <= sumf (indices (rows Qs)) (fun idx => f idx ^ 2)). lra.
Qed.
Lemma energy_back Qs : isometries Qs -> forall f j, valid j (map ncols Qs) ->
  sumf (indices (rows Qs)) (fun idx => entprod Qs idx j * sumf (indices (map ncols Qs)) (fun j' => f j' * entprod Qs idx j')) = f j.
Proof.
  induction 1 as [|Q Qs [HM HO] HI IH]; intros f j Hj.
  - apply valid_nil_inv in Hj as ->. cbn. lra.
  - cbn [map] in Hj |- *. apply valid_cons_inv in Hj as (a & js & -> & Ha & Hj). unfold rows. cbn [map]. rewrite sumf_indices_cons. fold (rows Qs).
    set (F := fun b idx => sumf (indices (map ncols Qs)) (fun j => f (b :: j) * entprod Qs idx j)).
    rewrite <- (IH (fun j => f (a :: j)) js Hj). rewrite sumf_swap. apply sumf_ext. intros idx _. cbn [entprod]. fold (F a idx).
    rewrite <- (@mprod_back (nrows Q) (ncols Q) (mget Q) (fun b _ => F b idx) a 0 HO Ha), <- sum_scal_l. apply sum_ext. intros i _.
    transitivity (mget Q i a * entprod Qs idx js * mprod (ncols Q) (mget Q) (fun b _ => F b idx) i 0); [|ring]. f_equal.
    rewrite sumf_indices_cons. unfold mprod. apply sum_ext. intros b _. unfold F. rewrite <- sumf_scal_l. apply sumf_ext. intros j _. cbn [entprod]. ring.
Qed.
Lemma rotated_back Qs X G j : rotated Qs X G -> valid j (shape G) ->
  sumf (indices (shape X)) (fun idx => entprod Qs idx j * get X idx) = get G j.
Proof.
  intros HR Hj. rewrite <- (ro_rows HR). rewrite <- (ro_cols HR) in Hj. rewrite <- (energy_back (ro_iso HR) (get G) Hj).
  apply sumf_ext. intros idx Hi. apply in_indices in Hi. rewrite (ro_rows HR) in Hi. now rewrite (ro_data HR), (ro_cols HR).
Qed.

Lemma nothing_lost K Qs X G Us w : rotated Qs X G -> factors_ok K X Us ->
  exists Us' Vs', carried_by K Qs Us' Vs' /\ factors_ok K X Us' /\ factors_ok K G Vs' /\
    sse X Us' w K = sse G Vs' w K /\ sse G Vs' w K <= sse X Us w K.
Proof.
  intros HR [HU Hr]. assert (Hr' : rows Us = rows Qs) by (now rewrite Hr, (ro_rows HR)).
  assert (Hl : length Us = length Qs) by (apply (f_equal (@length nat)) in Hr'; unfold rows in Hr'; now rewrite !map_length in Hr').
  destruct (pulled_shape K Hl) as [P1 P2]. destruct (pushed_carried P1 P2) as (C1 & C2 & C3).
  exists (pushed K Qs (pulled K Qs Us)), (pulled K Qs Us). split; [exact C1|].
  split; [split; [exact C2|now rewrite C3, (ro_rows HR)]|]. split; [split; [exact P1|now rewrite P2, (ro_cols HR)]|].
  split; [exact (sse_rotated HR C1 w)|].
  unfold sse. rewrite <- (ro_rows HR), <- (ro_cols HR).
  eapply Rle_trans; [|apply (energy_pulled (fun idx => get X idx - cp_entry Us w K idx) (ro_iso HR))].
  apply Req_le. apply sumf_ext. intros j Hj. apply in_indices in Hj. f_equal.
  rewrite <- (@rotated_back Qs X G j HR) by (now rewrite <- (ro_cols HR)). rewrite <- (ro_rows HR).
  transitivity (sumf (indices (rows Qs)) (fun idx => entprod Qs idx j * get X idx) - sumf (indices (rows Qs)) (fun idx => entprod Qs idx j * cp_entry Us w K idx)).
  - f_equal. unfold cp_entry. transitivity (sum K (fun r => sumf (indices (rows Qs)) (fun idx => entprod Qs idx j * (w r * colprod Us idx r)))).
    + apply sum_ext. intros r Hk. rewrite (colprod_pulled Hr' Hj Hk), <- sumf_scal_l. apply sumf_ext. intros; ring.
    + rewrite sumf_swap. apply sumf_ext. intros idx _. now rewrite sumf_scal_l.
  - rewrite <- sumf_minus. apply sumf_ext. intros; ring.
Qed.

(** *** The solvers *)
Section Solvers.
Variables (svd : svd_fun) (n k K : nat) (Q : nat -> nat -> R).
Hypothesis HS : svd_contract svd.
Definition lifted (M : nat) (B B' : nd) : Prop := is_mat n M B /\ is_mat k M B' /\
  forall i j, (i < n)%nat -> (j < M)%nat -> mget B i j = mprod k Q (mget B') i j.
(** Both solves succeed, and Z = Q Z'. *)
Definition solved (solve : nd -> nd -> res nd) (A B B' : nd) : Prop :=
  exists Z Z', solve A B = Ok Z /\ solve A B' = Ok Z' /\ lifted K Z Z'.

Lemma free_solved M A B B' : is_mat K M A -> lifted M B B' -> solved (rightsolve svd) A B B'.
Proof.
  intros HA (HB & HB' & E). destruct (HS HA) as (U & Sv & Vh & ES & HV).
  destruct (rightsolve_entries HB HV ES) as (Z & EZ & HZ & HZe). destruct (rightsolve_entries HB' HV ES) as (Z' & EZ' & HZ' & HZe').
  exists Z, Z'. split; [exact EZ|]. split; [exact EZ'|]. split; [exact HZ|]. split; [exact HZ'|].
  intros i a Hi Ha. rewrite HZe by auto. unfold mprod.
  transitivity (sum (Nat.min K M) (fun r => sum k (fun b => Q i b * (inv_nonzero (vget Sv r) * sum M (fun j => mget B' b j * mget Vh r j) * mget U a r)))).
  - apply sum_ext. intros r Hr.
    replace (sum M (fun j => mget B i j * mget Vh r j)) with (sum k (fun b => Q i b * sum M (fun j => mget B' b j * mget Vh r j))).
    + rewrite <- sum_scal_l, <- sum_scal_r. apply sum_ext. intros; ring.
    + transitivity (sum k (fun b => sum M (fun j => Q i b * mget B' b j * mget Vh r j))).
      * apply sum_ext. intros b _. rewrite <- sum_scal_l. apply sum_ext. intros; ring.
      * rewrite sum_swap. apply sum_ext. intros j Hj. rewrite E by auto. unfold mprod. now rewrite sum_scal_r.
  - rewrite sum_swap. apply sum_ext. intros b Hb. rewrite HZe' by auto. now rewrite sum_scal_l.
Qed.
End Solvers.
Lemma ridge_lifted n k K Q solve lam A B B' : is_mat K K A -> lifted n k Q K B B' ->
  exists A2 B2 B2', is_mat K (K + K) A2 /\ lifted n k Q (K + K) B2 B2' /\
    add_rightsolve_ridge solve lam A B = solve A2 B2 /\ add_rightsolve_ridge solve lam A B' = solve A2 B2'.
Proof.
  intros HA (HB & HB' & E).
  assert (HI : is_mat K K (np_map (Rmult (sqrt lam)) (np_identity K))) by (apply is_mat_np_map; apply is_mat_tab2).
  destruct (concat1_ok HA HI) as (A2 & EA & HA2 & _ & _).
  destruct (concat1_ok HB (is_mat_zeros n K)) as (B2 & EB & HB2 & H1 & H2).
  destruct (concat1_ok HB' (is_mat_zeros k K)) as (B2' & EB' & HB2' & H1' & H2').
  exists A2, B2, B2'. split; [exact HA2|]. split.
  - split; [exact HB2|]. split; [exact HB2'|]. intros i j Hi Hj. destruct (Nat.lt_ge_cases j K) as [Hj'|Hj'].
    + rewrite H1, E by auto. apply sum_ext. intros b Hb. now rewrite H1'.
    + replace j with (K + (j - K))%nat by lia. rewrite H2, mget_zeros by (auto; lia). symmetry. apply sum_zero. intros b Hb.
      rewrite H2', mget_zeros by (auto; lia). ring.
  - unfold add_rightsolve_ridge, shape2. rewrite (proj2 HA), (proj2 HB), (proj2 HB'). cbn [bind]. rewrite EA, EB, EB'. auto.
Qed.
Lemma orth_solved svd n k K Q A B B' : svd_contract svd -> orth_cols n k Q -> (0 < K)%nat -> k = n -> (K <= n)%nat -> is_mat K K A -> lifted n k Q K B B' ->
  solved n k K Q (orthogonal_rightsolve svd) A B B'.
Proof.
  intros HS HO HK Ek HKn HA (HB & HB' & E). subst k.
  set (W := tab2 n n Q).
  assert (EW : forall i j, (i < n)%nat -> (j < n)%nat -> mget W i j = Q i j) by (intros; unfold W; now rewrite mget_tab2).
  destruct (@expressed_solve svd K n n K (transp A) (transp B) (transp B') W HS) as (Z & Z' & EZ & EZ' & HZ & HZ' & HE); auto.
  - intros r s Hr Hs. rewrite <- (HO r s Hr Hs). apply sum_ext. intros i Hi. now rewrite !EW.
  - intros i j Hi Hj. rewrite (mget_transp HB), E by auto. unfold mprod. apply sum_ext. intros b Hb. rewrite (mget_transp HB'), EW by auto. ring.
  - intros M0 U Sv Vh _ _ _ r _. tauto.
  - exists (transp Z), (transp Z'). unfold orthogonal_rightsolve. rewrite EZ, EZ'. split; [reflexivity|]. split; [reflexivity|].
    split; [auto|]. split; [auto|]. intros i j Hi Hj. rewrite HE by auto. apply sum_ext. intros b Hb. now rewrite EW.
Qed.
Lemma reordered n p Q Y i j : reordering n p Q -> (i < n)%nat -> mprod n Q Y i j = Y (p i) j.
Proof.
  intros HQ Hi. destruct (HQ i Hi) as [Hp He]. transitivity (sum n (fun b => delta (p i) b * Y b j)).
  - apply sum_ext. intros b Hb. now rewrite He.
  - now apply (@sum_delta_l n (p i) (fun b => Y b j)).
Qed.
Lemma nonneg_solved nnls n k K M Q p A B B' : nnls_contract nnls -> k = n -> reordering n p Q -> is_mat K M A -> lifted n k Q M B B' ->
  solved n k K Q (non_negative_rightsolve nnls) A B B'.
Proof.
  intros HN Ek HQ HA (HB & HB' & E). subst k.
  set (x := fun i => match nnls (transp A) (row B' i) with Ok v => v | Err _ => A end).
  assert (Hx : forall i, (i < n)%nat -> nnls (transp A) (row B' i) = Ok (x i) /\ is_nnls M K (transp A) (row B' i) (x i)).
  { intros i Hi. unfold x. destruct (HN M K (transp A) (row B' i)) as (v & Ev & Hv); [now apply is_mat_transp|exact (is_vec_row HB' Hi)|]. rewrite Ev. auto. }
  assert (Hrow : forall i, (i < n)%nat -> row B i = row B' (p i)).
  { intros i Hi. destruct (HQ i Hi) as [Hp _]. apply (vec_ext (is_vec_row HB Hi) (is_vec_row HB' Hp)). intros j Hj.
    rewrite !vget_row with (m := M) (n := n) by auto. rewrite E by auto. now apply reordered. }
  destruct (@nonneg_rightsolve_ok nnls K M n A B (fun i => x (p i)) HA HB) as (Z & EZ & HZ & HZe).
  { intros i Hi. rewrite Hrow by auto. apply Hx. now apply HQ. }
  destruct (@nonneg_rightsolve_ok nnls K M n A B' x HA HB' Hx) as (Z' & EZ' & HZ' & HZe').
  exists Z, Z'. split; [exact EZ|]. split; [exact EZ'|]. split; [exact HZ|]. split; [exact HZ'|].
  intros i j Hi Hj. rewrite (@reordered n p Q (mget Z') i j HQ Hi), HZe, HZe' by (auto; now apply HQ). reflexivity.
Qed.

(** *** Two runs side by side *)
Section Runs.
Variables (env : cp_env) (cs : cp_settings) (K : nat) (X G : nd) (nn orth : option (list bool)) (Qs : list nd).
Hypothesis (HX : constrained env cs K X nn orth) (HG : constrained env cs K G nn orth) (HR : rotated Qs X G) (HP : permitted nn orth Qs).
Let md := cp_model env cs.
Notation fms s := (kt_fms (cp_dec s)).

Record turned (s t : cp_state) : Prop := {
  tu_coh : cp_coherent K s; tu_coh' : cp_coherent K t;
  tu_flag : flagged X nn orth s; tu_flag' : flagged G nn orth t;
  tu_fac : carried_by K Qs (fms s) (fms t) }.

Lemma update_turned s t m : turned s t -> (m < length (shape X))%nat ->
  exists s' t', cp_update_factor env cs s m = (s', None) /\ cp_update_factor env cs t m = (t', None) /\
    same_problem s s' /\ same_problem t t' /\ turned s' t'.
Proof.
  intros [HC HC' [EX HF] [EG HF'] HB] Hm. destruct (rot_len HR) as [L1 L2]. destruct (@rot_nth _ _ _ HR m) as [N1 N2]; [lia|].
  destruct (HF m Hm) as [(a & Fa & Ha) (b & Fb & Hb)]. destruct (HF' m ltac:(lia)) as [(a' & Fa' & Ha') (b' & Fb' & Hb')].
  assert (a' = a) as -> by (destruct a, a'; intuition congruence). assert (b' = b) as -> by (destruct b, b'; intuition congruence).
  destruct (penalty_here HX Hm) as (lam & Hp & Hl).
  destruct (@normal_matrices env cs K s m HC (cn_rank HX)) as (V & P & EV & EP & HV & HPm & HVe & HPe & _); [now rewrite EX|].
  destruct (@normal_matrices env cs K t m HC' (cn_rank HG)) as (V' & P' & EV' & EP' & HV' & HPm' & HVe' & HPe' & _); [rewrite EG; lia|].
  assert (V' = V) as ->. { apply (mat_ext HV' HV). intros r u Hr Hu. rewrite HVe, HVe' by auto. symmetry. now apply (lhs_rotated HR HB). }
  rewrite EX in HPm, HPe. rewrite EG in HPm', HPe'. rewrite <- N1 in HPm, HPe. rewrite <- N2 in HPm', HPe'.
  pose proof (iso_nth (ro_iso HR) (ltac:(lia) : (m < length Qs)%nat)) as [HQm HQo].
  destruct (HP (m := m) ltac:(lia)) as [Ho Hn]. set (Q := nth m Qs m0) in *.
  assert (HL : lifted (nrows Q) (ncols Q) (mget Q) K P P').
  { split; [exact HPm|]. split; [exact HPm'|]. intros i r Hi Hr. rewrite HPe by auto. unfold normal_rhs.
    rewrite (mttkrp_rotated HR HB) by (auto; lia). fold Q. apply sum_ext. intros j Hj. now rewrite HPe'. }
  assert (Hsolve : exists solve, get_rightsolve env cs (cp_nn s) (cp_orth s) m = Ok solve /\ get_rightsolve env cs (cp_nn t) (cp_orth t) m = Ok solve /\
     solved (nrows Q) (ncols Q) K (mget Q) solve V P P').
  { pose proof (rightsolve_flags env Fa Fb Hp) as ES. pose proof (rightsolve_flags env Fa' Fb' Hp) as ES'.
    destruct b; [destruct a|destruct a]; cbn [andb] in ES, ES'; cbv zeta in ES, ES'.
    - exfalso. apply (cn_apart HX (m := m)); [now apply Ha|now apply Hb].
    - assert (Hsq : ncols Q = nrows Q) by (apply Ho; now apply Hb).
      assert (HKn : (K <= nrows Q)%nat) by (rewrite N1; apply (cn_fits HX); now apply Hb).
      pose proof (orth_solved (cn_svd HX) HQo (cn_pos HX) Hsq HKn HV HL) as (Z & Z' & E1 & E2 & E3).
      destruct (cs_ridge cs).
      + eexists. split; [exact ES|]. split; [exact ES'|]. exists Z, Z'.
        rewrite (ridge_orthogonal (env_svd env) HV HPm Hl), (ridge_orthogonal (env_svd env) HV HPm' Hl). auto.
      + eexists. split; [exact ES|]. split; [exact ES'|]. exists Z, Z'. auto.
    - destruct Hn as [Hsq (p & Hid)]; [now apply Ha|].
      destruct (cs_ridge cs).
      + eexists. split; [exact ES|]. split; [exact ES'|].
        destruct (ridge_lifted (non_negative_rightsolve (env_nnls env)) lam HV HL) as (A2 & B2 & B2' & HA2 & HL2 & R1 & R2).
        destruct (nonneg_solved (cn_nnls HX) Hsq Hid HA2 HL2) as (Z & Z' & E1 & E2 & E3). exists Z, Z'. rewrite R1, R2. auto.
      + eexists. split; [exact ES|]. split; [exact ES'|]. exact (nonneg_solved (cn_nnls HX) Hsq Hid HV HL).
    - destruct (cs_ridge cs).
      + eexists. split; [exact ES|]. split; [exact ES'|].
        destruct (ridge_lifted (rightsolve (env_svd env)) lam HV HL) as (A2 & B2 & B2' & HA2 & HL2 & R1 & R2).
        destruct (free_solved (cn_svd HX) HA2 HL2) as (Z & Z' & E1 & E2 & E3). exists Z, Z'. rewrite R1, R2. auto.
      + eexists. split; [exact ES|]. split; [exact ES'|]. exact (free_solved (cn_svd HX) HV HL). }
  destruct Hsolve as (solve & ES & ES' & Z & Z' & EZ & EZ' & HZ & HZ' & HZe).
  assert (HmX : (m < length (shape (cp_X s)))%nat) by now rewrite EX.
  assert (HmG : (m < length (shape (cp_X t)))%nat) by (rewrite EG; lia).
  destruct (update_with_solver HC HmX EV EP ES EZ) as (s' & Es & Hfm & _ & _ & HSP & HCs); [rewrite EX, <- N1; exact HZ|].
  destruct (update_with_solver HC' HmG EV' EP' ES' EZ') as (t' & Et & Hfm' & _ & _ & HSP' & HCt); [rewrite EG, <- N2; exact HZ'|].
  exists s', t'. split; [exact Es|]. split; [exact Et|]. split; [exact HSP|]. split; [exact HSP'|]. constructor; auto.
  - apply (flagged_same HSP). split; auto.
  - apply (flagged_same HSP'). split; auto.
  - rewrite Hfm, Hfm'. unfold with_factor. apply carried_replace; auto; try lia.
    + exact (is_mat_nrows HZ).
    + exact (is_mat_nrows HZ').
Qed.

Lemma modes_turned l : forall s t, turned s t -> Forall (fun m => (m < length (shape X))%nat) l ->
  exists s' t', cp_update_modes env cs l s = (s', None) /\ cp_update_modes env cs l t = (t', None) /\
    same_problem s s' /\ same_problem t t' /\ turned s' t'.
Proof.
  induction l as [|m l IH]; intros s t H Hl.
  - exists s, t. split; [reflexivity|]. split; [reflexivity|]. split; [apply same_problem_refl|]. split; [apply same_problem_refl|exact H].
  - inversion Hl as [|? ? Hm Hl']; subst. destruct (update_turned H Hm) as (s1 & t1 & E & E' & S1 & S1' & H1).
    destruct (IH s1 t1 H1 Hl') as (s2 & t2 & F & F' & S2 & S2' & H2).
    exists s2, t2. cbn [cp_update_modes]. rewrite E, E', F, F'. split; [reflexivity|]. split; [reflexivity|].
    split; [eapply same_problem_trans; eauto|]. split; [eapply same_problem_trans; eauto|exact H2].
Qed.
Lemma passes_turned s t j : turned s t -> turned (state_after md s j) (state_after md t j).
Proof.
  intros H. induction j as [|j IH]; [exact H|]. cbn [state_after md cp_model md_update]. fold md. unfold cp_update_factors, ndim.
  rewrite (proj1 (tu_flag IH)), (proj1 (tu_flag' IH)), (proj2 (rot_len HR)).
  destruct (@modes_turned (seq 0 (length (shape X))) _ _ IH) as (s' & t' & E & E' & _ & _ & H').
  - apply Forall_forall. intros m Hm. apply in_seq in Hm. lia.
  - rewrite E, E'. exact H'.
Qed.

Lemma turned_sse s t : turned s t -> sse X (fms s) unit_weights K = sse G (fms t) unit_weights K.
Proof. intros H. exact (sse_rotated HR (tu_fac H) unit_weights). Qed.
Lemma turned_norm s t : turned s t -> cp_norm s ^ 2 = cp_norm t ^ 2.
Proof.
  intros H. rewrite (co_norm (tu_coh H)), (co_norm (tu_coh' H)), (proj1 (tu_flag H)), (proj1 (tu_flag' H)).
  apply (norm_rotated HR); [apply (cn_data HX)|apply (cn_data HG)].
Qed.

Lemma stops_turned s t cf cf' j : turned s t -> unit_w K s -> unit_w K t -> cf_tol cf' = cf_tol cf -> cf_rel_tol cf' = cf_rel_tol cf ->
  cp_stops md cf' (Fin (sse G (fms t) unit_weights K)) PInf t j = cp_stops md cf (Fin (sse X (fms s) unit_weights K)) PInf s j.
Proof.
  intros H HU HU' Et Er.
  assert (HL : forall j, sse G (fms (state_after md t j)) unit_weights K = sse X (fms (state_after md s j)) unit_weights K).
  { intros i. symmetry. apply turned_sse. now apply passes_turned. }
  assert (HLs : forall j, loss_at md s j = Ok (Fin (sse X (fms (state_after md s j)) unit_weights K))).
  { intros i. unfold md. rewrite (@loss_is_sse env cs K s i (tu_coh H) HU), (proj1 (tu_flag H)). reflexivity. }
  assert (HLt : forall j, loss_at md t j = Ok (Fin (sse X (fms (state_after md s j)) unit_weights K))).
  { intros i. rewrite <- HL. unfold md. rewrite (@loss_is_sse env cs K t i (tu_coh' H) HU'), (proj1 (tu_flag' H)). reflexivity. }
  assert (HL0 : sse G (fms t) unit_weights K = sse X (fms s) unit_weights K) by (symmetry; now apply turned_sse).
  unfold cp_stops. rewrite HLs, HLt. cbn [bind].
  assert (Hrel : rel_at md (Fin (sse G (fms t) unit_weights K)) PInf t j = rel_at md (Fin (sse X (fms s) unit_weights K)) PInf s j).
  { destruct j as [|j]; [reflexivity|]. cbn [rel_at]. rewrite HLs, HLt.
    destruct j as [|j]; cbn [prev_at bind]; [now rewrite HL0|]. now rewrite HLs, HLt. }
  rewrite Hrel. destruct (rel_at md _ PInf s j) as [x|]; [|reflexivity]. cbn [bind]. rewrite Et, Er. do 3 f_equal.
  f_equal. cbn [md_norm2 md cp_model]. fold md. f_equal. symmetry. apply turned_norm. now apply passes_turned.
Qed.

Lemma loops_turned ds dt d e cf cf' : turned (ds_num ds) (ds_num dt) -> unit_w K (ds_num ds) -> unit_w K (ds_num dt) ->
  ds_prev ds = Fin (sse X (fms (ds_num ds)) unit_weights K) -> ds_prev dt = Fin (sse G (fms (ds_num dt)) unit_weights K) ->
  ds_rel ds = PInf -> ds_rel dt = PInf -> ds_it dt = ds_it ds -> ds_max dt = ds_max ds ->
  cf_tol cf' = cf_tol cf -> cf_rel_tol cf' = cf_rel_tol cf ->
  cp_fit_loop md cf ds = (d, None) -> cp_fit_loop md cf' dt = (e, None) ->
  ds_it e = ds_it d /\ exists n, ds_num d = state_after md (ds_num ds) n /\ ds_num e = state_after md (ds_num dt) n.
Proof.
  intros H HU HU' Ep Ep' Er Er' Ei Em Et Et' E E'.
  destruct (cp_fit_lemma E) as (n & Hn & En & Hbefore & Hend). destruct (Hend eq_refl) as [Hstop Hit].
  destruct (cp_fit_lemma E') as (n' & Hn' & En' & Hbefore' & Hend'). destruct (Hend' eq_refl) as [Hstop' Hit'].
  rewrite Ep, Er in Hbefore, Hstop. rewrite Ep', Er', Ei, Em in *.
  assert (ES : forall j, cp_stops md cf' (Fin (sse G (fms (ds_num dt)) unit_weights K)) PInf (ds_num dt) j =
     cp_stops md cf (Fin (sse X (fms (ds_num ds)) unit_weights K)) PInf (ds_num ds) j) by (intros j; now apply stops_turned).
  assert (Enn : n' = n).
  { destruct (Nat.lt_trichotomy n n') as [Hlt|[Heq|Hlt]]; auto.
    - destruct Hstop as [Hs|Hs]; [lia|]. specialize (Hbefore' n Hlt). rewrite ES in Hbefore'. congruence.
    - destruct Hstop' as [Hs|Hs]; [lia|]. specialize (Hbefore n' Hlt). rewrite ES in Hs. congruence. }
  subst n'. split; [congruence|]. exists n. auto.
Qed.

(** *** Complete fits *)
Lemma fits_turned cf cf' disk disk' draws draws' max_its max_its' arg arg' ds dt ds1 dt1 :
  let budget := match max_its with Some m => m | None => ds_max ds end in
  let budget' := match max_its' with Some m => m | None => ds_max dt end in
  constrained_call env cs cf K X nn orth draws budget arg ds -> constrained_call env cs cf' K G nn orth draws' budget' arg' dt ->
  budget' = budget -> cf_tol cf' = cf_tol cf -> cf_rel_tol cf' = cf_rel_tol cf ->
  cp_init_fit env cs disk draws X max_its arg ds = (ds1, None) ->
  cp_init_fit env cs disk' draws' G max_its' arg' dt = (dt1, None) ->
  carried_by K Qs (fms (ds_num ds1)) (fms (ds_num dt1)) ->
  exists d e x, cp_fit env cs cf disk draws X max_its arg ds = (d, None) /\ cp_fit env cs cf' disk' draws' G max_its' arg' dt = (e, None) /\
    ds_it e = ds_it d /\ carried_by K Qs (fms (ds_num d)) (fms (ds_num e)) /\
    cp_SSE env (ds_num d) = Ok x /\ cp_SSE env (ds_num e) = Ok x /\
    cp_metric env cs KExplained (ds_num e) = cp_metric env cs KExplained (ds_num d).
Proof.
  intros budget budget' (A1 & A2 & A3 & A4 & A5 & A6 & A7) (B1 & B2 & B3 & B4 & B5 & B6 & B7) Eb Et Er E1 E1' HB.
  destruct (@constrained_fit_completes env cs K X nn orth HX cf disk draws max_its arg ds A1 A2 A3 A4 A5 A6 A7) as (x1 & d & F1 & F & _).
  destruct (@constrained_fit_completes env cs K G nn orth HG cf' disk' draws' max_its' arg' dt B1 B2 B3 B4 B5 B6 B7) as (y1 & e & F1' & F' & _).
  rewrite E1 in F1. injection F1 as <-. rewrite E1' in F1'. injection F1' as <-.
  assert (Hl : forall Y c, flags_for (length (shape Y)) c -> match c with Some l => (length l <= length (shape Y))%nat | None => True end).
  { intros Y c [->|(l & -> & El)]; [exact I|lia]. }
  destruct (@usable_begun env cs K disk draws X arg ds (cn_rank HX) (cn_data HX) A1) as (k & G1 & G2 & G3 & G4).
  { rewrite A2. apply Hl. apply (cn_nn HX). }
  destruct (@usable_begun env cs K disk' draws' G arg' dt (cn_rank HG) (cn_data HG) B1) as (k' & G1' & G2' & G3' & G4').
  { rewrite B2. apply Hl. apply (cn_nn HG). }
  destruct (@constrained_start env cs K X nn orth HX disk draws max_its arg ds k 0%Z G1 G2 G3 G4 A2 A3 A4)
    as (z1 & I1 & C1 & U1 & L1 & _ & T1 & M1 & _ & _ & P1 & R1 & _).
  destruct (@constrained_start env cs K G nn orth HG disk' draws' max_its' arg' dt k' 0%Z G1' G2' G3' G4' B2 B3 B4)
    as (w1 & I2 & C2 & U2 & L2 & _ & T2 & M2 & _ & _ & P2 & R2 & _).
  rewrite E1 in I1. injection I1 as <-. rewrite E1' in I2. injection I2 as <-.
  assert (HT : turned (ds_num ds1) (ds_num dt1)) by (constructor; auto).
  pose proof F as FL. unfold cp_fit in FL. rewrite E1 in FL. pose proof F' as FL'. unfold cp_fit in FL'. rewrite E1' in FL'.
  destruct (@loops_turned ds1 dt1 d e cf cf' HT U1 U2 P1 P2 R1 R2) as [Hit (n & En & En')]; auto; try congruence; try (rewrite M1, M2; exact Eb).
  pose proof (passes_turned n HT) as HTn. rewrite <- En, <- En' in HTn.
  pose proof (proj2 (@after_coherent env cs K (ds_num ds1) n C1)) as S1. pose proof (proj2 (@after_coherent env cs K (ds_num dt1) n C2)) as S2.
  fold md in S1, S2. rewrite <- En in S1. rewrite <- En' in S2.
  assert (X1 : cp_SSE env (ds_num d) = Ok (sse X (fms (ds_num d)) unit_weights K)).
  { rewrite (cp_SSE_ok env (tu_coh HTn)), (unit_sse (unit_w_same S1 U1)), (proj1 (tu_flag HTn)). reflexivity. }
  assert (X2 : cp_SSE env (ds_num e) = Ok (sse X (fms (ds_num d)) unit_weights K)).
  { rewrite (cp_SSE_ok env (tu_coh' HTn)), (unit_sse (unit_w_same S2 U2)), (proj1 (tu_flag' HTn)). now rewrite (turned_sse HTn). }
  exists d, e, (sse X (fms (ds_num d)) unit_weights K). split; [exact F|]. split; [exact F'|]. split; [exact Hit|].
  split; [apply HTn|]. split; [exact X1|]. split; [exact X2|].
  cbn [cp_metric]. unfold cp_explained, explained_of. rewrite X1, X2. cbn [bind]. now rewrite (turned_norm HTn).
Qed.

Lemma iterations_turned cf cf' disk disk' draws draws' max_its max_its' arg arg' ds dt ds1 dt1 :
  constrained_call env cs cf K X nn orth draws (match max_its with Some m => m | None => ds_max ds end) arg ds ->
  constrained_call env cs cf' K G nn orth draws' (match max_its' with Some m => m | None => ds_max dt end) arg' dt ->
  cp_init_fit env cs disk draws X max_its arg ds = (ds1, None) -> cp_init_fit env cs disk' draws' G max_its' arg' dt = (dt1, None) ->
  carried_by K Qs (fms (ds_num ds1)) (fms (ds_num dt1)) ->
  forall j, let s := state_after md (ds_num ds1) j in let t := state_after md (ds_num dt1) j in
    carried_by K Qs (fms s) (fms t) /\ sse X (fms s) unit_weights K = sse G (fms t) unit_weights K /\ md_loss md t = md_loss md s.
Proof.
  intros (A1 & A2 & A3 & A4 & _) (B1 & B2 & B3 & B4 & _) E1 E1' HB j s t.
  assert (Hl : forall Y c, flags_for (length (shape Y)) c -> match c with Some l => (length l <= length (shape Y))%nat | None => True end).
  { intros Y c [->|(l & -> & El)]; [exact I|lia]. }
  destruct (@usable_begun env cs K disk draws X arg ds (cn_rank HX) (cn_data HX) A1) as (k & G1 & G2 & G3 & G4).
  { rewrite A2. apply Hl. apply (cn_nn HX). }
  destruct (@usable_begun env cs K disk' draws' G arg' dt (cn_rank HG) (cn_data HG) B1) as (k' & G1' & G2' & G3' & G4').
  { rewrite B2. apply Hl. apply (cn_nn HG). }
  destruct (@constrained_start env cs K X nn orth HX disk draws max_its arg ds k 0%Z G1 G2 G3 G4 A2 A3 A4) as (z1 & I1 & C1 & U1 & L1 & _).
  destruct (@constrained_start env cs K G nn orth HG disk' draws' max_its' arg' dt k' 0%Z G1' G2' G3' G4' B2 B3 B4) as (w1 & I2 & C2 & U2 & L2 & _).
  rewrite E1 in I1. injection I1 as <-. rewrite E1' in I2. injection I2 as <-.
  assert (HT : turned (ds_num ds1) (ds_num dt1)) by (constructor; auto).
  pose proof (passes_turned j HT) as HTj. fold s t in HTj. split; [apply HTj|]. split; [now apply turned_sse|].
  pose proof (@loss_is_sse env cs K (ds_num ds1) j C1 U1) as H1. pose proof (@loss_is_sse env cs K (ds_num dt1) j C2 U2) as H2.
  rewrite (proj1 L1) in H1. rewrite (proj1 L2) in H2.
  unfold loss_at in H1, H2. fold md in H1, H2. unfold s, t. rewrite H1, H2. do 2 f_equal. symmetry. exact (turned_sse HTj).
Qed.
(** Starts given by the caller, without orthonormal modes *)
Lemma given_turned cf cf' disk disk' draws draws' max_its max_its' k k' ds dt :
  let budget := match max_its with Some m => m | None => ds_max ds end in
  let budget' := match max_its' with Some m => m | None => ds_max dt end in
  constrained_call env cs cf K X nn orth draws budget (DecArg k) ds -> constrained_call env cs cf' K G nn orth draws' budget' (DecArg k') dt ->
  budget' = budget -> cf_tol cf' = cf_tol cf -> cf_rel_tol cf' = cf_rel_tol cf ->
  (forall m, ~ asked orth m) -> carried_by K Qs (kt_fms k) (kt_fms k') ->
  exists d e x, cp_fit env cs cf disk draws X max_its (DecArg k) ds = (d, None) /\ cp_fit env cs cf' disk' draws' G max_its' (DecArg k') dt = (e, None) /\
    ds_it e = ds_it d /\ carried_by K Qs (fms (ds_num d)) (fms (ds_num e)) /\
    cp_SSE env (ds_num d) = Ok x /\ cp_SSE env (ds_num e) = Ok x /\
    cp_metric env cs KExplained (ds_num e) = cp_metric env cs KExplained (ds_num d).
Proof.
  intros budget budget' HA HB Eb Et Er Hno HC.
  assert (Hst : forall Y cf disk draws b max_its j ds, constrained env cs K Y nn orth -> constrained_call env cs cf K Y nn orth draws b (DecArg j) ds ->
    exists ds1, cp_init_fit env cs disk draws Y max_its (DecArg j) ds = (ds1, None) /\ fms (ds_num ds1) = kt_fms j).
  { intros Y c0 dk dr b mi j dd HY (A1 & A2 & A3 & A4 & _).
    destruct A1 as [(_ & A1 & _)|[(_ & A1 & _)|(Hi & j' & A1 & HF & Hw & Hrk)]]; try discriminate. injection A1 as <-.
    destruct (@init_precomputed env cs dk dr (targeted Y dd) j Hi) as [Hacc _].
    assert (E : cp_init_components env cs dk dr (DecArg j) (targeted Y dd) = (begun Y dd j 0, None)).
    { apply Hacc. rewrite (cn_rank HY). now apply factors_fit. }
    destruct (@constrained_start env cs K Y nn orth HY dk dr mi (DecArg j) dd j 0%Z E HF Hw Hrk A2 A3 A4)
      as (d1 & I1 & C1 & _ & L1 & _ & _ & _ & _ & _ & _ & _ & N1 & _).
    exists d1. split; [exact I1|]. apply (nth_ext _ _ m0 m0).
    - pose proof (coherent_len C1) as H1. rewrite (proj1 L1) in H1. rewrite H1. symmetry. exact (mode_len (proj2 HF)).
    - intros m _. apply N1. apply Hno. }
  destruct (Hst X cf disk draws _ max_its k ds HX HA) as (ds1 & E1 & F1).
  destruct (Hst G cf' disk' draws' _ max_its' k' dt HG HB) as (dt1 & E2 & F2).
  apply (@fits_turned cf cf' disk disk' draws draws' max_its max_its' (DecArg k) (DecArg k') ds dt ds1 dt1); auto. now rewrite F1, F2.
Qed.
End Runs.
