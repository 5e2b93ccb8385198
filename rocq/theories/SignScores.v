(** Data-driven sign scores (utils.get_signs, KruskalTensor.get_signs): lemmas for C65. *)
From Verif Require Export SignSpec DecompLemmas Solves CPFacts Exists.
Set Implicit Arguments.
Unset Strict Implicit.
Local Open Scope R_scope.

(** *** The least-squares solution of smallest norm is unique *)
Definition mid (D E : nat -> nat -> R) (i j : nat) : R := (D i j + E i j) / 2.
Lemma frob2_mid n m D E : frob2 n m (mid D E) = (frob2 n m D + frob2 n m E) / 2 - dist2 n m D E / 4.
Proof.
  unfold frob2, dist2, mid. unfold Rdiv. rewrite Rmult_plus_distr_r.
  transitivity (sum n (fun i => sum m (fun j => D i j ^ 2 * / 2 + E i j ^ 2 * / 2 - (D i j - E i j) ^ 2 * / 4))).
  - apply sum_ext. intros i Hi. apply sum_ext. intros j Hj. field.
  - rewrite <- !sum_scal_r, <- Lin.sum_plus, <- Lin.sum_minus. apply sum_ext. intros i Hi.
    rewrite <- !sum_scal_r, <- Lin.sum_plus, <- Lin.sum_minus. reflexivity.
Qed.
Lemma frob2_ext n m D E : (forall i j, (i < n)%nat -> (j < m)%nat -> D i j = E i j) -> frob2 n m D = frob2 n m E.
Proof. intros H. apply sum_ext. intros i Hi. apply sum_ext. intros j Hj. now rewrite H. Qed.
Lemma dist2_ge0 n m D E : 0 <= dist2 n m D E.
Proof. apply sum_nonneg. intros i Hi. apply sum_nonneg. intros j Hj. apply pow2_ge_0. Qed.
Lemma dist2_eq0 n m D E : dist2 n m D E <= 0 -> forall i j, (i < n)%nat -> (j < m)%nat -> D i j = E i j.
Proof.
  intros H i j Hi Hj. assert (H0 : dist2 n m D E = 0) by (pose proof (dist2_ge0 n m D E); lra).
  unfold dist2 in H0.
  assert (H1 := @sum_nonneg_zero _ _ (fun i Hi => @sum_nonneg m _ (fun j Hj => pow2_ge_0 (D i j - E i j))) H0 i Hi).
  cbv beta in H1. assert (H2 := @sum_nonneg_zero _ _ (fun j Hj => pow2_ge_0 (D i j - E i j)) H1 j Hj). cbv beta in H2.
  assert (D i j - E i j = 0); [|lra]. destruct (Req_dec (D i j - E i j) 0) as [|Hn]; auto.
  exfalso. apply (pow_nonzero _ 2) in Hn. contradiction.
Qed.

Lemma lstsq_unique n k m A B D E : is_lstsq n k m A B D -> is_lstsq n k m A B E -> D = E.
Proof.
  intros (HD & D1 & D2) (HE & E1 & E2). apply (mat_ext HD HE). apply dist2_eq0.
  set (P := fun i j => mprod k (mget A) (mget D) i j - mget B i j).
  set (Q := fun i j => mprod k (mget A) (mget E) i j - mget B i j).
  assert (HM : dist2 n m (mprod k (mget A) (mid (mget D) (mget E))) (mget B) = frob2 n m (mid P Q)).
  { unfold dist2. apply sum_ext. intros i Hi. apply sum_ext. intros j Hj. f_equal. unfold mid, P, Q, mprod.
    replace (sum k (fun r => mget A i r * ((mget D r j + mget E r j) / 2))) with
      ((sum k (fun r => mget A i r * mget D r j) + sum k (fun r => mget A i r * mget E r j)) * / 2); [field|].
    rewrite <- Lin.sum_plus, <- sum_scal_r. apply sum_ext. intros r Hr. field. }
  assert (HP : dist2 n m (mprod k (mget A) (mget D)) (mget B) = frob2 n m P) by reflexivity.
  assert (HQ : dist2 n m (mprod k (mget A) (mget E)) (mget B) = frob2 n m Q) by reflexivity.
  pose proof (D1 (mget E)) as H1. pose proof (E1 (mget D)) as H2.
  pose proof (frob2_mid n m P Q) as H3. pose proof (dist2_ge0 n m P Q) as H4.
  assert (H5 : frob2 k m (mget D) <= frob2 k m (mid (mget D) (mget E))) by (apply D2; lra).
  assert (H6 : frob2 k m (mget D) <= frob2 k m (mget E)) by (apply D2; lra).
  assert (H7 : frob2 k m (mget E) <= frob2 k m (mget D)) by (apply E2; lra).
  rewrite frob2_mid in H5. lra.
Qed.

(** *** Multiplying columns by signs *)
Lemma sq_sign s : s = 1 \/ s = -1 -> s * s = 1.
Proof. intros [->| ->]; ring. Qed.
Lemma lstsq_signs n k m U V X D s : is_lstsq n k m U X D -> column_signs n k s U V ->
  is_lstsq n k m V X (tab2 k m (fun r j => s r * mget D r j)).
Proof.
  intros (HD & D1 & D2) (Hs & HV).
  assert (HE : forall E, dist2 n m (mprod k (mget V) E) (mget X) = dist2 n m (mprod k (mget U) (fun r j => s r * E r j)) (mget X)).
  { intros E. apply sum_ext. intros i Hi. apply sum_ext. intros j Hj. f_equal. f_equal. apply sum_ext. intros r Hr.
    rewrite HV by auto. ring. }
  assert (HT : dist2 n m (mprod k (mget V) (mget (tab2 k m (fun r j => s r * mget D r j)))) (mget X) =
               dist2 n m (mprod k (mget U) (mget D)) (mget X)).
  { rewrite HE. apply sum_ext. intros i Hi. apply sum_ext. intros j Hj. f_equal. f_equal. apply sum_ext. intros r Hr.
    rewrite mget_tab2 by auto. rewrite <- Rmult_assoc with (r1 := s r), sq_sign by auto. ring. }
  assert (HF : forall E, frob2 k m (fun r j => s r * E r j) = frob2 k m E).
  { intros E. apply sum_ext. intros r Hr. apply sum_ext. intros j Hj. replace ((s r * E r j) ^ 2) with (s r * s r * E r j ^ 2) by ring.
    rewrite sq_sign by auto. ring. }
  split; [apply is_mat_tab2|]. split.
  - intros E. rewrite HT, HE. apply D1.
  - intros E. rewrite HT, HE. intros H. apply D2 in H. rewrite HF in H.
    rewrite (@frob2_ext _ _ _ (fun r j => s r * mget D r j)) by (intros; now rewrite mget_tab2). now rewrite HF.
Qed.

(** *** get_signs with data *)
Lemma sgn_sq x : sgn x * x ^ 2 = x * Rabs x.
Proof.
  destruct (sgn_cases x) as [[H ->]|[[-> ->]|[H ->]]]; [rewrite Rabs_left by auto|rewrite Rabs_R0|rewrite Rabs_right by lra]; ring.
Qed.
Lemma get_signs_data lstsq n k m U X D : is_mat n k U -> is_mat n m X -> lstsq U X = Ok D -> is_lstsq n k m U X D ->
  exists g w, get_signs lstsq U (Some X) = Ok (g, w) /\ is_vec k g /\ is_vec k w /\
    forall r, (r < k)%nat -> vget w r = signed_sum m (mget D r) /\ vget g r = sgn (vget w r).
Proof.
  intros HU HX E (HD & _). unfold get_signs. rewrite E. cbn [bind]. unfold shape2. rewrite (proj2 HD).
  cbn [bind fst snd]. set (w := tab1 k _). assert (Hw : is_vec k w) by apply is_vec_tab1.
  exists (np_map sgn w), w. split; [reflexivity|]. split; [now apply is_vec_np_map|]. split; [exact Hw|].
  intros r Hr. split; [|now rewrite (vget_np_map sgn Hw)]. unfold w. rewrite vget_tab1 by auto.
  apply sum_ext. intros j Hj. apply sgn_sq.
Qed.

Lemma signed_sum_sign m s row : s = 1 \/ s = -1 -> signed_sum m (fun j => s * row j) = s * signed_sum m row.
Proof.
  intros Hs. unfold signed_sum. rewrite <- sum_scal_l. apply sum_ext. intros j Hj. rewrite Rabs_mult.
  assert (E : Rabs s = 1) by (destruct Hs as [->| ->]; [apply Rabs_R1|rewrite Rabs_left by lra; ring]). rewrite E. ring.
Qed.
Lemma signed_sum_ext m f g : (forall j, (j < m)%nat -> f j = g j) -> signed_sum m f = signed_sum m g.
Proof. intros H. apply sum_ext. intros j Hj. now rewrite H. Qed.

(** Changing the sign of columns changes the signs of their scores, and nothing else *)
Lemma scores_follow_signs lstsq n k m U V X s : lstsq_contract lstsq -> is_mat n k U -> is_mat n k V -> is_mat n m X ->
  column_signs n k s U V ->
  exists g w g' w', get_signs lstsq U (Some X) = Ok (g, w) /\ get_signs lstsq V (Some X) = Ok (g', w') /\
    is_vec k w /\ is_vec k w' /\
    forall r, (r < k)%nat -> vget w' r = s r * vget w r /\ vget g' r = s r * vget g r.
Proof.
  intros HL HU HV HX Hs. destruct (HL n k m U X HU HX) as (D & E & HD). destruct (HL n k m V X HV HX) as (D' & E' & HD').
  destruct (get_signs_data HU HX E HD) as (g & w & Eg & _ & Hw & H). destruct (get_signs_data HV HX E' HD') as (g' & w' & Eg' & _ & Hw' & H').
  exists g, w, g', w'. repeat (split; [assumption|]). intros r Hr. destruct (H r Hr) as (H1 & H2). destruct (H' r Hr) as (H3 & H4).
  assert (HW : vget w' r = s r * vget w r).
  { rewrite H1, H3, <- signed_sum_sign by (now apply Hs). rewrite (lstsq_unique HD' (lstsq_signs HD Hs)).
    apply signed_sum_ext. intros j Hj. now rewrite mget_tab2. }
  split; [exact HW|]. rewrite H2, H4, HW. apply sgn_mul. now apply Hs.
Qed.

(** *** Data that the factor describes exactly *)
Lemma exact_solution n k m U X D0 D : (forall i j, (i < n)%nat -> (j < m)%nat -> mget X i j = mprod k (mget U) D0 i j) ->
  independent_columns n k U -> is_lstsq n k m U X D -> forall r j, (r < k)%nat -> (j < m)%nat -> mget D r j = D0 r j.
Proof.
  intros HX HI (HD & H1 & _) r j Hr Hj.
  assert (H0 : dist2 n m (mprod k (mget U) (mget D)) (mget X) <= 0).
  { eapply Rle_trans; [apply (H1 D0)|]. right. apply sum_zero. intros i Hi. apply sum_zero. intros q Hq. rewrite HX by auto. ring. }
  assert (HE := dist2_eq0 H0). assert (mget D r j - D0 r j = 0); [|lra].
  apply (HI (fun r => mget D r j - D0 r j)); auto. intros i Hi. specialize (HE i j Hi Hj). rewrite HX in HE by auto. unfold mprod in HE.
  transitivity (sum k (fun r => mget U i r * mget D r j) - sum k (fun r => mget U i r * D0 r j)); [|lra].
  rewrite <- sum_minus. apply sum_ext. intros q Hq. ring.
Qed.
Lemma exact_scores lstsq n k m U X D0 : lstsq_contract lstsq -> is_mat n k U -> is_mat n m X -> independent_columns n k U ->
  (forall i j, (i < n)%nat -> (j < m)%nat -> mget X i j = mprod k (mget U) D0 i j) ->
  exists g w, get_signs lstsq U (Some X) = Ok (g, w) /\ is_vec k g /\ is_vec k w /\
    forall r, (r < k)%nat -> vget w r = signed_sum m (D0 r) /\ vget g r = sgn (vget w r).
Proof.
  intros HL HU HX HI HE. destruct (HL n k m U X HU HX) as (D & E & HD).
  destruct (get_signs_data HU HX E HD) as (g & w & Eg & Hg & Hw & H). exists g, w. repeat (split; [assumption|]).
  intros r Hr. destruct (H r Hr) as (-> & ->). split; [|reflexivity]. apply signed_sum_ext. intros j Hj.
  now apply (exact_solution HE HI HD).
Qed.
Lemma signed_sum_pos m f : (forall j, (j < m)%nat -> 0 <= f j) -> (exists j, (j < m)%nat /\ f j <> 0) -> 0 < signed_sum m f.
Proof.
  intros H (j & Hj & Hn). unfold signed_sum.
  assert (H0 : forall i, (i < m)%nat -> 0 <= f i * Rabs (f i)) by (intros i Hi; apply Rmult_le_pos; [auto|apply Rabs_pos]).
  pose proof (@sum_term_le _ _ j H0 Hj) as HT. cbv beta in HT.
  assert (0 < f j * Rabs (f j)); [|lra]. apply Rmult_lt_0_compat; [specialize (H j Hj); lra|now apply Rabs_pos_lt].
Qed.

(** *** Without data *)
Lemma get_signs_alone lstsq n k U : is_mat n k U ->
  exists g w, get_signs lstsq U None = Ok (g, w) /\ is_vec k g /\ is_vec k w /\
    forall r, (r < k)%nat -> let c := sum n (fun i => mget U i r) in
      vget w r = (if Req_EM_T c 0 then 1 else c) /\ vget g r = sgn (vget w r).
Proof.
  intros HU. unfold get_signs. pose proof (is_vec_sum_axis0 HU) as Hc. set (w := np_map _ (sum_axis0 U)).
  assert (Hw : is_vec k w) by (now apply is_vec_np_map). exists (np_map sgn w), w. split; [reflexivity|].
  split; [now apply is_vec_np_map|]. split; [exact Hw|]. intros r Hr. cbv zeta. split; [|now rewrite (vget_np_map sgn Hw)].
  unfold w. rewrite (vget_np_map _ Hc) by auto. now rewrite (vget_sum_axis0 HU).
Qed.

(** *** Resolving the signs of a Kruskal tensor twice *)
Lemma corrected_again (col col' : list R) : length col' = length col -> (forall x, In x col -> x <> 0) ->
  (forall m, (m < length col)%nat -> nth m col' 0 = corrected col m * nth m col 0) ->
  forall m, (m < length col)%nat -> corrected col' m = 1.
Proof.
  intros HL Hnz HE m Hm.
  assert (Hn : forall j, (j < length col)%nat -> nth j col 0 <> 0) by (intros j Hj; now apply Hnz, nth_In).
  assert (Habs : map Rabs col' = map Rabs col).
  { apply (List.nth_ext _ _ (Rabs 0) (Rabs 0)); [now rewrite !map_length|]. intros j Hj. rewrite map_length, HL in Hj. rewrite !map_nth, HE by auto.
    rewrite Rabs_mult. replace (Rabs (corrected col j)) with 1; [ring|].
    destruct (corrected_pm Hj Hnz) as [->| ->]; [now rewrite Rabs_R1|rewrite Rabs_left by lra; ring]. }
  assert (Hsg : forall j, (j < length col)%nat -> sgn (nth j col' 0) = corrected col j * sgn (nth j col 0)).
  { intros j Hj. rewrite HE by auto. apply sgn_mul. now apply corrected_pm. }
  assert (Hprod : prodf col' sgn = prodf col sgn).
  { rewrite (prodf_nth_seq col'), HL. rewrite (@prodf_ext _ _ _ (fun j => corrected col j * sgn (nth j col 0))).
    - rewrite prodf_mult, (corrected_prod Hnz), <- (prodf_nth_seq col sgn). ring.
    - intros j Hj. apply in_seq in Hj. apply Hsg. lia. }
  assert (Hc : corrected col' m = corrected col m * corrected col m).
  { unfold corrected at 1. rewrite Hprod, Habs, Hsg by auto. unfold corrected.
    destruct (Req_EM_T _ _); [destruct (Nat.eqb _ _)|]; ring. }
  rewrite Hc. apply sq_sign. now apply corrected_pm.
Qed.

Lemma Forall2_nth {A B} (P : A -> B -> Prop) l k da db m : Forall2 P l k -> (m < length l)%nat -> P (nth m l da) (nth m k db).
Proof. intros H. revert m. induction H; intros [|m] Hm; cbn in *; try lia; auto. apply IHForall2. lia. Qed.
Lemma mapM_total {A B} (f : A -> res B) l : (forall x, In x l -> exists y, f x = Ok y) -> exists ys, mapM f l = Ok ys.
Proof.
  induction l as [|x l IH]; intros H; cbn [mapM]; [eauto|].
  destruct (H x (or_introl eq_refl)) as (y & ->). destruct IH as (ys & ->); [intros; apply H; now right|]. cbn [bind]. eauto.
Qed.

Lemma sign_scores_ok lstsq K k X : lstsq_contract lstsq -> data_ok X -> factors_ok K X (kt_fms k) ->
  exists scores, kt_get_sign_scores lstsq k X = Ok scores /\ length scores = length (kt_fms k) /\ Forall (is_vec K) scores /\
    forall m, (m < length (kt_fms k))%nat -> exists M g, unfold X (Z.of_nat m) = Ok M /\
      is_mat (nth m (shape X) 0%nat) (prodl (remove_at m (shape X))) M /\
      get_signs lstsq (nth m (kt_fms k) m0) (Some M) = Ok (g, nth m scores m0).
Proof.
  intros HL (Hwf & _ & Hpos) (HU & HR). set (Us := kt_fms k) in *.
  assert (Hlen : length Us = length (shape X)) by (rewrite <- HR; unfold rows; now rewrite map_length).
  assert (HS : forall m, (m < length Us)%nat -> exists M g w, unfold X (Z.of_nat m) = Ok M /\
      is_mat (nth m (shape X) 0%nat) (prodl (remove_at m (shape X))) M /\
      get_signs lstsq (nth m Us m0) (Some M) = Ok (g, w) /\ is_vec K w).
  { intros m Hm. destruct (@unfold_ok X (Z.of_nat m) m) as (M & EM & HM & _); auto.
    { apply py_index_nat. unfold ndim. lia. }
    { rewrite Forall_forall in Hpos. apply Hpos, nth_In. lia. }
    assert (HUm : is_mat (nth m (shape X) 0%nat) K (nth m Us m0)).
    { rewrite <- HR. unfold rows. rewrite (nth_map_in nrows m0) by auto. unfold mats in HU. rewrite Forall_forall in HU. apply HU, nth_In. auto. }
    destruct (HL _ _ _ _ _ HUm HM) as (D & ED & HD). destruct (get_signs_data HUm HM ED HD) as (g & w & Eg & _ & Hw & _). eauto 8. }
  unfold kt_get_sign_scores. fold Us.
  destruct (@mapM_total _ _ (fun p => do M <- unfold X (Z.of_nat (fst p)) ; do s <- get_signs lstsq (snd p) (Some M) ; Ok (snd s))
             (combine (seq 0 (length Us)) Us)) as (scores & E).
  { intros (m, U) Hin. destruct (In_nth _ _ (0%nat, m0) Hin) as (j & Hj & Ej). rewrite combine_length, seq_length in Hj.
    rewrite combine_nth, seq_nth in Ej by (rewrite ?seq_length; lia). cbn [Nat.add] in Ej. injection Ej as <- <-. cbn [fst snd].
    destruct (HS j) as (M & g & w & -> & _ & H & _); [lia|]. cbn [bind]. rewrite H. cbn [bind]. eauto. }
  exists scores. pose proof (mapM_length E) as HL'. rewrite combine_length, seq_length, Nat.min_id in HL'. pose proof E as EM0. apply mapM_inv in E.
  assert (HA : forall m, (m < length Us)%nat -> exists M g, unfold X (Z.of_nat m) = Ok M /\
      is_mat (nth m (shape X) 0%nat) (prodl (remove_at m (shape X))) M /\
      get_signs lstsq (nth m Us m0) (Some M) = Ok (g, nth m scores m0) /\ is_vec K (nth m scores m0)).
  { intros m Hm. pose proof (@Forall2_nth _ _ _ _ _ (0%nat, m0) m0 m E) as H. rewrite combine_length, seq_length, Nat.min_id in H.
    specialize (H Hm). rewrite combine_nth, seq_nth in H by (rewrite ?seq_length; lia). cbn [fst snd Nat.add] in H.
    destruct (HS m Hm) as (M & g & w & EM & HM & Eg & Hw). rewrite EM in H. cbn [bind] in H. rewrite Eg in H. cbn [bind snd] in H.
    injection H as <-. eauto 6. }
  split; [exact EM0|]. split; [exact HL'|]. split.
  - apply Forall_forall. intros v Hv. destruct (In_nth _ _ m0 Hv) as (j & Hj & <-). rewrite HL' in Hj.
    destruct (HA j Hj) as (_ & _ & _ & _ & _ & H). exact H.
  - intros m Hm. destruct (HA m Hm) as (M & g & A & B & C & _). eauto.
Qed.

Definition corrected_col (scores : list nd) (m r : nat) : R := corrected (map (fun s => vget s r) scores) m.
Lemma resolved_signs lstsq K k kv X : lstsq_contract lstsq -> data_ok X -> factors_ok K X (kt_fms k) -> kt_rank k = K ->
  exists scores signs, kt_get_sign_scores lstsq k X = Ok scores /\ kt_get_signs lstsq k X = Ok signs /\
    length scores = length (kt_fms k) /\ Forall (is_vec K) scores /\
    ((forall m r, (m < length (kt_fms k))%nat -> (r < K)%nat -> vget (nth m scores m0) r <> 0) ->
     columns_times K (fun m r => vget (nth m signs m0) r) (kt_fms k) (kt_fms kv) -> kt_rank kv = K ->
     exists signs', kt_get_signs lstsq kv X = Ok signs' /\
       forall m r, (m < length (kt_fms k))%nat -> (r < K)%nat -> vget (nth m signs' m0) r = 1).
Proof.
  intros HL HX HF HK. destruct (sign_scores_ok HL HX HF) as (scores & E & Hlen & Hv & Hm).
  exists scores, (kt_signs_of_scores K scores). split; [exact E|]. split; [unfold kt_get_signs; rewrite E; cbn [bind]; now rewrite HK|].
  split; [exact Hlen|]. split; [exact Hv|]. intros Hnz (HV & HR & HVe) HKv.
  assert (HF' : factors_ok K X (kt_fms kv)) by (split; [exact HV|]; rewrite HR; apply HF).
  destruct (sign_scores_ok HL HX HF') as (scores' & E' & Hlen' & Hv' & Hm').
  assert (HlV : length (kt_fms kv) = length (kt_fms k)) by (apply (f_equal (@length nat)) in HR; unfold rows in HR; now rewrite !map_length in HR).
  exists (kt_signs_of_scores K scores'). split; [unfold kt_get_signs; rewrite E'; cbn [bind]; now rewrite HKv|].
  intros m r Hm0 Hr. destruct (kt_signs_spec K scores) as (S1 & S2 & S3). destruct (kt_signs_spec K scores') as (S1' & S2' & S3').
  rewrite <- (nth_vdflt_m0 K) by lia. rewrite S3' by lia.
  apply (@corrected_again (map (fun s => vget s r) scores)); rewrite ?map_length; try lia.
  - intros x Hx. apply in_map_iff in Hx as (v & <- & Hx). destruct (In_nth _ _ m0 Hx) as (j & Hj & <-). apply Hnz; auto. lia.
  - intros j Hj. rewrite !nth_scores by lia. rewrite Hlen in Hj.
    destruct (Hm j Hj) as (M & g & EM & HM & Eg). destruct (Hm' j ltac:(lia)) as (M' & g' & EM' & _ & Eg'). rewrite EM in EM'. injection EM' as <-.
    assert (HUm : is_mat (nth j (shape X) 0%nat) K (nth j (kt_fms k) m0)).
    { destruct HF as (HU & HRk). rewrite <- HRk. unfold rows. rewrite (nth_map_in nrows m0) by auto.
      unfold mats in HU. rewrite Forall_forall in HU. apply HU, nth_In. auto. }
    assert (HVm : is_mat (nth j (shape X) 0%nat) K (nth j (kt_fms kv) m0)).
    { destruct HF' as (HU & HRk). rewrite <- HRk. unfold rows. rewrite (nth_map_in nrows m0) by lia.
      unfold mats in HU. rewrite Forall_forall in HU. apply HU, nth_In. lia. }
    assert (Hnr : nrows (nth j (kt_fms k) m0) = nth j (shape X) 0%nat) by (unfold nrows; now rewrite (proj2 HUm)).
    destruct (@scores_follow_signs lstsq (nth j (shape X) 0%nat) K (prodl (remove_at j (shape X))) (nth j (kt_fms k) m0) (nth j (kt_fms kv) m0) M (corrected_col scores j)) as
      (h & w & h' & w' & Eh & Eh' & _ & _ & H); auto.
    { split.
      - intros q Hq. unfold corrected_col. apply corrected_pm; [rewrite map_length; lia|].
        intros x Hx. apply in_map_iff in Hx as (v & <- & Hx). destruct (In_nth _ _ m0 Hx) as (i & Hi & <-). apply Hnz; auto. lia.
      - intros i q Hi Hq. rewrite HVe by (auto; rewrite Hnr; auto). f_equal. rewrite <- (nth_vdflt_m0 K) by lia. now rewrite S3 by lia. }
    rewrite Eg in Eh. injection Eh as <- <-. rewrite Eg' in Eh'. injection Eh' as <- <-. now apply H.
Qed.

(** *** The contract of lstsq can be met *)
Definition lstsq_by_svd (svd : nd -> res (nd * nd * nd)) (A B : nd) : res nd :=
  do X <- rightsolve svd (transp A) (transp B) ; Ok (transp X).
Lemma lstsq_by_svd_works svd : svd_contract svd -> lstsq_contract (lstsq_by_svd svd).
Proof.
  intros HC n k m A B HA HB. destruct (HC k n (transp A) (is_mat_transp HA)) as (U & S0 & Vh & ES & HS).
  destruct (@rightsolve_ok svd k n m (transp A) (transp B) U S0 Vh (is_mat_transp HA) (is_mat_transp HB) ES HS)
    as (X & EX & HX & _ & H1 & H2).
  assert (HD : forall E, dist2 n m (mprod k (mget A) E) (mget B) =
                         dist2 m n (mprod k (fun j r => E r j) (mget (transp A))) (mget (transp B))).
  { intros E. unfold dist2. rewrite sum_swap. apply sum_ext. intros j Hj. apply sum_ext. intros i Hi.
    rewrite (mget_transp HB) by auto. f_equal. f_equal. apply sum_ext. intros r Hr. rewrite (mget_transp HA) by auto. ring. }
  assert (HF : forall E, frob2 k m E = frob2 m k (fun j r => E r j)) by (intros E; unfold frob2; apply sum_swap).
  assert (HT : dist2 n m (mprod k (mget A) (mget (transp X))) (mget B) = dist2 m n (mprod k (mget X) (mget (transp A))) (mget (transp B))).
  { rewrite HD. apply sum_ext. intros j Hj. apply sum_ext. intros i Hi. f_equal. f_equal. apply sum_ext. intros r Hr.
    now rewrite (mget_transp HX). }
  exists (transp X). split; [unfold lstsq_by_svd; now rewrite EX|]. split; [now apply is_mat_transp|]. split.
  - intros E. rewrite HT, HD. apply H1.
  - intros E. rewrite HT, HD. intros H. apply H2 in H. rewrite !HF.
    rewrite (@frob2_ext _ _ (fun j r => mget (transp X) r j) (mget X)) by (intros; now rewrite (mget_transp HX)). exact H.
Qed.
