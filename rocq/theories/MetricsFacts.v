(** Facts about metrics.py. *)
From Coq Require Import Sorting.Sorted String.
From Verif Require Export PermFacts DecompLemmas.
Set Implicit Arguments.
Unset Strict Implicit.
Local Open Scope R_scope.

Lemma concat0_ok n p m A B : is_mat n m A -> is_mat p m B ->
  exists C, concat0 A B = Ok C /\ is_mat (n + p) m C /\
    (forall i j, (i < n)%nat -> (j < m)%nat -> mget C i j = mget A i j) /\
    (forall i j, (i < p)%nat -> (j < m)%nat -> mget C (n + i) j = mget B i j).
Proof.
  intros [HA EA] [HB EB]. unfold concat0. rewrite EA, EB, Nat.eqb_refl. eexists. split; [reflexivity|].
  unfold wf in HA, HB. rewrite EA in HA. rewrite EB in HB. cbn in HA, HB.
  split; [|split].
  - split; [|reflexivity]. unfold wf. cbn. rewrite app_length, HA, HB. lia.
  - intros i j Hi Hj. unfold mget, get. cbn [shape data]. rewrite EA. rewrite !ravel2. apply app_nth1. rewrite HA. nia.
  - intros i j Hi Hj. unfold mget, get. cbn [shape data]. rewrite EB. rewrite !ravel2.
    rewrite app_nth2 by (rewrite HA; nia). f_equal. rewrite HA. nia.
Qed.

Lemma concat_norms K Us : forall A k, mats K Us -> is_mat k K A ->
  exists N, foldM concat0 (map norm_axis0_keep Us) A = Ok N /\ is_mat (k + length Us) K N /\
    forall r, (r < K)%nat -> prodf (seq 0 (k + length Us)) (fun i => mget N i r) =
                       prodf (seq 0 k) (fun i => mget A i r) * cweight Us r.
Proof.
  induction Us as [|U Us IH]; intros A k HU HA; cbn [map foldM length].
  - exists A. split; auto. rewrite Nat.add_0_r. split; auto. intros. unfold cweight. cbn. ring.
  - apply mats_cons in HU. destruct HU as [H0 HU].
    destruct (concat0_ok HA (is_mat_norm_keep H0)) as (C & -> & HC & E1 & E2). cbn [bind].
    destruct (IH C _ HU HC) as (N & -> & HN & E). exists N. split; auto.
    replace (k + Datatypes.S (length Us))%nat with (k + 1 + length Us)%nat by lia. split; auto.
    intros r Hr. rewrite E by auto. rewrite seq_app, KruskalFacts.prodf_app. cbn [plus seq prodf].
    replace (k)%nat with (k + 0)%nat at 2 by lia. rewrite E2 by (auto; lia).
    rewrite (mget_norm_keep H0) by auto. rewrite <- clen_colnorm.
    rewrite (@prodf_ext _ (seq 0 k) _ (fun i => mget A i r)).
    + unfold cweight. cbn [prodf]. ring.
    + intros i Hi. apply in_seq in Hi. apply E1; auto; lia.
Qed.

Lemma fms_weights_ok wp K Us : mats K Us -> Us <> [] ->
  exists w, fms_weights wp K (map norm_axis0_keep Us) = Ok w /\ is_vec K w /\
    forall r, (r < K)%nat -> vget w r = if wp then cweight Us r else 1.
Proof.
  intros HU Hne. unfold fms_weights. destruct wp.
  - destruct Us as [|U Us]; [congruence|]. cbn [map concat0_list]. apply mats_cons in HU. destruct HU as [H0 HU].
    pose proof (is_mat_norm_keep H0) as H1.
    destruct (concat_norms HU H1) as (N & -> & HN & E). cbn [bind]. eexists. split; [reflexivity|].
    rewrite (is_mat_ncols HN), (is_mat_nrows HN). split; [auto|]. intros r Hr. rewrite vget_tab1 by auto.
    rewrite E by auto. cbn [seq prodf]. rewrite (mget_norm_keep H0) by auto. rewrite <- clen_colnorm.
    unfold cweight. cbn [prodf]. ring.
  - eexists. split; [reflexivity|]. split.
    + unfold np_ones. split; [apply wf_tab|apply shape_tab].
    + intros r Hr. unfold np_ones, vget. rewrite get_tab; auto. now apply valid1.
Qed.

Lemma py_max_Rmax a b : py_max a b = Rmax a b.
Proof. unfold py_max, Rmax. destruct (Rlt_dec a b), (Rle_dec a b); lra. Qed.

Lemma cweight_nonneg Us r : 0 <= cweight Us r.
Proof. apply Prelude.prodf_nonneg. intros. apply clen_nonneg. Qed.

(** The value of the weight term, [None] for 0/0. *)
Definition wagree (a b : R) : option R :=
  if Req_EM_T (Rmax a b) 0 then None else Some (1 - Rabs (a - b) / Rmax a b).

Lemma weight_score_ok a b : 0 <= a -> 0 <= b -> xsub (Fin 1) (weight_score a b) = fms_value (wagree a b).
Proof.
  intros Ha Hb. unfold weight_score, xdivR, wagree. rewrite py_max_Rmax.
  destruct (Req_EM_T (Rmax a b) 0) as [E|E]; cbn; auto.
  assert (a = 0 /\ b = 0) as [-> ->].
  { pose proof (Rmax_l a b). pose proof (Rmax_r a b). split; lra. }
  rewrite Rminus_0_r, Rabs_R0. destruct (Rlt_dec 0 0); lra || auto.
Qed.

Lemma wagree_none a b : 0 <= a -> 0 <= b -> (wagree a b = None <-> a = 0 /\ b = 0).
Proof.
  intros Ha Hb. unfold wagree. destruct (Req_EM_T (Rmax a b) 0) as [E|E].
  - split; auto. intros _. pose proof (Rmax_l a b). pose proof (Rmax_r a b). split; lra.
  - split; [discriminate|]. intros [-> ->]. exfalso. apply E. apply Rmax_left. lra.
Qed.

Lemma xmul_value v b : xmul (fms_value v) (Fin b) = fms_value (option_map (fun a => a * b) v).
Proof. destruct v; reflexivity. Qed.

Lemma col_get_ok n m U r : is_mat n m U -> (r < m)%nat -> col_get U r = Ok (col U r).
Proof. intros [_ H] Hr. unfold col_get. rewrite H. apply Nat.ltb_lt in Hr. now rewrite Hr. Qed.

Lemma vdot_ok n m U V r : is_mat n m U -> is_mat n m V ->
  vdot (col U r) (col V r) = Ok (sum n (fun i => mget U i r * mget V i r)).
Proof.
  intros HU HV. unfold vdot, col. rewrite (is_mat_nrows HU), (is_mat_nrows HV).
  pose proof (is_vec_tab1 n (fun i => mget U i r)) as [_ E1]. pose proof (is_vec_tab1 n (fun i => mget V i r)) as [_ E2].
  unfold shape1. rewrite E1, E2. cbn [bind]. rewrite Nat.eqb_refl. f_equal. apply sum_ext. intros i Hi.
  now rewrite !vget_tab1.
Qed.

Lemma vdot_cols K T E r : is_mat (nrows T) K T -> is_mat (nrows T) K E -> (r < K)%nat ->
  exists t e d, col_get (scaled eps15 (nrows T) (ncols T) T) r = Ok t /\
    col_get (scaled eps15 (nrows E) (ncols E) E) r = Ok e /\ vdot t e = Ok d /\ Rabs d = rcos T E r r.
Proof.
  intros HT HE Hr. rewrite (is_mat_ncols HT), (is_mat_ncols HE), (is_mat_nrows HE).
  pose proof (is_mat_scaled eps15 (nrows T) K T) as H1. pose proof (is_mat_scaled eps15 (nrows T) K E) as H2.
  do 3 eexists. split; [exact (col_get_ok H1 Hr)|]. split; [exact (col_get_ok H2 Hr)|].
  split; [exact (vdot_ok r H1 H2)|].
  unfold rcos. unfold tiny. change (/ 10 ^ 15) with eps15. rewrite !clen_colnorm.
  pose proof (colnorm_nonneg T r). pose proof (colnorm_nonneg E r). pose proof eps15_pos.
  rewrite <- (Rabs_right ((colnorm T r + eps15) * (colnorm E r + eps15))).
  2:{ apply Rle_ge. apply Rmult_le_pos; lra. }
  unfold Rdiv. rewrite <- Rabs_inv, <- Rabs_mult. f_equal. rewrite <- sum_scal_r.
  apply sum_ext. intros i Hi. unfold scaled. rewrite !mget_tab2 by auto. field. lra.
Qed.

Lemma fold_scores nonneg K l r : nonneg = true ->
  Forall (fun TE => is_mat (nrows (fst TE)) K (fst TE) /\ is_mat (nrows (fst TE)) K (snd TE)) l -> (r < K)%nat ->
  forall v,
  foldM (fun score TE =>
           do t <- col_get (fst TE) r ;
           do e <- col_get (snd TE) r ;
           do d <- vdot t e ;
           Ok (xmul score (Fin (if nonneg : bool then Rabs d else d))))
        (combine (map (fun U => scaled eps15 (nrows U) (ncols U) U) (map fst l))
                 (map (fun U => scaled eps15 (nrows U) (ncols U) U) (map snd l))) (fms_value v) =
  Ok (fms_value (option_map (fun a => a * prodf l (fun TE => rcos (fst TE) (snd TE) r r)) v)).
Proof.
  intros -> H Hr. induction H as [|[T E] l [HT HE] H IH]; intros v; cbn [map combine foldM fst snd prodf].
  - destruct v; cbn; auto. now rewrite Rmult_1_r.
  - cbn [fst snd] in *. destruct (vdot_cols HT HE Hr) as (t & e & d & -> & -> & Ed & E1). cbn [bind]. rewrite Ed.
    cbn [bind]. rewrite xmul_value, E1, IH. destruct v; cbn; auto. now rewrite Rmult_assoc.
Qed.

(** The value of one matched component. *)
Definition mvalue (wp : bool) (Ts Es : list nd) (c d : nat) : option R :=
  option_map (fun a => a * prodf (combine Ts Es) (fun TE => rcos (fst TE) (snd TE) c d))
    (if wp then wagree (cweight Ts c) (cweight Es d) else Some 1).

Lemma mvalue_some wp Ts Es c d :
  ~ (wp = true /\ cweight Ts c = 0 /\ cweight Es d = 0) -> mvalue wp Ts Es c d = Some (match_score wp Ts Es c d).
Proof.
  intros H. unfold mvalue, match_score, weight_agreement. destruct wp; cbn; auto.
  unfold wagree. destruct (Req_EM_T _ 0) as [E|E]; cbn; auto. exfalso. apply H. split; auto.
  pose proof (Rmax_l (cweight Ts c) (cweight Es d)). pose proof (Rmax_r (cweight Ts c) (cweight Es d)).
  pose proof (cweight_nonneg Ts c). pose proof (cweight_nonneg Es d). lra.
Qed.
Lemma mvalue_none Ts Es c d : cweight Ts c = 0 -> cweight Es d = 0 -> mvalue true Ts Es c d = None.
Proof.
  intros E1 E2. unfold mvalue. destruct (wagree _ _) eqn:E; auto.
  exfalso. rewrite E1, E2 in E. unfold wagree in E. destruct (Req_EM_T (Rmax 0 0) 0) as [|N]; [discriminate|].
  apply N. apply Rmax_left. lra.
Qed.

Lemma mats_any K Us : mats K Us -> any_mats Us.
Proof.
  unfold mats, any_mats. apply Forall_impl. intros U H. now rewrite (is_mat_ncols H).
Qed.

Lemma as_matrices_ok K Us : mats K Us -> Us <> [] -> as_matrices Us = Ok Us.
Proof.
  intros H Hn. destruct Us as [|U Us]; [congruence|]. apply mats_cons in H. destruct H as [[_ H] _].
  unfold as_matrices, ndim. rewrite H. reflexivity.
Qed.

Lemma first_cols_ok K Us : mats K Us -> Us <> [] -> first_cols Us = Ok K.
Proof.
  intros H Hn. destruct Us as [|U Us]; [congruence|]. apply mats_cons in H. destruct H as [H _].
  unfold first_cols. cbn [list_get nth_error]. exact (shape_at_1 H).
Qed.

Lemma pairs_ok K Ts Es : mats K Ts -> mats K Es -> rows Ts = rows Es ->
  Forall (fun TE => is_mat (nrows (fst TE)) K (fst TE) /\ is_mat (nrows (fst TE)) K (snd TE)) (combine Ts Es) /\
  map fst (combine Ts Es) = Ts /\ map snd (combine Ts Es) = Es.
Proof.
  intros HT. revert Es. induction Ts as [|T Ts IH]; intros [|E Es] HE Hr; try discriminate Hr.
  - repeat split; constructor.
  - apply mats_cons in HT, HE. destruct HT as [H1 H2], HE as [H3 H4]. cbn in Hr. injection Hr as E1 E2.
    destruct (IH H2 Es H4 E2) as (A & B & C). cbn. rewrite B, C. split; auto. constructor; auto. cbn.
    now rewrite <- E1 in H3.
Qed.

Lemma factor_match_scores_ok wp K Ts Es : mats K Ts -> mats K Es -> rows Ts = rows Es -> Ts <> [] ->
  factor_match_scores wp true Ts Es = Ok (map (fun c => fms_value (mvalue wp Ts Es c c)) (seq 0 K)).
Proof.
  intros HT HE Hr Hn.
  assert (Hn' : Es <> []). { intros ->. destruct Ts; [congruence|discriminate]. }
  unfold factor_match_scores. rewrite (as_matrices_ok HT Hn), (as_matrices_ok HE Hn'). cbn [bind].
  change (do T <- list_get Ts 0; shape_at T 1) with (first_cols Ts). rewrite (first_cols_ok HT Hn). cbn [bind].
  rewrite (normalize_factors_ok (mats_any HT)), (normalize_factors_ok (mats_any HE)). cbn [bind snd fst].
  destruct (fms_weights_ok wp HT Hn) as (wt & -> & Hwt & Et). cbn [bind].
  destruct (fms_weights_ok wp HE Hn') as (we & -> & Hwe & Ee). cbn [bind].
  apply mapM_ok. intros c Hc. apply in_seq in Hc. destruct Hc as [_ Hc]. cbn in Hc.
  unfold component_score, vec_get, shape1. destruct Hwt as [_ ->], Hwe as [_ ->]. cbn [bind].
  apply Nat.ltb_lt in Hc as Hc'. rewrite Hc'. cbn [bind]. rewrite Et, Ee by auto.
  destruct (pairs_ok HT HE Hr) as (HF & E1 & E2).
  assert (E : xsub (Fin 1) (weight_score (if wp then cweight Ts c else 1) (if wp then cweight Es c else 1)) =
              fms_value (if wp then wagree (cweight Ts c) (cweight Es c) else Some 1)).
  { destruct wp; [apply weight_score_ok; apply cweight_nonneg|].
    rewrite weight_score_ok by lra. unfold wagree. rewrite Rmax_left by lra.
    destruct (Req_EM_T 1 0); [lra|]. cbn. rewrite Rminus_eq_0, Rabs_R0. do 2 f_equal. field. }
  rewrite E.
  pose proof (@fold_scores true K (combine Ts Es) c eq_refl HF Hc
                (if wp then wagree (cweight Ts c) (cweight Es c) else Some 1)) as F.
  rewrite E1, E2 in F. exact F.
Qed.

(** Permuted estimated factors. *)
Lemma clen_colperm p E c : (c < length p)%nat -> clen (colperm p E) c = clen E (nth c p 0%nat).
Proof.
  intros Hc. unfold clen. f_equal.
  assert (H : is_mat (nrows E) (length p) (colperm p E)) by (unfold colperm; auto).
  rewrite (is_mat_nrows H). apply sum_ext. intros i Hi. unfold colperm. now rewrite mget_tab2.
Qed.
Lemma cweight_colperm p Es c : (c < length p)%nat -> cweight (map (colperm p) Es) c = cweight Es (nth c p 0%nat).
Proof.
  intros Hc. unfold cweight. rewrite prodf_map. apply prodf_ext. intros E _. now apply clen_colperm.
Qed.
Lemma rcos_colperm p T E c : nrows T = nrows E -> (c < length p)%nat ->
  rcos T (colperm p E) c c = rcos T E c (nth c p 0%nat).
Proof.
  intros Hn Hc. unfold rcos. rewrite clen_colperm by auto. do 2 f_equal. apply sum_ext. intros i Hi.
  unfold colperm. rewrite mget_tab2 by (auto; lia). reflexivity.
Qed.
Lemma mvalue_colperm wp p Ts Es c : rows Ts = rows Es -> (c < length p)%nat ->
  mvalue wp Ts (map (colperm p) Es) c c = mvalue wp Ts Es c (nth c p 0%nat).
Proof.
  intros Hr Hc. unfold mvalue. rewrite cweight_colperm by auto.
  assert (E : prodf (combine Ts (map (colperm p) Es)) (fun TE => rcos (fst TE) (snd TE) c c) =
              prodf (combine Ts Es) (fun TE => rcos (fst TE) (snd TE) c (nth c p 0%nat))).
  { revert Es Hr. induction Ts as [|T Ts IH]; intros [|E Es] Hr; cbn; auto; try discriminate Hr.
    cbn in Hr. injection Hr as E1 E2. rewrite rcos_colperm by auto. now rewrite IH. }
  now rewrite E.
Qed.
Lemma rows_colperm p Es : rows (map (colperm p) Es) = rows Es.
Proof. unfold rows. rewrite map_map. apply map_ext. intros E. reflexivity. Qed.

(** Reductions. *)
Lemma fold_xmin l : forall s, exists m, fold_left xmin2 (map Fin l) (Fin s) = Fin m /\
  (m = s \/ In m l) /\ m <= s /\ forall x, In x l -> m <= x.
Proof.
  induction l as [|a l IH]; intros s; cbn [map fold_left].
  - exists s. repeat split; auto; try lra. intros x [].
  - cbn [xmin2 xltb]. destruct (Rlt_dec a s) as [H|H].
    + destruct (IH a) as (m & -> & H1 & H2 & H3). exists m. repeat split; auto; try lra.
      * right. cbn. intuition.
      * intros x [->|Hx]; auto.
    + destruct (IH s) as (m & -> & H1 & H2 & H3). exists m. repeat split; auto; try lra.
      * cbn. intuition.
      * intros x [->|Hx]; auto. lra.
Qed.
Lemma fold_xmin_nan l : fold_left xmin2 l NaN = NaN.
Proof. induction l; auto. Qed.
Lemma fold_xmin_nan_in l : forall x, In NaN l -> fold_left xmin2 l x = NaN.
Proof.
  induction l as [|a l IH]; intros x H; [destruct H|]. cbn. destruct H as [->|H]; auto.
  replace (xmin2 x NaN) with NaN by (destruct x; auto). apply fold_xmin_nan.
Qed.
Lemma fold_xadd l : forall s, fold_left xadd (map Fin l) (Fin s) = Fin (s + sumf l (fun x => x)).
Proof.
  induction l as [|a l IH]; intros s; cbn [map fold_left sumf]. { f_equal. ring. }
  replace (xadd (Fin s) (Fin a)) with (Fin (s + a)) by (cbn; f_equal; ring). rewrite IH. f_equal. ring.
Qed.
Lemma fold_xadd_nan l : fold_left xadd l NaN = NaN.
Proof. induction l; auto. Qed.
Lemma fold_xadd_nan_in l : forall x, In NaN l -> fold_left xadd l x = NaN.
Proof.
  induction l as [|a l IH]; intros x H; [destruct H|]. cbn. destruct H as [->|H]; auto.
  replace (xadd x NaN) with NaN by (destruct x; auto). apply fold_xadd_nan.
Qed.

Definition red_fun (red : reduction) : list xr -> res xr :=
  match red with Minimum => np_min | Mean => np_mean end.
Lemma fms_reduction_ok red : fms_reduction (reduction_name red) = Ok (red_fun red).
Proof. destruct red; reflexivity. Qed.

Lemma reduced_unique red n f s t : reduced red n f s -> reduced red n f t -> s = t.
Proof.
  destruct red; cbn.
  - intros [(c & Hc & <-) H1] [(d & Hd & <-) H2]. apply Rle_antisym; auto.
  - intros [Hn E1] [_ E2]. apply Rmult_eq_reg_r with (INR n); [congruence|]. apply not_0_INR. lia.
Qed.
Lemma reduced_ext red n f g s : (forall c, (c < n)%nat -> f c = g c) -> reduced red n f s -> reduced red n g s.
Proof.
  intros H. destruct red; cbn.
  - intros [(c & Hc & <-) H1]. split; [exists c; rewrite H; auto|]. intros. rewrite <- !H; auto.
  - intros [Hn ->]. split; auto. now apply sum_ext.
Qed.

Lemma red_all red n f : (0 < n)%nat -> exists s,
  red_fun red (map (fun c => fms_value (Some (f c))) (seq 0 n)) = Ok (Fin s) /\ reduced red n f s.
Proof.
  intros Hn. destruct red; cbn [red_fun reduced].
  - destruct n as [|n]; [lia|]. cbn [seq map]. unfold np_min. cbn [fms_value].
    rewrite <- (map_map f Fin). destruct (fold_xmin (map f (seq 1 n)) (f 0%nat)) as (m & -> & H1 & H2 & H3).
    exists m. split; auto. split.
    + destruct H1 as [->|H1]; [exists 0%nat; split; auto; lia|]. apply in_map_iff in H1.
      destruct H1 as (c & <- & Hc). apply in_seq in Hc. exists c. split; auto. lia.
    + intros [|c] Hc; auto. apply H3. apply in_map. apply in_seq. lia.
  - unfold np_mean. rewrite map_length, seq_length. cbn [fms_value].
    rewrite <- (map_map f Fin), fold_xadd. cbn [xdiv]. unfold xdivR.
    assert (INR n <> 0) by (apply not_0_INR; lia).
    destruct (Req_EM_T (INR n) 0); [contradiction|]. eexists. split; [reflexivity|]. split; auto.
    rewrite sumf_map. change (sumf (seq 0 n) (fun i : nat => f i)) with (sum n f). field. auto.
Qed.
Lemma red_nan red l : In NaN l -> red_fun red l = Ok NaN.
Proof.
  intros H. destruct red; cbn.
  - destruct l as [|x l]; [destruct H|]. unfold np_min. destruct H as [->|H].
    + now rewrite fold_xmin_nan.
    + now rewrite fold_xmin_nan_in.
  - unfold np_mean. now rewrite fold_xadd_nan_in.
Qed.

(** The score of one assignment. *)
Definition score_of (red : reduction) (wp : bool) (Ts Es : list nd) (p : list nat) : res xr :=
  do permuted <- permute_factors p Es ;
  do scores <- factor_match_scores wp true Ts permuted ;
  red_fun red scores.

Definition val_of (red : reduction) (wp : bool) (Ts Es : list nd) (p : list nat) : option R :=
  match score_of red wp Ts Es p with Ok (Fin s) => Some s | _ => None end.

Lemma score_of_ok red wp K K' Ts Es p : mats K Ts -> mats K' Es -> rows Ts = rows Es -> Ts <> [] -> (0 < K)%nat ->
  assignment K' K p ->
  (exists s, score_of red wp Ts Es p = Ok (Fin s) /\ comparable wp Ts Es p /\ total_score red wp Ts Es p s) \/
  (score_of red wp Ts Es p = Ok NaN /\ ~ comparable wp Ts Es p).
Proof.
  intros HT HE Hr Hn HK (Hl & Hd & Hb). rewrite Forall_forall in Hb.
  assert (E : score_of red wp Ts Es p =
              red_fun red (map (fun c => fms_value (mvalue wp Ts Es c (nth c p 0%nat))) (seq 0 K))).
  { unfold score_of. rewrite (permute_factors_ok HE Hb). cbn [bind].
    rewrite (@factor_match_scores_ok wp K Ts (map (colperm p) Es)); auto.
    - cbn [bind]. f_equal. apply map_ext_in. intros c Hc. apply in_seq in Hc. rewrite mvalue_colperm; auto. lia.
    - rewrite <- Hl. apply mats_colperm.
    - now rewrite rows_colperm. }
  rewrite E.
  assert (D : (exists c, (c < K)%nat /\ wp = true /\ cweight Ts c = 0 /\ cweight Es (nth c p 0%nat) = 0) \/
              (forall c, (c < K)%nat -> ~ (wp = true /\ cweight Ts c = 0 /\ cweight Es (nth c p 0%nat) = 0))).
  { clear. induction K as [|K [(c & H)|IH]].
    - right. lia.
    - left. exists c. intuition.
    - destruct wp; [|right; intros c _ (H & _); discriminate].
      destruct (Req_EM_T (cweight Ts K) 0) as [E1|E1].
      + destruct (Req_EM_T (cweight Es (nth K p 0%nat)) 0) as [E2|E2].
        * left. exists K. auto.
        * right. intros c Hc (H1 & H2 & H3). destruct (Nat.eq_dec c K) as [->|]; auto. apply (IH c); auto. lia.
      + right. intros c Hc (H1 & H2 & H3). destruct (Nat.eq_dec c K) as [->|]; auto. apply (IH c); auto. lia. }
  destruct D as [(c & Hc & -> & H1 & H2)|D].
  - right. split.
    + apply red_nan. apply in_map_iff. exists c. split; [|apply in_seq; lia]. now rewrite mvalue_none.
    + intros H. apply (H eq_refl c); auto. lia.
  - left.
    destruct (red_all red (fun c => match_score wp Ts Es c (nth c p 0%nat)) HK) as (s & Es1 & Hs).
    exists s. split; [|split].
    + rewrite <- Es1. f_equal. apply map_ext_in. intros c Hc. apply in_seq in Hc. rewrite mvalue_some; auto.
      apply D. lia.
    + intros -> c Hc [H1 H2]. apply (D c); auto. lia.
    + unfold total_score. now rewrite Hl.
Qed.

(** Bounds. *)
Lemma clen_sq U r : clen U r ^ 2 = sum (nrows U) (fun i => mget U i r ^ 2).
Proof. unfold clen. cbn. rewrite Rmult_1_r. apply sqrt_sqrt. apply sum_nonneg. intros. apply pow2_ge_0. Qed.

Lemma tiny_pos : 0 < tiny.
Proof. exact eps15_pos. Qed.

Lemma rcos_bound T E c d : nrows T = nrows E -> 0 <= rcos T E c d <= 1.
Proof.
  intros Hn. unfold rcos. pose proof tiny_pos as Ht.
  pose proof (clen_nonneg T c) as H1. pose proof (clen_nonneg E d) as H2.
  assert (HD : 0 < (clen T c + tiny) * (clen E d + tiny)) by (apply Rmult_lt_0_compat; lra).
  split.
  - apply Rmult_le_pos; [apply Rabs_pos|]. left. now apply Rinv_0_lt_compat.
  - set (D := _ * _) in *. apply Rmult_le_reg_r with D; auto. unfold Rdiv. rewrite Rmult_assoc, Rinv_l, Rmult_1_r by lra.
    rewrite Rmult_1_l. apply Rle_trans with (clen T c * clen E d).
    + pose proof (cauchy_schwarz (nrows T) (fun i => mget T i c) (fun i => mget E i d)) as CS.
      cbn beta in CS.
      rewrite <- (clen_sq T c) in CS.
      assert (E2 : sum (nrows T) (fun i => mget E i d ^ 2) = clen E d ^ 2) by (rewrite Hn; symmetry; apply clen_sq).
      rewrite E2 in CS.
      rewrite <- (Rabs_right (clen T c * clen E d)) by (apply Rle_ge, Rmult_le_pos; auto).
      apply Rsqr_le_abs_0. unfold Rsqr. nra.
    + unfold D. nra.
Qed.

Lemma weight_agreement_bound wp Ts Es c d : ~ (wp = true /\ cweight Ts c = 0 /\ cweight Es d = 0) ->
  0 <= weight_agreement wp Ts Es c d <= 1.
Proof.
  intros H. unfold weight_agreement. destruct wp; [|lra].
  pose proof (cweight_nonneg Ts c) as Ha. pose proof (cweight_nonneg Es d) as Hb.
  set (a := cweight Ts c) in *. set (b := cweight Es d) in *.
  assert (Hm : 0 < Rmax a b).
  { pose proof (Rmax_l a b). pose proof (Rmax_r a b). destruct (Rle_lt_dec (Rmax a b) 0); auto.
    exfalso. apply H. repeat split; lra. }
  assert (Hx : 0 <= Rabs (a - b) <= Rmax a b).
  { split; [apply Rabs_pos|]. pose proof (Rmax_l a b). pose proof (Rmax_r a b). apply Rabs_le. lra. }
  assert (0 <= Rabs (a - b) / Rmax a b).
  { apply Rmult_le_pos; [lra|]. left. now apply Rinv_0_lt_compat. }
  assert (Rabs (a - b) / Rmax a b <= 1).
  { apply Rmult_le_reg_r with (Rmax a b); auto. unfold Rdiv. rewrite Rmult_assoc, Rinv_l by lra. lra. }
  lra.
Qed.

Lemma rows_combine Ts Es : rows Ts = rows Es -> forall TE, In TE (combine Ts Es) -> nrows (fst TE) = nrows (snd TE).
Proof.
  revert Es. induction Ts as [|T Ts IH]; intros [|E Es] Hr TE H; try destruct H.
  - subst. cbn in *. now injection Hr.
  - cbn in Hr. injection Hr as _ Hr. eauto.
Qed.

Lemma match_score_bound wp Ts Es c d : rows Ts = rows Es -> ~ (wp = true /\ cweight Ts c = 0 /\ cweight Es d = 0) ->
  0 <= match_score wp Ts Es c d <= 1.
Proof.
  intros Hr H. unfold match_score. pose proof (weight_agreement_bound H).
  assert (0 <= prodf (combine Ts Es) (fun TE => rcos (fst TE) (snd TE) c d) <= 1).
  { apply prodf_01. intros TE HI. apply rcos_bound. now apply (rows_combine Hr). }
  nra.
Qed.

Lemma reduced_bound red n f s : (forall c, (c < n)%nat -> 0 <= f c <= 1) -> reduced red n f s -> 0 <= s <= 1.
Proof.
  intros H. destruct red; cbn.
  - intros [(c & Hc & <-) _]. auto.
  - intros [Hn E]. assert (0 < INR n) by (apply lt_0_INR; lia).
    assert (0 <= sum n f) by (apply sum_nonneg; intros; apply H; auto).
    assert (sum n f <= INR n * 1).
    { rewrite <- sum_const. apply sum_le. intros. apply H; auto. }
    rewrite <- E in *. split; nra.
Qed.

Lemma total_score_bound red wp Ts Es p s : rows Ts = rows Es -> comparable wp Ts Es p ->
  total_score red wp Ts Es p s -> 0 <= s <= 1.
Proof.
  intros Hr Hc. apply reduced_bound. intros c Hl. apply match_score_bound; auto.
  intros (E & H). exact (Hc E c Hl H).
Qed.

(** *** The result *)
Lemma fms_lemma red wp K K' Ts Es : mats K Ts -> mats K' Es -> rows Ts = rows Es -> Ts <> [] -> (0 < K)%nat ->
  (exists p s, factor_match_score Ts Es wp (reduction_name red) = Ok (Fin s, Some p) /\
               best_assignment red wp Ts Es K' K p s) \/
  (factor_match_score Ts Es wp (reduction_name red) = Ok (Fin (-1), None) /\
   forall p, assignment K' K p -> ~ comparable wp Ts Es p).
Proof.
  intros HT HE Hr Hn HK.
  assert (Hn' : Es <> []). { intros ->. destruct Ts; [congruence|discriminate]. }
  unfold factor_match_score. rewrite fms_reduction_ok, (first_cols_ok HT Hn), (first_cols_ok HE Hn'). cbn [bind].
  set (l := permutations K (seq 0 K')).
  assert (S1 : forall p, In p l -> score_of red wp Ts Es p = Ok (fms_value (val_of red wp Ts Es p))).
  { intros p Hp. apply in_permutations_seq in Hp. unfold val_of.
    destruct (@score_of_ok red wp K K' Ts Es p) as [(s & -> & _)|[-> _]]; auto. }
  assert (S2 : forall p s, In p l -> val_of red wp Ts Es p = Some s ->
             comparable wp Ts Es p /\ total_score red wp Ts Es p s).
  { intros p s Hp. apply in_permutations_seq in Hp. unfold val_of.
    destruct (@score_of_ok red wp K K' Ts Es p) as [(t & -> & Hc & Ht)|[-> _]]; auto; [|discriminate].
    intros E. injection E as <-. auto. }
  assert (S3 : forall p s, assignment K' K p -> comparable wp Ts Es p -> total_score red wp Ts Es p s ->
             val_of red wp Ts Es p = Some s).
  { intros p s Hp Hc Hs. unfold val_of.
    destruct (@score_of_ok red wp K K' Ts Es p) as [(t & -> & _ & Ht)|[-> Hx]]; auto; [|contradiction].
    f_equal. eapply reduced_unique; eauto. }
  destruct (@fms_loop (score_of red wp Ts Es) (val_of red wp Ts Es) l [] (Fin (-1), None)) as (acc & E & Hinv).
  - exact S1.
  - intros p s Hp Hs. destruct (S2 p s Hp Hs) as [H1 H2]. apply (total_score_bound Hr H1 H2).
  - apply permutations_sorted, seq_sorted.
  - unfold fms_inv. cbn. split; auto. intros q [].
  - cbn [app] in Hinv. destruct acc as [m [p|]]; unfold fms_inv in Hinv; cbn [fst snd] in Hinv.
    + destruct Hinv as (s & -> & Hp & Hv & Hmax). left. exists p, s. split; [exact E|].
      destruct (S2 _ _ Hp Hv) as [H1 H2]. split; [now apply in_permutations_seq|]. split; auto. split; auto.
      intros q s' Hq Hc Hs. apply Hmax with (q := q); auto. now apply in_permutations_seq.
    + destruct Hinv as (-> & Hnone). right. split; [exact E|]. intros p Hp Hc.
      destruct (@score_of_ok red wp K K' Ts Es p) as [(t & _ & _ & Ht)|[_ Hx]]; auto.
      assert (Hv := S3 p t Hp Hc Ht). rewrite (Hnone p) in Hv by now apply in_permutations_seq. discriminate.
Qed.

Lemma best_unique red wp Ts Es n r p s q t : best_assignment red wp Ts Es n r p s ->
  best_assignment red wp Ts Es n r q t -> p = q /\ s = t.
Proof.
  intros (A1 & C1 & S1 & M1) (A2 & C2 & S2 & M2).
  destruct (M1 q t A2 C2 S2) as [L1 X1]. destruct (M2 p s A1 C1 S1) as [L2 X2]. split; [|lra].
  destruct (@lex_lt_total p q) as [H|[H|H]]; auto.
  - destruct A1 as [-> _], A2 as [-> _]. auto.
  - apply X2 in H. lra.
  - apply X1 in H. lra.
Qed.
