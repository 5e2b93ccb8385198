(** Concrete states and the witnesses for the second halves of C43, C46, C47 and C48. *)
From Verif Require Export CPConstrained.
Set Implicit Arguments.
Unset Strict Implicit.
Local Open Scope R_scope.

Lemma is_vec_ones K : is_vec K (np_ones [K]).
Proof. split; [apply wf_tab|apply shape_tab]. Qed.
Lemma vget_ones K r : (r < K)%nat -> vget (np_ones [K]) r = 1.
Proof. intros Hr. unfold vget, np_ones. rewrite get_tab; auto. now apply valid1. Qed.

(** The state in which a fit starts *)
Definition start (K : nat) (X : nd) (Us : list nd) (nn orth : list bool) : cp_state :=
  {| cp_X := X; cp_norm := norm X; cp_dec := {| kt_rank := K; kt_fms := Us; kt_w := np_ones [K] |};
     cp_last := None; cp_cache := None; cp_nn := Some nn; cp_orth := Some orth |}.

Lemma start_coherent K X Us nn orth : data_ok X -> factors_ok K X Us -> cp_coherent K (start K X Us nn orth).
Proof.
  intros HX HU. constructor; auto; cbn.
  - apply is_vec_ones.
  - discriminate.
Qed.
Lemma start_unit K X Us nn orth : unit_w K (start K X Us nn orth).
Proof. intros r Hr. now apply vget_ones. Qed.

(** A singular value decomposition of one-row matrices *)
Definition row_norm (A : nd) : R := sqrt (sum (ncols A) (fun j => mget A 0 j ^ 2)).
Definition svd_row (A : nd) : res (nd * nd * nd) :=
  let m := ncols A in let s := row_norm A in
  Ok (tab2 1 1 (fun _ _ => 1), tab1 1 (fun _ => s),
      tab2 1 m (fun _ j => if Req_EM_T s 0 then delta 0 j else mget A 0 j / s)).

Lemma svd_row_works m : (1 <= m)%nat -> svd_works_on 1 m svd_row.
Proof.
  intros Hm A HA. unfold svd_row. set (s := row_norm A). assert (Hc : ncols A = m) by (unfold ncols; now rewrite (proj2 HA)).
  rewrite Hc. do 3 eexists. split; [reflexivity|].
  assert (Hsum : 0 <= sum m (fun j => mget A 0 j ^ 2)) by (apply sum_nonneg; intros; nra).
  assert (Hs : s * s = sum m (fun j => mget A 0 j ^ 2)).
  { unfold s, row_norm. rewrite Hc. now apply sqrt_sqrt. }
  assert (Hs0 : 0 <= s) by (apply sqrt_pos).
  replace (Nat.min 1 m) with 1%nat by lia. constructor.
  - replace (Nat.min 1 m) with 1%nat by lia. apply is_mat_tab2.
  - replace (Nat.min 1 m) with 1%nat by lia. apply is_vec_tab1.
  - replace (Nat.min 1 m) with 1%nat by lia. apply is_mat_tab2.
  - replace (Nat.min 1 m) with 1%nat by lia. intros a b Ha Hb. replace a with 0%nat by lia. replace b with 0%nat by lia.
    cbn [seq sumf]. rewrite !mget_tab2 by lia. unfold delta. cbn. ring.
  - replace (Nat.min 1 m) with 1%nat by lia. intros a b Ha Hb. replace a with 0%nat by lia. replace b with 0%nat by lia.
    rewrite delta_refl. destruct (Req_EM_T s 0) as [Hz|Hz].
    + transitivity (sum m (fun j => delta 0 j * delta 0 j)); [apply sum_ext; intros; now rewrite mget_tab2 by lia|].
      rewrite sum_delta_l by lia. apply delta_refl.
    + transitivity (sum m (fun j => / (s * s) * mget A 0 j ^ 2)).
      * apply sum_ext. intros j Hj. rewrite mget_tab2 by lia. field. auto.
      * rewrite sum_scal_l, <- Hs. field. auto.
  - replace (Nat.min 1 m) with 1%nat by lia. intros r Hr. now rewrite vget_tab1.
  - replace (Nat.min 1 m) with 1%nat by lia. intros r t Hr. rewrite !vget_tab1 by lia. lra.
  - replace (Nat.min 1 m) with 1%nat by lia. intros i j Hi Hj. replace i with 0%nat by lia.
    cbn [seq sumf]. rewrite !mget_tab2, vget_tab1 by lia.
    destruct (Req_EM_T s 0) as [Hz|Hz]; [|field; auto].
    rewrite Hz in Hs |- *.
    assert (E : mget A 0 j ^ 2 = 0).
    { apply (@sum_nonneg_zero m (fun j => mget A 0 j ^ 2)); auto; [intros; nra|lra]. }
    nra.
Qed.

(** Small matrices by their entries *)
Lemma mat11 Z : is_mat 1 1 Z -> exists a, Z = mk [1; 1]%nat [a].
Proof.
  destruct Z as [sh d]. intros [H1 H2]. cbn in *. subst sh. unfold wf in H1. cbn in H1.
  destruct d as [|a [|? ?]]; try discriminate. eauto.
Qed.
Lemma mat12 Z : is_mat 1 2 Z -> exists a b, Z = mk [1; 2]%nat [a; b].
Proof.
  destruct Z as [sh d]. intros [H1 H2]. cbn in *. subst sh. unfold wf in H1. cbn in H1.
  destruct d as [|a [|b [|? ?]]]; try discriminate. eauto.
Qed.
Lemma mat22 Z : is_mat 2 2 Z -> exists a b c d, Z = mk [2; 2]%nat [a; b; c; d].
Proof.
  destruct Z as [sh l]. intros [H1 H2]. cbn in *. subst sh. unfold wf in H1. cbn in H1.
  destruct l as [|a [|b [|c [|d [|? ?]]]]]; try discriminate. eauto.
Qed.

Ltac ev := cbv -[Rplus Rmult Rminus Ropp Rdiv Rinv IZR Rle Rlt Rge Rgt sqrt].
Ltac ev_in H := cbv -[Rplus Rmult Rminus Ropp Rdiv Rinv IZR Rle Rlt Rge Rgt sqrt] in H.

Lemma sq0 x : 0 <= x * x.
Proof. apply Rle_0_sqr. Qed.
Lemma sq_zero x : x * x <= 0 -> x = 0.
Proof. intros H. apply Rsqr_0_uniq. unfold Rsqr. pose proof (sq0 x). lra. Qed.

(** *** C46 *)
Definition nn_X : nd := mk [1; 3]%nat [-1; 0; 1].
Definition nn_U1 : nd := mk [3; 2]%nat [1; 0; 1; 1; 0; 1].
Definition nn_state : cp_state := start 2 nn_X [mk [1; 2]%nat [0; 1 / 2]; nn_U1] [true; false] [false; false].
Definition nn_cs : cp_settings := {| cs_rank := 2; cs_init := "random"; cs_ridge := None |}.

Lemma nn_coherent : cp_coherent 2 nn_state.
Proof.
  apply start_coherent.
  - split; [reflexivity|]. split; [cbn; lia|]. repeat constructor; discriminate.
  - split; [repeat constructor|reflexivity].
Qed.

Lemma nonneg_not_optimal env : nnls_contract (env_nnls env) ->
  exists s', cp_update_factor env nn_cs nn_state 0 = (s', None) /\
    sse nn_X (kt_fms (cp_dec nn_state)) unit_weights 2 < sse nn_X (kt_fms (cp_dec s')) unit_weights 2.
Proof.
  intros HN.
  destruct (@update_nonneg env nn_cs 2 nn_state 0 nn_coherent eq_refl) with (lam := 0)
    as (s' & Z & E & HZ & Hfm & _ & _ & Hnn & Hopt); auto.
  - cbn. lia.
  - exists [true; false]. auto.
  - exists [false; false]. auto.
  - reflexivity.
  - lra.
  - exists s'. split; auto. rewrite Hfm. destruct (mat12 HZ) as (a & b & ->).
    assert (Ha : 0 <= a) by (apply (Hnn 0%nat 0%nat); cbn; lia).
    assert (Hb : 0 <= b) by (apply (Hnn 0%nat 1%nat); cbn; lia).
    specialize (Hopt (fun _ r => match r with O => 0 | _ => 1 / 5 end)).
    assert (Hf : nonneg_mat (nth 0 (shape (cp_X nn_state)) 0%nat) 2 (fun _ r => match r with O => 0 | _ => 1 / 5 end)).
    { intros i [|r] _ _; lra. }
    specialize (Hopt Hf). clear Hf Hnn HZ Hfm E.
    ev_in Hopt. ev. 
    assert (Hq : 5 * (a * a) + 8 * (a * b) + 2 * a + 5 * ((b - 1 / 5) * (b - 1 / 5)) <= 0) by lra.
    clear Hopt. pose proof (Rmult_le_pos a b Ha Hb). pose proof (sq0 a). pose proof (sq0 (b - 1 / 5)).
    assert (a = 0) by lra. assert (b - 1 / 5 = 0) by (apply sq_zero; lra).
    assert (b = 1 / 5) by lra. subst. lra.
Qed.

(** *** C47 *)
Definition ridge_X : nd := mk [1; 1]%nat [1].
Definition ridge_cs : cp_settings := {| cs_rank := 1; cs_init := "random"; cs_ridge := Some [1; 0] |}.
Definition ridge_state : cp_state :=
  start 1 ridge_X [mk [1; 1]%nat [2 / 5]; mk [1; 1]%nat [2]] [false; false] [false; false].

Lemma ridge_coherent : cp_coherent 1 ridge_state.
Proof.
  apply start_coherent.
  - split; [reflexivity|]. split; [cbn; lia|]. repeat constructor; discriminate.
  - split; [repeat constructor|reflexivity].
Qed.

Lemma cp_loss_ok env cs K s : cp_coherent K s -> unit_w K s ->
  cp_loss env cs s = Ok (sse (cp_X s) (kt_fms (cp_dec s)) unit_weights K +
    match cs_ridge cs with None => 0 | Some lams => ridge_terms lams (kt_fms (cp_dec s)) end).
Proof.
  intros H Hw. unfold cp_loss. rewrite (cp_SSE_ok env H), (unit_sse Hw). cbn [bind]. f_equal.
  destruct (cs_ridge cs) as [lams|]; [|lra]. apply (@ridge_fold K). apply (co_fac H).
Qed.

Lemma ridge_not_optimal env : svd_works_on 1 2 (env_svd env) ->
  exists s' l l', cp_update_factor env ridge_cs ridge_state 0 = (s', None) /\
    cp_loss env ridge_cs ridge_state = Ok l /\ cp_loss env ridge_cs s' = Ok l' /\ l < l'.
Proof.
  intros HN.
  destruct (@update_ridge env ridge_cs 1 ridge_state 0 ridge_coherent eq_refl) with (lam := 1)
    as (s' & Z & E & HZ & Hfm & HSP & HC & Hopt); auto.
  - cbn. lia.
  - exists [false; false]. auto.
  - exists [false; false]. auto.
  - discriminate.
  - reflexivity.
  - lra.
  - exists s'. do 2 eexists. split; auto.
    split; [apply (@cp_loss_ok env ridge_cs 1 ridge_state ridge_coherent); apply start_unit|].
    split; [apply (@cp_loss_ok env ridge_cs 1 s' HC); apply (unit_w_same HSP), start_unit|].
    rewrite Hfm, (sp_X HSP). destruct (mat11 HZ) as (a & ->). specialize (Hopt (fun _ _ => 8 / 17)).
    clear HZ Hfm E HC HSP. ev_in Hopt. ev.
    assert (Hq : (a - 8 / 17) * (a - 8 / 17) <= 0) by lra.
    assert (a - 8 / 17 = 0) by now apply sq_zero. assert (a = 8 / 17) by lra. subst. lra.
Qed.

(** *** C48 *)
Definition orth_X : nd := mk [2; 2]%nat [34; 3 / 2; 12; 41 / 8].
Definition orth_cs : cp_settings := {| cs_rank := 2; cs_init := "random"; cs_ridge := None |}.
Definition orth_state : cp_state :=
  start 2 orth_X [mk [2; 2]%nat [40 / 41; - (9 / 41); 9 / 41; 40 / 41]; mk [2; 2]%nat [1; 0; 0; 2]]
        [false; false] [true; false].

Lemma orth_coherent : cp_coherent 2 orth_state.
Proof.
  apply start_coherent.
  - split; [reflexivity|]. split; [cbn; lia|]. repeat constructor; discriminate.
  - split; [repeat constructor|reflexivity].
Qed.
Lemma orth_start_ok : orth_cols 2 2 (mget (nth 0 (kt_fms (cp_dec orth_state)) m0)).
Proof. intros [|[|a]] [|[|b]] Ha Hb; try lia; ev; lra. Qed.

(** Gain of A along a right singular vector *)
Lemma svd_gain n m A U Sv Vh r : is_svd n m A U Sv Vh -> (r < Nat.min n m)%nat ->
  sum n (fun i => sum m (fun j => mget A i j * mget Vh r j) ^ 2) = vget Sv r ^ 2.
Proof.
  intros HS Hr.
  transitivity (sum n (fun i => (mget U i r * mget U i r) * vget Sv r ^ 2)).
  - apply sum_ext. intros i Hi.
    assert (E : sum m (fun j => mget A i j * mget Vh r j) = mget U i r * vget Sv r).
    { rewrite <- (@orth_rows_coeff (Nat.min n m) m (mget Vh) (fun q => mget U i q * vget Sv q) r (svd_V_orth HS) Hr).
      apply sum_ext. intros j Hj. now rewrite (svd_product HS). }
    rewrite E. ring.
  - rewrite sum_scal_r, (svd_U_orth HS Hr Hr), delta_refl. ring.
Qed.

Lemma orth_not_optimal env : svd_works_on 2 2 (env_svd env) ->
  exists s', cp_update_factor env orth_cs orth_state 0 = (s', None) /\
    orth_cols 2 2 (mget (nth 0 (kt_fms (cp_dec s')) m0)) /\
    sse orth_X (kt_fms (cp_dec orth_state)) unit_weights 2 < sse orth_X (kt_fms (cp_dec s')) unit_weights 2.
Proof.
  intros HN.
  set (N := tab2 2 2 (MV 2 orth_state 0)).
  destruct (HN N (is_mat_tab2 _ _ _)) as (U & Sv & Vh & ES & HS).
  assert (G0 := @svd_gain 2 2 N U Sv Vh 0 HS ltac:(cbn; lia)).
  assert (G1 := @svd_gain 2 2 N U Sv Vh 1 HS ltac:(cbn; lia)).
  assert (O0 := svd_V_orth HS (a := 0%nat) (b := 0%nat) ltac:(cbn; lia) ltac:(cbn; lia)).
  assert (O1 := svd_V_orth HS (a := 1%nat) (b := 1%nat) ltac:(cbn; lia) ltac:(cbn; lia)).
  assert (P0 := svd_S_nonneg HS (r := 0%nat) ltac:(cbn; lia)).
  assert (P1 := svd_S_nonneg HS (r := 1%nat) ltac:(cbn; lia)).
  assert (HNe : mget N 0 0 = 34 /\ mget N 0 1 = 12 /\ mget N 1 0 = 12 /\ mget N 1 1 = 41).
  { unfold N. rewrite !mget_tab2 by lia. do 3 (split; [ev; lra|]). ev. lra. }
  destruct HNe as (N0 & N1 & N2 & N3).
  cbn [seq sumf] in G0, G1, O0, O1. unfold delta in O0, O1. cbn [Nat.eqb] in O0, O1. rewrite N0, N1, N2, N3 in G0, G1.
  set (x := mget Vh 0 0) in *. set (y := mget Vh 0 1) in *. set (z := mget Vh 1 0) in *. set (t := mget Vh 1 1) in *.
  set (s0 := vget Sv 0) in *. set (s1 := vget Sv 1) in *.
  assert (B0 : s0 <= 50).
  { assert (s0 ^ 2 <= 2500 * (x * x + (y * y + 0))).
    { rewrite <- G0. pose proof (sq0 (4 * x - 3 * y)). lra. }
    nra. }
  assert (B1 : 25 <= s1).
  { assert (625 * (z * z + (t * t + 0)) <= s1 ^ 2).
    { rewrite <- G1. pose proof (sq0 (3 * z + 4 * t)). lra. }
    nra. }
  assert (B2 : s1 <= s0) by (apply (svd_S_sorted HS); cbn; lia).
  assert (Htiny : 0 < / 10 ^ 16 <= / 1000).
  { split; [apply Rinv_0_lt_compat; lra|]. apply Rinv_le_contravar; lra. }
  destruct (@update_orth env orth_cs 2 orth_state 0 orth_coherent eq_refl ltac:(cbn; lia) 0 U Sv Vh)
    as (s' & Z & E & HZ & Hfm & _ & _ & HO & Hopt); auto.
  - exists [false; false]. auto.
  - exists [true; false]. auto.
  - reflexivity.
  - lra.
  - intros r Hr. change (nth 0 (shape (cp_X orth_state)) 0%nat) with 2%nat.
    change (INR 2) with 2. fold s0. destruct r as [|[|r]]; [| |lia]; fold s0 s1; nra.
  - exists s'. split; auto. rewrite Hfm.
    change (nth 0 (shape (cp_X orth_state)) 0%nat) with 2%nat in HZ, HO.
    split; [exact HO|].
    destruct (mat22 HZ) as (a & b & c & d & ->).
    specialize (Hopt (fun i j => delta i j)).
    assert (Hf : orth_cols (nth 0 (shape (cp_X orth_state)) 0%nat) 2 (fun i j => delta i j)).
    { intros [|[|i]] [|[|j]] Hi Hj; cbn in Hi, Hj; try lia; ev; lra. }
    specialize (Hopt Hf). clear - Hopt HO.
    assert (C0 := HO 0%nat 0%nat ltac:(lia) ltac:(lia)). assert (C1 := HO 1%nat 1%nat ltac:(lia) ltac:(lia)).
    assert (C2 := HO 0%nat 1%nat ltac:(lia) ltac:(lia)).
    ev_in C0. ev_in C1. ev_in C2. ev_in Hopt. ev.
    assert (Q : 25 * ((a - 1) * (a - 1) + b * b + c * c + (d - 1) * (d - 1)) <= 0).
    { pose proof (sq0 (3 * (a - 1) + 4 * b)). pose proof (sq0 (3 * c + 4 * (d - 1))). lra. }
    clear - Q. pose proof (sq0 (a - 1)). pose proof (sq0 b). pose proof (sq0 c). pose proof (sq0 (d - 1)).
    assert (a - 1 = 0) by (apply sq_zero; lra). assert (b = 0) by (apply sq_zero; lra).
    assert (c = 0) by (apply sq_zero; lra). assert (d - 1 = 0) by (apply sq_zero; lra).
    assert (a = 1) by lra. assert (d = 1) by lra. subst. lra.
Qed.

(** *** C43 *)
Lemma vec1 v : is_vec 1 v -> exists a, v = mk [1]%nat [a].
Proof.
  destruct v as [sh d]. intros [H1 H2]. cbn in *. subst sh. unfold wf in H1. cbn in H1.
  destruct d as [|a [|? ?]]; try discriminate. eauto.
Qed.
Lemma sqrt_pow2' x : sqrt (x * x + 0) * (sqrt (x * x + 0) * 1) = x * x.
Proof. rewrite Rmult_1_r, sqrt_sqrt; [ring|]. pose proof (sq0 x). lra. Qed.

Lemma SSE_1x1 env x u v w c nn orth :
  cp_SSE env {| cp_X := mk [1; 1]%nat [x]; cp_norm := norm (mk [1; 1]%nat [x]);
    cp_dec := {| kt_rank := 1; kt_fms := [mk [1; 1]%nat [u]; mk [1; 1]%nat [v]]; kt_w := mk [1]%nat [w] |};
    cp_last := Some 0%nat; cp_cache := Some (mk [1; 1]%nat [c]); cp_nn := nn; cp_orth := orth |} =
  Ok (x * x + (w * u * v) * (w * u * v) - 2 * (w * u * c)).
Proof.
  cbv -[Rplus Rmult Rminus Ropp Rdiv Rinv IZR sqrt].
  f_equal. rewrite !sqrt_pow2'. ring.
Qed.

Definition sse_cs : cp_settings := {| cs_rank := 1; cs_init := "random"; cs_ridge := None |}.
Definition sse_state : cp_state :=
  start 1 (mk [1; 1]%nat [1]) [mk [1; 1]%nat [7]; mk [1; 1]%nat [1 / 2]] [false; false] [false; false].

Lemma sse_coherent : cp_coherent 1 sse_state.
Proof.
  apply start_coherent.
  - split; [reflexivity|]. split; [cbn; lia|]. repeat constructor; discriminate.
  - split; [repeat constructor|reflexivity].
Qed.
Lemma sse_free : free_fit sse_cs sse_state.
Proof.
  intros m Hm. cbn in Hm. split; [reflexivity|].
  split; exists [false; false]; (split; [reflexivity|]); destruct m as [|[|m]]; (reflexivity || lia).
Qed.

(** Normalising the decomposition after an update: the reported SSE is no longer the true one. *)
Lemma sse_after_normalising env eps : svd_works_on 1 1 (env_svd env) -> 0 <= eps < 1 / 2 ->
  exists s' k' l, cp_update_factor env sse_cs sse_state 0 = (s', None) /\
    kt_normalize true eps (cp_dec s') = Ok k' /\
    cp_SSE env (cp_with_dec k' s') = Ok l /\
    l <> sse (cp_X s') (kt_fms k') (vget (kt_w k')) 1.
Proof.
  intros HN He.
  destruct (@update_optimal env sse_cs 1 sse_state 0 sse_coherent eq_refl ltac:(cbn; lia) (@sse_free 0%nat ltac:(cbn; lia)) HN)
    as (s' & Z & E & HZ & Hfm & HSP & HC & Hopt).
  pose proof E as E0. unfold cp_update_factor in E0.
  destruct (do lhs <- als_lhs _ _ _ ; _) as [[[V P] solve]|]; [|discriminate].
  destruct (do Y <- solve V P ; _) as [U'|]; [|discriminate].
  injection E0 as E0.
  destruct (mat11 HZ) as (a & ->).
  assert (Ha : a = 2).
  { specialize (Hopt (mk [1; 1]%nat [2])). ev_in Hopt. 
    assert (1 - 1 / 2 * a = 0) by (apply sq_zero; lra). lra. }
  destruct (co_cache HC (m := 0%nat)) as (_ & C & EC & HCm & HCe); [now rewrite <- E0|].
  rewrite (sp_X HSP) in HCm. destruct (mat11 HCm) as (c & ->).
  assert (Hc : c = 1 / 2).
  { specialize (HCe 0%nat 0%nat). rewrite (sp_X HSP) in HCe. rewrite Hfm in HCe.
    specialize (HCe ltac:(cbn; lia) ltac:(lia)). ev_in HCe. lra. }
  assert (EL : cp_last s' = Some 0%nat) by now rewrite <- E0.
  assert (ED : cp_dec s' = {| kt_rank := 1; kt_fms := [mk [1; 1]%nat [a]; mk [1; 1]%nat [1 / 2]]; kt_w := np_ones [1%nat] |}).
  { rewrite <- E0 in Hfm |- *. cbn in Hfm |- *. unfold kt_with_factor. cbn. f_equal. injection Hfm as ->. reflexivity. }
  assert (EX : cp_X s' = mk [1; 1]%nat [1]) by (rewrite (sp_X HSP); reflexivity).
  assert (EN : cp_norm s' = norm (mk [1; 1]%nat [1])) by (rewrite (sp_norm HSP); reflexivity).
  subst a c. clear E0 Hopt HCe HCm Hfm HZ HC HSP.
  assert (L2 : clen (mk [1; 1]%nat [2]) 0 = 2).
  { unfold clen. ev. replace (2 * (2 * 1) + 0) with (2 * 2) by ring. apply sqrt_square. lra. }
  assert (Lh : clen (mk [1; 1]%nat [1 / 2]) 0 = 1 / 2).
  { unfold clen. ev. replace (1 / 2 * (1 / 2 * 1) + 0) with (1 / 2 * (1 / 2)) by ring. apply sqrt_square. lra. }
  destruct (@kt_normalize_spec (env_junk env) true eps 1 [mk [1; 1]%nat [2]; mk [1; 1]%nat [1 / 2]] (np_ones [1%nat]))
    as (k' & T' & EK & HR & HM & Hrows & Hw & _ & He' & Hwe & _).
  { repeat constructor. } { apply is_vec_ones. } { cbn. lia. } { lra. }
  { intros U r HU Hr. replace r with 0%nat by lia. destruct HU as [<-|[<-|[]]]; rewrite ?L2, ?Lh; lra. }
  destruct k' as [rk fs w']. cbn [kt_rank kt_fms kt_w] in *. subst rk.
  destruct fs as [|F0 [|F1 [|? ?]]]; try discriminate.
  cbn in Hrows. injection Hrows as R0 R1. inversion HM as [|? ? M0 HM']; subst. inversion HM' as [|? ? M1 _]; subst.
  rewrite R0 in M0. rewrite R1 in M1. destruct (mat11 M0) as (f & ->). destruct (mat11 M1) as (g & ->).
  destruct (vec1 Hw) as (w & ->).
  assert (Hf : f = 2 / (2 + eps)).
  { specialize (He' 0%nat 0%nat 0%nat). cbn [nth length] in He'. rewrite L2 in He'. apply He'; cbn; lia. }
  assert (Hg : g = 1 / 2 / (1 / 2 + eps)).
  { specialize (He' 1%nat 0%nat 0%nat). cbn [nth length] in He'. rewrite Lh in He'. apply He'; cbn; lia. }
  assert (Hw1 : w = 1).
  { specialize (Hwe 0%nat ltac:(lia)). cbn [prodf] in Hwe. rewrite L2, Lh in Hwe.
    rewrite vget_ones in Hwe by lia. cbn in Hwe. lra. }
  exists s'. eexists. eexists. split; [exact E|]. split; [rewrite ED; exact EK|].
  split.
  - destruct s' as [sX sN sD sL sC sn so]. cbn in EL, EX, EN, EC |- *. subst sX sN sL sC. apply SSE_1x1.
  - rewrite EX. ev. intros Heq. subst w.
    assert (Hd : f * (2 * g - 1) = 0) by lra.
    apply Rmult_integral in Hd.
    assert (0 < 2 + eps) by lra. assert (0 < 1 / 2 + eps) by lra.
    assert (F : f <> 0). { rewrite Hf. unfold Rdiv. apply Rmult_integral_contrapositive_currified; [lra|]. now apply Rinv_neq_0_compat; lra. }
    destruct Hd as [|Hd]; [contradiction|].
    assert (g * (1 / 2 + eps) = 1 / 2) by (rewrite Hg; field; lra). nra.
Qed.
