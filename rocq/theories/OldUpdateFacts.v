(** Facts for the unused update of CMTF_ALS (C92). *)
From Verif Require Import CPExamples CMTFWitness CMTFLoss OldUpdate OldUpdateSpec CMTFSpec CMTFFacts CMTFUpdate Solves KruskalFacts NumPyFacts CPFacts CPUpdate Spec.
From Verif Require Import Prelude Lin.
Set Implicit Arguments.
Unset Strict Implicit.
Local Open Scope R_scope.

(** *** pinv *)
Lemma broadcast_col_mat op n m a b : wf a -> shape a = [n; 1%nat] -> is_mat n m b ->
  broadcast op a b = Ok (tab2 n m (fun i j => op (mget a i 0) (mget b i j))).
Proof.
  intros Ha Sa [Hb Sb]. unfold broadcast. rewrite Sa, Sb.
  assert (E : bshape [n; 1%nat] [n; m] = Some [n; m]).
  { unfold bshape. cbn. rewrite Nat.eqb_refl. destruct m as [|[|m]]; cbn; reflexivity. }
  rewrite E. unfold tab2. f_equal. apply tab_ext. intros idx Hv.
  rewrite (@bidx_same [n; m]) by auto.
  apply valid_cons_inv in Hv as (i & idx' & -> & Hi & Hv).
  apply valid_cons_inv in Hv as (j & idx'' & -> & Hj & Hv).
  apply valid_nil_inv in Hv; subst.
  unfold bidx. cbn. unfold mget. destruct (Nat.eqb_spec n 1); [|reflexivity].
  replace i with 0%nat by lia. reflexivity.
Qed.

Lemma fold_max l : fold_right Rmax 0 l = 0 \/ In (fold_right Rmax 0 l) l.
Proof.
  induction l as [|x l IH]; cbn [fold_right]; auto. unfold Rmax at 1 3. destruct (Rle_dec _ _); [|right; left; auto].
  destruct IH as [IH|IH]; [left; auto|right; right; auto].
Qed.
Lemma amax_attained k a : is_vec k a -> np_amax a = 0 \/ exists q, (q < k)%nat /\ np_amax a = vget a q.
Proof.
  intros [Hw Hs]. unfold np_amax. destruct (fold_max (data a)) as [E|Hin]; [auto|]. right.
  destruct (In_nth _ _ 0 Hin) as (q & Hq & Eq). exists q.
  rewrite Hw, Hs in Hq. unfold prodl in Hq. cbn in Hq. split; [lia|]. rewrite <- Eq. unfold vget, get. rewrite Hs.
  cbn. f_equal. lia.
Qed.

Lemma inv_above_scaled n m A U Sv Vh r : is_svd n m A U Sv Vh -> well_scaled n m A -> (r < Nat.min n m)%nat ->
  inv_above (/ 10 ^ 15 * np_amax Sv) (vget Sv r) = inv_nonzero (vget Sv r).
Proof.
  intros HS HW Hr. unfold inv_above, inv_nonzero.
  assert (H10 : 0 < / 10 ^ 15) by (apply Rinv_0_lt_compat, pow_lt; lra).
  pose proof (svd_S_nonneg HS Hr) as H0.
  destruct (amax_attained (svd_S_shape HS)) as [E|(q & Hq & E)]; rewrite E.
  - rewrite Rmult_0_r. destruct (Rlt_dec 0 (vget Sv r)), (Req_EM_T (vget Sv r) 0); try lra; auto.
  - pose proof (svd_S_nonneg HS Hq) as Hq0. assert (0 <= / 10 ^ 15 * vget Sv q) by (apply Rmult_le_pos; lra).
    destruct (HW _ _ _ HS r q Hr Hq) as [Ez|Hlt]; destruct (Rlt_dec _ _), (Req_EM_T _ _); try lra; auto.
Qed.

Lemma pinv_entries svd n m A U Sv Vh : svd A = Ok (U, Sv, Vh) -> is_svd n m A U Sv Vh -> well_scaled n m A ->
  exists P, np_pinv svd A = Ok P /\ is_mat m n P /\
    forall j a, (j < m)%nat -> (a < n)%nat ->
      mget P j a = sum (Nat.min n m) (fun r => mget Vh r j * (inv_nonzero (vget Sv r) * mget U a r)).
Proof.
  intros E HS HW. set (k := Nat.min n m). unfold np_pinv. rewrite E. cbn [bind].
  pose proof (svd_U_shape HS) as HU. pose proof (svd_V_shape HS) as HV. pose proof (svd_S_shape HS) as HSv.
  fold k in HU, HV, HSv. set (T := np_map _ Sv).
  assert (HT : is_vec k T) by now apply is_vec_np_map. destruct HT as [HTw HTs].
  unfold np_mul. rewrite (@broadcast_col_mat _ k n _ (transp U)); [| |change (shape T ++ [1%nat] = [k; 1%nat]); now rewrite HTs|now apply is_mat_transp].
  2:{ unfold wf in *. change (length (data T) = prodl (shape T ++ [1%nat])). rewrite HTw, HTs. unfold prodl. cbn. lia. }
  cbn [bind]. rewrite (@matmul_ok m k n) by auto using is_mat_transp. eexists. split; [reflexivity|].
  split; [apply is_mat_tab2|]. intros j a Hj Ha. rewrite mget_tab2 by auto. apply sum_ext. intros r Hr.
  rewrite (mget_transp HV) by auto. rewrite mget_tab2 by auto. rewrite (mget_transp HU) by auto. f_equal. f_equal.
  rewrite <- (inv_above_scaled HS HW Hr). unfold T. rewrite <- (vget_np_map _ HSv) by auto.
  fold T. unfold mget, vget, get. change (nth (ravel (shape T ++ [1%nat]) [r; 0%nat]) (data T) 0 = nth (ravel (shape T) [r]) (data T) 0).
  rewrite HTs. cbn [app ravel]. f_equal.
Qed.

Lemma pinv_right svd n m p A B U Sv Vh :
  is_mat n m A -> is_mat p m B -> svd A = Ok (U, Sv, Vh) -> is_svd n m A U Sv Vh -> well_scaled n m A ->
  exists P Z, np_pinv svd A = Ok P /\ is_mat m n P /\ matmul B P = Ok Z /\ is_mat p n Z /\
    forall Y, dist2 p m (mprod n (mget Z) (mget A)) (mget B) <= dist2 p m (mprod n Y (mget A)) (mget B).
Proof.
  intros HA HB E HS HW. destruct (pinv_entries E HS HW) as (P & EP & HP & HPe).
  exists P. eexists. split; [exact EP|]. split; [exact HP|].
  split; [apply (matmul_ok HB HP)|]. split; [apply is_mat_tab2|].
  apply ls_optimal. apply (rightsolve_normal HS). intros i a Hi Ha. rewrite mget_tab2 by auto.
  transitivity (sum m (fun j => sum (Nat.min n m) (fun r => mget B i j * (mget Vh r j * (inv_nonzero (vget Sv r) * mget U a r))))).
  - apply sum_ext. intros j Hj. rewrite HPe by auto. now rewrite <- sum_scal_l.
  - rewrite sum_swap. apply sum_ext. intros r Hr. rewrite <- sum_scal_l, <- sum_scal_r. apply sum_ext. intros. ring.
Qed.

Lemma svd_transp n m A U Sv Vh : is_mat n m A -> is_svd n m A U Sv Vh -> is_svd m n (transp A) (transp Vh) Sv (transp U).
Proof.
  intros HA HS. pose proof (svd_U_shape HS) as HU. pose proof (svd_V_shape HS) as HV.
  constructor; rewrite (Nat.min_comm m n).
  - now apply is_mat_transp.
  - apply (svd_S_shape HS).
  - now apply is_mat_transp.
  - intros a b Ha Hb. rewrite <- (svd_V_orth HS Ha Hb). apply sum_ext. intros i Hi. now rewrite !(mget_transp HV).
  - intros a b Ha Hb. rewrite <- (svd_U_orth HS Ha Hb). apply sum_ext. intros i Hi. now rewrite !(mget_transp HU).
  - apply (svd_S_nonneg HS).
  - apply (svd_S_sorted HS).
  - intros i j Hi Hj. rewrite (mget_transp HA) by auto. rewrite (svd_product HS) by auto. apply sum_ext. intros r Hr.
    rewrite (mget_transp HV), (mget_transp HU) by auto. ring.
Qed.

(** B^T pinv(A)^T solves for the matrix that A is multiplied with. *)
Lemma pinv_left svd n m p A B U Sv Vh :
  is_mat n m A -> is_mat n p B -> svd A = Ok (U, Sv, Vh) -> is_svd n m A U Sv Vh -> well_scaled n m A ->
  exists P W, np_pinv svd A = Ok P /\ matmul (transp B) (transp P) = Ok W /\ is_mat p m W /\
    forall Y, dist2 p n (mprod m (mget W) (mget (transp A))) (mget (transp B)) <=
              dist2 p n (mprod m Y (mget (transp A))) (mget (transp B)).
Proof.
  intros HA HB E HS HW. destruct (pinv_entries E HS HW) as (P & EP & HP & HPe).
  pose proof (svd_U_shape HS) as HU. pose proof (svd_V_shape HS) as HV.
  exists P. eexists. split; [exact EP|].
  split; [apply (matmul_ok (is_mat_transp HB) (is_mat_transp HP))|]. split; [apply is_mat_tab2|].
  apply ls_optimal. apply (rightsolve_normal (svd_transp HA HS)).
  rewrite (Nat.min_comm m n). intros i a Hi Ha. rewrite mget_tab2 by auto.
  transitivity (sum n (fun j => sum (Nat.min n m) (fun r =>
    mget (transp B) i j * (mget Vh r a * (inv_nonzero (vget Sv r) * mget U j r))))).
  - apply sum_ext. intros j Hj. rewrite (mget_transp HP), HPe by auto. now rewrite <- sum_scal_l.
  - rewrite sum_swap. apply sum_ext. intros r Hr. rewrite <- sum_scal_l, <- sum_scal_r. apply sum_ext. intros j Hj.
    rewrite (mget_transp HV), (mget_transp HU) by auto. ring.
Qed.

(** *** The update *)
Lemma no_key modes k : ~ In k modes -> dict_find k (mode_to_cm_idx modes) = None.
Proof.
  intros H. destruct (dict_find k (mode_to_cm_idx modes)) eqn:E; auto. exfalso.
  destruct (find_first E) as (i & rest & _ & Hi & _). apply H. now apply nth_error_In in Hi.
Qed.

Lemma old_uncoupled_raises env cs s mode : ~ In (Z.of_nat mode) (cm_modes s) ->
  exists e, old_update env cs s mode = (s, Some e).
Proof.
  intros H. unfold old_update. destruct (bind _ _) as [[M KR]|e]; eauto. rewrite no_key by auto. eauto.
Qed.

Lemma old_prefix env K ms s m : cm_ok K ms s -> (m < length (shape (cp_X (cm_cp s))))%nat ->
  exists M KR, unfold (cp_X (cm_cp s)) (Z.of_nat m) = Ok M /\
    khatri_rao (env_junk env) (cm_fms s) (Some (Z.of_nat m)) = Ok KR /\
    (do _ <- cmtf_SSE env s ;
     do M <- unfold (cp_X (cm_cp s)) (Z.of_nat m) ;
     do KR <- khatri_rao (env_junk env) (cm_fms s) (Some (Z.of_nat m)) ;
     Ok (M, KR)) = Ok (M, KR).
Proof.
  intros H Hm. pose proof (ck_fac H) as [HU Hr]. destruct (ck_data H) as (HX & H2 & _). pose proof (ck_len H) as Hlen.
  destruct (@khatri_rao_skip_ok (env_junk env) K (cm_fms s) (Z.of_nat m) m HU) as (KR & EKR & _).
  { apply py_index_nat. lia. } { lia. }
  destruct (@unfold_ok (cp_X (cm_cp s)) (Z.of_nat m) m HX) as (M & EM & _).
  { now apply py_index_nat. } { apply (shape_nonzero (ck_data H) Hm). }
  exists M, KR. split; auto. split; auto. rewrite (cmtf_SSE_ok env H). cbn [bind]. rewrite EM. cbn [bind]. now rewrite EKR.
Qed.

Lemma old_uncoupled env cs K ms s m : cm_ok K ms s -> (m < length (shape (cp_X (cm_cp s))))%nat -> ~ In m ms ->
  old_update env cs s m = (s, Some AttributeError).
Proof.
  intros H Hm Hin. destruct (old_prefix env H Hm) as (M & KR & _ & _ & E). unfold old_update. rewrite E.
  rewrite no_key; auto. rewrite (ck_modes H). intros Hi. apply in_map_iff in Hi as (y & Ey & Hy).
  apply Nat2Z.inj in Ey. now subst.
Qed.

Lemma put_ok K ms s m U : cm_ok K ms s -> (m < length (shape (cp_X (cm_cp s))))%nat ->
  is_mat (nth m (shape (cp_X (cm_cp s))) 0%nat) K U -> cm_ok K ms (put_factor m U s).
Proof. intros H Hm HU. constructor; try apply H. apply factors_ok_replace; auto. apply (ck_fac H). Qed.

Lemma old_coupled env cs K ms s m :
  cm_ok K ms s -> NoDup ms -> (m < length (shape (cp_X (cm_cp s))))%nat -> In m ms -> svd_works_rows K (env_svd env) ->
  (forall lhs, cmtf_lhs env cs s m = Ok lhs -> well_scaled K (ncols lhs) lhs) ->
  exists i Z, (i < length ms)%nat /\ nth i ms 0%nat = m /\
    is_mat (nth m (shape (cp_X (cm_cp s))) 0%nat) K Z /\
    (forall Z', joint_sse K (cp_X (cm_cp s)) (cm_fms s) m (nth i (cm_V s) m0) (nth i (cm_Y s) m0) Z <=
                joint_sse K (cp_X (cm_cp s)) (cm_fms s) m (nth i (cm_V s) m0) (nth i (cm_Y s) m0) Z') /\
    ((exists r, (r < K)%nat /\ clen Z r = 0) ->
       exists s', old_update env cs s m = (s', Some NonFinite) /\ cm_fms s' = with_factor m Z (cm_fms s) /\
         cm_V s' = cm_V s /\ same_coupled s s') /\
    ((forall r, (r < K)%nat -> clen Z r <> 0) ->
       exists U, unit_columns (nth m (shape (cp_X (cm_cp s))) 0%nat) K Z U /\
         (svd_works_on (nth m (shape (cp_X (cm_cp s))) 0%nat) K (env_svd env) ->
          well_scaled (nth m (shape (cp_X (cm_cp s))) 0%nat) K U ->
          exists W s', old_update env cs s m = (s', None) /\ cm_fms s' = with_factor m U (cm_fms s) /\
            cm_V s' = replace_at i W (cm_V s) /\ same_coupled s s' /\ cm_ok K ms s' /\
            forall W', mat_sse K U W (nth i (cm_Y s) m0) <= mat_sse K U W' (nth i (cm_Y s) m0))).
Proof.
  intros H HN Hm Hin Hsvd Hws. set (n := nth m (shape (cp_X (cm_cp s))) 0%nat).
  destruct (old_prefix env H Hm) as (M & KR & EM & EKR & EP).
  destruct (dict_find (Z.of_nat m) (mode_to_cm_idx (cm_modes s))) as [idxs|] eqn:EF.
  2:{ exfalso. now apply (find_uncoupled H EF). }
  destruct (find_coupled H EF) as (i & rest & Ei & Hi & Em & Hall).
  destruct (ck_coup H) as (HlV & HlY & HC). destruct (HC i Hi) as (_ & HY & HV). rewrite Em in HY. fold n in HY.
  destruct (@coupled_sides env cs K ms s m idxs H Hm EF) as (i' & lhs & rhs & N & Hi' & Em' & HN1 & EL & ER & HL & HR & Hd & _).
  assert (i' = i) by (apply (proj1 (NoDup_nth ms 0%nat) HN); auto; congruence). subst i'.
  assert (HYf : first_of (cm_Y s) idxs = Ok (nth i (cm_Y s) m0)) by (apply (first_of_ok m0 Ei); intros j Hj; rewrite HlY; auto).
  assert (HVf : first_of (cm_V s) idxs = Ok (nth i (cm_V s) m0)) by (apply (first_of_ok m0 Ei); intros j Hj; rewrite HlV; auto).
  set (Y := nth i (cm_Y s) m0) in *. set (V := nth i (cm_V s) m0) in *.
  assert (Ec1 : concat1 M Y = Ok rhs).
  { revert ER. unfold cmtf_rhs. rewrite EF, EM. cbn [bind]. rewrite HYf. auto. }
  assert (Ec0 : exists C, concat0 KR V = Ok C).
  { revert EL. unfold cmtf_lhs. rewrite EF, EKR. cbn [bind]. rewrite HVf. cbn [bind].
    destruct (concat0 KR V); [eauto|discriminate]. }
  destruct Ec0 as (C & Ec0).
  destruct (Hsvd N HN1 lhs HL) as (U1 & S1 & V1 & ES & HS).
  pose proof (Hws lhs EL) as Hws1. rewrite (is_mat_ncols HL) in Hws1.
  destruct (pinv_right HL HR ES HS Hws1) as (P & Z & EPi & _ & EZ & HZ & Hopt).
  pose proof (rows_nth (ck_fac H) Hm) as HU. fold n in HU, HZ, HR, Hopt.
  assert (Estep : (do i <- list_get idxs 0 ; do Y <- first_of (cm_Y s) idxs ; do _ <- concat1 M Y ;
             do V <- first_of (cm_V s) idxs ; do _ <- concat0 KR V ; do rhs <- cmtf_rhs env s m ;
             do lhs <- cmtf_lhs env cs s m ; do P <- np_pinv (env_svd env) lhs ; do Z <- matmul rhs P ;
             do U <- list_get (cm_fms s) m ; do U1 <- assign_full U Z ; Ok (i, Y, U1)) = Ok (i, Y, Z)).
  { rewrite HYf, HVf, Ei. cbn [list_get nth_error bind]. rewrite Ec1. cbn [bind]. rewrite Ec0. cbn [bind]. rewrite ER, EL.
    cbn [bind]. rewrite EPi. cbn [bind]. rewrite EZ. cbn [bind].
    rewrite (@list_get_nth _ _ m m0) by (rewrite (ck_len H); auto). cbn [bind]. now rewrite (assign_full_mat HU HZ). }
  pose proof (is_vec_norm_axis0 HZ) as HNv.
  exists i, Z. split; [exact Hi|]. split; [exact Em|]. split; [exact HZ|]. split.
  { intros Z'. unfold joint_sse. rewrite <- !Hd. apply Hopt. }
  unfold old_update. rewrite EP, EF, Estep. split.
  - intros (r & Hr & E0). unfold np_div.
    replace (has_zero (norm_axis0 Z)) with true.
    2:{ destruct (has_zero (norm_axis0 Z)) eqn:E; auto. apply (has_zero_vec HNv) with (i := r) in E; auto.
        rewrite (vget_norm_axis0 HZ), <- clen_colnorm in E by auto. contradiction. }
    cbn [bind]. eexists. split; [reflexivity|]. split; [reflexivity|]. split; [reflexivity|].
    constructor; try reflexivity. constructor; reflexivity.
  - intros Hnz. unfold np_div.
    replace (has_zero (norm_axis0 Z)) with false.
    2:{ symmetry. apply (has_zero_vec HNv). intros r Hr. rewrite (vget_norm_axis0 HZ) by auto. rewrite <- clen_colnorm. auto. }
    rewrite (broadcast_mat_vec Rdiv HZ HNv). cbn [bind]. set (U2 := tab2 n K _).
    assert (HU2 : is_mat n K U2) by apply is_mat_tab2. rewrite (assign_full_mat HZ HU2).
    exists U2. split.
    { split; [exact HU2|]. intros a r Ha Hr. unfold U2. rewrite mget_tab2 by auto.
      rewrite (vget_norm_axis0 HZ) by auto. rewrite <- clen_colnorm. field. auto. }
    intros Hsvd2 Hws2. destruct (Hsvd2 U2 HU2) as (Ua & Sa & Va & ESa & HSa).
    destruct (pinv_left HU2 HY ESa HSa Hws2) as (P2 & W & EP2 & EW & HW & Hopt2).
    rewrite EP2. cbn [bind]. rewrite EW. cbn [bind]. rewrite (@list_get_nth _ (cm_V s) i m0) by lia. cbn [bind].
    fold V. rewrite (assign_full_mat HV HW).
    assert (Hok : cm_ok K ms (cm_with_V (replace_at i W (cm_V s)) (put_factor m U2 s))).
    { pose proof (put_ok H Hm HU2) as [A1 A2 A3 A4 A5]. constructor; try assumption.
      split; [cbn; now rewrite length_replace_at|]. split; [exact HlY|]. intros j Hj. destruct (HC j Hj) as (B1 & B2 & B3).
      split; auto. split; auto. cbn [cm_V cm_with_V]. destruct (Nat.eq_dec i j) as [<-|Hne].
      - rewrite nth_replace_at_eq by lia. exact HW.
      - rewrite nth_replace_at_neq by auto. exact B3. }
    rewrite (cmtf_SSE_ok env Hok). exists W. eexists. split; [reflexivity|]. split; [reflexivity|]. split; [reflexivity|].
    split; [constructor; try reflexivity; constructor; reflexivity|]. split; [exact Hok|].
    intros W'. rewrite !(mat_sse_transp _ HU2 HY). apply Hopt2.
Qed.

(** *** A perfect fit that the update spoils: 4 = 2 * 2 with the coupled matrix 2 = 2 * 1 *)
Lemma well_scaled_thin n m A : (Nat.min n m <= 1)%nat -> well_scaled n m A.
Proof.
  intros E U Sv Vh HS r q Hr Hq. replace r with 0%nat by lia. replace q with 0%nat by lia.
  pose proof (svd_S_nonneg HS (r := 0%nat) ltac:(lia)) as H0.
  assert (H10 : / 10 ^ 15 < 1). { rewrite <- Rinv_1. apply Rinv_lt_contravar; [|apply Rlt_pow_R1; [lra|lia]].
    rewrite Rmult_1_l. apply pow_lt; lra. }
  destruct (Req_dec (vget Sv 0) 0); [now left|right]. nra.
Qed.

Definition old_s : cmtf_state :=
  {| cm_cp := CPExamples.start 1 (mk [1; 1]%nat [4]) [mk [1; 1]%nat [2]; mk [1; 1]%nat [2]] [false; false] [false; false];
     cm_Y := [mk [1; 1]%nat [2]]; cm_modes := [0%Z]; cm_V := [mk [1; 1]%nat [1]] |}.
Lemma old_s_ok : cm_ok 1 [0%nat] old_s.
Proof.
  constructor; try reflexivity.
  - apply data11.
  - apply fac11.
  - apply is_vec_ones.
  - split; [reflexivity|]. split; [reflexivity|]. intros [|i] Hi; cbn in Hi; [|lia]. cbn.
    split; [lia|]. split; split; reflexivity.
Qed.


Lemma old_rises env cs : svd_contract (env_svd env) ->
  exists s', old_update env cs old_s 0 = (s', None) /\ cm_ok 1 [0%nat] s' /\
    cmtf_SSE env old_s = Ok 0 /\ cmtf_SSE env s' = Ok 4.
Proof.
  intros Hsvd. destruct (@old_coupled env cs 1 [0%nat] old_s 0 old_s_ok) as (i & Z & Hi & _ & HZ & Hopt & _ & Hgood).
  - constructor; [intros []|constructor].
  - cbn. lia.
  - now left.
  - intros m Hm A HA. now apply Hsvd.
  - intros lhs _. apply well_scaled_thin. lia.
  - assert (i = 0%nat) by (cbn in Hi; lia). subst i. cbn in HZ. destruct (mat11 HZ) as (z & ->).
    specialize (Hopt (mk [1; 1]%nat [2])). cbn in Hgood.
    assert (Ez : z = 2).
    { unfold joint_sse in Hopt. ev_in Hopt. pose proof (sq0 (4 - 2 * z)). pose proof (sq0 (2 - z)).
      assert (Hq : (2 - z) * (2 - z) <= 0) by lra. apply sq_zero in Hq. lra. }
    subst z.
    destruct Hgood as (U & (HU & HUe) & Hrun).
    { intros r Hr. replace r with 0%nat by lia. rewrite clen11; lra. }
    destruct (mat11 HU) as (u & ->).
    assert (Eu : u = 1).
    { specialize (HUe 0%nat 0%nat ltac:(lia) ltac:(lia)). rewrite clen11 in HUe by lra.
      change (u * 2 = 2) in HUe. lra. }
    subst u.
    destruct Hrun as (W & s' & E & Ef & EV & HS & Hok & HW).
    { intros A HA. now apply Hsvd. }
    { apply well_scaled_thin. cbn. lia. }
    exists s'. split; [exact E|]. split; [exact Hok|]. rewrite (cmtf_SSE_ok env old_s_ok), (cmtf_SSE_ok env Hok).
    split; [f_equal; ev; ring|].
    destruct (ck_coup Hok) as (_ & _ & HC). destruct (HC 0%nat ltac:(cbn; lia)) as (_ & _ & HWm).
    rewrite EV, (sc_Y HS) in HWm. cbn in HWm. destruct (mat11 HWm) as (w & ->).
    specialize (HW (mk [1; 1]%nat [2])). ev_in HW.
    assert (Ew : w = 2). { assert (Hq : (2 - w) * (2 - w) <= 0) by lra. apply sq_zero in Hq. lra. }
    subst w. rewrite Ef, EV, (sc_Y HS), (sp_X (sc_cp HS)). unfold cm_dec. rewrite (sp_w (sc_cp HS)).
    f_equal. ev. ring.
Qed.
