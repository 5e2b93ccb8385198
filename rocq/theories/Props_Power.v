(** Property C110: rank-one CP_ALS on a matrix is the power method. *)
From Verif Require Import PowerFacts PowerWitness FixWitness SymWitness CMTFWitness Parafac2Examples Props_Quality Props_Best.
Local Open Scope R_scope.

(** *** C110.  X is an n x m matrix with singular value decomposition U, Sv, Vh; A(k) and B(k) are the factors after k passes. *)
(** A pass multiplies the coordinates along the singular vectors by the singular values, first from right to left, then back. *)
Theorem C110_power : forall env cs s n m U Sv Vh, cs_rank cs = 1%nat -> svd_works_on 1 1 (env_svd env) ->
  cp_coherent 1 s -> free_fit cs s -> shape (cp_X s) = [n; m] -> is_svd n m (cp_X s) U Sv Vh ->
  let Us k := kt_fms (cp_dec (state_after (cp_model env cs) s k)) in
  let A k := nth 0 (Us k) m0 in let B k := nth 1 (Us k) m0 in
  forall k j, (j < Nat.min n m)%nat ->
    left_coord U (A (S k)) j * col2 (B k) = vget Sv j * right_coord Vh (B k) j /\
    right_coord Vh (B (S k)) j * col2 (A (S k)) = vget Sv j * left_coord U (A (S k)) j.
Proof. intros env cs s n m U Sv Vh HK HS HC HF HX G Us A B. exact (@coords env cs s n m HK HS HC HF HX U Sv Vh G). Qed.
Print Assumptions C110_power.

(** If the second factor of the start is not orthogonal to some right singular vector of the largest singular value,
    the errors tend to the least error that any rank-one model has. *)
Theorem C110_best : forall env cs s n m U Sv Vh t, cs_rank cs = 1%nat -> svd_works_on 1 1 (env_svd env) ->
  cp_coherent 1 s -> free_fit cs s -> shape (cp_X s) = [n; m] -> is_svd n m (cp_X s) U Sv Vh ->
  let X := cp_X s in
  let Us k := kt_fms (cp_dec (state_after (cp_model env cs) s k)) in
  (t < Nat.min n m)%nat -> vget Sv t = vget Sv 0 -> right_coord Vh (nth 1 (Us 0%nat) m0) t <> 0 ->
  exists l, Un_cv (fun k => sse X (Us k) unit_weights 1) l /\
    (forall Vs w, rows Vs = shape X -> l <= sse X Vs w 1) /\
    (exists Vs, factors_ok 1 X Vs /\ sse X Vs unit_weights 1 = l).
Proof.
  intros env cs s n m U Sv Vh t HK HS HC HF HX G X Us Ht Et H0. exists (left_out (Nat.min n m) 1 Sv).
  split; [exact (@tends_to_best env cs s n m HK HS HC HF HX U Sv Vh G t Ht Et H0)|].
  split; [exact (fun Vs w => @matrix_bound X n m U Sv Vh Vs w HX G)|].
  exact (@matrix_reached X n m 1 U Sv Vh (proj1 (co_data HC)) HX G).
Qed.
Print Assumptions C110_best.

(** How fast: the excess after k + 1 passes is at most q^(4k+2) s0^2 / cos^2, where s0 is the largest singular value, all smaller
    ones are at most q s0, and cos is the cosine of the angle between the start and the singular vector. *)
Theorem C110_rate : forall env cs s n m U Sv Vh t q, cs_rank cs = 1%nat -> svd_works_on 1 1 (env_svd env) ->
  cp_coherent 1 s -> free_fit cs s -> shape (cp_X s) = [n; m] -> is_svd n m (cp_X s) U Sv Vh ->
  let X := cp_X s in
  let Us k := kt_fms (cp_dec (state_after (cp_model env cs) s k)) in
  let B := nth 1 (Us 0%nat) m0 in
  (t < Nat.min n m)%nat -> vget Sv t = vget Sv 0 -> 0 < vget Sv 0 -> right_coord Vh B t <> 0 ->
  0 <= q -> gap_ratio (Nat.min n m) Sv q ->
  forall k, sse X (Us (S k)) unit_weights 1 - left_out (Nat.min n m) 1 Sv <=
    q ^ (4 * k + 2) * (vget Sv 0 ^ 2 * col2 B / right_coord Vh B t ^ 2).
Proof.
  intros env cs s n m U Sv Vh t q HK HS HC HF HX G X Us B Ht Et Hp H0 Hq Hg.
  exact (@rate env cs s n m HK HS HC HF HX U Sv Vh G t q Ht Et Hp H0 Hq Hg).
Qed.
Print Assumptions C110_rate.

(** If the largest singular value is simple, the model itself tends to s0 u0 v0^T. *)
Theorem C110_model : forall env cs s n m U Sv Vh i j, cs_rank cs = 1%nat -> svd_works_on 1 1 (env_svd env) ->
  cp_coherent 1 s -> free_fit cs s -> shape (cp_X s) = [n; m] -> is_svd n m (cp_X s) U Sv Vh ->
  let Us k := kt_fms (cp_dec (state_after (cp_model env cs) s k)) in
  (0 < Nat.min n m)%nat -> 0 < vget Sv 0 -> (forall j, (0 < j < Nat.min n m)%nat -> vget Sv j < vget Sv 0) ->
  right_coord Vh (nth 1 (Us 0%nat) m0) 0 <> 0 -> (i < n)%nat -> (j < m)%nat ->
  Un_cv (fun k => cp_entry (Us k) unit_weights 1 [i; j]) (mget U i 0 * vget Sv 0 * mget Vh 0 j).
Proof.
  intros env cs s n m U Sv Vh i j HK HS HC HF HX G. exact (@fits_tend env cs s n m HK HS HC HF HX U Sv Vh G i j).
Qed.
Print Assumptions C110_model.

(** Blind starts: a start orthogonal to the right singular vectors of all singular values above c never sees them, and its errors stay at
    least |X|^2 - c^2, however many passes are made. *)
Theorem C110_blind : forall env cs s n m U Sv Vh c, cs_rank cs = 1%nat -> svd_works_on 1 1 (env_svd env) ->
  cp_coherent 1 s -> free_fit cs s -> shape (cp_X s) = [n; m] -> is_svd n m (cp_X s) U Sv Vh ->
  let X := cp_X s in
  let Us k := kt_fms (cp_dec (state_after (cp_model env cs) s k)) in
  0 <= c -> (forall j, (j < Nat.min n m)%nat -> c < vget Sv j -> right_coord Vh (nth 1 (Us 0%nat) m0) j = 0) ->
  forall k, energy X - c ^ 2 <= sse X (Us (S k)) unit_weights 1 /\
    forall j, (j < Nat.min n m)%nat -> c < vget Sv j ->
      left_coord U (nth 0 (Us (S k)) m0) j = 0 /\ right_coord Vh (nth 1 (Us (S k)) m0) j = 0.
Proof.
  intros env cs s n m U Sv Vh c HK HS HC HF HX G. exact (@blind_start env cs s n m HK HS HC HF HX U Sv Vh G c).
Qed.
Print Assumptions C110_blind.

(** *** Complete fits: the error of the returned model after it = k + 1 iterations *)
Theorem C110_fits : forall env cs cf disk draws X max_its arg ds ds1 n m U Sv Vh t q,
  let budget := match max_its with Some m => m | None => ds_max ds end in
  plain_call env cs 1 cf draws X budget arg ds ->
  cp_init_fit env cs disk draws X max_its arg ds = (ds1, None) -> energy X <> 0 -> 0 < cf_tol cf < 1 ->
  shape X = [n; m] -> is_svd n m X U Sv Vh ->
  let B := nth 1 (kt_fms (cp_dec (ds_num ds1))) m0 in
  (t < Nat.min n m)%nat -> vget Sv t = vget Sv 0 -> right_coord Vh B t <> 0 -> 0 <= q -> gap_ratio (Nat.min n m) Sv q ->
  exists d, cp_fit env cs cf disk draws X max_its arg ds = (d, None) /\
    forall k, ds_it d = Z.of_nat (S k) ->
      let e := sse X (kt_fms (cp_dec (ds_num d))) unit_weights 1 in
      left_out (Nat.min n m) 1 Sv <= e <=
        left_out (Nat.min n m) 1 Sv + q ^ (4 * k + 2) * (vget Sv 0 ^ 2 * col2 B / right_coord Vh B t ^ 2).
Proof. exact fit_rate. Qed.
Print Assumptions C110_fits.

(** The matrix with singular values 3 and 1.  From (1,1) the errors tend to 1 and the model tends to the matrix with 3 as only entry;
    after k + 1 passes the excess is at most 18 / 3^(4k+2).  From (0,1) the errors stay at least 9 for ever. *)
Example C110_example : exists s1 s2,
  cp_init_fit q_env y_cs no_disk [] b_X (Some 5%Z) (y_arg w_Us) y_ds = (s1, None) /\
  cp_init_fit q_env y_cs no_disk [] b_X (Some 5%Z) (y_arg f_Us) y_ds = (s2, None) /\
  let Us k := kt_fms (cp_dec (state_after (cp_model q_env y_cs) (ds_num s1) k)) in
  let Ws k := kt_fms (cp_dec (state_after (cp_model q_env y_cs) (ds_num s2) k)) in
  Us 0%nat = w_Us /\ Ws 0%nat = f_Us /\
  Un_cv (fun k => sse b_X (Us k) unit_weights 1) 1 /\
  (forall k, sse b_X (Us (S k)) unit_weights 1 - 1 <= (1 / 3) ^ (4 * k + 2) * 18) /\
  Un_cv (fun k => cp_entry (Us k) unit_weights 1 [0; 0]%nat) 3 /\ Un_cv (fun k => cp_entry (Us k) unit_weights 1 [1; 1]%nat) 0 /\
  (forall k, 9 <= sse b_X (Ws (S k)) unit_weights 1).
Proof.
  destruct (y_free b_X w_Us b_data w_ok) as (s1 & E1 & F1 & HC1 & HF1 & EX1).
  destruct (y_free b_X f_Us b_data f_ok) as (s2 & E2 & F2 & HC2 & HF2 & EX2).
  exists s1, s2. split; [exact E1|]. split; [exact E2|]. intros Us Ws.
  assert (U0 : Us 0%nat = w_Us) by exact F1. assert (W0 : Ws 0%nat = f_Us) by exact F2.
  assert (EL : left_out 2 1 w_S = 1) by (ev; lra).
  assert (H2 : shape b_X = [2; 2]%nat) by reflexivity.
  assert (HX1 : shape (cp_X (ds_num s1)) = [2; 2]%nat) by (now rewrite EX1). assert (HX2 : shape (cp_X (ds_num s2)) = [2; 2]%nat) by (now rewrite EX2).
  assert (G1 : is_svd 2 2 (cp_X (ds_num s1)) (np_identity 2) w_S (np_identity 2)) by (rewrite EX1; exact w_svd).
  assert (G2 : is_svd 2 2 (cp_X (ds_num s2)) (np_identity 2) w_S (np_identity 2)) by (rewrite EX2; exact w_svd).
  assert (R0 : right_coord (np_identity 2) (nth 1 (Us 0%nat) m0) 0 = 1) by (rewrite U0; clear; ev; lra).
  assert (Hne : right_coord (np_identity 2) (nth 1 (Us 0%nat) m0) 0 <> 0) by (rewrite R0; lra).
  assert (Hs0 : vget w_S 0 = 3) by reflexivity. assert (Hs1 : vget w_S 1 = 1) by reflexivity.
  split; [exact U0|]. split; [exact W0|]. split; [|split; [|split; [|split]]].
  - pose proof (@tends_to_best q_env y_cs (ds_num s1) 2 2 eq_refl y_svd HC1 HF1 HX1 _ _ _ G1 0 ltac:(cbn; lia) eq_refl Hne) as H.
    rewrite EX1 in H. change (Nat.min 2 2) with 2%nat in H. rewrite EL in H. exact H.
  - intros k. pose proof (C110_rate q_env y_cs (ds_num s1) 2 2 _ _ _ 0 (1 / 3) eq_refl y_svd HC1 HF1 HX1 G1 ltac:(cbn; lia) eq_refl) as H.
    cbv zeta in H. rewrite EX1 in H. change (Nat.min 2 2) with 2%nat in H. rewrite EL in H.
    assert (EC : vget w_S 0 ^ 2 * col2 (nth 1 (Us 0%nat) m0) / right_coord (np_identity 2) (nth 1 (Us 0%nat) m0) 0 ^ 2 = 18).
    { rewrite R0, U0. clear. ev. lra. }
    fold (Us 0%nat) in H. rewrite EC in H. apply H; [rewrite Hs0; lra|exact Hne|lra|].
    intros [|[|j]] Hj; [now left|right; rewrite Hs0, Hs1; lra|lia].
  - pose proof (C110_model q_env y_cs (ds_num s1) 2 2 _ _ _ 0 0 eq_refl y_svd HC1 HF1 HX1 G1) as H. cbv zeta in H.
    replace 3 with (mget (np_identity 2) 0 0 * vget w_S 0 * mget (np_identity 2) 0 0) by (clear; ev; lra).
    apply H; [cbn; lia|rewrite Hs0; lra| |exact Hne|lia|lia].
    intros [|[|j]] Hj; [lia|rewrite Hs0, Hs1; lra|cbn in Hj; lia].
  - pose proof (C110_model q_env y_cs (ds_num s1) 2 2 _ _ _ 1 1 eq_refl y_svd HC1 HF1 HX1 G1) as H. cbv zeta in H.
    replace 0 with (mget (np_identity 2) 1 0 * vget w_S 0 * mget (np_identity 2) 0 1) by (clear; ev; lra).
    apply H; [cbn; lia|rewrite Hs0; lra| |exact Hne|lia|lia].
    intros [|[|j]] Hj; [lia|rewrite Hs0, Hs1; lra|cbn in Hj; lia].
  - intros k. destruct (C110_blind q_env y_cs (ds_num s2) 2 2 _ _ _ 1 eq_refl y_svd HC2 HF2 HX2 G2 ltac:(lra)) with (k := k) as [H _].
    + intros [|[|j]] Hj Hlt; [|rewrite Hs1 in Hlt; lra|cbn in Hj; lia].
      fold (Ws 0%nat). rewrite W0. clear. ev. lra.
    + rewrite EX2 in H. assert (EE : energy b_X = 10) by (clear; ev; lra). rewrite EE in H. fold (Ws (S k)) in H. lra.
Qed.
