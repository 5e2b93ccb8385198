(** One pass of CMTF_ALS on single numbers: lemmas for C112. *)
From Verif Require Export CmUnitFacts.
From Verif Require Import CoupledTurn CMTFUpdate CMTFLoss CMTFFacts CPUpdate CPFacts SymFacts Exists NumPyFacts CPExamples CMTFWitness.
From Verif Require Import Prelude Lin.
Set Implicit Arguments.
Unset Strict Implicit.
Local Open Scope R_scope.

Notation one x := (mk [1; 1]%nat [x]) (only parsing).
(** The data are x and, coupled to the second mode, y; the factors are a, b and v. *)
Definition numbers (x y a b v : R) : cmtf_state :=
  {| cm_cp := start 1 (one x) [one a; one b] [false; false] [false; false];
     cm_Y := [one y]; cm_modes := [1%Z]; cm_V := [one v] |}.
Lemma numbers_ok x y a b v : cm_ok 1 [1%nat] (numbers x y a b v).
Proof.
  constructor.
  - apply data11.
  - apply fac11.
  - split; reflexivity.
  - reflexivity.
  - split; [reflexivity|]. split; [reflexivity|]. intros i Hi. cbn in Hi. destruct i; [|lia]. cbn. split; [lia|]. split; split; reflexivity.
Qed.
Lemma numbers_free x y a b v : free_fit w_cs (cm_cp (numbers x y a b v)).
Proof.
  intros m Hm. cbn in Hm. split; [reflexivity|]. cbn. split; exists [false; false]; (split; [reflexivity|]).
  all: destruct m as [|[|m]]; [reflexivity|reflexivity|lia].
Qed.
Lemma solve_numbers svd M A B : svd_contract svd -> is_mat 1 M A -> is_mat 1 M B -> dots M A A 0 0 <> 0 ->
  rightsolve svd A B = Ok (one (dots M B A 0 0 / dots M A A 0 0)).
Proof.
  intros HS HA HB Hne. destruct (rightsolve_span HS HA HB) as (Z & T & E & HZ & HN & _). destruct (mat11 HZ) as (z & ->).
  specialize (HN 0%nat 0%nat (le_n 1) (le_n 1)). cbn [seq sumf] in HN. rewrite E. do 3 f_equal.
  apply (Rmult_eq_reg_r (dots M A A 0 0)); [|exact Hne]. change (mget (one z) 0 0) with z in HN. rewrite Rplus_0_r in HN. rewrite HN. field. exact Hne.
Qed.

Lemma first_number env s a b : svd_contract (env_svd env) -> cm_ok 1 [1%nat] s -> free_fit w_cs (cm_cp s) ->
  shape (cp_X (cm_cp s)) = [1; 1]%nat -> cm_fms s = [one a; one b] -> b <> 0 ->
  exists s', cmtf_update_factor env w_cs s 0 = (s', None) /\ same_coupled s s' /\ cm_ok 1 [1%nat] s' /\
    cm_fms s' = [one (mget (cp_X (cm_cp s)) 0 0 / b); one b] /\ cm_V s' = cm_V s.
Proof.
  intros HS HO HF EX Ef Hb. assert (Hm : (0 < length (shape (cp_X (cm_cp s))))%nat) by (rewrite EX; cbn; lia).
  destruct (als_rhs_ok env (ck_data HO) (ck_fac HO) Hm) as (P & EP & HPm & HPe).
  destruct (@als_lhs_ok w_cs 1 (cm_fms s) 0 (proj1 (ck_fac HO)) eq_refl) as (V & EV & HV & HVe).
  rewrite EX in HPm, HPe. cbn [nth] in HPm, HPe.
  assert (EV0 : mget V 0 0 = b * b). { rewrite HVe by lia. rewrite Ef. ev. ring. }
  assert (EP0 : mget P 0 0 = mget (cp_X (cm_cp s)) 0 0 * b).
  { rewrite HPe by lia. unfold normal_rhs, mttkrp_entry. rewrite EX, Ef. ev. ring. }
  assert (Hd : dots 1 V V 0 0 = b * b * (b * b)). { unfold dots. cbn [seq sumf]. rewrite EV0. ring. }
  assert (Hd' : dots 1 P V 0 0 = mget (cp_X (cm_cp s)) 0 0 * b * (b * b)). { unfold dots. cbn [seq sumf]. rewrite EV0, EP0. ring. }
  assert (Hbb : b * b <> 0) by now apply Rmult_integral_contrapositive_currified.
  assert (EZ : rightsolve (env_svd env) V P = Ok (one (mget (cp_X (cm_cp s)) 0 0 / b))).
  { rewrite (solve_numbers HS HV HPm) by (rewrite Hd; now apply Rmult_integral_contrapositive_currified).
    rewrite Hd, Hd'. do 3 f_equal. field. exact Hb. }
  assert (EL : dict_find (Z.of_nat 0) (mode_to_cm_idx (cm_modes s)) = None) by (rewrite (ck_modes HO); reflexivity).
  destruct (@cm_update_with env w_cs 1 [1%nat] s 0 V P (rightsolve (env_svd env)) (one (mget (cp_X (cm_cp s)) 0 0 / b)) HO Hm)
    as (s' & E & F & FV & S1 & O1).
  - unfold cmtf_lhs. now rewrite EL.
  - unfold cmtf_rhs. now rewrite EL.
  - apply free_rightsolve, HF, Hm.
  - exact EZ.
  - rewrite EX. split; reflexivity.
  - exists s'. split; [exact E|]. split; [exact S1|]. split; [exact O1|]. split; [|exact FV]. rewrite F, Ef. reflexivity.
Qed.
Lemma second_number env s a b v y : svd_contract (env_svd env) -> cm_ok 1 [1%nat] s -> free_fit w_cs (cm_cp s) ->
  shape (cp_X (cm_cp s)) = [1; 1]%nat -> cm_fms s = [one a; one b] -> cm_V s = [one v] -> cm_Y s = [one y] -> a <> 0 ->
  exists s', cmtf_update_factor env w_cs s 1 = (s', None) /\ same_coupled s s' /\ cm_ok 1 [1%nat] s' /\
    cm_fms s' = [one a; one ((mget (cp_X (cm_cp s)) 0 0 * a + y * v) / (a * a + v * v))] /\ cm_V s' = cm_V s.
Proof.
  intros HS HO HF EX Ef EV EY Ha. assert (Hm : (1 < length (shape (cp_X (cm_cp s))))%nat) by (rewrite EX; cbn; lia).
  assert (EL : dict_find (Z.of_nat 1) (mode_to_cm_idx (cm_modes s)) = Some [0%nat]) by (rewrite (ck_modes HO); reflexivity).
  assert (HND : NoDup [1%nat]) by (repeat constructor; intros []).
  destruct (@sides_gram env w_cs 1 [1%nat] s 1 [0%nat] HO HND Hm EL) as (i & lhs & rhs & N & Hi & _ & E1 & E2 & H1 & H2 & G1 & G2).
  cbn in Hi. destruct i; [|lia]. rewrite EX in H2, G2. cbn [nth] in H2, G2. rewrite EV, EY in G1, G2.
  assert (D1 : dots N lhs lhs 0 0 = a * a + v * v). { rewrite G1 by lia. rewrite Ef. ev. ring. }
  assert (D2 : dots N rhs lhs 0 0 = mget (cp_X (cm_cp s)) 0 0 * a + y * v).
  { rewrite G2 by lia. f_equal; [|ev; ring]. unfold normal_rhs, mttkrp_entry. rewrite EX, Ef. ev. ring. }
  assert (Hne : a * a + v * v <> 0).
  { assert (0 < a * a) by now apply Rsqr_pos_lt. pose proof (Rle_0_sqr v) as Hv. unfold Rsqr in Hv. lra. }
  destruct (@cm_update_with env w_cs 1 [1%nat] s 1 lhs rhs (rightsolve (env_svd env)) (one (dots N rhs lhs 0 0 / dots N lhs lhs 0 0)) HO Hm)
    as (s' & E & F & FV & S1 & O1); auto.
  - apply free_rightsolve, HF, Hm.
  - apply (solve_numbers HS H1 H2). now rewrite D1.
  - rewrite EX. split; reflexivity.
  - exists s'. split; [exact E|]. split; [exact S1|]. split; [exact O1|]. split; [|exact FV]. rewrite F, Ef, D1, D2. reflexivity.
Qed.

Lemma pass_numbers env x y a b v b' : svd_contract (env_svd env) -> b <> 0 -> x <> 0 ->
  b' = (x * (x / b) + y * v) / (x / b * (x / b) + v * v) -> b' <> 0 ->
  let s' := state_after (cmtf_model env w_cs) (numbers x y a b v) 1 in
  snd (cmtf_update_factors env w_cs (numbers x y a b v)) = None /\
  cm_fms s' = [one (x / b); one b'] /\ cm_V s' = [one (y / b')] /\
  cmtf_SSE env s' = Ok ((x - x / b * b') ^ 2).
Proof.
  intros HS Hb Hx Eb' Hb' s'. pose proof (@numbers_free x y a b v) as HF.
  destruct (@first_number env (numbers x y a b v) a b HS (numbers_ok x y a b v) HF eq_refl eq_refl Hb) as (s1 & E1 & S1 & O1 & F1 & V1).
  assert (EX1 : cp_X (cm_cp s1) = one x) by (rewrite (sp_X (sc_cp S1)); reflexivity).
  change (mget (cp_X (cm_cp (numbers x y a b v))) 0 0) with x in F1.
  assert (Ha : x / b <> 0) by (unfold Rdiv; apply Rmult_integral_contrapositive_currified; [exact Hx|now apply Rinv_neq_0_compat]).
  destruct (@second_number env s1 (x / b) b v y HS O1) as (s2 & E2 & S2 & O2 & F2 & V2); auto.
  { now apply (free_fit_same (sc_cp S1)). } { now rewrite EX1. } { now rewrite (sc_Y S1). }
  rewrite EX1 in F2. change (mget (one x) 0 0) with x in F2. rewrite <- Eb' in F2.
  assert (EX2 : cp_X (cm_cp s2) = one x) by now rewrite (sp_X (sc_cp S2)).
  assert (EY2 : cm_Y s2 = [one y]) by now rewrite (sc_Y S2), (sc_Y S1).
  assert (EV2 : cm_V s2 = [one v]) by now rewrite V2, V1.
  assert (EU : update_uncoupled env s2 = (cm_with_V [one (y / b')] s2, None)).
  { unfold update_uncoupled. rewrite (ck_modes O2). cbn [mode_to_cm_idx].
    change (mode_to_cm_idx (map Z.of_nat [1%nat])) with [(1%Z, [0%nat])]. cbn [uncoupled_loop].
    assert (EZ : rightsolve (env_svd env) (transp (one b')) (transp (one y)) = Ok (one (y / b'))).
    { rewrite (@solve_numbers (env_svd env) 1 (transp (one b')) (transp (one y)) HS) by (try (split; reflexivity); ev; intros E; apply Hb';
        apply Rsqr_0_uniq; unfold Rsqr; lra).
      do 3 f_equal. ev. field. exact Hb'. }
    assert (ES : uncoupled_step env s2 1 [0%nat] (cm_V s2) = ([one (y / b')], None)).
    { destruct (free_fit_same (sc_cp S2) (free_fit_same (sc_cp S1) HF) (m := 1%nat)) as (_ & (l & El & Ea) & _); [rewrite EX2; cbn; lia|].
      unfold uncoupled_step. change 1%Z with (Z.of_nat 1). rewrite F2, EY2, EV2, El. cbn [list_get nth_error bind].
      rewrite (@py_get_nat _ [one (x / b); one b'] 1 m0) by (cbn; lia). cbn [bind nth].
      unfold py_get. rewrite py_index_nat by (apply nth_error_Some; rewrite Ea; discriminate). unfold list_get. cbn [nth_error bind]. cbn [nth_error] in Ea. rewrite Ea. cbn [bind].
      rewrite EZ. cbn [bind]. reflexivity. }
    rewrite ES. reflexivity. }
  assert (EA : cmtf_update_factors env w_cs (numbers x y a b v) = (cm_with_V [one (y / b')] s2, None)).
  { unfold cmtf_update_factors. change (ndim (cp_X (cm_cp (numbers x y a b v)))) with 2%nat. cbn [seq cmtf_update_modes].
    destruct (HF 0%nat ltac:(cbn; lia)) as (_ & (l & El & Ea) & _). rewrite El. cbn [not_none bind]. unfold list_get. rewrite Ea, E1.
    destruct (free_fit_same (sc_cp S1) HF (m := 1%nat)) as (_ & (l' & El' & Ea') & _); [rewrite EX1; cbn; lia|].
    rewrite El'. cbn [not_none bind]. unfold list_get. rewrite Ea', E2. exact EU. }
  unfold s'. cbn [state_after]. change (md_update (cmtf_model env w_cs)) with (cmtf_update_factors env w_cs). rewrite EA. cbn [fst snd].
  split; [reflexivity|]. split; [exact F2|]. split; [reflexivity|].
  assert (O3 : cm_ok 1 [1%nat] (cm_with_V [one (y / b')] s2)).
  { destruct O2 as [P1 P2 P3 P4 (P5 & P6 & P7)]. constructor; auto. split; [reflexivity|]. split; [exact P6|]. intros i Hi. destruct (P7 i Hi) as (Q1 & Q2 & Q3).
    split; [exact Q1|]. split; [exact Q2|]. cbn [cm_with_V cm_Y cm_V cm_cp] in *. rewrite EY2. cbn in Hi. destruct i; [|lia]. split; reflexivity. }
  rewrite (cmtf_SSE_ok env O3). f_equal. change (cm_fms (cm_with_V [one (y / b')] s2)) with (cm_fms s2).
  cbn [cm_with_V cm_cp cm_V cm_Y]. change (cm_dec (cm_with_V [one (y / b')] s2)) with (cm_dec s2).
  assert (Ew : vget (kt_w (cm_dec s2)) 0 = 1).
  { unfold cm_dec. rewrite (sp_w (sc_cp S2)), (sp_w (sc_cp S1)). reflexivity. }
  rewrite F2, EX2, EY2. clear - Ew Hb'. unfold coupled_loss.
  replace (sse (one x) [one (x / b); one b'] (vget (kt_w (cm_dec s2))) 1) with ((x - vget (kt_w (cm_dec s2)) 0 * (x / b * b')) ^ 2).
  - rewrite Ew. replace (mats_sse 1 [one (x / b); one b'] [1%nat] [one (y / b')] [one y]) with 0; [ring|]. ev. field. exact Hb'.
  - unfold sse, cp_entry. clear Ew. generalize (vget (kt_w (cm_dec s2))). intros f. ev. ring.
Qed.

(** *** The same numbers in other units *)
Lemma an_env : exists env, svd_contract (env_svd env).
Proof.
  destruct svd_contract_satisfiable as (svd & Hs).
  now exists {| env_svd := svd; env_svd_u := fun A => Ok A; env_qr := fun A => Ok A; env_nnls := fun A b => Ok b; env_junk := fun _ _ => 0 |}.
Qed.
Lemma loss_numbers env x y a b v b' z : svd_contract (env_svd env) -> b <> 0 -> x <> 0 ->
  b' = (x * (x / b) + y * v) / (x / b * (x / b) + v * v) -> b' <> 0 -> (x - x / b * b') ^ 2 = z ->
  cmtf_SSE env (state_after (cmtf_model env w_cs) (numbers x y a b v) 1) = Ok z.
Proof. intros HS Hb Hx E Hb' <-. exact (proj2 (proj2 (proj2 (@pass_numbers env x y a b v b' HS Hb Hx E Hb')))). Qed.
Lemma number_data x y : same_data 2 still (one x) (one (2 * x)) /\ scaled_matrices 2 [one y] [one (2 * y)].
Proof.
  split.
  - split; [reflexivity|]. split.
    + intros n Hn. split; auto.
    + intros idx Hv. rewrite moved_id. apply valid_cons_inv in Hv as (i & idx1 & -> & Hi & Hv). apply valid_cons_inv in Hv as (j & idx2 & -> & Hj & Hv).
      apply valid_nil_inv in Hv; subst. destruct i; [|lia]. destruct j; [|lia]. reflexivity.
  - split; [reflexivity|]. intros i Hi. cbn in Hi. destruct i; [|lia]. split; [reflexivity|]. cbn. intros p q Hp Hq. destruct p; [|lia]. destruct q; [|lia]. reflexivity.
Qed.
Lemma scaled_numbers : exists env, svd_contract (env_svd env) /\
  let s := numbers 1 2 1 1 1 in let t := numbers (2 * 1) (2 * 2) 2 1 2 in
  scales_match 2 [1%nat] 2 (fun n => match n with O => 2 | _ => 1 end) (fun _ => 2) /\
  rescaled 1 2 (fun r => r) (fun n => match n with O => 2 | _ => 1 end) (fun _ => 2) s t /\
  cm_ok 1 [1%nat] s /\ cm_ok 1 [1%nat] t /\ free_fit w_cs (cm_cp s) /\ free_fit w_cs (cm_cp t) /\
  cmtf_SSE env (state_after (cmtf_model env w_cs) s 1) = Ok (1 / 4) /\ cmtf_SSE env (state_after (cmtf_model env w_cs) t 1) = Ok 1.
Proof.
  destruct an_env as (env & HS). exists env. split; [exact HS|]. intros s t.
  split; [|split; [|split; [apply numbers_ok|split; [apply numbers_ok|split; [apply numbers_free|split; [apply numbers_free|]]]]]].
  - split; [cbn [scale_prod]; ring|]. split; [intros [|n] _; lra|]. intros i Hi. cbn in Hi. destruct i; [|lia]. cbn. ring.
  - destruct (number_data 1 2) as [D1 D2]. constructor.
    + exact D1.
    + change (norm (one (2 * 1)) ^ 2 = 2 ^ 2 * norm (one 1) ^ 2). rewrite !norm_energy by reflexivity. exact (norm_moved D1).
    + exact D2.
    + split; [reflexivity|]. intros n i r Hn Hi Hr. destruct r; [|lia]. cbn in Hn. destruct n as [|[|n]]; [| |lia]; cbn in Hi; (destruct i; [|lia]); ev; ring.
    + split; [reflexivity|]. intros n i r Hn Hi Hr. destruct r; [|lia]. cbn in Hn. destruct n; [|lia]; cbn in Hi; (destruct i; [|lia]); ev; ring.
    + intros r Hr. destruct r; [|lia]. reflexivity.
  - split.
    + apply (@loss_numbers env 1 2 1 1 1 (3 / 2)); try lra. exact HS.
    + apply (@loss_numbers env (2 * 1) (2 * 2) 2 1 2 (3 / 2)); try lra. exact HS.
Qed.
Lemma unscaled_losses env : svd_contract (env_svd env) ->
  cmtf_SSE env (state_after (cmtf_model env w_cs) (numbers 1 2 1 1 1) 1) = Ok (1 / 4) /\
  cmtf_SSE env (state_after (cmtf_model env w_cs) (numbers (2 * 1) (2 * 2) 1 1 1) 1) = Ok (36 / 25).
Proof.
  intros HS. split.
  - apply (@loss_numbers env 1 2 1 1 1 (3 / 2)); try lra. exact HS.
  - apply (@loss_numbers env (2 * 1) (2 * 2) 1 1 1 (8 / 5)); try lra. exact HS.
Qed.
Lemma unscaled_numbers : exists env, svd_contract (env_svd env) /\
  cmtf_SSE env (state_after (cmtf_model env w_cs) (numbers 1 2 1 1 1) 1) = Ok (1 / 4) /\
  cmtf_SSE env (state_after (cmtf_model env w_cs) (numbers (2 * 1) (2 * 2) 1 1 1) 1) = Ok (36 / 25).
Proof. destruct an_env as (env & HS). exists env. split; [exact HS|]. now apply unscaled_losses. Qed.
Lemma units_matter env : svd_contract (env_svd env) ->
  ~ (forall s t, cm_ok 1 [1%nat] s -> cm_ok 1 [1%nat] t -> free_fit w_cs (cm_cp s) -> free_fit w_cs (cm_cp t) ->
       same_data 2 (fun _ i => i) (cp_X (cm_cp s)) (cp_X (cm_cp t)) -> scaled_matrices 2 (cm_Y s) (cm_Y t) ->
       cm_fms t = cm_fms s -> cm_V t = cm_V s -> cm_dec t = cm_dec s ->
       forall x y, cmtf_SSE env (state_after (cmtf_model env w_cs) s 1) = Ok x -> cmtf_SSE env (state_after (cmtf_model env w_cs) t 1) = Ok y ->
       y = 2 ^ 2 * x).
Proof.
  intros HS H. destruct (unscaled_losses HS) as [E1 E2]. destruct (number_data 1 2) as [D1 D2].
  specialize (H _ _ (numbers_ok 1 2 1 1 1) (numbers_ok (2 * 1) (2 * 2) 1 1 1) (@numbers_free 1 2 1 1 1) (@numbers_free (2 * 1) (2 * 2) 1 1 1)
    D1 D2 eq_refl eq_refl eq_refl _ _ E1 E2). lra.
Qed.
