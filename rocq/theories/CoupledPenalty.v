(** The loss CMTF_ALS reports with a penalty: a witness for C86. *)
From Verif Require Export CoupledConstraints.
From Verif Require Import CPConstrained CMTFLoss.
From Verif Require Import Prelude Lin.
Set Implicit Arguments.
Unset Strict Implicit.
Local Open Scope R_scope.

(** An exact model of the tensor [[1]] and the matrix [[1]] coupled to mode 1, which has penalty 1 *)
Definition pen_state : cmtf_state :=
  {| cm_cp := start 1 (mk [1; 1]%nat [1]) [mk [1; 1]%nat [1]; mk [1; 1]%nat [1]] [false; false] [false; false];
     cm_Y := [mk [1; 1]%nat [1]]; cm_modes := [1%Z]; cm_V := [mk [1; 1]%nat [1]] |}.
Definition pen_cs : cp_settings := {| cs_rank := 1; cs_init := "random"; cs_ridge := Some [0; 1] |}.
Definition pen_lam (m : nat) : R := match m with 1%nat => 1 | _ => 0 end.

Lemma pen_ok : cm_ok 1 [1%nat] pen_state.
Proof.
  constructor; try reflexivity.
  - apply data11.
  - apply fac11.
  - apply is_vec_ones.
  - split; [reflexivity|]. split; [reflexivity|]. intros [|i] Hi; cbn in Hi; [|lia]. cbn.
    split; [lia|]. split; split; reflexivity.
Qed.
Lemma pen_unconstrained : unconstrained (cp_X (cm_cp pen_state)) (cp_nn (cm_cp pen_state)) (cp_orth (cm_cp pen_state)).
Proof.
  exists [false; false], [false; false]. split; [reflexivity|]. split; [reflexivity|].
  intros m Hm. cbn in Hm. destruct m as [|[|m]]; [auto|auto|lia].
Qed.
Lemma pen_penalties : penalties (cs_ridge pen_cs) (cp_X (cm_cp pen_state)) [1%nat] pen_lam.
Proof.
  intros m Hm. cbn in Hm. destruct m as [|[|m]]; [| |lia]; cbn; (split; [reflexivity|]); (split; [lra|]); auto.
  intros Hn. exfalso. apply Hn. now left.
Qed.
Lemma pen_nodup : NoDup [1%nat].
Proof. constructor; [intros []|constructor]. Qed.

Lemma pen_form z v lam y : lam = pen_lam ->
  penalised_loss lam 1 (mk [1; 1]%nat [1]) [mk [1; 1]%nat [z]; mk [1; 1]%nat [v]] [1%nat] [mk [1; 1]%nat [y]] [mk [1; 1]%nat [1]] =
  (1 - z * v) * (1 - z * v) + (1 - v * y) * (1 - v * y) + v * v.
Proof. intros ->. ev. ring. Qed.

Lemma pen_rises env : svd_works_rows 1 (env_svd env) ->
  cmtf_SSE env pen_state = Ok 0 /\
  exists l, cmtf_SSE env (state_after (cmtf_model env pen_cs) pen_state 1) = Ok l /\ 1 / 9 <= l.
Proof.
  intros Hsvd. split.
  { rewrite (cmtf_SSE_ok env pen_ok). f_equal. ev. ring. }
  destruct (@penalised_update env pen_cs 1 [1%nat] pen_lam pen_state 0 Hsvd eq_refl (le_n 1) pen_nodup pen_ok pen_unconstrained pen_penalties)
    as (s1 & Z0 & E1 & HZ0 & Ef1 & EV1 & HS1 & HOK1 & Hopt1).
  { cbn. lia. }
  destruct (mat11 HZ0) as (z & ->). specialize (Hopt1 (mk [1; 1]%nat [1])).
  cbn [cm_cp pen_state cp_X start cm_fms cm_dec cp_dec kt_fms with_factor replace_at cm_V cm_Y] in Hopt1.
  unfold with_factor in Hopt1. cbn in Hopt1.
  rewrite !pen_form in Hopt1 by reflexivity.
  assert (Hz : z = 1).
  { assert (Hq : (1 - z) * (1 - z) <= 0) by nra. apply sq_zero in Hq. lra. }
  subst z.
  assert (Hs1 : cm_fms s1 = [mk [1; 1]%nat [1]; mk [1; 1]%nat [1]]) by (rewrite Ef1; reflexivity).
  destruct (@penalised_update env pen_cs 1 [1%nat] pen_lam s1 1 Hsvd eq_refl (le_n 1) pen_nodup HOK1)
    as (s2 & Z1 & E2 & HZ1 & Ef2 & EV2 & HS2 & HOK2 & Hopt2).
  { rewrite (sp_X (sc_cp HS1)). apply (unconstrained_same (sc_cp HS1)). apply pen_unconstrained. }
  { rewrite (sp_X (sc_cp HS1)). apply pen_penalties. }
  { rewrite (sp_X (sc_cp HS1)). cbn. lia. }
  rewrite (sp_X (sc_cp HS1)) in HZ1. destruct (mat11 HZ1) as (v & ->). specialize (Hopt2 (mk [1; 1]%nat [2 / 3])).
  rewrite (sp_X (sc_cp HS1)), EV1, (sc_Y HS1), Hs1 in Hopt2.
  unfold with_factor in Hopt2. cbn in Hopt2. rewrite !pen_form in Hopt2 by reflexivity.
  assert (Hv : v = 2 / 3).
  { assert (Hq : (v - 2 / 3) * (v - 2 / 3) <= 0) by nra. apply sq_zero in Hq. lra. }
  subst v. rewrite Hs1 in Ef2. unfold with_factor in Ef2. cbn [replace_at] in Ef2.
  assert (HS : same_coupled pen_state s2) by (eapply same_coupled_trans; eauto).
  destruct (@update_uncoupled_ok env 1 [1%nat] s2 HOK2 pen_nodup) as (s3 & E3 & Hcp & HS3 & HOK3 & _); auto.
  { exists [false; false]. rewrite (sp_nn (sc_cp HS)). split; [reflexivity|]. intros m Hm. rewrite (sp_X (sc_cp HS)) in Hm.
    cbn in Hm. destruct m as [|[|m]]; [reflexivity|reflexivity|lia]. }
  assert (EU : cmtf_update_factors env pen_cs pen_state = (s3, None)).
  { unfold cmtf_update_factors, ndim. cbn [cm_cp pen_state cp_X start shape length seq].
    change (cm_cp pen_state) with (start 1 (mk [1; 1]%nat [1]) [mk [1; 1]%nat [1]; mk [1; 1]%nat [1]] [false; false] [false; false]).
    cbn [cmtf_update_modes]. cbn [cm_cp pen_state cp_nn start not_none bind list_get nth_error].
    rewrite E1. rewrite (sp_nn (sc_cp HS1)). cbn [cm_cp pen_state cp_nn start not_none bind list_get nth_error].
    rewrite E2. exact E3. }
  cbn [state_after md_update cmtf_model]. rewrite EU. cbn [fst].
  eexists. split; [exact (cmtf_SSE_ok env HOK3)|].
  assert (Ef3 : cm_fms s3 = [mk [1; 1]%nat [1]; mk [1; 1]%nat [2 / 3]]) by (unfold cm_fms, cm_dec; rewrite Hcp; exact Ef2).
  assert (HSa : same_coupled pen_state s3) by (eapply same_coupled_trans; eauto).
  unfold coupled_loss. rewrite (sp_X (sc_cp HSa)), Ef3.
  assert (Hw : vget (kt_w (cm_dec s3)) 0 = 1). { unfold cm_dec. rewrite (sp_w (sc_cp HSa)). reflexivity. }
  assert (H1 : sse (cp_X (cm_cp pen_state)) [mk [1; 1]%nat [1]; mk [1; 1]%nat [2 / 3]] (vget (kt_w (cm_dec s3))) 1 = 1 / 9).
  { rewrite (@sse_ext _ _ _ (fun _ => 1)). { ev. field. } intros r Hr. assert (r = 0%nat) as -> by lia. exact Hw. }
  rewrite H1. assert (0 <= mats_sse 1 [mk [1; 1]%nat [1]; mk [1; 1]%nat [2 / 3]] [1%nat] (cm_V s3) (cm_Y s3)).
  { unfold mats_sse. apply sum_nonneg. intros i Hi. unfold mat_sse. apply sum_nonneg; intros. apply sum_nonneg; intros. apply pow2_ge_0. }
  lra.
Qed.
