(** A concrete run for C107. *)
From Verif Require Import CmLimitFacts CMTFWitness Props_CMTF Props_Stop.
From Verif Require Import Prelude Lin.
Set Implicit Arguments.
Unset Strict Implicit.
Local Open Scope R_scope.

(** The state of C104, but with another first factor *)
Definition cl_start : cmtf_state :=
  cm_with_dec {| kt_rank := 1; kt_fms := [mk [2; 1]%nat [9; 8]; mk [1; 1]%nat [1]]; kt_w := mk [1]%nat [1] |} (cf_still 1).
Lemma cl_ok : cm_ok 1 [0%nat] cl_start.
Proof.
  constructor; try reflexivity.
  - exact (ck_data (cf_ok 1)).
  - split; [repeat constructor|reflexivity].
  - split; reflexivity.
  - exact (ck_coup (cf_ok 1)).
Qed.
Lemma cl_free : free_fit w_cs (cm_cp cl_start).
Proof. exact (@cf_free w_cs 1 eq_refl). Qed.

(** The first update restores the factor, after which nothing moves. *)
Lemma cl_pass : cm_fms (state_after (cmtf_model ex_cm_env w_cs) cl_start 1) = cm_fms (cf_still 1) /\
  cm_V (state_after (cmtf_model ex_cm_env w_cs) cl_start 1) = cm_V (cf_still 1).
Proof.
  assert (Hm : (0 < length (shape (cp_X (cm_cp cl_start))))%nat) by (cbn; lia).
  pose proof ex_nodup as HN. assert (HK : cs_rank w_cs = 1%nat) by reflexivity. pose proof (le_n 1) as HK1. pose proof ex_cm_svd as HS.
  pose proof (cl_free) as HF.
  destruct (@cm_update_least ex_cm_env w_cs 1 [0%nat] HN HK HK1 HS cl_start 0 cl_ok Hm (HF 0%nat Hm)) as (t & Z & E & HZ & Ef & EV & HSt & Ht & HL).
  destruct (cf_stands 1) as [S1 S2].
  assert (EZ : Z = mk [2; 1]%nat [1; 0]).
  { apply (@ls_unique _ _ _ _ _ (@mode_form ex_cm_env w_cs 1 [0%nat] HN (cf_still 1) 0 (cf_ok 1) Hm) HZ).
    - repeat constructor.
    - exact HL.
    - exact (S1 0%nat Hm). }
  assert (Eft : cm_fms t = cm_fms (cf_still 1)) by (rewrite Ef, EZ; reflexivity).
  assert (EVt : cm_V t = cm_V (cf_still 1)) by (rewrite EV; reflexivity).
  assert (EXt : cp_X (cm_cp t) = cf_X) by (rewrite (sp_X (sc_cp HSt)); reflexivity).
  assert (EYt : cm_Y t = [cf_Y]) by (rewrite (sc_Y HSt); reflexivity).
  pose proof (free_fit_same (sc_cp HSt) HF) as HFt.
  assert (Hl : free_modes w_cs t [1%nat]).
  { constructor; [|constructor]. rewrite EXt. split; [cbn; lia|]. apply HFt. rewrite EXt. cbn. lia. }
  destruct (@modes_keep ex_cm_env w_cs 1 [0%nat] HN HK HK1 HS [1%nat] t Ht Hl) as (u & Eu & Fu & Vu & HSu & Hu).
  { intros m [<-|[]]. rewrite EXt, Eft, EVt, EYt. apply (S1 1%nat). cbn. lia. }
  assert (Hnn : free_nn u) by (apply free_fit_nn with (cs := w_cs); [now apply (free_fit_same (sc_cp HSu))|apply (ck_data Hu)]).
  destruct (@own_least ex_cm_env w_cs 1 [0%nat] HN HK HK1 HS u Hu Hnn) as (v & Ev & Hcp & HSv & Hv & HO).
  assert (E1 : state_after (cmtf_model ex_cm_env w_cs) cl_start 1 = v).
  { cbn [state_after cmtf_model md_update]. unfold cmtf_update_factors. change (ndim (cp_X (cm_cp cl_start))) with 2%nat. cbn [seq].
    rewrite (@modes_step ex_cm_env w_cs 0 [1%nat] cl_start (HF 0%nat Hm)), E, Eu, Ev. reflexivity. }
  assert (Efu : cm_fms u = cm_fms (cf_still 1)) by congruence. assert (EVu : cm_V u = cm_V (cf_still 1)) by congruence.
  assert (EXu : cp_X (cm_cp u) = cf_X) by (now rewrite (sp_X (sc_cp HSu))).
  assert (EYu : cm_Y u = [cf_Y]) by (now rewrite (sc_Y HSu)).
  rewrite E1. split; [unfold cm_fms, cm_dec; rewrite Hcp; exact Efu|].
  rewrite <- EVu. destruct (ck_coup Hv) as (HlV & _ & _). destruct (ck_coup Hu) as (HlU & _ & _).
  apply (nth_ext _ _ m0 m0); [congruence|]. intros i Hi. rewrite HlV in Hi.
  apply (@own_same 1 [0%nat] u v Hu Hv HSv); [unfold cm_fms, cm_dec; now rewrite Hcp|exact Hi| |apply HO; exact Hi].
  rewrite EXu, EYu, Efu, EVu. now apply S2.
Qed.
Lemma cl_passes k : cm_fms (state_after (cmtf_model ex_cm_env w_cs) cl_start (S k)) = cm_fms (cf_still 1) /\
  cm_V (state_after (cmtf_model ex_cm_env w_cs) cl_start (S k)) = cm_V (cf_still 1).
Proof.
  pose proof ex_nodup as HN. assert (HK : cs_rank w_cs = 1%nat) by reflexivity. pose proof (le_n 1) as HK1. pose proof ex_cm_svd as HS.
  destruct (cm_iterations HS HK HK1 HN cl_ok cl_free 0) as (_ & _ & _ & H1 & _).
  destruct (cm_iterations HS HK HK1 HN cl_ok cl_free 1) as (_ & HS1 & _). destruct cl_pass as [E1 E2].
  induction k as [|k [IH1 IH2]]; [split; assumption|].
  destruct (cm_iterations HS HK HK1 HN cl_ok cl_free (S k)) as (Hk & HSk & _).
  pose proof (free_fit_same (sc_cp HSk) cl_free) as HFk.
  assert (HX : cp_X (cm_cp (state_after (cmtf_model ex_cm_env w_cs) cl_start (S k))) = cf_X) by exact (sp_X (sc_cp HSk)).
  assert (HY : cm_Y (state_after (cmtf_model ex_cm_env w_cs) cl_start (S k)) = [cf_Y]) by exact (sc_Y HSk).
  destruct (@cm_fixed_points ex_cm_env w_cs 1 [0%nat] HN HK HK1 HS _ Hk HFk) as [_ Hfix].
  destruct Hfix as [F1 F2]; [rewrite HX, HY, IH1, IH2; exact (cf_stands 1)|].
  change (state_after (cmtf_model ex_cm_env w_cs) cl_start (S (S k))) with
    (state_after (cmtf_model ex_cm_env w_cs) (state_after (cmtf_model ex_cm_env w_cs) cl_start (S k)) 1).
  rewrite F1, F2. split; assumption.
Qed.
