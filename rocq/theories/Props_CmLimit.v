(** Property C107: how far the iterations of CMTF_ALS move, and what they tend to. *)
From Verif Require Import CmLimitFacts CmLimitWitness CMTFWitness CoupledConstraints Props_CMTF Props_Stop Props_CoupledConstraints.
From Verif Require Import Prelude Lin.
Local Open Scope R_scope.

(** *** C107.  [coupled_change2 K X ms Ys Us Vs Us' Vs']: the squared distance between two coupled models, tensors and matrices together. *)
(** Unconstrained updates of a factor, and of the matrices' own factors, decrease the coupled error by exactly the squared distance
    by which they move the model. *)
Theorem C107_update : forall env cs K ms s m, NoDup ms -> cs_rank cs = K -> (1 <= K)%nat -> svd_works_rows K (env_svd env) ->
  cm_ok K ms s -> (m < length (shape (cp_X (cm_cp s))))%nat -> free_mode cs (cm_cp s) m ->
  let loss u := coupled_loss K (cp_X (cm_cp u)) (cm_fms u) unit_weights ms (cm_V u) (cm_Y u) in
  exists t, cmtf_update_factor env cs s m = (t, None) /\ cm_ok K ms t /\ same_coupled s t /\ cm_V t = cm_V s /\
    loss s = loss t + coupled_change2 K (cp_X (cm_cp s)) ms (cm_Y s) (cm_fms s) (cm_V s) (cm_fms t) (cm_V t) /\
    (forall W, is_mat (nth m (shape (cp_X (cm_cp s))) 0%nat) K W -> loss t <= in_mode K (cp_X (cm_cp t)) (cm_fms t) ms (cm_V t) (cm_Y t) m W).
Proof. intros env cs K ms s m HN HK HK1 HS. exact (@cm_update_moves env cs K ms HN HK HK1 HS s m). Qed.
Print Assumptions C107_update.
Theorem C107_own_update : forall env cs K ms s, NoDup ms -> cs_rank cs = K -> (1 <= K)%nat -> svd_works_rows K (env_svd env) ->
  cm_ok K ms s -> free_nn s ->
  let loss u := coupled_loss K (cp_X (cm_cp u)) (cm_fms u) unit_weights ms (cm_V u) (cm_Y u) in
  exists t, update_uncoupled env s = (t, None) /\ cm_ok K ms t /\ same_coupled s t /\ cm_cp t = cm_cp s /\
    loss s = loss t + coupled_change2 K (cp_X (cm_cp s)) ms (cm_Y s) (cm_fms s) (cm_V s) (cm_fms t) (cm_V t) /\
    forall i W, (i < length ms)%nat -> is_mat (ncols (nth i (cm_Y s) m0)) K W ->
      in_matrix K (cp_X (cm_cp s)) (cm_fms s) ms (cm_V s) (cm_Y s) i (nth i (cm_V t) m0) <=
      in_matrix K (cp_X (cm_cp s)) (cm_fms s) ms (cm_V s) (cm_Y s) i W.
Proof. intros env cs K ms s HN HK HK1 HS. exact (@cm_own_moves env cs K ms HN HK HK1 HS s). Qed.
Print Assumptions C107_own_update.

(** A pass moves the model, squared, by at most N + 1 times the decrease of the error, where N counts the modes of the tensor; all n passes
    together move it by a bounded amount.  So the errors have a limit, and the movements tend to zero. *)
Theorem C107_passes : forall env cs K ms s, NoDup ms -> cs_rank cs = K -> (1 <= K)%nat -> svd_works_rows K (env_svd env) ->
  cm_ok K ms s -> free_fit cs (cm_cp s) ->
  let X := cp_X (cm_cp s) in let Ys := cm_Y s in
  let Us k := cm_fms (state_after (cmtf_model env cs) s k) in let Vs k := cm_V (state_after (cmtf_model env cs) s k) in
  let L k := coupled_loss K X (Us k) unit_weights ms (Vs k) Ys in
  let moved k := coupled_change2 K X ms Ys (Us k) (Vs k) (Us (S k)) (Vs (S k)) in
  (forall k, moved k <= INR (S (length (shape X))) * (L k - L (S k))) /\
  (forall n, sum n moved <= INR (S (length (shape X))) * (L 0%nat - L n)) /\
  (exists l, 0 <= l /\ Un_cv L l /\ forall k, l <= L k) /\
  Un_cv moved 0.
Proof.
  intros env cs K ms s HN HK HK1 HS HC HF.
  exact (conj (fun k => proj2 (@cm_pass_moves env cs K ms HN HK HK1 HS s HC HF k)) (conj (@cm_total_moves env cs K ms HN HK HK1 HS s HC HF)
    (conj (@cm_losses_tend env cs K ms HN HK HK1 HS s HC HF) (@cm_moves_vanish env cs K ms HN HK HK1 HS s HC HF)))).
Qed.
Print Assumptions C107_passes.

(** With penalties the penalised errors have a limit. *)
Theorem C107_penalised : forall env cs K ms lam s,
  svd_works_rows K (env_svd env) -> cs_rank cs = K -> (1 <= K)%nat -> NoDup ms -> cm_ok K ms s ->
  let X := cp_X (cm_cp s) in let Ys := cm_Y s in
  unconstrained X (cp_nn (cm_cp s)) (cp_orth (cm_cp s)) -> penalties (cs_ridge cs) X ms lam ->
  let L k := let t := state_after (cmtf_model env cs) s k in penalised_loss lam K X (cm_fms t) ms (cm_V t) Ys in
  exists l, 0 <= l /\ Un_cv L l /\ forall k, l <= L k.
Proof.
  intros env cs K ms lam s HS HK HK1 HN H X Ys Hu Hp L. apply descent_limit.
  - intros k. exact (proj2 (C86_penalised_loss_never_increases env cs K ms lam s k HS HK HK1 HN H Hu Hp)).
  - intros k. apply penalised_nonneg. intros m Hm. apply (Hp m Hm).
Qed.
Print Assumptions C107_penalised.

(** *** Limits.  If factors and own matrices before and after the passes pick(0), pick(1), ... tend to the same matrices,
    none of these can be replaced with gain while the others are kept, and the coupled error is stationary there. *)
Theorem C107_limits : forall env cs K ms s Ls Ms pick, NoDup ms -> cs_rank cs = K -> (1 <= K)%nat -> svd_works_rows K (env_svd env) ->
  cm_ok K ms s -> free_fit cs (cm_cp s) ->
  let Us k := cm_fms (state_after (cmtf_model env cs) s k) in let Vs k := cm_V (state_after (cmtf_model env cs) s k) in
  factors_ok K (cp_X (cm_cp s)) Ls -> coupling_ok K (cp_X (cm_cp s)) ms Ms (cm_Y s) ->
  tends K (fun k => Us (pick k)) Ls -> tends K (fun k => Us (S (pick k))) Ls ->
  tends K (fun k => Vs (pick k)) Ms -> tends K (fun k => Vs (S (pick k))) Ms ->
  coupled_best K (cp_X (cm_cp s)) Ls ms Ms (cm_Y s) /\ coupled_flat K (cp_X (cm_cp s)) Ls ms Ms (cm_Y s).
Proof. exact cm_limit_best. Qed.
Print Assumptions C107_limits.

(** The state of C104 with the first factor replaced by (9,8): the first pass moves the model by 128 (squared), all later ones stand
    still at (1,0), (1) with 0 for the matrix, where none can be replaced with gain. *)
Example C107_example : let s := cl_start in
  let Us k := cm_fms (state_after (cmtf_model ex_cm_env w_cs) s k) in let Vs k := cm_V (state_after (cmtf_model ex_cm_env w_cs) s k) in
  let L k := coupled_loss 1 cf_X (Us k) unit_weights [0%nat] (Vs k) [cf_Y] in
  cm_ok 1 [0%nat] s /\ free_fit w_cs (cm_cp s) /\
  (forall k, Us (S k) = cm_fms (cf_still 1) /\ Vs (S k) = cm_V (cf_still 1)) /\
  coupled_change2 1 cf_X [0%nat] [cf_Y] (Us 0%nat) (Vs 0%nat) (Us 1%nat) (Vs 1%nat) = 128 /\ L 0%nat = 132 /\ Un_cv L 4 /\
  coupled_best 1 cf_X (cm_fms (cf_still 1)) [0%nat] (cm_V (cf_still 1)) [cf_Y] /\
  coupled_flat 1 cf_X (cm_fms (cf_still 1)) [0%nat] (cm_V (cf_still 1)) [cf_Y].
Proof.
  intros s. subst s. intros Us Vs L. pose proof cl_passes as HP. split; [exact cl_ok|]. split; [exact cl_free|]. split; [exact HP|].
  destruct (HP 0%nat) as [U1 V1].
  split; [unfold Us, Vs; rewrite U1, V1; clear; ev; ring|]. split; [clear; ev; ring|].
  assert (E4 : coupled_loss 1 cf_X (cm_fms (cf_still 1)) unit_weights [0%nat] (cm_V (cf_still 1)) [cf_Y] = 4) by (clear; ev; ring).
  split.
  { intros e He. exists 1%nat. intros k Hk. destruct k as [|k]; [lia|]. unfold L, Us, Vs. rewrite (proj1 (HP k)), (proj2 (HP k)), E4. unfold R_dist.
    replace (4 - 4) with 0 by ring. now rewrite Rabs_R0. }
  apply (C107_limits ex_cm_env w_cs 1 [0%nat] cl_start (cm_fms (cf_still 1)) (cm_V (cf_still 1)) S ex_nodup eq_refl (le_n 1) ex_cm_svd cl_ok cl_free).
  - exact (ck_fac (cf_ok 1)).
  - exact (ck_coup (cf_ok 1)).
  - intros j i r _ _ _. apply (@cv_ext (fun _ => mget (nth j (cm_fms (cf_still 1)) m0) i r)); [|apply cv_const]. intros k. now rewrite (proj1 (HP k)).
  - intros j i r _ _ _. apply (@cv_ext (fun _ => mget (nth j (cm_fms (cf_still 1)) m0) i r)); [|apply cv_const]. intros k. now rewrite (proj1 (HP (S k))).
  - intros j i r _ _ _. apply (@cv_ext (fun _ => mget (nth j (cm_V (cf_still 1)) m0) i r)); [|apply cv_const]. intros k. now rewrite (proj2 (HP k)).
  - intros j i r _ _ _. apply (@cv_ext (fun _ => mget (nth j (cm_V (cf_still 1)) m0) i r)); [|apply cv_const]. intros k. now rewrite (proj2 (HP (S k))).
Qed.
