(** Property C105: how far the iterations of CP_ALS move, and what they tend to. *)
From Verif Require Import LimitFacts LimitWitness FixWitness SymWitness CMTFWitness Parafac2Examples Props_Quality Props_Best.
Local Open Scope R_scope.

(** *** C105.  [change2 K X Us Vs]: the squared distance between the tensors of the models Us and Vs. *)
(** An unconstrained update of a factor decreases the error by exactly the squared distance by which it moves the model,
    and leaves a factor that cannot be replaced with gain. *)
Theorem C105_update : forall env cs K s m, cs_rank cs = K -> svd_works_on K K (env_svd env) ->
  cp_coherent K s -> free_fit cs s -> (m < length (shape (cp_X s)))%nat ->
  exists t, cp_update_factor env cs s m = (t, None) /\ cp_coherent K t /\ same_problem s t /\
    sse (cp_X s) (kt_fms (cp_dec s)) unit_weights K =
      sse (cp_X t) (kt_fms (cp_dec t)) unit_weights K + change2 K (cp_X s) (kt_fms (cp_dec s)) (kt_fms (cp_dec t)) /\
    best_in K (cp_X t) (kt_fms (cp_dec t)) m.
Proof. intros env cs K s m HK HS. exact (@update_moves env cs K HK HS s m). Qed.
Print Assumptions C105_update.

(** A pass over N modes moves the model by at most the square root of N times the decrease of the error, and all n passes
    together move it by a bounded amount.  So the errors have a limit, and the movements tend to zero. *)
Theorem C105_passes : forall env cs K s, cs_rank cs = K -> svd_works_on K K (env_svd env) ->
  cp_coherent K s -> free_fit cs s ->
  let X := cp_X s in
  let Us k := kt_fms (cp_dec (state_after (cp_model env cs) s k)) in
  let L k := sse X (Us k) unit_weights K in
  (forall k, change2 K X (Us k) (Us (S k)) <= INR (length (shape X)) * (L k - L (S k))) /\
  (forall n, sum n (fun k => change2 K X (Us k) (Us (S k))) <= INR (length (shape X)) * (L 0%nat - L n)) /\
  (exists l, 0 <= l /\ Un_cv L l /\ forall k, l <= L k) /\
  Un_cv (fun k => change2 K X (Us k) (Us (S k))) 0.
Proof.
  intros env cs K s HK HS HC HF.
  exact (conj (fun k => proj2 (@pass_moves env cs K HK HS s HC HF k)) (conj (@total_moves env cs K HK HS s HC HF)
    (conj (@errors_tend env cs K HK HS s HC HF) (@moves_vanish env cs K HK HS s HC HF)))).
Qed.
Print Assumptions C105_passes.

(** *** Complete fits: if neither the budget nor the tolerance for the error itself ended the fit,
    its last pass has moved the model by at most the square root of N tol times the error before it. *)
Theorem C105_fits : forall env cs K cf disk draws X max_its arg ds ds1,
  let budget := match max_its with Some m => m | None => ds_max ds end in
  plain_call env cs K cf draws X budget arg ds ->
  cp_init_fit env cs disk draws X max_its arg ds = (ds1, None) -> energy X <> 0 -> 0 < cf_tol cf < 1 ->
  let Us k := kt_fms (cp_dec (state_after (cp_model env cs) (ds_num ds1) k)) in
  let L k := sse X (Us k) unit_weights K in
  exists d n, cp_fit env cs cf disk draws X max_its arg ds = (d, None) /\ ds_it d = Z.of_nat n /\ kt_fms (cp_dec (ds_num d)) = Us n /\
    sum n (fun k => change2 K X (Us k) (Us (S k))) <= INR (length (shape X)) * (L 0%nat - L n) /\
    (ds_it d = budget \/ L n < cf_rel_tol cf * energy X \/
     exists k, n = S k /\ change2 K X (Us k) (Us n) <= INR (length (shape X)) * (cf_tol cf * L k)).
Proof. exact fit_moves. Qed.
Print Assumptions C105_fits.

(** *** Limits.  If the factors before and after the passes pick(0), pick(1), ... tend to the same matrices,
    none of these can be replaced with gain while the others are kept, and the error is stationary there. *)
Theorem C105_limits : forall env cs K s Ls pick, cs_rank cs = K -> svd_works_on K K (env_svd env) ->
  cp_coherent K s -> free_fit cs s ->
  let Us k := kt_fms (cp_dec (state_after (cp_model env cs) s k)) in
  factors_ok K (cp_X s) Ls -> tends K (fun k => Us (pick k)) Ls -> tends K (fun k => Us (S (pick k))) Ls ->
  forall m, (m < length (shape (cp_X s)))%nat -> best_in K (cp_X s) Ls m /\ stationary_in K (cp_X s) Ls m.
Proof. exact limit_best. Qed.
Print Assumptions C105_limits.

(** The start (9,9), (1,2) for data of rank one: the first pass moves the model by 425 (squared), all later ones stand still at
    (2,3), (1,2), where no factor can be replaced with gain; a fit with a budget of 5 ends there. *)
Example C105_example : exists s1 d n,
  cp_init_fit q_env y_cs no_disk [] g_X (Some 5%Z) (y_arg g_Us) y_ds = (s1, None) /\
  let Us k := kt_fms (cp_dec (state_after (cp_model q_env y_cs) (ds_num s1) k)) in
  Us 0%nat = g_Us /\ (forall k, Us (S k) = g_Ls) /\ change2 1 g_X (Us 0%nat) (Us 1%nat) = 425 /\
  sse g_X (Us 0%nat) unit_weights 1 = 425 /\ Un_cv (fun k => sse g_X (Us k) unit_weights 1) 0 /\
  (forall m, (m < 2)%nat -> best_in 1 g_X g_Ls m /\ stationary_in 1 g_X g_Ls m) /\
  cp_fit q_env y_cs y_cf no_disk [] g_X (Some 5%Z) (y_arg g_Us) y_ds = (d, None) /\ ds_it d = Z.of_nat n /\
  sum n (fun k => change2 1 g_X (Us k) (Us (S k))) <= 850.
Proof.
  destruct (y_free g_X g_Us gx_data (proj1 g_ok)) as (s1 & E1 & F1 & HC & HF & EX).
  pose proof (g_passes HC HF EX F1) as HP.
  assert (E425 : sse g_X g_Us unit_weights 1 = 425) by (ev; lra).
  assert (E0 : sse g_X g_Ls unit_weights 1 = 0) by (ev; lra).
  destruct (C105_fits q_env y_cs 1 y_cf no_disk [] g_X (Some 5%Z) (y_arg g_Us) y_ds s1
    (y_call g_X g_Us gx_data (proj1 g_ok)) E1) as (d & n & Ed & En & _ & Hs & _); [rewrite g_energy; lra|cbn; lra|].
  exists s1, d, n. split; [exact E1|]. intros Us.
  assert (Hn0 : 0 <= sse g_X (Us n) unit_weights 1) by (unfold sse; apply sumf_nonneg; intros; apply pow2_ge_0).
  assert (U0 : Us 0%nat = g_Us) by exact F1. assert (U1 : Us 1%nat = g_Ls) by exact (HP 0%nat).
  split; [exact U0|]. split; [exact HP|].
  split; [rewrite U0, U1; clear; ev; lra|]. split; [now rewrite U0|].
  split.
  { intros e He. exists 1%nat. intros k Hk. destruct k as [|k]; [lia|]. unfold Us. rewrite HP, E0. unfold R_dist.
    now rewrite Rminus_0_r, Rabs_R0. }
  split.
  { intros m Hm. rewrite <- EX. apply (C105_limits q_env y_cs 1 (ds_num s1) g_Ls S eq_refl y_svd HC HF).
    - rewrite EX. split; [repeat constructor|reflexivity].
    - intros j i r _ _ _. apply (@cv_ext (fun _ => mget (nth j g_Ls m0) i r)); [|apply cv_const]. intros k. now rewrite HP.
    - intros j i r _ _ _. apply (@cv_ext (fun _ => mget (nth j g_Ls m0) i r)); [|apply cv_const]. intros k. now rewrite HP.
    - now rewrite EX. }
  split; [exact Ed|]. split; [exact En|]. eapply Rle_trans; [exact Hs|]. change (INR (length (shape g_X)) * (sse g_X (Us 0%nat) unit_weights 1 - sse g_X (Us n) unit_weights 1) <= 850).
  rewrite U0, E425. change (INR (length (shape g_X))) with (1 + 1). lra.
Qed.
