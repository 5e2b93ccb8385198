(** Property C80: where CP_ALS stands still, what one pass guarantees, and which starts lead nowhere. *)
From Verif Require Import FixFacts FixWitness SymWitness CMTFWitness Parafac2Examples Props_Quality Props_Best.
Local Open Scope R_scope.

(** *** C80.  [smallest_best K X Us m]: given the other factors, no matrix in place of factor m has a smaller error,
    and none that is as good is smaller. *)
(** A pass without constraints leaves all factors as they are exactly if this holds for every mode, and then so does every later pass. *)
Theorem C80_fixed_points : forall env cs K s, cs_rank cs = K -> svd_works_on K K (env_svd env) ->
  cp_coherent K s -> free_fit cs s ->
  (kt_fms (cp_dec (state_after (cp_model env cs) s 1)) = kt_fms (cp_dec s) <->
   forall m, (m < length (shape (cp_X s)))%nat -> smallest_best K (cp_X s) (kt_fms (cp_dec s)) m) /\
  (kt_fms (cp_dec (state_after (cp_model env cs) s 1)) = kt_fms (cp_dec s) ->
   forall k, kt_fms (cp_dec (state_after (cp_model env cs) s k)) = kt_fms (cp_dec s)).
Proof.
  intros env cs K s HK HS HC HF.
  exact (conj (@fixed_points env cs K HK HS s HC HF) (@fixed_forever env cs K HK HS s HC HF)).
Qed.
Print Assumptions C80_fixed_points.

(** There the error is stationary: no factor can be moved in any direction with a first-order change of the error. *)
Theorem C80_stationary : forall env cs K s m, cs_rank cs = K -> svd_works_on K K (env_svd env) ->
  cp_coherent K s -> free_fit cs s -> (m < length (shape (cp_X s)))%nat ->
  kt_fms (cp_dec (state_after (cp_model env cs) s 1)) = kt_fms (cp_dec s) ->
  stationary_in K (cp_X s) (kt_fms (cp_dec s)) m.
Proof.
  intros env cs K s m HK HS HC HF Hm E.
  exact (best_stationary (co_fac HC) Hm (proj1 (@fixed_points env cs K HK HS s HC HF) E m Hm)).
Qed.
Print Assumptions C80_stationary.

(** Complete fits from such a start: with a positive tolerance and an error that is not zero
    the fit returns the start after at most one iteration. *)
Theorem C80_fixed_fits : forall env cs K cf disk draws X max_its arg ds ds1,
  plain_call env cs K cf draws X (match max_its with Some m => m | None => ds_max ds end) arg ds ->
  cp_init_fit env cs disk draws X max_its arg ds = (ds1, None) ->
  (forall m, (m < length (shape X))%nat -> smallest_best K X (kt_fms (cp_dec (ds_num ds1))) m) ->
  sse X (kt_fms (cp_dec (ds_num ds1))) unit_weights K <> 0 -> 0 < cf_tol cf ->
  exists d, cp_fit env cs cf disk draws X max_its arg ds = (d, None) /\ (ds_it d <= 1)%Z /\
    kt_fms (cp_dec (ds_num d)) = kt_fms (cp_dec (ds_num ds1)).
Proof. intros env cs K cf disk draws X max_its arg ds ds1 HP. exact (@fixed_fit env cs K cf (proj1 HP) (proj1 (proj2 (proj2 HP))) disk draws X max_its arg ds ds1 HP). Qed.
Print Assumptions C80_fixed_fits.

(** The matrix with singular values 3 and 1, started at its second component: no pass changes it, no factor can be
    moved with gain, and the fit returns it after one iteration with error 9, although another model has error 1. *)
Example C80_fixed_example : exists s1 d,
  cp_init_fit q_env y_cs no_disk [] b_X (Some 5%Z) (y_arg f_Us) y_ds = (s1, None) /\
  (forall k, kt_fms (cp_dec (state_after (cp_model q_env y_cs) (ds_num s1) k)) = f_Us) /\
  (forall m, (m < 2)%nat -> stationary_in 1 b_X f_Us m) /\
  cp_fit q_env y_cs y_cf no_disk [] b_X (Some 5%Z) (y_arg f_Us) y_ds = (d, None) /\ (ds_it d <= 1)%Z /\
  kt_fms (cp_dec (ds_num d)) = f_Us /\ sse b_X f_Us unit_weights 1 = 9 /\ sse b_X y_Us unit_weights 1 = 1.
Proof.
  destruct (y_free b_X f_Us b_data f_ok) as (s1 & E1 & F1 & HC & HF & EX).
  pose proof f_best as HB. assert (E9 : sse b_X f_Us unit_weights 1 = 9) by (ev; lra).
  destruct (C80_fixed_fits q_env y_cs 1 y_cf no_disk [] b_X (Some 5%Z) (y_arg f_Us) y_ds s1
    (y_call b_X f_Us b_data f_ok) E1) as (d & Ed & Hi & Ef); [now rewrite F1|rewrite F1, E9; lra|cbn; lra|].
  destruct (C80_fixed_points q_env y_cs 1 (ds_num s1) eq_refl y_svd HC HF) as [[_ H1] H2].
  assert (H : kt_fms (cp_dec (state_after (cp_model q_env y_cs) (ds_num s1) 1)) = kt_fms (cp_dec (ds_num s1))).
  { apply H1. now rewrite EX, F1. }
  exists s1, d. split; [exact E1|]. split; [intros k; rewrite <- F1; now apply H2|]. split.
  { intros m Hm. rewrite <- F1, <- EX. apply (C80_stationary q_env y_cs 1 (ds_num s1) m eq_refl y_svd HC HF); [now rewrite EX|exact H]. }
  split; [exact Ed|]. split; [exact Hi|]. split; [now rewrite Ef|]. split; [exact E9|]. ev. lra.
Qed.

(** *** One pass is never worse than solving for the first factor alone: after pass k+1 no model that has the factors of pass k
    in the modes 1, 2, ... has a smaller error, whatever its first factor W. *)
Theorem C80_first_factor : forall env cs K s W k, cs_rank cs = K -> svd_works_on K K (env_svd env) ->
  cp_coherent K s -> free_fit cs s -> is_mat (nth 0 (shape (cp_X s)) 0%nat) K W ->
  sse (cp_X s) (kt_fms (cp_dec (state_after (cp_model env cs) s (S k)))) unit_weights K <=
  sse (cp_X s) (with_factor 0 W (kt_fms (cp_dec (state_after (cp_model env cs) s k)))) unit_weights K.
Proof. intros env cs K s W k HK HS HC HF HW. exact (@first_pass env cs K HK HS s W k HC HF HW). Qed.
Print Assumptions C80_first_factor.

(** So a complete fit that does not stop before its first iteration ends at most with the error
    of the best first factor for the other factors of the start; the first factor of the start does not matter. *)
Theorem C80_fit_bound : forall env cs K cf disk draws X max_its arg ds ds1,
  plain_call env cs K cf draws X (match max_its with Some m => m | None => ds_max ds end) arg ds ->
  cp_init_fit env cs disk draws X max_its arg ds = (ds1, None) ->
  cf_rel_tol cf * energy X <= sse X (kt_fms (cp_dec (ds_num ds1))) unit_weights K ->
  exists d e, cp_fit env cs cf disk draws X max_its arg ds = (d, None) /\ (0 < ds_it d)%Z /\ cp_SSE env (ds_num d) = Ok e /\
    forall W, is_mat (nth 0 (shape X) 0%nat) K W -> e <= sse X (with_factor 0 W (kt_fms (cp_dec (ds_num ds1)))) unit_weights K.
Proof. intros env cs K cf disk draws X max_its arg ds ds1 HP. exact (@bounded_fit env cs K cf (proj1 HP) (proj1 (proj2 (proj2 HP))) disk draws X max_its arg ds ds1 HP). Qed.
Print Assumptions C80_fit_bound.
(** Rank-one data [2; 3] x [1; 2] and a start [9; 9] x [1; 2]: the fit is exact. *)
Example C80_fit_bound_example : exists d e,
  cp_fit q_env y_cs y_cf no_disk [] g_X (Some 5%Z) (y_arg g_Us) y_ds = (d, None) /\ cp_SSE q_env (ds_num d) = Ok e /\ e <= 0.
Proof.
  destruct (y_free g_X g_Us gx_data (proj1 g_ok)) as (s1 & E1 & F1 & HC & HF & EX).
  destruct (C80_fit_bound q_env y_cs 1 y_cf no_disk [] g_X (Some 5%Z) (y_arg g_Us) y_ds s1
    (y_call g_X g_Us gx_data (proj1 g_ok)) E1) as (d & e & Ed & _ & Ee & H).
  { rewrite F1. cbn [y_cf cf_rel_tol]. rewrite Rmult_0_l. apply sse_nonneg. }
  exists d, e. split; [exact Ed|]. split; [exact Ee|].
  specialize (H (mk [2; 1]%nat [2; 3])). rewrite F1 in H.
  assert (E0 : sse g_X (with_factor 0 (mk [2; 1]%nat [2; 3]) g_Us) unit_weights 1 = 0) by (ev; lra).
  rewrite E0 in H. apply H. repeat constructor.
Qed.

(** *** Starts that lead nowhere.  [orthogonal_start K X Us]: every component of the start is orthogonal to the data along the modes 1, 2, ...
    From there all factors are zero after every pass and the error is that of the zero model. *)
Theorem C80_orthogonal_runs : forall env cs K s, cs_rank cs = K -> svd_works_on K K (env_svd env) ->
  cp_coherent K s -> free_fit cs s -> orthogonal_start K (cp_X s) (kt_fms (cp_dec s)) ->
  forall k, all_zero K (kt_fms (cp_dec (state_after (cp_model env cs) s (S k)))) /\
    sse (cp_X s) (kt_fms (cp_dec (state_after (cp_model env cs) s (S k)))) unit_weights K = energy (cp_X s).
Proof. intros env cs K s HK HS HC HF HO. exact (@trap_runs env cs K HK HS s HC HF HO). Qed.
Print Assumptions C80_orthogonal_runs.

(** Complete fits then report convergence after at most two iterations, with zero factors and explained variance 0. *)
Theorem C80_orthogonal_fits : forall env cs K cf disk draws X max_its arg ds ds1,
  plain_call env cs K cf draws X (match max_its with Some m => m | None => ds_max ds end) arg ds ->
  cp_init_fit env cs disk draws X max_its arg ds = (ds1, None) ->
  orthogonal_start K X (kt_fms (cp_dec (ds_num ds1))) -> energy X <> 0 -> 0 < cf_tol cf -> cf_rel_tol cf <= 1 ->
  exists d, cp_fit env cs cf disk draws X max_its arg ds = (d, None) /\ (1 <= ds_it d <= 2)%Z /\
    all_zero K (kt_fms (cp_dec (ds_num d))) /\ cp_metric env cs KExplained (ds_num d) = Ok (Fin 0).
Proof. intros env cs K cf disk draws X max_its arg ds ds1 HP. exact (@trap_fit env cs K cf (proj1 HP) (proj1 (proj2 (proj2 HP))) disk draws X max_its arg ds ds1 HP). Qed.
Print Assumptions C80_orthogonal_fits.
(** The rank-one data above, started at [2; 3] x [2; -1]: the first factor is already right, and yet nothing is found in 5 iterations. *)
Example C80_orthogonal_example : exists d,
  cp_fit q_env y_cs y_cf no_disk [] g_X (Some 5%Z) (y_arg g_Vs) y_ds = (d, None) /\ (1 <= ds_it d <= 2)%Z /\
  all_zero 1 (kt_fms (cp_dec (ds_num d))) /\ cp_metric q_env y_cs KExplained (ds_num d) = Ok (Fin 0).
Proof.
  destruct (y_free g_X g_Vs gx_data (proj2 g_ok)) as (s1 & E1 & F1 & HC & HF & EX).
  apply (C80_orthogonal_fits q_env y_cs 1 y_cf no_disk [] g_X (Some 5%Z) (y_arg g_Vs) y_ds s1
    (y_call g_X g_Vs gx_data (proj2 g_ok)) E1).
  - rewrite F1. apply g_orthogonal.
  - rewrite g_energy. lra.
  - cbn. lra.
  - cbn. lra.
Qed.
