(** Property C74: how long fits run. *)
From Verif Require Import StopFacts Props_Quality Props_CMTF Parafac2Examples.
Local Open Scope R_scope.

(** *** CP.  [L k]: the sum of squared errors after k updates. *)
Theorem C74_cp_stopping : forall env cs K cf ds ds',
  svd_works_on K K (env_svd env) -> cs_rank cs = K -> cp_coherent K (ds_num ds) -> unit_w K (ds_num ds) ->
  free_fit cs (ds_num ds) -> energy (cp_X (ds_num ds)) <> 0 -> 0 < cf_tol cf < 1 ->
  let L k := sse (cp_X (ds_num ds)) (kt_fms (cp_dec (state_after (cp_model env cs) (ds_num ds) k))) unit_weights K in
  ds_prev ds = Fin (L 0%nat) -> ds_rel ds = PInf ->
  cp_fit_loop (cp_model env cs) cf ds = (ds', None) ->
  exists n, ds_it ds' = (ds_it ds + Z.of_nat n)%Z /\ ds_num ds' = state_after (cp_model env cs) (ds_num ds) n /\
    (forall k, (k < n)%nat -> cf_rel_tol cf * energy (cp_X (ds_num ds)) <= L k) /\
    (forall k, (S k < n)%nat -> cf_tol cf * L k <= L k - L (S k)) /\
    (n = Z.to_nat (ds_max ds - ds_it ds) \/ L n < cf_rel_tol cf * energy (cp_X (ds_num ds)) \/
     exists k, n = S k /\ L k - L n < cf_tol cf * L k /\ L k - L n < cf_tol cf / (1 - cf_tol cf) * L n).
Proof. exact cp_why_stopped. Qed.
Print Assumptions C74_cp_stopping.

(** Whatever the outcome, a loop does at most N updates when (1 - tol)^N L(0) < rel_tol ||X||^2. *)
Theorem C74_cp_loop : forall env cs K cf ds ds' e N,
  svd_works_on K K (env_svd env) -> cs_rank cs = K -> cp_coherent K (ds_num ds) -> unit_w K (ds_num ds) ->
  free_fit cs (ds_num ds) -> energy (cp_X (ds_num ds)) <> 0 -> 0 < cf_tol cf < 1 ->
  ds_prev ds = Fin (sse (cp_X (ds_num ds)) (kt_fms (cp_dec (ds_num ds))) unit_weights K) ->
  (1 - cf_tol cf) ^ N * sse (cp_X (ds_num ds)) (kt_fms (cp_dec (ds_num ds))) unit_weights K <
    cf_rel_tol cf * energy (cp_X (ds_num ds)) ->
  cp_fit_loop (cp_model env cs) cf ds = (ds', e) ->
  exists n, (n <= N)%nat /\ ds_num ds' = state_after (cp_model env cs) (ds_num ds) n /\
    (e = None -> ds_it ds' = (ds_it ds + Z.of_nat n)%Z).
Proof. exact cp_run_length. Qed.
Print Assumptions C74_cp_loop.

(** Whole fits: one bound for all values of max_its. *)
Theorem C74_cp_fit : forall env cs K cf disk draws X arg ds,
  cs_rank cs = K -> cs_ridge cs = None -> svd_works_on K K (env_svd env) -> data_ok X -> energy X <> 0 ->
  usable_start env cs K X draws arg -> cp_last (ds_num ds) = None ->
  free_flags (cp_nn (ds_num ds)) (length (shape X)) -> free_flags (cp_orth (ds_num ds)) (length (shape X)) ->
  (forall lg, In lg (ds_logs ds) -> exists k, code_logger env cs k lg) ->
  0 < cf_tol cf < 1 -> 0 < cf_rel_tol cf ->
  exists N, forall m, (0 < m)%Z -> checkpoints_fit cf m ds ->
    exists ds', cp_fit env cs cf disk draws X (Some m) arg ds = (ds', None) /\ (ds_it ds' <= N)%Z.
Proof. exact cp_fit_length. Qed.
Print Assumptions C74_cp_fit.

(** Tolerances of 1/2 and 1/10: two updates are enough whatever the budget.  The default tolerances. *)
Definition half_cf : config := {| cf_freq := -1; cf_tol := / 2; cf_rel_tol := / 10; cf_print := -1 |}.
Definition default_cf : config := {| cf_freq := -1; cf_tol := / 10 ^ 6; cf_rel_tol := / 10 ^ 10; cf_print := -1 |}.
Definition q_run (m : Z) : dstate cp_state :=
  {| ds_num := cp_with_constraints (Some [false; false]) (Some [false; false]) q_state; ds_it := 0; ds_max := m; ds_rel := PInf;
     ds_prev := Fin 8; ds_logs := []; ds_file := None |}.
Lemma q_sse : sse q_X q_draws unit_weights 1 = 8.
Proof. ev. lra. Qed.
Lemma q_run_ok m : cp_coherent 1 (ds_num (q_run m)) /\ unit_w 1 (ds_num (q_run m)) /\ free_fit q_cs (ds_num (q_run m)).
Proof.
  split; [destruct q_coherent; constructor; auto|]. split; [intros r Hr; now apply vget_ones|].
  intros i Hi. cbn in Hi. split; [reflexivity|].
  split; exists [false; false]; (split; [reflexivity|]); destruct i as [|[|i]]; [reflexivity|reflexivity|lia|reflexivity|reflexivity|lia].
Qed.
Example C74_cp_example : forall m ds' e, cp_fit_loop (cp_model q_env q_cs) half_cf (q_run m) = (ds', e) ->
  exists n, (n <= 2)%nat /\ ds_num ds' = state_after (cp_model q_env q_cs) (ds_num (q_run m)) n.
Proof.
  intros m ds' e E. destruct (q_run_ok m) as (H1 & H2 & H3).
  destruct (C74_cp_loop q_env q_cs 1 half_cf (q_run m) ds' e 2) as (n & A & B & _); auto.
  - apply svd_row_works. lia.
  - change (energy q_X <> 0). rewrite q_energy. lra.
  - cbn. lra.
  - change (Fin 8 = Fin (sse q_X q_draws unit_weights 1)). now rewrite q_sse.
  - change ((1 - / 2) ^ 2 * sse q_X q_draws unit_weights 1 < / 10 * energy q_X). rewrite q_sse, q_energy. cbn. lra.
  - eauto.
Qed.
Example C74_stopping_hypotheses_hold : cp_coherent 1 (ds_num (q_run 5)) /\ unit_w 1 (ds_num (q_run 5)) /\ free_fit q_cs (ds_num (q_run 5)) /\
  energy (cp_X (ds_num (q_run 5))) <> 0 /\ ds_prev (q_run 5) = Fin (sse q_X q_draws unit_weights 1) /\ ds_rel (q_run 5) = PInf.
Proof.
  destruct (q_run_ok 5) as (H1 & H2 & H3). repeat (split; [assumption|]). change (energy (cp_X (ds_num (q_run 5)))) with (energy q_X).
  rewrite q_energy, q_sse. split; [lra|]. split; reflexivity.
Qed.
Example C74_defaults : exists N, forall m, (0 < m)%Z ->
  exists ds', cp_fit q_env q_cs default_cf (fun _ => None) q_draws q_X (Some m) NoArg q_ds = (ds', None) /\ (ds_it ds' <= N)%Z.
Proof.
  destruct (C74_cp_fit q_env q_cs 1 default_cf (fun _ => None) q_draws q_X NoArg q_ds) as (N & H); auto using q_data, q_start, q_logs.
  - apply svd_row_works. lia.
  - rewrite q_energy. lra.
  - now left.
  - now left.
  - cbn. lra.
  - cbn. lra.
  - exists N. intros m Hm. apply H; [exact Hm|]. left. reflexivity.
Qed.

(** *** CMTF: the same for the coupled loss, compared with the size of the tensor alone. *)
Theorem C74_cmtf_loop : forall env cs cf K ms ds ds' e N,
  svd_works_rows K (env_svd env) -> cs_rank cs = K -> (1 <= K)%nat -> NoDup ms ->
  let s := ds_num ds in
  cm_ok K ms s -> free_fit cs (cm_cp s) -> (forall r, (r < K)%nat -> vget (kt_w (cm_dec s)) r = 1) ->
  cp_norm (cm_cp s) = norm (cp_X (cm_cp s)) -> energy (cp_X (cm_cp s)) <> 0 -> 0 < cf_tol cf < 1 ->
  let l := coupled_loss K (cp_X (cm_cp s)) (cm_fms s) unit_weights ms (cm_V s) (cm_Y s) in
  ds_prev ds = Fin l -> (1 - cf_tol cf) ^ N * l < cf_rel_tol cf * energy (cp_X (cm_cp s)) ->
  cp_fit_loop (cmtf_model env cs) cf ds = (ds', e) ->
  exists n, (n <= N)%nat /\ ds_num ds' = state_after (cmtf_model env cs) s n /\
    (e = None -> ds_it ds' = (ds_it ds + Z.of_nat n)%Z).
Proof. exact cmtf_run_length. Qed.
Print Assumptions C74_cmtf_loop.
Definition ex_cm_run (m : Z) : dstate cmtf_state :=
  {| ds_num := ex_cm; ds_it := 0; ds_max := m; ds_rel := PInf; ds_prev := Fin 14; ds_logs := []; ds_file := None |}.
Example C74_cmtf_example : forall m ds' e, cp_fit_loop (cmtf_model ex_cm_env w_cs) half_cf (ex_cm_run m) = (ds', e) ->
  exists n, (n <= 8)%nat /\ ds_num ds' = state_after (cmtf_model ex_cm_env w_cs) ex_cm n.
Proof.
  intros m ds' e E.
  assert (EL : coupled_loss 1 (cp_X (cm_cp ex_cm)) (cm_fms ex_cm) unit_weights [0%nat] (cm_V ex_cm) (cm_Y ex_cm) = 14) by (ev; ring).
  assert (EE : energy (cp_X (cm_cp ex_cm)) = 1) by (ev; ring).
  destruct (C74_cmtf_loop ex_cm_env w_cs half_cf 1 [0%nat] (ex_cm_run m) ds' e 8 ex_cm_svd eq_refl (le_n 1) ex_nodup ex_cm_ok ex_cm_free)
    as (n & A & B & _); cbn [ex_cm_run ds_num ds_prev]; rewrite ?EL, ?EE; eauto; try reflexivity.
  - intros r Hr. now apply vget_ones.
  - cbn. lra.
  - cbn. lra.
Qed.

(** *** PARAFAC2 has the relative rule only: every iteration but the last gains at least the tolerance, *)
Theorem C74_parafac2_gain : forall env ps K nI cf ds ds', let s := ds_num ds in
  p2_ok K nI s -> orth_projections K (p2_X s) (p2_Ps s) -> unconstrained ps -> ps_rank ps = K -> ps_ridge ps = None ->
  svd_works_on K K (env_svd (pe_cp env)) -> (0 < nI)%nat -> (0 < K)%nat -> (0 < length (p2_X s))%nat ->
  (forall k, (k < Z.to_nat (ds_max ds - ds_it ds))%nat ->
     solvable env K nI (state_after (p2_model env ps) (fst (p2_prepare env ps s)) k)) ->
  0 < cf_tol cf < 1 -> ds_prev ds = Fin (total_err K nI s) ->
  pf_fit_loop (p2_model env ps) cf ds = (ds', None) -> (ds_it ds < ds_it ds')%Z ->
  total_err K nI (ds_num ds') <= (1 - cf_tol cf) ^ Z.to_nat (ds_it ds' - ds_it ds - 1) * total_err K nI s.
Proof. exact p2_run_gain. Qed.
Print Assumptions C74_parafac2_gain.
Example C74_gain_hypotheses_hold : p2_ok 1 1 ex_p2 /\ orth_projections 1 (p2_X ex_p2) (p2_Ps ex_p2) /\ unconstrained ex_ps /\
  solvable p2_ex_env 1 1 (state_after (p2_model p2_ex_env ex_ps) (fst (p2_prepare p2_ex_env ex_ps ex_p2)) 0) /\
  total_err 1 1 ex_p2 = 21.
Proof.
  split; [apply ex_p2_ok|]. split; [apply ex_p2_orth|]. split; [now apply ex_unconstrained|]. split.
  - destruct (@prepare_ok p2_ex_env ex_ps 1 1 ex_p2 ex_p2_ok) as (c & EP & _); [now apply ex_unconstrained|reflexivity|lia|lia|cbn; lia|].
    rewrite EP. cbn [fst state_after]. apply solvable_ex; try reflexivity; cbn; lra.
  - unfold total_err. ev. ring.
Qed.

(** and a fit that ends with loss zero has used all its iterations, whatever the settings, data and start:
    0/0 is nan, which is below no tolerance. *)
Theorem C74_parafac2_perfect_fit : forall env ps cf disk draws X m arg ds ds', cf_tol cf <= 1 ->
  p2_fit env ps cf disk draws X (Some m) arg ds = (ds', None) -> p2_loss ps (ds_num ds') = Ok 0 -> (m <= ds_it ds')%Z.
Proof. exact p2_perfect_fit. Qed.
Print Assumptions C74_parafac2_perfect_fit.
Theorem C74_parafac2_perfect_loop : forall env ps cf ds ds' s, cf_tol cf <= 1 -> p2_prepare env ps (ds_num ds) = (s, None) ->
  xltb (xabs (ds_rel ds)) (Fin (cf_tol cf)) = false ->
  pf_fit_loop (p2_model env ps) cf ds = (ds', None) -> p2_loss ps (ds_num ds') = Ok 0 -> (ds_max ds <= ds_it ds')%Z.
Proof. exact p2_perfect. Qed.
Print Assumptions C74_parafac2_perfect_loop.

(** The two slices of [ex_p2] with the factors that reproduce them: any number of iterations is done. *)
Definition z_p2 : p2_state :=
  {| p2_heap := [mk [1; 1]%nat [1]; mk [1; 1]%nat [1]; mk [2; 1]%nat [5; 2]; mk [2; 1]%nat [3 / 5; 4 / 5]; mk [1; 1]%nat [1]];
     p2_X := ex_Xs; p2_norm := sqrt 29; p2_ref := ex_ref; p2_cpf := [0; 1; 2]%nat;
     p2_inner := start 1 (mk [1; 1; 2]%nat [5; 2]) [] [false; false; false] [false; false; false] |}.
Definition z_ds (m : Z) : dstate p2_state :=
  {| ds_num := z_p2; ds_it := 0; ds_max := m; ds_rel := PInf; ds_prev := Fin 0; ds_logs := []; ds_file := None |}.
Lemma z_ok : p2_ok 1 1 z_p2.
Proof.
  constructor; try (split; reflexivity); try reflexivity.
  - repeat constructor.
  - repeat constructor; cbn; lia.
  - slices; split; reflexivity.
  - slices; split; reflexivity.
Qed.
Lemma z_orth : orth_projections 1 (p2_X z_p2) (p2_Ps z_p2).
Proof.
  change (orth_projections 1 ex_Xs (p2_Ps z_p2)). intros k Hk. revert k Hk. change (length ex_Xs) with 2%nat.
  slices; intros a b Ha Hb; replace a with 0%nat by lia; replace b with 0%nat by lia; ev; field.
Qed.
Lemma z_err : total_err 1 1 z_p2 = 0.
Proof. unfold total_err. ev. field. Qed.
Lemma z_solvable s : p2_ok 1 1 s -> p2_X s = ex_Xs -> total_err 1 1 s <= 0 -> solvable p2_ex_env 1 1 s.
Proof.
  intros H HX HE. unfold total_err, pf_sse in HE. rewrite HX in HE. change (length ex_Xs) with 2%nat in HE. cbn [seq sumf] in HE.
  assert (H0 : forall k, 0 <= slice_err 1 1 (p2_A s) (p2_B s) (p2_C s) ex_Xs k (mget (nth k (p2_Ps s) m0)))
    by (intros k; apply dist2_nonneg).
  assert (E0 : slice_err 1 1 (p2_A s) (p2_B s) (p2_C s) ex_Xs 0 (mget (nth 0 (p2_Ps s) m0)) = 0) by (pose proof (H0 0%nat); pose proof (H0 1%nat); lra).
  assert (E1 : slice_err 1 1 (p2_A s) (p2_B s) (p2_C s) ex_Xs 1 (mget (nth 1 (p2_Ps s) m0)) = 0) by (pose proof (H0 0%nat); pose proof (H0 1%nat); lra).
  unfold slice_err, dist2, pf_entry, mprod in E0, E1. change (width ex_Xs 0) with 2%nat in E0. change (width ex_Xs 1) with 1%nat in E1.
  cbn [seq sumf] in E0, E1. change (mget (nth 0 ex_Xs m0) 0 0) with 3 in E0. change (mget (nth 0 ex_Xs m0) 0 1) with 4 in E0.
  change (mget (nth 1 ex_Xs m0) 0 0) with 2 in E1.
  set (a := mget (p2_A s) 0 0) in *. set (b := mget (p2_B s) 0 0) in *. set (c0 := mget (p2_C s) 0 0) in *. set (c1 := mget (p2_C s) 1 0) in *.
  set (u := mget (nth 0 (p2_Ps s) m0) 0 0) in *. set (v := mget (nth 0 (p2_Ps s) m0) 1 0) in *. set (w := mget (nth 1 (p2_Ps s) m0) 0 0) in *.
  rewrite !Rplus_0_r in E0, E1.
  assert (F0 : a * c0 * (u * b) = 3).
  { pose proof (Rle_0_sqr (a * c0 * (u * b) - 3)) as S1. pose proof (Rle_0_sqr (a * c0 * (v * b) - 4)) as S2. unfold Rsqr in *.
    assert (Hz : (a * c0 * (u * b) - 3) * (a * c0 * (u * b) - 3) = 0) by (unfold pow in E0; lra).
    apply Rmult_integral in Hz. lra. }
  assert (F1 : a * c1 * (w * b) = 2).
  { assert (Hz : (a * c1 * (w * b) - 2) * (a * c1 * (w * b) - 2) = 0) by (unfold pow in E1; lra).
    apply Rmult_integral in Hz. lra. }
  apply solvable_ex; [exact HX|..]; intros Hz; [fold a in Hz|fold b in Hz|fold c0 in Hz|fold c1 in Hz]; try rewrite Hz in F0; try rewrite Hz in F1; lra.
Qed.
Example C74_parafac2_example : forall m, exists ds',
  pf_fit_loop (p2_model p2_ex_env ex_ps) default_cf (z_ds m) = (ds', None) /\ p2_loss ex_ps (ds_num ds') = Ok 0 /\ (m <= ds_it ds')%Z.
Proof.
  intros m. set (md := p2_model p2_ex_env ex_ps).
  assert (HU : unconstrained ex_ps) by (now apply ex_unconstrained).
  assert (Hsvd : svd_works_on 1 1 (env_svd (pe_cp p2_ex_env))) by (apply svd_col_works; lia).
  destruct (@prepare_ok p2_ex_env ex_ps 1 1 z_p2 z_ok HU eq_refl) as (c & EP & HL); [lia|lia|cbn; lia|].
  set (s0 := p2_with_inner c (p2_with_cpf [pr_A (p2_ref z_p2); pr_B (p2_ref z_p2); pr_C (p2_ref z_p2)] z_p2)) in *.
  assert (Hg : good 1 1 s0) by (constructor; [destruct z_ok; constructor; auto|exact HL|exact z_orth]).
  assert (E0 : total_err 1 1 s0 = 0) by (exact z_err).
  assert (G : forall n, (forall k, (k < n)%nat -> solvable p2_ex_env 1 1 (state_after md s0 k)) /\ good 1 1 (state_after md s0 n) /\
    total_err 1 1 (state_after md s0 n) = 0 /\ p2_X (state_after md s0 n) = ex_Xs /\
    forall k, (k < n)%nat -> snd (md_update md (state_after md s0 k)) = None).
  { induction n as [|n (I1 & I2 & I3 & I4 & I5)].
    - split; [intros; lia|]. split; [exact Hg|]. split; [exact E0|]. split; [reflexivity|intros; lia].
    - assert (Hs : forall k, (k < S n)%nat -> solvable p2_ex_env 1 1 (state_after md s0 k)).
      { intros k Hk. destruct (Nat.eq_dec k n) as [->|]; [|apply I1; lia]. apply z_solvable; [apply I2|exact I4|lra]. }
      destruct (@run_decreases p2_ex_env ex_ps 1 1 s0 Hg eq_refl eq_refl Hsvd) with (n := S n) as (A1 & A2 & _ & _ & A3); [lia|cbn; lia|exact Hs|].
      fold md in A1, A2, A3. split; [exact Hs|]. split; [exact A1|]. split; [|split; [exact A2|intros k Hk; now apply A3]].
      destruct (A3 n ltac:(lia)) as [_ A4]. pose proof (pf_sse_nonneg 1 1 (p2_A (state_after md s0 (S n))) (p2_B (state_after md s0 (S n)))
        (p2_C (state_after md s0 (S n))) (p2_X (state_after md s0 (S n))) (p2_Ps (state_after md s0 (S n)))) as A5.
      fold (total_err 1 1 (state_after md s0 (S n))) in A5. lra. }
  assert (HLk : forall k, p2_loss ex_ps (state_after md s0 k) = Ok 0).
  { intros k. destruct (G k) as (_ & G2 & G3 & _). rewrite (p2_loss_ok ex_ps (gd_ok G2)). cbn [ex_ps ps_ridge].
    fold (total_err 1 1 (state_after md s0 k)). rewrite G3. f_equal. lra. }
  destruct (pf_fit_loop md default_cf (z_ds m)) as [ds' e] eqn:E.
  assert (He : e = None).
  { change e with (snd (ds', e)). rewrite <- E. apply (@pf_quiet_neg _ _ md default_cf (z_ds m) s0); auto; [reflexivity|discriminate|].
    split; [|split].
    - intros k _. exists (Fin 0). cbn [md p2_model md_loss with_num ds_num]. fold md. rewrite HLk. reflexivity.
    - intros k _. destruct (G (S k)) as (_ & _ & _ & _ & G5). apply G5. lia.
    - intros k lg _ []. }
  subst e. exists ds'. split; [reflexivity|].
  destruct (@pf_fit_lemma _ _ md default_cf (z_ds m) ds' None s0 EP E) as (n & _ & En & _).
  assert (HF : p2_loss ex_ps (ds_num ds') = Ok 0) by (rewrite En; apply HLk). split; [exact HF|].
  apply (C74_parafac2_perfect_loop p2_ex_env ex_ps default_cf (z_ds m) ds' s0); auto. cbn. lra.
Qed.
