(** Property C111: rank-one CP_ALS on non-negative data. *)
From Verif Require Import RankOneFit PowerWitness CPExamples Exists Props_Best.
From Verif Require Import Prelude Lin.
Local Open Scope R_scope.

(** *** C111.  Two fits of the same non-negative tensor from the same non-negative start, with the same penalties (or none) but asked for
    non-negative factors in different modes: after every pass they have the same factors, and these are non-negative. *)
Theorem C111_same : forall env cs s t nn nn' lam, cs_rank cs = 1%nat -> svd_contract (env_svd env) -> nnls_contract (env_nnls env) ->
  cp_coherent 1 s -> cp_coherent 1 t -> cp_X t = cp_X s -> kt_fms (cp_dec t) = kt_fms (cp_dec s) ->
  let X := cp_X s in let Us := kt_fms (cp_dec s) in
  only_nonneg s nn -> only_nonneg t nn' -> penalised_by cs (length (shape X)) lam ->
  nonneg_data X -> nonneg_factors 1 Us -> (0 < length (shape X))%nat -> ~ orthogonal_start 1 X Us ->
  forall k, let s' := state_after (cp_model env cs) s k in let t' := state_after (cp_model env cs) t k in
    snd (cp_update_factors env cs s') = None /\ snd (cp_update_factors env cs t') = None /\
    kt_fms (cp_dec t') = kt_fms (cp_dec s') /\ nonneg_factors 1 (kt_fms (cp_dec s')).
Proof. exact flags_change_nothing. Qed.
Print Assumptions C111_same.

(** Complete fits: the same number of iterations, the same factors, the same error. *)
Theorem C111_fits : forall env cs X nn nn' orth orth' cf cf' disk disk' draws draws' max_its max_its' arg arg' ds dt ds1 dt1,
  constrained env cs 1 X nn orth -> constrained env cs 1 X nn' orth' -> (forall m, ~ asked orth m) -> (forall m, ~ asked orth' m) -> nonneg_data X ->
  let budget := match max_its with Some m => m | None => ds_max ds end in
  let budget' := match max_its' with Some m => m | None => ds_max dt end in
  constrained_call env cs cf 1 X nn orth draws budget arg ds -> constrained_call env cs cf' 1 X nn' orth' draws' budget' arg' dt ->
  budget' = budget -> cf_tol cf' = cf_tol cf -> cf_rel_tol cf' = cf_rel_tol cf ->
  cp_init_fit env cs disk draws X max_its arg ds = (ds1, None) ->
  cp_init_fit env cs disk' draws' X max_its' arg' dt = (dt1, None) ->
  let Us := kt_fms (cp_dec (ds_num ds1)) in
  kt_fms (cp_dec (ds_num dt1)) = Us -> nonneg_factors 1 Us -> (0 < length (shape X))%nat -> ~ orthogonal_start 1 X Us ->
  exists d e, cp_fit env cs cf disk draws X max_its arg ds = (d, None) /\ cp_fit env cs cf' disk' draws' X max_its' arg' dt = (e, None) /\
    ds_it e = ds_it d /\ kt_fms (cp_dec (ds_num e)) = kt_fms (cp_dec (ds_num d)) /\ cp_SSE env (ds_num e) = cp_SSE env (ds_num d) /\
    nonneg_factors 1 (kt_fms (cp_dec (ds_num d))).
Proof.
  intros env cs X nn nn' orth orth' cf cf' disk disk' draws draws' max_its max_its' arg arg' ds dt ds1 dt1 H1 H2 HO HO' HX.
  exact (@fits_twins env cs X nn nn' orth orth' H1 H2 HO HO' HX cf cf' disk disk' draws draws' max_its max_its' arg arg' ds dt ds1 dt1).
Qed.
Print Assumptions C111_fits.

(** Starts that are positive outside the first factor are never orthogonal to non-negative data. *)
Theorem C111_start : forall X Us, factors_ok 1 X Us -> nonneg_data X -> energy X <> 0 -> (0 < length (shape X))%nat -> positive_start Us ->
  ~ orthogonal_start 1 X Us.
Proof. exact positive_not_orthogonal. Qed.
Print Assumptions C111_start.

(** Non-negative rank-one models are no worse than others: absolute values fit non-negative data at least as well. *)
Theorem C111_absolute : forall X Us, nonneg_data X -> sse X (map nd_abs Us) unit_weights 1 <= sse X Us unit_weights 1.
Proof. exact abs_fits. Qed.
Print Assumptions C111_absolute.

(** A non-negative matrix from a positive start: whichever modes are asked to be non-negative, the errors tend to the least error that any
    rank-one model has. *)
Theorem C111_best : forall env cs s nn n m, cs_rank cs = 1%nat -> svd_contract (env_svd env) -> nnls_contract (env_nnls env) ->
  cp_coherent 1 s -> only_nonneg s nn -> cs_ridge cs = None ->
  let X := cp_X s in let Us k := kt_fms (cp_dec (state_after (cp_model env cs) s k)) in
  nonneg_data X -> shape X = [n; m] -> energy X <> 0 -> nonneg_factors 1 (Us 0%nat) -> positive_start (Us 0%nat) ->
  exists l, Un_cv (fun k => sse X (Us k) unit_weights 1) l /\
    (forall Vs w, rows Vs = shape X -> l <= sse X Vs w 1) /\ (exists Vs, factors_ok 1 X Vs /\ sse X Vs unit_weights 1 = l).
Proof. intros env cs s nn n m HK HS HN HC HO HR X Us. exact (@matrix_best env cs s nn n m HK HS HN HC HO HR). Qed.
Print Assumptions C111_best.

(** *** Examples *)
Definition ro_cs : cp_settings := {| cs_rank := 1; cs_init := "random"; cs_ridge := None |}.
Definition ro_nn (m : nat) : bool := match m with O => true | _ => false end.
Lemma ro_env : exists env, svd_contract (env_svd env) /\ nnls_contract (env_nnls env).
Proof.
  destruct svd_contract_satisfiable as (svd & Hs). destruct nnls_contract_satisfiable as (nnls & Hn).
  exists {| env_svd := svd; env_svd_u := fun A => do (U, _, _) <- svd A ; Ok U; env_qr := fun A => do (U, _, _) <- svd A ; Ok U;
            env_nnls := nnls; env_junk := fun _ _ => 0 |}. auto.
Qed.
(** The matrix with singular values 3 and 1, started from (1, 1), first factor non-negative: the errors tend to 1. *)
Example C111_example : forall env, svd_contract (env_svd env) -> nnls_contract (env_nnls env) ->
  let s := start 1 b_X w_Us [true; false] [false; false] in
  Un_cv (fun k => sse b_X (kt_fms (cp_dec (state_after (cp_model env ro_cs) s k))) unit_weights 1) 1.
Proof.
  intros env HS HN s.
  assert (HX : nonneg_data b_X). { intros idx Hi. apply in_indices in Hi. cbn in Hi. destruct Hi as [<-|[<-|[<-|[<-|[]]]]]; cbn; lra. }
  assert (HC : cp_coherent 1 s) by (apply start_coherent; [exact b_data|exact w_ok]).
  destruct (@C111_best env ro_cs s ro_nn 2 2 eq_refl HS HN HC) as (l & Hl & Hb & (Vs & HV & EV)); try reflexivity.
  - intros m Hm. cbn in Hm. destruct m as [|[|m]]; [| |lia]; (split; [exists [true; false]; auto|exists [false; false]; auto]).
  - exact HX.
  - ev. lra.
  - intros n i r Hn Hi Hr. cbn in Hn. destruct n as [|[|n]]; [| |lia]; cbn in Hi; destruct i as [|[|i]]; try lia; destruct r; try lia; cbn; lra.
  - intros n i Hn Hi. cbn in Hn. destruct n as [|[|n]]; [lia| |lia]. cbn in Hi. destruct i as [|[|i]]; try lia; cbn; lra.
  - assert (EL : left_out (Nat.min 2 2) 1 w_S = 1) by (clear; ev; lra).
    destruct (@matrix_reached b_X 2 2 1 _ _ _ (proj1 b_data) eq_refl w_svd) as (Ws & HW & EW).
    assert (E : l = 1); [|rewrite <- E; exact Hl]. apply Rle_antisym.
    + rewrite <- EL, <- EW. apply Hb. apply HW.
    + rewrite <- EL, <- EV. apply (@matrix_bound b_X 2 2 _ _ _ Vs unit_weights eq_refl w_svd). apply HV.
Qed.
(** From a negative start the flags matter: the only entry of the first factor is -1 after a pass without constraint, and not with one. *)
Example C111_negative_start : (exists env, svd_contract (env_svd env) /\ nnls_contract (env_nnls env)) /\
  forall env, svd_contract (env_svd env) -> nnls_contract (env_nnls env) ->
  let Us := [mk [1; 1]%nat [0]; mk [1; 1]%nat [-1]] in
  let after flags := nth 0 (kt_fms (cp_dec (state_after (cp_model env ro_cs) (start 1 (mk [1; 1]%nat [1]) Us flags [false; false]) 1))) m0 in
  mget (after [false; false]) 0 0 = -1 /\ 0 <= mget (after [true; true]) 0 0.
Proof.
  split; [exact ro_env|]. intros env HS HN Us after. set (X := mk [1; 1]%nat [1]).
  assert (HC : forall b, cp_coherent 1 (start 1 X Us [b; b] [false; false])).
  { intros b. apply start_coherent; [|split; [repeat constructor|reflexivity]]. split; [reflexivity|]. split; [cbn; lia|]. repeat constructor; discriminate. }
  assert (HO : forall b, option_set ro_cs (start 1 X Us [b; b] [false; false]) (fun _ => b) (fun _ => 0)).
  { intros b m Hm. cbn in Hm. destruct m as [|[|m]]; [| |lia];
      (split; [exists [b; b]; auto|]; split; [exists [false; false]; auto|]; split; [reflexivity|lra]). }
  assert (HZ : forall b, exists Z, after [b; b] = Z /\ is_mat 1 1 Z /\ allowed b 1 1 (mget Z) /\
    forall Y, allowed b 1 1 Y -> normal_loss 0 1 X Us 0 (mget Z) <= normal_loss 0 1 X Us 0 Y).
  { intros b. unfold after. cbn [state_after cp_model md_update]. unfold cp_update_factors. cbn [cp_X start ndim shape length seq cp_update_modes].
    destruct (@update_settles env ro_cs 1 (fun _ => b) (fun _ => 0) eq_refl HS HN _ 0%nat (HC b) (HO b) ltac:(cbn; lia)) as (s1 & Z & E & MZ & EZ & SP & C1 & AZ & BZ).
    fold X. rewrite E.
    destruct (@update_settles env ro_cs 1 (fun _ => b) (fun _ => 0) eq_refl HS HN s1 1%nat C1 (option_same SP (HO b))) as (s2 & W & E2 & _ & EW & _).
    { rewrite (sp_X SP). cbn. lia. }
    rewrite E2. cbn [fst]. exists Z. rewrite EW, EZ. unfold with_factor. rewrite nth_replace_at_neq by discriminate.
    rewrite nth_replace_at_eq by (cbn; lia). auto. }
  split.
  - destruct (HZ false) as (Z & EZ & _ & _ & B). rewrite EZ. specialize (B (fun _ _ => -1) ltac:(intros H0; discriminate H0)).
    assert (EL : forall Y, normal_loss 0 1 X Us 0 Y = (Y 0%nat 0%nat + 1) ^ 2) by (intros Y; clear; ev; ring).
    rewrite !EL in B. assert (E0 : mget Z 0 0 + 1 = 0); [|lra]. apply Rsqr_0_uniq. unfold Rsqr. pose proof (pow2_ge_0 (mget Z 0 0 + 1)). lra.
  - destruct (HZ true) as (Z & EZ & _ & A & _). rewrite EZ. apply A; [reflexivity|lia|lia].
Qed.
