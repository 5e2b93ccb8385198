(** Property C94: CP fits do not depend on the coordinates of the modes. *)
From Verif Require Import CP CPFacts TuckerSpec TuckerFacts Exists Decomposer CPExamples Props_CP SymWitness.
From Verif Require Import Prelude Lin.
Local Open Scope R_scope.

(** *** C94.  X = G x_1 Q_1 ... x_N Q_N with orthonormal columns in every Q_n.  Fits of X and of the coordinates G that start from
    factors with U_n = Q_n V_n keep this after every iteration, with equal errors and losses. *)
Theorem C94_iterations : forall env cs K X G nn orth Qs,
  constrained env cs K X nn orth -> constrained env cs K G nn orth -> rotated Qs X G -> permitted nn orth Qs ->
  forall cf cf' disk disk' draws draws' max_its max_its' arg arg' ds dt ds1 dt1,
  constrained_call env cs cf K X nn orth draws (match max_its with Some m => m | None => ds_max ds end) arg ds ->
  constrained_call env cs cf' K G nn orth draws' (match max_its' with Some m => m | None => ds_max dt end) arg' dt ->
  cp_init_fit env cs disk draws X max_its arg ds = (ds1, None) -> cp_init_fit env cs disk' draws' G max_its' arg' dt = (dt1, None) ->
  carried_by K Qs (kt_fms (cp_dec (ds_num ds1))) (kt_fms (cp_dec (ds_num dt1))) ->
  forall j, let s := state_after (cp_model env cs) (ds_num ds1) j in let t := state_after (cp_model env cs) (ds_num dt1) j in
    carried_by K Qs (kt_fms (cp_dec s)) (kt_fms (cp_dec t)) /\
    sse X (kt_fms (cp_dec s)) unit_weights K = sse G (kt_fms (cp_dec t)) unit_weights K /\
    md_loss (cp_model env cs) t = md_loss (cp_model env cs) s.
Proof. exact iterations_turned. Qed.
Print Assumptions C94_iterations.

(** Complete fits: as many iterations, U_n = Q_n V_n, the same error and the same explained variance. *)
Theorem C94_fits : forall env cs K X G nn orth Qs,
  constrained env cs K X nn orth -> constrained env cs K G nn orth -> rotated Qs X G -> permitted nn orth Qs ->
  forall cf cf' disk disk' draws draws' max_its max_its' arg arg' ds dt ds1 dt1,
  let budget := match max_its with Some m => m | None => ds_max ds end in
  let budget' := match max_its' with Some m => m | None => ds_max dt end in
  constrained_call env cs cf K X nn orth draws budget arg ds -> constrained_call env cs cf' K G nn orth draws' budget' arg' dt ->
  budget' = budget -> cf_tol cf' = cf_tol cf -> cf_rel_tol cf' = cf_rel_tol cf ->
  cp_init_fit env cs disk draws X max_its arg ds = (ds1, None) -> cp_init_fit env cs disk' draws' G max_its' arg' dt = (dt1, None) ->
  carried_by K Qs (kt_fms (cp_dec (ds_num ds1))) (kt_fms (cp_dec (ds_num dt1))) ->
  exists d e x, cp_fit env cs cf disk draws X max_its arg ds = (d, None) /\ cp_fit env cs cf' disk' draws' G max_its' arg' dt = (e, None) /\
    ds_it e = ds_it d /\ carried_by K Qs (kt_fms (cp_dec (ds_num d))) (kt_fms (cp_dec (ds_num e))) /\
    cp_SSE env (ds_num d) = Ok x /\ cp_SSE env (ds_num e) = Ok x /\
    cp_metric env cs KExplained (ds_num e) = cp_metric env cs KExplained (ds_num d).
Proof. exact fits_turned. Qed.
Print Assumptions C94_fits.

(** The same for starts that the caller passes. *)
Theorem C94_given_starts : forall env cs K X G nn orth Qs,
  constrained env cs K X nn orth -> constrained env cs K G nn orth -> rotated Qs X G -> permitted nn orth Qs ->
  forall cf cf' disk disk' draws draws' max_its max_its' k k' ds dt,
  let budget := match max_its with Some m => m | None => ds_max ds end in
  let budget' := match max_its' with Some m => m | None => ds_max dt end in
  constrained_call env cs cf K X nn orth draws budget (DecArg k) ds -> constrained_call env cs cf' K G nn orth draws' budget' (DecArg k') dt ->
  budget' = budget -> cf_tol cf' = cf_tol cf -> cf_rel_tol cf' = cf_rel_tol cf ->
  (forall m, ~ asked orth m) -> carried_by K Qs (kt_fms k) (kt_fms k') ->
  exists d e x, cp_fit env cs cf disk draws X max_its (DecArg k) ds = (d, None) /\
    cp_fit env cs cf' disk' draws' G max_its' (DecArg k') dt = (e, None) /\
    ds_it e = ds_it d /\ carried_by K Qs (kt_fms (cp_dec (ds_num d))) (kt_fms (cp_dec (ds_num e))) /\
    cp_SSE env (ds_num d) = Ok x /\ cp_SSE env (ds_num e) = Ok x /\
    cp_metric env cs KExplained (ds_num e) = cp_metric env cs KExplained (ds_num d).
Proof. exact given_turned. Qed.
Print Assumptions C94_given_starts.

(** The coordinates lose nothing: every model of X has a model of G that is at least as good, and Q_n V_n is as good for X. *)
Theorem C94_nothing_lost : forall K Qs X G Us w, rotated Qs X G -> factors_ok K X Us ->
  exists Us' Vs', carried_by K Qs Us' Vs' /\ factors_ok K X Us' /\ factors_ok K G Vs' /\
    sse X Us' w K = sse G Vs' w K /\ sse G Vs' w K <= sse X Us w K.
Proof. exact nothing_lost. Qed.
Print Assumptions C94_nothing_lost.

(** A 3x2 matrix whose first mode has only two coordinates; the second mode is non-negative and comes in the other order, the
    first one is penalised *)
Definition tk_Q : list nd := [mk [3; 2]%nat [3/5; 0; 4/5; 0; 0; 1]; mk [2; 2]%nat [0; 1; 1; 0]].
Definition tk_G : nd := mk [2; 2]%nat [5; 10; 1; 3].
Definition tk_X : nd := mk [3; 2]%nat [6; 3; 8; 4; 3; 1].
Definition tk_cs : cp_settings := {| cs_rank := 1; cs_init := "Precomputed"; cs_ridge := Some [1; 0] |}.
Definition tk_k (Us : list nd) : kruskal := {| kt_rank := 1; kt_fms := Us; kt_w := np_ones [1%nat] |}.
Definition tk_U : list nd := [mk [3; 1]%nat [3; 4; 2]; mk [2; 1]%nat [2; 1]].
Definition tk_V : list nd := [mk [2; 1]%nat [5; 2]; mk [2; 1]%nat [1; 2]].
Definition tk_ds : dstate cp_state :=
  {| ds_num := fresh_cp (Some [false; true]) None; ds_it := 0; ds_max := 100; ds_rel := PInf; ds_prev := PInf; ds_logs := []; ds_file := None |}.
Example C94_example : exists env d e x,
  cp_fit env tk_cs y_cf no_disk [] tk_X None (DecArg (tk_k tk_U)) tk_ds = (d, None) /\
  cp_fit env tk_cs y_cf no_disk [] tk_G None (DecArg (tk_k tk_V)) tk_ds = (e, None) /\
  ds_it e = ds_it d /\ carried_by 1 tk_Q (kt_fms (cp_dec (ds_num d))) (kt_fms (cp_dec (ds_num e))) /\
  cp_SSE env (ds_num d) = Ok x /\ cp_SSE env (ds_num e) = Ok x.
Proof.
  destruct svd_contract_satisfiable as (svd & Hs). destruct nnls_contract_satisfiable as (nnls & Hn).
  set (env := {| env_svd := svd; env_svd_u := fun A => do (U, _, _) <- svd A ; Ok U; env_qr := fun A => do (U, _, _) <- svd A ; Ok U;
            env_nnls := nnls; env_junk := fun _ _ => 0 |}). exists env.
  assert (Ha : forall m, asked (Some [false; true]) m -> m = 1%nat).
  { intros m (l & E & F). injection E as <-. destruct m as [|[|m]]; try discriminate; auto. now destruct m. }
  assert (Hno : forall m, ~ asked None m) by (intros m (l & E & _); discriminate).
  assert (HC : forall Y n, shape Y = [n; 2]%nat -> (0 < n)%nat -> wf Y -> constrained env tk_cs 1 Y (Some [false; true]) None).
  { intros Y n E Hp HY. constructor.
    - reflexivity.
    - lia.
    - split; [exact HY|]. rewrite E. split; [cbn; lia|]. repeat constructor; lia.
    - right. eexists. split; [reflexivity|]. now rewrite E.
    - now left.
    - intros m _. apply Hno.
    - intros m H. now apply Hno in H.
    - rewrite E. split; [cbn; lia|]. repeat constructor; lra.
    - exact Hs.
    - exact Hn.
    - intros m H. now apply Hno in H. }
  assert (HX : constrained env tk_cs 1 tk_X (Some [false; true]) None) by (apply HC with (n := 3%nat); try reflexivity; lia).
  assert (HG : constrained env tk_cs 1 tk_G (Some [false; true]) None) by (apply HC with (n := 2%nat); try reflexivity; lia).
  assert (HR : rotated tk_Q tk_X tk_G).
  { constructor; try reflexivity.
    - constructor; [|constructor; [|constructor]]; (split; [split; reflexivity|]); intros r s Hr Hs'; cbn in Hr, Hs';
        (destruct r as [|[|r]]; [| |lia]); (destruct s as [|[|s]]; [| |lia]); ev; lra.
    - intros idx Hv. apply valid_cons_inv in Hv as (i & idx1 & -> & Hi & Hv). apply valid_cons_inv in Hv as (j & idx2 & -> & Hj & Hv).
      apply valid_nil_inv in Hv; subst.
      destruct i as [|[|[|i]]]; [| | |lia]; (destruct j as [|[|j]]; [| |lia]); ev; lra. }
  assert (HP : permitted (Some [false; true]) None tk_Q).
  { intros m Hm. split; [intros H; now apply Hno in H|]. intros H. apply Ha in H as ->. split; [reflexivity|].
    exists (fun i => 1 - i)%nat. intros i Hi. change (i < 2)%nat in Hi. change (nrows (nth 1 tk_Q m0)) with 2%nat.
    split; [lia|]. intros j Hj. destruct i as [|[|i]]; [| |lia]; (destruct j as [|[|j]]; [| |lia]); reflexivity. }
  assert (HU : carried_by 1 tk_Q tk_U tk_V).
  { constructor; [reflexivity|reflexivity| |constructor; [reflexivity|reflexivity| |constructor]]; intros i r Hi Hr; cbn in Hi;
      destruct i as [|[|[|i]]]; try lia; (destruct r; [|lia]); ev; lra. }
  assert (Hcall : forall Y Us, factors_ok 1 Y Us -> constrained_call env tk_cs y_cf 1 Y (Some [false; true]) None [] 100 (DecArg (tk_k Us)) tk_ds).
  { intros Y Us HF. split; [|split; [reflexivity|split; [reflexivity|split; [reflexivity|split; [lia|split; [intros lg []|left; cbn; lia]]]]]].
    right. right. split; [reflexivity|]. exists (tk_k Us). split; [reflexivity|]. split; [exact HF|]. split; [apply is_vec_ones|reflexivity]. }
  destruct (C94_given_starts env tk_cs 1 tk_X tk_G _ _ tk_Q HX HG HR HP y_cf y_cf no_disk no_disk [] [] None None (tk_k tk_U) (tk_k tk_V) tk_ds tk_ds)
    as (d & e & x & A & B & C & D & E & F & _); try reflexivity.
  - apply Hcall. split; [repeat constructor|reflexivity].
  - apply Hcall. split; [repeat constructor|reflexivity].
  - exact Hno.
  - exact HU.
  - exists d, e, x. auto 10.
Qed.
