(** Property C82: no fit depends on which singular value decomposition the routine returns. *)
From Verif Require Import SvdWitness Parafac2Examples.
Local Open Scope R_scope.

(** *** C82.  [both_svd svd svd']: both routines return a singular value decomposition of every matrix, and they agree on what
    is not a matrix. *)
(** The singular values of two decompositions of a matrix are the same, and so is U g(S) V for every g with g 0 = 0. *)
Theorem C82_decompositions : forall n m A U Sv V U' Sv' V', is_svd n m A U Sv V -> is_svd n m A U' Sv' V' ->
  Sv = Sv' /\
  forall g, g 0 = 0 -> forall i j, (i < n)%nat -> (j < m)%nat ->
    sum (Nat.min n m) (fun r => mget U i r * g (vget Sv r) * mget V r j) =
    sum (Nat.min n m) (fun r => mget U' i r * g (vget Sv' r) * mget V' r j).
Proof. intros n m A U Sv V U' Sv' V' H H'. split; [exact (values_eq H H')|]. exact (svd_function H H'). Qed.
Print Assumptions C82_decompositions.
(** Two decompositions of diag(2, 2) and the condition g 0 = 0: for the zero matrix U V is not determined. *)
Example C82_decompositions_hypotheses_hold : exists U V U' V' Sv, U <> U' /\
  is_svd 2 2 (mk [2; 2]%nat [2; 0; 0; 2]) U Sv V /\ is_svd 2 2 (mk [2; 2]%nat [2; 0; 0; 2]) U' Sv V'.
Proof.
  exists (mk [2; 2]%nat [1; 0; 0; 1]), (mk [2; 2]%nat [1; 0; 0; 1]), (mk [2; 2]%nat [0; 1; 1; 0]), (mk [2; 2]%nat [0; 1; 1; 0]), (mk [2]%nat [2; 2]).
  split; [intros E; injection E; lra|].
  split; constructor; try (split; reflexivity);
    try (intros [|[|r]] [|[|q]] Hr Hq; cbn in Hr, Hq; try lia; ev; lra);
    try (intros [|[|r]] Hr; cbn in Hr; try lia; ev; lra);
    intros [|[|r]] [|[|q]] Hr; cbn in Hr; try lia; ev; lra.
Qed.
Example C82_zero_matrix : exists U V U' V' Sv, is_svd 1 1 (mk [1; 1]%nat [0]) U Sv V /\ is_svd 1 1 (mk [1; 1]%nat [0]) U' Sv V' /\
  mget U 0 0 * mget V 0 0 <> mget U' 0 0 * mget V' 0 0.
Proof.
  exists (mk [1; 1]%nat [1]), (mk [1; 1]%nat [1]), (mk [1; 1]%nat [1]), (mk [1; 1]%nat [-1]), (mk [1]%nat [0]).
  split; [|split; [|ev; lra]]; constructor; try (split; reflexivity);
    try (intros [|r] [|q] Hr Hq; cbn in Hr, Hq; try lia; ev; lra);
    try (intros [|r] Hr; cbn in Hr; try lia; ev; lra);
    intros [|r] [|q] Hr; cbn in Hr; try lia; ev; lra.
Qed.

(** The solvers of base.py return the same, or fail in the same way, whatever they are given. *)
Theorem C82_solvers : forall svd svd', both_svd svd svd' -> forall A B,
  rightsolve svd' A B = rightsolve svd A B /\
  orthogonal_solve svd' A B = orthogonal_solve svd A B /\
  orthogonal_rightsolve svd' A B = orthogonal_rightsolve svd A B /\
  (forall lam, add_rightsolve_ridge (rightsolve svd') lam A B = add_rightsolve_ridge (rightsolve svd) lam A B) /\
  (forall lam, add_rightsolve_ridge (orthogonal_rightsolve svd') lam A B = add_rightsolve_ridge (orthogonal_rightsolve svd) lam A B).
Proof.
  intros svd svd' H A B. rewrite (rightsolve_same H), (orthogonal_solve_same H), (orthogonal_rightsolve_same H). repeat split.
Qed.
Print Assumptions C82_solvers.
(** There are such routines that differ on every matrix with an entry. *)
Example C82_routines_differ : exists svd svd', both_svd svd svd' /\
  forall n m A, is_mat n m A -> (0 < n)%nat -> (0 < m)%nat -> svd' A <> svd A.
Proof.
  destruct svd_contract_satisfiable as (svd & H). exists (guarded svd), (negated (guarded svd)). split; [now apply negated_both|].
  intros n m A HA Hn Hm. apply (negated_differs svd n m); auto. lia.
Qed.

(** CP_ALS: every step, checkpoint, logged value and exception of a fit is the same - with any constraints, penalties, start,
    loggers and whatever the state of the decomposer; [with_svd svd' env] is env with svd' in place of its svd routine. *)
Theorem C82_cp_fits : forall env svd' cs, both_svd (env_svd env) svd' ->
  (forall s, md_update (cp_model (with_svd svd' env) cs) s = md_update (cp_model env cs) s) /\
  forall cf disk draws X max_its arg ds,
    cp_fit (with_svd svd' env) cs cf disk draws X max_its arg ds = cp_fit env cs cf disk draws X max_its arg ds.
Proof. intros env svd' cs H. split; [intros s; now rewrite (model_same cs H)|exact (cp_fit_same cs H)]. Qed.
Print Assumptions C82_cp_fits.
Example C82_cp_example : exists env svd' d, both_svd (env_svd env) svd' /\
  svd' (mk [1; 1]%nat [3]) <> env_svd env (mk [1; 1]%nat [3]) /\
  cp_fit env y_cs y_cf no_disk [] q_X (Some 5%Z) (y_arg y_start1) y_ds = (d, None) /\
  cp_fit (with_svd svd' env) y_cs y_cf no_disk [] q_X (Some 5%Z) (y_arg y_start1) y_ds = (d, None).
Proof.
  destruct svd_contract_satisfiable as (svd & H). pose proof (negated_both svd H) as HB.
  pose proof (y_call_any _ _ _ (proj1 HB) q_data y_start1_ok) as (A1 & A2 & A3 & A4 & A5 & A6 & A7 & A8 & A9 & A10 & A11).
  destruct (@fit_completes _ _ _ y_cf no_disk [] q_X (Some 5%Z) (y_arg y_start1) y_ds A1 A2 A3 A4 A5 A6 A7 A8 A9 A10 A11) as (d1 & d & _ & E & _).
  exists (with_svd (guarded svd) q_env), (negated (guarded svd)), d. split; [exact HB|]. split.
  { apply (negated_differs svd 1 1); auto. split; reflexivity. }
  split; [exact E|]. rewrite <- E. now apply C82_cp_fits.
Qed.

(** The same for CMTF_ALS, whose uncoupled factors are solved for with the same routine. *)
Theorem C82_cmtf_fits : forall env svd' cs, both_svd (env_svd env) svd' ->
  (forall s, md_update (cmtf_model (with_svd svd' env) cs) s = md_update (cmtf_model env cs) s) /\
  forall cf disk draws vdraws X Y modes max_its arg ds,
    cmtf_fit (with_svd svd' env) cs cf disk draws vdraws X Y modes max_its arg ds =
    cmtf_fit env cs cf disk draws vdraws X Y modes max_its arg ds.
Proof. intros env svd' cs H. split; [intros s; now rewrite (cmtf_model_same cs H)|exact (cmtf_fit_same cs H)]. Qed.
Print Assumptions C82_cmtf_fits.

(** The same for Parafac2_ALS, whose projections are found from singular vectors: with every start, the fit by CP included. *)
Theorem C82_parafac2_fits : forall env svd' ps, both_svd (env_svd (pe_cp env)) svd' ->
  (forall s, md_update (p2_model (with_svd2 svd' env) ps) s = md_update (p2_model env ps) s) /\
  forall cf disk draws X max_its arg ds,
    p2_fit (with_svd2 svd' env) ps cf disk draws X max_its arg ds = p2_fit env ps cf disk draws X max_its arg ds.
Proof. intros env svd' ps H. split; [intros s; now rewrite (p2_model_same ps H)|exact (p2_fit_same ps H)]. Qed.
Print Assumptions C82_parafac2_fits.
Example C82_other_hypotheses_hold : exists env env2 svd', both_svd (env_svd env) svd' /\ both_svd (env_svd (pe_cp env2)) svd' /\
  svd' (mk [2; 1]%nat [3; 4]) <> env_svd env (mk [2; 1]%nat [3; 4]) /\
  with_svd svd' env <> env /\ with_svd2 svd' env2 <> env2.
Proof.
  destruct svd_contract_satisfiable as (svd & H). pose proof (negated_both svd H) as HB.
  set (env := with_svd (guarded svd) q_env).
  exists env, {| pe_cp := env; pe_qr := fun A => Ok (A, A) |}, (negated (guarded svd)). split; [exact HB|]. split; [exact HB|].
  assert (D : negated (guarded svd) (mk [2; 1]%nat [3; 4]) <> guarded svd (mk [2; 1]%nat [3; 4]))
    by (apply (negated_differs svd 2 1); auto; split; reflexivity).
  split; [exact D|]. split.
  - intros E. apply D. change (env_svd (with_svd (negated (guarded svd)) env) (mk [2; 1]%nat [3; 4]) = env_svd env (mk [2; 1]%nat [3; 4])). now rewrite E.
  - intros E. apply D. apply (f_equal (fun e => env_svd (pe_cp e) (mk [2; 1]%nat [3; 4]))) in E. exact E.
Qed.

(** The start does depend on the routine: with init='svd' the first factors are what numpy.linalg.svd(_)[0] returns, whose signs
    are not determined. *)
Example C82_svd_start_depends : exists env env', env_svd env' = env_svd env /\
  (forall A, is_mat 1 1 A -> exists u u', env_svd_u env A = Ok u /\ env_svd_u env' A = Ok u' /\ orth_cols 1 1 (mget u) /\ orth_cols 1 1 (mget u')) /\
  let cs := {| cs_rank := 1; cs_init := "svd"; cs_ridge := None |} in
  let s := cp_with_target (mk [1; 1]%nat [2]) (fresh_cp None None) in
  exists s1 s2, cp_init_svd env cs s = Ok s1 /\ cp_init_svd env' cs s = Ok s2 /\ cp_dec s1 <> cp_dec s2.
Proof.
  set (e := fun x : R => {| env_svd := fun _ => Err ValueError; env_svd_u := fun _ => Ok (mk [1; 1]%nat [x]);
     env_qr := fun A => Ok A; env_nnls := fun A b => Ok b; env_junk := fun _ _ => 0 |}).
  exists (e 1), (e (-1)). split; [reflexivity|]. split.
  - intros A _. exists (mk [1; 1]%nat [1]), (mk [1; 1]%nat [-1]). split; [reflexivity|]. split; [reflexivity|].
    split; intros [|i] [|j] Hi Hj; try lia; ev; lra.
  - cbv zeta. eexists. eexists. split; [ev; reflexivity|]. split; [ev; reflexivity|]. intros E. ev_in E. injection E. lra.
Qed.
