(** Property C116: ridge penalties bound the factors of Parafac2_ALS. *)
From Verif Require Import P2RidgeFacts SafeExamples Exists Decomposer Props_Base Props_Penalised CPExamples.
From Verif Require Import Prelude Lin.
Local Open Scope R_scope.

(** *** C116.  [penalised_fit]: random start, a flag and (if any) a penalty >= 0 for each mode; [plain_run]: budget, loggers and
    checkpoint file.  The factor U that a fit returns for a mode without constraint and with a positive penalty lam has
    256 lam ||U||^4 <= 27 (sum_k ||X_k||^2)^2. *)
Theorem C116_fits : forall env ps K nI cf disk draws Xs max_its arg ds,
  let budget := match max_its with Some m => m | None => ds_max ds end in
  penalised_fit env ps K nI draws Xs -> plain_run ps cf budget ds -> (0 < ps_updates ps)%nat ->
  exists ds', p2_fit env ps cf disk draws (Slices Xs) max_its arg ds = (ds', None) /\
    forall m lam, (m < 3)%nat -> nth_error (ps_nn ps) m = Some false -> penalty (inner_settings ps) m lam -> 0 < lam ->
      256 * lam * frob2 (nth m [nI; K; length Xs] 0%nat) K (mget (p2_factor (ds_num ds') m)) ^ 2 <= 27 * slices_energy Xs ^ 2.
Proof. exact fits_bounded. Qed.
Print Assumptions C116_fits.

(** The projections do not lengthen anything, also where numpy's rank decision drops singular values: ||x P|| <= ||x|| for the
    P = Z^T from [orthogonal_solve], so the inner problem never has more energy than the data. *)
Theorem C116_projections : forall svd nI w K T X Z x, svd_contract svd -> is_mat nI K T -> is_mat nI w X -> orthogonal_solve svd T X = Ok Z ->
  sum K (fun q => sum w (fun j => x j * mget (transp Z) j q) ^ 2) <= sum w (fun j => x j ^ 2).
Proof. exact solved_shrinks. Qed.
Print Assumptions C116_projections.

(** *** Slices with energies 91 and 6, A and B non-negative, penalties 1, 0 and 2 (C88): every fit returns a C with ||C||^2 <= 23. *)
Definition pr_cf : config := {| cf_freq := -1; cf_tol := 0; cf_rel_tol := 0; cf_print := 10 |}.
Example C116_example : exists env, penalised_fit env (pen_ps [1; 0; 2]) 2 2 pen_draws pen_Xs /\
  forall n disk arg ds, (0 < n)%Z -> ds_logs ds = [] ->
    exists ds', p2_fit env (pen_ps [1; 0; 2]) pr_cf disk pen_draws (Slices pen_Xs) (Some n) arg ds = (ds', None) /\
      frob2 2 2 (mget (p2_C (ds_num ds'))) <= 23.
Proof.
  destruct C88_hypotheses_hold as (env & H). exists env. split; [exact H|]. intros n disk arg ds Hn Hl.
  destruct (C116_fits env (pen_ps [1; 0; 2]) 2 2 pr_cf disk pen_draws pen_Xs (Some n) arg ds H) as (ds' & E & G).
  - constructor; [exact Hn|intros lg; rewrite Hl; intros []|discriminate|left; cbn; lia].
  - cbn. lia.
  - exists ds'. split; [exact E|]. specialize (G 2%nat 2 ltac:(lia) eq_refl eq_refl ltac:(lra)).
    assert (EE : slices_energy pen_Xs = 97) by (unfold slices_energy, energy; ev; lra). rewrite EE in G.
    change (nth 2 [2; 2; length pen_Xs]%nat 0%nat) with 2%nat in G. change (p2_factor (ds_num ds') 2) with (p2_C (ds_num ds')) in G.
    pose proof (frob2_pos 2 2 (mget (p2_C (ds_num ds')))). set (f := frob2 2 2 (mget (p2_C (ds_num ds')))) in *. clearbody f. nra.
Qed.

(** For a slice of zeros all singular values are dropped: the projection has no orthonormal columns, but it does not lengthen (5, 5). *)
Example C116_projection_example : exists svd Z, svd_contract svd /\
  orthogonal_solve svd (mk [2; 2]%nat [1; 0; 0; 1]) (mk [2; 2]%nat [0; 0; 0; 0]) = Ok Z /\ ~ orth_cols 2 2 (mget (transp Z)) /\
  sum 2 (fun q => sum 2 (fun j => 5 * mget (transp Z) j q) ^ 2) <= 50.
Proof.
  destruct svd_contract_satisfiable as (svd & Hs). exists svd, (np_zeros [2; 2]%nat).
  assert (HT : is_mat 2 2 (mk [2; 2]%nat [1; 0; 0; 1])) by (split; reflexivity).
  assert (HX : is_mat 2 2 (mk [2; 2]%nat [0; 0; 0; 0])) by (split; reflexivity).
  assert (E : orthogonal_solve svd (mk [2; 2]%nat [1; 0; 0; 1]) (mk [2; 2]%nat [0; 0; 0; 0]) = Ok (np_zeros [2; 2]%nat)).
  { pose proof (matmul_ok (is_mat_transp HX) HT) as EM. set (BA := tab2 2 2 _) in EM.
    destruct (Hs 2%nat 2%nat BA (is_mat_tab2 _ _ _)) as (U & Sv & Vh & E1 & E2).
    apply (C09_zero_gives_zero svd 2 2 2 _ _ BA U Sv Vh HT HX); [cbn; lia|exact EM|exact E1|exact E2|].
    intros j a Hj Ha. unfold BA. rewrite mget_tab2 by auto. destruct j as [|[|j]]; [| |lia]; destruct a as [|[|a]]; try lia; ev; lra. }
  split; [exact Hs|]. split; [exact E|]. split.
  - intros H. specialize (H 0%nat 0%nat ltac:(lia) ltac:(lia)). revert H. ev. lra.
  - pose proof (C116_projections svd 2 2 2 _ _ _ (fun _ => 5) Hs HT HX E) as G. eapply Rle_trans; [exact G|]. cbn [seq sumf]. lra.
Qed.
