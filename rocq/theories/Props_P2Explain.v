(** Property C119: Parafac2_ALS with a penalty on C never does worse than the model without components. *)
From Verif Require Import P2ExplainFacts SafeExamples Exists Decomposer Props_Base Props_Penalised CPExamples Props_P2Ridge.
From Verif Require Import Prelude Lin.
Local Open Scope R_scope.

(** *** C119.  C free with a positive penalty, any flags and penalties >= 0 for A and B, any start.  After every iteration the squared
    norm of the model and the error sum up to at most the squared norm of the data. *)
Theorem C119_iterations : forall env ps K nI Xs s s0 lam, drawn_settings ps K nI -> svd_contract (env_svd (pe_cp env)) ->
  nnls_contract (env_nnls (pe_cp env)) -> length (ps_nn ps) = 3%nat -> p2_penalties ps ->
  nth_error (ps_nn ps) 2 = Some false -> penalty (inner_settings ps) 2 lam -> 0 < lam ->
  (0 < ps_updates ps)%nat -> slices_ok nI Xs -> (forall k, (k < length Xs)%nat -> (0 < width Xs k)%nat) ->
  p2_ok K nI s -> p2_X s = Xs -> p2_prepare env ps s = (s0, None) ->
  forall j, let t := state_after (p2_model env ps) s0 (S j) in
    p2_err K nI Xs (p2_Ps t) (p2_factors t) + model_energy K nI Xs (p2_Ps t) (p2_factors t) <= slices_energy Xs.
Proof. exact run_explained. Qed.
Print Assumptions C119_iterations.

(** Fits from random starts complete and return such a model. *)
Theorem C119_fits : forall env ps K nI cf disk draws Xs max_its arg ds lam,
  let budget := match max_its with Some m => m | None => ds_max ds end in
  penalised_fit env ps K nI draws Xs -> plain_run ps cf budget ds -> (0 < ps_updates ps)%nat ->
  nth_error (ps_nn ps) 2 = Some false -> penalty (inner_settings ps) 2 lam -> 0 < lam ->
  exists ds', p2_fit env ps cf disk draws (Slices Xs) max_its arg ds = (ds', None) /\
    let t := ds_num ds' in p2_err K nI Xs (p2_Ps t) (p2_factors t) + model_energy K nI Xs (p2_Ps t) (p2_factors t) <= slices_energy Xs.
Proof. exact fits_explained. Qed.
Print Assumptions C119_fits.

(** *** Slices with energies 91 and 6, A and B non-negative, penalties 1, 0 and 2 (C88): every fit returns a model with error and energy at most 97 together. *)
Example C119_example : exists env, penalised_fit env (pen_ps [1; 0; 2]) 2 2 pen_draws pen_Xs /\
  forall n disk arg ds, (0 < n)%Z -> ds_logs ds = [] ->
    exists ds', p2_fit env (pen_ps [1; 0; 2]) pr_cf disk pen_draws (Slices pen_Xs) (Some n) arg ds = (ds', None) /\
      let t := ds_num ds' in p2_err 2 2 pen_Xs (p2_Ps t) (p2_factors t) + model_energy 2 2 pen_Xs (p2_Ps t) (p2_factors t) <= 97.
Proof.
  destruct C88_hypotheses_hold as (env & H). exists env. split; [exact H|]. intros n disk arg ds Hn Hl.
  assert (EE : slices_energy pen_Xs = 97) by (unfold slices_energy, energy; ev; lra). rewrite <- EE.
  apply (C119_fits env (pen_ps [1; 0; 2]) 2 2 pr_cf disk pen_draws pen_Xs (Some n) arg ds 2 H); try reflexivity.
  - constructor; [exact Hn|intros lg; rewrite Hl; intros []|discriminate|left; cbn; lia].
  - cbn. lia.
  - lra.
Qed.
