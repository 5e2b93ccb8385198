(** Property C100: CMTF_ALS decomposers that are fitted again. *)
From Verif Require Import RefitFacts RefitExamples.
From Verif Require Import CoupledFit Decomposer Quality Prelude Lin.
Local Open Scope R_scope.

(** What a fit writes into the constraint lists of the decomposer *)
Theorem C100_lists : forall env cs cf disk draws vdraws X Y modes max_its arg ds d,
  cmtf_fit env cs cf disk draws vdraws X Y modes max_its arg ds = (d, None) ->
  let N := length (cm_fms (ds_num d)) in
  nn_list d = Some (match nn_list ds with Some l => l | None => repeat false N end) /\
  orth_list d = Some (match orth_list ds with Some l => l | None => repeat false N end).
Proof. exact completed_fills. Qed.
Print Assumptions C100_lists.

(** The same fit by two decomposers, whatever they were used for, whose lists differ by what a fit writes into them *)
Theorem C100_same_result : forall env cs N cf cf' disk draws vdraws X Y modes max_its arg ds ds' d1 d2,
  filled_in N (nn_list ds) (nn_list ds') -> filled_in N (orth_list ds) (orth_list ds') ->
  cf_tol cf = cf_tol cf' -> cf_rel_tol cf = cf_rel_tol cf' -> max_its <> None \/ ds_max ds = ds_max ds' ->
  cmtf_fit env cs cf disk draws vdraws X Y modes max_its arg ds = (d1, None) ->
  cmtf_fit env cs cf' disk draws vdraws X Y modes max_its arg ds' = (d2, None) -> length (cm_fms (ds_num d1)) = N ->
  same_result (ds_num d1) (ds_num d2) /\ ds_it d1 = ds_it d2 /\ ds_max d1 = ds_max d2 /\ ds_rel d1 = ds_rel d2 /\ ds_prev d1 = ds_prev d2.
Proof. exact refit_same. Qed.
Print Assumptions C100_same_result.

(** [ds]: the decomposer before its first fit; [ds']: the same one after fits to tensors with as many modes *)
Theorem C100_like_fresh : forall env cs K X nn orth ms cf cf' disk draws vdraws Y max_its arg ds ds',
  constrained env cs K X nn orth -> (forall m, ~ asked nn m) -> NoDup ms ->
  usable_start env cs K X draws arg -> coupled_start K X ms Y vdraws ->
  nn_list ds = nn -> orth_list ds = orth -> earlier_uses env cs (length (shape X)) ds ds' ->
  cf_tol cf = cf_tol cf' -> cf_rel_tol cf = cf_rel_tol cf' -> max_its <> None \/ ds_max ds = ds_max ds' ->
  let budget := match max_its with Some m => m | None => ds_max ds end in (0 < budget)%Z ->
  (forall lg, In lg (ds_logs ds) -> exists k, coupled_logger env k lg) -> checkpoints_fit cf budget ds ->
  (forall lg, In lg (ds_logs ds') -> exists k, coupled_logger env k lg) -> checkpoints_fit cf' budget ds' ->
  exists d1 d2, cmtf_fit env cs cf disk draws vdraws X Y (map Z.of_nat ms) max_its arg ds = (d1, None) /\
    cmtf_fit env cs cf' disk draws vdraws X Y (map Z.of_nat ms) max_its arg ds' = (d2, None) /\
    same_result (ds_num d1) (ds_num d2) /\ ds_it d1 = ds_it d2 /\ ds_max d1 = ds_max d2 /\ ds_rel d1 = ds_rel d2 /\ ds_prev d1 = ds_prev d2.
Proof. exact used_like_fresh. Qed.
Print Assumptions C100_like_fresh.

(** A tensor with fewer modes than the orthonormality list has entries *)
Theorem C100_fewer_modes : forall env cs cf disk draws vdraws X Y modes max_its arg ds l, orth_list ds = Some l -> (length (shape X) < length l)%nat ->
  (length draws <= length (shape X))%nat -> snd (cmtf_fit env cs cf disk draws vdraws X Y modes max_its arg ds) <> None.
Proof. exact fewer_modes_raise. Qed.
Print Assumptions C100_fewer_modes.

(** A tensor with more modes than the non-negativity list has entries *)
Theorem C100_more_modes : forall env cs cf disk draws vdraws X Y modes max_its arg ds l, nn_list ds = Some l -> (length l < length (shape X))%nat ->
  cf_rel_tol cf <= 0 -> snd (cmtf_fit env cs cf disk draws vdraws X Y modes max_its arg ds) <> None.
Proof. exact more_modes_raise. Qed.
Print Assumptions C100_more_modes.

(** "After a completed fit the decomposer can be fitted to whatever it could be fitted to before." *)
Theorem C100_any_tensor_refuted : ~ forall env cs cf disk draws vdraws X Y modes draws' vdraws' X' Y' modes' max_its ds d d',
  cmtf_fit env cs cf disk draws vdraws X Y modes max_its NoArg ds = (d, None) ->
  cmtf_fit env cs cf disk draws' vdraws' X' Y' modes' max_its NoArg ds = (d', None) ->
  exists d2, cmtf_fit env cs cf disk draws' vdraws' X' Y' modes' max_its NoArg d = (d2, None).
Proof. exact r_refuted. Qed.
Print Assumptions C100_any_tensor_refuted.

(** A 2 x 2 matrix coupled to a 2 x 1 matrix, a decomposer without constraints: the lists become [false, false]. *)
Example C100_lists_example : exists env d,
  cmtf_fit env r_cs r_cf (fun _ => None) r_draws r_V r_X r_Y [0%Z] (Some 3%Z) NoArg r_ds = (d, None) /\
  nn_list r_ds = None /\ orth_list r_ds = None /\ nn_list d = Some [false; false] /\ orth_list d = Some [false; false].
Proof.
  destruct r_constrained as (env & HC & _). destruct (r_fits HC) as (d & E & _ & E1 & E2 & _).
  exists env, d. split; [exact E|]. split; [reflexivity|]. split; [reflexivity|]. split; assumption.
Qed.
(** The same fit again *)
Example C100_like_fresh_example : exists env d d1 d2,
  cmtf_fit env r_cs r_cf (fun _ => None) r_draws r_V r_X r_Y [0%Z] (Some 3%Z) NoArg r_ds = (d, None) /\
  cmtf_fit env r_cs r_cf (fun _ => None) r_draws r_V r_X r_Y [0%Z] (Some 5%Z) NoArg r_ds = (d1, None) /\
  cmtf_fit env r_cs r_cf (fun _ => None) r_draws r_V r_X r_Y [0%Z] (Some 5%Z) NoArg d = (d2, None) /\
  same_result (ds_num d1) (ds_num d2) /\ cp_nn (cm_cp (ds_num d)) <> cp_nn (cm_cp (ds_num r_ds)).
Proof.
  destruct r_constrained as (env & HC & _). destruct (r_fits HC) as (d & E & EL & E1 & E2 & E3).
  destruct (@used_like_fresh env r_cs 1 r_X None None [0%nat] r_cf r_cf (fun _ => None) r_draws r_V r_Y (Some 5%Z) NoArg r_ds d) as (d1 & d2 & F1 & F2 & HS & _).
  - exact HC.
  - exact r_not_asked.
  - repeat constructor. intros [].
  - apply r_start.
  - apply r_coupled; [reflexivity|cbn; lia].
  - reflexivity.
  - reflexivity.
  - exact (used_to_fit (not_used env r_cs _ r_ds) E EL).
  - reflexivity.
  - reflexivity.
  - left. discriminate.
  - reflexivity.
  - intros lg [].
  - left. reflexivity.
  - rewrite E3. intros lg [].
  - left. reflexivity.
  - exists env, d, d1, d2. split; [exact E|]. split; [exact F1|]. split; [exact F2|]. split; [exact HS|].
    change (nn_list d <> None). rewrite E1. discriminate.
Qed.
(** A 2 x 2 x 1 tensor after the matrix, and the matrix after the tensor *)
Example C100_modes_example : exists env d d3,
  cmtf_fit env r_cs r_cf (fun _ => None) r_draws r_V r_X r_Y [0%Z] (Some 3%Z) NoArg r_ds = (d, None) /\
  cmtf_fit env r_cs r_cf (fun _ => None) r_draws3 r_V r_X3 r_Y [0%Z] (Some 3%Z) NoArg r_ds = (d3, None) /\
  snd (cmtf_fit env r_cs r_cf (fun _ => None) r_draws3 r_V r_X3 r_Y [0%Z] (Some 3%Z) NoArg d) <> None /\
  snd (cmtf_fit env r_cs r_cf (fun _ => None) r_draws r_V r_X r_Y [0%Z] (Some 3%Z) NoArg d3) <> None.
Proof.
  destruct r_constrained as (env & HC & HC3). destruct (r_fits HC) as (d & E & _ & E1 & _). destruct (r_fits3 HC3) as (d3 & F & _ & F2).
  exists env, d, d3. split; [exact E|]. split; [exact F|]. split.
  - eapply more_modes_raise; [exact E1|cbn; lia|cbn; lra].
  - eapply fewer_modes_raise; [exact F2|cbn; lia|cbn; lia].
Qed.
