(** Property C98: Kruskal tensors whose arrays are objects. *)
From Verif Require Import SharedExamples QualityFacts CMTFResume.
From Verif Require Import Prelude Lin SharedSpec.
Local Open Scope R_scope.

(** *** C98.  [own_arrays]: weights and factors are different arrays.  [ds_view ch_view]: the decomposer with its arrays read from
    memory.  [view_res]: the same state, loggers, files and exception after the call. *)
(** Arrays as objects and arrays as values agree: every fit from a given decomposition with arrays of its own. *)
Theorem C98_same_as_by_value : forall env cs cf disk draws X max_its r d1 d2,
  own_arrays (ch_heap (ds_num d1)) r -> ds_view ch_view d1 d2 ->
  view_res ch_view (ch_fit env cs cf X max_its r d1)
    (cp_fit env cs cf disk draws X max_its (DecArg (kr_value (ch_heap (ds_num d1)) r)) d2).
Proof. intros. now apply fit_view. Qed.
Print Assumptions C98_same_as_by_value.

(** No other array changes, raising or not.  After a fit, the factors of modes that need not be orthonormal and the weights are
    still in the arrays of the caller; the other factors are in new arrays, and the caller's arrays for them are as before. *)
Theorem C98_arrays : forall env cs cf X max_its r d1 d' e, own_arrays (ch_heap (ds_num d1)) r ->
  ch_fit env cs cf X max_its r d1 = (d', e) ->
  let h := ch_heap (ds_num d1) in let h' := ch_heap (ds_num d') in let r' := ch_ref (ds_num d') in
  (forall a, (a < length h)%nat -> ~ In a (kr_w r :: kr_fms r) -> hread h' a = hread h a) /\
  (e = None -> own_arrays h' r' /\ kr_w r' = kr_w r /\ length (kr_fms r') = length (kr_fms r) /\
    forall m, (m < length (kr_fms r))%nat ->
      let a := nth m (kr_fms r) 0%nat in let a' := nth m (kr_fms r') 0%nat in
      if orth_mode (cp_orth (ch_cp (ds_num d1))) m then (length h <= a')%nat /\ hread h' a = hread h a else a' = a).
Proof. exact fit_arrays. Qed.
Print Assumptions C98_arrays.

(** A fit without constraints completes, and what the caller passed as start then is the result, no worse than the start. *)
Theorem C98_start_becomes_result : forall env cs K cf X max_its r d1 d2,
  own_arrays (ch_heap (ds_num d1)) r -> ds_view ch_view d1 d2 ->
  cs_rank cs = K -> cs_ridge cs = None -> lower (cs_init cs) = "precomputed"%string -> svd_works_on K K (env_svd env) -> data_ok X ->
  kr_rank r = K -> factors_ok K X (kt_fms (kr_value (ch_heap (ds_num d1)) r)) -> is_vec K (kt_w (kr_value (ch_heap (ds_num d1)) r)) ->
  cp_last (ds_num d2) = None -> free_flags (cp_nn (ds_num d2)) (length (shape X)) ->
  free_flags (cp_orth (ds_num d2)) (length (shape X)) ->
  let budget := match max_its with Some m => m | None => ds_max d2 end in
  (0 < budget)%Z -> (forall lg, In lg (ds_logs d2) -> exists k, code_logger env cs k lg) -> checkpoints_fit cf budget d2 ->
  exists d', ch_fit env cs cf X max_its r d1 = (d', None) /\
    let before := kr_value (ch_heap (ds_num d1)) r in let after := kr_value (ch_heap (ds_num d')) r in
    kt_fms (ch_value (ds_num d')) = kt_fms after /\ kt_w (ch_value (ds_num d')) = kt_w after /\
    factors_ok K X (kt_fms after) /\ (forall k, (k < K)%nat -> vget (kt_w after) k = 1) /\
    cp_SSE env (ch_view (ds_num d')) = Ok (sse X (kt_fms after) unit_weights K) /\
    sse X (kt_fms after) unit_weights K <= sse X (kt_fms before) unit_weights K.
Proof. exact given_start_result. Qed.
Print Assumptions C98_start_becomes_result.
Example C98_example : own_arrays w_heap w_ref /\ ds_view ch_view (w_ds None) y_ds /\ data_ok g_X /\
  factors_ok 1 g_X (kt_fms (kr_value w_heap w_ref)) /\ is_vec 1 (kt_w (kr_value w_heap w_ref)) /\ svd_works_on 1 1 (env_svd q_env) /\
  checkpoints_fit y_cf 5 y_ds /\ orth_mode (Some [true; false]) 0 = true.
Proof.
  split; [exact w_own|]. split; [exact w_view|]. split; [exact gx_data|]. split; [exact (proj1 g_ok)|]. split; [apply is_vec_ones|].
  split; [apply svd_row_works; lia|]. split; [left; cbn; lia|reflexivity].
Qed.

(** A checkpoint is loaded into new arrays; all others stay as they are. *)
Theorem C98_load : forall env cs f i d1 d2, ds_view ch_view d1 d2 ->
  view_res ch_view (load_checkpoint (ch_model env cs) f i d1) (load_checkpoint (cp_model env cs) f i d2) /\
  forall d', load_checkpoint (ch_model env cs) f i d1 = (d', None) ->
    let h := ch_heap (ds_num d1) in let h' := ch_heap (ds_num d') in let r' := ch_ref (ds_num d') in
    own_arrays h' r' /\ (forall a, In a (kr_w r' :: kr_fms r') -> (length h <= a)%nat) /\
    forall a, (a < length h)%nat -> hread h' a = hread h a.
Proof. exact load_view. Qed.
Print Assumptions C98_load.
Example C98_load_example : forall env, let d1 := with_num (ch_with_cp (cp_with_target one11 (fresh_cp None None)) (ds_num (w_ds None))) (w_ds None) in
  exists d', load_checkpoint (ch_model env resume_cs) saved (Some 3%Z) d1 = (d', None) /\
    ch_ref (ds_num d') = {| kr_rank := 1; kr_fms := [5; 6]%nat; kr_w := 4 |} /\
    hread (ch_heap (ds_num d')) 5 = one11 /\ hread (ch_heap (ds_num d')) 3 = mk [1]%nat [5].
Proof. intros env d1. eexists. split; [reflexivity|]. split; [reflexivity|]. split; reflexivity. Qed.

(** So the start is not kept. *)
Theorem C98_start_kept_refuted : ~ (forall env cs cf X max_its r d1 d', own_arrays (ch_heap (ds_num d1)) r ->
  ch_fit env cs cf X max_its r d1 = (d', None) ->
  forall a, In a (kr_fms r) -> hread (ch_heap (ds_num d')) a = hread (ch_heap (ds_num d1)) a).
Proof.
  intros H. destruct w_fit as (d' & E & HS). specialize (H _ _ _ _ _ _ (w_ds None) _ w_own E). pose proof w_start_error as HP.
  cbn [w_ref kr_fms map] in HS. rewrite !H in HS by (cbn; auto). change [hread _ 0; hread _ 1] with g_Us in HS. lra.
Qed.
Print Assumptions C98_start_kept_refuted.

(** Normalising (decompositions.py:145-160): with arrays of its own, object and value agree and no other array changes. *)
Theorem C98_normalize : forall upd eps r h, own_arrays h r ->
  match kr_normalize upd eps r h with
  | Ok h' => kt_normalize upd eps (kr_value h r) = Ok (kr_value h' r) /\ own_arrays h' r /\
      forall a, ~ In a (kr_w r :: kr_fms r) -> hread h' a = hread h a
  | Err e => kt_normalize upd eps (kr_value h r) = Err e
  end.
Proof. exact normalize_view. Qed.
Print Assumptions C98_normalize.

(** *** Two modes with one array between them, say KruskalTensor([U, U]).  The constructor accepts that.  Normalising the tensor then changes
    the tensor, ... *)
Theorem C98_shared_normalize_refuted : forall env,
  ~ (forall h r h' T, kr_normalize true 0 r h = Ok h' -> kt_construct (env_junk env) (kr_value h r) = Ok T ->
     kt_construct (env_junk env) (kr_value h' r) = Ok T).
Proof.
  intros env H. specialize (H _ _ _ _ ab_normalize (ab_construct env 2 1)). rewrite ab_construct in H. injection H as H. lra.
Qed.
Print Assumptions C98_shared_normalize_refuted.

(** ... an unconstrained pass over the modes may increase the error, ... *)
Theorem C98_shared_descent_refuted : forall env, svd_works_on 1 1 (env_svd env) ->
  ~ (forall s s', data_ok (cp_X (ch_cp s)) -> factors_ok 1 (cp_X (ch_cp s)) (kt_fms (ch_value s)) -> free_fit aa_cs (ch_view s) ->
     ch_update_factors env aa_cs s = (s', None) ->
     sse (cp_X (ch_cp s)) (kt_fms (ch_value s')) unit_weights 1 <= sse (cp_X (ch_cp s)) (kt_fms (ch_value s)) unit_weights 1).
Proof.
  intros env HN H. destruct (aa_pass HN) as [d E]. specialize (H aa_start _ aa_data aa_factors aa_free E).
  change (kt_fms (ch_value aa_start)) with [c11 1; c11 1; c11 1] in H. change (cp_X (ch_cp aa_start)) with aa_X in H.
  change (kt_fms (ch_value (aa_state d _ _ _))) with [c11 512; c11 512; c11 512] in H. rewrite !aa_true in H. lra.
Qed.
Print Assumptions C98_shared_descent_refuted.

(** ... and the error reported after the pass is not the true one. *)
Theorem C98_shared_report_refuted : forall env, svd_works_on 1 1 (env_svd env) ->
  ~ (forall s s' l, data_ok (cp_X (ch_cp s)) -> factors_ok 1 (cp_X (ch_cp s)) (kt_fms (ch_value s)) -> free_fit aa_cs (ch_view s) ->
     ch_update_factors env aa_cs s = (s', None) -> md_loss (ch_model env aa_cs) s' = Ok (Fin l) ->
     l = sse (cp_X (ch_cp s)) (kt_fms (ch_value s')) unit_weights 1).
Proof.
  intros env HN H. destruct (aa_pass HN) as [d E].
  specialize (H aa_start _ (64 + 512 ^ 6 - 128) aa_data aa_factors aa_free E). cbn [ch_model md_loss] in H. rewrite aa_reported in H.
  specialize (H eq_refl). change (cp_X (ch_cp aa_start)) with aa_X in H.
  change (kt_fms (ch_value (aa_state d _ _ _))) with [c11 512; c11 512; c11 512] in H. rewrite aa_true in H. lra.
Qed.
Print Assumptions C98_shared_report_refuted.
Example C98_shared_example : svd_works_on 1 1 (env_svd ex_env) /\ free_fit aa_cs (ch_view aa_start).
Proof. split; [apply svd_row_works; lia|exact aa_free]. Qed.
