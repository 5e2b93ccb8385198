(** Property C104: where CMTF_ALS stands still, and what one pass guarantees. *)
From Verif Require Import CmFixFacts CMTFWitness QualityFacts CoupledSpec CMTFComplete Props_CMTF Props_Stop.
From Verif Require Import Prelude Lin.
Local Open Scope R_scope.

(** *** C104.  [coupled_still K X Us ms Vs Ys]: each factor of the tensor and each factor of a coupled matrix is, given all the others,
    the smallest of the best for the sum of squared errors of tensor and matrices, with weights one. *)
(** A pass without constraints leaves all of them as they are exactly if this holds, and then so does every later pass. *)
Theorem C104_fixed_points : forall env cs K ms s, NoDup ms -> cs_rank cs = K -> (1 <= K)%nat -> svd_works_rows K (env_svd env) ->
  cm_ok K ms s -> free_fit cs (cm_cp s) ->
  let same k := cm_fms (state_after (cmtf_model env cs) s k) = cm_fms s /\ cm_V (state_after (cmtf_model env cs) s k) = cm_V s in
  (same 1%nat <-> coupled_still K (cp_X (cm_cp s)) (cm_fms s) ms (cm_V s) (cm_Y s)) /\ (same 1%nat -> forall k, same k).
Proof.
  intros env cs K ms s HN HK HK1 HS H HF.
  exact (conj (@cm_fixed_points env cs K ms HN HK HK1 HS s H HF) (@cm_fixed_forever env cs K ms HN HK HK1 HS s H HF)).
Qed.
Print Assumptions C104_fixed_points.

(** There the error is stationary: no factor can be moved in any direction with a first-order change. *)
Theorem C104_stationary : forall K ms s, NoDup ms -> cm_ok K ms s ->
  coupled_still K (cp_X (cm_cp s)) (cm_fms s) ms (cm_V s) (cm_Y s) -> coupled_flat K (cp_X (cm_cp s)) (cm_fms s) ms (cm_V s) (cm_Y s).
Proof. intros K ms s HN. exact (@still_flat ex_cm_env w_cs K ms HN s). Qed.
Print Assumptions C104_stationary.

(** Loops from such a state complete there after at most two iterations, if the reported error is not zero and the tolerance positive. *)
Theorem C104_loops : forall env cs K ms cf ds, NoDup ms -> cs_rank cs = K -> (1 <= K)%nat -> svd_works_rows K (env_svd env) ->
  let s := ds_num ds in cm_ok K ms s -> free_fit cs (cm_cp s) -> kt_rank (cm_dec s) = K -> ds_it ds = 0%Z -> (0 < ds_max ds)%Z ->
  (forall lg, In lg (ds_logs ds) -> exists k, coupled_logger env k lg) -> checkpoints_fit cf (ds_max ds) ds ->
  coupled_still K (cp_X (cm_cp s)) (cm_fms s) ms (cm_V s) (cm_Y s) -> 0 < cf_tol cf -> cmtf_SSE env s <> Ok 0 ->
  exists ds', cp_fit_loop (cmtf_model env cs) cf ds = (ds', None) /\
    cm_fms (ds_num ds') = cm_fms s /\ cm_V (ds_num ds') = cm_V s /\ (ds_it ds' <= 2)%Z.
Proof.
  intros env cs K ms cf ds HN HK HK1 HS s H HF Hr Hi Hm Hlg Hck HB Ht Hne.
  assert (Hl : coupled_loss K (cp_X (cm_cp s)) (cm_fms s) (vget (kt_w (cm_dec s))) ms (cm_V s) (cm_Y s) <> 0).
  { intros E0. apply Hne. now rewrite (cmtf_SSE_ok env H), E0. }
  pose proof (@coupled_quiet env cs K ms cf ds HK HK1 HN HS H HF Hr Hi Hm Hlg Hck) as HQ.
  destruct (cp_fit_loop (cmtf_model env cs) cf ds) as [ds' e] eqn:E. cbn [snd] in HQ. subst e. exists ds'. split; [reflexivity|].
  destruct (@still_loop env cs K ms HN HK HK1 HS cf ds ds' H HF HB Ht Hl E) as [[A B] C]. rewrite Hi in C. auto.
Qed.
Print Assumptions C104_loops.
Example C104_loops_example : exists ds', cp_fit_loop (cmtf_model ex_cm_env w_cs) half_cf
    {| ds_num := cf_still 1; ds_it := 0; ds_max := 50; ds_rel := PInf; ds_prev := PInf; ds_logs := []; ds_file := None |} = (ds', None) /\
  cm_fms (ds_num ds') = cm_fms (cf_still 1) /\ cm_V (ds_num ds') = cm_V (cf_still 1) /\ (ds_it ds' <= 2)%Z.
Proof.
  apply (C104_loops ex_cm_env w_cs 1 [0%nat]); try reflexivity.
  - exact ex_nodup.
  - exact ex_cm_svd.
  - exact (cf_ok 1).
  - now apply cf_free.
  - intros lg [].
  - left. cbn. lia.
  - apply cf_stands.
  - cbn. lra.
  - assert (E4 : coupled_loss 1 (cp_X (cm_cp (cf_still 1))) (cm_fms (cf_still 1)) (vget (kt_w (cm_dec (cf_still 1)))) [0%nat]
      (cm_V (cf_still 1)) (cm_Y (cf_still 1)) = 4) by (ev; ring).
    cbn [ds_num]. rewrite (cmtf_SSE_ok ex_cm_env (cf_ok 1)), E4. intros E. injection E as E. lra.
Qed.

(** A tensor with one column [1; 0] and a matrix with one column [0; 2], rank one.  The model of the tensor alone, with loading 0 for the
    matrix: no pass changes it and no factor can be moved with gain, although its error is 4 and that of the matrix' model 1. *)
Example C104_example : let s := cf_still 1 in
  (forall k, cm_fms (state_after (cmtf_model ex_cm_env w_cs) s k) = cm_fms s /\ cm_V (state_after (cmtf_model ex_cm_env w_cs) s k) = cm_V s) /\
  coupled_flat 1 cf_X (cm_fms s) [0%nat] (cm_V s) (cm_Y s) /\
  coupled_loss 1 cf_X (cm_fms s) unit_weights [0%nat] (cm_V s) (cm_Y s) = 4 /\
  coupled_loss 1 cf_X [mk [2; 1]%nat [0; 1]; mk [1; 1]%nat [0]] unit_weights [0%nat] [mk [1; 1]%nat [2]] (cm_Y s) = 1.
Proof.
  intros s. destruct (C104_fixed_points ex_cm_env w_cs 1 [0%nat] s ex_nodup eq_refl (le_n 1) ex_cm_svd (cf_ok 1)) as [H1 H2].
  { now apply cf_free. }
  split; [apply H2, H1, cf_stands|]. split; [|split; ev; ring].
  apply (C104_stationary 1 [0%nat] s ex_nodup (cf_ok 1)). apply cf_stands.
Qed.

(** The reported error, which contains the weights, need not be stationary there. *)
Theorem C104_reported_refuted :
  ~ (forall s, cm_ok 1 [0%nat] s -> coupled_still 1 (cp_X (cm_cp s)) (cm_fms s) [0%nat] (cm_V s) (cm_Y s) ->
     flat_at (nth 0 (shape (cp_X (cm_cp s))) 0%nat) 1 (fun W => coupled_loss 1 (cp_X (cm_cp s)) (with_factor 0 W (cm_fms s))
       (vget (kt_w (cm_dec s))) [0%nat] (cm_V s) (cm_Y s)) (nth 0 (cm_fms s) m0)).
Proof.
  intros H. specialize (H (cf_still 2) (cf_ok 2) (cf_stands 2) (mk [2; 1]%nat [1; 0])).
  destruct (H 1 Rlt_0_1) as (d & Hd). pose proof (cond_pos d) as Hp. set (h := Rmin (d / 2) 1).
  assert (Hh : 0 < h) by (apply Rmin_glb_lt; lra). assert (Hh2 : h <= d / 2) by apply Rmin_l.
  specialize (Hd h (Rgt_not_eq _ _ Hh)). rewrite (Rabs_right h) in Hd by lra. specialize (Hd ltac:(lra)).
  match type of Hd with Rabs ((?a - ?b) / h - 0) < 1 => assert (E : (a - b) / h - 0 = 4 + 4 * h) end.
  { clear - Hh. clearbody h. unfold step_to. ev. field. lra. }
  rewrite E, Rabs_right in Hd by lra. lra.
Qed.
Print Assumptions C104_reported_refuted.

(** *** After pass k+1 no model that has the matrices of pass k in all places but the first has a smaller error, whatever its first factor. *)
Theorem C104_first_factor : forall env cs K ms s W k, NoDup ms -> cs_rank cs = K -> (1 <= K)%nat -> svd_works_rows K (env_svd env) ->
  cm_ok K ms s -> free_fit cs (cm_cp s) -> is_mat (nth 0 (shape (cp_X (cm_cp s))) 0%nat) K W ->
  let t := state_after (cmtf_model env cs) s k in let u := state_after (cmtf_model env cs) s (S k) in
  coupled_loss K (cp_X (cm_cp s)) (cm_fms u) unit_weights ms (cm_V u) (cm_Y s) <=
  coupled_loss K (cp_X (cm_cp s)) (with_factor 0 W (cm_fms t)) unit_weights ms (cm_V t) (cm_Y s).
Proof. intros env cs K ms s W k HN HK HK1 HS. exact (@cm_first_pass env cs K ms HN HK HK1 HS s W k). Qed.
Print Assumptions C104_first_factor.
Example C104_first_example : is_mat 1 1 one11 /\ cm_ok 1 [0%nat] ex_cm /\ free_fit w_cs (cm_cp ex_cm) /\
  coupled_loss 1 (cp_X (cm_cp ex_cm)) (with_factor 0 one11 (cm_fms ex_cm)) unit_weights [0%nat] (cm_V ex_cm) (cm_Y ex_cm) = 14.
Proof. split; [split; reflexivity|]. split; [exact ex_cm_ok|]. split; [exact ex_cm_free|]. ev. ring. Qed.
