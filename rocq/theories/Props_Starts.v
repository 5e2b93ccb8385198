(** Further parts of C46, C48, C55, C58 and C64: what a fit starts from, which decompositions are accepted and what the
    loss of a PARAFAC2 model is. *)
From Verif Require Import StartFacts Parafac2Examples CMTFWitness.
Local Open Scope R_scope.

(** *** C46.  A random start: the columns drawn divided by their length (plus 1e-15); absolute values in the modes that
    are to be non-negative. *)
Theorem C46_random_start : forall env cs K disk draws X ds, lower (cs_init cs) = "random"%string ->
  data_ok X -> factors_ok K X draws ->
  (match cp_nn (ds_num ds) with Some l => (length l <= length draws)%nat | None => True end) ->
  exists ds', cp_init_components env cs disk draws NoArg (targeted X ds) = (ds', None) /\
    factors_ok K X (kt_fms (cp_dec (ds_num ds'))) /\
    forall m, (m < length draws)%nat ->
    let D := nth m draws m0 in
    let U := nth m (kt_fms (cp_dec (ds_num ds'))) m0 in
    let isnn := match cp_nn (ds_num ds) with Some l => nth m l false | None => false end in
    forall i r, (i < nrows D)%nat -> (r < K)%nat ->
      mget U i r = if isnn then Rabs (mget D i r / (colnorm D r + eps15)) else mget D i r / (colnorm D r + eps15).
Proof. exact random_start. Qed.
Print Assumptions C46_random_start.
(** Entries -4 drawn for both modes of a 2x2 tensor, only the first of which is non-negative *)
Definition st_X : nd := mk [2; 2]%nat [1; 2; 3; 4].
Definition st_draws : list nd := [mk [2; 1]%nat [3; -4]; mk [2; 1]%nat [3; -4]].
Definition st_ds (nn orth : option (list bool)) : dstate cp_state :=
  {| ds_num := {| cp_X := m0; cp_norm := 0; cp_dec := {| kt_rank := 1; kt_fms := []; kt_w := m0 |};
                  cp_last := None; cp_cache := None; cp_nn := nn; cp_orth := orth |};
     ds_it := 0; ds_max := 100; ds_rel := PInf; ds_prev := PInf; ds_logs := []; ds_file := None |}.
Definition st_cs : cp_settings := {| cs_rank := 1; cs_init := "random"; cs_ridge := None |}.
Lemma st_data : data_ok st_X.
Proof. split; [reflexivity|]. split; [cbn; lia|]. repeat constructor; discriminate. Qed.
Lemma st_factors : factors_ok 1 st_X st_draws.
Proof. split; [repeat constructor|reflexivity]. Qed.
Example C46_random_start_example : forall env, exists ds',
  cp_init_components env st_cs no_disk st_draws NoArg (targeted st_X (st_ds (Some [true; false]) None)) = (ds', None) /\
  0 < mget (nth 0 (kt_fms (cp_dec (ds_num ds'))) m0) 1 0 /\ mget (nth 1 (kt_fms (cp_dec (ds_num ds'))) m0) 1 0 < 0.
Proof.
  intros env. destruct (C46_random_start env st_cs 1 no_disk st_draws st_X (st_ds (Some [true; false]) None)) as (ds' & E & _ & H);
    [reflexivity|apply st_data|apply st_factors|cbn; lia|].
  exists ds'. split; [exact E|].
  assert (Hp : 0 < colnorm (mk [2; 1]%nat [3; -4]) 0 + eps15).
  { pose proof (colnorm_nonneg (mk [2; 1]%nat [3; -4]) 0). pose proof eps15_pos. lra. }
  pose proof (H 0%nat ltac:(cbn; lia) 1%nat 0%nat ltac:(cbn; lia) ltac:(lia)) as H0.
  pose proof (H 1%nat ltac:(cbn; lia) 1%nat 0%nat ltac:(cbn; lia) ltac:(lia)) as H1. cbn [ds_num st_ds cp_nn nth st_draws] in H0, H1.
  change (mget (mk [2; 1]%nat [3; -4]) 1 0) with (-4) in H0, H1. rewrite H0, H1.
  assert (Hn : -4 / (colnorm (mk [2; 1]%nat [3; -4]) 0 + eps15) < 0) by (apply Rmult_lt_reg_r with (1 := Hp); field_simplify; lra).
  split; [apply Rabs_pos_lt; lra|exact Hn].
Qed.

(** *** C48.  The fit starts from Q of the QR factorisation in the modes that are to be orthonormal and from the
    initialised factor in the others; the first loss compared with is that of this start. *)
Theorem C48_orthonormal_start : forall env cs K disk draws X max_its arg ds l,
  cs_rank cs = K -> data_ok X -> usable_start env cs K X draws arg ->
  (match cp_nn (ds_num ds) with Some l => (length l <= length (shape X))%nat | None => True end) ->
  cp_orth (ds_num ds) = Some l -> (length l <= length (shape X))%nat -> cp_last (ds_num ds) = None ->
  (forall m, nth m l false = true -> (K <= nth m (shape X) 0)%nat /\ qr_works_on (nth m (shape X) 0%nat) K (env_qr env)) ->
  exists d0 ds1, cp_init_components env cs disk draws arg (targeted X ds) = (d0, None) /\
    cp_init_fit env cs disk draws X max_its arg ds = (ds1, None) /\ cp_coherent K (ds_num ds1) /\ unit_w K (ds_num ds1) /\
    (forall m, (m < length (shape X))%nat ->
      let n := nth m (shape X) 0%nat in
      let U := nth m (kt_fms (cp_dec (ds_num d0))) m0 in
      let Q := nth m (kt_fms (cp_dec (ds_num ds1))) m0 in
      if nth m l false then env_qr env U = Ok Q /\ orth_cols n K (mget Q) else Q = U) /\
    ds_prev ds1 = Fin (sse X (kt_fms (cp_dec (ds_num ds1))) unit_weights K).
Proof. exact orth_start. Qed.
Print Assumptions C48_orthonormal_start.
Example C48_orthonormal_start_example : exists d0 ds1,
  let env := pe_cp p2_ex_env in let ds := st_ds None (Some [true; false]) in
  cp_init_components env st_cs no_disk st_draws NoArg (targeted st_X ds) = (d0, None) /\
  cp_init_fit env st_cs no_disk st_draws st_X None NoArg ds = (ds1, None) /\
  orth_cols 2 1 (mget (nth 0 (kt_fms (cp_dec (ds_num ds1))) m0)) /\
  nth 1 (kt_fms (cp_dec (ds_num ds1))) m0 = nth 1 (kt_fms (cp_dec (ds_num d0))) m0.
Proof.
  destruct (C48_orthonormal_start (pe_cp p2_ex_env) st_cs 1 no_disk st_draws st_X None NoArg (st_ds None (Some [true; false])) [true; false])
    as (d0 & ds1 & E0 & E1 & _ & _ & HM & _); try reflexivity; try apply st_data.
  - left. split; [reflexivity|]. split; [reflexivity|apply st_factors].
  - intros [|[|m]] H; cbn in H; try discriminate; [|destruct m; discriminate]. cbn. split; [lia|]. apply qr_col. lia.
  - exists d0, ds1. split; [exact E0|]. split; [exact E1|]. split; [apply (HM 0%nat); cbn; lia|apply (HM 1%nat); cbn; lia].
Qed.

(** *** C55.  The loss of a PARAFAC2 model, with one penalty for each of A, B and C; missing ones count as 0. *)
Theorem C55_loss : forall ps K nI s, p2_ok K nI s ->
  p2_loss ps s = Ok (pf_sse K nI (p2_A s) (p2_B s) (p2_C s) (p2_X s) (p2_Ps s) +
    match ps_ridge ps with
    | None => 0
    | Some lams => nth 0 lams 0 * frob2 nI K (mget (p2_A s)) + nth 1 lams 0 * frob2 K K (mget (p2_B s)) +
                   nth 2 lams 0 * frob2 (length (p2_X s)) K (mget (p2_C s))
    end).
Proof. exact p2_loss_ok. Qed.
Print Assumptions C55_loss.
Example C55_loss_example : let ps := {| ps_rank := 1; ps_init := "random"; ps_updates := 2; ps_nn := [false; false; false];
    ps_ridge := Some [1; 2; 3]; ps_orth := None |} in
  p2_loss ps ex_p2 = Ok (pf_sse 1 1 (p2_A ex_p2) (p2_B ex_p2) (p2_C ex_p2) ex_Xs (p2_Ps ex_p2) + 9) /\ p2_loss ps ex_p2 = Ok 30.
Proof.
  cbv zeta. assert (E : forall l, l = 30 -> pf_sse 1 1 (p2_A ex_p2) (p2_B ex_p2) (p2_C ex_p2) ex_Xs (p2_Ps ex_p2) + 9 = l).
  { intros l ->. ev. lra. }
  rewrite (C55_loss _ 1 1 ex_p2 ex_p2_ok). cbn [ps_ridge].
  match goal with |- Ok (?a + ?b) = _ /\ _ => replace b with 9 by (ev; lra) end. change (p2_X ex_p2) with ex_Xs. split; [reflexivity|].
  now rewrite (E 30).
Qed.

(** The inner decomposer's weights are one after every iteration, whatever they were. *)
Theorem C55_inner_weights : forall env ps s s', p2_update env ps s = (s', None) ->
  Forall (fun w => w = 1) (data (kt_w (cp_dec (p2_inner s')))).
Proof. exact update_unit_weights. Qed.
Print Assumptions C55_inner_weights.
Example C55_inner_weights_example : exists s', p2_update p2_ex_env ex_ps ex_p2 = (s', None).
Proof.
  destruct (@iteration_ok p2_ex_env ex_ps 1 1 ex_p2 ex_p2_ok ex_p2_linked ex_p2_solvable ex_p2_orth) as (s' & E & _); try reflexivity; eauto.
  - apply svd_col_works. lia.
  - cbn. lia.
Qed.

(** *** C58.  Which decompositions are accepted as initial values; everything else is a ValueError.  Evolving factors
    without a slice of the data to go with them, and slices without evolving factor, pass unnoticed. *)
Theorem C58_accepted_decompositions : forall ps nI s d, slices_ok nI (p2_X s) ->
  some_mat (ev_A (pf_ev d)) -> some_mat (ev_C (pf_ev d)) -> (forall B, In B (ev_B (pf_ev d)) -> some_mat B) ->
  let K := ps_rank ps in
  (p2_check ps s d = Ok tt <->
   is_mat nI K (ev_A (pf_ev d)) /\ is_mat (length (p2_X s)) K (ev_C (pf_ev d)) /\
   forall k, (k < length (ev_B (pf_ev d)))%nat -> (k < length (p2_X s))%nat ->
     is_mat (width (p2_X s) k) K (nth k (ev_B (pf_ev d)) m0)) /\
  (p2_check ps s d = Ok tt \/ p2_check ps s d = Err ValueError).
Proof. exact p2_check_iff. Qed.
Print Assumptions C58_accepted_decompositions.
(** The example model is accepted; without one of its evolving factors it still is, with a longer first factor it is not. *)
Definition with_B (Bs : list nd) (A : nd) (d : parafac2) : parafac2 :=
  {| pf_blueprint := pf_blueprint d; pf_P := pf_P d;
     pf_ev := {| ev_rank := ev_rank (pf_ev d); ev_A := A; ev_B := Bs; ev_C := ev_C (pf_ev d); ev_warning := ev_warning (pf_ev d);
                 ev_same := ev_same (pf_ev d); ev_slice_shapes := ev_slice_shapes (pf_ev d);
                 ev_num_elements := ev_num_elements (pf_ev d) |} |}.
Example C58_accepted_example : slices_ok 1 ex_Xs /\
  p2_check ex_ps ex_p2 (p2_value ex_p2) = Ok tt /\
  p2_check ex_ps ex_p2 (with_B (firstn 1 (ev_B (pf_ev (p2_value ex_p2)))) (p2_A ex_p2) (p2_value ex_p2)) = Ok tt /\
  p2_check ex_ps ex_p2 (with_B (ev_B (pf_ev (p2_value ex_p2))) (mk [2; 1]%nat [1; 1]) (p2_value ex_p2)) = Err ValueError.
Proof. split; [apply ex_slices|]. repeat split; reflexivity. Qed.

(** *** C64.  Loading a CMTF checkpoint restores the factors of the tensor, and only them. *)
Theorem C64_loading_restores_the_tensor : forall env cs f i d ds,
  stored_at (cmtf_model env cs) f i d -> final_attr f <> None ->
  fits_shape (cs_rank cs) (cp_X (cm_cp (ds_num ds))) (kt_fms d) ->
  exists ds', load_checkpoint (cmtf_model env cs) f (Some i) ds = (ds', None) /\
    cm_dec (ds_num ds') = d /\ cm_V (ds_num ds') = cm_V (ds_num ds) /\ ds_it ds' = i.
Proof. exact cmtf_load_at. Qed.
Print Assumptions C64_loading_restores_the_tensor.
Example C64_loading_example : exists ds ds',
  load_checkpoint (cmtf_model (pe_cp p2_ex_env) resume_cs) CMTFResume.saved (Some 3%Z) ds = (ds', None) /\
  cm_dec (ds_num ds) <> cm_dec (ds_num ds') /\ cm_dec (ds_num ds') = dec11 1 1.
Proof.
  set (ds := with_num (cm_with_cp (cp_with_target one11 (cm_cp (ds_num unfitted))) (ds_num unfitted)) unfitted).
  destruct (C64_loading_restores_the_tensor (pe_cp p2_ex_env) resume_cs CMTFResume.saved 3 (dec11 1 1) ds) as (ds' & E & H & _ & _).
  - eexists. split; [reflexivity|]. vm_compute. reflexivity.
  - discriminate.
  - intros [|[|i]] U H; cbn in H; try discriminate; [| |destruct i; discriminate]; injection H as <-; (eexists; split; reflexivity).
  - exists ds, ds'. split; [exact E|]. split; [rewrite H; discriminate|exact H].
Qed.
