(** CMTF_ALS and checkpoints: lemmas for C64. *)
From Verif Require Export CMTFLoss.
Set Implicit Arguments.
Unset Strict Implicit.
Local Open Scope R_scope.

Lemma store_omits_V env cs ds V :
  let ds' := with_num (cm_with_V V (ds_num ds)) ds in
  ds_file (fst (store_checkpoint (cmtf_model env cs) ds')) = ds_file (fst (store_checkpoint (cmtf_model env cs) ds)) /\
  snd (store_checkpoint (cmtf_model env cs) ds') = snd (store_checkpoint (cmtf_model env cs) ds).
Proof.
  intros ds'. unfold store_checkpoint, ds'. cbn [ds_file with_num ds_it ds_num ds_logs].
  change (md_dec (cmtf_model env cs) (cm_with_V V (ds_num ds))) with (md_dec (cmtf_model env cs) (ds_num ds)).
  change (@ckpt_steps _ _ (cmtf_model env cs)) with (@ckpt_steps _ _ (cmtf_model env cs)).
  destruct (ds_file ds) as [f|]; [|auto].
  destruct (run_steps _ f) as [f' [e|]]; [auto|]. destruct (store_logs (ds_logs ds) f') as [[logs f''] e]. auto.
Qed.
Lemma load_leaves_V env cs f it ds :
  cm_V (ds_num (fst (load_checkpoint (cmtf_model env cs) f it ds))) = cm_V (ds_num ds).
Proof.
  unfold load_checkpoint. destruct (lookup "final_iteration" _); [|reflexivity].
  destruct (match it with Some z => Ok z | None => as_int d end) as [i|]; [|reflexivity].
  destruct (in_file (ckpt_name i) f); [|reflexivity]. destruct (lookup (ckpt_name i) (f_groups f)); [|reflexivity].
  destruct (do d <- _ ; _) as [k|]; reflexivity.
Qed.

(** After the components have been loaded the initialisation goes on as with precomputed components. *)
Lemma init_same_rest env cs cs' disk draws vdraws X Y modes mi arg arg' ds i s1 :
  let s := cm_with_coupling Y modes (ds_num ds) in
  let D := with_num (cm_with_cp (cp_with_target X (cm_cp s)) s) (with_it 0%Z ds) in
  on_cp (cp_init_components env cs disk draws arg) D = (with_num s1 D, None) ->
  on_cp (cp_init_components env cs' disk draws arg') D = (with_it i (with_num s1 D), None) ->
  cmtf_init_fit env cs' disk draws vdraws X Y modes mi arg' ds =
  (let (d, e) := cmtf_init_fit env cs disk draws vdraws X Y modes mi arg ds in (with_it i d, e)).
Proof.
  intros s D E1 E2. unfold cmtf_init_fit. fold s. fold D. rewrite E1, E2. cbn [ds_num with_it with_num].
  destruct (init_coupled vdraws s1) as [s2|]; [|reflexivity].
  destruct (cp_orthonormalise env _) as [c|]; [|destruct mi; reflexivity].
  destruct (cmtf_SSE env _) as [l|]; [|destruct mi; reflexivity].
  destruct (kt_normalize true eps15 _) as [k|]; destruct mi; reflexivity.
Qed.

(** *** Two resumed fits *)
Definition one11 : nd := mk [1; 1]%nat [1].
Definition resume_cs : cp_settings := {| cs_rank := 1; cs_init := "from_checkpoint"; cs_ridge := None |}.
(** The file a CMTF fit of a one-entry tensor has written after three iterations *)
Definition saved : file :=
  {| f_root := {| g_attrs := [("final_iteration", DInt 3)]; g_data := [] |};
     f_groups := [("checkpoint_00003", {| g_attrs := [("type", DStr "KruskalTensor"); ("n_factor_matrices", DInt 2); ("rank", DInt 1)];
        g_data := [("factor_matrix000", DArr one11); ("factor_matrix001", DArr one11); ("weights", DArr (mk [1]%nat [1]))] |})] |}%string.
Definition saving (V : list nd) : dstate cmtf_state :=
  with_it 3%Z (with_file (Some empty_file) (with_num (cm_with_V V (cm_with_dec (dec11 1 1) (ds_num unfitted))) unfitted)).
Lemma saving_saved env cs V : ds_file (fst (store_checkpoint (cmtf_model env cs) (saving V))) = Some saved /\
  snd (store_checkpoint (cmtf_model env cs) (saving V)) = None.
Proof. split; vm_compute; reflexivity. Qed.

Definition sign11 (v : R) : nd := mk [1; 1]%nat [v].
Lemma clen_sign v : v * v = 1 -> clen (sign11 v) 0 = 1.
Proof.
  intros H. unfold clen. replace (sum (nrows (sign11 v)) (fun i => mget (sign11 v) i 0 ^ 2)) with 1.
  - apply sqrt_1.
  - ev. transitivity (v * v); [now symmetry|ring].
Qed.

Lemma resumed_update env v : svd_works_rows 1 (env_svd env) -> v * v = 1 ->
  exists ds s' z, cmtf_init_fit env resume_cs (fun _ => None) [] [sign11 v] one11 [one11] [0%Z] None (PathArg (Some saved)) unfitted = (ds, None) /\
    cmtf_update_factors env resume_cs (ds_num ds) = (s', None) /\ nth 0 (cm_fms s') m0 = mk [1; 1]%nat [z] /\
    z * (1 / (1 + eps15) * (1 / (1 + eps15)) + 1) = 1 / (1 + eps15) + v.
Proof.
  intros Hsvd Hv. pose proof eps15_pos as He.
  set (S0 := cm_with_cp (cp_with_dec (dec11 1 1) (cp_with_target one11 (cm_cp (ds_num unfitted))))
                        (cm_with_coupling [one11] (map Z.of_nat [0%nat]) (ds_num unfitted))).
  destruct (@init_coupled_ok [sign11 v] 1 one11 [0%nat] S0) as (s1 & E1 & HC & HV1); try reflexivity.
  { intros [|i] Hi; cbn in Hi; [|lia]. cbn. split; [lia|]. split; [split; reflexivity|]. split; [split; reflexivity|].
    split; [|exact I]. intros [|r] Hr; [|lia]. rewrite clen_sign by auto. lra. }
  destruct (@cm_init_precomputed env w_cs (fun _ => None) [] [sign11 v] one11 [one11] [0%nat] None (dec11 1 1) unfitted 1 s1)
    as (ds' & EI & _ & HOK & EX & EV & EY & Ef & En & Eo & _); try reflexivity; auto.
  { apply data11. } { apply fac11. } { split; reflexivity. }
  cbn [dec11 kt_fms map nrows shape nth] in Ef. rewrite !scaled11 in Ef by lra. set (u := 1 / (1 + eps15)) in *.
  assert (Hu : 0 < u) by (unfold u, Rdiv; rewrite Rmult_1_l; apply Rinv_0_lt_compat; lra). clearbody u.
  assert (EI' : cmtf_init_fit env resume_cs (fun _ => None) [] [sign11 v] one11 [one11] [0%Z] None (PathArg (Some saved)) unfitted =
                (with_it 3%Z ds', None)).
  { rewrite (@init_same_rest env w_cs resume_cs (fun _ => None) [] [sign11 v] one11 [one11] [0%Z] None (DecArg (dec11 1 1)) _ unfitted 3%Z S0).
    - change [0%Z] with (map Z.of_nat [0%nat]). rewrite EI. reflexivity.
    - vm_compute. reflexivity.
    - vm_compute. reflexivity. }
  set (s := ds_num ds') in *.
  assert (HVs : cm_V s = [sign11 v]).
  { rewrite EV. destruct HC as (L1 & _ & HC). cbn in L1. destruct (cm_V s1) as [|A [|]] eqn:EVs; try discriminate. f_equal.
    destruct (HC 0%nat ltac:(cbn; lia)) as (_ & _ & HA). cbn in HA. destruct (mat11 HA) as (x & ->).
    specialize (HV1 0%nat 0%nat 0%nat ltac:(cbn; lia) ltac:(cbn; lia) ltac:(lia)). cbn [nth] in HV1. rewrite clen_sign in HV1 by auto.
    unfold sign11. do 2 f_equal. ev_in HV1. lra. }
  assert (Hfree : forall m, (m < 2)%nat -> free_mode resume_cs (cm_cp s) m).
  { intros m Hm. split; [reflexivity|]. rewrite En, Eo. cbn. split; exists [false; false]; (split; [reflexivity|]).
    all: destruct m as [|[|m]]; [reflexivity|reflexivity|lia]. }
  assert (HKs : shape (cp_X (cm_cp s)) = [1; 1]%nat) by now rewrite EX.
  destruct (@cm_update_optimal env resume_cs 1 [0%nat] s 0 HOK eq_refl (le_n 1)) as (t1 & Z0 & F1 & HZ0 & Ef1 & EV1 & HS1 & HOK1 & Hopt1); auto.
  { rewrite HKs. cbn. lia. }
  rewrite HKs in HZ0. destruct (mat11 HZ0) as (z & ->).
  assert (HN : NoDup [0%nat]) by (constructor; [intros []|constructor]). specialize (Hopt1 HN).
  assert (Hz : u * (1 - z * u) + v * (1 - z * v) = 0).
  { apply (@no_linear_part _ (u * u + v * v)). intros t. specialize (Hopt1 (mk [1; 1]%nat [z + t])).
    rewrite EX, HVs, EY, Ef in Hopt1. ev_in Hopt1. lra. }
  destruct (@cm_update_optimal env resume_cs 1 [0%nat] t1 1 HOK1 eq_refl (le_n 1)) as (t2 & Z1 & F2 & HZ1 & Ef2 & EV2 & HS2 & HOK2 & _); auto.
  { rewrite (sp_X (sc_cp HS1)), HKs. cbn. lia. }
  { apply (free_mode_same (sc_cp HS1)). apply Hfree. lia. }
  destruct (@update_uncoupled_ok env 1 [0%nat] t2 HOK2 HN) as (t3 & F3 & Hcp & _); auto.
  { apply free_fit_nn with (cs := resume_cs); [|apply (ck_data HOK2)]. intros m Hm. rewrite (sp_X (sc_cp HS2)), (sp_X (sc_cp HS1)), HKs in Hm.
    apply (free_mode_same (sc_cp HS2)), (free_mode_same (sc_cp HS1)). now apply Hfree. }
  exists (with_it 3%Z ds'), t3, z. split; [exact EI'|]. split; [|split].
  - change (ds_num (with_it 3%Z ds')) with s. unfold cmtf_update_factors, ndim. rewrite HKs. cbn [length seq cmtf_update_modes].
    rewrite En. cbn [unfitted ds_num cm_cp cp_nn not_none bind repeat length dec11 kt_fms list_get nth_error].
    rewrite F1. rewrite (sp_nn (sc_cp HS1)), En. cbn [unfitted ds_num cm_cp cp_nn not_none bind repeat length dec11 kt_fms list_get nth_error].
    rewrite F2. exact F3.
  - unfold cm_fms, cm_dec. rewrite Hcp. change (kt_fms (cp_dec (cm_cp t2))) with (cm_fms t2). rewrite Ef2, Ef1, Ef. reflexivity.
  - assert (z * (v * v) = z) by (rewrite Hv; ring). lra.
Qed.

Lemma resumed_differ env : svd_works_rows 1 (env_svd env) ->
  exists vd vd' ds ds' s s', vd <> vd' /\
    cmtf_init_fit env resume_cs (fun _ => None) [] vd one11 [one11] [0%Z] None (PathArg (Some saved)) unfitted = (ds, None) /\
    cmtf_init_fit env resume_cs (fun _ => None) [] vd' one11 [one11] [0%Z] None (PathArg (Some saved)) unfitted = (ds', None) /\
    cmtf_update_factors env resume_cs (ds_num ds) = (s, None) /\ cmtf_update_factors env resume_cs (ds_num ds') = (s', None) /\
    cm_fms s <> cm_fms s'.
Proof.
  intros Hsvd. destruct (@resumed_update env 1 Hsvd) as (ds & s & z & A & B & C & D); [ring|].
  destruct (@resumed_update env (-1) Hsvd) as (ds' & s' & z' & A' & B' & C' & D'); [ring|].
  exists [sign11 1], [sign11 (-1)], ds, ds', s, s'. split.
  - intros E. injection E as E. lra.
  - repeat (split; [assumption|]). intros E. rewrite E, C' in C. injection C as C. rewrite C in D'. lra.
Qed.
