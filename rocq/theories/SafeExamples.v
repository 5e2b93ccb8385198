(** A fit for the Examples beside C75 and C76: one component, slices [3 4] and [0]. *)
From Verif Require Export Parafac2Safe Parafac2Examples.
Set Implicit Arguments.
Unset Strict Implicit.
Local Open Scope R_scope.

Definition z_Xs : list nd := [mk [1; 2]%nat [3; 4]; mk [1; 1]%nat [0]].
Definition z_draws : list nd :=
  [mk [1; 1]%nat [1]; mk [2; 1]%nat [49 / 10; - / 10]; mk [2; 1]%nat [1; 0]; mk [1; 1]%nat [1]].
Definition z_cf : config := {| cf_freq := 2; cf_tol := 0; cf_rel_tol := 0; cf_print := 10 |}.
Definition z_ds : dstate p2_state :=
  {| ds_num := ex_p2; ds_it := 0; ds_max := 1; ds_rel := PInf; ds_prev := PInf;
     ds_logs := map (fun k => new_logger (kind_class k) (p2_metric ex_ps k)) [KLoss; KMSE; KSSE; KRMSE; KExplained];
     ds_file := Some empty_file |}.
Lemma z_plain : plain_fit p2_ex_env ex_ps 1 1 z_draws z_Xs.
Proof.
  constructor; try reflexivity; try solve [now left]; try (split; lia).
  - split; [discriminate|]. change (length z_Xs) with 2%nat. slices; split; reflexivity.
  - do 3 eexists. split; [reflexivity|]. split; [split; reflexivity|]. split; [split; reflexivity|]. split; [reflexivity|].
    change (length z_Xs) with 2%nat. slices; split; reflexivity.
  - change (length z_Xs) with 2%nat. slices; apply qr_col; cbn; lia.
  - apply svd_col_works. lia.
  - intros k Hk. revert k Hk. change (length z_Xs) with 2%nat. slices; (split; [cbn; lia|apply svd_col_works; cbn; lia]).
Qed.
Lemma z_run : plain_run ex_ps z_cf 1 z_ds.
Proof.
  constructor; [lia| |discriminate|].
  - intros lg H. apply in_map_iff in H as (k & <- & _). exists k. split; reflexivity.
  - right. split; [reflexivity|]. exists empty_file. split; [reflexivity|]. split.
    + split; [reflexivity|]. split; [now left|]. discriminate.
    + intros i _ H. now apply H.
Qed.
Lemma z_wide : wide 1 z_Xs.
Proof. intros k Hk. revert k Hk. change (length z_Xs) with 2%nat. slices; cbn; lia. Qed.

(** The fit stops after one iteration; the second slice has B_k^T B_k = 0, the first does not. *)
Lemma z_result : exists ds', p2_fit p2_ex_env ex_ps z_cf no_disk z_draws (Slices z_Xs) (Some 1%Z) P2None z_ds = (ds', None) /\
  let gram k := slice_gram 1 (width z_Xs k) (nth k (p2_Ps (ds_num ds')) m0) (p2_B (ds_num ds')) 0 0 in
  0 < gram 0%nat /\ gram 1%nat = 0.
Proof.
  pose proof z_plain as HF.
  destruct (@plain_completes p2_ex_env ex_ps 1 1 z_cf no_disk z_draws z_Xs (Some 1%Z) P2None z_ds HF z_run z_wide)
    as (ds' & s0 & n & E & Eit & Hle & H0 & HL & EX & En & _ & _ & EA & EB & EC).
  assert (n = 0%nat) as -> by lia. exists ds'. split; [exact E|].
  destruct HF as [Hi Hnn Ho Hr Hrd [HnI HK] HX HD Hqr Hsvd HW].
  destruct (@run_safe p2_ex_env ex_ps 1 1 s0 H0 HL) with (n := 0%nat) as (_ & _ & _ & _ & _ & _ & HP & Herr); rewrite ?EX; auto.
  { change (length z_Xs) with 2%nat. lia. }
  rewrite EX in HP, Herr. rewrite <- En in HP, Herr. cbn [state_after] in HP, Herr.
  cbn [z_draws nth_error option_map] in EA, EC. injection EA as EA. injection EC as EC.
  pose proof (HP 0%nat ltac:(cbn; lia)) as P0. pose proof (HP 1%nat ltac:(cbn; lia)) as P1.
  destruct P0 as [M0 O0 B0 _]. destruct P1 as [_ _ _ Z1]. rewrite EX in M0, O0, B0, Z1.
  change (width z_Xs 0) with 2%nat in *. change (width z_Xs 1) with 1%nat in *.
  assert (Hunt : untruncated (env_svd (pe_cp p2_ex_env)) 2 1 (cross 1 1 (p2_A s0) (p2_B s0) (p2_C s0) z_Xs 0)).
  { apply untruncated_col; [lia|apply small_16|]. exists 0%nat. split; [lia|]. rewrite EA, EB, EC. ev. lra. }
  pose proof (proj2 (O0 ltac:(lia)) Hunt) as HO. clear O0.
  set (Ps := p2_Ps (ds_num ds')) in *. set (P := nth 0 Ps m0) in *.
  assert (Hp : mget P 0 0 = 3 / 5 /\ mget P 1 0 = 4 / 5).
  { set (Q := fun i (_ : nat) => if Nat.eqb i 0 then 3 / 5 else 4 / 5).
    assert (HQ : orth_cols 2 1 Q).
    { intros a b Ha Hb. replace a with 0%nat by lia. replace b with 0%nat by lia. ev. lra. }
    specialize (B0 ltac:(lia) Hunt Q HQ).
    assert (HD' : forall Z, slice_err 1 1 (p2_A s0) (p2_B s0) (p2_C s0) z_Xs 0 Z =
      (5 * Z 0%nat 0%nat - 3) * (5 * Z 0%nat 0%nat - 3) + (5 * Z 1%nat 0%nat - 4) * (5 * Z 1%nat 0%nat - 4)).
    { intros Z. rewrite EA, EB, EC. clear. ev. field. }
    rewrite !HD' in B0. unfold Q in B0. cbn [Nat.eqb] in B0.
    pose proof (sq0 (5 * mget P 0 0 - 3)). pose proof (sq0 (5 * mget P 1 0 - 4)).
    assert (5 * mget P 0 0 - 3 = 0) by (apply sq_zero; lra). assert (5 * mget P 1 0 - 4 = 0) by (apply sq_zero; lra).
    split; lra. }
  destruct Hp as [Hp0 Hp1].
  assert (HZ : nth 1 Ps m0 = np_zeros [1; 1]%nat).
  { apply Z1. intros i j Hi' Hj. replace i with 0%nat by lia. replace j with 0%nat by (change (width z_Xs 1) with 1%nat in Hj; lia).
    ev. reflexivity. }
  assert (HE : forall A B C, projected_err 1 1 A B C z_Xs Ps =
    (mget C 0 0 * mget A 0 0 * mget B 0 0 - (3 * mget P 0 0 + 4 * mget P 1 0)) * (mget C 0 0 * mget A 0 0 * mget B 0 0 - (3 * mget P 0 0 + 4 * mget P 1 0)) +
    (mget C 1 0 * mget A 0 0 * mget B 0 0) * (mget C 1 0 * mget A 0 0 * mget B 0 0)).
  { intros A B C. unfold projected_err. change (length z_Xs) with 2%nat. cbn [seq sumf]. unfold dist2, projected_entry.
    change (width z_Xs 0) with 2%nat. change (width z_Xs 1) with 1%nat. rewrite HZ. fold P. cbn [seq sumf].
    change (mget (nth 0 z_Xs m0) 0 0) with 3. change (mget (nth 0 z_Xs m0) 0 1) with 4. change (mget (nth 1 z_Xs m0) 0 0) with 0.
    ring. }
  rewrite !HE in Herr. rewrite Hp0, Hp1 in Herr.
  assert (HA0 : mget (p2_A s0) 0 0 = 1) by (rewrite EA; reflexivity).
  assert (HB0 : mget (p2_B s0) 0 0 = 1) by (rewrite EB; ev; reflexivity).
  assert (HC0 : mget (p2_C s0) 0 0 = 5) by (rewrite EC; ev; lra).
  assert (HC1 : mget (p2_C s0) 1 0 = 0) by (rewrite EC; ev; lra).
  rewrite HA0, HB0, HC0, HC1 in Herr.
  set (b := mget (p2_B (ds_num ds')) 0 0) in *.
  assert (Hb : b <> 0).
  { intros Hb0. rewrite Hb0 in Herr. lra. }
  split.
  - change (0 < slice_gram 1 2 P (p2_B (ds_num ds')) 0 0). rewrite (orth_gram _ M0 HO) by lia. cbn [seq sumf]. fold b.
    pose proof (Rsqr_pos_lt b Hb) as Hs. unfold Rsqr in Hs. lra.
  - change (slice_gram 1 1 (nth 1 Ps m0) (p2_B (ds_num ds')) 0 0 = 0). rewrite HZ. apply zero_gram.
Qed.

(** Two components and a slice of one column *)
Definition nw_Xs : list nd := [mk [1; 2]%nat [3; 4]; mk [1; 1]%nat [2]].
Definition nw_draws : list nd :=
  [mk [1; 2]%nat [1; 1]; mk [2; 2]%nat [1; 1; 1; 1]; mk [2; 2]%nat [1; 0; 0; 1]; mk [1; 2]%nat [1; 1]].
Definition nw_ps : p2_settings :=
  {| ps_rank := 2; ps_init := "random"; ps_updates := 2; ps_nn := [false; false; false]; ps_ridge := None; ps_orth := None |}.
Definition nw_env : p2_env :=
  {| pe_cp := {| env_svd := svd_col; env_svd_u := fun A => Ok (np_identity (nrows A)); env_qr := fun A => Ok (np_identity (nrows A));
                 env_nnls := fun A b => Ok b; env_junk := fun _ _ => 0 |};
     pe_qr := fun A => Ok (A, A) |}.
Lemma nw_slices : slices_ok 1 nw_Xs.
Proof. split; [discriminate|]. change (length nw_Xs) with 2%nat. slices; split; reflexivity. Qed.
Lemma nw_draws_ok : draws_ok 2 1 nw_Xs nw_draws.
Proof.
  do 3 eexists. split; [reflexivity|]. split; [split; reflexivity|]. split; [split; reflexivity|]. split; [reflexivity|].
  change (length nw_Xs) with 2%nat. slices; split; reflexivity.
Qed.
Lemma qr_identity n m : (n <= m)%nat -> qr_works_on n m (fun A => Ok (np_identity (nrows A))).
Proof.
  intros Hn A HA. exists (np_identity n). rewrite (is_mat_nrows HA), Nat.min_l by auto. split; [reflexivity|].
  split; [apply is_mat_tab2|]. intros a b Ha Hb. rewrite (@sum_ext n _ (fun i => delta a i * delta i b)).
  - now rewrite sum_delta_l.
  - intros i Hi. unfold np_identity. rewrite !mget_tab2 by auto. unfold delta. rewrite (Nat.eqb_sym a i). ring.
Qed.
Lemma nw_qr k : (k < length nw_Xs)%nat -> qr_works_on (width nw_Xs k) 2 (env_qr (pe_cp nw_env)).
Proof. revert k. change (length nw_Xs) with 2%nat. slices; apply qr_identity; cbn; lia. Qed.
Lemma nw_narrow : ~ wide 2 nw_Xs.
Proof. intros H. specialize (H 1%nat ltac:(cbn; lia)). cbn in H. lia. Qed.
