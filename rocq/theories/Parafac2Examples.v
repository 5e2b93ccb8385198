(** Concrete models for the Examples beside C54-C58: one component, slices of one row. *)
From Verif Require Export Parafac2Init CPExamples.
Set Implicit Arguments.
Unset Strict Implicit.
Local Open Scope R_scope.

(** A singular value decomposition of one-column matrices, from that of one-row matrices *)
Definition svd_col (A : nd) : res (nd * nd * nd) :=
  do (U, Sv, Vh) <- svd_row (transp A) ; Ok (transp Vh, Sv, transp U).
Lemma svd_col_works n : (1 <= n)%nat -> svd_works_on n 1 svd_col.
Proof.
  intros Hn A HA. destruct (@svd_row_works n Hn (transp A) (is_mat_transp HA)) as (U & Sv & Vh & E & HS).
  unfold svd_col. rewrite E. cbn [bind]. do 3 eexists. split; [reflexivity|].
  destruct HS as [H1 H2 H3 H4 H5 H6 H7 H8]. rewrite (Nat.min_l 1 n) in * by auto.
  constructor; rewrite (Nat.min_r n 1) by auto; try solve [auto]; try solve [now apply is_mat_transp].
  - intros a b Ha Hb. rewrite <- (H5 a b Ha Hb). apply sum_ext. intros i Hi. now rewrite !(mget_transp H3) by auto.
  - intros a b Ha Hb. rewrite <- (H4 a b Ha Hb). apply sum_ext. intros i Hi. now rewrite !(mget_transp H1) by auto.
  - intros i j Hi Hj. rewrite <- (mget_transp HA) by auto. rewrite H8 by auto. apply sum_ext. intros r Hr.
    rewrite (mget_transp H3), (mget_transp H1) by auto. ring.
Qed.

Definition p2_ex_env : p2_env :=
  {| pe_cp := {| env_svd := svd_col; env_svd_u := fun A => Ok (np_identity (nrows A));
                 env_qr := fun A => do (U, _, _) <- svd_col A ; Ok U;
                 env_nnls := fun A b => Ok b; env_junk := fun _ _ => 0 |};
     pe_qr := fun A => do (U, Sv, Vh) <- svd_col A ; Ok (U, tab2 1 1 (fun _ _ => vget Sv 0 * mget Vh 0 0)) |}.

Lemma qr_col n : (1 <= n)%nat -> qr_works_on n 1 (env_qr (pe_cp p2_ex_env)).
Proof.
  intros Hn A HA. destruct (@svd_col_works n Hn A HA) as (U & Sv & Vh & E & HS).
  exists U. cbn [p2_ex_env pe_cp env_qr]. rewrite E. split; [reflexivity|]. split; apply HS.
Qed.
Lemma qr_full_col n : (1 <= n)%nat -> qr_full_works_on n 1 (pe_qr p2_ex_env).
Proof.
  intros Hn A HA. destruct (@svd_col_works n Hn A HA) as (U & Sv & Vh & E & HS).
  exists U. eexists. cbn [p2_ex_env pe_qr]. rewrite E. split; [reflexivity|]. split; [apply HS|]. rewrite Nat.min_r by auto. apply is_mat_tab2.
Qed.

Lemma untruncated_col n M : (1 <= n)%nat -> INR n < 10 ^ 16 -> (exists i, (i < n)%nat /\ M i 0%nat <> 0) ->
  untruncated svd_col n 1 M.
Proof.
  intros Hn Hb (i & Hi & HM) BA U Sv Vh HBA HE E r Hr. replace r with 0%nat by lia.
  destruct (@svd_col_works n Hn BA HBA) as (U' & Sv' & Vh' & E' & HS). rewrite E in E'. injection E' as <- <- <-.
  rewrite <- HE in HM by auto. rewrite (svd_product HS) in HM by auto. rewrite Nat.min_r in HM by auto.
  cbn [seq sumf] in HM. pose proof (svd_S_nonneg HS) as H0. rewrite Nat.min_r in H0 by auto. specialize (H0 0%nat ltac:(lia)).
  assert (Hp : 0 < vget Sv 0).
  { destruct H0 as [H0|H0]; auto. exfalso. apply HM. rewrite <- H0. ring. }
  rewrite Rmult_comm, <- Rmult_assoc. rewrite <- (Rmult_1_l (vget Sv 0)) at 2. apply Rmult_lt_compat_r; auto.
  apply (Rmult_lt_reg_r (10 ^ 16)); [apply pow_lt; lra|]. rewrite Rmult_comm, <- Rmult_assoc, Rinv_r, !Rmult_1_l; auto.
  apply pow_nonzero. lra.
Qed.

(** *** Two slices of different widths *)
Definition ex_Xs : list nd := [mk [1; 2]%nat [3; 4]; mk [1; 1]%nat [2]].
Definition ex_ref : pref :=
  {| pr_A := 0; pr_B := 1; pr_C := 2; pr_P := [3; 4]%nat; pr_rank := 1; pr_warning := false; pr_same := false;
     pr_shapes := [(1, 2); (1, 1)]%nat; pr_num := 3 |}.
Definition ex_p2 : p2_state :=
  {| p2_heap := [mk [1; 1]%nat [1]; mk [1; 1]%nat [1]; mk [2; 1]%nat [1; 1]; mk [2; 1]%nat [1; 0]; mk [1; 1]%nat [1]];
     p2_X := ex_Xs; p2_norm := sqrt 29; p2_ref := ex_ref; p2_cpf := [0; 1; 2]%nat;
     p2_inner := start 1 (mk [1; 1; 2]%nat [3; 2]) [] [false; false; false] [false; false; false] |}.
Definition ex_ps : p2_settings :=
  {| ps_rank := 1; ps_init := "random"; ps_updates := 2; ps_nn := [false; false; false]; ps_ridge := None; ps_orth := None |}.

Lemma two_slices k : (k < 2)%nat -> k = 0%nat \/ k = 1%nat.
Proof. lia. Qed.
Ltac slices := let k := fresh "k" in let H := fresh "H" in intros k H; destruct (two_slices H) as [-> | ->].

Lemma ex_p2_ok : p2_ok 1 1 ex_p2.
Proof.
  constructor; try (split; reflexivity); try reflexivity.
  - repeat constructor.
  - repeat constructor; cbn; lia.
  - slices; split; reflexivity.
  - slices; split; reflexivity.
Qed.
Lemma small_16 : INR 2 < 10 ^ 16.
Proof. cbn. lra. Qed.
Lemma small_16' : INR 1 < 10 ^ 16.
Proof. cbn. lra. Qed.
Lemma solvable_ex s : p2_X s = ex_Xs -> mget (p2_A s) 0 0 <> 0 -> mget (p2_B s) 0 0 <> 0 ->
  mget (p2_C s) 0 0 <> 0 -> mget (p2_C s) 1 0 <> 0 -> solvable p2_ex_env 1 1 s.
Proof.
  intros HX HA HB HC0 HC1. unfold solvable. rewrite HX. change (length ex_Xs) with 2%nat. slices.
  - change (width ex_Xs 0) with 2%nat. split; [lia|]. split; [apply svd_col_works; lia|].
    apply untruncated_col; [lia|apply small_16|]. exists 0%nat. split; [lia|]. unfold cross. cbn [seq sumf].
    change (mget (nth 0 ex_Xs m0) 0 0) with 3. rewrite !Rplus_0_r.
    repeat apply Rmult_integral_contrapositive_currified; auto; lra.
  - change (width ex_Xs 1) with 1%nat. split; [lia|]. split; [apply svd_col_works; lia|].
    apply untruncated_col; [lia|apply small_16'|]. exists 0%nat. split; [lia|]. unfold cross. cbn [seq sumf].
    change (mget (nth 1 ex_Xs m0) 0 0) with 2. rewrite !Rplus_0_r.
    repeat apply Rmult_integral_contrapositive_currified; auto; lra.
Qed.
Lemma ex_p2_solvable : solvable p2_ex_env 1 1 ex_p2.
Proof. apply solvable_ex; try reflexivity; cbn; lra. Qed.
Lemma ex_p2_orth : orth_projections 1 (p2_X ex_p2) (p2_Ps ex_p2).
Proof.
  change (orth_projections 1 ex_Xs (p2_Ps ex_p2)). intros k Hk. revert k Hk. change (length ex_Xs) with 2%nat.
  slices; intros a b Ha Hb; replace a with 0%nat by lia; replace b with 0%nat by lia; ev; ring.
Qed.
Lemma ex_p2_linked : linked 1 ex_p2.
Proof.
  constructor; try reflexivity.
  - apply is_vec_ones.
  - intros r Hr. now apply vget_ones.
  - apply all_false_flags; [|reflexivity]. cbn. repeat constructor.
  - apply all_false_flags; [|reflexivity]. cbn. repeat constructor.
Qed.

(** The draws of a random start and what a one-iteration fit does from there *)
Definition ex_draws : list nd :=
  [mk [1; 1]%nat [1]; mk [2; 1]%nat [9 / 10; 9 / 10]; mk [2; 1]%nat [1; 0]; mk [1; 1]%nat [1]].
Definition no_disk : string -> option file := fun _ => None.
Definition ex_ds : dstate p2_state :=
  {| ds_num := ex_p2; ds_it := 0; ds_max := 1; ds_rel := PInf; ds_prev := PInf; ds_logs := []; ds_file := None |}.
Lemma ex_slices : slices_ok 1 ex_Xs.
Proof. split; [discriminate|]. change (length ex_Xs) with 2%nat. slices; split; reflexivity. Qed.
Lemma ex_draws_ok : draws_ok 1 1 ex_Xs ex_draws.
Proof.
  do 3 eexists. split; [reflexivity|]. split; [split; reflexivity|]. split; [split; reflexivity|]. split; [reflexivity|].
  change (length ex_Xs) with 2%nat. slices; split; reflexivity.
Qed.
Lemma ex_qr : forall k, (k < length ex_Xs)%nat -> (1 <= width ex_Xs k)%nat /\ qr_works_on (width ex_Xs k) 1 (env_qr (pe_cp p2_ex_env)).
Proof. change (length ex_Xs) with 2%nat. slices; (split; [cbn; lia|apply qr_col; cbn; lia]). Qed.
Lemma ex_unconstrained ps : ps_nn ps = [false; false; false] -> ps_orth ps = None -> unconstrained ps.
Proof. split; auto. Qed.

Lemma ex_random_start : exists ds1,
  p2_init_fit p2_ex_env ex_ps no_disk ex_draws (Slices ex_Xs) (Some 1%Z) P2None ex_ds = (ds1, None) /\
  forall k, (k < Z.to_nat (ds_max ds1 - ds_it ds1))%nat ->
    solvable p2_ex_env 1 1 (state_after (p2_model p2_ex_env ex_ps) (fst (p2_prepare p2_ex_env ex_ps (ds_num ds1))) k).
Proof.
  destruct (@random_init_fit_ok p2_ex_env ex_ps 1 1 no_disk ex_draws ex_Xs (Some 1%Z) P2None ex_ds)
    as (ds1 & E & Hok & HO & HX & _ & HA & HB & HC & Hit & Hmax); auto using ex_slices, ex_draws_ok, ex_qr.
  exists ds1. split; [exact E|]. rewrite Hit, Hmax. change (Z.to_nat (1 - 0)) with 1%nat. intros k Hk. replace k with 0%nat by lia.
  destruct (@prepare_ok p2_ex_env ex_ps 1 1 (ds_num ds1) Hok) as (c & EP & _); auto.
  { now apply ex_unconstrained. }
  { rewrite HX. cbn. lia. }
  rewrite EP. cbn [fst state_after]. cbn [ex_draws nth_error option_map] in HA, HC. injection HA as HA. injection HC as HC.
  apply solvable_ex.
  - exact HX.
  - change (mget (p2_A (ds_num ds1)) 0 0 <> 0). rewrite HA. cbn. lra.
  - change (mget (p2_B (ds_num ds1)) 0 0 <> 0). rewrite HB. ev. lra.
  - change (mget (p2_C (ds_num ds1)) 0 0 <> 0). rewrite HC. ev. lra.
  - change (mget (p2_C (ds_num ds1)) 1 0 <> 0). rewrite HC. ev. lra.
Qed.

(** *** Two slices of the same width with one projection object *)
Definition sh_Xs : list nd := [mk [1; 2]%nat [10; 0]; mk [1; 2]%nat [0; 1]].
Definition sh_p2 : p2_state :=
  {| p2_heap := [mk [1; 1]%nat [1]; mk [1; 1]%nat [1]; mk [2; 1]%nat [10; 1]; mk [2; 1]%nat [1; 0]];
     p2_X := sh_Xs; p2_norm := sqrt 101;
     p2_ref := {| pr_A := 0; pr_B := 1; pr_C := 2; pr_P := [3; 3]%nat; pr_rank := 1; pr_warning := true; pr_same := true;
                  pr_shapes := [(1, 2); (1, 2)]%nat; pr_num := 4 |};
     p2_cpf := [0; 1; 2]%nat; p2_inner := start 1 (mk [1; 1; 2]%nat [10; 0]) [] [false; false; false] [false; false; false] |}.
Lemma sh_p2_shaped : p2_shaped 1 1 sh_p2.
Proof.
  constructor; try (split; reflexivity); try reflexivity.
  - repeat constructor.
  - slices; split; reflexivity.
  - slices; split; reflexivity.
Qed.
Lemma sh_width : forall k, (k < length (p2_X sh_p2))%nat -> width (p2_X sh_p2) k = 2%nat.
Proof. change (length (p2_X sh_p2)) with 2%nat. slices; reflexivity. Qed.
Lemma sh_p2_solvable : solvable p2_ex_env 1 1 sh_p2.
Proof.
  unfold solvable. change (length (p2_X sh_p2)) with 2%nat. slices.
  - change (width (p2_X sh_p2) 0) with 2%nat. split; [lia|]. split; [apply svd_col_works; lia|].
    apply untruncated_col; [lia|apply small_16|]. exists 0%nat. split; [lia|]. ev. lra.
  - change (width (p2_X sh_p2) 1) with 2%nat. split; [lia|]. split; [apply svd_col_works; lia|].
    apply untruncated_col; [lia|apply small_16|]. exists 1%nat. split; [lia|]. ev. lra.
Qed.
Lemma mat21 Z : is_mat 2 1 Z -> exists a b, Z = mk [2; 1]%nat [a; b].
Proof.
  destruct Z as [sh d]. intros [H1 H2]. cbn in *. subst sh. unfold wf in H1. cbn in H1.
  destruct d as [|a [|b [|? ?]]]; try discriminate. eauto.
Qed.
Definition sh_sse (P : nat -> nat -> R) : R :=
  slice_err 1 1 (p2_A sh_p2) (p2_B sh_p2) (p2_C sh_p2) sh_Xs 0 P + slice_err 1 1 (p2_A sh_p2) (p2_B sh_p2) (p2_C sh_p2) sh_Xs 1 P.
Lemma shared_can_raise : exists s' P, p2_update_projections p2_ex_env sh_p2 = (s', None) /\
  p2_Ps s' = [P; P] /\
  pf_sse 1 1 (p2_A sh_p2) (p2_B sh_p2) (p2_C sh_p2) sh_Xs (p2_Ps sh_p2) = 2 /\
  pf_sse 1 1 (p2_A sh_p2) (p2_B sh_p2) (p2_C sh_p2) sh_Xs (p2_Ps s') = 200.
Proof.
  destruct (@shared_update p2_ex_env 1 1 2 sh_p2 3 sh_p2_shaped) as (s' & P & E & EP & HO & Hopt).
  - cbn. lia.
  - reflexivity.
  - cbn. lia.
  - apply sh_width.
  - apply sh_p2_solvable.
  - change (p2_Ps s' = [P; P]) in EP. exists s', P. split; auto. split; auto. rewrite EP.
    change (length (p2_X sh_p2) - 1)%nat with 1%nat in Hopt.
    assert (Hq : orth_cols 2 1 (fun i _ => delta 1 i)).
    { intros a b Ha Hb. replace a with 0%nat by lia. replace b with 0%nat by lia. ev. ring. }
    specialize (Hopt _ Hq). specialize (HO 0%nat 0%nat ltac:(lia) ltac:(lia)).
    change (sum 2 (fun i => mget P i 0%nat * mget P i 0%nat) = delta 0 0) in HO.
    assert (HD : forall Z, slice_err 1 1 (p2_A sh_p2) (p2_B sh_p2) (p2_C sh_p2) (p2_X sh_p2) 1 Z =
                           Z 0%nat 0%nat * Z 0%nat 0%nat + (Z 1%nat 0%nat - 1) * (Z 1%nat 0%nat - 1)) by (intros Z; ev; ring).
    rewrite !HD in Hopt. cbn [delta Nat.eqb] in Hopt. change (delta 1 0) with 0 in Hopt. change (delta 1 1) with 1 in Hopt.
    pose proof (sq0 (mget P 0 0)) as S0. pose proof (sq0 (mget P 1 0 - 1)) as S1.
    assert (Z0' : mget P 0 0 = 0) by (apply sq_zero; lra).
    assert (Z1' : mget P 1 0 - 1 = 0) by (apply sq_zero; lra).
    split; [ev; ring|].
    assert (ET : pf_sse 1 1 (p2_A sh_p2) (p2_B sh_p2) (p2_C sh_p2) sh_Xs [P; P] =
      (10 * mget P 0 0 - 10) * (10 * mget P 0 0 - 10) + (10 * mget P 1 0) * (10 * mget P 1 0) +
      (mget P 0 0 * mget P 0 0 + (mget P 1 0 - 1) * (mget P 1 0 - 1))).
    { clear. set (p := mget P). change (nth 0 [P; P] m0) with P. unfold pf_sse, sh_Xs. cbn [length seq sumf nth]. fold p.
      generalize p. intros q. ev. ring. }
    rewrite ET, Z0'. replace (mget P 1 0) with 1 by lra. ring.
Qed.

(** The state [sh_p2] arises: CP initialisation succeeds on these slices. *)
Definition sh_draws : list nd := [mk [2; 1]%nat [1; 1]; mk [1; 1]%nat [1]; mk [2; 1]%nat [1; 1]].
Definition cp_ps : p2_settings :=
  {| ps_rank := 1; ps_init := "cp"; ps_updates := 2; ps_nn := [false; false; false]; ps_ridge := None; ps_orth := None |}.
Lemma sh_init_cp : exists s', p2_init_cp p2_ex_env cp_ps sh_draws sh_p2 = Ok s'.
Proof.
  destruct (@init_cp_ok p2_ex_env cp_ps 1 1 2 sh_p2 sh_draws (mk [2; 1]%nat [1; 1]) (mk [1; 1]%nat [1]) (mk [2; 1]%nat [1; 1]))
    as (s' & a & E & _); auto; try (split; reflexivity); try (cbn; lia).
  - discriminate.
  - change (length (p2_X sh_p2)) with 2%nat. slices; split; reflexivity.
  - apply svd_col_works. lia.
  - apply qr_full_col. lia.
  - eauto.
Qed.

(** *** Mode 0 constrained to be orthonormal, with a draw that is not *)
Definition or_ps : p2_settings :=
  {| ps_rank := 1; ps_init := "random"; ps_updates := 2; ps_nn := [false; false; false]; ps_ridge := None;
     ps_orth := Some [true; false; false] |}.
Definition or_draws : list nd :=
  [mk [1; 1]%nat [2]; mk [2; 1]%nat [9 / 10; 9 / 10]; mk [2; 1]%nat [1; 0]; mk [1; 1]%nat [1]].
Lemma or_draws_ok : draws_ok 1 1 ex_Xs or_draws.
Proof.
  do 3 eexists. split; [reflexivity|]. split; [split; reflexivity|]. split; [split; reflexivity|]. split; [reflexivity|].
  change (length ex_Xs) with 2%nat. slices; split; reflexivity.
Qed.
Lemma or_start : exists ds1, p2_init_fit p2_ex_env or_ps no_disk or_draws (Slices ex_Xs) (Some 1%Z) P2None ex_ds = (ds1, None).
Proof.
  destruct (@random_init_fit_ok p2_ex_env or_ps 1 1 no_disk or_draws ex_Xs (Some 1%Z) P2None ex_ds)
    as (ds1 & E & _); auto using ex_slices, or_draws_ok, ex_qr. eauto.
Qed.
Lemma or_prepare : exists s0, p2_prepare p2_ex_env or_ps ex_p2 = (s0, None).
Proof. eexists. ev. reflexivity. Qed.
