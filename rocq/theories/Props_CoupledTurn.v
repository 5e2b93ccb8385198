(** Property C95: CMTF fits do not depend on the coordinates of the modes and of the columns of the coupled matrices. *)
From Verif Require Import CP CPFacts CoupledTurnSpec CoupledTurn Exists Decomposer CPExamples Props_CP SymWitness Props_Tucker.
From Verif Require Import Prelude Lin.
Local Open Scope R_scope.

(** *** C95.  X = G x_1 Q_1 ... x_N Q_N and Y_i = Q_{m_i} H_i W_i^T with orthonormal columns in every Q_n and W_i.  Fits of X, Y and of
    G, H from given starts with U_n = Q_n U'_n and V_i = W_i V'_i keep this after every iteration, with equal losses. *)
Theorem C95_iterations : forall env cs K X G nn orth ms Qs Ws,
  constrained env cs K X nn orth -> constrained env cs K G nn orth -> rotated Qs X G -> permitted nn orth Qs ->
  (forall m, ~ asked nn m) -> NoDup ms ->
  forall cf cf' disk disk' draws draws' vdraws vdraws' max_its max_its' k k' Y Hs ds dt,
  coupled_call env cs cf K X ms Y nn orth draws vdraws (match max_its with Some m => m | None => ds_max ds end) (DecArg k) ds ->
  coupled_call env cs cf' K G ms Hs nn orth draws' vdraws' (match max_its' with Some m => m | None => ds_max dt end) (DecArg k') dt ->
  rotated_matrices Qs Ws ms Y Hs -> (forall m, ~ asked orth m) ->
  carried_by K Qs (kt_fms k) (kt_fms k') -> carried_by K Ws vdraws vdraws' ->
  exists ds1 dt1,
    cmtf_init_fit env cs disk draws vdraws X Y (map Z.of_nat ms) max_its (DecArg k) ds = (ds1, None) /\
    cmtf_init_fit env cs disk' draws' vdraws' G Hs (map Z.of_nat ms) max_its' (DecArg k') dt = (dt1, None) /\
    forall j, let s := state_after (cmtf_model env cs) (ds_num ds1) j in let t := state_after (cmtf_model env cs) (ds_num dt1) j in
      carried_by K Qs (cm_fms s) (cm_fms t) /\ carried_by K Ws (cm_V s) (cm_V t) /\
      exists x, md_loss (cmtf_model env cs) s = Ok x /\ md_loss (cmtf_model env cs) t = Ok x.
Proof. exact iterations_both. Qed.
Print Assumptions C95_iterations.

(** Complete fits: as many iterations, U_n = Q_n U'_n, V_i = W_i V'_i, the same weights and the same loss. *)
Theorem C95_fits : forall env cs K X G nn orth ms Qs Ws,
  constrained env cs K X nn orth -> constrained env cs K G nn orth -> rotated Qs X G -> permitted nn orth Qs ->
  (forall m, ~ asked nn m) -> NoDup ms ->
  forall cf cf' disk disk' draws draws' vdraws vdraws' max_its max_its' k k' Y Hs ds dt,
  let budget := match max_its with Some m => m | None => ds_max ds end in
  let budget' := match max_its' with Some m => m | None => ds_max dt end in
  coupled_call env cs cf K X ms Y nn orth draws vdraws budget (DecArg k) ds ->
  coupled_call env cs cf' K G ms Hs nn orth draws' vdraws' budget' (DecArg k') dt ->
  rotated_matrices Qs Ws ms Y Hs -> (forall m, ~ asked orth m) ->
  carried_by K Qs (kt_fms k) (kt_fms k') -> carried_by K Ws vdraws vdraws' ->
  budget' = budget -> cf_tol cf' = cf_tol cf -> cf_rel_tol cf' = cf_rel_tol cf ->
  exists d e, cmtf_fit env cs cf disk draws vdraws X Y (map Z.of_nat ms) max_its (DecArg k) ds = (d, None) /\
    cmtf_fit env cs cf' disk' draws' vdraws' G Hs (map Z.of_nat ms) max_its' (DecArg k') dt = (e, None) /\
    ds_it e = ds_it d /\ carried_by K Qs (cm_fms (ds_num d)) (cm_fms (ds_num e)) /\ carried_by K Ws (cm_V (ds_num d)) (cm_V (ds_num e)) /\
    (forall r, (r < K)%nat -> vget (kt_w (cm_dec (ds_num d))) r = vget (kt_w (cm_dec (ds_num e))) r) /\
    exists x, cmtf_SSE env (ds_num d) = Ok x /\ cmtf_SSE env (ds_num e) = Ok x.
Proof. exact fits_both. Qed.
Print Assumptions C95_fits.

(** The matrices of C94's example, with a 3x2 matrix of rank one coupled to the first mode; its coordinates are a 2x1 matrix. *)
Definition tc_W : list nd := [mk [2; 1]%nat [3/5; 4/5]].
Definition tc_H : list nd := [mk [2; 1]%nat [5; 1]].
Definition tc_Y : list nd := [mk [3; 2]%nat [9/5; 12/5; 12/5; 16/5; 3/5; 4/5]].
Definition tc_v : list nd := [mk [2; 1]%nat [6/5; 8/5]].
Definition tc_v' : list nd := [mk [1; 1]%nat [2]].
Definition tc_ds : dstate cmtf_state :=
  {| ds_num := {| cm_cp := fresh_cp None None; cm_Y := []; cm_modes := []; cm_V := [] |}; ds_it := 0; ds_max := 100; ds_rel := PInf; ds_prev := PInf;
     ds_logs := []; ds_file := None |}.
Example C95_example : exists env d e,
  cmtf_fit env tk_cs y_cf no_disk [] tc_v tk_X tc_Y [0%Z] None (DecArg (tk_k tk_U)) tc_ds = (d, None) /\
  cmtf_fit env tk_cs y_cf no_disk [] tc_v' tk_G tc_H [0%Z] None (DecArg (tk_k tk_V)) tc_ds = (e, None) /\
  ds_it e = ds_it d /\ carried_by 1 tk_Q (cm_fms (ds_num d)) (cm_fms (ds_num e)) /\ carried_by 1 tc_W (cm_V (ds_num d)) (cm_V (ds_num e)) /\
  exists x, cmtf_SSE env (ds_num d) = Ok x /\ cmtf_SSE env (ds_num e) = Ok x.
Proof.
  destruct svd_contract_satisfiable as (svd & Hs). destruct nnls_contract_satisfiable as (nnls & Hn).
  set (env := {| env_svd := svd; env_svd_u := fun A => do (U, _, _) <- svd A ; Ok U; env_qr := fun A => do (U, _, _) <- svd A ; Ok U;
            env_nnls := nnls; env_junk := fun _ _ => 0 |}). exists env.
  assert (Hno : forall m, ~ asked None m) by (intros m (l & E & _); discriminate).
  assert (HC : forall Y n, shape Y = [n; 2]%nat -> (0 < n)%nat -> wf Y -> constrained env tk_cs 1 Y None None).
  { intros Y n E Hp HY. constructor.
    - reflexivity.
    - lia.
    - split; [exact HY|]. rewrite E. split; [cbn; lia|]. repeat constructor; lia.
    - now left.
    - now left.
    - intros m H. now apply Hno in H.
    - intros m H. now apply Hno in H.
    - rewrite E. split; [cbn; lia|]. repeat constructor; lra.
    - exact Hs.
    - exact Hn.
    - intros m H. now apply Hno in H. }
  assert (HX : constrained env tk_cs 1 tk_X None None) by (apply HC with (n := 3%nat); try reflexivity; lia).
  assert (HG : constrained env tk_cs 1 tk_G None None) by (apply HC with (n := 2%nat); try reflexivity; lia).
  assert (HR : rotated tk_Q tk_X tk_G).
  { constructor; try reflexivity.
    - constructor; [|constructor; [|constructor]]; (split; [split; reflexivity|]); intros r s Hr Hs'; cbn in Hr, Hs';
        (destruct r as [|[|r]]; [| |lia]); (destruct s as [|[|s]]; [| |lia]); ev; lra.
    - intros idx Hv. apply valid_cons_inv in Hv as (i & idx1 & -> & Hi & Hv). apply valid_cons_inv in Hv as (j & idx2 & -> & Hj & Hv).
      apply valid_nil_inv in Hv; subst.
      destruct i as [|[|[|i]]]; [| | |lia]; (destruct j as [|[|j]]; [| |lia]); ev; lra. }
  assert (HP : permitted None None tk_Q) by (intros m Hm; split; intros H; now apply Hno in H).
  assert (HU : carried_by 1 tk_Q tk_U tk_V).
  { constructor; [reflexivity|reflexivity| |constructor; [reflexivity|reflexivity| |constructor]]; intros i r Hi Hr; cbn in Hi;
      destruct i as [|[|[|i]]]; try lia; (destruct r; [|lia]); ev; lra. }
  assert (HV : carried_by 1 tc_W tc_v tc_v').
  { constructor; [reflexivity|reflexivity| |constructor]; intros i r Hi Hr; cbn in Hi;
      destruct i as [|[|i]]; try lia; (destruct r; [|lia]); ev; lra. }
  assert (HM : rotated_matrices tk_Q tc_W [0%nat] tc_Y tc_H).
  { constructor; try reflexivity.
    - constructor; [|constructor]. split; [split; reflexivity|]. intros r s Hr Hs'. cbn in Hr, Hs'.
      destruct r; [|lia]. destruct s; [|lia]. ev; lra.
    - intros i Hi. cbn in Hi. destruct i; [|lia]. split; reflexivity.
    - intros i a b Hi. cbn in Hi. destruct i; [|lia]. cbn zeta. intros Ha Hb. cbn in Ha, Hb.
      destruct a as [|[|[|a]]]; [| | |lia]; (destruct b as [|[|b]]; [| |lia]); ev; lra. }
  assert (Hcall : forall T Y v Us, factors_ok 1 T Us -> coupled_start 1 T [0%nat] Y v ->
    coupled_call env tk_cs y_cf 1 T [0%nat] Y None None [] v 100 (DecArg (tk_k Us)) tc_ds).
  { intros T Y v Us HF HS. split; [|split; [exact HS|split; [reflexivity|split; [reflexivity|split; [lia|split; [intros lg []|left; cbn; lia]]]]]].
    right. right. split; [reflexivity|]. exists (tk_k Us). split; [reflexivity|]. split; [exact HF|]. split; [apply is_vec_ones|reflexivity]. }
  assert (Hlen : forall v x, (forall r, (r < 1)%nat -> clen v r = x) -> x <> 0 -> forall r, (r < 1)%nat -> clen v r <> 0) by (intros v x H Hx r Hr; rewrite H; auto).
  assert (L2 : sqrt (2 * 2) = 2) by (apply sqrt_square; lra).
  destruct (C95_fits env tk_cs 1 tk_X tk_G None None [0%nat] tk_Q tc_W HX HG HR HP Hno) with (cf := y_cf) (cf' := y_cf)
    (disk := no_disk) (disk' := no_disk) (draws := @nil nd) (draws' := @nil nd) (vdraws := tc_v) (vdraws' := tc_v') (max_its := @None Z) (max_its' := @None Z)
    (k := tk_k tk_U) (k' := tk_k tk_V) (Y := tc_Y) (Hs := tc_H) (ds := tc_ds) (dt := tc_ds)
    as (d & e & A & B & C & D & E & _ & F); auto.
  - repeat constructor. intros [].
  - apply Hcall; [split; [repeat constructor|reflexivity]|]. split; [reflexivity|]. split; [cbn; lia|]. intros i Hi. cbn in Hi. destruct i; [|lia].
    split; [cbn; lia|]. split; [split; reflexivity|]. split; [split; reflexivity|]. apply (Hlen _ 2); [|lra]. intros r Hr. destruct r; [|lia].
    rewrite <- L2. unfold clen. f_equal. ev; lra.
  - apply Hcall; [split; [repeat constructor|reflexivity]|]. split; [reflexivity|]. split; [cbn; lia|]. intros i Hi. cbn in Hi. destruct i; [|lia].
    split; [cbn; lia|]. split; [split; reflexivity|]. split; [split; reflexivity|]. apply (Hlen _ 2); [|lra]. intros r Hr. destruct r; [|lia].
    rewrite <- L2. unfold clen. f_equal. ev; lra.
  - exists d, e. repeat split; auto.
Qed.
