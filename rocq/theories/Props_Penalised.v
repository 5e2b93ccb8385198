(** Property C88: complete Parafac2_ALS fits with non-negative modes and ridge penalties. *)
From Verif Require Import Parafac2Total SafeExamples ShortMode Exists Decomposer.
Local Open Scope R_scope.

(** *** C88.  [penalised_fit]: random start, a flag and (if any) a penalty >= 0 for each mode; [plain_run]: budget, loggers and
    checkpoint file.  Nothing is assumed about the values or ranks of the data. *)
Theorem C88_fit_completes : forall env ps K nI cf disk draws Xs max_its arg ds,
  let budget := match max_its with Some m => m | None => ds_max ds end in
  penalised_fit env ps K nI draws Xs -> plain_run ps cf budget ds ->
  exists ds', p2_fit env ps cf disk draws (Slices Xs) max_its arg ds = (ds', None) /\ (0 < ds_it ds' <= budget)%Z /\
    p2_X (ds_num ds') = Xs /\ is_mat nI K (p2_A (ds_num ds')) /\ is_mat K K (p2_B (ds_num ds')) /\
    is_mat (length Xs) K (p2_C (ds_num ds')) /\ length (p2_Ps (ds_num ds')) = length Xs /\
    (forall k, (k < length Xs)%nat -> is_mat (width Xs k) K (nth k (p2_Ps (ds_num ds')) m0)) /\
    p2_loss ps (ds_num ds') = Ok (p2_objective ps K nI Xs (ds_num ds')) /\
    forall m, (m < 3)%nat -> (0 < ps_updates ps)%nat -> nth_error (ps_nn ps) m = Some true ->
      nonneg_mat (nth m [nI; K; length Xs] 0%nat) K (mget (p2_factor (ds_num ds') m)).
Proof.
  intros env ps K nI cf disk draws Xs max_its arg ds budget HF HN.
  destruct (@penalised_completes env ps K nI cf disk draws Xs max_its arg ds HF HN) as (ds' & E & Hle & H & EX & HG). exists ds'.
  pose proof (ok_A H). pose proof (ok_B H). pose proof (ok_C H) as HC. pose proof (ok_P H) as HP. pose proof (p2_loss_ok ps H) as HL.
  destruct (p2_mats H) as (_ & HLen & _). rewrite EX in *. repeat (split; [solve [auto]|]).
  split; [|exact HG]. rewrite HL. unfold p2_objective, p2_factor. cbn [seq sumf nth]. f_equal. destruct (ps_ridge ps); cbn [nth]; ring.
Qed.
Print Assumptions C88_fit_completes.

(** A list of flags or penalties without an entry for some mode is found out only in the first iteration. *)
Theorem C88_short_list_raises : forall env ps K nI cf disk draws Xs max_its arg ds m, drawn_start env ps K nI draws Xs ->
  svd_contract (env_svd (pe_cp env)) -> nnls_contract (env_nnls (pe_cp env)) ->
  match ps_ridge ps with Some l => Forall (Rle 0) l | None => True end -> (0 < ps_updates ps)%nat ->
  (0 < match max_its with Some m => m | None => ds_max ds end)%Z -> (m < 3)%nat -> no_entry ps m ->
  snd (p2_fit env ps cf disk draws (Slices Xs) max_its arg ds) = Some IndexError.
Proof. exact short_list_raises. Qed.
Print Assumptions C88_short_list_raises.

(** Instead of a list of slices the data can be a tensor with three modes: it is fitted as the list of its frontal slices.
    Other tensors are refused. *)
Theorem C88_tensor_data : forall env ps cf disk draws X max_its arg ds,
  (forall nI nJ nK, shape X = [nI; nJ; nK] -> exists Xs, length Xs = nK /\
     (forall k, (k < nK)%nat -> is_mat nI nJ (nth k Xs m0) /\
        forall i j, (i < nI)%nat -> (j < nJ)%nat -> mget (nth k Xs m0) i j = get X [i; j; k]) /\
     p2_fit env ps cf disk draws (Tensor X) max_its arg ds = p2_fit env ps cf disk draws (Slices Xs) max_its arg ds) /\
  (length (shape X) <> 3%nat -> p2_fit env ps cf disk draws (Tensor X) max_its arg ds = (with_it 0%Z ds, Some ValueError)).
Proof.
  intros env ps cf disk draws X max_its arg ds. split.
  - intros nI nJ nK Hs. exists (map (fun k => tab2 nI nJ (fun i j => get X [i; j; k])) (seq 0 nK)).
    rewrite map_length, seq_length. split; [reflexivity|]. split.
    + intros k Hk. rewrite (@nth_indep _ _ k m0 (tab2 nI nJ (fun i j => get X [i; j; 0%nat]))) by (rewrite map_length, seq_length; exact Hk).
      rewrite (map_nth (fun k => tab2 nI nJ (fun i j => get X [i; j; k]))), seq_nth by exact Hk.
      split; [apply is_mat_tab2|]. intros i j Hi Hj. now rewrite mget_tab2.
    + unfold p2_fit, p2_init_fit, p2_set_target, frontal_slices. rewrite Hs. reflexivity.
  - intros Hs. unfold p2_fit, p2_init_fit, p2_set_target, frontal_slices.
    destruct (shape X) as [|a [|b [|c [|d l]]]]; try reflexivity. cbn in Hs. lia.
Qed.
Print Assumptions C88_tensor_data.

(** Two components, slices with 3 and 2 columns: A and B non-negative, penalties 1, 0 and 2 *)
Definition pen_ps (ridge : list R) : p2_settings :=
  {| ps_rank := 2; ps_init := "Random"; ps_updates := 5; ps_nn := [true; true; false]; ps_ridge := Some ridge; ps_orth := None |}.
Definition pen_Xs : list nd := [mk [2; 3]%nat [1; 2; 3; 4; 5; 6]; mk [2; 2]%nat [1; -1; 0; 2]].
Definition pen_draws : list nd :=
  [mk [2; 2]%nat [1; 0; 1; 1]; mk [2; 2]%nat [1; 1; 0; 1]; mk [3; 2]%nat [1; 0; 2; 1; 0; 1]; mk [2; 2]%nat [1; 0; 0; 1]].
Lemma pen_start env ridge : svd_contract (env_svd (pe_cp env)) -> env_qr (pe_cp env) = (fun A => do (U, _, _) <- env_svd (pe_cp env) A ; Ok U) ->
  drawn_start env (pen_ps ridge) 2 2 pen_draws pen_Xs.
Proof.
  intros Hs Eq. constructor.
  - reflexivity.
  - now left.
  - reflexivity.
  - lia.
  - split; [discriminate|]. change (length pen_Xs) with 2%nat. slices; split; reflexivity.
  - do 3 eexists. split; [reflexivity|]. split; [split; reflexivity|]. split; [split; reflexivity|]. split; [reflexivity|].
    change (length pen_Xs) with 2%nat. slices; split; reflexivity.
  - intros k _ A HA. rewrite Eq. exact (qr_of_svd Hs HA).
  - intros k Hk. revert k Hk. change (length pen_Xs) with 2%nat. slices; cbn; lia.
Qed.
Example C88_hypotheses_hold : exists env, penalised_fit env (pen_ps [1; 0; 2]) 2 2 pen_draws pen_Xs.
Proof.
  destruct svd_contract_satisfiable as (svd & Hs). destruct nnls_contract_satisfiable as (nnls & Hn).
  exists {| pe_cp := {| env_svd := svd; env_svd_u := fun A => do (U, _, _) <- svd A ; Ok U; env_qr := fun A => do (U, _, _) <- svd A ; Ok U;
            env_nnls := nnls; env_junk := fun _ _ => 0 |}; pe_qr := fun A => Ok (A, A) |}.
  constructor; auto.
  - now apply pen_start.
  - split; [cbn; lia|]. repeat constructor; lra.
Qed.
Example C88_short_example : exists env, drawn_start env (pen_ps [1; 0]) 2 2 pen_draws pen_Xs /\ no_entry (pen_ps [1; 0]) 2 /\
  forall cf disk arg ds, snd (p2_fit env (pen_ps [1; 0]) cf disk pen_draws (Slices pen_Xs) (Some 3%Z) arg ds) = Some IndexError.
Proof.
  destruct svd_contract_satisfiable as (svd & Hs). destruct nnls_contract_satisfiable as (nnls & Hn).
  exists {| pe_cp := {| env_svd := svd; env_svd_u := fun A => do (U, _, _) <- svd A ; Ok U; env_qr := fun A => do (U, _, _) <- svd A ; Ok U;
            env_nnls := nnls; env_junk := fun _ _ => 0 |}; pe_qr := fun A => Ok (A, A) |}.
  assert (Hno : no_entry (pen_ps [1; 0]) 2) by (right; exists [1; 0]; split; reflexivity).
  split; [now apply pen_start|]. split; [exact Hno|]. intros cf disk arg ds.
  eapply C88_short_list_raises with (m := 2%nat); [now apply pen_start|exact Hs|exact Hn| |cbn; lia|lia|lia|exact Hno].
  repeat constructor; lra.
Qed.
