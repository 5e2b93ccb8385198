(** Property C78: the limits of fits - captured variance, PCA loadings, and errors no model can go below. *)
From Verif Require Import BestFacts Parafac2Examples Props_Quality.
Local Open Scope R_scope.

(** *** C78.  [captured n m k A Q]: how much of the n x m matrix A the k orthonormal columns of Q capture.
    [left_out p k S]: the squares of all but the first k of p singular values. *)
(** get_pca_loadings on data with at least as many rows as columns: orthogonal columns in order of length, eigenvectors of Y^T Y;
    they are scaled orthonormal columns that capture as much of Y as any others can; all of them together reproduce Y^T Y. *)
Theorem C78_pca_loadings : forall n m Y U S Vh, is_full_svd n m Y U S Vh -> (m <= n)%nat ->
  forall svd rank, is_mat n m Y -> svd Y = Ok (U, S, Vh) -> let k := Nat.min rank m in
  exists A, get_pca_loadings svd Y rank = Ok A /\ is_mat m k A /\
    (forall a b, (a < k)%nat -> (b < k)%nat -> sum m (fun j => mget A j a * mget A j b) = delta a b * vget S a ^ 2) /\
    (forall j a, (j < m)%nat -> (a < k)%nat ->
       sum m (fun j' => sum n (fun i => mget Y i j * mget Y i j') * mget A j' a) = vget S a ^ 2 * mget A j a) /\
    ((m <= rank)%nat -> forall j j', (j < m)%nat -> (j' < m)%nat ->
       sum k (fun a => mget A j a * mget A j' a) = sum n (fun i => mget Y i j * mget Y i j')) /\
    (forall Q, orth_cols m k Q -> captured m n k (fun j i => mget Y i j) Q <= frob2 m k (mget A)) /\
    exists Q, orth_cols m k Q /\ captured m n k (fun j i => mget Y i j) Q = frob2 m k (mget A) /\
      forall j a, (j < m)%nat -> (a < k)%nat -> mget A j a = Q j a * vget S a.
Proof. exact pca_facts. Qed.
Print Assumptions C78_pca_loadings.
Definition pc_Y : nd := mk [3; 2]%nat [0; 2; 0; 0; 1; 0].
Definition pc_U : nd := mk [3; 3]%nat [1; 0; 0; 0; 0; 1; 0; 1; 0].
Definition pc_S : nd := mk [2]%nat [2; 1].
Definition pc_V : nd := mk [2; 2]%nat [0; 1; 1; 0].
Lemma pc_svd : is_full_svd 3 2 pc_Y pc_U pc_S pc_V.
Proof.
  constructor; try (split; reflexivity).
  - intros [|[|[|a]]] [|[|[|b]]] Ha Hb; try lia; ev; lra.
  - intros [|[|a]] [|[|b]] Ha Hb; try lia; ev; lra.
  - intros [|[|r]] Hr; cbn in Hr; try lia; ev; lra.
  - intros [|[|r]] [|[|s]] Hr; cbn in Hr; try lia; ev; lra.
  - intros [|[|[|i]]] [|[|j]] Hi Hj; try lia; ev; lra.
Qed.
Example C78_pca_example : exists A, get_pca_loadings (fun _ => Ok (pc_U, pc_S, pc_V)) pc_Y 1 = Ok A /\ is_mat 2 1 A /\
  mget A 0 0 = 0 /\ mget A 1 0 = 2 /\ frob2 2 1 (mget A) = 4.
Proof.
  eexists. split; [reflexivity|]. split; [apply is_mat_tab2|]. repeat split; ev; lra.
Qed.

(** With fewer rows than columns it always raises ValueError: all right singular vectors, but only as many singular values as rows. *)
Theorem C78_pca_wide_refuted : forall svd n m Y U S Vh rank, svd Y = Ok (U, S, Vh) -> is_full_svd n m Y U S Vh -> (n < m)%nat ->
  get_pca_loadings svd Y rank = Err ValueError.
Proof. exact pca_wide. Qed.
Print Assumptions C78_pca_wide_refuted.
Example C78_pca_wide_example :
  is_full_svd 1 2 (mk [1; 2]%nat [3; 4]) (mk [1; 1]%nat [1]) (mk [1]%nat [5]) (mk [2; 2]%nat [3 / 5; 4 / 5; - (4 / 5); 3 / 5]).
Proof.
  constructor; try (split; reflexivity).
  - intros [|a] [|b] Ha Hb; try lia; ev; lra.
  - intros [|[|a]] [|[|b]] Ha Hb; try lia; ev; lra.
  - intros [|r] Hr; cbn in Hr; try lia; ev; lra.
  - intros [|r] [|s] Hr; cbn in Hr; try lia; ev; lra.
  - intros [|i] [|[|j]] Hi Hj; try lia; ev; lra.
Qed.

(** init='svd': every factor captures as much of its mode of the data as any orthonormal columns can,
    and misses exactly the singular values that are left out. *)
Theorem C78_svd_start : forall env cs disk draws ds, lower (cs_init cs) = "svd"%string ->
  let X := cp_X (ds_num ds) in let K := cs_rank cs in mode_left_vectors (env_svd_u env) X ->
  wf X -> shape X <> [] -> (0 < K)%nat -> (forall n, In n (shape X) -> (K <= n)%nat) ->
  exists d, cp_init_components env cs disk draws NoArg ds = (with_num (cp_with_dec d (ds_num ds)) ds, None) /\
    factors_ok K X (kt_fms d) /\ forall n, (n < length (shape X))%nat ->
    let N := nth n (shape X) 0%nat in let M := mode_width X n in let A := mget (mode_matrix X n) in
    let F := mget (nth n (kt_fms d) m0) in
    orth_cols N K F /\ (forall Q, orth_cols N K Q -> captured N M K A Q <= captured N M K A F) /\
    forall U S Vh, is_svd N M (mode_matrix X n) U S Vh -> frob2 N M A - captured N M K A F = left_out (Nat.min N M) K S.
Proof. exact svd_start. Qed.
Print Assumptions C78_svd_start.
Definition b_X : nd := mk [2; 2]%nat [3; 0; 0; 1].
Lemma b_mode n : (n < 2)%nat -> is_full_svd 2 2 (mode_matrix b_X n) (np_identity 2) (mk [2]%nat [3; 1]) (np_identity 2).
Proof.
  intros Hn. constructor; try (split; reflexivity).
  - intros [|[|a]] [|[|b]] Ha Hb; try lia; ev; lra.
  - intros [|[|a]] [|[|b]] Ha Hb; try lia; ev; lra.
  - intros [|[|r]] Hr; cbn in Hr; try lia; ev; lra.
  - intros [|[|r]] [|[|s]] Hr; cbn in Hr; try lia; ev; lra.
  - destruct n as [|[|n]]; [| |lia]; intros [|[|i]] [|[|j]] Hi Hj; try lia; ev; lra.
Qed.
Example C78_svd_start_example : mode_left_vectors (fun A => Ok (np_identity (nrows A))) b_X /\
  captured 2 2 1 (mget (mode_matrix b_X 0)) (mget (np_identity 2)) = 9 /\ frob2 2 2 (mget (mode_matrix b_X 0)) = 10 /\
  left_out 2 1 (mk [2]%nat [3; 1]) = 1.
Proof.
  split; [|repeat split; ev; lra]. intros n Hn. cbn in Hn. exists (np_identity 2), (mk [2]%nat [3; 1]), (np_identity 2).
  assert (E : nth n (shape b_X) 0%nat = 2%nat /\ mode_width b_X n = 2%nat) by (destruct n as [|[|n]]; [split; reflexivity|split; reflexivity|lia]).
  destruct E as [-> ->]. split; [|now apply b_mode]. unfold mode_matrix, nrows. cbn [shape tab2 tab nth].
  destruct n as [|[|n]]; [reflexivity|reflexivity|lia].
Qed.

(** No K-component model, whatever its factors and weights, has an error below the singular values that K components leave out,
    in any mode of the data. *)
Theorem C78_no_model_beats : forall X Us w K n U S Vh, rows Us = shape X -> (n < length (shape X))%nat ->
  let N := nth n (shape X) 0%nat in let M := mode_width X n in
  is_svd N M (mode_matrix X n) U S Vh -> left_out (Nat.min N M) K S <= sse X Us w K.
Proof. exact no_model_beats. Qed.
Print Assumptions C78_no_model_beats.
(** The 2 x 2 x 2 tensor with ones at (0, 0, 0) and (1, 1, 1): every single component misses at least half of it. *)
Definition b_T : nd := mk [2; 2; 2]%nat [1; 0; 0; 0; 0; 0; 0; 1].
Lemma b_T_svd : is_svd 2 4 (mode_matrix b_T 0) (np_identity 2) (mk [2]%nat [1; 1]) (mk [2; 4]%nat [1; 0; 0; 0; 0; 0; 0; 1]).
Proof.
  constructor; try (split; reflexivity).
  - intros [|[|a]] [|[|b]] Ha Hb; cbn in Ha, Hb; try lia; ev; lra.
  - intros [|[|a]] [|[|b]] Ha Hb; cbn in Ha, Hb; try lia; ev; lra.
  - intros [|[|r]] Hr; cbn in Hr; try lia; ev; lra.
  - intros [|[|r]] [|[|s]] Hr; cbn in Hr; try lia; ev; lra.
  - intros [|[|i]] [|[|[|[|j]]]] Hi Hj; try lia; ev; lra.
Qed.
Example C78_no_model_example : forall Us w, rows Us = [2; 2; 2]%nat -> 1 <= sse b_T Us w 1.
Proof.
  intros Us w Hr. assert (E : left_out 2 1 (mk [2]%nat [1; 1]) = 1) by (ev; lra). rewrite <- E.
  assert (H0 : (0 < length (shape b_T))%nat) by (cbn; lia). exact (C78_no_model_beats b_T Us w 1 0 _ _ _ Hr H0 b_T_svd).
Qed.

(** For matrices the bound is reached: some K-component model has exactly this error. *)
Theorem C78_matrix_reached : forall X N M K U S Vh, wf X -> shape X = [N; M] -> is_svd N M X U S Vh ->
  exists Us, factors_ok K X Us /\ sse X Us unit_weights K = left_out (Nat.min N M) K S.
Proof. exact matrix_reached. Qed.
Print Assumptions C78_matrix_reached.
Example C78_matrix_example : exists Us, factors_ok 1 b_X Us /\ sse b_X Us unit_weights 1 = 1.
Proof.
  destruct (C78_matrix_reached b_X 2 2 1 (np_identity 2) (mk [2]%nat [3; 1]) (np_identity 2)) as (Us & H1 & H2); [reflexivity|reflexivity| |].
  - constructor; try (split; reflexivity).
    + intros [|[|a]] [|[|b]] Ha Hb; cbn in Ha, Hb; try lia; ev; lra.
    + intros [|[|a]] [|[|b]] Ha Hb; cbn in Ha, Hb; try lia; ev; lra.
    + intros [|[|r]] Hr; cbn in Hr; try lia; ev; lra.
    + intros [|[|r]] [|[|s]] Hr; cbn in Hr; try lia; ev; lra.
    + intros [|[|i]] [|[|j]] Hi Hj; try lia; ev; lra.
  - exists Us. split; [exact H1|]. rewrite H2. ev; lra.
Qed.

(** What CP_ALS reports: SSE and explained variance, in every state a fit can be in *)
Theorem C78_reported : forall env K s n U S Vh, cp_coherent K s -> (n < length (shape (cp_X s)))%nat ->
  let N := nth n (shape (cp_X s)) 0%nat in let M := mode_width (cp_X s) n in
  is_svd N M (mode_matrix (cp_X s) n) U S Vh ->
  exists e, cp_SSE env s = Ok e /\ left_out (Nat.min N M) K S <= e /\
    (energy (cp_X s) <> 0 -> exists v, cp_explained env s = Ok (Fin v) /\ v <= 1 - left_out (Nat.min N M) K S / energy (cp_X s)).
Proof. exact reported_limit. Qed.
Print Assumptions C78_reported.
Lemma b_X_thin : is_svd 2 2 (mode_matrix b_X 0) (np_identity 2) (mk [2]%nat [3; 1]) (np_identity 2).
Proof.
  constructor; try (split; reflexivity).
  - intros [|[|a]] [|[|b]] Ha Hb; cbn in Ha, Hb; try lia; ev; lra.
  - intros [|[|a]] [|[|b]] Ha Hb; cbn in Ha, Hb; try lia; ev; lra.
  - intros [|[|r]] Hr; cbn in Hr; try lia; ev; lra.
  - intros [|[|r]] [|[|s]] Hr; cbn in Hr; try lia; ev; lra.
  - intros [|[|i]] [|[|j]] Hi Hj; try lia; ev; lra.
Qed.
Lemma b_data : data_ok b_X.
Proof. split; [reflexivity|]. split; [cbn; lia|]. repeat constructor; discriminate. Qed.
(** Any one-component model of a 2 x 2 matrix with singular values 3 and 1: at most nine tenths explained *)
Example C78_reported_example : forall env s, cp_coherent 1 s -> cp_X s = b_X -> exists v, cp_explained env s = Ok (Fin v) /\ v <= 9 / 10.
Proof.
  intros env s HC E. assert (Hn : (0 < length (shape (cp_X s)))%nat) by (rewrite E; cbn; lia).
  assert (HE : energy b_X = 10) by (ev; lra). assert (HL : left_out 2 1 (mk [2]%nat [3; 1]) = 1) by (ev; lra).
  pose proof (C78_reported env 1 s 0 (np_identity 2) (mk [2]%nat [3; 1]) (np_identity 2) HC Hn) as H. cbn zeta in H. rewrite E in H.
  destruct (H b_X_thin) as (e & _ & _ & HV). change (Nat.min (nth 0 (shape b_X) 0%nat) (mode_width b_X 0)) with 2%nat in HV.
  rewrite HE, HL in HV. destruct HV as (v & Ev & Hv); [lra|]. exists v. split; [exact Ev|]. lra.
Qed.

(** Unconstrained fits from any start *)
Theorem C78_fits : forall env cs K cf disk draws X max_its arg ds,
  cs_rank cs = K -> cs_ridge cs = None -> svd_works_on K K (env_svd env) -> data_ok X -> usable_start env cs K X draws arg ->
  cp_last (ds_num ds) = None -> free_flags (cp_nn (ds_num ds)) (length (shape X)) ->
  free_flags (cp_orth (ds_num ds)) (length (shape X)) ->
  let budget := match max_its with Some m => m | None => ds_max ds end in
  (0 < budget)%Z -> (forall lg, In lg (ds_logs ds) -> exists k, code_logger env cs k lg) -> checkpoints_fit cf budget ds ->
  exists ds' e, cp_fit env cs cf disk draws X max_its arg ds = (ds', None) /\ cp_SSE env (ds_num ds') = Ok e /\
    forall n U S Vh, (n < length (shape X))%nat ->
      let N := nth n (shape X) 0%nat in let M := mode_width X n in
      is_svd N M (mode_matrix X n) U S Vh -> left_out (Nat.min N M) K S <= e.
Proof. exact fit_limit. Qed.
Print Assumptions C78_fits.
Example C78_fits_example : exists ds' e, cp_fit q_env q_cs q_cf no_disk q_draws b_X (Some 5%Z) NoArg q_ds = (ds', None) /\
  cp_SSE q_env (ds_num ds') = Ok e /\ 1 <= e.
Proof.
  destruct (C78_fits q_env q_cs 1 q_cf no_disk q_draws b_X (Some 5%Z) NoArg q_ds) as (ds' & e & E & ES & H);
    try reflexivity; auto using b_data, q_logs, q_ckpts; try (now left).
  - apply svd_row_works. lia.
  - left. split; [reflexivity|]. split; [reflexivity|]. split; [repeat constructor|reflexivity].
  - exists ds', e. split; [exact E|]. split; [exact ES|]. assert (HL : left_out 2 1 (mk [2]%nat [3; 1]) = 1) by (ev; lra). rewrite <- HL.
    assert (Hn : (0 < length (shape b_X))%nat) by (cbn; lia). exact (H 0%nat _ _ _ Hn b_X_thin).
Qed.

(** PARAFAC2: the singular values of the slices next to each other, whatever A, B, C and the projections *)
Theorem C78_no_parafac2_beats : forall K nI A B C Xs Ps U S Vh, let M := length (columns Xs) in
  is_svd nI M (side_by_side nI Xs) U S Vh -> left_out (Nat.min nI M) K S <= pf_sse K nI A B C Xs Ps.
Proof. exact no_parafac2_beats. Qed.
Print Assumptions C78_no_parafac2_beats.
Theorem C78_parafac2_reported : forall K nI s U S Vh, p2_ok K nI s -> let M := length (columns (p2_X s)) in
  is_svd nI M (side_by_side nI (p2_X s)) U S Vh -> exists e, p2_SSE s = Ok e /\ left_out (Nat.min nI M) K S <= e.
Proof. exact parafac2_limit. Qed.
Print Assumptions C78_parafac2_reported.
Definition b_Xs : list nd := [mk [2; 1]%nat [1; 0]; mk [2; 2]%nat [0; 0; 3; 4]].
Lemma b_Xs_svd : is_svd 2 3 (side_by_side 2 b_Xs) (mk [2; 2]%nat [0; 1; 1; 0]) (mk [2]%nat [5; 1]) (mk [2; 3]%nat [0; 3 / 5; 4 / 5; 1; 0; 0]).
Proof.
  constructor; try (split; reflexivity).
  - intros [|[|a]] [|[|b]] Ha Hb; cbn in Ha, Hb; try lia; ev; lra.
  - intros [|[|a]] [|[|b]] Ha Hb; cbn in Ha, Hb; try lia; ev; lra.
  - intros [|[|r]] Hr; cbn in Hr; try lia; ev; lra.
  - intros [|[|r]] [|[|s]] Hr; cbn in Hr; try lia; ev; lra.
  - intros [|[|i]] [|[|[|j]]] Hi Hj; try lia; ev; lra.
Qed.
Example C78_parafac2_example : forall A B C Ps, 1 <= pf_sse 1 2 A B C b_Xs Ps.
Proof.
  intros A B C Ps. assert (E : left_out 2 1 (mk [2]%nat [5; 1]) = 1) by (ev; lra). rewrite <- E.
  apply (C78_no_parafac2_beats 1 2 A B C b_Xs Ps _ _ _ b_Xs_svd).
Qed.
