(** Properties C75 and C76: unconstrained PARAFAC2 fits to any data. *)
From Verif Require Import SafeExamples.
Local Open Scope R_scope.

(** *** C75.  [plain_fit]: an unconstrained decomposer with a random start; [plain_run]: its budget, loggers and checkpoint file;
    [wide]: no slice has fewer columns than there are components.  Nothing is assumed about the values or ranks of the data. *)
Theorem C75_fit_completes : forall env ps K nI cf disk draws Xs max_its arg ds,
  let budget := match max_its with Some m => m | None => ds_max ds end in
  plain_fit env ps K nI draws Xs -> plain_run ps cf budget ds -> wide K Xs ->
  exists ds', p2_fit env ps cf disk draws (Slices Xs) max_its arg ds = (ds', None) /\ (0 < ds_it ds' <= budget)%Z /\
    p2_X (ds_num ds') = Xs /\ is_mat nI K (p2_A (ds_num ds')) /\ is_mat K K (p2_B (ds_num ds')) /\
    is_mat (length Xs) K (p2_C (ds_num ds')) /\ length (p2_Ps (ds_num ds')) = length Xs /\
    forall k, (k < length Xs)%nat -> is_mat (width Xs k) K (nth k (p2_Ps (ds_num ds')) m0).
Proof.
  intros env ps K nI cf disk draws Xs max_its arg ds budget HF HN HW.
  destruct (@plain_completes env ps K nI cf disk draws Xs max_its arg ds HF HN HW)
    as (ds' & s0 & n & E & Eit & Hle & _ & _ & _ & _ & H & EX & _). exists ds'.
  pose proof (ok_A H). pose proof (ok_B H). pose proof (ok_C H) as HC. pose proof (ok_P H) as HP.
  destruct (p2_mats H) as (_ & HL & _). rewrite EX in *. repeat (split; [solve [auto | unfold budget in *; lia]|]). exact HP.
Qed.
Print Assumptions C75_fit_completes.

(** With a slice of fewer columns than there are components no fit gets past its random start. *)
Theorem C75_narrow_slice_raises : forall env ps K nI cf disk draws Xs max_its arg ds,
  lower (ps_init ps) = "random"%string -> ps_rank ps = K -> slices_ok nI Xs -> draws_ok K nI Xs draws ->
  (forall k, (k < length Xs)%nat -> qr_works_on (width Xs k) K (env_qr (pe_cp env))) ->
  ~ wide K Xs ->
  snd (p2_fit env ps cf disk draws (Slices Xs) max_its arg ds) = Some ValueError.
Proof. intros. eapply narrow_raises; eauto. now apply not_wide. Qed.
Print Assumptions C75_narrow_slice_raises.
Example C75_narrow_example : forall disk ds,
  snd (p2_fit nw_env nw_ps z_cf disk nw_draws (Slices nw_Xs) None P2None ds) = Some ValueError.
Proof. intros. apply C75_narrow_slice_raises with (K := 2%nat) (nI := 1%nat); auto using nw_slices, nw_draws_ok, nw_qr, nw_narrow. Qed.
Example C75_hypotheses_hold : plain_fit p2_ex_env ex_ps 1 1 z_draws z_Xs /\ plain_run ex_ps z_cf 1 z_ds /\ wide 1 z_Xs.
Proof. split; [apply z_plain|]. split; [apply z_run|apply z_wide]. Qed.

(** *** C76.  [untruncated]: every singular value of the matrix exceeds the code's tolerance. *)
Theorem C76_projections : forall env ps K nI cf disk draws Xs max_its arg ds ds' e,
  let budget := match max_its with Some m => m | None => ds_max ds end in
  plain_fit env ps K nI draws Xs -> plain_run ps cf budget ds -> wide K Xs ->
  p2_fit env ps cf disk draws (Slices Xs) max_its arg ds = (ds', e) ->
  exists t, p2_update env ps t = (ds_num ds', None) /\ p2_X t = Xs /\
    (forall k, (k < length Xs)%nat -> let w := width Xs k in let P := nth k (p2_Ps (ds_num ds')) m0 in
      let M := cross K nI (p2_A t) (p2_B t) (p2_C t) Xs k in
      is_mat w K P /\ (orth_cols w K (mget P) <-> untruncated (env_svd (pe_cp env)) w K M) /\
      (untruncated (env_svd (pe_cp env)) w K M -> forall Q, orth_cols w K Q ->
         slice_err K nI (p2_A t) (p2_B t) (p2_C t) Xs k (mget P) <= slice_err K nI (p2_A t) (p2_B t) (p2_C t) Xs k Q) /\
      (zero_slice nI Xs k -> P = np_zeros [w; K])) /\
    projected_err K nI (p2_A (ds_num ds')) (p2_B (ds_num ds')) (p2_C (ds_num ds')) Xs (p2_Ps (ds_num ds')) <=
    projected_err K nI (p2_A t) (p2_B t) (p2_C t) Xs (p2_Ps (ds_num ds')).
Proof. exact plain_projections. Qed.
Print Assumptions C76_projections.

(** The PARAFAC2 constraint: B_k^T B_k = B^T B when the columns of P_k are orthonormal, and 0 for a slice of zeros. *)
Theorem C76_grams : forall env ps K nI cf disk draws Xs max_its arg ds ds' e k a b,
  let budget := match max_its with Some m => m | None => ds_max ds end in
  plain_fit env ps K nI draws Xs -> plain_run ps cf budget ds -> wide K Xs ->
  p2_fit env ps cf disk draws (Slices Xs) max_its arg ds = (ds', e) ->
  (k < length Xs)%nat -> (a < K)%nat -> (b < K)%nat ->
  let P := nth k (p2_Ps (ds_num ds')) m0 in let B := p2_B (ds_num ds') in
  (orth_cols (width Xs k) K (mget P) -> slice_gram K (width Xs k) P B a b = sum K (fun r => mget B r a * mget B r b)) /\
  (zero_slice nI Xs k -> slice_gram K (width Xs k) P B a b = 0).
Proof.
  intros env ps K nI cf disk draws Xs max_its arg ds ds' e k a b budget HF HN HW E Hk Ha Hb P B.
  destruct (@plain_projections env ps K nI cf disk draws Xs max_its arg ds ds' e HF HN HW E) as (t & _ & _ & HP & _).
  destruct (HP k Hk) as (HM & _ & _ & HZ). fold P in HM, HZ. split.
  - intros HO. now apply orth_gram.
  - intros H0. rewrite (HZ H0). apply zero_gram.
Qed.
Print Assumptions C76_grams.

(** So the constraint that defines PARAFAC2 does not hold of every fit. *)
Theorem C76_equal_grams_refuted : ~ (forall env ps K nI cf disk draws Xs max_its arg ds ds' k k' a b,
  plain_fit env ps K nI draws Xs -> plain_run ps cf (match max_its with Some m => m | None => ds_max ds end) ds -> wide K Xs ->
  p2_fit env ps cf disk draws (Slices Xs) max_its arg ds = (ds', None) ->
  (k < length Xs)%nat -> (k' < length Xs)%nat -> (a < K)%nat -> (b < K)%nat ->
  slice_gram K (width Xs k) (nth k (p2_Ps (ds_num ds')) m0) (p2_B (ds_num ds')) a b =
  slice_gram K (width Xs k') (nth k' (p2_Ps (ds_num ds')) m0) (p2_B (ds_num ds')) a b).
Proof.
  intros H. destruct z_result as (ds' & E & Hp & Hz).
  specialize (H p2_ex_env ex_ps 1%nat 1%nat z_cf no_disk z_draws z_Xs (Some 1%Z) P2None z_ds ds' 0%nat 1%nat 0%nat 0%nat
    z_plain z_run z_wide E).
  rewrite H in Hp by (cbn; lia). rewrite Hz in Hp. lra.
Qed.
Print Assumptions C76_equal_grams_refuted.
Example C76_zero_slice_fit : zero_slice 1 z_Xs 1 /\
  exists ds', p2_fit p2_ex_env ex_ps z_cf no_disk z_draws (Slices z_Xs) (Some 1%Z) P2None z_ds = (ds', None).
Proof.
  split.
  - intros i j Hi Hj. change (width z_Xs 1) with 1%nat in Hj. replace i with 0%nat by lia. replace j with 0%nat by lia. ev. reflexivity.
  - destruct z_result as (ds' & E & _). eauto.
Qed.
