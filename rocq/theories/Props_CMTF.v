(** Properties C51-C53, C61-C64: CMTF_ALS. *)
From Verif Require Import CMTFResume.
Local Open Scope R_scope.

(** One coupled matrix of three columns, coupled to mode 0 of a one-entry tensor *)
Definition ex_cm : cmtf_state :=
  {| cm_cp := start 1 (mk [1; 1]%nat [1]) [mk [1; 1]%nat [1]; mk [1; 1]%nat [1]] [false; false] [false; false];
     cm_Y := [mk [1; 3]%nat [1; 2; 3]]; cm_modes := [0%Z]; cm_V := [mk [3; 1]%nat [0; 0; 0]] |}.
Definition ex_cm_env : cp_env :=
  {| env_svd := svd_row; env_svd_u := fun A => Ok (np_identity (nrows A)); env_qr := fun A => Ok A;
     env_nnls := fun A b => Ok b; env_junk := fun _ _ => 0 |}.
Lemma ex_cm_svd : svd_works_rows 1 (env_svd ex_cm_env).
Proof. intros m Hm. now apply svd_row_works. Qed.
Lemma ex_cm_ok : cm_ok 1 [0%nat] ex_cm.
Proof.
  constructor; try reflexivity.
  - apply data11.
  - apply fac11.
  - apply is_vec_ones.
  - split; [reflexivity|]. split; [reflexivity|]. intros [|i] Hi; cbn in Hi; [|lia]. cbn.
    split; [lia|]. split; split; reflexivity.
Qed.
Lemma ex_cm_free : free_fit w_cs (cm_cp ex_cm).
Proof.
  intros m Hm. cbn in Hm. split; [reflexivity|].
  split; exists [false; false]; (split; [reflexivity|]); destruct m as [|[|m]]; [reflexivity|reflexivity|lia|reflexivity|reflexivity|lia].
Qed.
Lemma ex_nodup : NoDup [0%nat].
Proof. constructor; [intros []|constructor]. Qed.

(** *** C51.  [coupled_loss]: SSE of the tensor plus the SSEs of the coupled matrices.  [NoDup ms]: at most one
    matrix per mode. *)
Theorem C51_factor_update_is_optimal : forall env cs K ms s m,
  cm_ok K ms s -> NoDup ms -> cs_rank cs = K -> (1 <= K)%nat -> (m < length (shape (cp_X (cm_cp s))))%nat ->
  free_mode cs (cm_cp s) m -> svd_works_rows K (env_svd env) ->
  exists s' Z, cmtf_update_factor env cs s m = (s', None) /\ cm_ok K ms s' /\
    cm_fms s' = with_factor m Z (cm_fms s) /\ cm_V s' = cm_V s /\
    forall Z', coupled_loss K (cp_X (cm_cp s)) (with_factor m Z (cm_fms s)) unit_weights ms (cm_V s) (cm_Y s) <=
               coupled_loss K (cp_X (cm_cp s)) (with_factor m Z' (cm_fms s)) unit_weights ms (cm_V s) (cm_Y s).
Proof.
  intros env cs K ms s m H HN HK HK1 Hm Hf Hs.
  destruct (@cm_update_optimal env cs K ms s m H HK HK1 Hm Hf Hs) as (s' & Z & A & _ & B & C & _ & D & E).
  exists s', Z. repeat (split; [solve [auto]|]). auto.
Qed.
Print Assumptions C51_factor_update_is_optimal.

Theorem C51_matrix_update_is_optimal : forall env K ms s,
  cm_ok K ms s -> NoDup ms -> free_nn s -> svd_works_rows K (env_svd env) ->
  exists s', update_uncoupled env s = (s', None) /\ cm_cp s' = cm_cp s /\ cm_ok K ms s' /\
    forall i W, (i < length ms)%nat ->
      mat_sse K (nth (nth i ms 0%nat) (cm_fms s) m0) (nth i (cm_V s') m0) (nth i (cm_Y s) m0) <=
      mat_sse K (nth (nth i ms 0%nat) (cm_fms s) m0) W (nth i (cm_Y s) m0).
Proof.
  intros env K ms s H HN Hf Hs. destruct (@update_uncoupled_ok env K ms s H HN Hf Hs) as (s' & A & B & _ & C & D). eauto.
Qed.
Print Assumptions C51_matrix_update_is_optimal.

(** No iteration raises, and with unit weights the loss the code reports never goes up. *)
Theorem C51_loss_never_increases : forall env cs K ms s n,
  svd_works_rows K (env_svd env) -> cs_rank cs = K -> (1 <= K)%nat -> NoDup ms ->
  cm_ok K ms s -> free_fit cs (cm_cp s) -> (forall r, (r < K)%nat -> vget (kt_w (cm_dec s)) r = 1) ->
  snd (cmtf_update_factors env cs (state_after (cmtf_model env cs) s n)) = None /\
  exists l l', cmtf_SSE env (state_after (cmtf_model env cs) s n) = Ok l /\
    cmtf_SSE env (state_after (cmtf_model env cs) s (S n)) = Ok l' /\ l' <= l.
Proof.
  intros env cs K ms s n Hs HK HK1 HN H Hf Hw.
  destruct (cm_iterations Hs HK HK1 HN H Hf n) as (H1 & HS1 & E1 & H2 & Hle).
  destruct (cm_iterations Hs HK HK1 HN H Hf (S n)) as (_ & HS2 & _).
  split; [exact E1|]. eexists. eexists. split; [exact (cmtf_SSE_ok env H1)|]. split; [exact (cmtf_SSE_ok env H2)|].
  assert (Hw1 : forall r, (r < K)%nat -> vget (kt_w (cm_dec (state_after (cmtf_model env cs) s n))) r = 1).
  { intros r Hr. unfold cm_dec. rewrite (sp_w (sc_cp HS1)). apply (Hw r Hr). }
  assert (Hw2 : forall r, (r < K)%nat -> vget (kt_w (cm_dec (state_after (cmtf_model env cs) s (S n)))) r = 1).
  { intros r Hr. unfold cm_dec. rewrite (sp_w (sc_cp HS2)). apply (Hw r Hr). }
  rewrite (@coupled_loss_unit K _ _ _ _ _ _ Hw1), (@coupled_loss_unit K _ _ _ _ _ _ Hw2).
  rewrite (sp_X (sc_cp HS1)), (sp_X (sc_cp HS2)), (sc_Y HS1), (sc_Y HS2). exact Hle.
Qed.
Print Assumptions C51_loss_never_increases.

Theorem C51_fit_loop_improves : forall env cs cf K ms ds ds' e,
  svd_works_rows K (env_svd env) -> cs_rank cs = K -> (1 <= K)%nat -> NoDup ms ->
  cm_ok K ms (ds_num ds) -> free_fit cs (cm_cp (ds_num ds)) ->
  (forall r, (r < K)%nat -> vget (kt_w (cm_dec (ds_num ds))) r = 1) ->
  cp_fit_loop (cmtf_model env cs) cf ds = (ds', e) ->
  exists l l', cmtf_SSE env (ds_num ds) = Ok l /\ cmtf_SSE env (ds_num ds') = Ok l' /\ l' <= l.
Proof. exact cm_fit_le. Qed.
Print Assumptions C51_fit_loop_improves.

Example C51_example : svd_works_rows 1 (env_svd ex_cm_env) /\ NoDup [0%nat] /\ cm_ok 1 [0%nat] ex_cm /\
  free_fit w_cs (cm_cp ex_cm) /\ (forall r, (r < 1)%nat -> vget (kt_w (cm_dec ex_cm)) r = 1) /\
  cmtf_SSE ex_cm_env ex_cm = Ok 14.
Proof.
  repeat (split; [solve [auto using ex_cm_svd, ex_nodup, ex_cm_ok, ex_cm_free]|]). split.
  - intros r Hr. now apply vget_ones.
  - rewrite (cmtf_SSE_ok _ ex_cm_ok). f_equal. ev. ring.
Qed.

(** *** C52.  Non-negativity: no update ever returns, and a fit loop that returns has not updated anything. *)
Theorem C52_nonnegative_update_never_returns : forall env cs s m nn,
  cp_nn (cm_cp s) = Some nn -> nth_error nn m = Some true -> (m < ndim (cp_X (cm_cp s)))%nat ->
  snd (cmtf_update_factors env cs s) <> None.
Proof. exact cm_nonneg_never. Qed.
Print Assumptions C52_nonnegative_update_never_returns.

(** When the modes before it are unconstrained, what is raised is AttributeError. *)
Theorem C52_nonnegative_attribute_error : forall env cs K ms s m nn,
  svd_works_rows K (env_svd env) -> cs_rank cs = K -> (1 <= K)%nat -> cm_ok K ms s ->
  cp_nn (cm_cp s) = Some nn -> nth_error nn m = Some true -> (m < ndim (cp_X (cm_cp s)))%nat ->
  (forall j, (j < m)%nat -> free_mode cs (cm_cp s) j) ->
  snd (cmtf_update_factors env cs s) = Some AttributeError.
Proof. exact cm_nonneg_attribute_error. Qed.
Print Assumptions C52_nonnegative_attribute_error.

Theorem C52_nonnegative_fit_never_updates : forall env cs cf ds ds' m nn,
  cp_nn (cm_cp (ds_num ds)) = Some nn -> nth_error nn m = Some true ->
  (m < ndim (cp_X (cm_cp (ds_num ds))))%nat ->
  cp_fit_loop (cmtf_model env cs) cf ds = (ds', None) -> ds_num ds' = ds_num ds.
Proof. exact cm_nonneg_fit. Qed.
Print Assumptions C52_nonnegative_fit_never_updates.

(** A later matrix for a mode that already has one: its factor is never updated, and neither it nor its factor
    affects anything else ([swapped i Y V s]: s with the i-th matrix and its factor replaced by Y and V). *)
Theorem C52_only_the_first_matrix_counts : forall env cs s i Y V,
  repeated (cm_modes s) i ->
  nth_error (cm_V (fst (cmtf_update_factors env cs s))) i = nth_error (cm_V s) i /\
  cmtf_update_factors env cs (swapped i Y V s) =
    (let (s', e) := cmtf_update_factors env cs s in (swapped i Y V s', e)).
Proof.
  intros env cs s i Y V H. destruct (@swap_update env cs i Y V s H) as (A & B & _). auto.
Qed.
Print Assumptions C52_only_the_first_matrix_counts.

Theorem C52_mse_divisor : forall env K ms s, cm_ok K ms s ->
  exists l, cmtf_SSE env s = Ok l /\
  cmtf_MSE env s = Ok (xdivR l (INR (prodl (shape (cp_X (cm_cp s))) +
    list_sum (map (fun m => nth m (shape (cp_X (cm_cp s))) 0 * K)%nat ms)))).
Proof.
  intros env K ms s H. eexists. split; [exact (cmtf_SSE_ok env H)|]. exact (cm_MSE_ok env H).
Qed.
Print Assumptions C52_mse_divisor.

(** The sum of squared errors divided by the number of data entries is something else. *)
Theorem C52_mse_is_a_mean_refuted : ~ forall env K ms s l, cm_ok K ms s -> cmtf_SSE env s = Ok l ->
  cmtf_MSE env s = Ok (xdivR l (INR (prodl (shape (cp_X (cm_cp s))) + list_sum (map (fun Y => prodl (shape Y)) (cm_Y s))))).
Proof.
  intros H. specialize (H ex_cm_env 1%nat [0%nat] ex_cm _ ex_cm_ok (cmtf_SSE_ok ex_cm_env ex_cm_ok)).
  rewrite (cm_MSE_ok ex_cm_env ex_cm_ok) in H.
  assert (Hinj : forall a b : xr, Ok a = Ok b -> a = b) by (intros a b E; now injection E). apply Hinj in H.
  change (prodl (shape (cp_X (cm_cp ex_cm))) + list_sum (map (fun m => nth m (shape (cp_X (cm_cp ex_cm))) 0 * 1) [0%nat]))%nat with 2%nat in H.
  change (prodl (shape (cp_X (cm_cp ex_cm))) + list_sum (map (fun Y => prodl (shape Y)) (cm_Y ex_cm)))%nat with 4%nat in H.
  assert (El : coupled_loss 1 (cp_X (cm_cp ex_cm)) (cm_fms ex_cm) (vget (kt_w (cm_dec ex_cm))) [0%nat] (cm_V ex_cm) (cm_Y ex_cm) = 14).
  { ev. ring. }
  rewrite El in H. unfold xdivR in H. repeat destruct (Req_EM_T _ _) in H; cbn in *; try lra; try discriminate.
  injection H as H. lra.
Qed.
Print Assumptions C52_mse_is_a_mean_refuted.

Definition ex_cm_nn : cmtf_state := cm_with_cp (cp_with_constraints (Some [false; true]) (Some [false; false]) (cm_cp ex_cm)) ex_cm.
Definition ex_cm_twice : cmtf_state := cm_with_V [mk [3; 1]%nat [0; 0; 0]; mk [1; 1]%nat [5]]
  (cm_with_coupling [mk [1; 3]%nat [1; 2; 3]; mk [1; 1]%nat [8]] [0%Z; 0%Z] ex_cm).
Example C52_example : snd (cmtf_update_factors ex_cm_env w_cs ex_cm_nn) = Some AttributeError /\
  repeated (cm_modes ex_cm_twice) 1 /\ snd (cmtf_update_factors ex_cm_env w_cs ex_cm_twice) = None.
Proof.
  split; [|split].
  - apply (@cm_nonneg_attribute_error ex_cm_env w_cs 1 [0%nat] ex_cm_nn 1 [false; true]); auto using ex_cm_svd.
    + destruct ex_cm_ok. constructor; auto.
    + intros [|j] Hj; [|lia]. split; [reflexivity|].
      split; [exists [false; true]|exists [false; false]]; split; reflexivity.
  - exists 0%nat. split; [cbn; lia|reflexivity].
  - assert (HOK : cm_ok 1 [0; 0]%nat ex_cm_twice).
    { constructor; try reflexivity; try apply ex_cm_ok. split; [reflexivity|]. split; [reflexivity|].
      intros [|[|i]] Hi; cbn in Hi; [| |lia]; cbn; (split; [lia|]); split; split; reflexivity. }
    destruct (@cm_modes_decrease ex_cm_env w_cs 1 [0; 0]%nat [0; 1]%nat ex_cm_svd eq_refl (le_n 1) ex_cm_twice HOK)
      as (s1 & E1 & HOK1 & HS1 & _).
    { repeat constructor; try (cbn; lia); try (apply ex_cm_free; cbn; lia). }
    unfold cmtf_update_factors. change (seq 0 (ndim (cp_X (cm_cp ex_cm_twice)))) with [0; 1]%nat. rewrite E1.
    unfold update_uncoupled. rewrite (ck_modes HOK1). change (mode_to_cm_idx (map Z.of_nat [0; 0]%nat)) with [(0%Z, [0; 1]%nat)].
    cbn [uncoupled_loop].
    destruct (@uncoupled_step_ok ex_cm_env 1 [0; 0]%nat s1 0 (cm_V s1) HOK1) as (W & EW & _).
    + cbn; lia.
    + exists [false; false]. rewrite (sp_nn (sc_cp HS1)), (sp_X (sc_cp HS1)). split; [reflexivity|].
      intros [|[|m]] Hm; cbn in Hm; try lia; reflexivity.
    + apply ex_cm_svd.
    + destruct (ck_coup HOK1) as (A & _ & _). exact A.
    + destruct (ck_coup HOK1) as (_ & _ & A). now apply (A 0%nat ltac:(cbn; lia)).
    + change (uncoupled_step ex_cm_env s1 0 [0; 1]%nat (cm_V s1)) with (uncoupled_step ex_cm_env s1 (Z.of_nat (nth 0 [0; 0]%nat 0%nat)) [0%nat] (cm_V s1)).
      rewrite EW. reflexivity.
Qed.

(** *** C53 *)
Theorem C53_coupled_matrices_after_normalisation : forall eps K ms s,
  cm_ok K ms s -> kt_rank (cm_dec s) = K ->
  (forall U r, In U (cm_fms s) -> (r < K)%nat -> clen U r + eps <> 0) ->
  exists s' Rs', cmtf_normalize eps s = Ok s' /\ reconstructed_coupled_matrices s' = Ok Rs' /\
    forall i a b, (i < length ms)%nat ->
      (a < nrows (nth i (cm_Y s) m0))%nat -> (b < ncols (nth i (cm_Y s) m0))%nat ->
      mget (nth i Rs' m0) a b =
      sum K (fun r => mget (nth (nth i ms 0%nat) (cm_fms s) m0) a r * mget (nth i (cm_V s) m0) b r *
        (clen (nth (nth i ms 0%nat) (cm_fms s) m0) r / (clen (nth (nth i ms 0%nat) (cm_fms s) m0) r + eps))).
Proof. exact cm_normalize_reconstructs. Qed.
Print Assumptions C53_coupled_matrices_after_normalisation.

Theorem C53_exact_without_eps : forall env K ms s,
  cm_ok K ms s -> kt_rank (cm_dec s) = K ->
  (forall U r, In U (cm_fms s) -> (r < K)%nat -> clen U r <> 0) ->
  exists s' Rs Rs', cmtf_normalize 0 s = Ok s' /\ reconstructed_coupled_matrices s = Ok Rs /\
    reconstructed_coupled_matrices s' = Ok Rs' /\
    (forall i a b, (i < length ms)%nat ->
      (a < nrows (nth i (cm_Y s) m0))%nat -> (b < ncols (nth i (cm_Y s) m0))%nat ->
      mget (nth i Rs' m0) a b = mget (nth i Rs m0) a b) /\
    cmtf_SSE env s' = cmtf_SSE env s.
Proof. exact cm_normalize_exact. Qed.
Print Assumptions C53_exact_without_eps.

Example C53_example : cm_ok 1 [0%nat] ex_cm /\ kt_rank (cm_dec ex_cm) = 1%nat /\
  (forall U r, In U (cm_fms ex_cm) -> (r < 1)%nat -> clen U r <> 0).
Proof.
  split; [apply ex_cm_ok|]. split; [reflexivity|]. intros U [|r] HU Hr; [|lia].
  destruct HU as [<-|[<-|[]]]; rewrite clen11 by lra; lra.
Qed.

(** *** C61.  [with_weights w s]: s with the weights of its Kruskal tensor replaced by w. *)
Theorem C61_updates_ignore_weights : forall env cs w s,
  cmtf_update_factors env cs (with_weights w s) =
  (let (s', e) := cmtf_update_factors env cs s in (with_weights w s', e)).
Proof. exact weights_update. Qed.
Print Assumptions C61_updates_ignore_weights.

(** A fit from precomputed components starts with unit-length columns (up to 1e-15), weights that are the products
    of the column lengths given, and a loss computed as if the components had not been changed. *)
Theorem C61_weights_of_precomputed_components : forall env cs disk draws vdraws X Y ms max_its d ds K,
  lower (cs_init cs) = "precomputed"%string -> cs_rank cs = K ->
  data_ok X -> factors_ok K X (kt_fms d) -> is_vec K (kt_w d) -> kt_rank d = K ->
  all_false (cp_orth (cm_cp (ds_num ds))) (length (shape X)) ->
  length Y = length ms -> (length ms <= length vdraws)%nat ->
  (forall i, (i < length ms)%nat -> (nth i ms 0 < length (shape X))%nat /\
     is_mat (nth (nth i ms 0) (shape X) 0)%nat (ncols (nth i Y m0)) (nth i Y m0) /\
     is_mat (ncols (nth i Y m0)) K (nth i vdraws m0) /\
     (forall r, (r < K)%nat -> clen (nth i vdraws m0) r <> 0) /\
     match cp_nn (cm_cp (ds_num ds)) with None => True | Some nn => (nth i ms 0 < length nn)%nat end) ->
  exists ds', cmtf_init_fit env cs disk draws vdraws X Y (map Z.of_nat ms) max_its (DecArg d) ds = (ds', None) /\
    cm_ok K ms (ds_num ds') /\
    ds_prev ds' = Fin (coupled_loss K X (kt_fms d) unit_weights ms (cm_V (ds_num ds')) Y) /\
    (forall m a r, (m < length (kt_fms d))%nat -> (a < nrows (nth m (kt_fms d) m0))%nat -> (r < K)%nat ->
       mget (nth m (cm_fms (ds_num ds')) m0) a r = mget (nth m (kt_fms d) m0) a r / (clen (nth m (kt_fms d) m0) r + / 10 ^ 15)) /\
    forall r, (r < K)%nat -> vget (kt_w (cm_dec (ds_num ds'))) r = prodf (kt_fms d) (fun U => clen U r).
Proof.
  intros env cs disk draws vdraws X Y ms max_its d ds K Hk HK HX HF Hw HR HO HY HD H.
  destruct (@init_coupled_ok vdraws K X ms (cm_with_cp (cp_with_dec d (cp_with_target X (cm_cp (ds_num ds))))
                        (cm_with_coupling Y (map Z.of_nat ms) (ds_num ds)))) as (s1 & E1 & HC & _); auto.
  destruct (@cm_init_precomputed env cs disk draws vdraws X Y ms max_its d ds K s1 Hk HK HX HF Hw HR HO E1 HC)
    as (ds' & EI & EP & HOK & EX & EV & EY & Ef & _ & _ & Ew).
  exists ds'. split; auto. split; auto. split; [now rewrite EP, EV|]. split; [|exact Ew].
  intros m a r Hm Ha Hr. rewrite Ef, (nth_map_in (fun U => scaled eps15 (nrows U) K U) m0) by auto.
  unfold scaled. rewrite mget_tab2 by auto. rewrite clen_colnorm. reflexivity.
Qed.
Print Assumptions C61_weights_of_precomputed_components.

(** So the loss can go up: here, unconstrained and without coupled matrices, from 1 to 16 in one iteration. *)
Theorem C61_loss_never_increases_refuted : forall env, svd_works_rows 1 (env_svd env) ->
  exists cs X d ds ds' s',
    cs_ridge cs = None /\ cp_nn (cm_cp (ds_num ds)) = None /\ cp_orth (cm_cp (ds_num ds)) = None /\
    cmtf_init_fit env cs (fun _ => None) [] [] X [] [] None (DecArg d) ds = (ds', None) /\
    ds_prev ds' = Fin 1 /\ cmtf_update_factors env cs (ds_num ds') = (s', None) /\ cmtf_SSE env s' = Ok 16.
Proof.
  intros env Hs. destruct (weights_break_descent Hs) as (ds' & s' & A & B & C & D).
  exists w_cs, w_X, w_dec, unfitted, ds', s'. repeat (split; [solve [auto]|]). exact D.
Qed.
Print Assumptions C61_loss_never_increases_refuted.

Example C61_example : svd_works_rows 1 (env_svd ex_cm_env) /\ data_ok w_X /\ factors_ok 1 w_X (kt_fms w_dec) /\
  is_vec 1 (kt_w w_dec) /\ kt_rank w_dec = 1%nat /\ all_false (cp_orth (cm_cp (ds_num unfitted))) 2.
Proof. split; [apply ex_cm_svd|]. split; [apply data11|]. split; [apply fac11|]. repeat split; reflexivity. Qed.

(** *** C62.  Coupling modes counted from the end are accepted, but then the updates of the factors of the tensor are
    those of CP_ALS: whatever the matrices are, they have no influence. *)
Theorem C62_negative_modes_decouple : forall env cs s,
  Forall (fun z => (z < 0)%Z) (cm_modes s) ->
  (exists nn, cp_nn (cm_cp s) = Some nn /\ forall m, (m < ndim (cp_X (cm_cp s)))%nat -> nth_error nn m = Some false) ->
  cm_cp (fst (cmtf_update_factors env cs s)) = fst (cp_update_factors env cs (cm_cp s)) /\
  (snd (cp_update_factors env cs (cm_cp s)) <> None ->
   snd (cmtf_update_factors env cs s) = snd (cp_update_factors env cs (cm_cp s))).
Proof. exact negative_update. Qed.
Print Assumptions C62_negative_modes_decouple.

(** The loss however is the one for the modes meant ([with_front_modes s]: s with the modes counted from the front). *)
Theorem C62_loss_counts_them : forall env s,
  Forall (fun z => (- Z.of_nat (length (cm_fms s)) <= z)%Z) (cm_modes s) ->
  cmtf_SSE env (with_front_modes s) = cmtf_SSE env s /\
  Forall (fun z => (0 <= z)%Z) (cm_modes (with_front_modes s)).
Proof.
  intros env s H. split; [now apply front_SSE|]. apply Forall_forall. intros z Hz. apply in_map_iff in Hz as (y & <- & Hy).
  rewrite Forall_forall in H. specialize (H y Hy). unfold from_front. destruct (Z.ltb_spec y 0); lia.
Qed.
Print Assumptions C62_loss_counts_them.

(** So it can go up, although there is one matrix, weights are one and nothing is constrained. *)
Theorem C62_loss_never_increases_refuted : forall env, svd_works_rows 1 (env_svd env) ->
  exists cs s s' l l', free_fit cs (cm_cp s) /\ cm_ok 1 [0%nat] (with_front_modes s) /\
    (forall r, (r < 1)%nat -> vget (kt_w (cm_dec s)) r = 1) /\
    cmtf_SSE env s = Ok l /\ cmtf_update_factors env cs s = (s', None) /\ cmtf_SSE env s' = Ok l' /\ l < l'.
Proof.
  intros env Hs. destruct (negative_mode_increases Hs) as (s' & l & l' & A & B & C & D).
  exists w_cs, neg_state, s', l, l'. split.
  { intros m Hm. apply neg_free; [apply same_problem_refl|exact Hm]. }
  split; [apply neg_front_ok|]. split; [intros r Hr; now apply vget_ones|]. auto.
Qed.
Print Assumptions C62_loss_never_increases_refuted.

Example C62_example : Forall (fun z => (z < 0)%Z) (cm_modes neg_state) /\
  Forall (fun z => (- Z.of_nat (length (cm_fms neg_state)) <= z)%Z) (cm_modes neg_state) /\
  exists nn, cp_nn (cm_cp neg_state) = Some nn /\ forall m, (m < ndim (cp_X (cm_cp neg_state)))%nat -> nth_error nn m = Some false.
Proof.
  split; [repeat constructor|]. split; [repeat constructor; cbn; lia|]. exists [false; false]. split; [reflexivity|].
  intros [|[|m]] Hm; cbn in Hm; [reflexivity|reflexivity|lia].
Qed.

(** *** C63.  After any number of iterations the loss reported is the loss of the factors (with weights one) plus the sum
    of squares of the tensor that the factors make with weights w - 1: the cost of weights which nothing updates.  (For
    models whose last mode is not coupled.) *)
Theorem C63_reported_loss : forall env cs K ms s n,
  svd_works_rows K (env_svd env) -> cs_rank cs = K -> (1 <= K)%nat -> NoDup ms ->
  cm_ok K ms s -> free_fit cs (cm_cp s) -> ~ In (length (shape (cp_X (cm_cp s))) - 1)%nat ms ->
  let s' := state_after (cmtf_model env cs) s (S n) in
  kt_w (cm_dec s') = kt_w (cm_dec s) /\
  cmtf_SSE env s' = Ok
    (coupled_loss K (cp_X (cm_cp s)) (cm_fms s') unit_weights ms (cm_V s') (cm_Y s) +
     sumf (indices (shape (cp_X (cm_cp s)))) (fun idx => cp_entry (cm_fms s') (fun r => vget (kt_w (cm_dec s)) r - 1) K idx ^ 2)).
Proof. exact cm_reported_loss. Qed.
Print Assumptions C63_reported_loss.

(** So a perfect fit can be reported as a bad one for ever: for X = [[2]] from the components [[3]], [[1]] every iteration
    gives factors with product 2, and the loss 16. *)
Theorem C63_exact_fit_has_loss_zero_refuted : forall env, svd_works_rows 1 (env_svd env) ->
  exists cs X d ds, cs_ridge cs = None /\
    cmtf_init_fit env cs (fun _ => None) [] [] X [] [] None (DecArg d) unfitted = (ds, None) /\
    forall n, let s := state_after (cmtf_model env cs) (ds_num ds) (S n) in
      sse X (cm_fms s) unit_weights 1 = 0 /\ cmtf_SSE env s = Ok 16.
Proof.
  intros env Hs. destruct (@at_init env 2 3 1 None) as (ds & E & H & _); try lra.
  exists w_cs, w_X, (dec11 3 1), ds. split; [reflexivity|]. split; [exact E|]. intros n s. pose proof eps15_pos as He.
  assert (Hb : 1 / (1 + eps15) <> 0) by (apply Rgt_not_eq; apply Rdiv_lt_0_compat; lra).
  assert (A : at11 2 (2 / (1 / (1 + eps15))) (1 / (1 + eps15)) (3 * 1) s) by (eapply at_iterations; eauto; lra).
  split.
  - rewrite (at_fms A). assert (L : forall a b, sse w_X [mk [1; 1]%nat [a]; mk [1; 1]%nat [b]] unit_weights 1 = (2 - a * b) * (2 - a * b))
      by (intros a b; ev; ring).
    rewrite L. field. lra.
  - rewrite (at_loss env A). f_equal. field. lra.
Qed.
Print Assumptions C63_exact_fit_has_loss_zero_refuted.

(** And continuing a finished fit can undo it.  The normalisation at the end of the fit moves the size of the components
    to the weights; the next iteration rebuilds the factors without them. *)
Theorem C63_continue_fit_keeps_a_fit_refuted : forall env, svd_works_rows 1 (env_svd env) ->
  exists cs cf X d ds1 ds2 l1 l2, cs_ridge cs = None /\
    cmtf_fit env cs cf (fun _ => None) [] [] X [] [] (Some 1%Z) (DecArg d) unfitted = (ds1, None) /\
    cmtf_SSE env (ds_num ds1) = Ok l1 /\ l1 < / 1000 /\
    cmtf_continue_fit env cs cf (Some 2%Z) ds1 = (ds2, None) /\ cmtf_SSE env (ds_num ds2) = Ok l2 /\ 3 < l2.
Proof.
  intros env Hs. destruct (continue_undoes Hs) as (ds1 & ds2 & l1 & l2 & H).
  exists w_cs, plain_cf, w_X, (dec11 1 1), ds1, ds2, l1, l2. split; [reflexivity|exact H].
Qed.
Print Assumptions C63_continue_fit_keeps_a_fit_refuted.

Example C63_example : svd_works_rows 1 (env_svd ex_cm_env) /\ cs_rank w_cs = 1%nat /\ NoDup [0%nat] /\ cm_ok 1 [0%nat] ex_cm /\
  free_fit w_cs (cm_cp ex_cm) /\ ~ In (length (shape (cp_X (cm_cp ex_cm))) - 1)%nat [0%nat].
Proof.
  split; [apply ex_cm_svd|]. split; [reflexivity|]. split; [apply ex_nodup|]. split; [apply ex_cm_ok|]. split; [apply ex_cm_free|].
  cbn. lia.
Qed.

(** *** C64.  Checkpoints of a CMTF model do not contain the factors of the coupled matrices. *)
Theorem C64_checkpoints_omit_the_matrices : forall env cs ds V,
  let ds' := with_num (cm_with_V V (ds_num ds)) ds in
  ds_file (fst (store_checkpoint (cmtf_model env cs) ds')) = ds_file (fst (store_checkpoint (cmtf_model env cs) ds)) /\
  snd (store_checkpoint (cmtf_model env cs) ds') = snd (store_checkpoint (cmtf_model env cs) ds).
Proof. exact store_omits_V. Qed.
Print Assumptions C64_checkpoints_omit_the_matrices.

Theorem C64_loading_leaves_the_matrices : forall env cs f it ds,
  cm_V (ds_num (fst (load_checkpoint (cmtf_model env cs) f it ds))) = cm_V (ds_num ds).
Proof. exact load_leaves_V. Qed.
Print Assumptions C64_loading_leaves_the_matrices.

(** So a resumed fit depends on random numbers: the file [f] was written for some state, and two fits which continue
    from it with the same data have different factors after the first iteration. *)
Theorem C64_resuming_is_determined_refuted : forall env, svd_works_rows 1 (env_svd env) ->
  exists cs f before vd vd' X Y modes ds ds' s s',
    (let (after, e) := store_checkpoint (cmtf_model env cs) before in ds_file after = Some f /\ e = None) /\
    cs_init cs = "from_checkpoint"%string /\
    cmtf_init_fit env cs (fun _ => None) [] vd X Y modes None (PathArg (Some f)) unfitted = (ds, None) /\
    cmtf_init_fit env cs (fun _ => None) [] vd' X Y modes None (PathArg (Some f)) unfitted = (ds', None) /\
    cmtf_update_factors env cs (ds_num ds) = (s, None) /\ cmtf_update_factors env cs (ds_num ds') = (s', None) /\
    cm_fms s <> cm_fms s'.
Proof.
  intros env Hs. destruct (resumed_differ Hs) as (vd & vd' & ds & ds' & s & s' & _ & H).
  exists resume_cs, saved, (saving []), vd, vd', one11, [one11], [0%Z], ds, ds', s, s'. split; [|split; [reflexivity|exact H]].
  pose proof (saving_saved env resume_cs []) as HS. now destruct (store_checkpoint _ _).
Qed.
Print Assumptions C64_resuming_is_determined_refuted.

Example C64_example : svd_works_rows 1 (env_svd ex_cm_env) /\
  (forall env cs, ds_file (fst (store_checkpoint (cmtf_model env cs) (saving [one11]))) <> None).
Proof. split; [apply ex_cm_svd|]. intros env cs. now rewrite (proj1 (saving_saved env cs [one11])). Qed.
