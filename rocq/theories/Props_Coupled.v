(** Property C84: complete fits of CMTF_ALS. *)
From Verif Require Import QualityFacts CMTFResume CoupledSpec CMTFNorm CMTFLoss CMTFComplete Props_Quality Props_CMTF.
From Verif Require Import Prelude Lin.
Local Open Scope R_scope.

(** *** C84.  [Us]: the components the fit starts from, [t]: the state after the [n] iterations done.  The columns of the start are divided by
    their lengths and the products of these lengths become weights, which stay in the model that is returned although no update looks at them. *)
Theorem C84_fits_complete : forall env cs K cf disk draws vdraws X Y ms max_its arg ds,
  cs_rank cs = K -> (1 <= K)%nat -> cs_ridge cs = None -> NoDup ms -> svd_works_rows K (env_svd env) ->
  data_ok X -> usable_start env cs K X draws arg -> coupled_start K X ms Y vdraws ->
  free_flags (cp_nn (cm_cp (ds_num ds))) (length (shape X)) -> free_flags (cp_orth (cm_cp (ds_num ds))) (length (shape X)) ->
  let budget := match max_its with Some m => m | None => ds_max ds end in
  (0 < budget)%Z -> (forall lg, In lg (ds_logs ds) -> exists k, coupled_logger env k lg) -> checkpoints_fit cf budget ds ->
  exists ds1 ds' Us n, let t := state_after (cmtf_model env cs) (ds_num ds1) n in let s' := ds_num ds' in
    cmtf_init_fit env cs disk draws vdraws X Y (map Z.of_nat ms) max_its arg ds = (ds1, None) /\
    cmtf_fit env cs cf disk draws vdraws X Y (map Z.of_nat ms) max_its arg ds = (ds', None) /\
    factors_ok K X Us /\ (forall d, arg = DecArg d -> Us = kt_fms d) /\
    ds_it ds' = Z.of_nat n /\ (Z.of_nat n <= budget)%Z /\
    Forall2 (fun a b => lg_its b = lg_its a ++ its_of 0 n /\ length (lg_vals b) = (length (lg_vals a) + n)%nat) (ds_logs ds) (ds_logs ds') /\
    factors_ok K X (cm_fms s') /\ coupling_ok K X ms (cm_V s') Y /\ cp_X (cm_cp s') = X /\ cm_Y s' = Y /\
    coupled_loss K X (cm_fms t) unit_weights ms (cm_V t) Y <=
      coupled_loss K X (cm_fms (ds_num ds1)) unit_weights ms (cm_V (ds_num ds1)) Y /\
    (forall m a r, (m < length (shape X))%nat -> (a < nth m (shape X) 0)%nat -> (r < K)%nat ->
      mget (nth m (cm_fms (ds_num ds1)) m0) a r = mget (nth m Us m0) a r / (clen (nth m Us m0) r + eps15)) /\
    (forall m a r, (m < length (shape X))%nat -> (a < nth m (shape X) 0)%nat -> (r < K)%nat ->
      mget (nth m (cm_fms s') m0) a r = mget (nth m (cm_fms t) m0) a r / (clen (nth m (cm_fms t) m0) r + eps15)) /\
    (forall i b r, (i < length ms)%nat -> (b < ncols (nth i Y m0))%nat -> (r < K)%nat ->
      mget (nth i (cm_V s') m0) b r = mget (nth i (cm_V t) m0) b r * clen (nth (nth i ms 0%nat) (cm_fms t) m0) r) /\
    forall idx, valid idx (shape X) ->
      cp_entry (cm_fms s') (vget (kt_w (cm_dec s'))) K idx =
      sum K (fun r => prodf Us (fun U => clen U r) * colprod (cm_fms t) idx r *
                      prodf (cm_fms t) (fun U => clen U r / (clen U r + eps15))).
Proof. exact coupled_complete. Qed.
Print Assumptions C84_fits_complete.

(** What a fit has prepared before its first iteration *)
Theorem C84_starts : forall env cs K disk draws vdraws X Y ms max_its arg ds,
  cs_rank cs = K -> cs_ridge cs = None -> data_ok X -> usable_start env cs K X draws arg -> coupled_start K X ms Y vdraws ->
  free_flags (cp_nn (cm_cp (ds_num ds))) (length (shape X)) -> free_flags (cp_orth (cm_cp (ds_num ds))) (length (shape X)) ->
  exists ds1 Us, cmtf_init_fit env cs disk draws vdraws X Y (map Z.of_nat ms) max_its arg ds = (ds1, None) /\
    factors_ok K X Us /\ (forall d, arg = DecArg d -> Us = kt_fms d) /\
    (forall r, (r < K)%nat -> vget (kt_w (cm_dec (ds_num ds1))) r = prodf Us (fun U => clen U r)) /\
    (forall i b r, (i < length ms)%nat -> (b < ncols (nth i Y m0))%nat -> (r < K)%nat ->
      mget (nth i (cm_V (ds_num ds1)) m0) b r = mget (nth i vdraws m0) b r / clen (nth i vdraws m0) r) /\
    ds_prev ds1 = Fin (coupled_loss K X Us unit_weights ms (cm_V (ds_num ds1)) Y).
Proof.
  intros env cs K disk draws vdraws X Y ms max_its arg ds HK HR HX HU HCS Hnn Hor.
  destruct (@coupled_begin env cs K disk draws vdraws X Y ms max_its arg ds HK HR HX HU HCS Hnn Hor)
    as (ds1 & Us & EI & HF & Hd & _ & _ & _ & _ & _ & _ & _ & _ & _ & _ & _ & _ & Ew & EV & EP).
  exists ds1, Us. auto 7.
Qed.
Print Assumptions C84_starts.

(** A 2 x 2 matrix as tensor, a 2 x 3 matrix coupled to its rows, and all five loggers *)
Definition k_Y : list nd := [mk [2; 3]%nat [1; 2; 3; 4; 5; 6]].
Definition k_V : list nd := [mk [3; 1]%nat [1; 2; 2]].
Definition k_state : cmtf_state := {| cm_cp := q_state; cm_Y := []; cm_modes := []; cm_V := [] |}.
Definition k_ds : dstate cmtf_state :=
  {| ds_num := k_state; ds_it := 0; ds_max := 100; ds_rel := PInf; ds_prev := PInf;
     ds_logs := map (cmtf_logger ex_cm_env) [KLoss; KMSE; KSSE; KRMSE; KExplained]; ds_file := Some empty_file |}.
Lemma k_coupled : coupled_start 1 q_X [0%nat] k_Y k_V.
Proof.
  split; [reflexivity|]. split; [cbn; lia|]. intros [|i] Hi; [|cbn in Hi; lia]. cbn [nth].
  split; [cbn; lia|]. split; [split; reflexivity|]. split; [split; reflexivity|]. intros r Hr. destruct r as [|r]; [|lia].
  cbn [k_V nth]. assert (E : clen (mk [3; 1]%nat [1; 2; 2]) 0 = 3); [|change (clen (mk [3; 1]%nat [1; 2; 2]) 0 <> 0); rewrite E; lra].
  unfold clen. replace (sum _ _) with 9 by (ev; lra). replace 9 with (3 ^ 2) by lra. apply sqrt_pow2. lra.
Qed.
Lemma k_ckpts : checkpoints_fit q_cf 5 k_ds.
Proof.
  right. split; [reflexivity|]. exists empty_file. split; [reflexivity|]. split; [apply empty_ready|].
  intros. apply empty_none.
Qed.
Example C84_example : exists ds', cmtf_fit ex_cm_env q_cs q_cf (fun _ => None) q_draws k_V q_X k_Y [0%Z] (Some 5%Z) NoArg k_ds = (ds', None) /\
  (ds_it ds' <= 5)%Z /\ factors_ok 1 q_X (cm_fms (ds_num ds')) /\ length (ds_logs ds') = 5%nat.
Proof.
  destruct (@coupled_complete ex_cm_env q_cs 1 q_cf (fun _ => None) q_draws k_V q_X k_Y [0%nat] (Some 5%Z) NoArg k_ds)
    as (ds1 & ds' & Us & n & _ & E & _ & _ & Hit & Hn & HL & HF & _).
  - reflexivity.
  - lia.
  - reflexivity.
  - apply ex_nodup.
  - apply ex_cm_svd.
  - apply q_data.
  - left. split; [reflexivity|]. split; [reflexivity|]. apply q_factors.
  - apply k_coupled.
  - now left.
  - now left.
  - reflexivity.
  - intros lg H. apply in_map_iff in H as (k & <- & _). exists k. split; reflexivity.
  - apply k_ckpts.
  - exists ds'. split; [exact E|]. split; [lia|]. split; [exact HF|]. now apply Forall2_same_len in HL.
Qed.
