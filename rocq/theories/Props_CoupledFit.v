(** Properties C90 and C91: constrained CMTF_ALS fits, and which couplings are accepted. *)
From Verif Require Import ConstrainedFit Coupling CoupledFit Exists Decomposer Quality Props_Quality Props_CMTF Props_Coupled.
From Verif Require Import Prelude Lin.
Local Open Scope R_scope.

(** *** C90.  [t]: the state after the [n] iterations done *)
Theorem C90_fits_complete : forall env cs K X nn orth ms, constrained env cs K X nn orth -> (forall m, ~ asked nn m) -> NoDup ms ->
  forall cf disk draws vdraws Y max_its arg ds,
  usable_start env cs K X draws arg -> coupled_start K X ms Y vdraws ->
  cp_nn (cm_cp (ds_num ds)) = nn -> cp_orth (cm_cp (ds_num ds)) = orth ->
  let budget := match max_its with Some m => m | None => ds_max ds end in
  (0 < budget)%Z -> (forall lg, In lg (ds_logs ds) -> exists k, coupled_logger env k lg) -> checkpoints_fit cf budget ds ->
  exists ds1 ds' n, let t := state_after (cmtf_model env cs) (ds_num ds1) n in let s' := ds_num ds' in
    cmtf_init_fit env cs disk draws vdraws X Y (map Z.of_nat ms) max_its arg ds = (ds1, None) /\
    cmtf_fit env cs cf disk draws vdraws X Y (map Z.of_nat ms) max_its arg ds = (ds', None) /\
    ds_it ds' = Z.of_nat n /\ (Z.of_nat n <= budget)%Z /\
    (Z.of_nat n = budget \/ cp_stops (cmtf_model env cs) cf (ds_prev ds1) PInf (ds_num ds1) n = Ok true) /\
    Forall2 (fun a b => lg_its b = lg_its a ++ its_of 0 n /\ length (lg_vals b) = (length (lg_vals a) + n)%nat) (ds_logs ds) (ds_logs ds') /\
    factors_ok K X (cm_fms s') /\ coupling_ok K X ms (cm_V s') Y /\ cp_X (cm_cp s') = X /\ cm_Y s' = Y /\
    (forall m, asked orth m -> exists Q, orth_cols (nth m (shape X) 0%nat) K (mget Q) /\
       forall i r, (i < nth m (shape X) 0)%nat -> (r < K)%nat ->
         mget (nth m (cm_fms (ds_num ds1)) m0) i r = mget Q i r / (1 + eps15)) /\
    (forall m, asked orth m -> (0 < n)%nat -> partial_isometry (nth m (shape X) 0%nat) K (mget (nth m (cm_fms t) m0))) /\
    (forall m a r, (m < length (shape X))%nat -> (a < nth m (shape X) 0)%nat -> (r < K)%nat ->
      mget (nth m (cm_fms s') m0) a r = mget (nth m (cm_fms t) m0) a r / (clen (nth m (cm_fms t) m0) r + eps15)) /\
    (forall i b r, (i < length ms)%nat -> (b < ncols (nth i Y m0))%nat -> (r < K)%nat ->
      mget (nth i (cm_V s') m0) b r = mget (nth i (cm_V t) m0) b r * clen (nth (nth i ms 0%nat) (cm_fms t) m0) r).
Proof. exact constrained_complete. Qed.
Print Assumptions C90_fits_complete.

(** Where the factor of the last iteration has independent columns, the final division by lengths leaves them orthogonal, with lengths 1 / (1 + 1e-15). *)
Theorem C90_orthonormal_result : forall n K Q P, is_mat n K Q -> partial_isometry n K (mget Q) -> independent_columns n K Q ->
  (forall i r, (i < n)%nat -> (r < K)%nat -> mget P i r = mget Q i r / (clen Q r + eps15)) ->
  forall p r, (p < K)%nat -> (r < K)%nat -> sum n (fun i => mget P i p * mget P i r) = delta p r / (1 + eps15) ^ 2.
Proof. exact scaled_gram. Qed.
Print Assumptions C90_orthonormal_result.

(** *** C91.  Fewer matrices than coupling modes, or a coupling mode the tensor does not have *)
Theorem C91_missing_modes_raise : forall env cs K X nn orth, constrained env cs K X nn orth ->
  forall cf disk draws vdraws Y modes max_its arg ds, usable_start env cs K X draws arg ->
  cp_nn (cm_cp (ds_num ds)) = nn -> cp_orth (cm_cp (ds_num ds)) = orth -> drawn K Y vdraws -> (length modes <= length vdraws)%nat ->
  (length Y < length modes)%nat \/ (exists z, In z modes /\ no_mode (length (shape X)) z) ->
  exists ds', cmtf_fit env cs cf disk draws vdraws X Y modes max_its arg ds = (ds', Some IndexError) /\
    ds_it ds' = 0%Z /\ ds_logs ds' = ds_logs ds /\ ds_file ds' = ds_file ds.
Proof. exact bad_modes_raise. Qed.
Print Assumptions C91_missing_modes_raise.

(** A matrix whose number of rows is not the length of its mode, neither of the two being 1 *)
Theorem C91_wrong_rows_raise : forall env cs K X nn orth, constrained env cs K X nn orth ->
  forall cf disk draws vdraws Y modes max_its arg ds, usable_start env cs K X draws arg ->
  cp_nn (cm_cp (ds_num ds)) = nn -> cp_orth (cm_cp (ds_num ds)) = orth ->
  forall i m, drawn K Y vdraws -> (length modes <= length vdraws)%nat -> (length modes <= length Y)%nat ->
  (forall z, In z modes -> exists m, names (length (shape X)) z m) ->
  (i < length modes)%nat -> names (length (shape X)) (nth i modes 0%Z) m -> ~ hidden (nrows (nth i Y m0)) (nth m (shape X) 0%nat) ->
  exists ds', cmtf_fit env cs cf disk draws vdraws X Y modes max_its arg ds = (ds', Some ValueError) /\
    ds_it ds' = 0%Z /\ ds_logs ds' = ds_logs ds /\ ds_file ds' = ds_file ds.
Proof. exact bad_rows_raise. Qed.
Print Assumptions C91_wrong_rows_raise.

(** Where one of the two is 1 the start does not notice; the first update of the mode raises and changes nothing. *)
Theorem C91_single_rows_raise_later : forall env cs K s i m, data_ok (cp_X (cm_cp s)) -> factors_ok K (cp_X (cm_cp s)) (cm_fms s) ->
  (m < length (shape (cp_X (cm_cp s))))%nat -> length (cm_V s) = length (cm_modes s) -> (length (cm_modes s) <= length (cm_Y s))%nat ->
  (forall j, (j < length (cm_modes s))%nat -> is_mat (nrows (nth j (cm_Y s) m0)) (ncols (nth j (cm_Y s) m0)) (nth j (cm_Y s) m0) /\
     is_mat (ncols (nth j (cm_Y s) m0)) K (nth j (cm_V s) m0)) ->
  nth_error (cm_modes s) i = Some (Z.of_nat m) -> (forall j, (j < i)%nat -> nth_error (cm_modes s) j <> Some (Z.of_nat m)) ->
  nrows (nth i (cm_Y s) m0) <> nth m (shape (cp_X (cm_cp s))) 0%nat ->
  cmtf_update_factor env cs s m = (s, Some ValueError).
Proof. exact rows_update_raises. Qed.
Print Assumptions C91_single_rows_raise_later.

(** Matrices beyond the number of coupling modes change nothing but the list they are in. *)
Theorem C91_further_matrices_ignored : forall env cs Y' cf disk draws vdraws X Y modes max_its arg ds, (length modes <= length Y)%nat ->
  (forall lg, In lg (ds_logs ds) -> exists k, coupled_logger env k lg) ->
  let (ds', e) := cmtf_fit env cs cf disk draws vdraws X Y modes max_its arg ds in
  cmtf_fit env cs cf disk draws vdraws X (Y ++ Y') modes max_its arg ds = (with_num (with_more Y' (ds_num ds')) ds', e).
Proof.
  intros env cs Y' cf disk draws vdraws X Y modes max_its arg ds HL Hlg.
  pose proof (@more_fit env cs Y' cf disk draws vdraws X Y modes max_its arg ds HL Hlg) as H. cbn zeta in H.
  destruct (cmtf_fit env cs cf disk draws vdraws X Y modes max_its arg ds). exact H.
Qed.
Print Assumptions C91_further_matrices_ignored.

(** *** Examples: two components of a 2 x 3 matrix, mode 1 orthonormal, penalty 1 on mode 0, a 3 x 2 matrix coupled to mode 1 *)
Definition o_X : nd := mk [2; 3]%nat [1; 2; 3; 4; 5; 6].
Definition o_cs : cp_settings := {| cs_rank := 2; cs_init := "random"; cs_ridge := Some [1; 0] |}.
Definition o_draws : list nd := [mk [2; 2]%nat [1; 1; 0; 1]; mk [3; 2]%nat [1; 1; 0; 1; 2; 2]].
Definition o_orth : option (list bool) := Some [false; true].
Definition o_Y : list nd := [mk [3; 2]%nat [1; 0; 2; 1; 0; 3]].
Definition o_V : list nd := [mk [2; 2]%nat [1; 2; 0; 2]].
Definition o_cp : cp_state :=
  {| cp_X := o_X; cp_norm := 0; cp_dec := {| kt_fms := []; kt_w := mk [0]%nat []; kt_rank := 2 |}; cp_last := None; cp_cache := None;
     cp_nn := None; cp_orth := o_orth |}.
Definition o_ds (env : cp_env) : dstate cmtf_state :=
  {| ds_num := {| cm_cp := o_cp; cm_Y := []; cm_modes := []; cm_V := [] |}; ds_it := 0; ds_max := 100; ds_rel := PInf; ds_prev := PInf;
     ds_logs := map (cmtf_logger env) [KLoss; KMSE]; ds_file := Some empty_file |}.
Lemma o_constrained : exists env, constrained env o_cs 2 o_X None o_orth /\ usable_start env o_cs 2 o_X o_draws NoArg.
Proof.
  destruct svd_contract_satisfiable as (svd & Hs). destruct nnls_contract_satisfiable as (nnls & Hn).
  exists {| env_svd := svd; env_svd_u := fun A => do (U, _, _) <- svd A ; Ok U; env_qr := fun A => do (U, _, _) <- svd A ; Ok U;
            env_nnls := nnls; env_junk := fun _ _ => 0 |}.
  assert (Hb : forall m, asked o_orth m -> m = 1%nat).
  { intros m (l & E & F). injection E as <-. destruct m as [|[|m]]; try discriminate; auto. now destruct m. }
  split.
  - constructor.
    + reflexivity.
    + lia.
    + split; [reflexivity|]. split; [cbn; lia|]. repeat constructor; discriminate.
    + left. reflexivity.
    + right. eexists. split; reflexivity.
    + intros m (l & E & _). discriminate.
    + intros m H. apply Hb in H as ->. cbn. lia.
    + split; [cbn; lia|]. repeat constructor; lra.
    + exact Hs.
    + exact Hn.
    + intros m H. apply Hb in H as ->. intros A HA. exact (qr_of_svd Hs HA).
  - left. split; [reflexivity|]. split; [reflexivity|]. split; [repeat constructor|reflexivity].
Qed.
Lemma o_lengths r : (r < 2)%nat -> clen (mk [2; 2]%nat [1; 2; 0; 2]) r <> 0.
Proof.
  intros Hr E. apply sqrt_eq_0 in E.
  - destruct r as [|[|r]]; [| |lia]; ev_in E; lra.
  - apply sum_nonneg. intros. apply pow2_ge_0.
Qed.
Lemma o_coupled : coupled_start 2 o_X [1%nat] o_Y o_V.
Proof.
  split; [reflexivity|]. split; [cbn; lia|]. intros [|i] Hi; [|cbn in Hi; lia]. cbn [nth].
  split; [cbn; lia|]. split; [split; reflexivity|]. split; [split; reflexivity|]. exact o_lengths.
Qed.
Lemma o_drawn : drawn 2 o_Y o_V.
Proof. intros [|i] Hi; [|cbn in Hi; lia]. split; [split; reflexivity|]. split; [split; reflexivity|]. exact o_lengths. Qed.
Example C90_example : exists env ds', cmtf_fit env o_cs q_cf (fun _ => None) o_draws o_V o_X o_Y [1%Z] (Some 5%Z) NoArg (o_ds env) = (ds', None) /\
  (ds_it ds' <= 5)%Z /\ factors_ok 2 o_X (cm_fms (ds_num ds')) /\ asked o_orth 1.
Proof.
  destruct o_constrained as (env & HC & HU).
  destruct (@constrained_complete env o_cs 2 o_X None o_orth [1%nat] HC) with (cf := q_cf) (disk := fun _ : string => @None file) (draws := o_draws) (vdraws := o_V)
    (Y := o_Y) (max_its := Some 5%Z) (arg := NoArg) (ds := o_ds env) as (ds1 & ds' & n & _ & E & Hit & Hn & _ & _ & HF & _).
  - intros m (l & E & _). discriminate.
  - repeat constructor. intros [].
  - exact HU.
  - exact o_coupled.
  - reflexivity.
  - reflexivity.
  - reflexivity.
  - intros lg H. apply in_map_iff in H as (k & <- & _). exists k. split; reflexivity.
  - right. split; [reflexivity|]. exists empty_file. split; [reflexivity|]. split; [apply empty_ready|]. intros. apply empty_none.
  - exists env, ds'. split; [exact E|]. split; [lia|]. split; [exact HF|]. exists [false; true]. split; reflexivity.
Qed.

(** A second coupling mode without a matrix; mode 2 of two; -3; a 3 x 2 matrix for mode 0, which has two entries *)
Example C91_example : exists env,
  (exists d, cmtf_fit env o_cs q_cf (fun _ => None) o_draws (o_V ++ o_V) o_X o_Y [1; 0]%Z (Some 5%Z) NoArg (o_ds env) = (d, Some IndexError)) /\
  (exists d, cmtf_fit env o_cs q_cf (fun _ => None) o_draws o_V o_X o_Y [2]%Z (Some 5%Z) NoArg (o_ds env) = (d, Some IndexError)) /\
  (exists d, cmtf_fit env o_cs q_cf (fun _ => None) o_draws o_V o_X o_Y [-3]%Z (Some 5%Z) NoArg (o_ds env) = (d, Some IndexError)) /\
  (exists d, cmtf_fit env o_cs q_cf (fun _ => None) o_draws o_V o_X o_Y [-2]%Z (Some 5%Z) NoArg (o_ds env) = (d, Some ValueError)).
Proof.
  destruct o_constrained as (env & HC & HU). exists env.
  assert (HM : forall z m, names (length (shape o_X)) z m -> (z = 0 \/ z = 1 \/ z = -1 \/ z = -2)%Z).
  { intros z m [Hm [-> | ->]]; cbn in *; lia. }
  split; [|split; [|split]].
  - destruct (@bad_modes_raise env o_cs 2 o_X None o_orth HC q_cf (fun _ => None) o_draws (o_V ++ o_V) o_Y [1; 0]%Z (Some 5%Z) NoArg (o_ds env) HU eq_refl eq_refl)
      as (d & E & _); [|cbn; lia|left; cbn; lia|exists d; exact E].
    intros [|i] Hi; [|cbn in Hi; lia]. split; [split; reflexivity|]. split; [split; reflexivity|]. exact o_lengths.
  - destruct (@bad_modes_raise env o_cs 2 o_X None o_orth HC q_cf (fun _ => None) o_draws o_V o_Y [2]%Z (Some 5%Z) NoArg (o_ds env) HU eq_refl eq_refl)
      as (d & E & _); [apply o_drawn|cbn; lia|right; exists 2%Z; split; [now left|]; intros m Hm; apply HM in Hm; lia|exists d; exact E].
  - destruct (@bad_modes_raise env o_cs 2 o_X None o_orth HC q_cf (fun _ => None) o_draws o_V o_Y [-3]%Z (Some 5%Z) NoArg (o_ds env) HU eq_refl eq_refl)
      as (d & E & _); [apply o_drawn|cbn; lia|right; exists (-3)%Z; split; [now left|]; intros m Hm; apply HM in Hm; lia|exists d; exact E].
  - destruct (@bad_rows_raise env o_cs 2 o_X None o_orth HC q_cf (fun _ => None) o_draws o_V o_Y [-2]%Z (Some 5%Z) NoArg (o_ds env) HU eq_refl eq_refl 0%nat 0%nat)
      as (d & E & _); [apply o_drawn|cbn; lia|cbn; lia| |cbn; lia| | |exists d; exact E].
    + intros z [<-|[]]. exists 0%nat. split; [cbn; lia|right; reflexivity].
    + split; [cbn; lia|right; reflexivity].
    + intros [H|[H|H]]; cbn in H; lia.
Qed.
(** One row where mode 1 of a 2 x 3 matrix has three entries, and a further matrix *)
Example C91_later_example : let Y := mk [1; 2]%nat [1; 0] in
  let s := {| cm_cp := {| cp_X := o_X; cp_norm := 0; cp_dec := {| kt_fms := o_draws; kt_w := mk [2]%nat [1; 1]; kt_rank := 2 |}; cp_last := None; cp_cache := None;
                          cp_nn := None; cp_orth := None |}; cm_Y := [Y; Y]; cm_modes := [1%Z]; cm_V := o_V |} in
  forall env, cmtf_update_factor env o_cs s 1 = (s, Some ValueError).
Proof.
  intros Y s env. apply (@rows_update_raises env o_cs 2 s 0 1).
  - split; [reflexivity|]. split; [cbn; lia|]. repeat constructor; discriminate.
  - split; [repeat constructor|reflexivity].
  - cbn. lia.
  - reflexivity.
  - cbn. lia.
  - intros [|j] Hj; [|cbn in Hj; lia]. split; split; reflexivity.
  - reflexivity.
  - intros j Hj. lia.
  - cbn. lia.
Qed.
