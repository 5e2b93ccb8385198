(** Property C106: what normalisations of CMTF_ALS that raise leave behind. *)
From Verif Require Import CmLeftFacts CPExamples CMTFWitness Props_CMTF.
From Verif Require Import Prelude Lin.
Local Open Scope R_scope.

(** *** C106.  A coupling mode that does not exist (set_coupled_matrices does not check): the matrices before it are scaled,
    the others and the decomposition are as before. *)
Theorem C106_missing_mode : forall eps K s j e, (j < length (cm_V s))%nat -> (j < length (cm_modes s))%nat ->
  (forall i, (i < j)%nat -> exists n U, py_get (cm_fms s) (nth i (cm_modes s) 0%Z) = Ok U /\ is_mat n K U /\
     is_mat (nrows (nth i (cm_V s) m0)) K (nth i (cm_V s) m0)) ->
  py_get (cm_fms s) (nth j (cm_modes s) 0%Z) = Err e ->
  let t := cmtf_normalize_left eps s in
  cmtf_normalize eps s = Err e /\ cm_cp t = cm_cp s /\ cm_Y t = cm_Y s /\ cm_modes t = cm_modes s /\ length (cm_V t) = length (cm_V s) /\
  (forall i, (i < j)%nat -> exists U, py_get (cm_fms s) (nth i (cm_modes s) 0%Z) = Ok U /\
     times_lengths K U (nth i (cm_V s) m0) (nth i (cm_V t) m0)) /\
  (forall i, (j <= i)%nat -> nth i (cm_V t) m0 = nth i (cm_V s) m0).
Proof. exact left_by_mode. Qed.
Print Assumptions C106_missing_mode.

(** A Kruskal tensor with one weight for several components (nothing rejects that): its normalisation raises after the first
    factor has been scaled; the weights and the other factors are as before. *)
Theorem C106_one_weight : forall eps K k U Us,
  kt_fms k = U :: Us -> is_mat (nrows U) K U -> is_vec 1 (kt_w k) -> K <> 1%nat -> 0 < eps ->
  kt_normalize true eps k = Err ValueError /\
  exists U', over_lengths eps K U U' /\ kt_normalize_left true eps k = {| kt_rank := kt_rank k; kt_fms := U' :: Us; kt_w := kt_w k |}.
Proof. exact one_weight_left. Qed.
Print Assumptions C106_one_weight.

(** In CMTF_ALS all coupled matrices have been scaled before that, also those coupled to factors that were not. *)
Theorem C106_one_weight_coupled : forall eps K ms s, (1 < K)%nat -> 0 < eps ->
  data_ok (cp_X (cm_cp s)) -> factors_ok K (cp_X (cm_cp s)) (cm_fms s) ->
  is_vec 1 (kt_w (cm_dec s)) -> cm_modes s = map Z.of_nat ms -> coupling_ok K (cp_X (cm_cp s)) ms (cm_V s) (cm_Y s) ->
  let t := cmtf_normalize_left eps s in
  cmtf_normalize eps s = Err ValueError /\ kt_w (cm_dec t) = kt_w (cm_dec s) /\ length (cm_fms t) = length (cm_fms s) /\
  over_lengths eps K (nth 0 (cm_fms s) m0) (nth 0 (cm_fms t) m0) /\
  (forall m, (0 < m)%nat -> nth m (cm_fms t) m0 = nth m (cm_fms s) m0) /\
  (forall i, (i < length ms)%nat -> times_lengths K (nth (nth i ms 0%nat) (cm_fms s) m0) (nth i (cm_V s) m0) (nth i (cm_V t) m0)).
Proof. exact left_by_weights. Qed.
Print Assumptions C106_one_weight_coupled.

(** So no fit of CMTF_ALS from such a start gets to its first iteration; the first factor of the start may have been scaled. *)
Theorem C106_one_weight_fit : forall env cs cf disk draws vdraws X Y modes max_its arg ds d1 K U Us,
  let s0 := cm_with_coupling Y modes (ds_num ds) in
  on_cp (cp_init_components env cs disk draws arg) (with_num (cm_with_cp (cp_with_target X (cm_cp s0)) s0) (with_it 0%Z ds)) = (d1, None) ->
  cm_fms (ds_num d1) = U :: Us -> is_mat (nrows U) K U -> is_vec 1 (kt_w (cm_dec (ds_num d1))) -> K <> 1%nat ->
  all_false (cp_orth (cm_cp (ds_num d1))) (S (length Us)) ->
  exists d e, cmtf_fit env cs cf disk draws vdraws X Y modes max_its arg ds = (d, Some e) /\ ds_it d = ds_it d1 /\
    ((cm_fms (ds_num d) = U :: Us) \/
     (e = ValueError /\ exists U', over_lengths eps15 K U U' /\ cm_fms (ds_num d) = U' :: Us)).
Proof. exact one_weight_start. Qed.
Print Assumptions C106_one_weight_fit.

(** Factors with columns of length 5: a matrix coupled to mode 0, one coupled to mode 7 and one with no mode of its own; the
    first is scaled, the second and third are not. *)
Definition cl_state : cmtf_state :=
  {| cm_cp := start 1 (mk [2; 1]%nat [1; 1]) [mk [2; 1]%nat [3; 4]; mk [1; 1]%nat [1]] [false; false] [false; false];
     cm_Y := []; cm_modes := [0%Z; 7%Z]; cm_V := [mk [1; 1]%nat [2]; mk [1; 1]%nat [3]; mk [1; 1]%nat [4]] |}.
Example C106_missing_mode_example : cmtf_normalize eps15 cl_state = Err IndexError /\
  cm_dec (cmtf_normalize_left eps15 cl_state) = cm_dec cl_state /\
  mget (nth 0 (cm_V (cmtf_normalize_left eps15 cl_state)) m0) 0 0 = 10 /\
  nth 1 (cm_V (cmtf_normalize_left eps15 cl_state)) m0 = mk [1; 1]%nat [3] /\
  nth 2 (cm_V (cmtf_normalize_left eps15 cl_state)) m0 = mk [1; 1]%nat [4].
Proof.
  destruct (C106_missing_mode eps15 1 cl_state 1 IndexError) as (E & Ec & _ & _ & _ & Hs & Hk).
  - cbn. lia.
  - cbn. lia.
  - intros [|i] Hi; [|lia]. exists 2%nat, (mk [2; 1]%nat [3; 4]). repeat split.
  - reflexivity.
  - split; [exact E|]. split; [unfold cm_dec; now rewrite Ec|]. split.
    + destruct (Hs 0%nat ltac:(lia)) as (U & EU & _ & HU). cbn in EU. injection EU as <-. rewrite HU by (cbn; lia).
      assert (EL : clen (mk [2; 1]%nat [3; 4]) 0 = 5).
      { unfold clen. cbn. replace (3 * (3 * 1) + (4 * (4 * 1) + 0)) with (5 * 5) by ring. apply sqrt_square. lra. }
      rewrite EL. cbn. lra.
    + split; [apply (Hk 1%nat); lia|apply (Hk 2%nat); lia].
Qed.

(** Two components with one weight: the factor of mode 0 is divided by its lengths 5 and 5 (plus 1, as epsilon is 1 here), the matrix coupled to mode 1 is
    multiplied by the length 2 although the factor of mode 1 keeps it. *)
Definition cl_one : cmtf_state :=
  {| cm_cp := cp_with_dec {| kt_rank := 2; kt_fms := [mk [2; 2]%nat [3; 4; 4; 3]; mk [1; 2]%nat [2; 2]]; kt_w := mk [1]%nat [1] |}
       (start 2 (mk [2; 1]%nat [1; 1]) [] [false; false] [false; false]);
     cm_Y := [mk [1; 1]%nat [1]]; cm_modes := [1%Z]; cm_V := [mk [1; 2]%nat [1; 1]] |}.
Example C106_one_weight_example : cmtf_normalize 1 cl_one = Err ValueError /\
  mget (nth 0 (cm_fms (cmtf_normalize_left 1 cl_one)) m0) 0 0 = 1 / 2 /\
  nth 1 (cm_fms (cmtf_normalize_left 1 cl_one)) m0 = mk [1; 2]%nat [2; 2] /\
  mget (nth 0 (cm_V (cmtf_normalize_left 1 cl_one)) m0) 0 1 = 2.
Proof.
  destruct (C106_one_weight_coupled 1 2 [1%nat] cl_one) as (E & _ & _ & HO & Hk & HT).
  - lia.
  - lra.
  - split; [reflexivity|]. split; [cbn; lia|]. repeat constructor; discriminate.
  - split; [repeat constructor|reflexivity].
  - split; reflexivity.
  - reflexivity.
  - split; [reflexivity|]. split; [reflexivity|]. intros [|i] Hi; cbn in Hi; [|lia]. cbn. split; [lia|]. split; split; reflexivity.
  - split; [exact E|]. split; [|split; [apply (Hk 1%nat); lia|]].
    + destruct HO as [_ HO]. rewrite HO by (cbn; lia).
      assert (EL : clen (nth 0 (cm_fms cl_one) m0) 0 = 5).
      { unfold clen. cbn. replace (3 * (3 * 1) + (4 * (4 * 1) + 0)) with (5 * 5) by ring. apply sqrt_square. lra. }
      rewrite EL. cbn. lra.
    + destruct (HT 0%nat ltac:(cbn; lia)) as [_ HV]. rewrite HV by (cbn; lia).
      assert (EL : clen (nth (nth 0 [1%nat] 0%nat) (cm_fms cl_one) m0) 1 = 2).
      { unfold clen. cbn. replace (2 * (2 * 1) + 0) with (2 * 2) by ring. apply sqrt_square. lra. }
      rewrite EL. cbn. lra.
Qed.

(** The same factors and weight as the start of a fit *)
Definition cl_cs : cp_settings := {| cs_rank := 2; cs_init := "precomputed"; cs_ridge := None |}.
Example C106_one_weight_fit_example : forall env cf disk, exists d e,
  cmtf_fit env cl_cs cf disk [] [mk [1; 2]%nat [1; 1]] (mk [2; 1]%nat [1; 1]) [mk [1; 1]%nat [1]] [1%Z] None (DecArg (cm_dec cl_one)) unfitted =
  (d, Some e) /\ ds_it d = 0%Z.
Proof.
  intros env cf disk. edestruct (C106_one_weight_fit env cl_cs cf disk [] [mk [1; 2]%nat [1; 1]] (mk [2; 1]%nat [1; 1]) [mk [1; 1]%nat [1]] [1%Z] None
    (DecArg (cm_dec cl_one)) unfitted) as (d & e & E & Ei & _).
  - reflexivity.
  - reflexivity.
  - split; reflexivity.
  - split; reflexivity.
  - discriminate.
  - cbn. exact Logic.I.
  - exists d, e. split; [exact E|]. rewrite Ei. reflexivity.
Qed.
