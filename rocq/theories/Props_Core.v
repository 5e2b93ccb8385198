(** Property C66: core consistency (metrics.core_consistency, core_consistency_parafac2, KruskalTensor.core_consistency). *)
From Verif Require Import CoreValue.
Local Open Scope R_scope.

(** *** C66.  The value measures how far the best Tucker core is from the core of a CP model. *)
Theorem C66_best_core : forall qr X A B C n1 n2 n3 F,
  core_setting n1 n2 n3 F X A B C -> qr_contract qr -> (1 <= F)%nat ->
  independent_columns n1 F A -> independent_columns n2 F B -> independent_columns n3 F C ->
  exists c G, (forall r, (r < F)%nat -> is_cube_root (clen A r * clen B r * clen C r) (c r)) /\
    best_core n1 n2 n3 F X (balanced eps15 A c) (balanced eps15 B c) (balanced eps15 C c) G /\
    core_consistency qr X A B C false =
      Ok (Fin (100 * (1 - sum3 F F F (fun r s t => (G r s t - cp_core r s t) ^ 2) / INR F))).
Proof.
  intros qr X A B C n1 n2 n3 F HC Hqr HF IA IB IC.
  destruct (core_value false HC Hqr HF IA IB IC) as (c & G & Hc & HG & E). exists c, G. split; [exact Hc|]. split; [exact HG|].
  rewrite E. unfold xdivR. destruct (Req_EM_T (INR F) 0) as [Hz|]; [|reflexivity].
  exfalso. revert Hz. apply not_0_INR. lia.
Qed.
Print Assumptions C66_best_core.

(** The normalised variant divides by the size of the core, and is minus infinity when that core is zero. *)
Theorem C66_normalized : forall qr X A B C n1 n2 n3 F,
  core_setting n1 n2 n3 F X A B C -> qr_contract qr -> (1 <= F)%nat ->
  independent_columns n1 F A -> independent_columns n2 F B -> independent_columns n3 F C ->
  exists c G, (forall r, (r < F)%nat -> is_cube_root (clen A r * clen B r * clen C r) (c r)) /\
    best_core n1 n2 n3 F X (balanced eps15 A c) (balanced eps15 B c) (balanced eps15 C c) G /\
    let size := sum3 F F F (fun r s t => G r s t ^ 2) in
    (size <> 0 -> core_consistency qr X A B C true =
       Ok (Fin (100 * (1 - sum3 F F F (fun r s t => (G r s t - cp_core r s t) ^ 2) / size)))) /\
    (size = 0 -> core_consistency qr X A B C true = Ok NInf).
Proof. intros qr X A B C n1 n2 n3 F HC Hqr HF IA IB IC. exact (core_normalized HC Hqr HF IA IB IC). Qed.
Print Assumptions C66_normalized.

(** No value above 100, whatever the arguments and whatever qr returns *)
Theorem C66_at_most_100 : forall qr X A B C normalized v,
  core_consistency qr X A B C normalized = Ok (Fin v) -> v <= 100.
Proof. exact core_at_most_100. Qed.
Print Assumptions C66_at_most_100.

(** 100 is reached only where the CP core is a best core. *)
Theorem C66_full_score : forall qr X A B C n1 n2 n3 F,
  core_setting n1 n2 n3 F X A B C -> qr_contract qr -> (1 <= F)%nat ->
  independent_columns n1 F A -> independent_columns n2 F B -> independent_columns n3 F C ->
  core_consistency qr X A B C false = Ok (Fin 100) ->
  exists c, (forall r, (r < F)%nat -> is_cube_root (clen A r * clen B r * clen C r) (c r)) /\
    best_core n1 n2 n3 F X (balanced eps15 A c) (balanced eps15 B c) (balanced eps15 C c) cp_core.
Proof. intros qr X A B C n1 n2 n3 F HC Hqr HF IA IB IC E. exact (core_full_score HC Hqr HF IA IB IC E). Qed.
Print Assumptions C66_full_score.

(** Data that follow the CP model: 100 up to the smoothing constant of the normalisation. *)
Theorem C66_exact_data : forall qr X A B C n1 n2 n3 F,
  core_setting n1 n2 n3 F X A B C -> qr_contract qr -> (1 <= F)%nat ->
  independent_columns n1 F A -> independent_columns n2 F B -> independent_columns n3 F C ->
  (forall i j k, (i < n1)%nat -> (j < n2)%nat -> (k < n3)%nat ->
     get X [i; j; k] = cp_entry [A; B; C] (fun _ => 1) F [i; j; k]) ->
  exists v, core_consistency qr X A B C false = Ok (Fin v) /\
    v = 100 * (1 - sum F (fun r => (1 * smoothing eps15 A B C r - 1) ^ 2) / INR F) /\
    ((forall r, (r < F)%nat -> 1 <= clen A r /\ 1 <= clen B r /\ 1 <= clen C r) -> 100 - / 10 ^ 20 <= v <= 100).
Proof.
  intros qr X A B C n1 n2 n3 F HC Hqr HF IA IB IC HX. eexists. split; [|split; [reflexivity|]].
  - apply (@core_exact qr X A B C n1 n2 n3 F (fun _ => 1)); auto. intros i j k Hi Hj Hk. rewrite HX by auto.
    apply sum_ext. intros r Hr. cbn [colprod]. ring.
  - intros HL. now apply exact_score_near_100.
Qed.
Print Assumptions C66_exact_data.

(** Dependent columns raise; which exception depends on the sizes only. *)
Theorem C66_dependent_columns_raise : forall qr X A B C normalized n1 n2 n3 F,
  core_setting n1 n2 n3 F X A B C -> qr_contract qr ->
  ~ (independent_columns n1 F A /\ independent_columns n2 F B /\ independent_columns n3 F C) ->
  core_consistency qr X A B C normalized = Err (if Nat.ltb (n1 * n2 * n3) (F * F * F) then ValueError else LinAlgError).
Proof. intros qr X A B C normalized n1 n2 n3 F HC Hqr HN. now apply core_dependent. Qed.
Print Assumptions C66_dependent_columns_raise.

(** The method of KruskalTensor takes exactly three modes and ignores the weights. *)
Theorem C66_method : forall qr k X normalized,
  (length (kt_fms k) <> 3%nat -> kt_core_consistency qr k X normalized = Err ValueError) /\
  forall w, kt_core_consistency qr {| kt_rank := kt_rank k; kt_fms := kt_fms k; kt_w := w |} X normalized =
            kt_core_consistency qr k X normalized.
Proof.
  intros qr k X normalized. split; [|reflexivity]. intros H. unfold kt_core_consistency.
  destruct (kt_fms k) as [|A [|B [|C [|]]]]; cbn in H; auto. lia.
Qed.
Print Assumptions C66_method.

(** Hence the score of a Kruskal tensor on its own dense form depends on how far its weights are from 1. *)
Theorem C66_own_data : forall qr junk A B C w n1 n2 n3 F,
  is_mat n1 F A -> is_mat n2 F B -> is_mat n3 F C -> is_vec F w -> qr_contract qr -> (1 <= F)%nat ->
  independent_columns n1 F A -> independent_columns n2 F B -> independent_columns n3 F C ->
  let k := {| kt_rank := F; kt_fms := [A; B; C]; kt_w := w |} in
  exists X, kt_construct junk k = Ok X /\
    kt_core_consistency qr k X false =
      Ok (Fin (100 * (1 - sum F (fun r => (vget w r * smoothing eps15 A B C r - 1) ^ 2) / INR F))).
Proof.
  intros qr junk A B C w n1 n2 n3 F HA HB HC Hw Hqr HF IA IB IC k.
  assert (HM : mats F [A; B; C]).
  { repeat apply Forall_cons; [rewrite (is_mat_nrows HA)|rewrite (is_mat_nrows HB)|rewrite (is_mat_nrows HC)|]; auto. }
  destruct (@kt_construct_ok junk F [A; B; C] w HM Hw ltac:(cbn; lia)) as (X & EX & HX & HS & Ent).
  unfold rows in *. cbn [map] in *. rewrite (is_mat_nrows HA), (is_mat_nrows HB), (is_mat_nrows HC) in *.
  exists X. split; [exact EX|]. unfold kt_core_consistency, k. cbn [kt_fms].
  apply (@core_exact qr X A B C n1 n2 n3 F (vget w)); unfold core_setting; auto.
  intros i j l Hi Hj Hl. rewrite Ent by (repeat (constructor; auto)). apply sum_ext. intros r Hr. cbn [colprod]. ring.
Qed.
Print Assumptions C66_own_data.

(** A Kruskal tensor with weight 2 does not even reach 1 on its own data. *)
Theorem C66_own_data_scores_100_refuted : forall qr junk, qr_contract qr ->
  let one := tab2 1 1 (fun _ _ => 1) in
  let k w := {| kt_rank := 1; kt_fms := [one; one; one]; kt_w := tab1 1 (fun _ => w) |} in
  exists X1 X2 v1 v2, kt_construct junk (k 1) = Ok X1 /\ kt_construct junk (k 2) = Ok X2 /\
    kt_core_consistency qr (k 1) X1 false = Ok (Fin v1) /\ kt_core_consistency qr (k 2) X2 false = Ok (Fin v2) /\
    99 < v1 /\ v2 < 1.
Proof.
  intros qr junk Hqr one k.
  assert (H1 : is_mat 1 1 one) by apply is_mat_tab2.
  assert (HI : independent_columns 1 1 one).
  { intros c Hc r Hr. specialize (Hc 0%nat ltac:(lia)). cbn [seq sumf] in Hc. unfold one in Hc. rewrite mget_tab2 in Hc by lia.
    replace r with 0%nat by lia. lra. }
  assert (HL : clen one 0 = 1).
  { unfold clen. rewrite (is_mat_nrows H1). cbn [seq sumf]. unfold one. rewrite mget_tab2 by lia.
    replace (1 ^ 2 + 0) with 1 by ring. apply sqrt_1. }
  assert (Hw : forall w, is_vec 1 (tab1 1 (fun _ => w))) by (intros; apply is_vec_tab1).
  destruct (@C66_own_data qr junk one one one (tab1 1 (fun _ => 1)) 1 1 1 1 H1 H1 H1 (Hw 1) Hqr (le_n 1) HI HI HI) as (X1 & E1 & V1).
  destruct (@C66_own_data qr junk one one one (tab1 1 (fun _ => 2)) 1 1 1 1 H1 H1 H1 (Hw 2) Hqr (le_n 1) HI HI HI) as (X2 & E2 & V2).
  exists X1, X2. do 2 eexists. split; [exact E1|]. split; [exact E2|]. split; [exact V1|]. split; [exact V2|].
  assert (Hs : 0 <= smoothing eps15 one one one 0 - 1 <= 7 * eps15) by (apply smoothing_near_one; lra).
  assert (He : 7 * eps15 < / 100).
  { unfold eps15. apply Rmult_lt_reg_r with (10 ^ 15); [lra|]. rewrite Rmult_assoc, Rinv_l by lra. lra. }
  cbn [seq sumf INR]. rewrite !vget_tab1 by lia. set (x := smoothing eps15 one one one 0) in *. clearbody x.
  unfold Rdiv. rewrite Rinv_1. split; nra.
Qed.
Print Assumptions C66_own_data_scores_100_refuted.

(** PARAFAC2: data that follow the model, with orthonormal projections, score as the CP model of the projected data. *)
Theorem C66_parafac2_exact_data : forall qr junk Xs Ps A B C nI F,
  qr_contract qr -> (1 <= F)%nat ->
  is_mat nI F A -> is_mat F F B -> is_mat (length Xs) F C -> length Ps = length Xs ->
  (forall k, (k < length Xs)%nat -> is_mat nI (width Xs k) (nth k Xs m0) /\ is_mat (width Xs k) F (nth k Ps m0)) ->
  orth_projections F Xs Ps ->
  independent_columns nI F A -> independent_columns F F B -> independent_columns (length Xs) F C ->
  (forall k i j, (k < length Xs)%nat -> (i < nI)%nat -> (j < width Xs k)%nat ->
     mget (nth k Xs m0) i j = pf_entry F A B C k (mget (nth k Ps m0)) i j) ->
  core_consistency_parafac2 qr junk Xs Ps A B C =
    Ok (Fin (100 * (1 - sum F (fun r => (1 * smoothing eps15 A B C r - 1) ^ 2) / INR F))).
Proof.
  intros qr junk Xs Ps A B C nI F Hqr HF HA HB HC Hl HX HO IA IB IC HE.
  destruct (core_projected qr junk HA HB HC Hl HX) as (PX & HS & -> & Ent).
  apply (@core_exact qr PX A B C nI F (length Xs) F (fun _ => 1)); auto.
  intros i q k Hi Hq Hk. rewrite Ent by auto. apply (@projected_exact F nI); auto.
Qed.
Print Assumptions C66_parafac2_exact_data.

(** The contract assumed of numpy.linalg.qr can be met. *)
Theorem C66_contract_satisfiable : exists qr, qr_contract qr.
Proof. exact qr_contract_satisfiable. Qed.
Print Assumptions C66_contract_satisfiable.

(** A 2 x 2 x 2 tensor of rank 2 *)
Example C66_example : exists qr v, qr_contract qr /\
  core_consistency qr coreX coreA coreB coreC false = Ok (Fin v) /\ 100 - / 10 ^ 20 <= v <= 100 /\
  core_consistency qr coreX coreA coreB (mk [2; 2]%nat [1; 2; 2; 4]) false = Err LinAlgError.
Proof.
  destruct qr_contract_satisfiable as (qr & Hqr). exists qr.
  assert (HC : forall l, length l = 4%nat -> core_setting 2 2 2 2 coreX coreA coreB (mk [2; 2]%nat l)).
  { intros l Hl. unfold core_setting. repeat split; try reflexivity. exact Hl. }
  destruct (@C66_exact_data qr coreX coreA coreB coreC 2 2 2 2 (HC [2; 1; 1; 1] eq_refl) Hqr ltac:(lia)) as (v & E & _ & Hv).
  - apply two_by_two. lra.
  - apply two_by_two. lra.
  - apply two_by_two. lra.
  - intros i j k Hi Hj Hk. unfold coreX. rewrite get_tab; [reflexivity|]. repeat (constructor; auto).
  - exists v. split; [exact Hqr|]. split; [exact E|]. split.
    + apply Hv. intros r Hr.
      assert (H : forall x, 1 <= x -> 1 <= sqrt x) by (intros x Hx; rewrite <- sqrt_1; now apply sqrt_le_1_alt).
      destruct r as [|[|r]]; [| |lia]; unfold clen; cbv -[Rplus Rmult Rminus Ropp IZR Rle sqrt]; repeat split; apply H; lra.
    + rewrite (@C66_dependent_columns_raise qr coreX coreA coreB (mk [2; 2]%nat [1; 2; 2; 4]) false 2 2 2 2 (HC [1; 2; 2; 4] eq_refl) Hqr); [reflexivity|].
      intros (_ & _ & HI). assert (E2 := HI (fun r : nat => match r with O => 2 | _ => -1 end)). cbv beta in E2.
      enough (2 = 0) by lra. apply (fun H => E2 H 0%nat ltac:(lia)).
      intros [|[|i]] Hi; [| |lia]; cbv -[Rplus Rmult Rminus Ropp IZR]; lra.
Qed.
