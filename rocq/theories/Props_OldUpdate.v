(** Property C92: the update that CMTF_ALS keeps but does not use. *)
From Verif Require Import OldUpdate OldUpdateSpec OldUpdateFacts CMTFFacts CMTFUpdate Exists.
From Verif Require Import Prelude Lin.
Local Open Scope R_scope.

(** *** C92.  A mode without a coupled matrix always raises and nothing has changed ... *)
Theorem C92_uncoupled_modes_raise : forall env cs s m, ~ In (Z.of_nat m) (cm_modes s) ->
  exists e, old_update env cs s m = (s, Some e).
Proof. exact old_uncoupled_raises. Qed.
Print Assumptions C92_uncoupled_modes_raise.

(** ... with AttributeError if the model is in order. *)
Theorem C92_missing_method : forall env cs K ms s m, cm_ok K ms s -> (m < length (shape (cp_X (cm_cp s))))%nat -> ~ In m ms ->
  old_update env cs s m = (s, Some AttributeError).
Proof. exact old_uncoupled. Qed.
Print Assumptions C92_missing_method.

(** A mode coupled to matrix i: Z is the best factor for the tensor and the matrix together, but what is stored is U,
    Z with its columns scaled to length 1, and the best V_i for U.  A zero column of Z is divided by 0. *)
Theorem C92_coupled_modes : forall env cs K ms s m,
  cm_ok K ms s -> NoDup ms -> (m < length (shape (cp_X (cm_cp s))))%nat -> In m ms -> svd_works_rows K (env_svd env) ->
  (forall lhs, cmtf_lhs env cs s m = Ok lhs -> well_scaled K (ncols lhs) lhs) ->
  exists i Z, (i < length ms)%nat /\ nth i ms 0%nat = m /\
    is_mat (nth m (shape (cp_X (cm_cp s))) 0%nat) K Z /\
    (forall Z', joint_sse K (cp_X (cm_cp s)) (cm_fms s) m (nth i (cm_V s) m0) (nth i (cm_Y s) m0) Z <=
                joint_sse K (cp_X (cm_cp s)) (cm_fms s) m (nth i (cm_V s) m0) (nth i (cm_Y s) m0) Z') /\
    ((exists r, (r < K)%nat /\ clen Z r = 0) ->
       exists s', old_update env cs s m = (s', Some NonFinite) /\ cm_fms s' = with_factor m Z (cm_fms s) /\
         cm_V s' = cm_V s /\ same_coupled s s') /\
    ((forall r, (r < K)%nat -> clen Z r <> 0) ->
       exists U, unit_columns (nth m (shape (cp_X (cm_cp s))) 0%nat) K Z U /\
         (svd_works_on (nth m (shape (cp_X (cm_cp s))) 0%nat) K (env_svd env) ->
          well_scaled (nth m (shape (cp_X (cm_cp s))) 0%nat) K U ->
          exists W s', old_update env cs s m = (s', None) /\ cm_fms s' = with_factor m U (cm_fms s) /\
            cm_V s' = replace_at i W (cm_V s) /\ same_coupled s s' /\ cm_ok K ms s' /\
            forall W', mat_sse K U W (nth i (cm_Y s) m0) <= mat_sse K U W' (nth i (cm_Y s) m0))).
Proof. exact old_coupled. Qed.
Print Assumptions C92_coupled_modes.

(** The update can raise the loss, even from a perfect fit. *)
Theorem C92_update_improves_refuted : ~ (forall env cs K ms s m s' l l',
  svd_contract (env_svd env) -> cm_ok K ms s -> NoDup ms -> old_update env cs s m = (s', None) ->
  cmtf_SSE env s = Ok l -> cmtf_SSE env s' = Ok l' -> l' <= l).
Proof.
  intros H. destruct svd_contract_satisfiable as (svd & Hsvd).
  set (env := {| env_svd := svd; env_svd_u := fun A => Ok A; env_qr := fun A => Ok A; env_nnls := fun A b => Ok b;
                 env_junk := fun _ _ => 0 |}).
  set (cs := {| cs_rank := 1; cs_init := "random"; cs_ridge := None |}).
  destruct (@old_rises env cs Hsvd) as (s' & E & _ & E0 & E4).
  enough (4 <= 0) by lra. apply (H env cs 1%nat [0%nat] old_s 0%nat s'); auto using old_s_ok.
  constructor; [intros []|constructor].
Qed.
Print Assumptions C92_update_improves_refuted.

(** 4 = 2 * 2 with the coupled matrix 2 = 2 * 1: mode 1 raises, mode 0 turns loss 0 into loss 4 *)
Example C92_example : cm_ok 1 [0%nat] old_s /\
  forall env cs, svd_contract (env_svd env) ->
    (forall lhs, cmtf_lhs env cs old_s 0 = Ok lhs -> well_scaled 1 (ncols lhs) lhs) /\
    old_update env cs old_s 1 = (old_s, Some AttributeError) /\
    exists s', old_update env cs old_s 0 = (s', None) /\ cmtf_SSE env old_s = Ok 0 /\ cmtf_SSE env s' = Ok 4.
Proof.
  split; [exact old_s_ok|]. intros env cs Hsvd. split; [intros lhs _; apply well_scaled_thin; lia|]. split.
  - apply (old_uncoupled env cs old_s_ok); [cbn; lia|]. cbn. lia.
  - destruct (@old_rises env cs Hsvd) as (s' & E & _ & E0 & E4). eauto.
Qed.
