(** What a CP_ALS.fit that raises while preparing may leave behind (C96).  Vocabulary only; knows nothing of the code's
    algorithms. *)
From Verif Require Export CP QualitySpec.
From Verif Require Import Prelude Lin.
Set Implicit Arguments.
Unset Strict Implicit.

(** A constraint list as it was, or None replaced by n times False *)
Definition kept_or_filled (n : nat) (before after : option (list bool)) : Prop :=
  after = before \/ (before = None /\ after = Some (repeat false n)).

(** The number of factors a decomposer holds *)
Definition n_factors (ds : dstate cp_state) : nat := length (kt_fms (cp_dec (ds_num ds))).

(** The decomposer after a failed preparation for the data X with the budget max_its *)
Record only_prepared (X : nd) (max_its : option Z) (before after : dstate cp_state) : Prop :=
  { op_logs : ds_logs after = ds_logs before;
    op_file : ds_file after = ds_file before;
    op_max : ds_max after = ds_max before \/ Some (ds_max after) = max_its;
    op_last : cp_last (ds_num after) = cp_last (ds_num before);
    op_cache : cp_cache (ds_num after) = cp_cache (ds_num before);
    op_X : cp_X (ds_num after) = X;
    op_norm : cp_norm (ds_num after) = norm X;
    op_nn : kept_or_filled (n_factors after) (cp_nn (ds_num before)) (cp_nn (ds_num after));
    op_orth : kept_or_filled (n_factors after) (cp_orth (ds_num before)) (cp_orth (ds_num after)) }.
