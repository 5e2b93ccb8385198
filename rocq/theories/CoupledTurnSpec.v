(** Vocabulary for coupled data given in other coordinates (C95). *)
From Verif Require Export TuckerSpec CoupledSpec.
Set Implicit Arguments.
Unset Strict Implicit.
Local Open Scope R_scope.

(** Y_i = Q_m H_i W_i^T for the mode m = ms_i that Y_i is coupled to; the W_i have orthonormal columns. *)
Record rotated_matrices (Qs Ws : list nd) (ms : list nat) (Ys Hs : list nd) : Prop :=
  { rm_iso : isometries Ws;
    rm_len : length Ws = length ms;
    rm_cols : forall i, (i < length ms)%nat -> ncols (nth i Ys m0) = nrows (nth i Ws m0) /\ ncols (nth i Hs m0) = ncols (nth i Ws m0);
    rm_data : forall i a b, (i < length ms)%nat ->
      let Q := nth (nth i ms 0%nat) Qs m0 in let W := nth i Ws m0 in (a < nrows Q)%nat -> (b < nrows W)%nat ->
      mget (nth i Ys m0) a b = sum (ncols Q) (fun c => mget Q a c * sum (ncols W) (fun d => mget (nth i Hs m0) c d * mget W b d)) }.

(** What a call with coupled matrices needs besides its data and settings *)
Definition coupled_call (env : cp_env) (cs : cp_settings) (cf : config) (K : nat) (X : nd) (ms : list nat) (Ys : list nd)
    (nn orth : option (list bool)) (draws vdraws : list nd) (budget : Z) (arg : init_arg) (ds : dstate cmtf_state) : Prop :=
  usable_start env cs K X draws arg /\ coupled_start K X ms Ys vdraws /\
  cp_nn (cm_cp (ds_num ds)) = nn /\ cp_orth (cm_cp (ds_num ds)) = orth /\
  (0 < budget)%Z /\ (forall lg, In lg (ds_logs ds) -> exists k, coupled_logger env k lg) /\ checkpoints_fit cf budget ds.
