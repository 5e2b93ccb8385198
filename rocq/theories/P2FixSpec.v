(** Vocabulary for C102: where the iteration of Parafac2_ALS stands still. *)
From Verif Require Export PenalisedSpec FixSpec.
Set Implicit Arguments.
Unset Strict Implicit.
Local Open Scope R_scope.

(** No non-negative mode and no ridge penalty *)
Definition plain_settings (ps : p2_settings) : Prop := ps_nn ps = [false; false; false] /\ ps_ridge ps = None.

(** A, B and C, and sum_k ||X_k - A D_k B^T P_k^T||^2 for such a list *)
Definition p2_factors (s : p2_state) : list nd := [p2_A s; p2_B s; p2_C s].
Definition p2_err (K nI : nat) (Xs Ps Fs : list nd) : R := pf_sse K nI (nth 0 Fs m0) (nth 1 Fs m0) (nth 2 Fs m0) Xs Ps.

(** Given the projections and the other two factors, no matrix in place of factor m has a smaller error, and none that is as
    good is smaller. *)
Definition p2_smallest (K nI : nat) (Xs Ps Fs : list nd) (m : nat) : Prop :=
  let N := nth m [nI; K; length Xs] 0%nat in
  (forall W, is_mat N K W -> p2_err K nI Xs Ps Fs <= p2_err K nI Xs Ps (with_factor m W Fs)) /\
  (forall W, is_mat N K W -> p2_err K nI Xs Ps (with_factor m W Fs) <= p2_err K nI Xs Ps Fs ->
     frob2 N K (mget (nth m Fs m0)) <= frob2 N K (mget W)).

(** The error does not change to first order when factor m moves in any direction D. *)
Definition p2_flat (K nI : nat) (Xs Ps Fs : list nd) (m : nat) : Prop :=
  forall D, derivable_pt_lim
    (fun t => p2_err K nI Xs Ps (with_factor m (step_to (nth m [nI; K; length Xs] 0%nat) K (nth m Fs m0) D t) Fs)) 0 0.

(** No other projections with orthonormal columns have a smaller error. *)
Definition best_projections (K nI : nat) (Xs Ps Fs : list nd) : Prop :=
  orth_projections K Xs Ps /\ forall Qs, orth_projections K Xs Qs -> p2_err K nI Xs Ps Fs <= p2_err K nI Xs Qs Fs.
