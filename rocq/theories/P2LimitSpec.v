(** Vocabulary for C108: how far the iterations of Parafac2_ALS move and what they tend to. *)
From Verif Require Export P2FixSpec LimitSpec.
Set Implicit Arguments.
Unset Strict Implicit.
Local Open Scope R_scope.

(** Squared distance between the matrices A D_k B^T, over n slices, of two models; projections with orthonormal columns keep it *)
Definition core_entry (K : nat) (Fs : list nd) (i q k : nat) : R :=
  sum K (fun r => mget (nth 0 Fs m0) i r * mget (nth 1 Fs m0) q r * mget (nth 2 Fs m0) k r).
Definition core_change2 (K nI n : nat) (Fs Gs : list nd) : R :=
  sum nI (fun i => sum K (fun q => sum n (fun k => (core_entry K Fs i q k - core_entry K Gs i q k) ^ 2))).

(** Given the projections and the other two factors, no matrix in place of factor m has a smaller error. *)
Definition p2_best (K nI : nat) (Xs Ps Fs : list nd) (m : nat) : Prop :=
  forall W, is_mat (nth m [nI; K; length Xs] 0%nat) K W -> p2_err K nI Xs Ps Fs <= p2_err K nI Xs Ps (with_factor m W Fs).

(** Every entry of every projection tends to that of Qs. *)
Definition tends_proj (K : nat) (Xs : list nd) (Ps : nat -> list nd) (Qs : list nd) : Prop :=
  forall k j q, (k < length Xs)%nat -> (j < width Xs k)%nat -> (q < K)%nat ->
    Un_cv (fun n => mget (nth k (Ps n) m0) j q) (mget (nth k Qs m0) j q).

(** pick(0), pick(1), ... grow without bound. *)
Definition unbounded (pick : nat -> nat) : Prop := forall n, exists k0, forall k, (k0 <= k)%nat -> (n <= pick k)%nat.
