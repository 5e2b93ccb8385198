(** Vocabulary for C109: where CP_ALS with ridge penalties and non-negative modes stands still. *)
From Verif Require Export FixSpec.
Set Implicit Arguments.
Unset Strict Implicit.
Local Open Scope R_scope.

(** What is allowed in a mode: anything, or non-negative entries *)
Definition allowed (nn : bool) (N K : nat) (Y : nat -> nat -> R) : Prop := nn = true -> nonneg_mat N K Y.
(** ||Y V - M||^2 + lam ||Y||^2 for the normal equations Y V = M of mode m *)
Definition normal_loss (lam : R) (K : nat) (X : nd) (Us : list nd) (m : nat) (Y : nat -> nat -> R) : R :=
  normal_dist K X Us m Y + lam * frob2 (nth m (shape X) 0%nat) K Y.
(** The present factor of mode m is one of the best allowed matrices for [normal_loss]. *)
Definition mode_settled (nn : bool) (lam : R) (K : nat) (X : nd) (Us : list nd) (m : nat) : Prop :=
  let N := nth m (shape X) 0%nat in
  allowed nn N K (mget (nth m Us m0)) /\
  forall Y, allowed nn N K Y -> normal_loss lam K X Us m (mget (nth m Us m0)) <= normal_loss lam K X Us m Y.

(** G = U V - M, half of the gradient of the error in factor m *)
Definition gap (K : nat) (X : nd) (Us : list nd) (m i r : nat) : R :=
  mprod K (mget (nth m Us m0)) (normal_lhs Us m) i r - normal_rhs X Us m i r.
(** (G V^T + lam U)[i, r] *)
Definition turned_gap (lam : R) (K : nat) (X : nd) (Us : list nd) (m i r : nat) : R :=
  sum K (fun k => gap K X Us m i k * normal_lhs Us m r k) + lam * mget (nth m Us m0) i r.

(** The documented loss, error plus lam ||U||^2, as a function of factor m (the terms of the other modes left out) *)
Definition documented_in (lam : R) (K : nat) (X : nd) (Us : list nd) (m : nat) (W : nd) : R :=
  sse X (with_factor m W Us) unit_weights K + lam * frob2 (nth m (shape X) 0%nat) K (mget W).
