(** Vocabulary for data given in other coordinates (C89). *)
From Verif Require Export PenalisedSpec.
Set Implicit Arguments.
Unset Strict Implicit.
Local Open Scope R_scope.

(** X_k = Y_k W_k^T for matrices W_k with orthonormal columns: the slices Ys hold the same data in fewer (or rotated) columns. *)
Record expressed (nI : nat) (Ws Xs Ys : list nd) : Prop :=
  { xp_len : length Ys = length Xs;
    xp_orth : forall k, (k < length Xs)%nat -> orth_cols (width Xs k) (width Ys k) (mget (nth k Ws m0));
    xp_data : forall k i j, (k < length Xs)%nat -> (i < nI)%nat -> (j < width Xs k)%nat ->
      mget (nth k Xs m0) i j = sum (width Ys k) (fun a => mget (nth k Ys m0) i a * mget (nth k Ws m0) j a) }.

(** P_k = W_k Q_k *)
Definition carried (K : nat) (Ws Xs Ys Ps Qs : list nd) : Prop :=
  forall k j r, (k < length Xs)%nat -> (j < width Xs k)%nat -> (r < K)%nat ->
    mget (nth k Ps m0) j r = mprod (width Ys k) (mget (nth k Ws m0)) (mget (nth k Qs m0)) j r.

(** The code calls singular values of an n x K matrix zero if they are at most n * S_0 * 1e-16.  For the v x K matrix M no
    singular value is zero only when measured with w rows. *)
Definition same_cut (svd : nd -> res (nd * nd * nd)) (v w K : nat) (M : nat -> nat -> R) : Prop :=
  forall BA U Sv Vh, is_mat v K BA -> (forall i j, (i < v)%nat -> (j < K)%nat -> mget BA i j = M i j) -> svd BA = Ok (U, Sv, Vh) ->
    forall r, (r < K)%nat -> INR v * vget Sv 0 * / 10 ^ 16 < vget Sv r <-> INR w * vget Sv 0 * / 10 ^ 16 < vget Sv r.

(** Equal A, B and C *)
Definition same_factors (s t : p2_state) : Prop := p2_A s = p2_A t /\ p2_B s = p2_B t /\ p2_C s = p2_C t.

(** Changes of coordinates for which the number of columns plays no role: rotations, or a single component *)
Definition harmless (K : nat) (Xs Ys : list nd) : Prop :=
  (forall k, (k < length Xs)%nat -> width Ys k = width Xs k) \/
  (K = 1%nat /\ forall k, (k < length Xs)%nat -> INR (width Ys k) < 10 ^ 16 /\ INR (width Xs k) < 10 ^ 16).

(** Xs_k = c k * Ys_k *)
Definition signed_copy (nI : nat) (c : nat -> R) (Xs Ys : list nd) : Prop := length Ys = length Xs /\
  forall k, (k < length Xs)%nat -> width Ys k = width Xs k /\ (c k = 1 \/ c k = -1) /\
    forall i j, (i < nI)%nat -> (j < width Xs k)%nat -> mget (nth k Xs m0) i j = c k * mget (nth k Ys m0) i j.
(** Column j of Xs_k is column p k j of Ys_k; p k is a permutation with inverse q k. *)
Definition permuted_copy (nI : nat) (p q : nat -> nat -> nat) (Xs Ys : list nd) : Prop := length Ys = length Xs /\
  forall k, (k < length Xs)%nat -> width Ys k = width Xs k /\
    (forall j, (j < width Xs k)%nat -> (p k j < width Xs k)%nat /\ q k (p k j) = j) /\
    (forall a, (a < width Xs k)%nat -> (q k a < width Xs k)%nat /\ p k (q k a) = a) /\
    forall i j, (i < nI)%nat -> (j < width Xs k)%nat -> mget (nth k Xs m0) i j = mget (nth k Ys m0) i (p k j).
