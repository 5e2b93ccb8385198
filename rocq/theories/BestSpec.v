(** Vocabulary for the limits of fits (C78): captured variance, singular values left out, slices side by side. *)
From Verif Require Export SafeSpec.
Set Implicit Arguments.
Unset Strict Implicit.
Local Open Scope R_scope.

(** How much of the n x m matrix A lies in the span of the k orthonormal columns of Q: sum of |Q[:, q]^T A|^2 *)
Definition captured (n m k : nat) (A Q : nat -> nat -> R) : R :=
  sum k (fun q => sum m (fun j => sum n (fun i => Q i q * A i j) ^ 2)).

(** The squares of the singular values after the first k, out of p *)
Definition left_out (p k : nat) (S : nd) : R := sum (p - k) (fun t => vget S (k + t) ^ 2).

(** What numpy.linalg.svd(A) documents: all singular vectors, in exact arithmetic *)
Record is_full_svd (n m : nat) (A U S Vh : nd) : Prop := {
  fsvd_U_shape : is_mat n n U;
  fsvd_S_shape : is_vec (Nat.min n m) S;
  fsvd_V_shape : is_mat m m Vh;
  fsvd_U_orth : orth_cols n n (mget U);
  fsvd_V_orth : orth_rows m m (mget Vh);
  fsvd_S_nonneg : forall r, (r < Nat.min n m)%nat -> 0 <= vget S r;
  fsvd_S_sorted : forall r s, (r <= s < Nat.min n m)%nat -> vget S s <= vget S r;
  fsvd_product : forall i j, (i < n)%nat -> (j < m)%nat ->
    mget A i j = sum (Nat.min n m) (fun r => mget U i r * vget S r * mget Vh r j)
}.

(** The mode-n matrix of a tensor: row i holds the entries whose n-th index is i, in storage order *)
Definition mode_width (X : nd) (n : nat) : nat := prodl (remove_at n (shape X)).
Definition mode_matrix (X : nd) (n : nat) : nd :=
  tab2 (nth n (shape X) 0%nat) (mode_width X n)
       (fun i c => get X (insert_at n i (nth c (indices (remove_at n (shape X))) []))).
(** numpy.linalg.svd(M)[0] works on the mode matrices of X. *)
Definition mode_left_vectors (svd_u : nd -> res nd) (X : nd) : Prop :=
  forall n, (n < length (shape X))%nat -> exists U S Vh, svd_u (mode_matrix X n) = Ok U /\
    is_full_svd (nth n (shape X) 0%nat) (mode_width X n) (mode_matrix X n) U S Vh.

(** The slices of PARAFAC2 data next to each other; column c is column [snd] of slice [fst]. *)
Definition columns (Xs : list nd) : list (nat * nat) :=
  flat_map (fun k => map (pair k) (seq 0 (width Xs k))) (seq 0 (length Xs)).
Definition side_by_side (nI : nat) (Xs : list nd) : nd :=
  tab2 nI (length (columns Xs)) (fun i c => let (k, j) := nth c (columns Xs) (0, 0)%nat in mget (nth k Xs m0) i j).
