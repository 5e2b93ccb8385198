(** Vocabulary for the properties of Parafac2_ALS (C54-C58), independent of its code. *)
From Verif Require Export CPSpec.
Set Implicit Arguments.
Unset Strict Implicit.
Local Open Scope R_scope.

(** Number of columns of slice k *)
Definition width (Xs : list nd) (k : nat) : nat := ncols (nth k Xs m0).

(** Entry (i, j) of A diag(C[k]) B^T P^T for a K-component model *)
Definition pf_entry (K : nat) (A B C : nd) (k : nat) (P : nat -> nat -> R) (i j : nat) : R :=
  sum K (fun r => mget A i r * mget C k r * mprod K P (mget B) j r).

(** ||X_k - A diag(C[k]) B^T P^T||^2 and its sum over the slices *)
Definition slice_err (K nI : nat) (A B C : nd) (Xs : list nd) (k : nat) (P : nat -> nat -> R) : R :=
  dist2 nI (width Xs k) (pf_entry K A B C k P) (mget (nth k Xs m0)).
Definition pf_sse (K nI : nat) (A B C : nd) (Xs Ps : list nd) : R :=
  sum (length Xs) (fun k => slice_err K nI A B C Xs k (mget (nth k Ps m0))).

(** Entry (j, a) of X_k^T (A diag(C[k]) B^T), the matrix whose singular value decomposition gives the projections *)
Definition cross (K nI : nat) (A B C : nd) (Xs : list nd) (k : nat) (j a : nat) : R :=
  sum nI (fun i => mget (nth k Xs m0) i j * sum K (fun r => mget C k r * mget A i r * mget B a r)).

(** No singular value of the n x m matrix M is below the code's tolerance n * S_0 * 1e-16. *)
Definition untruncated (svd : nd -> res (nd * nd * nd)) (n m : nat) (M : nat -> nat -> R) : Prop :=
  forall BA U Sv Vh, is_mat n m BA -> (forall i j, (i < n)%nat -> (j < m)%nat -> mget BA i j = M i j) ->
    svd BA = Ok (U, Sv, Vh) ->
    forall r, (r < m)%nat -> INR n * vget Sv 0 * / 10 ^ 16 < vget Sv r.

(** All projections have orthonormal columns. *)
Definition orth_projections (K : nat) (Xs Ps : list nd) : Prop :=
  forall k, (k < length Xs)%nat -> orth_cols (width Xs k) K (mget (nth k Ps m0)).

(** Entry (i, q, k) of the tensor of the matrices X_k P_k *)
Definition projected_entry (Xs Ps : list nd) (i q k : nat) : R :=
  sum (width Xs k) (fun j => mget (nth k Xs m0) i j * mget (nth k Ps m0) j q).

(** numpy.linalg.qr(_)[0] of n x m matrices: as many orthonormal columns as fit *)
Definition qr_works_on (n m : nat) (qr : nd -> res nd) : Prop :=
  forall A, is_mat n m A -> exists Q, qr A = Ok Q /\ is_mat n (Nat.min n m) Q /\ orth_cols n (Nat.min n m) (mget Q).

(** The data: matrices with nI rows; and random arrays of the right sizes for it *)
Definition slices_ok (nI : nat) (Xs : list nd) : Prop :=
  Xs <> [] /\ forall k, (k < length Xs)%nat -> is_mat nI (width Xs k) (nth k Xs m0).
Definition draws_ok (K nI : nat) (Xs : list nd) (draws : list nd) : Prop :=
  exists A C Ns, draws = A :: C :: Ns /\ is_mat nI K A /\ is_mat (length Xs) K C /\ length Ns = length Xs /\
    forall k, (k < length Xs)%nat -> is_mat (width Xs k) K (nth k Ns m0).
