(** Specification vocabulary: small definitions used to state the properties,
    independent of the code's structure. *)
From Verif Require Export NumPy.
Set Implicit Arguments.
Unset Strict Implicit.
Local Open Scope R_scope.

(** Row-major position of an index tuple, by Horner's rule. *)
Definition position (sh idx : list nat) : nat :=
  fold_left (fun acc p => (acc * fst p + snd p)%nat) (combine sh idx) 0%nat.

(** [z] names axis k of N axes: counted from the front, or negative from the back. *)
Definition names_axis (N : nat) (z : Z) (k : nat) : Prop :=
  (k < N)%nat /\ (z = Z.of_nat k \/ z = (Z.of_nat k - Z.of_nat N)%Z).

(** Factor matrices with a common number of columns K; their row counts. *)
Definition mats (K : nat) (Us : list nd) : Prop := Forall (fun U => is_mat (nrows U) K U) Us.
Definition rows (Us : list nd) : list nat := map nrows Us.

(** A list of matrices of any shapes, and prod_m A_m[i_m, j_m]. *)
Definition any_mats (As : list nd) : Prop := Forall (fun A => is_mat (nrows A) (ncols A) A) As.
Fixpoint entprod (As : list nd) (is js : list nat) : R :=
  match As, is, js with
  | A :: As', i :: is', j :: js' => mget A i j * entprod As' is' js'
  | _, _, _ => 1
  end.

(** prod_m U_m[i_m, r] *)
Fixpoint colprod (Us : list nd) (idx : list nat) (r : nat) : R :=
  match Us, idx with
  | U :: Us', i :: idx' => mget U i r * colprod Us' idx' r
  | _, _ => 1
  end.

(** Entry of the tensor with factor matrices Us and weights w. *)
Definition cp_entry (Us : list nd) (w : nat -> R) (rank : nat) (idx : list nat) : R :=
  sum rank (fun r => w r * colprod Us idx r).

(** Squared Frobenius distance of a family of entries. *)
Definition dist2 (n m : nat) (A B : nat -> nat -> R) : R :=
  sum n (fun i => sum m (fun j => (A i j - B i j) ^ 2)).
Definition frob2 (n m : nat) (A : nat -> nat -> R) : R :=
  sum n (fun i => sum m (fun j => A i j ^ 2)).

(** (A B)[i, j] with inner length p *)
Definition mprod (p : nat) (A B : nat -> nat -> R) (i j : nat) : R :=
  sum p (fun k => A i k * B k j).

Definition delta (i j : nat) : R := if Nat.eqb i j then 1 else 0.

(** Q (n x k) has orthonormal columns / rows. *)
Definition orth_cols (n k : nat) (Q : nat -> nat -> R) : Prop :=
  forall a b, (a < k)%nat -> (b < k)%nat -> sum n (fun i => Q i a * Q i b) = delta a b.
Definition orth_rows (k m : nat) (Q : nat -> nat -> R) : Prop :=
  forall a b, (a < k)%nat -> (b < k)%nat -> sum m (fun j => Q a j * Q b j) = delta a b.

(** What numpy.linalg.svd(A, full_matrices=False) documents, in exact arithmetic. *)
Record is_svd (n m : nat) (A U S Vh : nd) : Prop := {
  svd_U_shape : is_mat n (Nat.min n m) U;
  svd_S_shape : is_vec (Nat.min n m) S;
  svd_V_shape : is_mat (Nat.min n m) m Vh;
  svd_U_orth : orth_cols n (Nat.min n m) (mget U);
  svd_V_orth : orth_rows (Nat.min n m) m (mget Vh);
  svd_S_nonneg : forall r, (r < Nat.min n m)%nat -> 0 <= vget S r;
  svd_S_sorted : forall r s, (r <= s < Nat.min n m)%nat -> vget S s <= vget S r;
  svd_product : forall i j, (i < n)%nat -> (j < m)%nat ->
    mget A i j = sum (Nat.min n m) (fun r => mget U i r * vget S r * mget Vh r j)
}.

Definition svd_contract (svd : nd -> res (nd * nd * nd)) : Prop :=
  forall n m A, is_mat n m A -> exists U S Vh, svd A = Ok (U, S, Vh) /\ is_svd n m A U S Vh.

(** What scipy.optimize.nnls documents: argmin over x >= 0 of ||A x - b||. *)
Definition is_nnls (n m : nat) (A b x : nd) : Prop :=
  is_vec m x /\ (forall j, (j < m)%nat -> 0 <= vget x j) /\
  forall y : nat -> R, (forall j, (j < m)%nat -> 0 <= y j) ->
    sum n (fun i => (sum m (fun j => mget A i j * vget x j) - vget b i) ^ 2) <=
    sum n (fun i => (sum m (fun j => mget A i j * y j) - vget b i) ^ 2).

Definition nnls_contract (nnls : nd -> nd -> res nd) : Prop :=
  forall n m A b, is_mat n m A -> is_vec n b -> exists x, nnls A b = Ok x /\ is_nnls n m A b x.

(** Entry (i, r) of the matricised tensor times Khatri-Rao product in mode k:
    sum over all entries of X whose k-th index is i of the entry times the product of
    the other factors' entries. *)
Definition mttkrp_entry (X : nd) (Us : list nd) (k i r : nat) : R :=
  sumf (indices (shape X)) (fun idx =>
    if Nat.eqb (nth k idx 0%nat) i
    then get X idx * colprod (remove_at k Us) (remove_at k idx) r else 0).

(** Length (Euclidean norm) of column r. *)
Definition clen (U : nd) (r : nat) : R := sqrt (sum (nrows U) (fun i => mget U i r ^ 2)).

(** U has at least two axes and R columns. *)
Definition has_cols (R : nat) (U : nd) : Prop := nth_error (shape U) 1 = Some R.

(** Number of positive / negative entries among c 0, ..., c (n-1). *)
Definition npos (n : nat) (c : nat -> R) : nat :=
  length (filter (fun i => if Rlt_dec 0 (c i) then true else false) (seq 0 n)).
Definition nneg (n : nat) (c : nat -> R) : nat :=
  length (filter (fun i => if Rlt_dec (c i) 0 then true else false) (seq 0 n)).

(** p lists 0, ..., K-1 in some order. *)
Definition is_perm (K : nat) (p : list nat) : Prop :=
  length p = K /\ NoDup p /\ forall x, In x p -> (x < K)%nat.

(** A default matrix for [nth]. *)
Definition m0 : nd := tab2 0 0 (fun _ _ => 0).

(** All matrices have as many rows as the first. *)
Definition same_rows (Bs : list nd) : Prop := forall B, In B Bs -> nrows B = nrows (hd m0 Bs).

(** Entry (i, j) of slice k of an evolving tensor: sum_r A[i,r] C[k,r] B_k[j,r]. *)
Definition slice_entry (R0 : nat) (A C : nd) (Bs : list nd) (i j k : nat) : R :=
  sum R0 (fun r => mget A i r * mget C k r * mget (nth k Bs m0) j r).

(** Vs is Us with column r of matrix m multiplied by s m r. *)
Definition columns_times (K : nat) (s : nat -> nat -> R) (Us Vs : list nd) : Prop :=
  mats K Vs /\ rows Vs = rows Us /\
  forall m i r, (m < length Us)%nat -> (i < nrows (nth m Us m0))%nat -> (r < K)%nat ->
    mget (nth m Vs m0) i r = mget (nth m Us m0) i r * s m r.
