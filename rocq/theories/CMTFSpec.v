(** Vocabulary for the properties of CMTF_ALS (C51-C53, C61), independent of its code. *)
From Verif Require Export CPSpec.
Set Implicit Arguments.
Unset Strict Implicit.
Local Open Scope R_scope.

(** ||Y - U V^T||^2, entry by entry *)
Definition mat_sse (K : nat) (U V Y : nd) : R :=
  sum (nrows Y) (fun i => sum (ncols Y) (fun j => (mget Y i j - sum K (fun r => mget U i r * mget V j r)) ^ 2)).
(** Sum over the coupled matrices Y_i, each coupled to factor ms_i through its own matrix V_i *)
Definition mats_sse (K : nat) (Us : list nd) (ms : list nat) (Vs Ys : list nd) : R :=
  sum (length ms) (fun i => mat_sse K (nth (nth i ms 0%nat) Us m0) (nth i Vs m0) (nth i Ys m0)).
(** The objective of coupled matrix and tensor factorisation *)
Definition coupled_loss (K : nat) (X : nd) (Us : list nd) (w : nat -> R) (ms : list nat) (Vs Ys : list nd) : R :=
  sse X Us w K + mats_sse K Us ms Vs Ys.

(** Y_i has as many rows as X has entries along mode ms_i, V_i as many as Y_i has columns. *)
Definition coupling_ok (K : nat) (X : nd) (ms : list nat) (Vs Ys : list nd) : Prop :=
  length Vs = length ms /\ length Ys = length ms /\
  forall i, (i < length ms)%nat ->
    (nth i ms 0 < length (shape X))%nat /\
    is_mat (nth (nth i ms 0) (shape X) 0)%nat (ncols (nth i Ys m0)) (nth i Ys m0) /\
    is_mat (ncols (nth i Ys m0)) K (nth i Vs m0).

(** svd works on all matrices with K rows *)
Definition svd_works_rows (K : nat) (svd : nd -> res (nd * nd * nd)) : Prop :=
  forall m, (1 <= m)%nat -> svd_works_on K m svd.

(** Position i repeats an earlier entry of the list *)
Definition repeated {A : Type} (l : list A) (i : nat) : Prop :=
  exists j, (j < i < length l)%nat /\ nth_error l j = nth_error l i.
