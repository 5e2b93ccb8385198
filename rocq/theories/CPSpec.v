(** Vocabulary for the properties of CP_ALS (C42-C50), independent of its code. *)
From Verif Require Export Spec.
Set Implicit Arguments.
Unset Strict Implicit.
Local Open Scope R_scope.

(** ||X - [[w; U_1, ..., U_N]]||^2, entry by entry *)
Definition sse (X : nd) (Us : list nd) (w : nat -> R) (K : nat) : R :=
  sumf (indices (shape X)) (fun idx => (get X idx - cp_entry Us w K idx) ^ 2).
Definition unit_weights : nat -> R := fun _ => 1.

(** Data of order at least two with at least one entry, and factor matrices of matching sizes *)
Definition data_ok (X : nd) : Prop :=
  wf X /\ (2 <= length (shape X))%nat /\ Forall (fun n => n <> 0%nat) (shape X).
Definition factors_ok (K : nat) (X : nd) (Us : list nd) : Prop := mats K Us /\ rows Us = shape X.

(** Inner product of two columns; product of these over several matrices *)
Definition gram (U : nd) (r s : nat) : R := sum (nrows U) (fun i => mget U i r * mget U i s).
Definition gramprod (Us : list nd) (r s : nat) : R := prodf Us (fun U => gram U r s).

(** The matrices V and M of the normal equations Z V = M for mode n *)
Definition normal_lhs (Us : list nd) (n : nat) : nat -> nat -> R := gramprod (remove_at n Us).
Definition normal_rhs (X : nd) (Us : list nd) (n : nat) : nat -> nat -> R := mttkrp_entry X Us n.

(** Replace factor n *)
Definition with_factor (n : nat) (Z : nd) (Us : list nd) : list nd := replace_at n Z Us.

(** The ridge terms: sum_m lam_m ||U_m||^2 *)
Definition ridge_terms (lams : list R) (Us : list nd) : R :=
  sumf (combine lams Us) (fun p => fst p * frob2 (nrows (snd p)) (ncols (snd p)) (mget (snd p))).

(** svd works on the K x K matrices met in a fit *)
Definition svd_works_on (n m : nat) (svd : nd -> res (nd * nd * nd)) : Prop :=
  forall A, is_mat n m A -> exists U S Vh, svd A = Ok (U, S, Vh) /\ is_svd n m A U S Vh.

(** Distance of Z V from M, the quantity the update of mode n works with *)
Definition normal_dist (K : nat) (X : nd) (Us : list nd) (n : nat) (Z : nat -> nat -> R) : R :=
  dist2 (nth n (shape X) 0%nat) K (mprod K Z (normal_lhs Us n)) (normal_rhs X Us n).

(** All entries of an n x m matrix are non-negative *)
Definition nonneg_mat (n m : nat) (Z : nat -> nat -> R) : Prop :=
  forall i r, (i < n)%nat -> (r < m)%nat -> 0 <= Z i r.
