(** Vocabulary for the properties of Compare.v (C67-C69), independent of the code. *)
From Verif Require Export Spec.
Set Implicit Arguments.
Unset Strict Implicit.
Local Open Scope R_scope.

(** Component r of [[U_1, ..., U_N]] is the tensor with entries [colprod Us idx r].  Inner product and cosine of two
    components, and being a multiple. *)
Definition comp_inner (Us : list nd) (r s : nat) : R :=
  sumf (indices (rows Us)) (fun idx => colprod Us idx r * colprod Us idx s).
Definition comp_cosine (Us : list nd) (r s : nat) : R :=
  comp_inner Us r s / (sqrt (comp_inner Us r r) * sqrt (comp_inner Us s s)).
Definition comp_multiple (Us : list nd) (r s : nat) : Prop :=
  exists c, forall idx, In idx (indices (rows Us)) -> colprod Us idx s = c * colprod Us idx r.

(** No column is zero *)
Definition nonzero_columns (K : nat) (Us : list nd) : Prop :=
  forall U r, In U Us -> (r < K)%nat -> exists i, (i < nrows U)%nat /\ mget U i r <> 0.

(** The same component in every slice of an evolving tensor: A[i,r] C[k,r] B_k[j,r] *)
Definition ev_component (A C : nd) (Bs : list nd) (r i j k : nat) : R :=
  mget A i r * mget C k r * mget (nth k Bs m0) j r.

(** Inner product and cosine of two components of an evolving tensor *)
Definition ev_inner (A C : nd) (Bs : list nd) (r s : nat) : R :=
  sum (length Bs) (fun k => sum (nrows A) (fun i => sum (nrows (nth k Bs m0)) (fun j =>
    ev_component A C Bs r i j k * ev_component A C Bs s i j k))).
Definition ev_cosine (A C : nd) (Bs : list nd) (r s : nat) : R :=
  ev_inner A C Bs r s / (sqrt (ev_inner A C Bs r r) * sqrt (ev_inner A C Bs s s)).
