(** Vocabulary for core consistency (C66). *)
From Verif Require Export SignSpec.
Set Implicit Arguments.
Unset Strict Implicit.
Local Open Scope R_scope.

(** The reduced QR factorisation of an n x m matrix, as numpy.linalg.qr documents it *)
Record is_qr (n m : nat) (A Q T : nd) : Prop := {
  qr_Q_shape : is_mat n (Nat.min n m) Q;
  qr_R_shape : is_mat (Nat.min n m) m T;
  qr_Q_orth : orth_cols n (Nat.min n m) (mget Q);
  qr_R_upper : forall i j, (i < Nat.min n m)%nat -> (j < m)%nat -> (j < i)%nat -> mget T i j = 0;
  qr_product : forall i j, (i < n)%nat -> (j < m)%nat -> mget A i j = mprod (Nat.min n m) (mget Q) (mget T) i j
}.
Definition qr_contract (qr : nd -> res (nd * nd)) : Prop :=
  forall n m A, is_mat n m A -> exists Q T, qr A = Ok (Q, T) /\ is_qr n m A Q T.

(** Entry of the Tucker model with core G, and its squared distance from X *)
Definition sum3 (n m p : nat) (f : nat -> nat -> nat -> R) : R :=
  sum n (fun i => sum m (fun j => sum p (fun k => f i j k))).
Definition tucker_entry (F : nat) (A B C : nat -> nat -> R) (G : nat -> nat -> nat -> R) (i j k : nat) : R :=
  sum3 F F F (fun r s t => A i r * B j s * C k t * G r s t).
Definition tucker_dist (nI nJ nK F : nat) (X : nd) (A B C : nat -> nat -> R) (G : nat -> nat -> nat -> R) : R :=
  sum3 nI nJ nK (fun i j k => (get X [i; j; k] - tucker_entry F A B C G i j k) ^ 2).

(** The core of a CP model: 1 where all three indices agree *)
Definition cp_core (r s t : nat) : R := delta r s * delta s t.

(** U with columns of (almost) equal length: c r is the cube root of the product of the column lengths of all factors. *)
Definition balanced (eps : R) (U : nd) (c : nat -> R) (i r : nat) : R := mget U i r * c r / (clen U r + eps).
Definition is_cube_root (x y : R) : Prop := 0 <= y /\ y ^ 3 = x.

(** G is a Tucker core that fits X best, for fixed factors. *)
Definition best_core (nI nJ nK F : nat) (X : nd) (A B C : nat -> nat -> R) (G : nat -> nat -> nat -> R) : Prop :=
  forall H, tucker_dist nI nJ nK F X A B C G <= tucker_dist nI nJ nK F X A B C H.

(** X and three factor matrices with F columns fit together. *)
Definition core_setting (nI nJ nK F : nat) (X A B C : nd) : Prop :=
  is_mat nI F A /\ is_mat nJ F B /\ is_mat nK F C /\ wf X /\ shape X = [nI; nJ; nK].
(** How far the smoothing constant of the normalisation moves component r *)
Definition smoothing (eps : R) (A B C : nd) (r : nat) : R := (1 + eps / clen A r) * (1 + eps / clen B r) * (1 + eps / clen C r).
