(** Vocabulary for slices in another order and with other coordinates of their rows (C99). *)
From Verif Require Export CompressSpec TuckerSpec SymSpec.
Set Implicit Arguments.
Unset Strict Implicit.
Local Open Scope R_scope.

(** X_k = Q Y_{p k}: Q has orthonormal columns, p reorders the slices. *)
Record relocated (nI nJ : nat) (Q : nd) (p : nat -> nat) (Xs Ys : list nd) : Prop :=
  { rl_len : length Ys = length Xs;
    rl_Q : is_mat nI nJ Q /\ orth_cols nI nJ (mget Q);
    rl_perm : permutes (length Xs) p;
    rl_width : forall k, (k < length Xs)%nat -> width Ys (p k) = width Xs k;
    rl_data : forall k i j, (k < length Xs)%nat -> (i < nI)%nat -> (j < width Xs k)%nat ->
      mget (nth k Xs m0) i j = mprod nJ (mget Q) (mget (nth (p k) Ys m0)) i j }.

(** A non-negative A may only be reordered. *)
Definition rows_permitted (ps : p2_settings) (nI nJ : nat) (Q : nd) : Prop :=
  nth_error (ps_nn ps) 0 = Some true -> nJ = nI /\ exists r, reordering nI r (mget Q).

(** A = Q A' and row k of C is row p k of C'. *)
Definition rows_moved (K nI nJ : nat) (Q A A' : nd) : Prop :=
  forall i r, (i < nI)%nat -> (r < K)%nat -> mget A i r = mprod nJ (mget Q) (mget A') i r.
Definition rows_reordered (K n : nat) (p : nat -> nat) (C C' : nd) : Prop :=
  forall k r, (k < n)%nat -> (r < K)%nat -> mget C k r = mget C' (p k) r.
Definition moved_factors (K nI nJ : nat) (Q : nd) (p : nat -> nat) (n : nat) (s t : p2_state) : Prop :=
  rows_moved K nI nJ Q (p2_A s) (p2_A t) /\ p2_B s = p2_B t /\ rows_reordered K n p (p2_C s) (p2_C t).

(** The k-th array of the one list is the (p k)-th of the other. *)
Definition reordered_list (n : nat) (p : nat -> nat) (Ps Ps' : list nd) : Prop :=
  forall k, (k < n)%nat -> nth k Ps m0 = nth (p k) Ps' m0.
