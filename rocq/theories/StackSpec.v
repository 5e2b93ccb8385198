(** Vocabulary for C103: slices of one shape as a tensor. *)
From Verif Require Export QualitySpec Parafac2Spec CoreSpec.
Set Implicit Arguments.
Unset Strict Implicit.
Local Open Scope R_scope.

(** All slices have nI rows and w columns. *)
Definition one_shape (nI w : nat) (Xs : list nd) : Prop := Xs <> [] /\ forall k, (k < length Xs)%nat -> is_mat nI w (nth k Xs m0).

(** X[k, i, j] = X_k[i, j] *)
Definition stacked (nI w : nat) (Xs : list nd) (X : nd) : Prop :=
  wf X /\ shape X = [length Xs; nI; w] /\
  forall k i j, (k < length Xs)%nat -> (i < nI)%nat -> (j < w)%nat -> get X [k; i; j] = mget (nth k Xs m0) i j.

(** The CP model with the factors C, A and P B *)
Definition as_cp (K nI w nK : nat) (A B C P : nd) : list nd :=
  [tab2 nK K (mget C); tab2 nI K (mget A); tab2 w K (mprod K (mget P) (mget B))].
