(** Vocabulary for when a tensor determines its components (C93), independent of the code. *)
From Verif Require Export MatchSpec SignSpec.
Set Implicit Arguments.
Unset Strict Implicit.
Local Open Scope R_scope.

(** Columns c and d of U are both non-zero and do not lie on one line. *)
Definition not_parallel (U : nd) (c d : nat) : Prop :=
  forall x y, (forall i, (i < nrows U)%nat -> x * mget U i c + y * mget U i d = 0) -> x = 0 /\ y = 0.

(** Jennrich's condition: two modes with independent columns, any two components differ in some other mode, and no
    component is zero. *)
Definition identifiable (K : nat) (Ts : list nd) : Prop :=
  (forall T c, In T Ts -> (c < K)%nat -> clen T c <> 0) /\
  exists a b, (a < b < length Ts)%nat /\
    independent_columns (nrows (nth a Ts m0)) K (nth a Ts m0) /\
    independent_columns (nrows (nth b Ts m0)) K (nth b Ts m0) /\
    forall c d, (c < d < K)%nat -> exists m, (m < length Ts)%nat /\ m <> a /\ m <> b /\ not_parallel (nth m Ts m0) c d.

(** Component c of Ts, weighted, is component q(c) of Es, weighted, entry for entry. *)
Definition same_components (K : nat) (w : nat -> R) (Ts : list nd) (v : nat -> R) (Es : list nd) (q : list nat) : Prop :=
  assignment K K q /\
  forall c idx, (c < K)%nat -> valid idx (rows Ts) ->
    w c * colprod Ts idx c = v (nth c q 0%nat) * colprod Es idx (nth c q 0%nat).

(** Column d of E is a non-zero multiple of column c of T. *)
Definition multiple_columns (T E : nd) (c d : nat) : Prop :=
  exists s, s <> 0 /\ forall i, (i < nrows T)%nat -> mget E i d = s * mget T i c.
