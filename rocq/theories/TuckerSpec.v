(** Vocabulary for tensors given in other coordinates (C94). *)
From Verif Require Export ConstrainedSpec.
Set Implicit Arguments.
Unset Strict Implicit.
Local Open Scope R_scope.

(** Matrices with orthonormal columns *)
Definition isometries (Qs : list nd) : Prop :=
  Forall (fun Q => is_mat (nrows Q) (ncols Q) Q /\ orth_cols (nrows Q) (ncols Q) (mget Q)) Qs.

(** X = G x_1 Q_1 x_2 Q_2 ...: the smaller (or equally large) tensor G holds the coordinates of X in the columns of the Q_n. *)
Record rotated (Qs : list nd) (X G : nd) : Prop :=
  { ro_iso : isometries Qs;
    ro_rows : rows Qs = shape X;
    ro_cols : map ncols Qs = shape G;
    ro_data : forall idx, valid idx (shape X) -> get X idx = sumf (indices (shape G)) (fun j => get G j * entprod Qs idx j) }.

(** U_n = Q_n V_n for every n *)
Inductive carried_by (K : nat) : list nd -> list nd -> list nd -> Prop :=
| cb_nil : carried_by K [] [] []
| cb_cons Q U V Qs Us Vs : nrows U = nrows Q -> nrows V = ncols Q ->
    (forall i r, (i < nrows Q)%nat -> (r < K)%nat -> mget U i r = mprod (ncols Q) (mget Q) (mget V) i r) ->
    carried_by K Qs Us Vs -> carried_by K (Q :: Qs) (U :: Us) (V :: Vs).

(** Row i of Q holds a single 1, in column p i. *)
Definition reordering (n : nat) (p : nat -> nat) (Q : nat -> nat -> R) : Prop :=
  forall i, (i < n)%nat -> (p i < n)%nat /\ forall j, (j < n)%nat -> Q i j = delta (p i) j.

(** Coordinates may change freely in modes without constraint and without changing the length in orthonormal modes; the
    coordinates of non-negative modes may be reordered: coordinate i of X is coordinate p i of G. *)
Definition permitted (nn orth : option (list bool)) (Qs : list nd) : Prop :=
  forall m, (m < length Qs)%nat -> let Q := nth m Qs m0 in
    (asked orth m -> ncols Q = nrows Q) /\
    (asked nn m -> ncols Q = nrows Q /\ exists p, reordering (nrows Q) p (mget Q)).

(** What a constrained call needs besides its data and settings *)
Definition constrained_call (env : cp_env) (cs : cp_settings) (cf : config) (K : nat) (X : nd) (nn orth : option (list bool)) (draws : list nd)
    (budget : Z) (arg : init_arg) (ds : dstate cp_state) : Prop :=
  usable_start env cs K X draws arg /\ cp_nn (ds_num ds) = nn /\ cp_orth (ds_num ds) = orth /\ cp_last (ds_num ds) = None /\
  (0 < budget)%Z /\ (forall lg, In lg (ds_logs ds) -> exists k, code_logger env cs k lg) /\ checkpoints_fit cf budget ds.
