(** Specification vocabulary for the metrics; independent of the code. *)
From Coq Require Import String.
From Verif Require Export Spec Utils.
Local Open Scope R_scope.

(** The regularisation 1e-15 of utils.py:78. *)
Definition tiny : R := / 10 ^ 15.

(** Weight of a component: the product of its column lengths. *)
Definition cweight (Us : list nd) (r : nat) : R := prodf Us (fun U => clen U r).

(** Regularised absolute cosine of column [c] of [T] and column [d] of [E]. *)
Definition rcos (T E : nd) (c d : nat) : R :=
  Rabs (sum (nrows T) (fun i => mget T i c * mget E i d)) / ((clen T c + tiny) * (clen E d + tiny)).

(** Agreement of the weights of two components. *)
Definition weight_agreement (penalty : bool) (Ts Es : list nd) (c d : nat) : R :=
  if penalty
  then 1 - Rabs (cweight Ts c - cweight Es d) / Rmax (cweight Ts c) (cweight Es d)
  else 1.

(** Score of matching true component [c] with estimated component [d]. *)
Definition match_score (penalty : bool) (Ts Es : list nd) (c d : nat) : R :=
  weight_agreement penalty Ts Es c d * prodf (combine Ts Es) (fun TE => rcos (fst TE) (snd TE) c d).

(** An injective assignment of estimated components to the [r] true ones. *)
Definition assignment (n r : nat) (p : list nat) : Prop :=
  length p = r /\ NoDup p /\ Forall (fun x => (x < n)%nat) p.

(** No pair of matched components has two zero weights (0/0). *)
Definition comparable (penalty : bool) (Ts Es : list nd) (p : list nat) : Prop :=
  penalty = true -> forall c, (c < length p)%nat -> ~ (cweight Ts c = 0 /\ cweight Es (nth c p 0%nat) = 0).

(** [s] is the minimum (the mean) of [f 0 .. f (n-1)]. *)
Inductive reduction : Type := Minimum | Mean.
Definition reduced (red : reduction) (n : nat) (f : nat -> R) (s : R) : Prop :=
  match red with
  | Minimum => (exists c, (c < n)%nat /\ f c = s) /\ (forall c, (c < n)%nat -> s <= f c)
  | Mean => (0 < n)%nat /\ s * INR n = sum n f
  end.
Definition total_score (red : reduction) (penalty : bool) (Ts Es : list nd) (p : list nat) (s : R) : Prop :=
  reduced red (length p) (fun c => match_score penalty Ts Es c (nth c p 0%nat)) s.

(** Lexicographic order of assignments of equal length. *)
Fixpoint lex_lt (p q : list nat) : Prop :=
  match p, q with
  | x :: p', y :: q' => (x < y)%nat \/ (x = y /\ lex_lt p' q')
  | _, _ => False
  end.

(** [p] is the first best comparable assignment, with score [s]. *)
Definition best_assignment (red : reduction) (penalty : bool) (Ts Es : list nd) (n r : nat) (p : list nat) (s : R)
  : Prop :=
  assignment n r p /\ comparable penalty Ts Es p /\ total_score red penalty Ts Es p s /\
  forall q s', assignment n r q -> comparable penalty Ts Es q -> total_score red penalty Ts Es q s' ->
    s' <= s /\ (lex_lt q p -> s' < s).

Definition reduction_name (red : reduction) : string :=
  match red with Minimum => "min"%string | Mean => "mean"%string end.

(** [E] and [E'] have the same columns up to sign. *)
Definition same_up_to_sign (K : nat) (E E' : nd) : Prop :=
  nrows E' = nrows E /\
  exists s : nat -> R, (forall r, (r < K)%nat -> s r = 1 \/ s r = -1) /\
    forall i r, (i < nrows E)%nat -> (r < K)%nat -> mget E' i r = s r * mget E i r.

(** Componentwise exactness of a matrix inverse. *)
Definition is_inverse (n : nat) (G Gi : nd) : Prop :=
  is_mat n n Gi /\
  forall i j, (i < n)%nat -> (j < n)%nat -> mprod n (mget G) (mget Gi) i j = delta i j.
