(** Vocabulary for the property of constrained and penalised CMTF_ALS updates (C86), independent of its code. *)
From Verif Require Export CMTFSpec.
Set Implicit Arguments.
Unset Strict Implicit.
Local Open Scope R_scope.

(** Entry (i, r) of X_(m) times the Khatri-Rao product of the other factors, plus Y V *)
Definition coupled_rhs (X : nd) (Us : list nd) (m : nat) (V Y : nd) (i r : nat) : R :=
  mttkrp_entry X Us m i r + sum (ncols Y) (fun j => mget Y i j * mget V j r).
(** The coupled loss plus lam_m ||U_m||^2 for every factor *)
Definition penalised_loss (lam : nat -> R) (K : nat) (X : nd) (Us : list nd) (ms : list nat) (Vs Ys : list nd) : R :=
  coupled_loss K X Us unit_weights ms Vs Ys +
  sum (length (shape X)) (fun m => lam m * frob2 (nth m (shape X) 0%nat) K (mget (nth m Us m0))).
(** No factor has a constraint *)
Definition unconstrained (X : nd) (nn orth : option (list bool)) : Prop :=
  exists l1 l2, nn = Some l1 /\ orth = Some l2 /\
    forall m, (m < length (shape X))%nat -> nth_error l1 m = Some false /\ nth_error l2 m = Some false.
(** Mode m has the penalty lam_m, and only coupled modes have one. *)
Definition penalties (ridge : option (list R)) (X : nd) (ms : list nat) (lam : nat -> R) : Prop :=
  forall m, (m < length (shape X))%nat ->
    match ridge with Some l => nth_error l m = Some (lam m) | None => lam m = 0 end /\
    0 <= lam m /\ (~ In m ms -> lam m = 0).
