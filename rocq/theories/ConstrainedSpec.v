(** Vocabulary for complete CP_ALS fits with constraints and ridge penalties (C85). *)
From Verif Require Export QualitySpec Parafac2Spec.
Set Implicit Arguments.
Unset Strict Implicit.
Local Open Scope R_scope.

(** No list of flags was passed, or one flag per mode. *)
Definition flags_for (n : nat) (c : option (list bool)) : Prop := c = None \/ exists l, c = Some l /\ length l = n.
(** The flag of mode m is set. *)
Definition asked (c : option (list bool)) (m : nat) : Prop := exists l, c = Some l /\ nth_error l m = Some true.

(** Q Q^T Q = Q: Q preserves the lengths of vectors orthogonal to its kernel. *)
Definition partial_isometry (n k : nat) (Q : nat -> nat -> R) : Prop :=
  forall i r, (i < n)%nat -> (r < k)%nat -> sum k (fun t => sum n (fun j => Q i t * Q j t * Q j r)) = Q i r.

(** Data, settings and routines of a constrained fit: flags for all modes, at most one constraint per mode,
    orthonormal columns only where they fit, a penalty >= 0 for every mode if any. *)
Record constrained (env : cp_env) (cs : cp_settings) (K : nat) (X : nd) (nn orth : option (list bool)) : Prop :=
  { cn_rank : cs_rank cs = K;
    cn_pos : (0 < K)%nat;
    cn_data : data_ok X;
    cn_nn : flags_for (length (shape X)) nn;
    cn_orth : flags_for (length (shape X)) orth;
    cn_apart : forall m, asked nn m -> ~ asked orth m;
    cn_fits : forall m, asked orth m -> (K <= nth m (shape X) 0)%nat;
    cn_ridge : match cs_ridge cs with Some l => (length (shape X) <= length l)%nat /\ Forall (Rle 0) l | None => True end;
    cn_svd : svd_contract (env_svd env);
    cn_nnls : nnls_contract (env_nnls env);
    cn_qr : forall m, asked orth m -> qr_works_on (nth m (shape X) 0%nat) K (env_qr env) }.
