(** Vocabulary for Parafac2_ALS fits with non-negative modes and ridge penalties (C88). *)
From Verif Require Export ResumeSpec.
Set Implicit Arguments.
Unset Strict Implicit.
Local Open Scope R_scope.

(** One penalty >= 0 for each of the three modes, if there are penalties *)
Definition p2_penalties (ps : p2_settings) : Prop :=
  match ps_ridge ps with Some l => (3 <= length l)%nat /\ Forall (Rle 0) l | None => True end.

(** A decomposer with a random start, non-negativity flags, ridge penalties and numpy's and scipy's routines *)
Record penalised_fit (env : p2_env) (ps : p2_settings) (K nI : nat) (draws Xs : list nd) : Prop :=
  { pf_start : drawn_start env ps K nI draws Xs;
    pf_nn : length (ps_nn ps) = 3%nat;
    pf_ridge : p2_penalties ps;
    pf_svd : svd_contract (env_svd (pe_cp env));
    pf_nnls : nnls_contract (env_nnls (pe_cp env)) }.

(** A (m = 0), the blueprint B (m = 1) and C (m = 2) *)
Definition p2_factor (s : p2_state) (m : nat) : nd := nth m [p2_A s; p2_B s; p2_C s] (mk [] []).

(** The list of flags or the list of penalties has no entry for mode m. *)
Definition no_entry (ps : p2_settings) (m : nat) : Prop :=
  nth_error (ps_nn ps) m = None \/ exists l, ps_ridge ps = Some l /\ nth_error l m = None.

(** sum_k ||X_k - A D_k B^T P_k^T||^2 plus the penalty of each factor times its squared norm *)
Definition p2_objective (ps : p2_settings) (K nI : nat) (Xs : list nd) (s : p2_state) : R :=
  pf_sse K nI (p2_A s) (p2_B s) (p2_C s) Xs (p2_Ps s) +
  sum 3 (fun m => nth m (match ps_ridge ps with Some l => l | None => [] end) 0 *
                  frob2 (nth m [nI; K; length Xs] 0%nat) K (mget (p2_factor s m))).
