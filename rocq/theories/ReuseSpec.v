(** Vocabulary for Parafac2_ALS objects that are used again and for starts given by the caller (C97). *)
From Verif Require Export ResumeSpec Parafac2Facts.
Set Implicit Arguments.
Unset Strict Implicit.
Local Open Scope R_scope.

(** The addresses of the arrays of a Parafac2Tensor *)
Definition arrays_of (r : pref) : list nat := pr_A r :: pr_B r :: pr_C r :: pr_P r.

(** A Parafac2Tensor r in the memory h that fits the data Xs: arrays of the right shapes, all different objects *)
Definition object_fits (K nI : nat) (Xs : list nd) (h : heap) (r : pref) : Prop :=
  p2_ok K nI {| p2_heap := h; p2_X := Xs; p2_norm := 0; p2_ref := r; p2_cpf := []; p2_inner := fresh_cp None None |}.

(** A start given by the caller: settings, data and the object *)
Record given_start (ps : p2_settings) (K nI : nat) (Xs : list nd) (h : heap) (r : pref) : Prop :=
  { gv_init : lower (ps_init ps) = "precomputed"%string;
    gv_orth : no_orth ps;
    gv_rank : ps_rank ps = K;
    gv_pos : (0 < nI)%nat /\ (0 < K)%nat;
    gv_data : slices_ok nI Xs;
    gv_object : object_fits K nI Xs h r }.

(** The attributes the constructor computes (decompositions.py:588-624): rank, shapes of the slices, number of entries *)
Record attributes_fit (K nI : nat) (Xs : list nd) (r : pref) : Prop :=
  { at_rank : pr_rank r = K;
    at_same : pr_same r = true <-> (forall k, (k < length Xs)%nat -> width Xs k = width Xs 0);
    at_shapes : pr_shapes r = map (fun k => (nI, width Xs k)) (seq 0 (length Xs));
    at_num : pr_num r = list_sum (map (width Xs) (seq 0 (length Xs))) }.

(** An unconstrained, unpenalised fit with working external routines *)
Record plain_given (env : p2_env) (ps : p2_settings) (K nI : nat) (Xs : list nd) (h : heap) (r : pref) : Prop :=
  { pg_start : given_start ps K nI Xs h r;
    pg_attributes : attributes_fit K nI Xs r;
    pg_nn : ps_nn ps = [false; false; false];
    pg_ridge : ps_ridge ps = None;
    pg_svd : svd_works_on K K (env_svd (pe_cp env));
    pg_work : workable (env_svd (pe_cp env)) K Xs }.
