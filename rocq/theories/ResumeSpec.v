(** Vocabulary for continued and resumed Parafac2_ALS fits (C77). *)
From Verif Require Export SafeSpec.
Set Implicit Arguments.
Unset Strict Implicit.
Local Open Scope R_scope.

(** The two decomposers hold the same numbers, wherever the arrays are. *)
Record same_arrays (a b : p2_state) : Prop :=
  { sa_X : p2_X a = p2_X b; sa_A : p2_A a = p2_A b; sa_B : p2_B a = p2_B b; sa_C : p2_C a = p2_C b; sa_P : p2_Ps a = p2_Ps b }.

(** No factor is to be orthonormal.  Non-negativity and ridge penalties are allowed. *)
Definition no_orth (ps : p2_settings) : Prop := ps_orth ps = None \/ ps_orth ps = Some [false; false; false].

(** The decomposer with init='from_checkpoint' *)
Definition p2_resuming (ps : p2_settings) : p2_settings :=
  {| ps_rank := ps_rank ps; ps_init := "from_checkpoint"; ps_updates := ps_updates ps; ps_nn := ps_nn ps;
     ps_ridge := ps_ridge ps; ps_orth := ps_orth ps |}.

(** A random start: settings, data, draws and numpy's QR decomposition *)
Record drawn_start (env : p2_env) (ps : p2_settings) (K nI : nat) (draws Xs : list nd) : Prop :=
  { dw_init : lower (ps_init ps) = "random"%string;
    dw_orth : no_orth ps;
    dw_rank : ps_rank ps = K;
    dw_pos : (0 < nI)%nat /\ (0 < K)%nat;
    dw_data : slices_ok nI Xs;
    dw_draws : draws_ok K nI Xs draws;
    dw_qr : forall k, (k < length Xs)%nat -> qr_works_on (width Xs k) K (env_qr (pe_cp env));
    dw_wide : wide K Xs }.
(** The settings alone *)
Definition drawn_settings (ps : p2_settings) (K nI : nat) : Prop :=
  ps_rank ps = K /\ no_orth ps /\ (0 < nI)%nat /\ (0 < K)%nat.
(** The two loggers hold the same records. *)
Definition same_record (a b : logger p2_state) : Prop := lg_class a = lg_class b /\ lg_its a = lg_its b /\ lg_vals a = lg_vals b.
