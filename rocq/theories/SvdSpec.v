(** Vocabulary for C82: two svd routines. *)
From Verif Require Export SafeSpec.
Set Implicit Arguments.
Unset Strict Implicit.
Local Open Scope R_scope.

(** Two routines for numpy.linalg.svd(A, full_matrices=False): both return a singular value decomposition of every matrix
    (not necessarily the same one) and do the same to anything that is not a matrix. *)
Definition both_svd (svd svd' : nd -> res (nd * nd * nd)) : Prop :=
  svd_contract svd /\ svd_contract svd' /\ forall A, (forall n m, ~ is_mat n m A) -> svd' A = svd A.

(** The same environment with another svd routine *)
Definition with_svd (svd : nd -> res (nd * nd * nd)) (env : cp_env) : cp_env :=
  {| env_svd := svd; env_svd_u := env_svd_u env; env_qr := env_qr env; env_nnls := env_nnls env; env_junk := env_junk env |}.
Definition with_svd2 (svd : nd -> res (nd * nd * nd)) (env : p2_env) : p2_env :=
  {| pe_cp := with_svd svd (pe_cp env); pe_qr := pe_qr env |}.
