(** Model of the quality measures of the decomposers and of the loggers that record them:
    /repo/src/tenkit/decomposition/base_decomposer.py:94-115 and
    /repo/src/tenkit/decomposition/logging/logger.py:61-79. *)
From Verif Require Export CMTF Parafac2.
Local Open Scope R_scope.

(** [np.sqrt] of a float64: nan (with a warning) below zero *)
Definition xsqrt (x : xr) : xr :=
  match x with
  | Fin r => if Rlt_dec r 0 then NaN else Fin (sqrt r)
  | PInf => PInf
  | NInf | NaN => NaN
  end.
(** base_decomposer.py:94-97, [norm2] is X_norm**2 *)
Definition explained_of (sse : res R) (norm2 : R) : res xr :=
  do l <- sse ; Ok (xsub (Fin 1) (xdivR l norm2)).
(** base_decomposer.py:111-115 and cmtf.py:53-55 *)
Definition root_of (mse : res xr) : res xr := do m <- mse ; Ok (xsqrt m).
(** What _log appends for a number the decomposer computes *)
Definition as_metric (v : res R) : res xr := do l <- v ; Ok (Fin l).

Definition cp_explained (env : cp_env) (s : cp_state) : res xr := explained_of (cp_SSE env s) (cp_norm s ^ 2).
Definition cp_RMSE (env : cp_env) (s : cp_state) : res xr := root_of (cp_MSE env s).
Definition cmtf_explained (env : cp_env) (s : cmtf_state) : res xr :=
  explained_of (cmtf_SSE env s) (cp_norm (cm_cp s) ^ 2).
Definition cmtf_RMSE (env : cp_env) (s : cmtf_state) : res xr := root_of (cmtf_MSE env s).
Definition p2_explained (s : p2_state) : res xr := explained_of (p2_SSE s) (p2_norm s ^ 2).
Definition p2_RMSE (s : p2_state) : res xr := root_of (p2_MSE s).

(** logger.py:61-79 on a CP decomposer *)
Inductive logger_kind : Type := KLoss | KMSE | KSSE | KRMSE | KExplained.
Definition kind_class (k : logger_kind) : string :=
  match k with
  | KLoss => "LossLogger" | KMSE => "MSELogger" | KSSE => "SSELogger" | KRMSE => "RMSELogger"
  | KExplained => "ExplainedVarianceLogger"
  end.
Definition cp_metric (env : cp_env) (cs : cp_settings) (k : logger_kind) (s : cp_state) : res xr :=
  match k with
  | KLoss => as_metric (cp_loss env cs s)
  | KMSE => cp_MSE env s
  | KSSE => as_metric (cp_SSE env s)
  | KRMSE => cp_RMSE env s
  | KExplained => cp_explained env s
  end.
Definition p2_metric (ps : p2_settings) (k : logger_kind) (s : p2_state) : res xr :=
  match k with
  | KLoss => as_metric (p2_loss ps s)
  | KMSE => p2_MSE s
  | KSSE => as_metric (p2_SSE s)
  | KRMSE => p2_RMSE s
  | KExplained => p2_explained s
  end.
Definition cmtf_metric (env : cp_env) (k : logger_kind) (s : cmtf_state) : res xr :=
  match k with
  | KLoss | KSSE => as_metric (cmtf_SSE env s)
  | KMSE => cmtf_MSE env s
  | KRMSE => cmtf_RMSE env s
  | KExplained => cmtf_explained env s
  end.
Definition cp_logger (env : cp_env) (cs : cp_settings) (k : logger_kind) : logger cp_state :=
  new_logger (kind_class k) (cp_metric env cs k).
Definition p2_logger (ps : p2_settings) (k : logger_kind) : logger p2_state :=
  new_logger (kind_class k) (p2_metric ps k).
Definition cmtf_logger (env : cp_env) (k : logger_kind) : logger cmtf_state :=
  new_logger (kind_class k) (cmtf_metric env k).
