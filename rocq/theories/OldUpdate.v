(** Model of CMTF_ALS._update_als_factor_ (/repo/src/tenkit/decomposition/cmtf.py:191-284), the update that
    the class keeps beside the one it uses (CMTF.v).

    The debugging text (cmtf.py:202-217 and 276-284) is built by evaluating the loss before and after; only whether
    that raises is modelled.  The attributes it prints besides the loss (current_iteration, coupled_weights, weights)
    are assumed to exist. *)
From Verif Require Export CMTF.
Local Open Scope R_scope.

(** numpy.linalg.pinv with its default rcond: singular values not above 1e-15 times the largest count as zero *)
Definition inv_above (cutoff x : R) : R := if Rlt_dec cutoff x then 1 / x else 0.
Definition np_amax (a : nd) : R := fold_right Rmax 0 (data a).
Definition np_pinv (svd : svd_fun) (A : nd) : res nd :=
  do (U, Sv, Vh) <- svd A ;
  let cutoff := / 10 ^ 15 * np_amax Sv in
  let Sinv := np_map (inv_above cutoff) Sv in
  do SU <- np_mul (mk (shape Sinv ++ [1%nat]) (data Sinv)) (transp U) ;
  matmul (transp Vh) SU.

Definition put_factor (mode : nat) (U : nd) (s : cmtf_state) : cmtf_state :=
  cm_with_dec (kt_with_factor mode U (cm_dec s)) s.

(** cmtf.py:191-284.  There is no method _compute_V (cmtf.py:261), so modes without a coupled matrix raise
    AttributeError there.  Division by the norm 0 is [NonFinite] as everywhere (NumPy.v): in NumPy the column becomes
    NaN and pinv raises. *)
Definition old_update (env : cp_env) (cs : cp_settings) (s : cmtf_state) (mode : nat) : cmtf_state * option exn :=
  match (do _ <- cmtf_SSE env s ;
         do M <- unfold (cp_X (cm_cp s)) (Z.of_nat mode) ;
         do KR <- khatri_rao (env_junk env) (cm_fms s) (Some (Z.of_nat mode)) ;
         Ok (M, KR)) with
  | Err e => (s, Some e)
  | Ok (M, KR) =>
    match dict_find (Z.of_nat mode) (mode_to_cm_idx (cm_modes s)) with
    | None => (s, Some AttributeError)
    | Some idxs =>
      match (do i <- list_get idxs 0 ;
             do Y <- first_of (cm_Y s) idxs ;
             do _ <- concat1 M Y ;
             do V <- first_of (cm_V s) idxs ;
             do _ <- concat0 KR V ;
             do rhs <- cmtf_rhs env s mode ;
             do lhs <- cmtf_lhs env cs s mode ;
             do P <- np_pinv (env_svd env) lhs ;
             do Z <- matmul rhs P ;
             do U <- list_get (cm_fms s) mode ;
             do U1 <- assign_full U Z ;
             Ok (i, Y, U1)) with
      | Err e => (s, Some e)
      | Ok (i, Y, U1) =>
        match (do Q <- np_div U1 (norm_axis0 U1) ; assign_full U1 Q) with
        | Err e => (put_factor mode U1 s, Some e)
        | Ok U2 =>
          let s2 := put_factor mode U2 s in
          match (do P <- np_pinv (env_svd env) U2 ;
                 do W <- matmul (transp Y) (transp P) ;
                 do V <- list_get (cm_V s) i ;
                 assign_full V W) with
          | Err e => (s2, Some e)
          | Ok V' =>
            let s3 := cm_with_V (replace_at i V' (cm_V s)) s2 in
            match cmtf_SSE env s3 with Err e => (s3, Some e) | Ok _ => (s3, None) end
          end
        end
      end
    end
  end.
