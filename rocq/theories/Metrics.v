(** Model of /repo/src/tenkit/metrics.py. *)
From Coq Require Import String.
From Verif Require Export Decompositions.
Local Open Scope R_scope.

(** [x + y] and [x * y] on extended numbers. *)
Definition xneg (x : xr) : xr :=
  match x with Fin r => Fin (- r) | PInf => NInf | NInf => PInf | NaN => NaN end.
Definition xadd (x y : xr) : xr := xsub x (xneg y).
Definition xmul (x y : xr) : xr :=
  match x, y with
  | NaN, _ | _, NaN => NaN
  | Fin a, Fin b => Fin (a * b)
  | Fin a, i | i, Fin a =>
      if Req_EM_T a 0 then NaN else if Rlt_dec a 0 then xneg i else i
  | PInf, PInf | NInf, NInf => PInf
  | _, _ => NInf
  end.

(** Python's [max(a, b)]: the first argument unless the second is larger. *)
Definition py_max (a b : R) : R := if Rlt_dec a b then b else a.

(** metrics.py:9-10, on NumPy scalars (0/0 is NaN with a warning). *)
Definition weight_score (weight1 weight2 : R) : xr :=
  xdivR (Rabs (weight1 - weight2)) (py_max weight1 weight2).

(** [factor.reshape(-1,1)] *)
Definition as_column (U : nd) : nd := mk [prodl (shape U); 1%nat] (data U).

(** metrics.py:20-23: the first factor decides for the whole list. *)
Definition as_matrices (Us : list nd) : res (list nd) :=
  match Us with
  | [] => Err IndexError
  | U :: _ => Ok (if Nat.eqb (ndim U) 1 then map as_column Us else Us)
  end.

(** [factor[:, r]] for a matrix and [u @ v] for vectors. *)
Definition col_get (U : nd) (r : nat) : res nd :=
  match shape U with
  | [_; m] => if Nat.ltb r m then Ok (col U r) else Err IndexError
  | _ => Err IndexError
  end.
Definition vdot (u v : nd) : res R :=
  do n <- shape1 u ;
  do m <- shape1 v ;
  if Nat.eqb n m then Ok (sum n (fun i => vget u i * vget v i)) else Err ValueError.
Definition vec_get (v : nd) (i : nat) : res R :=
  do n <- shape1 v ;
  if Nat.ltb i n then Ok (vget v i) else Err IndexError.

(** metrics.py:32-37: [np.prod(np.concatenate(norms), axis=0)] or ones. *)
Definition fms_weights (weight_penalty : bool) (rank : nat) (norms : list nd) : res nd :=
  if weight_penalty then
    do N <- concat0_list norms ;
    Ok (tab1 (ncols N) (fun r => prodf (seq 0 (nrows N)) (fun i => mget N i r)))
  else Ok (np_ones [rank]).

(** metrics.py:41-46: the score of component [r]. *)
Definition component_score (nonnegative : bool) (Ts Es : list nd) (wt we : nd) (r : nat) : res xr :=
  do a <- vec_get wt r ;
  do b <- vec_get we r ;
  foldM (fun score TE =>
           do t <- col_get (fst TE) r ;
           do e <- col_get (snd TE) r ;
           do d <- vdot t e ;
           Ok (xmul score (Fin (if nonnegative then Rabs d else d))))
        (combine Ts Es) (xsub (Fin 1) (weight_score a b)).

(** metrics.py:18-49.  Lists mixing vectors and matrices are not modelled. *)
Definition factor_match_scores (weight_penalty nonnegative : bool) (true_factors estimated_factors : list nd)
  : res (list xr) :=
  do Ts <- as_matrices true_factors ;
  do Es <- as_matrices estimated_factors ;
  do rank <- (do T <- list_get Ts 0 ; shape_at T 1) ;
  do tn <- normalize_factors Ts ;
  do en <- normalize_factors Es ;
  do wt <- fms_weights weight_penalty rank (snd tn) ;
  do we <- fms_weights weight_penalty rank (snd en) ;
  mapM (component_score nonnegative (fst tn) (fst en) wt we) (seq 0 rank).

(** [np.min] and [np.mean] of a list of floats: both propagate NaN; [np.min] of an empty
    list raises ValueError, [np.mean] of it is NaN with a warning. *)
Definition xmin2 (x y : xr) : xr :=
  match x, y with
  | NaN, _ | _, NaN => NaN
  | _, _ => if xltb y x then y else x
  end.
Definition np_min (l : list xr) : res xr :=
  match l with
  | [] => Err ValueError
  | x :: l' => Ok (fold_left xmin2 l' x)
  end.
Definition np_mean (l : list xr) : res xr :=
  Ok (xdiv (fold_left xadd l (Fin 0)) (Fin (INR (length l)))).

(** metrics.py:54-59 *)
Definition fms_reduction (name : string) : res (list xr -> res xr) :=
  if String.eqb name "min" then Ok np_min
  else if String.eqb name "mean" then Ok np_mean
  else Err ValueError.

(** [itertools.permutations(l, r)]: all selections of [r] different positions, in
    lexicographic order of positions. *)
Fixpoint picks {A : Type} (l : list A) : list (A * list A) :=
  match l with
  | [] => []
  | x :: l' => (x, l') :: map (fun yr => (fst yr, x :: snd yr)) (picks l')
  end.
Fixpoint permutations {A : Type} (r : nat) (l : list A) : list (list A) :=
  match r with
  | O => [[]]
  | Datatypes.S r' => flat_map (fun xl => map (cons (fst xl)) (permutations r' (snd xl))) (picks l)
  end.

(** metrics.py:67-78: one pass of the loop, for any scoring of the permuted factors. *)
Definition fms_step (score : list nat -> res xr) (acc : xr * option (list nat)) (p : list nat)
  : res (xr * option (list nat)) :=
  do fms <- score p ;
  Ok (if xltb (fst acc) fms then (fms, Some p) else acc).

(** [factors[0].shape[1]] *)
Definition first_cols (Us : list nd) : res nat := do U <- list_get Us 0 ; shape_at U 1.

(** metrics.py:51-79.  [max_fms = -1] and [best_permutation = None] initially. *)
Definition factor_match_score (true_factors estimated_factors : list nd) (weight_penalty : bool)
  (reduction : string) : res (xr * option (list nat)) :=
  do red <- fms_reduction reduction ;
  do rank <- first_cols true_factors ;
  do estimated_rank <- first_cols estimated_factors ;
  foldM (fms_step (fun p =>
           do permuted <- permute_factors p estimated_factors ;
           do scores <- factor_match_scores weight_penalty true true_factors permuted ;
           red scores))
        (permutations rank (seq 0 estimated_rank)) (Fin (-1), None).

(** metrics.py:81-114 *)
Definition separate_mode_factor_match_score (true_factors estimated_factors : list nd) (reduction : string)
  : res (list xr * list (option (list nat))) :=
  do red <- fms_reduction reduction ;
  do rank <- first_cols true_factors ;
  do estimated_rank <- first_cols estimated_factors ;
  do rs <- mapM (fun TE =>
             foldM (fms_step (fun p =>
                      do permuted <- permute_factors p [snd TE] ;
                      do scores <- factor_match_scores false true [fst TE] permuted ;
                      red scores))
                   (permutations rank (seq 0 estimated_rank)) (Fin (-1), None))
           (combine true_factors estimated_factors) ;
  Ok (map fst rs, map snd rs).

(** metrics.py:118-119 *)
Definition tensor_completion_score (X X_hat W : nd) : res xr :=
  let V := np_map (fun w => 1 - w) W in
  do D <- np_sub X X_hat ;
  do N <- np_mul V D ;
  do M <- np_mul V X ;
  Ok (xdivR (norm N) (norm M)).

(** metrics.py:294-297 *)
Definition percent_explained (true_tensor estimated_tensor : nd) : res xr :=
  do D <- np_sub true_tensor estimated_tensor ;
  Ok (xsub (Fin 1) (xdivR (norm D ^ 2) (norm true_tensor ^ 2))).

(** metrics.py:191-193; [np.linalg.inv] is an oracle. *)
Definition inv_fun : Type := nd -> res nd.
Definition np_diagonal (a : nd) : res nd :=
  do nm <- shape2 a ;
  Ok (tab1 (Nat.min (fst nm) (snd nm)) (fun i => mget a i i)).
Definition leverage (inv : inv_fun) (F : nd) : res nd :=
  do G <- matmul (transp F) F ;
  do Gi <- inv G ;
  do H <- matmul F (transp Gi) ;
  do L <- matmul H (transp F) ;
  np_diagonal L.

(** metrics.py:259-291: mode 1 (the evolving factors) is dropped before anything is computed.
    [A[:, permutation]] as in permute_factors. *)
Definition factor_match_score_parafac2 (tA tC : nd) (tB : list nd) (eA eC : nd) (eB : list nd)
  (weight_penalty : bool) (reduction : string) : res (xr * option (list nat)) :=
  do red <- fms_reduction reduction ;
  do rank <- shape_at tA 1 ;
  do estimated_rank <- shape_at eA 1 ;
  foldM (fms_step (fun p =>
           do permuted <- mapM (fun U => take_cols U p) [eA; eC] ;
           do scores <- factor_match_scores weight_penalty true [tA; tC] permuted ;
           red scores))
        (permutations rank (seq 0 estimated_rank)) (Fin (-1), None).

(** metrics.py:196-256: the normalised true factors are overwritten by the normalised
    estimated factors (line 215), so of the true factors only [true_factors[0].shape[1]]
    is used.  [x ** (1/K)] for a product of absolute values. *)
Definition root (x : R) (K : nat) : R := if Req_EM_T x 0 then 0 else Rpower x (1 / INR K).
Definition unit_columns (U : nd) : res nd := np_div U (norm_axis0 U).
Definition abs_products (Ts Es : list nd) (r : nat) : res R :=
  foldM (fun score TE =>
           do t <- col_get (fst TE) r ;
           do e <- col_get (snd TE) r ;
           do d <- vdot t e ;
           Ok (score * Rabs d)) (combine Ts Es) 1.
Definition factor_match_scores_parafac2 (weight_penalty : bool) (tA tC : nd) (tB : list nd) (eA eC : nd) (eB : list nd)
  : res (list R) :=
  do rank <- shape_at tA 1 ;
  do nA <- unit_columns eA ;
  do nB <- mapM unit_columns eB ;
  do nC <- unit_columns eC ;
  if weight_penalty then Err NotImplementedError
  else
    mapM (fun r =>
            do s <- abs_products [nA; nC] [eA; eC] r ;
            do e <- abs_products nB eB r ;
            if Nat.eqb (length nB) 0 then Err ZeroDivisionError else Ok (s * root e (length nB)))
         (seq 0 rank).
