(** Model of /repo/src/tenkit/base.py.

    Every function of the file is modelled.  External numerical routines
    (numpy.linalg.svd, scipy.optimize.nnls) are parameters; np.empty's contents are a
    parameter [junk].  Matrix arguments are real matrices; [@] is modelled for matrices. *)
From Verif Require Export NumPy.

(** numpy.linalg.svd(A, full_matrices=False) and scipy.optimize.nnls(A, b)[0]. *)
Definition svd_fun : Type := nd -> res (nd * nd * nd).
Definition nnls_fun : Type := nd -> nd -> res nd.

(** base.py:10-11: [S[S != 0] = 1/S[S != 0]] *)
Definition inv_nonzero (x : R) : R := if Req_EM_T x 0 then x else (1 / x)%R.

(** base.py:7-13 *)
Definition rightsolve (svd : svd_fun) (A B : nd) : res nd :=
  do (U, Sv, Vh) <- svd A ;
  let Sinv := np_map inv_nonzero Sv in
  do VS <- np_mul (transp Vh) Sinv ;
  do P <- matmul VS (transp U) ;
  matmul B P.

(** base.py:16-27.  The one-dimensional branch indexes B with the float array B, which
    NumPy refuses with IndexError.  [x[i, :] = v] is modelled for v of length
    A.shape[0] (what nnls returns). *)
Definition non_negative_rightsolve (nnls : nnls_fun) (A B : nd) : res nd :=
  if ndim B =? 1 then Err IndexError else
  do p <- shape_at B 0 ;
  do n <- shape_at A 0 ;
  foldM (fun x i =>
           do v <- nnls (transp A) (row B i) ;
           set_slice0 x i (i + 1) (newaxis0 v))
        (seq 0 p) (np_zeros [p; n]).

(** base.py:36-43.  [max(U.shape)] over the two lengths of U. *)
Definition orthogonal_solve (svd : svd_fun) (A B : nd) : res nd :=
  do BA <- matmul (transp B) A ;
  do (U, Sv, Vh) <- svd BA ;
  do S0 <- (match data Sv with s :: _ => Ok s | [] => Err IndexError end) ;
  let S_tol := (INR (Nat.max (nrows U) (ncols U)) * S0 * / 10 ^ 16)%R in
  let keep := np_map (fun s => if Rlt_dec S_tol s then 1%R else 0%R) Sv in
  do VK <- np_mul (transp Vh) keep ;
  matmul VK (transp U).

(** base.py:30-33 *)
Definition orthogonal_rightsolve (svd : svd_fun) (A B : nd) : res nd :=
  do X <- orthogonal_solve svd (transp A) (transp B) ;
  Ok (transp X).

(** base.py:46-60.  np.sqrt of a negative penalty is NaN in NumPy; Coq's sqrt gives 0
    there, so nothing is claimed for negative penalties. *)
Definition add_rightsolve_ridge (solve : nd -> nd -> res nd) (ridge_penalty : R) (A B : nd) : res nd :=
  do (n, m) <- shape2 A ;
  do (p, q) <- shape2 B ;
  do A_ <- concat1 A (np_map (Rmult (sqrt ridge_penalty)) (np_identity n)) ;
  do B_ <- concat1 B (np_zeros [p; n]) ;
  solve A_ B_.

(** base.py:63-69 *)
Definition kron_binary_vectors (u v : nd) : res nd :=
  do n <- shape1 u ;
  do m <- shape1 v ;
  do kprod <- np_mul (mk [n; 1] (data u)) (mk [1; m] (data v)) ;
  reshape kprod [n * m].

(** base.py:73-87.  [junk] is what np.empty finds in memory.  The name K is bound twice,
    to the column count of B in the end. *)
Definition khatri_rao_binary (junk : nat -> R) (A B : nd) : res nd :=
  do (nI, _) <- shape2 A ;
  do (nJ, K) <- shape2 B ;
  foldM (fun out i =>
           do rb <- np_mul (newaxis0 (row A i)) B ;
           set_slice0 out (i * nJ) ((i + 1) * nJ) rb)
        (seq 0 nI) (np_empty junk [nI * nJ; K]).

(** [l.pop(i)] for a Python list: the remaining list. *)
Definition list_pop {A : Type} (l : list A) (i : Z) : res (list A) :=
  match py_index (length l) i with
  | Some k => Ok (remove_at k l)
  | None => Err IndexError
  end.

(** base.py:90-121.  Each call of khatri_rao_binary allocates its own memory:
    [junk i] is what the call in pass i finds. *)
Definition khatri_rao (junk : nat -> nat -> R) (factors : list nd) (skip : option Z) : res nd :=
  do factors <- (match skip with Some s => list_pop factors s | None => Ok factors end) ;
  do product <- list_get factors 0 ;
  foldM (fun product i =>
           do f <- list_get factors i ;
           khatri_rao_binary (junk i) product f)
        (seq 1 (length factors - 1)) product.

(** base.py:136-142 *)
Definition kron_binary (A B : nd) : res nd :=
  do (n, m) <- shape2 A ;
  do (p, q) <- shape2 B ;
  do kprod <- np_mul (mk [n; 1; m; 1] (data A)) (mk [1; p; 1; q] (data B)) ;
  reshape kprod [n * p; m * q].

(** base.py:124-133 *)
Definition kron (factors : list nd) : res nd :=
  do product <- list_get factors 0 ;
  foldM (fun product i =>
           do f <- list_get factors i ;
           kron_binary product f)
        (seq 1 (length factors - 1)) product.

(** [A.shape[n]] for a possibly negative n *)
Definition shape_z (a : nd) (n : Z) : res nat :=
  match py_index (ndim a) n with Some k => Ok (nth k (shape a) 0) | None => Err IndexError end.

(** base.py:194-211 *)
Definition unfold (A : nd) (n : Z) : res nd :=
  do M <- moveaxis A n 0 ;
  do len <- shape_z A n ;
  reshape_auto M len.

(** base.py:214-239; [shape] is a list of lengths (no -1 placeholder). *)
Definition fold (M : nd) (n : Z) (sh : list nat) : res nd :=
  do rest <- list_pop sh n ;
  do mode_dim <- (match py_index (length sh) n with
                  | Some k => Ok (nth k sh 0) | None => Err IndexError end) ;
  do T <- reshape M (mode_dim :: rest) ;
  moveaxis T 0 n.

(** base.py:180-191.  [shape[-1]], [shape[-2]]: last two lengths.  [i % shape[0]] is i in
    the loop. *)
Definition mttkrp_mid_with_krp (tensor krp : nd) : res nd :=
  do block_size <- shape_z tensor (-1) ;
  do num_rows <- shape_z tensor (-2) ;
  do num_cols <- shape_z krp (-1) ;
  do n0 <- shape_z tensor 0 ;
  foldM (fun product i =>
           let idx := i mod n0 in
           do t <- matmul (row tensor idx) (slice0 krp (i * block_size) ((i + 1) * block_size)) ;
           broadcast_into Rplus product t)
        (seq 0 n0) (np_zeros [num_rows; num_cols]).

(** base.py:175-177 *)
Definition mttkrp_mid (junk : nat -> nat -> R) (tensor : nd) (matrices : list nd) : res nd :=
  do krp <- khatri_rao junk matrices (Some 1%Z) ;
  mttkrp_mid_with_krp tensor krp.

(** base.py:164-172.  [None] when no branch applies: the function falls off its end. *)
Definition mttkrp3 (junk : nat -> nat -> R) (X : nd) (factors : list nd) (mode : Z) : res (option nd) :=
  if (mode =? 0)%Z then
    do n0 <- shape_z X 0 ;
    do M <- reshape_auto X n0 ;
    do K <- khatri_rao junk factors (Some mode) ;
    do P <- matmul M K ; Ok (Some P)
  else if (mode =? 1)%Z then
    do P <- mttkrp_mid junk X factors ; Ok (Some P)
  else if ((mode =? 2) || (mode =? -1))%Z then
    do Y <- moveaxis X (-1) 0 ;
    do n2 <- shape_z X (-1) ;
    do M <- reshape_auto Y n2 ;
    do K <- khatri_rao junk factors (Some mode) ;
    do P <- matmul M K ; Ok (Some P)
  else Ok None.

(** base.py:145-161 *)
Definition matrix_khatri_rao_product (junk : nat -> nat -> R) (X : nd) (factors : list nd) (mode : Z)
  : res (option nd) :=
  if negb (ndim X =? length factors) then Err AssertionError else
  if length factors =? 3 then mttkrp3 junk X factors mode
  else
    do M <- unfold X mode ;
    do K <- khatri_rao junk factors (Some mode) ;
    do P <- matmul M K ; Ok (Some P).

(** base.py:242-263 *)
Definition unflatten_factors (flattened : nd) (rank : nat) (sizes : list nat) : res (list nd) :=
  do (factors, _) <-
    foldM (fun (acc : list nd * nat) s =>
             let (factors, offset) := acc in
             let stop := offset + s * rank in
             do matrix <- reshape (slice0 flattened offset stop) [s; rank] ;
             Ok (factors ++ [matrix], stop))
          sizes ([], 0) ;
  Ok factors.

(** base.py:266-276.  The offsets are the running sums of the sizes. *)
Definition flatten_factors (junk : nat -> R) (factor_matrices : list nd) : res nd :=
  let sizes := map (fun f => prodl (shape f)) factor_matrices in
  do (flattened, _) <-
    foldM (fun (acc : nd * nat) f =>
             let (flattened, offset) := acc in
             let size := prodl (shape f) in
             do out <- set_slice0 flattened offset (offset + size) (mk [size] (data f)) ;
             Ok (out, offset + size))
          factor_matrices (np_empty junk [list_sum sizes], 0) ;
  Ok flattened.
