(** Core consistency: metrics.py:122-173, decompositions.py:273-276.  The parameter [qr] stands for
    numpy.linalg.qr(_) in its default (reduced) form. *)
From Verif Require Export Metrics Decompositions Parafac2.
Set Implicit Arguments.
Unset Strict Implicit.
Local Open Scope R_scope.

Definition qr_fun : Type := nd -> res (nd * nd).

(** metrics.py:134-135: [T = np.zeros((F,F,F)); np.fill_diagonal(T, 1)] *)
Definition superdiagonal (F : nat) : nd :=
  tab [F; F; F] (fun idx => if Nat.eqb (nth 0 idx 0%nat) (nth 1 idx 0%nat) && Nat.eqb (nth 1 idx 0%nat) (nth 2 idx 0%nat)
                            then 1 else 0).

(** metrics.py:138-142: [weights**(1/3)] spread over the normalised factors *)
Definition spread_weights (Us : list nd) : res (list nd) :=
  do p <- normalize_factors Us ;
  let '(Vs, norms) := p in
  do N <- concat0_list norms ;
  let weights := tab2 1 (ncols N) (fun _ r => prodf (seq 0 (nrows N)) (fun i => mget N i r)) in
  mapM (fun V => broadcast_into Rmult V (np_map (fun x => root x 3) weights)) Vs.

(** scipy.linalg.solve_triangular(R, b): back substitution, using the upper triangle only; a zero on the diagonal
    raises.  [back n M b k] lists the last k unknowns. *)
Fixpoint back (n : nat) (M : nat -> nat -> R) (b : nat -> R) (k : nat) : list R :=
  match k with
  | O => []
  | S k' => let xs := back n M b k' in
            let i := (n - S k')%nat in
            (b i - sum k' (fun j => M i (S i + j)%nat * nth j xs 0)) / M i i :: xs
  end.
Definition zero_free (n : nat) (d : nat -> R) : bool :=
  forallb (fun i => if Req_EM_T (d i) 0 then false else true) (seq 0 n).
Definition solve_triangular (M b : nd) : res nd :=
  do (n, m) <- shape2 M ;
  do (p, q) <- shape2 b ;
  if negb (Nat.eqb n m) then Err ValueError
  else if negb (Nat.eqb n p) then Err ValueError
  else if zero_free n (fun i => mget M i i)
  then Ok (tab2 n q (fun i j => nth i (back n (mget M) (fun i => mget b i j) n) 0))
  else Err LinAlgError.

(** metrics.py:122-160.  [sum] is Python's: for F = 0 it gives the integer 0, and 0/0 of integers raises. *)
Definition core_consistency (qr : qr_fun) (X A B C : nd) (normalized : bool) : res xr :=
  do F <- shape_at A 1 ;
  do Us <- spread_weights [A; B; C] ;
  do k <- kron (map transp Us) ;
  do (Q, R0) <- qr (transp k) ;
  do rhs <- matmul (transp Q) (as_column X) ;
  do G <- solve_triangular R0 rhs ;
  do D <- np_sub G (as_column (superdiagonal F)) ;
  if Nat.eqb F 0 && negb normalized then Err ZeroDivisionError
  else let denom := if normalized then norm G ^ 2 else INR F in
       Ok (xmul (Fin 100) (xsub (Fin 1) (xdivR (norm2 D) denom))).

(** metrics.py:164-173 *)
Definition core_consistency_parafac2 (qr : qr_fun) (junk : nat -> R) (Xs Ps : list nd) (A B C : nd) : res xr :=
  do rank <- shape_at B 1 ;
  do nI <- shape_at A 0 ;
  do nK <- shape_at C 0 ;
  do PX <- foldM (fun T '(k, P) => do Xk <- list_get Xs k ; do XP <- matmul Xk P ; set_last T k XP)
                 (combine (seq 0 (length Ps)) Ps) (np_empty junk [nI; rank; nK]) ;
  core_consistency qr PX A B C false.

(** decompositions.py:273-276 *)
Definition kt_core_consistency (qr : qr_fun) (k : kruskal) (X : nd) (normalized : bool) : res xr :=
  match kt_fms k with
  | [A; B; C] => core_consistency qr X A B C normalized
  | _ => Err ValueError
  end.
