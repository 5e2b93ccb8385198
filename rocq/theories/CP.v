(** Model of /repo/src/tenkit/decomposition/cp.py (BaseCP and CP_ALS).

    The decomposer's numeric state is [cp_state]; counters, loggers and files are in [dstate]
    (Decomposer.v).  numpy.linalg.svd, numpy.linalg.qr, scipy.optimize.nnls, the random numbers and the
    contents of np.empty are parameters.  Arrays are values here: two names for one array are treated
    in Parafac2.v. *)
From Verif Require Export Decomposer.
Local Open Scope R_scope.

Record cp_env : Type :=
  { env_svd : svd_fun;                    (* numpy.linalg.svd(_, full_matrices=False) *)
    env_svd_u : nd -> res nd;             (* numpy.linalg.svd(_)[0] *)
    env_qr : nd -> res nd;                (* numpy.linalg.qr(_)[0] *)
    env_nnls : nnls_fun;
    env_junk : nat -> nat -> R }.

(** Constructor arguments that never change, cp.py:64-87 and 303-333.  [cs_ridge] None: no penalties. *)
Record cp_settings : Type := { cs_rank : nat; cs_init : string; cs_ridge : option (list R) }.

(** [cp_last] is _last_updated_mode (None: not set), [cp_cache] is _matrix_khatri_rao_product_cache.
    The constraint lists are part of the state because _init_fit replaces None by a list. Before the first
    fit there are no data and no decomposition; nothing reads [cp_X], [cp_norm], [cp_dec] then. *)
Record cp_state : Type :=
  { cp_X : nd; cp_norm : R; cp_dec : kruskal; cp_last : option nat; cp_cache : option nd;
    cp_nn : option (list bool); cp_orth : option (list bool) }.

Definition cp_with_dec (d : kruskal) (s : cp_state) : cp_state :=
  {| cp_X := cp_X s; cp_norm := cp_norm s; cp_dec := d; cp_last := cp_last s; cp_cache := cp_cache s;
     cp_nn := cp_nn s; cp_orth := cp_orth s |}.
Definition cp_with_cache (m : option nat) (c : option nd) (s : cp_state) : cp_state :=
  {| cp_X := cp_X s; cp_norm := cp_norm s; cp_dec := cp_dec s; cp_last := m; cp_cache := c;
     cp_nn := cp_nn s; cp_orth := cp_orth s |}.
(** base_decomposer.py:81-91 set_target *)
Definition cp_with_target (X : nd) (s : cp_state) : cp_state :=
  {| cp_X := X; cp_norm := norm X; cp_dec := cp_dec s; cp_last := cp_last s; cp_cache := cp_cache s;
     cp_nn := cp_nn s; cp_orth := cp_orth s |}.
Definition cp_with_constraints (nn orth : option (list bool)) (s : cp_state) : cp_state :=
  {| cp_X := cp_X s; cp_norm := cp_norm s; cp_dec := cp_dec s; cp_last := cp_last s; cp_cache := cp_cache s;
     cp_nn := nn; cp_orth := orth |}.
Definition kt_with_factor (n : nat) (U : nd) (k : kruskal) : kruskal :=
  {| kt_rank := kt_rank k; kt_fms := replace_at n U (kt_fms k); kt_w := kt_w k |}.

(** What reading an attribute that may be None gives when an array or a list is needed *)
Definition not_none {A : Type} (o : option A) : res A :=
  match o with Some a => Ok a | None => Err TypeError end.

Section CP.
Context (env : cp_env) (cs : cp_settings).

(** cp.py:183-186 *)
Definition cp_inner (s : cp_state) (m : nat) : res R :=
  do U <- list_get (kt_fms (cp_dec s)) m ;
  do C <- not_none (cp_cache s) ;
  do M <- np_mul U C ;
  do P <- np_mul (kt_w (cp_dec s)) (sum_axis0 M) ;
  Ok (np_sum P).
(** cp.py:168-181 *)
Definition cp_SSE (s : cp_state) : res R :=
  match cp_last s with
  | Some m =>
    do Y <- kt_construct (env_junk env) (cp_dec s) ;
    do p <- cp_inner s m ;
    Ok (cp_norm s ^ 2 + norm Y ^ 2 - 2 * p)
  | None =>
    do Y <- kt_construct (env_junk env) (cp_dec s) ;
    do E <- np_sub (cp_X s) Y ;
    Ok (norm E ^ 2)
  end.
(** cp.py:228-234 *)
Definition cp_loss (s : cp_state) : res R :=
  do l <- cp_SSE s ;
  Ok (match cs_ridge cs with
      | None => l
      | Some lams => fold_left (fun l '(lam, U) => l + lam * norm U ^ 2) (combine lams (kt_fms (cp_dec s))) l
      end).
(** base_decomposer.py:105-115 *)
Definition cp_MSE (s : cp_state) : res xr :=
  do l <- cp_SSE s ; Ok (xdivR l (INR (prodl (shape (cp_X s))))).

(** cp.py:354-361 *)
Definition als_lhs (Us : list nd) (skip : nat) : res nd :=
  foldM (fun V '(i, U) =>
           if (i =? skip)%nat then Ok V else
           do G <- matmul (transp U) U ; broadcast_into Rmult V G)
        (combine (seq 0 (length Us)) Us) (np_ones [cs_rank cs; cs_rank cs]).
(** cp.py:363-364.  The result is None when no branch of the three-way routine applies; modes are
    non-negative here, so that does not happen. *)
Definition als_rhs (X : nd) (Us : list nd) (mode : nat) : res nd :=
  do P <- matrix_khatri_rao_product (env_junk env) X Us (Z.of_nat mode) ; not_none P.

(** cp.py:366-383 *)
Definition get_rightsolve (nn orth : option (list bool)) (mode : nat) : res (nd -> nd -> res nd) :=
  do nnl <- not_none nn ;
  do isnn <- list_get nnl mode ;
  do orthl <- not_none orth ;
  do isorth <- list_get orthl mode ;
  do solve <- (if (isorth : bool) then
                 if (isnn : bool) then Err ValueError else Ok (orthogonal_rightsolve (env_svd env))
               else if isnn then Ok (non_negative_rightsolve (env_nnls env))
               else Ok (rightsolve (env_svd env))) ;
  match cs_ridge cs with
  | None => Ok solve
  | Some lams => do lam <- list_get lams mode ; Ok (add_rightsolve_ridge solve lam)
  end.

(** cp.py:385-396 *)
Definition cp_update_factor (s : cp_state) (mode : nat) : cp_state * option exn :=
  let Us := kt_fms (cp_dec s) in
  match (do lhs <- als_lhs Us mode ;
         do rhs <- als_rhs (cp_X s) Us mode ;
         do solve <- get_rightsolve (cp_nn s) (cp_orth s) mode ;
         Ok (lhs, rhs, solve)) with
  | Err e => (s, Some e)
  | Ok (lhs, rhs, solve) =>
    let s := cp_with_cache (Some mode) (Some rhs) s in
    match (do Z <- solve lhs rhs ;
           do U <- list_get Us mode ;
           assign_full U Z) with
    | Err e => (s, Some e)
    | Ok U' => (cp_with_dec (kt_with_factor mode U' (cp_dec s)) s, None)
    end
  end.
Fixpoint cp_update_modes (modes : list nat) (s : cp_state) : cp_state * option exn :=
  match modes with
  | [] => (s, None)
  | m :: rest =>
    match cp_update_factor s m with
    | (s', None) => cp_update_modes rest s'
    | (s', Some e) => (s', Some e)
    end
  end.
(** cp.py:398-402 *)
Definition cp_update_factors (s : cp_state) : cp_state * option exn :=
  cp_update_modes (seq 0 (ndim (cp_X s))) s.

(** cp.py:114-128 *)
Definition cp_check (s : cp_state) (d : kruskal) : res unit :=
  foldM (fun _ '(i, U) =>
           do (len, rank) <- shape2 U ;
           if negb (rank =? cs_rank cs)%nat then Err ValueError else
           do xlen <- list_get (shape (cp_X s)) i ;
           if negb (len =? xlen)%nat then Err ValueError else Ok tt)
        (combine (seq 0 (length (kt_fms d))) (kt_fms d)) tt.

(** CP_ALS as an instance of the generic decomposer of Decomposer.v *)
Definition cp_model : model cp_state kruskal :=
  {| md_class := "CP_ALS"; md_dec := cp_dec; md_set := fun s d => cp_with_dec d s;
     md_store := kt_store; md_load := kt_load; md_check := cp_check; md_prepare := fun s => (s, None);
     md_update := cp_update_factors; md_loss := fun s => do l <- cp_SSE s ; Ok (Fin l);
     md_norm2 := fun s => cp_norm s ^ 2; md_root := base_root "CP_ALS" |}.

(** cp.py:89-94 and 429-437; [draws]: the random matrices (decompositions.py:176-181) *)
Definition cp_init_random (draws : list nd) (s : cp_state) : res cp_state :=
  do d <- kt_random_init draws ;
  match cp_nn s with
  | None => Ok (cp_with_dec d s)
  | Some nn =>
    do d <- foldM (fun d '(mode, isnn) =>
                     do U <- list_get (kt_fms d) mode ;
                     Ok (if (isnn : bool) then kt_with_factor mode (np_map Rabs U) d else d))
                  (combine (seq 0 (length nn)) nn) d ;
    Ok (cp_with_dec d s)
  end.

(** Python's [min] of a tuple *)
Definition py_min (l : list nat) : res nat :=
  match l with [] => Err ValueError | x :: r => Ok (fold_left Nat.min r x) end.
(** [u[:, :rank]] of a matrix *)
Definition first_columns (u : nd) (k : nat) : res nd := take_cols u (seq 0 (Nat.min k (ncols u))).
(** cp.py:96-112 *)
Definition cp_init_svd (s : cp_state) : res cp_state :=
  do mn <- py_min (shape (cp_X s)) ;
  if (mn <? cs_rank cs)%nat then Err ValueError else
  do fms <- mapM (fun i => do M <- unfold (cp_X s) (Z.of_nat i) ;
                           do u <- env_svd_u env M ;
                           first_columns u (cs_rank cs)) (seq 0 (ndim (cp_X s))) ;
  do d <- kt_init fms None ;
  Ok (cp_with_dec d s).

(** The argument initial_decomposition: missing, a Kruskal tensor, or a path (with the file found there). *)
Inductive init_arg : Type := NoArg | DecArg (k : kruskal) | PathArg (f : option file).

(** [str.lower] on ASCII strings *)
Definition lower_char (c : ascii) : ascii :=
  let n := N_of_ascii c in
  if ((65 <=? n) && (n <=? 90))%N then ascii_of_N (n + 32) else c.
Fixpoint lower (s : string) : string :=
  match s with EmptyString => EmptyString | String c r => String (lower_char c) (lower r) end.

(** cp.py:130-162.  [disk]: the HDF5 file at a path, None if there is no file. *)
Definition cp_init_components (disk : string -> option file) (draws : list nd) (arg : init_arg)
    (ds : dstate cp_state) : dstate cp_state * option exn :=
  let init := lower (cs_init cs) in
  let lift r := match r with Ok s => (with_num s ds, None) | Err e => (ds, Some e) end in
  if (match arg with NoArg => false | _ => true end) &&
     negb (existsb (String.eqb init) ["precomputed"; "from_checkpoint"]%string)
  then (ds, Some WarningExc) else
  if String.eqb init "random" then lift (cp_init_random draws (ds_num ds)) else
  if String.eqb init "svd" then lift (cp_init_svd (ds_num ds)) else
  if String.eqb init "from_checkpoint" then
    match arg with
    | PathArg (Some f) => load_checkpoint cp_model f None ds
    | PathArg None => (ds, Some OSError)
    | _ => (ds, Some TypeError)
    end else
  if String.eqb init "precomputed" then
    match arg with
    | DecArg d => lift (do _ <- cp_check (ds_num ds) d ; Ok (cp_with_dec d (ds_num ds)))
    | _ => (ds, Some AttributeError)
    end else
  match disk (cs_init cs) with
  | Some f => load_checkpoint cp_model f None ds
  | None => (ds, Some ValueError)
  end.

(** cp.py:342-346 *)
Definition cp_orthonormalise_step (d : kruskal) (p : nat * bool) : res kruskal :=
  let (mode, o) := p in
  do U <- list_get (kt_fms d) mode ;
  if o then do Q <- env_qr env U ; Ok (kt_with_factor mode Q d) else Ok d.
Definition cp_orthonormalise (s : cp_state) : res cp_state :=
  do orth <- not_none (cp_orth s) ;
  do d <- foldM cp_orthonormalise_step (combine (seq 0 (length orth)) orth) (cp_dec s) ;
  Ok (cp_with_dec d s).
(** If an exception is raised, the factors replaced so far stay replaced. *)
Definition cp_orthonormalise_left (s : cp_state) : cp_state :=
  match cp_orth s with
  | None => s
  | Some orth => cp_with_dec (foldL cp_orthonormalise_step (fun d _ => d) (combine (seq 0 (length orth)) orth) (cp_dec s)) s
  end.
Definition or_unconstrained (c : option (list bool)) (s : cp_state) : option (list bool) :=
  match c with Some l => Some l | None => Some (repeat false (length (kt_fms (cp_dec s)))) end.
(** cp.py:336-352 with base_decomposer.py:127-144 *)
Definition cp_init_fit (disk : string -> option file) (draws : list nd) (X : nd) (max_its : option Z)
    (arg : init_arg) (ds : dstate cp_state) : dstate cp_state * option exn :=
  let ds := with_num (cp_with_target X (ds_num ds)) (with_it 0%Z ds) in
  match cp_init_components disk draws arg ds with
  | (ds, Some e) => (ds, Some e)
  | (ds, None) =>
    let ds := match max_its with Some m => with_max m ds | None => ds end in
    let s := cp_with_dec (kt_reset_weights (cp_dec (ds_num ds))) (ds_num ds) in
    let s := cp_with_constraints (or_unconstrained (cp_nn s) s) (or_unconstrained (cp_orth s) s) s in
    match cp_orthonormalise s with
    | Err e => (with_num (cp_orthonormalise_left s) ds, Some e)
    | Ok s =>
      match cp_SSE s with
      | Err e => (with_conv PInf (ds_prev ds) (with_num s ds), Some e)
      | Ok l => (with_conv PInf (Fin l) (with_num (cp_with_cache (cp_last s) None s) ds), None)
      end
    end
  end.
(** cp.py:188-206 *)
Definition cp_fit (cf : config) (disk : string -> option file) (draws : list nd) (X : nd)
    (max_its : option Z) (arg : init_arg) (ds : dstate cp_state) : dstate cp_state * option exn :=
  match cp_init_fit disk draws X max_its arg ds with
  | (ds, Some e) => (ds, Some e)
  | (ds, None) => cp_fit_loop cp_model cf ds
  end.
End CP.

(** A decomposer on which fit has not been called yet *)
Definition fresh_cp (nn orth : option (list bool)) : cp_state :=
  {| cp_X := mk [] []; cp_norm := 0; cp_dec := {| kt_rank := 0; kt_fms := []; kt_w := mk [] [] |};
     cp_last := None; cp_cache := None; cp_nn := nn; cp_orth := orth |}.
