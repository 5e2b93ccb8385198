(** Model of /repo/src/tenkit/decomposition/parafac2.py (BaseParafac2 and Parafac2_ALS).

    The PARAFAC2 decomposition and the inner CP decomposer share arrays and update them in place, so
    the factor matrices and projection matrices live in a heap here and are named by their addresses.
    The data matrices are values: the code only reads them, and a data matrix that is the same array as a
    factor is out of scope.  The arithmetic of the inner decomposer is that of CP.v, run on the values found at
    its addresses; the factor it updates is written back to that factor's address. *)
From Verif Require Export CP.
Local Open Scope R_scope.

(** ** Heap *)
(** An array's address is its position. Addresses handed out are always in range; [hread] of any other
    address is never used. *)
Definition heap : Type := list nd.
Definition hread (h : heap) (a : nat) : nd := nth a h (mk [] []).
Definition hwrite (h : heap) (a : nat) (v : nd) : heap := replace_at a v h.
(** New arrays get the addresses from [length h] on. *)
Definition halloc (h : heap) (vs : list nd) : heap * list nat := ((h ++ vs)%list, seq (length h) (length vs)).

(** ** State *)
(** A Parafac2Tensor object, decompositions.py:588-624: addresses of A, blueprint_B, C and the projection
    matrices, and the attributes computed when it was created. *)
Record pref : Type :=
  { pr_A : nat; pr_B : nat; pr_C : nat; pr_P : list nat;
    pr_rank : nat; pr_warning : bool; pr_same : bool; pr_shapes : list (nat * nat); pr_num : nat }.

(** numpy.linalg.qr with both results, for init_cp; everything else is in [cp_env]. *)
Record p2_env : Type := { pe_cp : cp_env; pe_qr : nd -> res (nd * nd) }.

(** Constructor arguments, parafac2.py:65-85 and 331-368.  A missing non_negativity_constraints has been replaced
    by [False, False, False] (354-355). *)
Record p2_settings : Type :=
  { ps_rank : nat; ps_init : string; ps_updates : nat; ps_nn : list bool; ps_ridge : option (list R);
    ps_orth : option (list bool) }.

(** [p2_cpf]: the list cp_decomposition.factor_matrices.  [p2_inner]: the other attributes of the inner
    decomposer; the factor matrices stored in it are stale and are never used. *)
Record p2_state : Type :=
  { p2_heap : heap; p2_X : list nd; p2_norm : R; p2_ref : pref; p2_cpf : list nat; p2_inner : cp_state }.

Definition p2_with_heap (h : heap) (s : p2_state) : p2_state :=
  {| p2_heap := h; p2_X := p2_X s; p2_norm := p2_norm s; p2_ref := p2_ref s; p2_cpf := p2_cpf s; p2_inner := p2_inner s |}.
Definition p2_with_inner (c : cp_state) (s : p2_state) : p2_state :=
  {| p2_heap := p2_heap s; p2_X := p2_X s; p2_norm := p2_norm s; p2_ref := p2_ref s; p2_cpf := p2_cpf s; p2_inner := c |}.
Definition p2_with_cpf (l : list nat) (s : p2_state) : p2_state :=
  {| p2_heap := p2_heap s; p2_X := p2_X s; p2_norm := p2_norm s; p2_ref := p2_ref s; p2_cpf := l; p2_inner := p2_inner s |}.
Definition p2_with_ref (r : pref) (s : p2_state) : p2_state :=
  {| p2_heap := p2_heap s; p2_X := p2_X s; p2_norm := p2_norm s; p2_ref := r; p2_cpf := p2_cpf s; p2_inner := p2_inner s |}.
Definition p2_with_data (X : list nd) (nrm : R) (s : p2_state) : p2_state :=
  {| p2_heap := p2_heap s; p2_X := X; p2_norm := nrm; p2_ref := p2_ref s; p2_cpf := p2_cpf s; p2_inner := p2_inner s |}.

Definition p2_A (s : p2_state) : nd := hread (p2_heap s) (pr_A (p2_ref s)).
Definition p2_B (s : p2_state) : nd := hread (p2_heap s) (pr_B (p2_ref s)).
Definition p2_C (s : p2_state) : nd := hread (p2_heap s) (pr_C (p2_ref s)).
Definition p2_Ps (s : p2_state) : list nd := map (hread (p2_heap s)) (pr_P (p2_ref s)).

(** The decomposition's arrays copied out, as the storage code reads them. *)
Definition p2_value (s : p2_state) : parafac2 :=
  {| pf_blueprint := p2_B s; pf_P := p2_Ps s;
     pf_ev := {| ev_rank := pr_rank (p2_ref s); ev_A := p2_A s;
                 ev_B := match projected_factor (p2_B s) (p2_Ps s) with Ok Bs => Bs | Err _ => [] end;
                 ev_C := p2_C s; ev_warning := pr_warning (p2_ref s); ev_same := pr_same (p2_ref s);
                 ev_slice_shapes := pr_shapes (p2_ref s); ev_num_elements := pr_num (p2_ref s) |} |}.

(** A Parafac2Tensor made of newly allocated copies of the arrays of [d] *)
Definition p2_adopt (d : parafac2) (s : p2_state) : p2_state :=
  let ev := pf_ev d in
  let (h, addrs) := halloc (p2_heap s) ([ev_A ev; pf_blueprint d; ev_C ev] ++ pf_P d) in
  let b := length (p2_heap s) in
  p2_with_ref {| pr_A := b; pr_B := S b; pr_C := S (S b); pr_P := skipn 3 addrs;
                 pr_rank := ev_rank ev; pr_warning := ev_warning ev; pr_same := ev_same ev;
                 pr_shapes := ev_slice_shapes ev; pr_num := ev_num_elements ev |} (p2_with_heap h s).

(** Run the steps of a for-loop until one of them raises. *)
Fixpoint run_all {S A : Type} (f : S -> A -> S * option exn) (l : list A) (s : S) : S * option exn :=
  match l with
  | [] => (s, None)
  | a :: rest => match f s a with (s', None) => run_all f rest s' | (s', Some e) => (s', Some e) end
  end.

Section Parafac2.
Context (env : p2_env) (ps : p2_settings).
Definition inner_settings : cp_settings :=
  {| cs_rank := ps_rank ps; cs_init := "precomputed"; cs_ridge := ps_ridge ps |}.

(** ** Loss *)
(** decompositions.py:394-400 with 513: slice k computed from the current contents of the arrays *)
Definition p2_slice (s : p2_state) (k : nat) : res nd :=
  do n <- np_len (p2_C s) ;
  do c <- (if Nat.ltb k n then Ok (row (p2_C s) k) else Err IndexError) ;
  do P <- list_get (p2_Ps s) k ;
  do B <- matmul P (p2_B s) ;
  do scores <- np_mul c B ;
  matmul (p2_A s) (transp scores).
(** decompositions.py:385-392 *)
Definition p2_slices (s : p2_state) : res (list nd) := mapM (p2_slice s) (seq 0 (length (pr_shapes (p2_ref s)))).
(** parafac2.py:218-223 *)
Definition p2_SSE (s : p2_state) : res R :=
  do Ys <- p2_slices s ;
  foldM (fun acc '(X, Y) => do E <- np_sub X Y ; Ok (acc + np_sum (np_map (fun x => x ^ 2) E)))
        (combine (p2_X s) Ys) 0.
(** parafac2.py:225-227 *)
Definition p2_MSE (s : p2_state) : res xr := do l <- p2_SSE s ; Ok (xdivR l (INR (pr_num (p2_ref s)))).
(** parafac2.py:434-441 *)
Definition p2_loss (s : p2_state) : res R :=
  do l <- p2_SSE s ;
  Ok (match ps_ridge ps with
      | None => l
      | Some lams => fold_left (fun l '(U, lam) => l + lam * norm U ^ 2) (combine [p2_A s; p2_B s; p2_C s] lams) l
      end).

(** ** Updates *)
(** [a[..., k] = s] for a 3-dimensional a *)
Definition set_last (a : nd) (k : nat) (s : nd) : res nd :=
  match shape a with
  | [nI; nJ; nK] =>
      if Nat.ltb k nK then
        do s' <- assign_full (np_zeros [nI; nJ]) s ;
        Ok (tab [nI; nJ; nK] (fun idx =>
              if Nat.eqb (nth 2 idx 0%nat) k then mget s' (nth 0 idx 0%nat) (nth 1 idx 0%nat) else get a idx))
      else Err IndexError
  | _ => Err IndexError
  end.
(** parafac2.py:233-241 *)
Definition p2_projected_X (s : p2_state) : res nd :=
  do nI <- shape_at (p2_A s) 0 ;
  do nK <- shape_at (p2_C s) 0 ;
  foldM (fun T '(k, P) => do Xk <- list_get (p2_X s) k ; do XP <- matmul Xk P ; set_last T k XP)
        (combine (seq 0 (length (p2_Ps s))) (p2_Ps s)) (np_empty (env_junk (pe_cp env) 0) [nI; ps_rank ps; nK]).

(** parafac2.py:248-255: (C[k]*A)@blueprint_B.T *)
Definition p2_target (s : p2_state) (k : nat) : res nd :=
  do n <- np_len (p2_C s) ;
  do c <- (if Nat.ltb k n then Ok (row (p2_C s) k) else Err IndexError) ;
  do M <- np_mul c (p2_A s) ;
  matmul M (transp (p2_B s)).
Definition p2_update_projection (s : p2_state) (k : nat) : p2_state * option exn :=
  match (do T <- p2_target s k ;
         do Xk <- list_get (p2_X s) k ;
         do Q <- orthogonal_solve (env_svd (pe_cp env)) T Xk ;
         do a <- list_get (pr_P (p2_ref s)) k ;
         do P' <- assign_full (hread (p2_heap s) a) (transp Q) ;
         Ok (a, P')) with
  | Err e => (s, Some e)
  | Ok (a, P') => (p2_with_heap (hwrite (p2_heap s) a P') s, None)
  end.
(** parafac2.py:244-255 *)
Definition p2_update_projections (s : p2_state) : p2_state * option exn :=
  run_all p2_update_projection (seq 0 (length (p2_X s))) s.

(** The inner decomposer with its factor matrices read through their addresses *)
Definition p2_view (s : p2_state) : cp_state :=
  cp_with_dec {| kt_rank := kt_rank (cp_dec (p2_inner s)); kt_fms := map (hread (p2_heap s)) (p2_cpf s);
                 kt_w := kt_w (cp_dec (p2_inner s)) |} (p2_inner s).
(** cp.py:385-396 on shared arrays: line 396 writes into the array of factor [m] *)
Definition p2_cp_update (s : p2_state) (m : nat) : p2_state * option exn :=
  let (c, e) := cp_update_factor (pe_cp env) inner_settings (p2_view s) m in
  let s := p2_with_inner c s in
  match nth_error (p2_cpf s) m, nth_error (kt_fms (cp_dec c)) m with
  | Some a, Some U => (p2_with_heap (hwrite (p2_heap s) a U) s, e)
  | _, _ => (s, e)
  end.
(** cp.py:398-402 *)
Definition p2_cp_sweep (s : p2_state) : p2_state * option exn :=
  run_all p2_cp_update (seq 0 (ndim (cp_X (p2_inner s)))) s.

(** parafac2.py:428: blueprint_B[...] *= weights *)
Definition p2_scale_B (s : p2_state) : p2_state * option exn :=
  match broadcast_into Rmult (p2_B s) (kt_w (cp_dec (p2_inner s))) with
  | Err e => (s, Some e)
  | Ok B => (p2_with_heap (hwrite (p2_heap s) (pr_B (p2_ref s)) B) s, None)
  end.
(** parafac2.py:429 *)
Definition p2_unit_weights (s : p2_state) : p2_state :=
  let c := p2_inner s in
  p2_with_inner (cp_with_dec {| kt_rank := kt_rank (cp_dec c); kt_fms := kt_fms (cp_dec c);
                                kt_w := np_map (fun x => x * 0 + 1) (kt_w (cp_dec c)) |} c) s.

Definition and_then {S : Type} (r : S * option exn) (f : S -> S * option exn) : S * option exn :=
  match r with (s, None) => f s | (s, Some e) => (s, Some e) end.
(** parafac2.py:425: cp_decomposer.set_target(projected_X) *)
Definition p2_retarget (s : p2_state) : p2_state * option exn :=
  match p2_projected_X s with
  | Err e => (s, Some e)
  | Ok PX => (p2_with_inner (cp_with_target PX (p2_inner s)) s, None)
  end.
(** parafac2.py:417-429 *)
Definition p2_update (s : p2_state) : p2_state * option exn :=
  and_then (p2_update_projections s) (fun s =>
  and_then (p2_retarget s) (fun s =>
  and_then (run_all (fun s _ => p2_cp_sweep s) (seq 0 (ps_updates ps)) s) (fun s =>
  and_then (p2_scale_B s) (fun s =>
  (p2_unit_weights s, None))))).

(** ** Preparing the inner decomposer *)
(** cp.py:342-346 on the list of factor matrices: the entry of an orthonormal mode is replaced by a new array,
    the other entries stay the same arrays. *)
Fixpoint rebind (h : heap) (l : list (nat * bool * nd)) : heap * list nat :=
  match l with
  | [] => (h, [])
  | (a, o, U) :: rest =>
    if (o : bool) then let (h', l') := rebind (h ++ [U])%list rest in (h', length h :: l')
    else let (h', l') := rebind h rest in (h', a :: l')
  end.
(** Settings of the inner decomposer's _init_fit, parafac2.py:377-387; max_its=np.inf is never read. *)
Definition inner_start : dstate cp_state :=
  {| ds_num := fresh_cp (Some (ps_nn ps)) (ps_orth ps); ds_it := 0; ds_max := 0; ds_rel := PInf; ds_prev := PInf;
     ds_logs := []; ds_file := None |}.
(** parafac2.py:375-387.  If this raises, the fit ends and the inner decomposer is not used again; the state
    is left as it was. *)
Definition p2_prepare (s : p2_state) : p2_state * option exn :=
  let r := p2_ref s in
  match (do k <- kt_init [p2_A s; p2_B s; p2_C s] None ;
         do PX <- p2_projected_X s ;
         match cp_init_fit (pe_cp env) inner_settings (fun _ => None) [] PX None (DecArg k) inner_start with
         | (ds, None) => Ok (ds_num ds)
         | (_, Some e) => Err e
         end) with
  | Err e => (s, Some e)
  | Ok c =>
    let flags := match cp_orth c with Some l => l | None => [] end in
    let '(h, cpf) := rebind (p2_heap s)
        [(pr_A r, nth 0 flags false, nth 0 (kt_fms (cp_dec c)) (mk [] []));
         (pr_B r, nth 1 flags false, nth 1 (kt_fms (cp_dec c)) (mk [] []));
         (pr_C r, nth 2 flags false, nth 2 (kt_fms (cp_dec c)) (mk [] []))] in
    (p2_with_inner c (p2_with_cpf cpf (p2_with_heap h s)), None)
  end.

(** ** Checking, initialisation, fit *)
(** parafac2.py:151-173 *)
Definition p2_check (s : p2_state) (d : parafac2) : res unit :=
  do X0 <- list_get (p2_X s) 0 ;
  do nI <- np_len X0 ;
  do _ <- foldM (fun _ '(U, len) =>
            do n <- shape_at U 0 ;
            if negb (n =? len)%nat then Err ValueError else
            do k <- shape_at U 1 ;
            if negb (k =? ps_rank ps)%nat then Err ValueError else Ok tt)
          [(ev_A (pf_ev d), nI); (ev_C (pf_ev d), length (p2_X s))] tt ;
  foldM (fun _ '(B, Xk) =>
            do n <- shape_at B 0 ;
            do j <- shape_at Xk 1 ;
            if negb (n =? j)%nat then Err ValueError else
            do k <- shape_at B 1 ;
            if negb (k =? ps_rank ps)%nat then Err ValueError else Ok tt)
        (combine (ev_B (pf_ev d)) (p2_X s)) tt.

(** Parafac2_ALS as an instance of the generic decomposer of Decomposer.v *)
Definition p2_model : model p2_state parafac2 :=
  {| md_class := "Parafac2_ALS"; md_dec := p2_value; md_set := fun s d => p2_adopt d s;
     md_store := pf_store; md_load := pf_load; md_check := p2_check; md_prepare := p2_prepare;
     md_update := p2_update; md_loss := fun s => do l <- p2_loss s ; Ok (Fin l);
     md_norm2 := fun s => p2_norm s ^ 2; md_root := base_root "Parafac2_ALS" |}.

(** The argument X: a list of matrices or a tensor *)
Inductive p2_data : Type := Slices (Xs : list nd) | Tensor (X : nd).
(** [X.transpose(2, 0, 1)], iterated over: the frontal slices *)
Definition frontal_slices (X : nd) : res (list nd) :=
  match shape X with
  | [nI; nJ; nK] => Ok (map (fun k => tab2 nI nJ (fun i j => get X [i; j; k])) (seq 0 nK))
  | _ => Err ValueError
  end.
(** An entry of X_shape is a number or a list of numbers. *)
Inductive dim : Type := One (n : nat) | Many (l : list nat).
(** parafac2.py:87-95.  X_shape is recomputed from X where it is needed ([p2_X_shape]). *)
Definition p2_X_shape (Xs : list nd) : res (list dim) :=
  do X0 <- list_get Xs 0 ;
  do nI <- np_len X0 ;
  do js <- mapM (fun Xk => shape_at Xk 1) Xs ;
  Ok [One nI; Many js; One (length Xs)].
Definition p2_set_target (X : p2_data) (s : p2_state) : res p2_state :=
  do Xs <- (match X with Slices Xs => Ok Xs | Tensor X => frontal_slices X end) ;
  do _ <- p2_X_shape Xs ;
  Ok (p2_with_data Xs (sqrt (sumf Xs (fun Xk => norm Xk ^ 2))) s).

(** parafac2.py:97-100 with decompositions.py:628-656.  [draws]: the random arrays for A, C and the projections,
    in the order in which they are drawn.  random_init passes all_same_size=False on as [warning]. *)
Definition p2_init_random (draws : list nd) (s : p2_state) : res p2_state :=
  match draws with
  | A :: C :: Ns =>
    do Ps <- mapM (fun N => do Q <- env_qr (pe_cp env) N ; first_columns Q (ps_rank ps)) Ns ;
    do d <- pf_init A (np_identity (ps_rank ps)) (np_map (fun x => x + / 10) C) Ps false ;
    Ok (p2_adopt d s)
  | _ => Err ValueError
  end.

(** [np.zeros] of a list of dimensions; a list among them raises TypeError. *)
Fixpoint as_dims (l : list dim) : res (list nat) :=
  match l with
  | [] => Ok []
  | One n :: rest => do ns <- as_dims rest ; Ok (n :: ns)
  | Many _ :: _ => Err TypeError
  end.
(** parafac2.py:102-108: the lines up to the allocation of Y.  What follows (110-120) is not modelled because it is
    not reached (C58). *)
Definition p2_init_svd (s : p2_state) : res nd :=
  do sh <- p2_X_shape (p2_X s) ;
  do J <- list_get sh 1 ;
  do dims <- as_dims [J; J] ;
  Ok (np_zeros dims).

(** [np.asarray] of a list of matrices of one shape.  For other lists NumPy raises ValueError (before 1.24: makes an
    array of objects, on which CP_ALS fails). *)
Definition stack (Xs : list nd) : res nd :=
  do X0 <- list_get Xs 0 ;
  do (n, m) <- shape2 X0 ;
  if forallb (fun X => if list_eq_dec Nat.eq_dec (shape X) (shape X0) then true else false) Xs then
    Ok (tab [length Xs; n; m] (fun idx =>
          mget (nth (nth 0 idx 0%nat) Xs (mk [] [])) (nth 1 idx 0%nat) (nth 2 idx 0%nat)))
  else Err ValueError.
(** parafac2.py:122-131.  CP_ALS(rank, 20) has the default tolerances and writes no files; [draws]: its random
    factors.  All entries of P are one array. *)
Definition cp20_cf : config := {| cf_freq := (-1)%Z; cf_tol := / 10 ^ 6; cf_rel_tol := / 10 ^ 10; cf_print := (-1)%Z |}.
Definition cp20_start : dstate cp_state :=
  {| ds_num := fresh_cp None None; ds_it := 0; ds_max := 20; ds_rel := PInf; ds_prev := PInf; ds_logs := []; ds_file := None |}.
Definition p2_init_cp (draws : list nd) (s : p2_state) : res p2_state :=
  do X <- stack (p2_X s) ;
  let cs := {| cs_rank := ps_rank ps; cs_init := "random"; cs_ridge := None |} in
  match cp_fit (pe_cp env) cs cp20_cf (fun _ => None) draws X None NoArg cp20_start with
  | (_, Some e) => Err e
  | (ds, None) =>
    match kt_fms (cp_dec (ds_num ds)) with
    | [C; A; B] =>
      do (Q, R0) <- pe_qr env B ;
      do d <- pf_init A R0 C (repeat Q (length (p2_X s))) true ;
      let ev := pf_ev d in
      let (h, _) := halloc (p2_heap s) [A; R0; C; Q] in
      let b := length (p2_heap s) in
      Ok (p2_with_ref {| pr_A := b; pr_B := S b; pr_C := S (S b); pr_P := repeat (S (S (S b))) (length (p2_X s));
                         pr_rank := ev_rank ev; pr_warning := ev_warning ev; pr_same := ev_same ev;
                         pr_shapes := ev_slice_shapes ev; pr_num := ev_num_elements ev |} (p2_with_heap h s))
    | _ => Err ValueError
    end
  end.

(** The argument initial_decomposition: missing, a Parafac2Tensor object, or a path (with the file found there). *)
Inductive p2_arg : Type := P2None | P2Dec (r : pref) | P2Path (f : option file).

(** parafac2.py:133-149.  [disk]: the HDF5 file at a path.  from_checkpoint with no path or with an object: h5py.File
    raises TypeError.  A Parafac2Tensor whose projection and blueprint matrices do not fit together raises ValueError
    in the check; here [projected_factor] raises it. *)
Definition p2_init_components (disk : string -> option file) (draws : list nd) (arg : p2_arg)
    (ds : dstate p2_state) : dstate p2_state * option exn :=
  let init := lower (ps_init ps) in
  let s := ds_num ds in
  let lift r := match r with Ok s => (with_num s ds, None) | Err e => (ds, Some e) end in
  if String.eqb init "svd" then
    (match p2_init_svd s with Err e => (ds, Some e) | Ok _ => (ds, None) end) else
  if String.eqb init "random" then lift (p2_init_random draws s) else
  if String.eqb init "cp" then lift (p2_init_cp draws s) else
  if String.eqb init "from_checkpoint" then
    match arg with
    | P2Path (Some f) => load_checkpoint p2_model f None ds
    | P2Path None => (ds, Some OSError)
    | _ => (ds, Some TypeError)
    end else
  if String.eqb init "precomputed" then
    match arg with
    | P2Dec r => lift (let s' := p2_with_ref r s in
                       do _ <- projected_factor (p2_B s') (p2_Ps s') ;
                       do _ <- p2_check s (p2_value s') ; Ok s')
    | _ => (ds, Some AttributeError)
    end else
  match disk (ps_init ps) with
  | Some f => load_checkpoint p2_model f None ds
  | None => (ds, Some ValueError)
  end.

(** base_decomposer.py:127-144 with parafac2.py:370-373 *)
Definition p2_init_fit (disk : string -> option file) (draws : list nd) (X : p2_data) (max_its : option Z)
    (arg : p2_arg) (ds : dstate p2_state) : dstate p2_state * option exn :=
  let ds := with_it 0%Z ds in
  match p2_set_target X (ds_num ds) with
  | Err e => (ds, Some e)
  | Ok s =>
    match p2_init_components disk draws arg (with_num s ds) with
    | (ds, Some e) => (ds, Some e)
    | (ds, None) =>
      let ds := match max_its with Some m => with_max m ds | None => ds end in
      match p2_loss (ds_num ds) with
      | Err e => (ds, Some e)
      | Ok l => (with_conv PInf (Fin l) ds, None)
      end
    end
  end.
(** parafac2.py:179-205 *)
Definition p2_fit (cf : config) (disk : string -> option file) (draws : list nd) (X : p2_data) (max_its : option Z)
    (arg : p2_arg) (ds : dstate p2_state) : dstate p2_state * option exn :=
  match p2_init_fit disk draws X max_its arg ds with
  | (ds, Some e) => (ds, Some e)
  | (ds, None) => pf_fit_loop p2_model cf ds
  end.
(** parafac2.py:207-209.  Returns the decomposition object. *)
Definition p2_fit_transform (cf : config) (disk : string -> option file) (draws : list nd) (X : p2_data)
    (max_its : option Z) (arg : p2_arg) (ds : dstate p2_state) : dstate p2_state * res pref :=
  match p2_fit cf disk draws X None P2None ds with
  | (ds', None) => (ds', Ok (p2_ref (ds_num ds')))
  | (ds', Some e) => (ds', Err e)
  end.
End Parafac2.
