(** Model of /repo/src/tenkit/decomposition/cmtf.py (CMTF_ALS).

    CMTF_ALS inherits from CP_ALS (CP.v); what it overrides is defined here.  The unused method
    _update_als_factor_ (cmtf.py:191-284) is in OldUpdate.v. *)
From Verif Require Export CP.
Local Open Scope R_scope.

(** [cm_Y]: coupled_matrices; [cm_modes]: coupling_modes; [cm_V]: uncoupled_factor_matrices.
    coupled_weights (cmtf.py:289, 303) always has as many entries as [cm_V] and is only used for its
    length (cmtf.py:28), so it is left out. *)
Record cmtf_state : Type :=
  { cm_cp : cp_state; cm_Y : list nd; cm_modes : list Z; cm_V : list nd }.

Definition cm_with_cp (c : cp_state) (s : cmtf_state) : cmtf_state :=
  {| cm_cp := c; cm_Y := cm_Y s; cm_modes := cm_modes s; cm_V := cm_V s |}.
Definition cm_with_V (V : list nd) (s : cmtf_state) : cmtf_state :=
  {| cm_cp := cm_cp s; cm_Y := cm_Y s; cm_modes := cm_modes s; cm_V := V |}.
(** cmtf.py:61-64 set_coupled_matrices *)
Definition cm_with_coupling (Y : list nd) (modes : list Z) (s : cmtf_state) : cmtf_state :=
  {| cm_cp := cm_cp s; cm_Y := Y; cm_modes := modes; cm_V := cm_V s |}.
Definition cm_dec (s : cmtf_state) : kruskal := cp_dec (cm_cp s).
Definition cm_with_dec (d : kruskal) (s : cmtf_state) : cmtf_state := cm_with_cp (cp_with_dec d (cm_cp s)) s.
Definition cm_fms (s : cmtf_state) : list nd := kt_fms (cm_dec s).

(** [l[z]] for a Python list and an integer that may be negative *)
Definition py_get {A : Type} (l : list A) (z : Z) : res A :=
  match py_index (length l) z with Some k => list_get l k | None => Err IndexError end.

(** cmtf.py:66-74: the dictionary mode_to_cm_idx, keys in order of insertion *)
Fixpoint dict_add (k : Z) (i : nat) (d : list (Z * list nat)) : list (Z * list nat) :=
  match d with
  | [] => [(k, [i])]
  | (k', l) :: d' => if (k =? k')%Z then (k', l ++ [i]) :: d' else (k', l) :: dict_add k i d'
  end.
Definition mode_to_cm_idx (modes : list Z) : list (Z * list nat) :=
  fold_left (fun d '(i, cm) => dict_add cm i d) (combine (seq 0 (length modes)) modes) [].
Fixpoint dict_find (k : Z) (d : list (Z * list nat)) : option (list nat) :=
  match d with
  | [] => None
  | (k', l) :: d' => if (k =? k')%Z then Some l else dict_find k d'
  end.

(** cmtf.py:21-23 *)
Definition coupled_factor_matrices (s : cmtf_state) : res (list nd) := mapM (py_get (cm_fms s)) (cm_modes s).
(** cmtf.py:25-30 *)
Definition reconstructed_coupled_matrices (s : cmtf_state) : res (list nd) :=
  do As <- coupled_factor_matrices s ;
  mapM (fun '(scores, loadings) => matmul scores (transp loadings)) (combine As (cm_V s)).
(** cmtf.py:32-38 *)
Definition coupled_SSE (s : cmtf_state) : res R :=
  do Rs <- reconstructed_coupled_matrices s ;
  foldM (fun acc '(Y, Yh) => do E <- np_sub Y Yh ; Ok (acc + norm E ^ 2)) (combine (cm_Y s) Rs) 0.
(** cmtf.py:28 with an index: [[l[i] for i in idxs][0]] *)
Definition first_of {A : Type} (l : list A) (idxs : list nat) : res A :=
  do xs <- mapM (list_get l) idxs ; list_get xs 0.

Section CMTF.
Context (env : cp_env) (cs : cp_settings).

(** cmtf.py:40-44 and 57-59 *)
Definition cmtf_SSE (s : cmtf_state) : res R :=
  do T <- kt_construct (env_junk env) (cm_dec s) ;
  do E <- np_sub (cp_X (cm_cp s)) T ;
  do m <- coupled_SSE s ;
  Ok (norm E ^ 2 + m).
(** cmtf.py:46-51 *)
Definition cmtf_MSE (s : cmtf_state) : res xr :=
  do As <- coupled_factor_matrices s ;
  let num_elements := (prodl (shape (cp_X (cm_cp s))) + list_sum (map (fun A => prodl (shape A)) As))%nat in
  do l <- cmtf_SSE s ;
  Ok (xdivR l (INR num_elements)).

(** cmtf.py:155-161 *)
Definition cmtf_lhs (s : cmtf_state) (mode : nat) : res nd :=
  match dict_find (Z.of_nat mode) (mode_to_cm_idx (cm_modes s)) with
  | Some idxs =>
    do KR <- khatri_rao (env_junk env) (cm_fms s) (Some (Z.of_nat mode)) ;
    do V <- first_of (cm_V s) idxs ;
    do C <- concat0 KR V ;
    Ok (transp C)
  | None => als_lhs cs (cm_fms s) mode
  end.
(** cmtf.py:163-170 *)
Definition cmtf_rhs (s : cmtf_state) (mode : nat) : res nd :=
  match dict_find (Z.of_nat mode) (mode_to_cm_idx (cm_modes s)) with
  | Some idxs =>
    do M <- unfold (cp_X (cm_cp s)) (Z.of_nat mode) ;
    do Y <- first_of (cm_Y s) idxs ;
    concat1 M Y
  | None => als_rhs env (cp_X (cm_cp s)) (cm_fms s) mode
  end.
(** cp.py:385-396 with the two methods above *)
Definition cmtf_update_factor (s : cmtf_state) (mode : nat) : cmtf_state * option exn :=
  let c := cm_cp s in
  match (do lhs <- cmtf_lhs s mode ;
         do rhs <- cmtf_rhs s mode ;
         do solve <- get_rightsolve env cs (cp_nn c) (cp_orth c) mode ;
         Ok (lhs, rhs, solve)) with
  | Err e => (s, Some e)
  | Ok (lhs, rhs, solve) =>
    let c := cp_with_cache (Some mode) (Some rhs) c in
    match (do Z <- solve lhs rhs ;
           do U <- list_get (cm_fms s) mode ;
           assign_full U Z) with
    | Err e => (cm_with_cp c s, Some e)
    | Ok U' => (cm_with_cp (cp_with_dec (kt_with_factor mode U' (cp_dec c)) c) s, None)
    end
  end.
(** cmtf.py:146-152.  There is no method _update_als_factor_non_negative. *)
Fixpoint cmtf_update_modes (modes : list nat) (s : cmtf_state) : cmtf_state * option exn :=
  match modes with
  | [] => (s, None)
  | m :: rest =>
    match (do nn <- not_none (cp_nn (cm_cp s)) ; list_get nn m) with
    | Err e => (s, Some e)
    | Ok true => (s, Some AttributeError)
    | Ok false =>
      match cmtf_update_factor s m with
      | (s', None) => cmtf_update_modes rest s'
      | (s', Some e) => (s', Some e)
      end
    end
  end.
(** One pass of the loop cmtf.py:174-187: the new list of matrix factors, and the exception if any *)
Definition uncoupled_step (s : cmtf_state) (mode : Z) (idxs : list nat) (V : list nd) : list nd * option exn :=
  match (do i <- list_get idxs 0 ;
         do U <- py_get (cm_fms s) mode ;
         do Y <- list_get (cm_Y s) i ;
         do V0 <- list_get V i ;
         Ok (i, transp U, transp Y, V0)) with
  | Err e => (V, Some e)
  | Ok (i, lhs, rhs, V0) =>
    let put solve := do Z <- solve lhs rhs ; do V1 <- assign_full V0 Z ; Ok (replace_at i V1 V) in
    match cp_nn (cm_cp s) with
    | None => match put (rightsolve (env_svd env)) with
              | Ok V' => (V', Some TypeError)
              | Err e => (V, Some e)
              end
    | Some nn =>
      match (do b <- py_get nn mode ;
             put (if (b : bool) then non_negative_rightsolve (env_nnls env) else rightsolve (env_svd env))) with
      | Ok V' => (V', None)
      | Err e => (V, Some e)
      end
    end
  end.
Fixpoint uncoupled_loop (s : cmtf_state) (d : list (Z * list nat)) (V : list nd) : list nd * option exn :=
  match d with
  | [] => (V, None)
  | (mode, idxs) :: d' =>
    match uncoupled_step s mode idxs V with
    | (V', None) => uncoupled_loop s d' V'
    | (V', Some e) => (V', Some e)
    end
  end.
(** cmtf.py:173-187 *)
Definition update_uncoupled (s : cmtf_state) : cmtf_state * option exn :=
  let (V, e) := uncoupled_loop s (mode_to_cm_idx (cm_modes s)) (cm_V s) in (cm_with_V V s, e).
(** cmtf.py:146-153 *)
Definition cmtf_update_factors (s : cmtf_state) : cmtf_state * option exn :=
  match cmtf_update_modes (seq 0 (ndim (cp_X (cm_cp s)))) s with
  | (s', None) => update_uncoupled s'
  | (s', Some e) => (s', Some e)
  end.

Definition cmtf_model : model cmtf_state kruskal :=
  {| md_class := "CMTF_ALS"; md_dec := cm_dec; md_set := fun s d => cm_with_dec d s;
     md_store := kt_store; md_load := kt_load; md_check := fun s d => cp_check cs (cm_cp s) d;
     md_prepare := fun s => (s, None); md_update := cmtf_update_factors;
     md_loss := fun s => do l <- cmtf_SSE s ; Ok (Fin l);
     md_norm2 := fun s => cp_norm (cm_cp s) ^ 2; md_root := cmtf_root |}.

(** cmtf.py:88-91: scale every matrix factor by the column norms of the factor it is coupled to *)
Definition scale_one (s : cmtf_state) (p : nd * Z) : res nd :=
  let (V, mode) := p in
  do fm <- py_get (cm_fms s) mode ;
  do P <- np_mul V (norm_axis0_keep fm) ;
  assign_full V P.
Definition scale_uncoupled (s : cmtf_state) : res (list nd) :=
  do Vs <- mapM (scale_one s) (combine (cm_V s) (cm_modes s)) ;
  Ok (Vs ++ skipn (length Vs) (cm_V s)).
(** If an exception is raised, the matrices before stay scaled. *)
Fixpoint scale_left (s : cmtf_state) (l : list (nd * Z)) : list nd :=
  match l with
  | [] => []
  | p :: l' => match scale_one s p with Ok V => V :: scale_left s l' | Err _ => map fst l end
  end.
Definition scale_uncoupled_left (s : cmtf_state) : list nd :=
  let Vs := scale_left s (combine (cm_V s) (cm_modes s)) in Vs ++ skipn (length Vs) (cm_V s).
(** cmtf.py:88-93; [eps] is 1e-15 in the code (decompositions.py:145) *)
Definition cmtf_normalize (eps : R) (s : cmtf_state) : res cmtf_state :=
  do V <- scale_uncoupled s ;
  do d <- kt_normalize true eps (cm_dec s) ;
  Ok (cm_with_dec d (cm_with_V V s)).
(** The state left behind when this raises *)
Definition cmtf_normalize_left (eps : R) (s : cmtf_state) : cmtf_state :=
  match scale_uncoupled s with
  | Err _ => cm_with_V (scale_uncoupled_left s) s
  | Ok V => cm_with_dec (kt_normalize_left true eps (cm_dec s)) (cm_with_V V s)
  end.

(** cmtf.py:287-303; [draws]: the random matrices drawn, one for each coupled matrix *)
Definition init_coupled (draws : list nd) (s : cmtf_state) : res cmtf_state :=
  do V <- mapM (fun '(i, mode) =>
                  do Y <- list_get (cm_Y s) i ;
                  do _ <- shape_at Y 1 ;
                  do _ <- (match cp_nn (cm_cp s) with None => Ok true | Some nn => py_get nn mode end) ;
                  do V <- list_get draws i ;
                  do Q <- np_div V (norm_axis0 V) ;
                  assign_full V Q)
               (combine (seq 0 (length (cm_modes s))) (cm_modes s)) ;
  Ok (cm_with_V V s).

(** Run a step of the parent class on the parent's part of the state. *)
Definition on_cp (f : dstate cp_state -> dstate cp_state * option exn) (ds : dstate cmtf_state)
    : dstate cmtf_state * option exn :=
  let '(d, e) := f {| ds_num := cm_cp (ds_num ds); ds_it := ds_it ds; ds_max := ds_max ds; ds_rel := ds_rel ds;
                      ds_prev := ds_prev ds; ds_logs := []; ds_file := ds_file ds |} in
  ({| ds_num := cm_with_cp (ds_num d) (ds_num ds); ds_it := ds_it d; ds_max := ds_max d; ds_rel := ds_rel d;
      ds_prev := ds_prev d; ds_logs := ds_logs ds; ds_file := ds_file d |}, e).

(** cmtf.py:76-82 with cp.py:336-352, base_decomposer.py:127-144 and cmtf.py:306-309 *)
Definition cmtf_init_fit (disk : string -> option file) (draws vdraws : list nd) (X : nd) (Y : list nd)
    (modes : list Z) (max_its : option Z) (arg : init_arg) (ds : dstate cmtf_state)
    : dstate cmtf_state * option exn :=
  let s := cm_with_coupling Y modes (ds_num ds) in
  let ds := with_num (cm_with_cp (cp_with_target X (cm_cp s)) s) (with_it 0%Z ds) in
  match on_cp (cp_init_components env cs disk draws arg) ds with
  | (ds, Some e) => (ds, Some e)
  | (ds, None) =>
    match init_coupled vdraws (ds_num ds) with
    | Err e => (ds, Some e)
    | Ok s =>
      let ds := match max_its with Some m => with_max m ds | None => ds end in
      let c := cp_with_dec (kt_reset_weights (cm_dec s)) (cm_cp s) in
      let c := cp_with_constraints (or_unconstrained (cp_nn c) c) (or_unconstrained (cp_orth c) c) c in
      match cp_orthonormalise env c with
      | Err e => (with_num (cm_with_cp (cp_orthonormalise_left env c) s) ds, Some e)
      | Ok c =>
        let s := cm_with_cp c s in
        match cmtf_SSE s with
        | Err e => (with_conv PInf (ds_prev ds) (with_num s ds), Some e)
        | Ok l =>
          let s := cm_with_cp (cp_with_cache (cp_last c) None c) s in
          let ds := with_conv PInf (Fin l) ds in
          match kt_normalize true eps15 (cm_dec s) with
          | Err e => (with_num (cm_with_dec (kt_normalize_left true eps15 (cm_dec s)) s) ds, Some e)
          | Ok d => (with_num (cm_with_dec d s) ds, None)
          end
        end
      end
    end
  end.
(** cmtf.py:84-86 *)
Definition cmtf_fit_loop (cf : config) (ds : dstate cmtf_state) : dstate cmtf_state * option exn :=
  match cp_fit_loop cmtf_model cf ds with
  | (ds, Some e) => (ds, Some e)
  | (ds, None) =>
    match cmtf_normalize eps15 (ds_num ds) with
    | Err e => (with_num (cmtf_normalize_left eps15 (ds_num ds)) ds, Some e)
    | Ok s => (with_num s ds, None)
    end
  end.
(** base_decomposer.py:166-176 with the loop above *)
Definition cmtf_continue_fit (cf : config) (max_its : option Z) (ds : dstate cmtf_state)
    : dstate cmtf_state * option exn :=
  cmtf_fit_loop cf (match max_its with Some m => with_max m ds | None => ds end).
(** cmtf.py:96-117 *)
Definition cmtf_fit (cf : config) (disk : string -> option file) (draws vdraws : list nd) (X : nd) (Y : list nd)
    (modes : list Z) (max_its : option Z) (arg : init_arg) (ds : dstate cmtf_state)
    : dstate cmtf_state * option exn :=
  match cmtf_init_fit disk draws vdraws X Y modes max_its arg ds with
  | (ds, Some e) => (ds, Some e)
  | (ds, None) => cmtf_fit_loop cf ds
  end.
End CMTF.
