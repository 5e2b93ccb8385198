(** Model of cp.py and of KruskalTensor with arrays as objects: a Kruskal tensor given by the caller (init='precomputed') is
    not copied (cp.py:154-156), and factors are updated in place (cp.py:396).  The value-level model is CP.v. *)
From Verif Require Export CP Parafac2.
Local Open Scope R_scope.

(** A KruskalTensor object, decompositions.py:108-128: the entries of the list factor_matrices and the array weights.  The list
    is the caller's own list (119), and so is the weights array if it was one (128). *)
Record kref : Type := { kr_rank : nat; kr_fms : list nat; kr_w : nat }.
Definition kr_value (h : heap) (r : kref) : kruskal :=
  {| kt_rank := kr_rank r; kt_fms := map (hread h) (kr_fms r); kt_w := hread h (kr_w r) |}.
(** Assignment to an entry of the list factor_matrices *)
Definition kr_rebind (n a : nat) (r : kref) : kref :=
  {| kr_rank := kr_rank r; kr_fms := replace_at n a (kr_fms r); kr_w := kr_w r |}.

(** decompositions.py:141-143 *)
Definition kr_reset_weights (r : kref) (h : heap) : heap :=
  hwrite h (kr_w r) (np_map (fun x => x + 1) (np_map (fun x => x * 0) (hread h (kr_w r)))).
(** decompositions.py:145-160 *)
Definition kr_normalize_step (upd : bool) (eps : R) (r : kref) (h : heap) (i : nat) : res heap :=
  do a <- list_get (kr_fms r) i ;
  let U := hread h a in
  let norms := norm_axis0 U in
  do q <- np_div U (np_map (fun x => x + eps) (newaxis0 norms)) ;
  do U' <- assign_full U q ;
  let h := hwrite h a U' in
  if upd then do w' <- broadcast_into Rmult (hread h (kr_w r)) norms ; Ok (hwrite h (kr_w r) w') else Ok h.
Definition kr_normalize (upd : bool) (eps : R) (r : kref) (h : heap) : res heap :=
  foldM (kr_normalize_step upd eps r) (seq 0 (length (kr_fms r))) h.

(** [ch_ref]: the object self.decomposition.  [ch_cp]: the other attributes of the decomposer; the decomposition stored in it is
    stale and never used. *)
Record cph : Type := { ch_heap : heap; ch_ref : kref; ch_cp : cp_state }.
Definition ch_with_heap (h : heap) (s : cph) : cph := {| ch_heap := h; ch_ref := ch_ref s; ch_cp := ch_cp s |}.
Definition ch_with_ref (r : kref) (s : cph) : cph := {| ch_heap := ch_heap s; ch_ref := r; ch_cp := ch_cp s |}.
Definition ch_with_cp (c : cp_state) (s : cph) : cph := {| ch_heap := ch_heap s; ch_ref := ch_ref s; ch_cp := c |}.
Definition ch_value (s : cph) : kruskal := kr_value (ch_heap s) (ch_ref s).
(** The decomposer with its arrays read from memory *)
Definition ch_view (s : cph) : cp_state := cp_with_dec (ch_value s) (ch_cp s).
(** A Kruskal tensor made of new arrays *)
Definition ch_adopt (d : kruskal) (s : cph) : cph :=
  let (h, addrs) := halloc (ch_heap s) (kt_w d :: kt_fms d) in
  ch_with_ref {| kr_rank := kt_rank d; kr_fms := tl addrs; kr_w := length (ch_heap s) |} (ch_with_heap h s).

Section Shared.
Context (env : cp_env) (cs : cp_settings).

(** cp.py:385-396: line 396 writes into the array of factor [m] *)
Definition ch_update_factor (s : cph) (m : nat) : cph * option exn :=
  let (c, e) := cp_update_factor env cs (ch_view s) m in
  let s := ch_with_cp c s in
  match nth_error (kr_fms (ch_ref s)) m, nth_error (kt_fms (cp_dec c)) m with
  | Some a, Some U => (ch_with_heap (hwrite (ch_heap s) a U) s, e)
  | _, _ => (s, e)
  end.
(** cp.py:398-402 *)
Definition ch_update_factors (s : cph) : cph * option exn :=
  run_all ch_update_factor (seq 0 (ndim (cp_X (ch_cp s)))) s.

Definition ch_model : model cph kruskal :=
  {| md_class := "CP_ALS"; md_dec := ch_value; md_set := fun s d => ch_adopt d s;
     md_store := kt_store; md_load := kt_load; md_check := fun s => cp_check cs (ch_view s); md_prepare := fun s => (s, None);
     md_update := ch_update_factors; md_loss := fun s => do l <- cp_SSE env (ch_view s) ; Ok (Fin l);
     md_norm2 := fun s => cp_norm (ch_cp s) ^ 2; md_root := base_root "CP_ALS" |}.

(** cp.py:342-346: the entry of the list is replaced, the array that was there stays as it is *)
Definition ch_orthonormalise_step (s : cph) (p : nat * bool) : cph * option exn :=
  let (mode, o) := p in
  match (do a <- list_get (kr_fms (ch_ref s)) mode ;
         if (o : bool) then do Q <- env_qr env (hread (ch_heap s) a) ; Ok (Some Q) else Ok None) with
  | Err e => (s, Some e)
  | Ok None => (s, None)
  | Ok (Some Q) =>
    (ch_with_ref (kr_rebind mode (length (ch_heap s)) (ch_ref s)) (ch_with_heap (ch_heap s ++ [Q])%list s), None)
  end.
Definition ch_orthonormalise (s : cph) : cph * option exn :=
  match cp_orth (ch_cp s) with
  | None => (s, Some TypeError)
  | Some orth => run_all ch_orthonormalise_step (combine (seq 0 (length orth)) orth) s
  end.

(** cp.py:336-352 with cp.py:141-156 and base_decomposer.py:127-144, for a Kruskal tensor [r] passed as initial_decomposition *)
Definition ch_init_fit (X : nd) (max_its : option Z) (r : kref) (ds : dstate cph) : dstate cph * option exn :=
  let ds := with_num (ch_with_cp (cp_with_target X (ch_cp (ds_num ds))) (ds_num ds)) (with_it 0%Z ds) in
  if negb (existsb (String.eqb (lower (cs_init cs))) ["precomputed"; "from_checkpoint"]%string) then (ds, Some WarningExc) else
  if String.eqb (lower (cs_init cs)) "from_checkpoint" then (ds, Some TypeError) else
  match cp_check cs (ch_view (ds_num ds)) (kr_value (ch_heap (ds_num ds)) r) with
  | Err e => (ds, Some e)
  | Ok _ =>
    let ds := match max_its with Some m => with_max m ds | None => ds end in
    let s := ch_with_ref r (ds_num ds) in
    let s := ch_with_heap (kr_reset_weights r (ch_heap s)) s in
    let s := ch_with_cp (cp_with_constraints (or_unconstrained (cp_nn (ch_cp s)) (ch_view s))
                                             (or_unconstrained (cp_orth (ch_cp s)) (ch_view s)) (ch_cp s)) s in
    match ch_orthonormalise s with
    | (s, Some e) => (with_num s ds, Some e)
    | (s, None) =>
      match cp_SSE env (ch_view s) with
      | Err e => (with_conv PInf (ds_prev ds) (with_num s ds), Some e)
      | Ok l => (with_conv PInf (Fin l) (with_num (ch_with_cp (cp_with_cache (cp_last (ch_cp s)) None (ch_cp s)) s) ds), None)
      end
    end
  end.
(** cp.py:188-206 *)
Definition ch_fit (cf : config) (X : nd) (max_its : option Z) (r : kref) (ds : dstate cph) : dstate cph * option exn :=
  match ch_init_fit X max_its r ds with
  | (ds, Some e) => (ds, Some e)
  | (ds, None) => cp_fit_loop ch_model cf ds
  end.
End Shared.
