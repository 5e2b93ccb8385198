(** Model of /repo/src/tenkit/decomposition/logging/logger.py (BaseLogger) and of
    /repo/src/tenkit/decomposition/base_decomposer.py, with the fit loops of cp.py and parafac2.py.

    The loops are written once for an arbitrary numeric state [St] (decomposition, data, caches) and
    arbitrary update and loss functions; CP.v and Parafac2.v instantiate them with the real ones. *)
From Verif Require Export Storage.
Open Scope nat_scope.

(** ** BaseLogger, logger.py:6-58 *)
(** [lg_class] is [type(self).__name__], [lg_metric] what [_log] appends (61-79). *)
Record logger (St : Type) : Type :=
  { lg_class : string; lg_metric : St -> res xr; lg_vals : list xr; lg_its : list Z; lg_prev : nat }.
Arguments lg_class {St}. Arguments lg_metric {St}. Arguments lg_vals {St}.
Arguments lg_its {St}. Arguments lg_prev {St}.

(** logger.py:7-10 *)
Definition new_logger {St} (cls : string) (metric : St -> res xr) : logger St :=
  {| lg_class := cls; lg_metric := metric; lg_vals := []; lg_its := []; lg_prev := 0 |}.
(** logger.py:16-19; if the metric raises, nothing is appended *)
Definition lg_log {St} (s : St) (it : Z) (lg : logger St) : res (logger St) :=
  do v <- lg_metric lg s ;
  Ok {| lg_class := lg_class lg; lg_metric := lg_metric lg;
        lg_vals := lg_vals lg ++ [v]; lg_its := lg_its lg ++ [it]; lg_prev := lg_prev lg |}.
(** base_decomposer.py:222-223; loggers after the one that raises have not logged *)
Fixpoint log_all {St} (s : St) (it : Z) (logs : list (logger St)) : list (logger St) * option exn :=
  match logs with
  | [] => ([], None)
  | lg :: rest =>
    match lg_log s it lg with
    | Err e => (logs, Some e)
    | Ok lg' => let '(rest', e) := log_all s it rest in (lg' :: rest', e)
    end
  end.
(** logger.py:21-27 *)
Definition latest_vals {St} (lg : logger St) : list xr := skipn (lg_prev lg) (lg_vals lg).
Definition latest_its {St} (lg : logger St) : list Z := skipn (lg_prev lg) (lg_its lg).

(** A one-dimensional dataset grown by [n] entries (new entries are h5py's fill value 0), and its
    last entries overwritten.  Data of another kind cannot occur in files written by this code. *)
Definition dv_grow (n : nat) (v : dval) : res dval :=
  match v with
  | DInts l => Ok (DInts (l ++ repeat 0%Z n))
  | DSeq l => Ok (DSeq (l ++ repeat (Fin 0) n))
  | _ => Err TypeError
  end.
Definition dv_write_tail (new v : dval) : res dval :=
  match new, v with
  | DInts a, DInts l => Ok (DInts (firstn (length l - length a) l ++ a))
  | DSeq a, DSeq l => Ok (DSeq (firstn (length l - length a) l ++ a))
  | _, _ => Err TypeError
  end.
Definition dv_len (v : dval) : nat :=
  match v with DInts l => length l | DSeq l => length l | _ => 0 end.
Definition dv_zeros (v : dval) : dval :=
  match v with
  | DInts l => DInts (repeat 0%Z (length l))
  | DSeq l => DSeq (repeat (Fin 0) (length l))
  | _ => v
  end.
(** logger.py:30-50 [_write_sequence_to_hd5_group]: resize (46) or create (49), then write (47, 50).
    [old_length] is the length before the resize, so the write fills exactly the new entries. *)
Definition grow_or_create (name : string) (log : dval) : gstep :=
  fun g => match lookup name (g_data g) with
           | Some _ => write_data name (dv_grow (dv_len log)) g
           | None => put_data name (dv_zeros log) g
           end.
Definition write_sequence (name : string) (log : dval) : list gstep :=
  [ grow_or_create name log; write_data name (dv_write_tail log) ].
(** logger.py:53-57 *)
Definition logger_steps {St} (lg : logger St) : list step :=
  require_group (lg_class lg) ::
  map (at_group (lg_class lg))
      (write_sequence "iterations" (DInts (latest_its lg)) ++
       write_sequence "values" (DSeq (latest_vals lg))).
(** logger.py:58 *)
Definition lg_committed {St} (lg : logger St) : logger St :=
  {| lg_class := lg_class lg; lg_metric := lg_metric lg; lg_vals := lg_vals lg; lg_its := lg_its lg;
     lg_prev := lg_prev lg + length (latest_its lg) |}.

(** ** BaseDecomposer *)
(** What a concrete decomposer contributes. [St] is its numeric state, [D] its decomposition type. *)
Record model (St D : Type) : Type :=
  { md_class : string;                       (* type(self).__name__ *)
    md_dec : St -> D;                        (* self.decomposition *)
    md_set : St -> D -> St;                  (* self.decomposition = d *)
    md_store : D -> list gstep;              (* decomposition.store_in_hdf5_group *)
    md_load : group -> res D;                (* DecompositionType.load_from_hdf5_group *)
    md_check : St -> D -> res unit;          (* self._check_valid_components *)
    md_prepare : St -> St * option exn;      (* parafac2.py:391, nothing for CP *)
    md_update : St -> St * option exn;       (* one full update of all factors *)
    md_loss : St -> res xr;                  (* the quantity the stopping rule watches *)
    md_norm2 : St -> R;                      (* self.X_norm**2 *)
    md_root : Z -> list gstep }.             (* attributes store_checkpoint sets on the file *)
Arguments md_class {St D}. Arguments md_dec {St D}. Arguments md_set {St D}. Arguments md_store {St D}.
Arguments md_load {St D}. Arguments md_check {St D}. Arguments md_prepare {St D}.
Arguments md_update {St D}. Arguments md_loss {St D}. Arguments md_norm2 {St D}. Arguments md_root {St D}.

(** Settings that do not change during a fit; None for the frequencies has been replaced by -1
    (base_decomposer.py:62-69). *)
Record config : Type := { cf_freq : Z; cf_tol : R; cf_rel_tol : R; cf_print : Z }.

(** [ds_file]: the contents of the file at checkpoint_path; None if checkpoint_path is None. *)
Record dstate (St : Type) : Type :=
  { ds_num : St; ds_it : Z; ds_max : Z; ds_rel : xr; ds_prev : xr;
    ds_logs : list (logger St); ds_file : option file }.
Arguments ds_num {St}. Arguments ds_it {St}. Arguments ds_max {St}. Arguments ds_rel {St}.
Arguments ds_prev {St}. Arguments ds_logs {St}. Arguments ds_file {St}.

Definition with_num {St} (s : St) (d : dstate St) : dstate St :=
  {| ds_num := s; ds_it := ds_it d; ds_max := ds_max d; ds_rel := ds_rel d; ds_prev := ds_prev d;
     ds_logs := ds_logs d; ds_file := ds_file d |}.
Definition with_it {St} (it : Z) (d : dstate St) : dstate St :=
  {| ds_num := ds_num d; ds_it := it; ds_max := ds_max d; ds_rel := ds_rel d; ds_prev := ds_prev d;
     ds_logs := ds_logs d; ds_file := ds_file d |}.
Definition with_conv {St} (rel prev : xr) (d : dstate St) : dstate St :=
  {| ds_num := ds_num d; ds_it := ds_it d; ds_max := ds_max d; ds_rel := rel; ds_prev := prev;
     ds_logs := ds_logs d; ds_file := ds_file d |}.
Definition with_logs {St} (l : list (logger St)) (d : dstate St) : dstate St :=
  {| ds_num := ds_num d; ds_it := ds_it d; ds_max := ds_max d; ds_rel := ds_rel d; ds_prev := ds_prev d;
     ds_logs := l; ds_file := ds_file d |}.
Definition with_file {St} (f : option file) (d : dstate St) : dstate St :=
  {| ds_num := ds_num d; ds_it := ds_it d; ds_max := ds_max d; ds_rel := ds_rel d; ds_prev := ds_prev d;
     ds_logs := ds_logs d; ds_file := f |}.
Definition with_max {St} (m : Z) (d : dstate St) : dstate St :=
  {| ds_num := ds_num d; ds_it := ds_it d; ds_max := m; ds_rel := ds_rel d; ds_prev := ds_prev d;
     ds_logs := ds_logs d; ds_file := ds_file d |}.

(** base_decomposer.py:187 *)
Definition ckpt_name (it : Z) : string := "checkpoint_" ++ fmt_int 5 it.

(** base_decomposer.py:180-186: attributes written before the group of the checkpoint exists *)
Definition append_its (it : Z) : gstep :=
  fun g => match lookup "checkpoint_its" (g_attrs g) with
           | None => set_attr "checkpoint_its" (DInts [it]) g
           | Some (DInts l) => set_attr "checkpoint_its" (DInts (l ++ [it])) g
           | Some _ => Err TypeError
           end.
Definition base_root (cls : string) (it : Z) : list gstep :=
  [ append_its it; set_attr "final_iteration" (DInt it); set_attr "decomposition_type" (DStr cls) ].

(** cmtf.py:11-18 overrides store_checkpoint: it sets the pointer only *)
Definition cmtf_root (it : Z) : list gstep := [ set_attr "final_iteration" (DInt it) ].

Section Decomposer.
Context {St D : Type} (md : model St D).

(** base_decomposer.py:178-188 (everything but the loggers) *)
Definition ckpt_steps (it : Z) (d : D) : list step :=
  map at_root (md_root md it) ++
  [ create_group (ckpt_name it) ] ++
  map (at_group (ckpt_name it)) (md_store md d).
(** All primitive writes of one store_checkpoint call, in order. *)
Definition all_steps (ds : dstate St) : list step :=
  ckpt_steps (ds_it ds) (md_dec md (ds_num ds)) ++ concat (map logger_steps (ds_logs ds)).

(** base_decomposer.py:190-191 *)
Fixpoint store_logs (logs : list (logger St)) (f : file) : list (logger St) * file * option exn :=
  match logs with
  | [] => ([], f, None)
  | lg :: rest =>
    match run_steps (logger_steps lg) f with
    | (f', None) => let '(rest', f'', e) := store_logs rest f' in (lg_committed lg :: rest', f'', e)
    | (f', Some e) => (lg :: rest, f', Some e)
    end
  end.
(** base_decomposer.py:178-191.  [h5py.File(None, 'a')] raises TypeError. *)
Definition store_checkpoint (ds : dstate St) : dstate St * option exn :=
  match ds_file ds with
  | None => (ds, Some TypeError)
  | Some f =>
    match run_steps (ckpt_steps (ds_it ds) (md_dec md (ds_num ds))) f with
    | (f', Some e) => (with_file (Some f') ds, Some e)
    | (f', None) =>
      let '(logs', f'', e) := store_logs (ds_logs ds) f' in
      (with_file (Some f'') (with_logs logs' ds), e)
    end
  end.

(** base_decomposer.py:197-219.  The counter is set (209) before it is known whether the checkpoint
    exists (212). *)
Definition load_checkpoint (f : file) (load_it : option Z) (ds : dstate St) : dstate St * option exn :=
  match lookup "final_iteration" (g_attrs (f_root f)) with
  | None => (ds, Some ValueError)
  | Some fin =>
    match (match load_it with Some z => Ok z | None => as_int fin end) with
    | Err e => (ds, Some e)
    | Ok it =>
      let ds := with_it it ds in
      if in_file (ckpt_name it) f then
        match lookup (ckpt_name it) (f_groups f) with
        | None => (ds, Some KeyError)
        | Some g =>
          match (do d <- md_load md g ; do _ <- md_check md (ds_num ds) d ; Ok d) with
          | Err e => (ds, Some e)
          | Ok d => (with_num (md_set md (ds_num ds) d) ds, None)
          end
        end
      else (ds, Some ValueError)
    end
  end.

Context (cf : config).

(** base_decomposer.py:221-229 *)
Definition after_iteration (ds : dstate St) : dstate St * option exn :=
  let '(logs, e) := log_all (ds_num ds) (ds_it ds) (ds_logs ds) in
  let ds := with_logs logs ds in
  match e with Some e => (ds, Some e) | None =>
  if (cf_freq cf =? 0)%Z then (ds, Some ZeroDivisionError) else
  if (((ds_it ds + 1) mod cf_freq cf =? 0) && (0 <? cf_freq cf))%Z then
    match store_checkpoint ds with
    | (ds', None) => (with_it (ds_it ds' + 1) ds', None)
    | (ds', Some e) => (ds', Some e)
    end
  else (with_it (ds_it ds + 1)%Z ds, None)
  end.

(** cp.py:404-406 and parafac2.py:412-415 *)
Definition update_convergence (ds : dstate St) : res (dstate St) :=
  do l <- md_loss md (ds_num ds) ;
  Ok (with_conv (xdiv (xsub (ds_prev ds) l) (ds_prev ds)) l ds).

(** cp.py:412-417: stop before this pass? *)
Definition cp_stop (ds : dstate St) : res bool :=
  do l <- md_loss md (ds_num ds) ;
  Ok (xltb (xabs (ds_rel ds)) (Fin (cf_tol cf)) ||
      xltb (xdiv l (Fin (md_norm2 md (ds_num ds)))) (Fin (cf_rel_tol cf))).
(** parafac2.py:393-394 *)
Definition pf_stop (ds : dstate St) : bool := xltb (xabs (ds_rel ds)) (Fin (cf_tol cf)).

(** cp.py:411-424. Printing (421-422) reads the state only.  [it] is Python's loop variable: unbound
    (None) until the first pass. *)
Fixpoint cp_loop (n : nat) (it : option Z) (i : Z) (ds : dstate St) : dstate St * option Z * option exn :=
  match n with
  | O => (ds, it, None)
  | S n' =>
    match cp_stop ds with
    | Err e => (ds, Some i, Some e)
    | Ok true => (ds, Some i, None)
    | Ok false =>
      match md_update md (ds_num ds) with
      | (s', Some e) => (with_num s' ds, Some i, Some e)
      | (s', None) =>
        match update_convergence (with_num s' ds) with
        | Err e => (with_num s' ds, Some i, Some e)
        | Ok ds2 =>
          match after_iteration ds2 with
          | (ds', Some e) => (ds', Some i, Some e)
          | (ds', None) => cp_loop n' (Some i) (i + 1)%Z ds'
          end
        end
      end
    end
  end.
(** cp.py:408-427 *)
Definition cp_fit_loop (ds : dstate St) : dstate St * option exn :=
  match cp_loop (Z.to_nat (ds_max ds - ds_it ds)) None 0%Z ds with
  | (ds', _, Some e) => (ds', Some e)
  | (ds', None, None) => (ds', Some UnboundLocalError)
  | (ds', Some it, None) =>
    if (cf_freq cf =? 0)%Z then (ds', Some ZeroDivisionError) else
    if (negb ((it + 1) mod cf_freq cf =? 0) && (0 <? cf_freq cf))%Z then store_checkpoint ds'
    else (ds', None)
  end.

(** parafac2.py:392-403 *)
Fixpoint pf_loop (n : nat) (ds : dstate St) : dstate St * option exn :=
  match n with
  | O => (ds, None)
  | S n' =>
    if pf_stop ds then (ds, None) else
    match md_update md (ds_num ds) with
    | (s', Some e) => (with_num s' ds, Some e)
    | (s', None) =>
      match update_convergence (with_num s' ds) with
      | Err e => (with_num s' ds, Some e)
      | Ok ds2 =>
        if (cf_print cf =? 0)%Z then (ds2, Some ZeroDivisionError) else
        match after_iteration ds2 with
        | (ds', Some e) => (ds', Some e)
        | (ds', None) => pf_loop n' ds'
        end
      end
    end
  end.
(** parafac2.py:389-410 *)
Definition pf_fit_loop (ds : dstate St) : dstate St * option exn :=
  match md_prepare md (ds_num ds) with
  | (s', Some e) => (with_num s' ds, Some e)
  | (s', None) =>
    let ds := with_num s' ds in
    match pf_loop (Z.to_nat (ds_max ds - ds_it ds)) ds with
    | (ds', Some e) => (ds', Some e)
    | (ds', None) =>
      if (cf_freq cf =? 0)%Z then (ds', Some ZeroDivisionError) else
      if (negb ((ds_it ds' + 1) mod cf_freq cf =? 0) && (0 <? cf_freq cf))%Z then store_checkpoint ds'
      else (ds', None)
    end
  end.

(** The state at the end of _init_fit (base_decomposer.py:127-144, cp.py:348-349, parafac2.py:370-373)
    when the components have been initialised to [s] and their loss evaluated to [prev]; the counter
    is 0 unless a checkpoint was loaded. *)
Definition start (s : St) (prev : xr) (it max : Z) (logs : list (logger St)) (f : option file)
  : dstate St :=
  {| ds_num := s; ds_it := it; ds_max := max; ds_rel := PInf; ds_prev := prev;
     ds_logs := logs; ds_file := f |}.
(** base_decomposer.py:166-176 *)
Definition cp_continue_fit (max_its : option Z) (ds : dstate St) : dstate St * option exn :=
  cp_fit_loop (match max_its with Some m => with_max m ds | None => ds end).
Definition pf_continue_fit (max_its : option Z) (ds : dstate St) : dstate St * option exn :=
  pf_fit_loop (match max_its with Some m => with_max m ds | None => ds end).
End Decomposer.

(** utils.py:220-223 [iter_checkpoints]: the names in sorted order that start with 'checkpoint'.
    Python's [sorted] on strings orders by code point. *)
Fixpoint insert_sorted (s : string) (l : list string) : list string :=
  match l with
  | [] => [s]
  | t :: l' => if String.ltb t s then t :: insert_sorted s l' else s :: l
  end.
Definition py_sorted (l : list string) : list string := fold_right insert_sorted [] l.
Definition file_names (f : file) : list string := map fst (f_groups f) ++ map fst (g_data (f_root f)).
Definition iter_checkpoints (f : file) : list string :=
  filter (String.prefix "checkpoint") (py_sorted (file_names f)).
