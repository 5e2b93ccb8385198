(** Model of log.py: the in-memory logger and the HDF5 logger.

    Simplifications: target functions return numbers; conversion to single precision is a function
    argument [to32]; element types are not tracked otherwise; a dataset is always resizable (those
    created by _init_h5_file are). *)
From Verif Require Export H5.
Local Open Scope nat_scope.

Section Hlog.
Context {P : Type} (to32 : xr -> xr).

(** log.py:31-35 and 60-72.  [hl_vals] is target_values: the values of every target in the order of
    the keyword arguments; [hl_it], [hl_prev], [hl_first] are _it_num, _prev_write_it, _first_write_it. *)
Record hlog : Type :=
  { hl_ex : string; hl_freq : Z; hl_targets : list (string * (P -> res xr));
    hl_vals : list (list xr); hl_it : nat; hl_prev : nat; hl_first : nat }.
Definition with_vals (v : list (list xr)) (h : hlog) : hlog :=
  {| hl_ex := hl_ex h; hl_freq := hl_freq h; hl_targets := hl_targets h; hl_vals := v;
     hl_it := hl_it h; hl_prev := hl_prev h; hl_first := hl_first h |}.
Definition with_count (n : nat) (h : hlog) : hlog :=
  {| hl_ex := hl_ex h; hl_freq := hl_freq h; hl_targets := hl_targets h; hl_vals := hl_vals h;
     hl_it := n; hl_prev := hl_prev h; hl_first := hl_first h |}.
Definition with_prev (n : nat) (h : hlog) : hlog :=
  {| hl_ex := hl_ex h; hl_freq := hl_freq h; hl_targets := hl_targets h; hl_vals := hl_vals h;
     hl_it := hl_it h; hl_prev := n; hl_first := hl_first h |}.

(** log.py:74-82 [_init_h5_file] *)
Definition open_group (ex : string) : step :=
  fun f => match lookup ex (f_groups f) with
           | Some _ => Ok f
           | None => if in_file ex f then Err AttributeError else create_group ex f
           end.
Definition hl_init_steps (ex : string) (names : list string) : list step :=
  open_group ex :: map (fun n => at_group ex (put_data n (DSeq []))) names.

(** log.py:67-70: the number of entries of the first target of an existing experiment *)
Definition dataset_len (v : dval) : res nat :=
  match v with DSeq l => Ok (length l) | DInts l => Ok (length l) | _ => Err TypeError end.
Definition old_len (ex : string) (names : list string) (f : file) : res nat :=
  match names with
  | [] => Err IndexError
  | n :: _ => match lookup ex (f_groups f) with
              | None => Err KeyError
              | Some g => do v <- get_data n g ; dataset_len v
              end
  end.

(** log.py:44-72.  The file as left behind, and the logger if there was no exception. *)
Definition hl_new (ex : string) (freq : Z) (targets : list (string * (P -> res xr))) (continue_old : bool)
  (f : file) : file * res hlog :=
  let mkl n := {| hl_ex := ex; hl_freq := freq; hl_targets := targets; hl_vals := map (fun _ => []) targets;
                  hl_it := n; hl_prev := n; hl_first := n |} in
  if continue_old then (f, do n <- old_len ex (map fst targets) f ; Ok (mkl n))
  else match run_steps (hl_init_steps ex (map fst targets)) f with
       | (f', None) => (f', Ok (mkl 0))
       | (f', Some e) => (f', Err e)
       end.

(** log.py:37-40: values computed before an exception have been appended *)
Fixpoint append_all (p : P) (ts : list (string * (P -> res xr))) (vs : list (list xr))
  : list (list xr) * option exn :=
  match ts, vs with
  | (_, t) :: ts', v :: vs' =>
    match t p with
    | Err e => (v :: vs', Some e)
    | Ok x => let (r, e) := append_all p ts' vs' in ((v ++ [x]) :: r, e)
    end
  | _, _ => (vs, None)
  end.

(** [dset.resize([n])]: cut off or filled with zeros *)
Definition resize (n : nat) (v : dval) : res dval :=
  match v with
  | DSeq l => Ok (DSeq (firstn n l ++ repeat (Fin 0) (n - length l)))
  | _ => Err TypeError
  end.
(** [dset[k:] = vals]: lengths must agree, or a single value is repeated *)
Definition assign_from (k : nat) (vals : list xr) (v : dval) : res dval :=
  match v with
  | DSeq l =>
    let slots := length l - k in
    if length vals =? slots then Ok (DSeq (firstn k l ++ map to32 vals))
    else match vals with
         | [x] => Ok (DSeq (firstn k l ++ repeat (to32 x) slots))
         | _ => Err TypeError
         end
  | _ => Err TypeError
  end.
(** log.py:90-96 *)
Definition save_steps (h : hlog) : list step :=
  concat (map (fun tv => let '(n, v) := tv in
    [ at_group (hl_ex h) (write_data n (resize (hl_it h)));
      at_group (hl_ex h) (write_data n (assign_from (hl_prev h) (skipn (hl_prev h - hl_first h) v))) ])
    (combine (map fst (hl_targets h)) (hl_vals h))).
Definition hl_save (h : hlog) (f : file) : hlog * file * option exn :=
  match lookup (hl_ex h) (f_groups f) with
  | None => (h, f, Some KeyError)
  | Some _ => match run_steps (save_steps h) f with
              | (f', None) => (with_prev (hl_it h) h, f', None)
              | (f', Some e) => (h, f', Some e)
              end
  end.
(** log.py:84-88 *)
Definition hl_log (p : P) (h : hlog) (f : file) : hlog * file * option exn :=
  match append_all p (hl_targets h) (hl_vals h) with
  | (vs, Some e) => (with_vals vs h, f, Some e)
  | (vs, None) =>
    let h1 := with_count (S (hl_it h)) (with_vals vs h) in
    if (hl_freq h =? 0)%Z then (h1, f, Some ZeroDivisionError) else
    if (Z.of_nat (hl_it h1) mod hl_freq h =? 0)%Z then hl_save h1 f else (h1, f, None)
  end.

(** ** Sessions: what a user does with a logger *)
Inductive hevent : Type := HLog (p : P) | HSave.
Definition hl_event (ev : hevent) (h : hlog) (f : file) : hlog * file * option exn :=
  match ev with HLog p => hl_log p h f | HSave => hl_save h f end.
Fixpoint hl_events (evs : list hevent) (h : hlog) (f : file) : hlog * file * option exn :=
  match evs with
  | [] => (h, f, None)
  | ev :: evs' => match hl_event ev h f with
                  | (h', f', None) => hl_events evs' h' f'
                  | r => r
                  end
  end.
(** Sessions on the same experiment one after the other, the first one new *)
Fixpoint hl_sessions (ex : string) (freq : Z) (targets : list (string * (P -> res xr))) (continue_old : bool)
  (ss : list (list hevent)) (f : file) : file * option exn :=
  match ss with
  | [] => (f, None)
  | s :: ss' =>
    match hl_new ex freq targets continue_old f with
    | (f1, Err e) => (f1, Some e)
    | (f1, Ok h) => match hl_events s h f1 with
                    | (_, f2, Some e) => (f2, Some e)
                    | (_, f2, None) => hl_sessions ex freq targets true ss' f2
                    end
    end
  end.

(** ** Vocabulary for C40 *)
(** The parameters logged in a history *)
Definition params (evs : list hevent) : list P :=
  flat_map (fun ev => match ev with HLog p => [p] | HSave => [] end) evs.
(** How many of them had been logged at the last save, if [n0] entries existed before the session:
    a save happens when asked for, and when the number of entries is a multiple of the frequency. *)
Fixpoint saved (freq : Z) (n0 : nat) (k m : nat) (evs : list hevent) : nat :=
  match evs with
  | [] => m
  | HSave :: evs' => saved freq n0 k k evs'
  | HLog _ :: evs' => saved freq n0 (S k) (if (Z.of_nat (n0 + S k) mod freq =? 0)%Z then S k else m) evs'
  end.
(** The entries of target [t] in the file *)
Definition entries_of (f : file) (ex t : string) : option (list xr) :=
  match lookup ex (f_groups f) with
  | Some g => match lookup t (g_data g) with Some (DSeq l) => Some l | _ => None end
  | None => None
  end.
(** What is kept of a sequence of sessions: of each what had been logged at its last save *)
Fixpoint kept_of (freq : Z) (n0 : nat) (ss : list (list hevent)) : list P :=
  match ss with
  | [] => []
  | s :: ss' => let k := firstn (saved freq n0 0 0 s) (params s) in k ++ kept_of freq (n0 + length k) ss'
  end.
(** The values [t] takes; those that would raise do not occur in error-free histories *)
Definition value (t : P -> res xr) (p : P) : xr := match t p with Ok v => v | Err _ => NaN end.
End Hlog.
Arguments hlog : clear implicits.
Arguments hevent : clear implicits.
