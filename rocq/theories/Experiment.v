(** Model of the class Experiment of log.py (lines 98-178).

    Simplifications: the experiment function sees and changes only the group it is given; names contain no '/';
    element types are not tracked, so assigning a value of another kind ([g[name][...] = v]) is a TypeError here;
    an experiment whose name is taken by a dataset is refused. *)
From Verif Require Export Hlog.
Local Open Scope nat_scope.

(** A Python dictionary with string keys; [None]: a value HDF5 cannot represent (None, a function, ...) *)
Definition dict : Type := list (string * option dval).
Definition keys (d : dict) : list string := map fst d.

(** [g.attrs[k] = v] and [g[k] = v] *)
Definition attr_step (kv : string * option dval) : gstep :=
  fun g => match snd kv with None => Err TypeError | Some v => set_attr (fst kv) v g end.
Definition new_step (kv : string * option dval) : gstep :=
  fun g => match snd kv with None => Err TypeError | Some v => put_data (fst kv) v g end.
(** [dset[...] = v]: the shape of the dataset stays *)
Definition overwrite (v old : dval) : res dval :=
  match old, v with
  | DArr a, DArr b => match assign_full a b with Ok c => Ok (DArr c) | Err _ => Err TypeError end
  | DStr _, DStr _ | DInt _, DInt _ | DBool _, DBool _ => Ok v
  | DInts l, DInts l' => if length l =? length l' then Ok v else Err TypeError
  | DSeq l, DSeq l' => if length l =? length l' then Ok v else Err TypeError
  | _, _ => Err TypeError
  end.
Definition over_step (kv : string * option dval) : gstep :=
  fun g => match lookup (fst kv) (g_data g) with
           | None => Err KeyError
           | Some _ => match snd kv with None => Err TypeError | Some v => write_data (fst kv) (overwrite v) g end
           end.
(** log.py:165-169 and 174-178 *)
Definition store_step (continue_old : bool) : string * option dval -> gstep :=
  if continue_old then over_step else new_step.

Definition with_group (ex : string) (g : group) (f : file) : file :=
  {| f_root := f_root f; f_groups := assoc_set ex g (f_groups f) |}.

(** log.py:99-124: the constructor *)
Definition exp_new (ex : string) (attributes metadata : option dict) (f : file) : file * option exn :=
  run_steps
    (open_group ex ::
     match attributes with None => [] | Some d => map (fun kv => at_group ex (attr_step kv)) d end ++
     match metadata with
     | None => []
     | Some d => open_group "metadata" :: map (fun kv => at_group "metadata" (new_step kv)) d
     end) f.

(** The keyword arguments log.py:153-155 passes itself; a parameter with one of these names is a TypeError. *)
Definition reserved : list string := ["h5_group"; "logger"; "load_old"]%string.
Definition clashes (params : dict) : bool := existsb (fun k => existsb (String.eqb k) reserved) (keys params).
(** log.py:160-162 *)
Definition kept_params (params : dict) : dict := filter (fun kv => negb (String.eqb (fst kv) "init")) params.

(** log.py:126-178.  [ef] is the experiment function with data, parameters and logger filled in: what it leaves of its
    group and what it returns.  [fe] is final_eval with data and parameters filled in. *)
Definition exp_run (ex : string) (params : dict) (ef : bool -> group -> group * res dict) (fe : dict -> res dict)
    (continue_old : bool) (f : file) : file * option exn :=
  match lookup ex (f_groups f) with
  | None => (f, Some KeyError)
  | Some g =>
    if clashes params then (f, Some TypeError) else
    match ef continue_old g with
    | (g1, Err e) => (with_group ex g1 f, Some e)
    | (g1, Ok outs) =>
      match run_steps (map attr_step (kept_params params) ++ map (store_step continue_old) outs) g1 with
      | (g2, Some e) => (with_group ex g2 f, Some e)
      | (g2, None) =>
        match fe outs with
        | Err e => (with_group ex g2 f, Some e)
        | Ok ms => let (g3, e) := run_steps (map (store_step continue_old) ms) g2 in (with_group ex g3 f, e)
        end
      end
    end
  end.
