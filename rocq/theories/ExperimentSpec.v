(** Vocabulary for the properties of Experiment (C73). *)
From Verif Require Export Experiment.
Local Open Scope nat_scope.

(** The value stored under [k] in a dictionary *)
Definition stored_value (k : string) (d : dict) : option dval :=
  match lookup k d with Some (Some v) => Some v | _ => None end.
(** The keyword arguments the experiment function gets besides its parameters *)
Definition own_keywords : list string := ["h5_group"; "logger"; "load_old"]%string.
(** HDF5 can represent every value. *)
Definition storable_dict (d : dict) : Prop := forall k v, In (k, v) d -> v <> None.
(** Every parameter but init can be stored. *)
Definition storable_params (d : dict) : Prop := forall k v, In (k, v) d -> k <> "init"%string -> v <> None.
(** A dictionary: no key twice *)
Definition is_dict (d : dict) : Prop := NoDup (keys d).
(** The attributes a group has after the parameters (except init) were written to it *)
Definition attrs_after (params : dict) (g : group) (k : string) : option dval :=
  if String.eqb k "init" then lookup k (g_attrs g)
  else match stored_value k params with Some v => Some v | None => lookup k (g_attrs g) end.
(** [v] can replace the contents [old]: the same kind and size *)
Definition replaces (v old : dval) : Prop :=
  match old, v with
  | DArr a, DArr b => wf a /\ wf b /\ shape a = shape b
  | DStr _, DStr _ | DInt _, DInt _ | DBool _, DBool _ => True
  | DInts l, DInts l' => length l = length l'
  | DSeq l, DSeq l' => length l = length l'
  | _, _ => False
  end.
(** All entries of [d] replace datasets of [g]. *)
Definition replaces_all (d : dict) (g : group) : Prop :=
  forall k v, In (k, v) d -> exists x old, v = Some x /\ lookup k (g_data g) = Some old /\ replaces x old.
(** The group of an experiment *)
Definition ex_group (f : file) (ex : string) : option group := lookup ex (f_groups f).
(** Nothing outside the group [ex] differs. *)
Definition only_group (ex : string) (f f' : file) : Prop :=
  f_root f' = f_root f /\ forall e, e <> ex -> ex_group f' e = ex_group f e.
(** What the group [ex] holds, nothing if there is none *)
Definition old_group (f : file) (ex : string) : group := match ex_group f ex with Some g => g | None => empty_group end.
