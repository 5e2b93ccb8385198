(** Model of the part of HDF5/h5py the code uses: files with attributes, groups and datasets,
    primitive writes, and Python's zero-padded integer formatting.

    Simplifications: one level of groups below the root (the code never nests deeper);
    element types of datasets are not tracked (values are exact); the 64 KB limit on attributes is
    not modelled; an interruption is an exception between two primitive writes, after which the
    file is closed properly ([with h5py.File(...)]), not a loss of power. *)
From Coq Require Export String Ascii NArith.
From Verif Require Export Decompositions.
Open Scope string_scope.
Open Scope list_scope.
Open Scope nat_scope.

(** ** Association lists: Python dictionaries and HDF5 link/attribute tables *)
Fixpoint lookup {V : Type} (k : string) (l : list (string * V)) : option V :=
  match l with
  | [] => None
  | (k', v) :: l' => if String.eqb k k' then Some v else lookup k l'
  end.
Fixpoint assoc_set {V : Type} (k : string) (v : V) (l : list (string * V)) : list (string * V) :=
  match l with
  | [] => [(k, v)]
  | (k', v') :: l' => if String.eqb k k' then (k, v) :: l' else (k', v') :: assoc_set k v l'
  end.

(** ** Contents *)
Inductive dval : Type :=
| DArr (a : nd)            (* numeric array *)
| DStr (s : string)
| DInt (z : Z)
| DBool (b : bool)
| DInts (l : list Z)       (* one-dimensional integer data *)
| DSeq (l : list xr).      (* one-dimensional sequence of logged numbers *)

Record group : Type := { g_attrs : list (string * dval); g_data : list (string * dval) }.
Definition empty_group : group := {| g_attrs := []; g_data := [] |}.

Record file : Type := { f_root : group; f_groups : list (string * group) }.
Definition empty_file : file := {| f_root := empty_group; f_groups := [] |}.

(** ** Primitive writes
    A step may read the current contents but performs at most one write. *)
Notation gstep := (group -> res group).
Notation step := (file -> res file).

(** [group.attrs[k] = v] *)
Definition set_attr (k : string) (v : dval) : gstep :=
  fun g => Ok {| g_attrs := assoc_set k v (g_attrs g); g_data := g_data g |}.
(** [group[name] = v] and [create_dataset]: refused if the name is taken. *)
Definition put_data (name : string) (v : dval) : gstep :=
  fun g => match lookup name (g_data g) with
           | Some _ => Err NameExists
           | None => Ok {| g_attrs := g_attrs g; g_data := g_data g ++ [(name, v)] |}
           end.
(** overwriting the contents of an existing dataset *)
Definition write_data (name : string) (f : dval -> res dval) : gstep :=
  fun g => match lookup name (g_data g) with
           | None => Err KeyError
           | Some v => do v' <- f v; Ok {| g_attrs := g_attrs g; g_data := assoc_set name v' (g_data g) |}
           end.

Definition get_attr (k : string) (g : group) : res dval :=
  match lookup k (g_attrs g) with Some v => Ok v | None => Err KeyError end.
Definition get_data (k : string) (g : group) : res dval :=
  match lookup k (g_data g) with Some v => Ok v | None => Err KeyError end.
Definition as_arr (v : dval) : res nd := match v with DArr a => Ok a | _ => Err TypeError end.
Definition as_int (v : dval) : res Z := match v with DInt z => Ok z | _ => Err TypeError end.
Definition as_bool (v : dval) : res bool := match v with DBool b => Ok b | _ => Err TypeError end.

(** Steps on the root group and on a named group of a file *)
Definition at_root (s : gstep) : step :=
  fun f => do r <- s (f_root f); Ok {| f_root := r; f_groups := f_groups f |}.
Definition at_group (n : string) (s : gstep) : step :=
  fun f => match lookup n (f_groups f) with
           | None => Err KeyError
           | Some g => do g' <- s g; Ok {| f_root := f_root f; f_groups := assoc_set n g' (f_groups f) |}
           end.
(** [name in h5] *)
Definition in_file (n : string) (f : file) : bool :=
  match lookup n (f_groups f), lookup n (g_data (f_root f)) with
  | None, None => false
  | _, _ => true
  end.
(** [h5.create_group(n)] *)
Definition create_group (n : string) : step :=
  fun f => if in_file n f then Err NameExists
           else Ok {| f_root := f_root f; f_groups := f_groups f ++ [(n, empty_group)] |}.
(** [h5.require_group(n)]: TypeError if the name is a dataset *)
Definition require_group (n : string) : step :=
  fun f => match lookup n (f_groups f) with
           | Some _ => Ok f
           | None => if in_file n f then Err TypeError else create_group n f
           end.

(** Run a list of steps; the writes before an exception remain. *)
Fixpoint run_steps {G : Type} (l : list (G -> res G)) (g : G) : G * option exn :=
  match l with
  | [] => (g, None)
  | s :: l' => match s g with
               | Ok g' => run_steps l' g'
               | Err e => (g, Some e)
               end
  end.

(** ** Integer formatting: [f'{z:0wd}'] *)
Definition digit_char (d : N) : ascii := ascii_of_N (48 + d).
Fixpoint string_of_digits (l : list N) : string :=
  match l with [] => EmptyString | d :: l' => String (digit_char d) (string_of_digits l') end.
(** decimal digits, most significant first; at least one digit *)
Fixpoint digits_from (fuel : nat) (n : N) (acc : list N) : list N :=
  match fuel with
  | O => acc
  | S fuel' => let acc' := (n mod 10)%N :: acc in
               if (n / 10 =? 0)%N then acc' else digits_from fuel' (n / 10)%N acc'
  end.
Definition digits (n : N) : list N := digits_from (S (N.to_nat (N.size n))) n [].
Definition zero_pad (w : nat) (l : list N) : list N := repeat 0%N (w - length l) ++ l.
Definition fmt_nat (w : nat) (n : N) : string := string_of_digits (zero_pad w (digits n)).
(** a minus sign counts towards the width *)
Definition fmt_int (w : nat) (z : Z) : string :=
  if (z <? 0)%Z then String "-" (fmt_nat (w - 1) (Z.to_N (- z))) else fmt_nat w (Z.to_N z).
