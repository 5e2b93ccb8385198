(** Storing decompositions in HDF5 groups, /repo/src/tenkit/decomposition/decompositions.py:
    BaseDecomposedTensor 12-50, KruskalTensor 106, 185-206, EvolvingTensor 315, 420-443,
    Parafac2Tensor 570, 658-686. *)
From Verif Require Export H5.

(** decompositions.py:33-34 [_prepare_hdf5_group] *)
Definition prepare_group (cls : string) : gstep := set_attr "type" (DStr cls).
(** decompositions.py:45-50 [_check_hdf5_group]; comparing a non-string attribute with the class
    name is just unequal *)
Definition check_group (cls : string) (g : group) : res unit :=
  do t <- get_attr "type" g ;
  match t with
  | DStr s => if String.eqb s cls then Ok tt else Err WarningExc
  | _ => Err WarningExc
  end.

(** [range(n)] for an integer read from an attribute *)
Definition py_range (z : Z) : list nat := seq 0 (Z.to_nat z).

(** decompositions.py:106, 315, 570 *)
Definition fm_name (i : nat) : string := "factor_matrix" ++ fmt_nat 3 (N.of_nat i).
Definition B_name (k : nat) : string := "B_" ++ fmt_nat 3 (N.of_nat k).
Definition pm_name (i : nat) : string := "projection_matrix_" ++ fmt_nat 3 (N.of_nat i).

Definition load_array (name : string) (g : group) : res nd := do v <- get_data name g ; as_arr v.
Definition put_arrays (name : nat -> string) (l : list nd) : list gstep :=
  map (fun p => put_data (name (fst p)) (DArr (snd p))) (combine (seq 0 (length l)) l).

(** ** KruskalTensor *)
(** decompositions.py:185-194 *)
Definition kt_store (k : kruskal) : list gstep :=
  [ prepare_group "KruskalTensor";
    set_attr "n_factor_matrices" (DInt (Z.of_nat (length (kt_fms k))));
    set_attr "rank" (DInt (Z.of_nat (kt_rank k))) ] ++
  put_arrays fm_name (kt_fms k) ++
  [ put_data "weights" (DArr (kt_w k)) ].
(** decompositions.py:196-206 *)
Definition kt_load (g : group) : res kruskal :=
  do _ <- check_group "KruskalTensor" g ;
  do nv <- get_attr "n_factor_matrices" g ;
  do n <- as_int nv ;
  do fms <- mapM (fun i => load_array (fm_name i) g) (py_range n) ;
  do w <- load_array "weights" g ;
  kt_init fms (Some w).

(** ** EvolvingTensor; a three-dimensional B array is iterated as the list of its slices *)
(** decompositions.py:420-431 *)
Definition ev_store (e : evolving) : list gstep :=
  [ prepare_group "EvolvingTensor";
    set_attr "rank" (DInt (Z.of_nat (ev_rank e)));
    set_attr "all_same_size" (DBool (ev_same e));
    set_attr "warning" (DBool (ev_warning e));
    set_attr "num_Bs" (DInt (Z.of_nat (length (ev_B e))));
    put_data "A" (DArr (ev_A e)) ] ++
  put_arrays B_name (ev_B e) ++
  [ put_data "C" (DArr (ev_C e)) ].
(** Calling a constructor with a keyword it does not have raises TypeError (316: the parameters
    are A, B, C and warning). *)
Definition py_call {A : Type} (params kwargs : list string) (r : res A) : res A :=
  if forallb (fun k => existsb (String.eqb k) params) kwargs then r else Err TypeError.
(** decompositions.py:433-443 *)
Definition ev_load (g : group) : res evolving :=
  do _ <- check_group "EvolvingTensor" g ;
  do A <- load_array "A" g ;
  do nv <- get_attr "num_Bs" g ;
  do n <- as_int nv ;
  do Bs <- mapM (fun k => load_array (B_name k) g) (py_range n) ;
  do C <- load_array "C" g ;
  do wv <- get_attr "warning" g ;
  do warning <- as_bool wv ;
  do _ <- get_attr "all_same_size" g ;
  py_call ["A"; "B"; "C"; "warning"] ["all_same_size"; "warning"] (ev_init A Bs C warning).

(** ** Parafac2Tensor *)
(** decompositions.py:658-670 *)
Definition pf_store (t : parafac2) : list gstep :=
  [ prepare_group "Parafac2Tensor";
    set_attr "rank" (DInt (Z.of_nat (ev_rank (pf_ev t))));
    set_attr "all_same_size" (DBool (ev_same (pf_ev t)));
    set_attr "warning" (DBool (ev_warning (pf_ev t)));
    set_attr "n_projection_matrices" (DInt (Z.of_nat (length (pf_P t))));
    put_data "A" (DArr (ev_A (pf_ev t)));
    put_data "blueprint_B" (DArr (pf_blueprint t));
    put_data "C" (DArr (ev_C (pf_ev t))) ] ++
  put_arrays pm_name (pf_P t).
(** decompositions.py:672-686 *)
Definition pf_load (g : group) : res parafac2 :=
  do _ <- check_group "Parafac2Tensor" g ;
  do A <- load_array "A" g ;
  do B <- load_array "blueprint_B" g ;
  do C <- load_array "C" g ;
  do wv <- get_attr "warning" g ;
  do warning <- as_bool wv ;
  do nv <- get_attr "n_projection_matrices" g ;
  do n <- as_int nv ;
  do Ps <- mapM (fun i => load_array (pm_name i) g) (py_range n) ;
  pf_init A B C Ps warning.

(** ** Files: decompositions.py:25-27 [store] (mode 'w' truncates) and 36-39 [from_file] *)
Definition store_file (steps : list gstep) (old : file) : file * option exn :=
  run_steps (map at_root steps) empty_file.
Definition from_file {D : Type} (load : group -> res D) (f : file) : res D := load (f_root f).
