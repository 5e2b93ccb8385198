(** Model of the sign helpers for evolving tensors, /repo/src/tenkit/utils.py:191-218. *)
From Verif Require Export Decompositions.
From Coq Require Import String.
Local Open Scope R_scope.
Local Open Scope list_scope.

(** A call of a Python function with parameters [params] (none has a default): [npos] positional arguments and the
    keywords [kws]. *)
Definition check_call (params : list string) (npos : nat) (kws : list string) : res unit :=
  if (Nat.leb npos (List.length params) && forallb (fun k => existsb (String.eqb k) (skipn npos params)) kws &&
      forallb (fun x => existsb (String.eqb x) kws) (skipn npos params))%bool
  then Ok tt else Err TypeError.
(** utils.py:160 *)
Definition get_signs_params : list string := ["factor_matrix"; "X"]%string.

(** utils.py:191-200.  [evolving_factor] is a list (or a stack) of matrices, [data_tensor] a list of slices. *)
Definition signfix_evolving_factors (lstsq : lstsq_fun) (data evolving : list nd) (over : nd) : res (list nd * nd) :=
  foldM (fun '(Bs, C) k =>
           do Xk <- list_get data k ;
           do Bk <- list_get evolving k ;
           do _ <- check_call get_signs_params 2 ["data_driven"%string] ;
           do g <- get_signs lstsq Xk (Some Bk) ;
           do F <- list_get Bs k ;
           do F' <- broadcast_into Rmult F (fst g) ;
           do n <- np_len C ;
           do _ <- (if Nat.ltb k n then Ok tt else Err IndexError) ;
           do c' <- broadcast_into Rmult (row C k) (fst g) ;
           do m <- shape_at C 1 ;
           Ok (replace_at k F' Bs, tab2 n m (fun i r => if Nat.eqb i k then vget c' r else mget C i r)))
        (seq 0 (List.length evolving)) (evolving, over).
(** utils.py:202-206 *)
Definition signfix_normal_factors (lstsq : lstsq_fun) (data fixing flipping : nd) : res (nd * nd) :=
  do n <- shape_at data 0 ;
  do X <- reshape_auto data n ;
  do _ <- check_call get_signs_params 3 [] ;
  do g <- get_signs lstsq X (Some fixing) ;
  do F <- np_mul fixing (fst g) ;
  do G <- np_mul flipping (fst g) ;
  Ok (F, G).
(** utils.py:208-218 *)
Definition fix_signs_evolving_tensor (lstsq : lstsq_fun) (e : evolving) (data : list nd) : res evolving :=
  do p <- signfix_evolving_factors lstsq data (ev_B e) (ev_C e) ;
  Ok {| ev_rank := ev_rank e; ev_A := ev_A e; ev_B := fst p; ev_C := snd p; ev_warning := ev_warning e;
        ev_same := ev_same e; ev_slice_shapes := ev_slice_shapes e; ev_num_elements := ev_num_elements e |}.
