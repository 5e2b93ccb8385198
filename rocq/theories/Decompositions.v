(** Model of /repo/src/tenkit/decomposition/decompositions.py (numeric part; HDF5 storage
    is in Storage.v). *)
From Verif Require Export Utils.
Local Open Scope R_scope.

(** ** KruskalTensor, decompositions.py:53-276 *)
Record kruskal : Type := { kt_rank : nat; kt_fms : list nd; kt_w : nd }.

(** [len(a)] of an array *)
Definition np_len (a : nd) : res nat :=
  match shape a with n :: _ => Ok n | [] => Err TypeError end.

(** decompositions.py:108-128 *)
Definition kt_init (fms : list nd) (w : option nd) : res kruskal :=
  do U0 <- list_get fms 0 ;
  do rank <- shape_at U0 1 ;
  do _ <- foldM (fun _ U => do c <- shape_at U 1 ;
                            if Nat.eqb c rank then Ok tt else Err ValueError) fms tt ;
  do w' <- (match w with
            | None => Ok (np_ones [rank])
            | Some w => do l <- np_len w ; if Nat.eqb l rank then Ok w else Err ValueError
            end) ;
  Ok {| kt_rank := rank; kt_fms := fms; kt_w := w' |}.

(** decompositions.py:130-132 *)
Definition kt_shape (k : kruskal) : res (list nat) := mapM (fun U => shape_at U 0) (kt_fms k).

(** decompositions.py:134-139 *)
Definition kt_construct (junk : nat -> nat -> R) (k : kruskal) : res nd :=
  do sh <- mapM (fun U => shape_at U 0) (kt_fms k) ;
  do U0 <- list_get (kt_fms k) 0 ;
  do WU <- np_mul (newaxis0 (kt_w k)) U0 ;
  do KR <- khatri_rao junk (tl (kt_fms k)) None ;
  do T <- matmul WU (transp KR) ;
  fold T 0 sh.

(** decompositions.py:141-143 *)
Definition kt_reset_weights (k : kruskal) : kruskal :=
  {| kt_rank := kt_rank k; kt_fms := kt_fms k;
     kt_w := np_map (fun x => x + 1) (np_map (fun x => x * 0) (kt_w k)) |}.

(** decompositions.py:145-160.  The factor arrays are assumed not to be aliases of one
    another (CPShared.v drops that assumption). *)
Definition kt_normalize_step (upd : bool) (eps : R) (k : kruskal) (i : nat) : res kruskal :=
  do U <- list_get (kt_fms k) i ;
  let norms := norm_axis0 U in
  do q <- np_div U (np_map (fun x => x + eps) (newaxis0 norms)) ;
  do U' <- assign_full U q ;
  do w' <- (if upd then broadcast_into Rmult (kt_w k) norms else Ok (kt_w k)) ;
  Ok {| kt_rank := kt_rank k; kt_fms := replace_at i U' (kt_fms k); kt_w := w' |}.
Definition kt_normalize (upd : bool) (eps : R) (k : kruskal) : res kruskal :=
  foldM (kt_normalize_step upd eps) (seq 0 (length (kt_fms k))) k.
(** What a loop leaves behind when its body raises; [g]: what the failing step has done *)
Fixpoint foldL {A B : Type} (f : B -> A -> res B) (g : B -> A -> B) (l : list A) (b : B) : B :=
  match l with
  | [] => b
  | x :: l' => match f b x with Ok b' => foldL f g l' b' | Err _ => g b x end
  end.
(** When normalising raises, the factors before the failing one are scaled, and so is the failing one if only the
    weights could not be updated. *)
Definition kt_normalize_left (upd : bool) (eps : R) (k : kruskal) : kruskal :=
  foldL (kt_normalize_step upd eps)
    (fun k i => match (do U <- list_get (kt_fms k) i ;
                       do q <- np_div U (np_map (fun x => x + eps) (newaxis0 (norm_axis0 U))) ;
                       assign_full U q) with
                | Ok U' => {| kt_rank := kt_rank k; kt_fms := replace_at i U' (kt_fms k); kt_w := kt_w k |}
                | Err _ => k
                end) (seq 0 (length (kt_fms k))) k.

(** decompositions.py:162-183; [draws] are the random matrices, one per mode. *)
Definition kt_random_init (draws : list nd) : res kruskal :=
  do k <- kt_init draws None ;
  kt_normalize false eps15 k.

(** decompositions.py:223-228 *)
Definition kt_get_sign_scores (lstsq : lstsq_fun) (k : kruskal) (X : nd) : res (list nd) :=
  mapM (fun p => do M <- unfold X (Z.of_nat (fst p)) ;
                 do s <- get_signs lstsq (snd p) (Some M) ;
                 Ok (snd s))
       (combine (seq 0 (length (kt_fms k))) (kt_fms k)).

(** [v[r] = x] *)
Definition vset (v : nd) (r : nat) (x : R) : nd :=
  tab1 (nth 0 (shape v) 0%nat) (fun i => if Nat.eqb i r then x else vget v i).

(** [np.argmin] of a non-empty list: position of the first minimum. *)
Fixpoint argmin_from (best : nat) (bestv : R) (pos : nat) (l : list R) : nat :=
  match l with
  | [] => best
  | x :: l' => if Rlt_dec x bestv then argmin_from pos x (S pos) l'
               else argmin_from best bestv (S pos) l'
  end.
Definition argmin (l : list R) : nat :=
  match l with [] => 0%nat | x :: l' => argmin_from 0 x 1 l' end.

(** decompositions.py:234-246: one pass of the loop over components. *)
Definition kt_signs_step (scores : list nd) (signs : list nd) (r : nat) : list nd :=
  let single := map (fun s => vget s r) scores in
  let signs1 := map (fun p => vset (fst p) r (sgn (snd p))) (combine signs single) in
  if Req_EM_T (prodf single sgn) (-1) then
    let wrong := argmin (map Rabs single) in
    let v := nth wrong signs1 (tab1 0 (fun _ => 0)) in
    replace_at wrong (vset v r (vget v r * -1)) signs1
  else signs1.
(** decompositions.py:230-248, given the score table. *)
Definition kt_signs_of_scores (rank : nat) (scores : list nd) : list nd :=
  fold_left (kt_signs_step scores) (seq 0 rank) (map (fun _ => np_ones [rank]) scores).
Definition kt_get_signs (lstsq : lstsq_fun) (k : kruskal) (X : nd) : res (list nd) :=
  do scores <- kt_get_sign_scores lstsq k X ;
  Ok (kt_signs_of_scores (kt_rank k) scores).

(** decompositions.py:251-264.  [M[:, c, np.newaxis]] *)
Definition take_col (U : nd) (c : Z) : res nd :=
  match shape U with
  | [n; m] => match py_index m c with
              | Some c => Ok (tab2 n 1 (fun i _ => mget U i c))
              | None => Err IndexError
              end
  | _ => Err IndexError
  end.
Definition kt_single (k : kruskal) (c : Z) : res kruskal :=
  do Us <- mapM (fun U => take_col U c) (kt_fms k) ;
  do n <- np_len (kt_w k) ;
  do wc <- (match py_index n c with Some c => Ok (vget (kt_w k) c) | None => Err IndexError end) ;
  kt_init Us (Some (tab1 1 (fun _ => wc))).

(** metrics.py:13-16 *)
Definition tucker_congruence (A1 A2 : nd) : res nd :=
  do N1 <- np_div A1 (norm_axis0 A1) ;
  do N2 <- np_div A2 (norm_axis0 A2) ;
  matmul (transp N1) N2.
(** decompositions.py:266-271 and 452-462 *)
Definition degeneracy (rank : nat) (Us : list nd) : res nd :=
  foldM (fun D U => do T <- tucker_congruence U U ; broadcast_into Rmult D T) Us (np_ones [rank; rank]).
Definition kt_degeneracy (k : kruskal) : res nd := degeneracy (kt_rank k) (kt_fms k).

(** ** EvolvingTensor, decompositions.py:279-478 *)
Record evolving : Type := {
  ev_rank : nat; ev_A : nd; ev_B : list nd; ev_C : nd; ev_warning : bool;
  ev_same : bool; ev_slice_shapes : list (nat * nat); ev_num_elements : nat }.

(** decompositions.py:351-356 *)
Definition check_all_same_size (Bs : list nd) : res bool :=
  do B0 <- list_get Bs 0 ;
  do size <- shape_at B0 0 ;
  do sizes <- mapM (fun B => shape_at B 0) Bs ;
  Ok (forallb (fun s => Nat.eqb size s) sizes).

(** decompositions.py:316-326 *)
Definition ev_init (A : nd) (Bs : list nd) (C : nd) (warning : bool) : res evolving :=
  do rank <- shape_at A 1 ;
  do same <- check_all_same_size Bs ;
  do nI <- shape_at A 0 ;
  do shapes <- mapM (fun B => do j <- shape_at B 0 ; Ok (nI, j)) Bs ;
  Ok {| ev_rank := rank; ev_A := A; ev_B := Bs; ev_C := C; ev_warning := warning;
        ev_same := same; ev_slice_shapes := shapes; ev_num_elements := list_sum (map snd shapes) |}.

(** decompositions.py:328-343: [B = np.ones((len(C), 1, 1))*B[np.newaxis]] is a stack of
    len(C) copies of B; the stack is kept as the list of its slices.  The argument is a
    KruskalTensor, so [allow_same_class] plays no role. *)
Definition ev_from_kruskal (k : kruskal) : res evolving :=
  match kt_fms k with
  | [A; B; C] =>
      do n <- np_len C ;
      ev_init A (repeat (np_map (fun x => 1 * x) B) n) C true
  | _ => Err ValueError
  end.

(** decompositions.py:378-383: [max] of an empty list raises ValueError. *)
Definition ev_shape (e : evolving) : res (list nat) :=
  do js <- mapM (fun B => shape_at B 0) (ev_B e) ;
  do width <- (match js with [] => Err ValueError | j :: js' => Ok (fold_left Nat.max js' j) end) ;
  do nI <- shape_at (ev_A e) 0 ;
  do nK <- shape_at (ev_C e) 0 ;
  Ok [nI; width; nK].

(** decompositions.py:394-400, [k] a non-negative slice number.  [C[k]] with k out of range
    raises IndexError. *)
Definition construct_slice_of (A C : nd) (Bs : list nd) (k : nat) : res nd :=
  do n <- np_len C ;
  do c <- (if Nat.ltb k n then Ok (row C k) else Err IndexError) ;
  do B <- list_get Bs k ;
  do scores <- np_mul c B ;
  matmul A (transp scores).
Definition ev_construct_slice (e : evolving) (k : nat) : res nd :=
  construct_slice_of (ev_A e) (ev_C e) (ev_B e) k.

(** [a[:, :m, k] = s] for a 3-dimensional a and an (n, m) matrix s *)
Definition set_frontal (a : nd) (k : nat) (s : nd) : res nd :=
  match shape a, shape s with
  | [nI; nJ; nK], [n; m] =>
      if Nat.ltb k nK then
        if (Nat.eqb n nI && Nat.leb m nJ)%bool then
          Ok (tab [nI; nJ; nK] (fun idx =>
                let i := nth 0 idx 0%nat in let j := nth 1 idx 0%nat in
                if (Nat.eqb (nth 2 idx 0%nat) k && Nat.ltb j m)%bool then mget s i j
                else get a idx))
        else Err ValueError
      else Err IndexError
  | _, _ => Err IndexError
  end.

(** decompositions.py:402-418 *)
Definition ev_construct (e : evolving) : res nd :=
  if (ev_warning e && negb (ev_same e))%bool then Err WarningExc else
  do sh <- ev_shape e ;
  foldM (fun T k => do s <- ev_construct_slice e k ; set_frontal T k s)
        (seq 0 (length (ev_slice_shapes e))) (np_zeros sh).

(** decompositions.py:385-392 *)
Definition ev_construct_slices (e : evolving) : res (list nd) :=
  mapM (ev_construct_slice e) (seq 0 (length (ev_slice_shapes e))).

(** decompositions.py:362-364: [np.concatenate(list(B), axis=0)] *)
Definition concat0_list (Bs : list nd) : res nd :=
  match Bs with [] => Err ValueError | B :: Bs' => foldM concat0 Bs' B end.

(** ** ProjectedFactor and Parafac2Tensor, decompositions.py:481-709 *)

(** decompositions.py:500-515: [B[k] = P_k @ blueprint] *)
Definition projected_factor (blueprint : nd) (Ps : list nd) : res (list nd) :=
  mapM (fun P => matmul P blueprint) Ps.

(** [pf_ev] holds the attributes shared with EvolvingTensor, with [ev_B] the list of the
    projected factors (in the code they are recomputed at each access). *)
Record parafac2 : Type := { pf_blueprint : nd; pf_P : list nd; pf_ev : evolving }.

(** decompositions.py:588-624.  [all_same_size] looks at the projection matrices. *)
Definition pf_init (A blueprint C : nd) (Ps : list nd) (warning : bool) : res parafac2 :=
  do rank <- shape_at A 1 ;
  do same <- check_all_same_size Ps ;
  do nI <- shape_at A 0 ;
  do Bs <- projected_factor blueprint Ps ;
  do shapes <- mapM (fun B => do j <- shape_at B 0 ; Ok (nI, j)) Bs ;
  Ok {| pf_blueprint := blueprint; pf_P := Ps;
        pf_ev := {| ev_rank := rank; ev_A := A; ev_B := Bs; ev_C := C; ev_warning := warning;
                    ev_same := same; ev_slice_shapes := shapes;
                    ev_num_elements := list_sum (map snd shapes) |} |}.
