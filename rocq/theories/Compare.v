(** Methods of the decomposition classes that compare decompositions, score their degeneracy or split them into
    components: decompositions.py:211-221, 455-478, 688-709.  (kt_degeneracy, kt_single: Decompositions.v.) *)
From Verif Require Export Metrics Decompositions Parafac2.
Set Implicit Arguments.
Unset Strict Implicit.
Local Open Scope R_scope.

(** The names metrics.py defines at module level *)
Definition metrics_names : list string :=
  ["np"; "itertools"; "base"; "scipy"; "utils"; "weight_score"; "_tucker_congruence"; "_factor_match_score";
   "factor_match_score"; "separate_mode_factor_match_score"; "tensor_completion_score"; "core_consistency";
   "core_consistency_parafac2"; "leverage"; "_factor_match_score_parafac2"; "factor_match_score_parafac2";
   "percent_explained"]%string.
(** The attributes a KruskalTensor has: decompositions.py:11-50 and 53-276 *)
Definition kruskal_names : list string :=
  ["construct_tensor"; "store"; "store_in_hdf5_group"; "_prepare_hdf5_group"; "from_file"; "load_from_hdf5_group";
   "_check_hdf5_group"; "fm_template"; "factor_matrices"; "rank"; "weights"; "shape"; "reset_weights";
   "normalize_components"; "random_init"; "factor_match_score"; "seperate_mode_factor_match_score"; "get_sign_scores";
   "get_signs"; "get_single_component_decomposition"; "degeneracy"; "core_consistency"]%string.
Definition getattr (names : list string) (name : string) : res unit :=
  if existsb (String.eqb name) names then Ok tt else Err AttributeError.

(** decompositions.py:211-217 *)
Definition kt_factor_match_score (k k' : kruskal) (weight_penalty : bool) (reduction : string)
  : res (xr * option (list nat)) :=
  if Nat.eqb (kt_rank k') (kt_rank k)
  then factor_match_score (kt_fms k) (kt_fms k') weight_penalty reduction
  else Err AssertionError.
(** decompositions.py:219-222, with its spelling *)
Definition kt_seperate_mode_factor_match_score (k k' : kruskal) (reduction : string)
  : res (list xr * list (option (list nat))) :=
  do _ <- getattr metrics_names "seperate_mode_factor_match_score" ;
  separate_mode_factor_match_score (kt_fms k) (kt_fms k') reduction.

(** decompositions.py:362-364 and 455-465 *)
Definition ev_degeneracy (e : evolving) : res nd :=
  do B <- concat0_list (ev_B e) ; degeneracy (ev_rank e) [ev_A e; B; ev_C e].
(** decompositions.py:467-471 *)
Definition ev_factor_match_score (e e' : evolving) (weight_penalty : bool) (reduction : string)
  : res (xr * option (list nat)) :=
  do B <- concat0_list (ev_B e) ;
  do B' <- concat0_list (ev_B e') ;
  factor_match_score [ev_A e; B; ev_C e] [ev_A e'; B'; ev_C e'] weight_penalty reduction.
(** decompositions.py:473-478; the argument may be a KruskalTensor. *)
Definition ev_separate_mode_factor_match_score (e : evolving) (d : kruskal + evolving) (reduction : string)
  : res (list xr * list (option (list nat))) :=
  do e' <- (match d with
            | inr e' => Ok e'
            | inl k => do _ <- getattr kruskal_names "to_evolving_tensor" ; ev_from_kruskal k
            end) ;
  do B <- concat0_list (ev_B e) ;
  do B' <- concat0_list (ev_B e') ;
  separate_mode_factor_match_score [ev_A e; B; ev_C e] [ev_A e'; B'; ev_C e'] reduction.

(** [np.array(B).reshape(-1, rank)]; matrices of different sizes raise ValueError (see [stack]). *)
Definition reshape_cols (rank : nat) (Bs : list nd) : res nd :=
  do T <- stack Bs ;
  let size := prodl (shape T) in
  if (Nat.eqb rank 0 || negb (Nat.eqb (size mod rank) 0))%bool then Err ValueError
  else Ok (mk [(size / rank)%nat; rank] (data T)).
(** decompositions.py:688-697 *)
Definition pf_factor_match_score (p p' : parafac2) (weight_penalty : bool) (reduction : string)
  : res (xr * option (list nat)) :=
  if Nat.eqb (ev_rank (pf_ev p')) (ev_rank (pf_ev p)) then
    let rank := ev_rank (pf_ev p) in
    do B <- reshape_cols rank (ev_B (pf_ev p)) ;
    do B' <- reshape_cols rank (ev_B (pf_ev p')) ;
    factor_match_score [ev_A (pf_ev p); B; ev_C (pf_ev p)] [ev_A (pf_ev p'); B'; ev_C (pf_ev p')] weight_penalty reduction
  else Err AssertionError.

(** decompositions.py:699-709 with 504-509: [self.B[:, ..., component, np.newaxis]] multiplies the tuple of all projection
    matrices (made an array: [stack]) with the blueprint and takes a column of every product.  The stack of products is
    kept as the list of its slices. *)
Definition pf_single (p : parafac2) (c : Z) : res evolving :=
  do A <- take_col (ev_A (pf_ev p)) c ;
  do _ <- stack (pf_P p) ;
  do Bs <- mapM (fun P => do B <- matmul P (pf_blueprint p) ; take_col B c) (pf_P p) ;
  do C <- take_col (ev_C (pf_ev p)) c ;
  ev_init A Bs C true.
