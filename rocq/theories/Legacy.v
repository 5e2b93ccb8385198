(** Random test data (utils.py:32-65) and the old initialiser (base_tensor_decomposition.py). *)
From Verif Require Export CP.
Set Implicit Arguments.
Unset Strict Implicit.
Local Open Scope R_scope.

(** *** Random test data.  [draw k sh] is the k-th array drawn, of shape sh: np.random.randn or np.random.uniform. *)
Section Draws.
Variable draw : nat -> list nat -> nd.

(** utils.py:33, 51 *)
Definition drawn (sizes : list nat) (rank : nat) : list nd :=
  map (fun k => draw k [nth k sizes 0%nat; rank]) (seq 0 (length sizes)).
(** utils.py:32-35 and, with uniform draws, 50-53 *)
Definition create_random_factors (sizes : list nat) (rank : nat) : res (list nd * list nd) :=
  normalize_factors (drawn sizes rank).

(** The names in the module [base] (base.py:1-290) *)
Definition base_names : list string :=
  ["np"; "nnls"; "h5py"; "ABC"; "abstractmethod"; "abstractclassmethod"; "rightsolve"; "non_negative_rightsolve";
   "orthogonal_rightsolve"; "orthogonal_solve"; "add_rightsolve_ridge"; "kron_binary_vectors"; "khatri_rao_binary";
   "khatri_rao"; "kron"; "kron_binary"; "matrix_khatri_rao_product"; "_mttkrp3"; "_mttkrp_mid"; "_mttkrp_mid_with_krp";
   "unfold"; "fold"; "unflatten_factors"; "flatten_factors"]%string.
(** The attribute [name] of [base], which would be [x] *)
Definition base_attr {A : Type} (name : string) (x : A) : res A :=
  if existsb (String.eqb name) base_names then Ok x else Err AttributeError.

(** utils.py:38-47 and, with uniform draws for the factors, 56-65.  [ktensor] is what base.ktensor would be. *)
Definition random_data (ktensor : list nd -> res nd) (sizes : list nat) (rank : nat) (noise_factor : R)
    : res (nd * list nd * list nd * nd) :=
  do p <- create_random_factors sizes rank ;
  let '(factors, norms) := p in
  do f <- base_attr "ktensor" ktensor ;
  do tensor <- f factors ;
  let noise0 := draw (length sizes) sizes in
  do noise1 <- np_div noise0 (mk [] [norm noise0]) ;
  let noise := np_map (fun x => x * norm tensor) noise1 in
  do t <- np_add tensor (np_map (fun x => noise_factor * x) noise) ;
  Ok (t, factors, norms, noise).
End Draws.

(** *** base_tensor_decomposition.py, class Base_CP.  [svd_u M] is the first result of np.linalg.svd(M). *)
Section Old.
Variables (svd_u : nd -> res nd) (draw : nat -> list nat -> nd).
(** base_tensor_decomposition.py:54-75 *)
Definition old_random_init (X : nd) (rank : nat) : list nd := drawn draw (shape X) rank.
(** base_tensor_decomposition.py:77-103; a slice [:rank] stops at the last column *)
Definition old_svd_init (X : nd) (rank : nat) : res (list nd) :=
  mapM (fun i => do M <- unfold X (Z.of_nat i) ;
                 do u <- svd_u M ;
                 first_columns u rank) (seq 0 (ndim X)).
(** base_tensor_decomposition.py:24-52 *)
Definition old_init_factors (X : nd) (rank : nat) (scheme : string) : res (list nd * nd) :=
  do factors <- (if String.eqb scheme "random" then Ok (old_random_init X rank)
                 else if String.eqb scheme "svd" then old_svd_init X rank
                 else Err ValueError) ;
  let weights := np_ones [ndim X; rank] in
  do fs <- mapM (fun f => do p <- normalize_factor eps15 f ; Ok (fst p)) factors ;
  Ok (fs, weights).
End Old.
