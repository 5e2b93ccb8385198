(** Property C81: random test data and the old initialiser. *)
From Verif Require Import LegacyFacts Props_Best CMTFWitness.
Local Open Scope R_scope.

(** *** C81.  [draw k sh] is the k-th random array, of shape sh. *)
(** create_random_factors and create_random_uniform_factors: one matrix per size whose columns have a length below 1;
    together with the returned lengths they give back what was drawn. *)
Theorem C81_random_factors : forall draw, rand_ok draw -> forall sizes rank, exists Vs norms,
  create_random_factors draw sizes rank = Ok (Vs, norms) /\ length Vs = length sizes /\ length norms = length sizes /\
  forall m, (m < length sizes)%nat ->
    let D := draw m [nth m sizes 0%nat; rank] in let V := nth m Vs m0 in let n := nth m norms m0 in
    is_mat (nth m sizes 0%nat) rank V /\ is_mat 1 rank n /\
    forall r, (r < rank)%nat -> mget n 0 r = clen D r /\ clen V r < 1 /\
      forall i, (i < nth m sizes 0)%nat -> mget V i r * (mget n 0 r + / 10 ^ 15) = mget D i r /\ Rabs (mget V i r) < 1.
Proof. exact random_factors. Qed.
Print Assumptions C81_random_factors.
(** create_data and create_non_negative_data never return data: they call base.ktensor, and base has no such name. *)
Theorem C81_random_data_refuted : forall draw, rand_ok draw -> forall ktensor sizes rank noise_factor,
  random_data draw ktensor sizes rank noise_factor = Err AttributeError.
Proof. exact random_data_raises. Qed.
Print Assumptions C81_random_data_refuted.
Example C81_draws_example : rand_ok (fun k sh => np_ones sh) /\
  exists Vs norms, create_random_factors (fun k sh => np_ones sh) [4; 1]%nat 1 = Ok (Vs, norms) /\
    mget (nth 0 norms m0) 0 0 = 2 /\ mget (nth 0 Vs m0) 3 0 * (2 + / 10 ^ 15) = 1.
Proof.
  assert (H : rand_ok (fun k sh => np_ones sh)) by (intros k sh; split; [apply wf_tab|reflexivity]).
  split; [exact H|]. destruct (C81_random_factors _ H [4; 1]%nat 1) as (Vs & norms & E & _ & _ & HV).
  exists Vs, norms. split; [exact E|]. destruct (HV 0%nat ltac:(cbn; lia)) as (_ & _ & Hr). destruct (Hr 0%nat ltac:(lia)) as (E1 & _ & E2).
  assert (E3 : mget (nth 0 norms m0) 0 0 = 2).
  { rewrite E1. unfold clen. replace (sum _ _) with (2 * 2) by (ev; lra). apply sqrt_square. lra. }
  split; [exact E3|]. rewrite <- E3. destruct (E2 3%nat ltac:(cbn; lia)) as [E4 _]. rewrite E4. ev. reflexivity.
Qed.

(** The initialiser of base_tensor_decomposition.py: 'random' gives the factors of create_random_factors, *)
Theorem C81_old_random : forall svd_u draw X rank, rand_ok draw -> exists Vs norms,
  create_random_factors draw (shape X) rank = Ok (Vs, norms) /\
  old_init_factors svd_u draw X rank "random" = Ok (Vs, np_ones [length (shape X); rank]).
Proof. exact old_random. Qed.
Print Assumptions C81_old_random.
(** 'svd' gives, up to the factor 1 + 1e-15, orthonormal columns that capture as much of the mode as any can,
    but at most as many as the mode is long: *)
Theorem C81_old_svd : forall svd_u draw X rank, wf X -> (forall n, In n (shape X) -> n <> 0%nat) -> mode_left_vectors svd_u X ->
  exists Vs, old_init_factors svd_u draw X rank "svd" = Ok (Vs, np_ones [length (shape X); rank]) /\
    length Vs = length (shape X) /\
    forall n, (n < length (shape X))%nat ->
      let N := nth n (shape X) 0%nat in let M := mode_width X n in let A := mget (mode_matrix X n) in
      let k := Nat.min rank N in let F := fun i r => (1 + / 10 ^ 15) * mget (nth n Vs m0) i r in
      is_mat N k (nth n Vs m0) /\ orth_cols N k F /\
      forall Q, orth_cols N k Q -> captured N M k A Q <= captured N M k A F.
Proof. exact old_svd. Qed.
Print Assumptions C81_old_svd.
(** so the documented shape (length of the mode, rank) fails whenever a mode is shorter than the rank, while the weights have that many columns. *)
Theorem C81_old_svd_shape_refuted : forall svd_u draw X rank n Vs w, wf X -> (forall n, In n (shape X) -> n <> 0%nat) ->
  mode_left_vectors svd_u X -> (n < length (shape X))%nat -> (nth n (shape X) 0 < rank)%nat ->
  old_init_factors svd_u draw X rank "svd" = Ok (Vs, w) ->
  ncols (nth n Vs m0) = nth n (shape X) 0%nat /\ ncols (nth n Vs m0) <> rank /\ ncols w = rank.
Proof.
  intros svd_u draw X rank n Vs w HX Hz HL Hn Hr E. destruct (old_svd draw rank HX Hz HL) as (Vs' & E' & _ & H).
  rewrite E in E'. injection E' as <- ->. destruct (H n Hn) as ((_ & Hs) & _). unfold ncols at 1 2. rewrite Hs. cbn [nth].
  rewrite Nat.min_r by lia. split; [reflexivity|]. split; [lia|reflexivity].
Qed.
Print Assumptions C81_old_svd_shape_refuted.
(** Any other scheme, also in capital letters, is a ValueError. *)
Theorem C81_old_scheme : forall svd_u draw X rank scheme, scheme <> "random"%string -> scheme <> "svd"%string ->
  old_init_factors svd_u draw X rank scheme = Err ValueError.
Proof. exact old_scheme. Qed.
Print Assumptions C81_old_scheme.
Example C81_old_example : mode_left_vectors (fun A => Ok (np_identity (nrows A))) b_X /\
  (forall n, In n (shape b_X) -> n <> 0%nat) /\ wf b_X /\ (nth 0 (shape b_X) 0 < 3)%nat /\
  old_init_factors (fun A => Ok (np_identity (nrows A))) (fun _ => np_ones) b_X 3 "SVD" = Err ValueError.
Proof.
  split; [apply C78_svd_start_example|]. split; [intros n [<-|[<-|[]]]; lia|]. split; [reflexivity|]. split; [cbn; lia|].
  apply C81_old_scheme; discriminate.
Qed.
