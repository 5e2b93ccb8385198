(** Property C89: Parafac2_ALS fits of data given in other coordinates. *)
From Verif Require Import CompressFacts SafeExamples Exists ShortMode Decomposer.
From Verif Require Import Prelude Lin.
Local Open Scope R_scope.

(** *** C89.  X_k = Y_k W_k^T with orthonormal columns of W_k.  The iterations for X and for Y, started from the same A, B and C,
    keep the same A, B and C and the same loss; the projections for X are W_k times those for Y.  The projections at the start
    may be any.  [same_cut]: rounding off small singular values treats both alike. *)
Theorem C89_iterations : forall env ps K nI Ws Xs Ys s t s0 t0, drawn_settings ps K nI ->
  svd_contract (env_svd (pe_cp env)) -> nnls_contract (env_nnls (pe_cp env)) -> length (ps_nn ps) = 3%nat -> p2_penalties ps ->
  expressed nI Ws Xs Ys -> slices_ok nI Xs -> slices_ok nI Ys -> wide K Xs -> wide K Ys ->
  p2_ok K nI s -> p2_ok K nI t -> p2_X s = Xs -> p2_X t = Ys -> same_factors s t ->
  p2_prepare env ps s = (s0, None) -> p2_prepare env ps t = (t0, None) ->
  let md := p2_model env ps in
  (forall n k, (k < length Xs)%nat -> let u := state_after md t0 n in
     same_cut (env_svd (pe_cp env)) (width Ys k) (width Xs k) K (cross K nI (p2_A u) (p2_B u) (p2_C u) Ys k)) ->
  forall n, let u := state_after md s0 n in let v := state_after md t0 n in
    snd (md_update md u) = None /\ snd (md_update md v) = None /\ same_factors u v /\
    ((0 < n)%nat -> carried K Ws Xs Ys (p2_Ps u) (p2_Ps v) /\ p2_loss ps u = p2_loss ps v).
Proof. exact expressed_run. Qed.
Print Assumptions C89_iterations.

(** Complete fits from the same draws for A and C: the results agree unless one of the fits stopped after the first iteration,
    the only one whose relative change depends on the random projections.  With tolerance 0 that cannot happen. *)
Theorem C89_fits : forall env ps K nI Ws Xs Ys, expressed nI Ws Xs Ys -> harmless K Xs Ys ->
  forall cf disk1 disk2 A C Ns Ms budget arg1 arg2 ds es,
  penalised_fit env ps K nI (A :: C :: Ns) Xs -> penalised_fit env ps K nI (A :: C :: Ms) Ys ->
  plain_run ps cf budget ds -> plain_run ps cf budget es ->
  exists ds' es', p2_fit env ps cf disk1 (A :: C :: Ns) (Slices Xs) (Some budget) arg1 ds = (ds', None) /\
    p2_fit env ps cf disk2 (A :: C :: Ms) (Slices Ys) (Some budget) arg2 es = (es', None) /\
    (ds_it ds' = ds_it es' -> same_factors (ds_num ds') (ds_num es') /\
       carried K Ws Xs Ys (p2_Ps (ds_num ds')) (p2_Ps (ds_num es')) /\ p2_loss ps (ds_num ds') = p2_loss ps (ds_num es')) /\
    (ds_it ds' = ds_it es' \/ ds_it ds' = 1%Z \/ ds_it es' = 1%Z) /\ (cf_tol cf <= 0 -> ds_it ds' = ds_it es').
Proof. exact rotated_fits. Qed.
Print Assumptions C89_fits.

(** Negating whole slices changes nothing but the signs of their projections - even if A, B and C have to be non-negative. *)
Theorem C89_signs_of_slices : forall env ps K nI c Xs Ys, signed_copy nI c Xs Ys ->
  forall cf disk1 disk2 A C Ns Ms budget arg1 arg2 ds es,
  penalised_fit env ps K nI (A :: C :: Ns) Xs -> penalised_fit env ps K nI (A :: C :: Ms) Ys ->
  plain_run ps cf budget ds -> plain_run ps cf budget es ->
  exists ds' es', p2_fit env ps cf disk1 (A :: C :: Ns) (Slices Xs) (Some budget) arg1 ds = (ds', None) /\
    p2_fit env ps cf disk2 (A :: C :: Ms) (Slices Ys) (Some budget) arg2 es = (es', None) /\
    (ds_it ds' = ds_it es' -> same_factors (ds_num ds') (ds_num es') /\ p2_loss ps (ds_num ds') = p2_loss ps (ds_num es') /\
       forall k j r, (k < length Xs)%nat -> (j < width Xs k)%nat -> (r < K)%nat ->
         mget (nth k (p2_Ps (ds_num ds')) m0) j r = c k * mget (nth k (p2_Ps (ds_num es')) m0) j r) /\
    (ds_it ds' = ds_it es' \/ ds_it ds' = 1%Z \/ ds_it es' = 1%Z) /\ (cf_tol cf <= 0 -> ds_it ds' = ds_it es').
Proof.
  intros env ps K nI c Xs Ys HC cf disk1 disk2 A C Ns Ms budget arg1 arg2 ds es HF HG HR HT.
  destruct (@rotated_fits env ps K nI _ Xs Ys (signed_expressed HC) (or_introl (fun k Hk => proj1 (proj2 HC k Hk)))
    cf disk1 disk2 A C Ns Ms budget arg1 arg2 ds es HF HG HR HT) as (ds' & es' & E1 & E2 & H1 & H2).
  exists ds', es'. split; [exact E1|]. split; [exact E2|]. split; [|exact H2]. intros Hit. destruct (H1 Hit) as (G1 & G2 & G3).
  split; [exact G1|]. split; [exact G3|]. exact (signed_carried HC G2).
Qed.
Print Assumptions C89_signs_of_slices.

(** The order of the columns of a slice plays no role, and need not be the same in all slices. *)
Theorem C89_order_of_columns : forall env ps K nI p q Xs Ys, permuted_copy nI p q Xs Ys ->
  forall cf disk1 disk2 A C Ns Ms budget arg1 arg2 ds es,
  penalised_fit env ps K nI (A :: C :: Ns) Xs -> penalised_fit env ps K nI (A :: C :: Ms) Ys ->
  plain_run ps cf budget ds -> plain_run ps cf budget es ->
  exists ds' es', p2_fit env ps cf disk1 (A :: C :: Ns) (Slices Xs) (Some budget) arg1 ds = (ds', None) /\
    p2_fit env ps cf disk2 (A :: C :: Ms) (Slices Ys) (Some budget) arg2 es = (es', None) /\
    (ds_it ds' = ds_it es' -> same_factors (ds_num ds') (ds_num es') /\ p2_loss ps (ds_num ds') = p2_loss ps (ds_num es') /\
       forall k j r, (k < length Xs)%nat -> (j < width Xs k)%nat -> (r < K)%nat ->
         mget (nth k (p2_Ps (ds_num ds')) m0) j r = mget (nth k (p2_Ps (ds_num es')) m0) (p k j) r) /\
    (ds_it ds' = ds_it es' \/ ds_it ds' = 1%Z \/ ds_it es' = 1%Z) /\ (cf_tol cf <= 0 -> ds_it ds' = ds_it es').
Proof.
  intros env ps K nI p q Xs Ys HC cf disk1 disk2 A C Ns Ms budget arg1 arg2 ds es HF HG HR HT.
  destruct (@rotated_fits env ps K nI _ Xs Ys (permuted_expressed HC) (or_introl (fun k Hk => proj1 (proj2 HC k Hk)))
    cf disk1 disk2 A C Ns Ms budget arg1 arg2 ds es HF HG HR HT) as (ds' & es' & E1 & E2 & H1 & H2).
  exists ds', es'. split; [exact E1|]. split; [exact E2|]. split; [|exact H2]. intros Hit. destruct (H1 Hit) as (G1 & G2 & G3).
  split; [exact G1|]. split; [exact G3|]. exact (permuted_carried HC G2).
Qed.
Print Assumptions C89_order_of_columns.

(** One component with non-negative A and C; a 2 x 3 slice of rank 2 given by its coordinates in a plane *)
Ltac upto3 := let k := fresh "k" in let H := fresh "H" in intros k H; destruct k as [|[|[|k]]]; try (exfalso; cbn in H; lia).
Definition cmp_ps : p2_settings :=
  {| ps_rank := 1; ps_init := "random"; ps_updates := 3; ps_nn := [true; false; true]; ps_ridge := None; ps_orth := None |}.
Definition cmp_W : list nd := [mk [3; 2]%nat [2/3; -(2/3); 2/3; 1/3; 1/3; 2/3]].
Definition cmp_X : list nd := [mk [2; 3]%nat [-2; 4; 5; -2; 10; 11]].
Definition cmp_Y : list nd := [mk [2; 2]%nat [3; 6; 9; 12]].
Definition cmp_cf : config := {| cf_freq := -1; cf_tol := 0; cf_rel_tol := 0; cf_print := 10 |}.
Definition cmp_ds : dstate p2_state :=
  {| ds_num := ex_p2; ds_it := 0; ds_max := 1; ds_rel := PInf; ds_prev := PInf; ds_logs := []; ds_file := None |}.
Definition cmp_A : nd := mk [2; 1]%nat [1; 2].
Definition cmp_C : nd := mk [1; 1]%nat [1].
Definition cmp_env (svd : nd -> res (nd * nd * nd)) (nnls : nd -> nd -> res nd) : p2_env :=
  {| pe_cp := {| env_svd := svd; env_svd_u := fun A => do (U, _, _) <- svd A ; Ok U; env_qr := fun A => do (U, _, _) <- svd A ; Ok U;
     env_nnls := nnls; env_junk := fun _ _ => 0 |}; pe_qr := fun A => Ok (A, A) |}.

Lemma cmp_run b : (0 < b)%Z -> plain_run cmp_ps cmp_cf b cmp_ds.
Proof. intros Hb. constructor; [exact Hb|intros lg []|discriminate|now left]. Qed.
Lemma cmp_fit svd nnls N X w : svd_contract svd -> nnls_contract nnls -> is_mat 2 w X -> is_mat w 1 N -> (0 < w)%nat ->
  penalised_fit (cmp_env svd nnls) cmp_ps 1 2 (cmp_A :: cmp_C :: [N]) [X].
Proof.
  intros Hs Hn HX HN Hw. assert (Ew : width [X] 0 = w) by (unfold width; cbn [nth]; unfold ncols; now rewrite (proj2 HX)).
  constructor; auto.
  - constructor; try reflexivity; try solve [now left].
    + split; lia.
    + split; [discriminate|]. intros k Hk. cbn in Hk. assert (k = 0%nat) as -> by lia. rewrite Ew. exact HX.
    + do 3 eexists. split; [reflexivity|]. split; [split; reflexivity|]. split; [split; reflexivity|]. split; [reflexivity|].
      intros k Hk. cbn in Hk. assert (k = 0%nat) as -> by lia. rewrite Ew. exact HN.
    + intros k _ A HA. exact (qr_of_svd Hs HA).
    + intros k Hk. cbn in Hk. assert (k = 0%nat) as -> by lia. rewrite Ew. lia.
  - exact I.
Qed.
Lemma cmp_expressed : expressed 2 cmp_W cmp_X cmp_Y.
Proof.
  constructor; [reflexivity| |].
  - change (length cmp_X) with 1%nat. intros k Hk a b Ha Hb. assert (k = 0%nat) as -> by lia.
    change (width cmp_Y 0) with 2%nat in *. change (width cmp_X 0) with 3%nat. revert b Hb. revert a Ha. upto3; upto3; cbn; lra.
  - change (length cmp_X) with 1%nat. intros k i j Hk Hi Hj. assert (k = 0%nat) as -> by lia.
    change (width cmp_Y 0) with 2%nat in *. change (width cmp_X 0) with 3%nat in *. revert j Hj. revert i Hi. upto3; upto3; cbn; lra.
Qed.
Lemma cmp_harmless : harmless 1 cmp_X cmp_Y.
Proof.
  right. split; [reflexivity|]. change (length cmp_X) with 1%nat. intros k Hk. assert (k = 0%nat) as -> by lia.
  change (width cmp_Y 0) with 2%nat. change (width cmp_X 0) with 3%nat. split; cbn; lra.
Qed.

(** After three iterations the fit of the 2 x 3 slice has the A, B, C and loss of the fit of the 2 x 2 slice. *)
Example C89_compressed_example : exists env ds' es',
  p2_fit env cmp_ps cmp_cf no_disk [cmp_A; cmp_C; mk [3; 1]%nat [1; 2; 3]] (Slices cmp_X) (Some 3%Z) P2None cmp_ds = (ds', None) /\
  p2_fit env cmp_ps cmp_cf no_disk [cmp_A; cmp_C; mk [2; 1]%nat [0; 1]] (Slices cmp_Y) (Some 3%Z) P2None cmp_ds = (es', None) /\
  same_factors (ds_num ds') (ds_num es') /\ p2_loss cmp_ps (ds_num ds') = p2_loss cmp_ps (ds_num es').
Proof.
  destruct svd_contract_satisfiable as (svd & Hs). destruct nnls_contract_satisfiable as (nnls & Hn). exists (cmp_env svd nnls).
  destruct (@C89_fits (cmp_env svd nnls) cmp_ps 1 2 cmp_W cmp_X cmp_Y cmp_expressed cmp_harmless cmp_cf no_disk no_disk cmp_A cmp_C
    [mk [3; 1]%nat [1; 2; 3]] [mk [2; 1]%nat [0; 1]] 3%Z P2None P2None cmp_ds cmp_ds) as (ds' & es' & E1 & E2 & H & _ & Ht).
  - apply (@cmp_fit svd nnls _ _ 3); auto; split; reflexivity.
  - apply (@cmp_fit svd nnls _ _ 2); auto; split; reflexivity.
  - now apply cmp_run.
  - now apply cmp_run.
  - exists ds', es'. split; [exact E1|]. split; [exact E2|].
    destruct (H (Ht ltac:(cbn; lra))) as (G1 & _ & G3). auto.
Qed.

Example C89_iterations_example : exists env s0 t0,
  let md := p2_model env cmp_ps in p2_X s0 = cmp_X /\ p2_X t0 = cmp_Y /\
  forall n, same_factors (state_after md s0 n) (state_after md t0 n) /\
    ((0 < n)%nat -> p2_loss cmp_ps (state_after md s0 n) = p2_loss cmp_ps (state_after md t0 n)).
Proof.
  destruct svd_contract_satisfiable as (svd & Hs). destruct nnls_contract_satisfiable as (nnls & Hn). exists (cmp_env svd nnls).
  assert (H1 : penalised_fit (cmp_env svd nnls) cmp_ps 1 2 (cmp_A :: cmp_C :: [mk [3; 1]%nat [1; 2; 3]]) cmp_X)
    by (apply (@cmp_fit svd nnls _ _ 3); auto; split; reflexivity).
  assert (H2 : penalised_fit (cmp_env svd nnls) cmp_ps 1 2 (cmp_A :: cmp_C :: [mk [2; 1]%nat [0; 1]]) cmp_Y)
    by (apply (@cmp_fit svd nnls _ _ 2); auto; split; reflexivity).
  destruct (start_state cmp_ds H1) as (s & s0 & Ok1 & EX & A1 & B1 & C1 & P1). destruct (start_state cmp_ds H2) as (t & t0 & Ok2 & EY & A2 & B2 & C2 & P2).
  exists s0, t0. cbn zeta.
  destruct H1 as [[_ HO HK [HnI HK0] HX _ _ WX] H3 HP _ _]. destruct H2 as [[_ _ _ _ HY _ _ WY] _ _ _ _].
  destruct (@prepare_ready (cmp_env svd nnls) cmp_ps 1 2 HK HO HnI HK0 s Ok1) as (s0' & Ps' & _ & As & _); [rewrite EX; cbn; lia|]. rewrite P1 in Ps'. injection Ps' as <-.
  destruct (@prepare_ready (cmp_env svd nnls) cmp_ps 1 2 HK HO HnI HK0 t Ok2) as (t0' & Pt' & _ & At & _); [rewrite EY; cbn; lia|]. rewrite P2 in Pt'. injection Pt' as <-.
  split; [now rewrite (proj1 As)|]. split; [now rewrite (proj1 At)|]. intros n.
  destruct (@C89_iterations (cmp_env svd nnls) cmp_ps 1 2 cmp_W cmp_X cmp_Y s t s0 t0) with (n := n) as (_ & _ & G1 & G2); auto.
  - repeat (split; [assumption|]). assumption.
  - exact cmp_expressed.
  - unfold same_factors. repeat split; congruence.
  - intros n' k Hk. apply (@cuts_rotated (cmp_env svd nnls) 1 2 cmp_X cmp_Y cmp_harmless); auto.
  - split; [exact G1|]. intros Hp. apply (G2 Hp).
Qed.

Example C89_signed_example : signed_copy 2 (fun k => if Nat.eqb k 0 then 1 else -1)
  [mk [2; 2]%nat [1; 2; 3; 4]; mk [2; 3]%nat [1; -1; 0; 2; 5; -3]] [mk [2; 2]%nat [1; 2; 3; 4]; mk [2; 3]%nat [-1; 1; 0; -2; -5; 3]].
Proof. split; [reflexivity|]. intros k Hk. cbn in Hk. revert k Hk. upto3; (split; [reflexivity|]; split; [cbn; lra|]; intros i j Hi Hj; cbn in Hj; revert j Hj; revert i Hi; upto3; upto3; cbn; lra). Qed.
Example C89_permuted_example : permuted_copy 2 (fun _ j => match j with 0 => 1 | 1 => 2 | _ => 0 end)%nat (fun _ j => match j with 0 => 2 | 1 => 0 | _ => 1 end)%nat
  [mk [2; 3]%nat [1; 2; 3; 4; 5; 6]] [mk [2; 3]%nat [3; 1; 2; 6; 4; 5]].
Proof.
  split; [reflexivity|]. intros k Hk. cbn in Hk. assert (k = 0%nat) as -> by lia. split; [reflexivity|]. cbn [width nth].
  change (width [mk [2; 3]%nat [1; 2; 3; 4; 5; 6]] 0) with 3%nat.
  split; [upto3; (split; [lia|reflexivity])|]. split; [upto3; (split; [lia|reflexivity])|].
  intros i j Hi Hj. revert j Hj. revert i Hi. upto3; upto3; cbn; lra.
Qed.
