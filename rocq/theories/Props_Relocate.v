(** Property C99: Parafac2_ALS fits of slices in another order and with other coordinates of their rows. *)
From Verif Require Import RelocateFacts SafeExamples Exists ShortMode Decomposer CPExamples.
From Verif Require Import Prelude Lin.
Local Open Scope R_scope.

(** *** C99.  X_k = Q Y_{p k}: Q has orthonormal columns and may have more rows than columns, p reorders the slices.  Iterations
    for X and Y that start with A = Q A', equal B and C[k] = C'[p k] keep these equations; after the first one the projections
    are P_k = P'_{p k}, and the losses are equal.  Constraints and penalties are as in [penalised_fit]; if A has to be
    non-negative, Q has to be a reordering of the rows. *)
Theorem C99_iterations : forall env ps K nI nJ Q p Xs Ys s t s0 t0, drawn_settings ps K nI -> (0 < nJ)%nat ->
  svd_contract (env_svd (pe_cp env)) -> nnls_contract (env_nnls (pe_cp env)) -> length (ps_nn ps) = 3%nat -> p2_penalties ps ->
  relocated nI nJ Q p Xs Ys -> rows_permitted ps nI nJ Q -> slices_ok nI Xs -> slices_ok nJ Ys -> wide K Xs -> wide K Ys ->
  p2_ok K nI s -> p2_ok K nJ t -> p2_X s = Xs -> p2_X t = Ys -> moved_factors K nI nJ Q p (length Xs) s t ->
  p2_prepare env ps s = (s0, None) -> p2_prepare env ps t = (t0, None) ->
  let md := p2_model env ps in
  forall j, let u := state_after md s0 j in let v := state_after md t0 j in
    snd (md_update md u) = None /\ snd (md_update md v) = None /\ moved_factors K nI nJ Q p (length Xs) u v /\
    ((0 < j)%nat -> reordered_list (length Xs) p (p2_Ps u) (p2_Ps v) /\ p2_loss ps u = p2_loss ps v).
Proof. exact moved_run. Qed.
Print Assumptions C99_iterations.

(** Complete fits from corresponding draws take equally many iterations and end with corresponding results and the same loss. *)
Theorem C99_fits : forall env ps K nI nJ Q p Xs Ys, relocated nI nJ Q p Xs Ys -> rows_permitted ps nI nJ Q ->
  forall cf disk1 disk2 A C Ns A' C' Ms budget arg1 arg2 ds es,
  penalised_fit env ps K nI (A :: C :: Ns) Xs -> penalised_fit env ps K nJ (A' :: C' :: Ms) Ys ->
  rows_moved K nI nJ Q A A' -> rows_reordered K (length Xs) p C C' -> reordered_list (length Xs) p Ns Ms ->
  plain_run ps cf budget ds -> plain_run ps cf budget es ->
  exists ds' es', p2_fit env ps cf disk1 (A :: C :: Ns) (Slices Xs) (Some budget) arg1 ds = (ds', None) /\
    p2_fit env ps cf disk2 (A' :: C' :: Ms) (Slices Ys) (Some budget) arg2 es = (es', None) /\ ds_it ds' = ds_it es' /\
    moved_factors K nI nJ Q p (length Xs) (ds_num ds') (ds_num es') /\ reordered_list (length Xs) p (p2_Ps (ds_num ds')) (p2_Ps (ds_num es')) /\
    p2_loss ps (ds_num ds') = p2_loss ps (ds_num es').
Proof. exact moved_fits. Qed.
Print Assumptions C99_fits.

(** The order of the slices alone: A and B are the same arrays, the rows of C and the projections follow the slices, with any
    non-negativity flags. *)
Theorem C99_order_of_slices : forall env ps K nI p Xs Ys, length Ys = length Xs -> permutes (length Xs) p -> reordered_list (length Xs) p Xs Ys ->
  forall cf disk1 disk2 A C Ns C' Ms budget arg1 arg2 ds es,
  penalised_fit env ps K nI (A :: C :: Ns) Xs -> penalised_fit env ps K nI (A :: C' :: Ms) Ys ->
  rows_reordered K (length Xs) p C C' -> reordered_list (length Xs) p Ns Ms ->
  plain_run ps cf budget ds -> plain_run ps cf budget es ->
  exists ds' es', p2_fit env ps cf disk1 (A :: C :: Ns) (Slices Xs) (Some budget) arg1 ds = (ds', None) /\
    p2_fit env ps cf disk2 (A :: C' :: Ms) (Slices Ys) (Some budget) arg2 es = (es', None) /\ ds_it ds' = ds_it es' /\
    p2_A (ds_num ds') = p2_A (ds_num es') /\ p2_B (ds_num ds') = p2_B (ds_num es') /\
    rows_reordered K (length Xs) p (p2_C (ds_num ds')) (p2_C (ds_num es')) /\
    reordered_list (length Xs) p (p2_Ps (ds_num ds')) (p2_Ps (ds_num es')) /\ p2_loss ps (ds_num ds') = p2_loss ps (ds_num es').
Proof. exact slice_order. Qed.
Print Assumptions C99_order_of_slices.

(** Two slices with three rows that have two coordinates, given in the other order; C non-negative, A and C penalised *)
Definition mv_ps : p2_settings :=
  {| ps_rank := 1; ps_init := "random"; ps_updates := 2; ps_nn := [false; false; true]; ps_ridge := Some [1; 0; 1/2]; ps_orth := None |}.
Definition mv_Q : nd := mk [3; 2]%nat [3/5; 0; 4/5; 0; 0; 1].
Definition mv_p (k : nat) : nat := (1 - k)%nat.
Definition mv_Y : list nd := [mk [2; 2]%nat [5; 10; 1; 3]; mk [2; 1]%nat [15; -2]].
Definition mv_X : list nd := [mk [3; 1]%nat [9; 12; -2]; mk [3; 2]%nat [3; 6; 4; 8; 1; 3]].
Definition mv_cf : config := {| cf_freq := -1; cf_tol := 1/100; cf_rel_tol := 0; cf_print := 10 |}.
Definition mv_ds : dstate p2_state :=
  {| ds_num := ex_p2; ds_it := 0; ds_max := 1; ds_rel := PInf; ds_prev := PInf; ds_logs := []; ds_file := None |}.
Definition mv_A : nd := mk [3; 1]%nat [3; 4; 2].
Definition mv_A' : nd := mk [2; 1]%nat [5; 2].
Definition mv_C : nd := mk [2; 1]%nat [1; 2].
Definition mv_C' : nd := mk [2; 1]%nat [2; 1].
Definition mv_N : list nd := [mk [1; 1]%nat [7]; mk [2; 1]%nat [1; 3]].
Definition mv_M : list nd := [mk [2; 1]%nat [1; 3]; mk [1; 1]%nat [7]].
Definition mv_env (svd : nd -> res (nd * nd * nd)) (nnls : nd -> nd -> res nd) : p2_env :=
  {| pe_cp := {| env_svd := svd; env_svd_u := fun A => do (U, _, _) <- svd A ; Ok U; env_qr := fun A => do (U, _, _) <- svd A ; Ok U;
     env_nnls := nnls; env_junk := fun _ _ => 0 |}; pe_qr := fun A => Ok (A, A) |}.

Lemma mv_permutes : permutes 2 mv_p.
Proof. unfold mv_p. split; intros; lia. Qed.
Ltac below2 k H := destruct k as [|[|k]]; [| |exfalso; cbn in H; lia].
Lemma mv_start svd nnls nI A C Ns Xs : svd_contract svd -> nnls_contract nnls -> (0 < nI)%nat -> length Xs = 2%nat ->
  (forall k, (k < 2)%nat -> (0 < width Xs k)%nat /\ is_mat nI (width Xs k) (nth k Xs m0) /\ is_mat (width Xs k) 1 (nth k Ns m0)) ->
  length Ns = 2%nat -> is_mat nI 1 A -> is_mat 2 1 C -> penalised_fit (mv_env svd nnls) mv_ps 1 nI (A :: C :: Ns) Xs.
Proof.
  intros Hs Hn HI HL H HNl HA HC. constructor; auto.
  - constructor; try reflexivity.
    + now left.
    + split; lia.
    + split; [intros ->; discriminate|]. rewrite HL. intros k Hk. now apply H.
    + exists A, C, Ns. rewrite HL. split; [reflexivity|]. split; [exact HA|]. split; [exact HC|]. split; [exact HNl|]. intros k Hk. now apply H.
    + intros k _ B HB. exact (qr_of_svd Hs HB).
    + intros k Hk. rewrite HL in Hk. destruct (H k Hk). lia.
  - split; [cbn; lia|]. repeat constructor; lra.
Qed.
Lemma mv_relocated : relocated 3 2 mv_Q mv_p mv_X mv_Y.
Proof.
  constructor.
  - reflexivity.
  - split; [split; reflexivity|]. intros r s Hr Hs. below2 r Hr; below2 s Hs; cbn; lra.
  - exact mv_permutes.
  - intros k Hk. below2 k Hk; reflexivity.
  - intros k i j Hk Hi Hj. below2 k Hk.
    + change (width mv_X 0) with 1%nat in Hj. destruct j; [|lia]. destruct i as [|[|[|i]]]; [| | |lia]; cbn; lra.
    + change (width mv_X 1) with 2%nat in Hj. below2 j Hj; (destruct i as [|[|[|i]]]; [| | |lia]); cbn; lra.
Qed.
Example C99_example : exists env ds' es',
  p2_fit env mv_ps mv_cf no_disk (mv_A :: mv_C :: mv_N) (Slices mv_X) (Some 50%Z) P2None mv_ds = (ds', None) /\
  p2_fit env mv_ps mv_cf no_disk (mv_A' :: mv_C' :: mv_M) (Slices mv_Y) (Some 50%Z) P2None mv_ds = (es', None) /\
  ds_it ds' = ds_it es' /\ moved_factors 1 3 2 mv_Q mv_p 2 (ds_num ds') (ds_num es') /\ p2_loss mv_ps (ds_num ds') = p2_loss mv_ps (ds_num es').
Proof.
  destruct svd_contract_satisfiable as (svd & Hs). destruct nnls_contract_satisfiable as (nnls & Hn). exists (mv_env svd nnls).
  assert (HR : plain_run mv_ps mv_cf 50 mv_ds) by (constructor; [lia|intros lg []|discriminate|now left]).
  destruct (@C99_fits (mv_env svd nnls) mv_ps 1 3 2 mv_Q mv_p mv_X mv_Y mv_relocated) with (cf := mv_cf) (disk1 := no_disk) (disk2 := no_disk)
    (A := mv_A) (C := mv_C) (Ns := mv_N) (A' := mv_A') (C' := mv_C') (Ms := mv_M) (budget := 50%Z) (arg1 := P2None) (arg2 := P2None) (ds := mv_ds) (es := mv_ds)
    as (ds' & es' & E1 & E2 & I1 & F & _ & L); auto.
  - discriminate.
  - apply mv_start; auto; try (split; reflexivity); try lia. intros k Hk. below2 k Hk; (split; [cbn; lia|]; split; split; reflexivity).
  - apply mv_start; auto; try (split; reflexivity); try lia. intros k Hk. below2 k Hk; (split; [cbn; lia|]; split; split; reflexivity).
  - intros i r Hi Hr. destruct r; [|lia]. destruct i as [|[|[|i]]]; [| | |lia]; cbn; lra.
  - intros k r Hk Hr. destruct r; [|lia]. below2 k Hk; reflexivity.
  - intros k Hk. below2 k Hk; reflexivity.
  - exists ds', es'. auto.
Qed.

(** Two slices of the same data in both orders, with the draws in both orders *)
Example C99_order_example : exists env ds' es',
  p2_fit env mv_ps mv_cf no_disk (mv_A' :: mv_C :: mv_N) (Slices (rev mv_Y)) (Some 50%Z) P2None mv_ds = (ds', None) /\
  p2_fit env mv_ps mv_cf no_disk (mv_A' :: mv_C' :: mv_M) (Slices mv_Y) (Some 50%Z) P2None mv_ds = (es', None) /\
  p2_A (ds_num ds') = p2_A (ds_num es') /\ p2_loss mv_ps (ds_num ds') = p2_loss mv_ps (ds_num es').
Proof.
  destruct svd_contract_satisfiable as (svd & Hs). destruct nnls_contract_satisfiable as (nnls & Hn). exists (mv_env svd nnls).
  assert (HR : plain_run mv_ps mv_cf 50 mv_ds) by (constructor; [lia|intros lg []|discriminate|now left]).
  destruct (@C99_order_of_slices (mv_env svd nnls) mv_ps 1 2 mv_p (rev mv_Y) mv_Y) with (cf := mv_cf) (disk1 := no_disk) (disk2 := no_disk)
    (A := mv_A') (C := mv_C) (Ns := mv_N) (C' := mv_C') (Ms := mv_M) (budget := 50%Z) (arg1 := P2None) (arg2 := P2None) (ds := mv_ds) (es := mv_ds)
    as (ds' & es' & E1 & E2 & I1 & FA & FB & FC & FP & L); auto.
  - exact mv_permutes.
  - intros k Hk. below2 k Hk; reflexivity.
  - apply mv_start; auto; try (split; reflexivity); try lia. intros k Hk. below2 k Hk; (split; [cbn; lia|]; split; split; reflexivity).
  - apply mv_start; auto; try (split; reflexivity); try lia. intros k Hk. below2 k Hk; (split; [cbn; lia|]; split; split; reflexivity).
  - intros k r Hk Hr. destruct r; [|lia]. below2 k Hk; reflexivity.
  - intros k Hk. below2 k Hk; reflexivity.
  - exists ds', es'. auto.
Qed.

Example C99_iterations_example : exists env s0 t0, let md := p2_model env mv_ps in p2_X s0 = mv_X /\ p2_X t0 = mv_Y /\
  forall j, moved_factors 1 3 2 mv_Q mv_p 2 (state_after md s0 j) (state_after md t0 j) /\
    ((0 < j)%nat -> p2_loss mv_ps (state_after md s0 j) = p2_loss mv_ps (state_after md t0 j)).
Proof.
  destruct svd_contract_satisfiable as (svd & Hs). destruct nnls_contract_satisfiable as (nnls & Hn). exists (mv_env svd nnls).
  assert (H1 : penalised_fit (mv_env svd nnls) mv_ps 1 3 (mv_A :: mv_C :: mv_N) mv_X).
  { apply mv_start; auto; try (split; reflexivity); try lia. intros k Hk. below2 k Hk; (split; [cbn; lia|]; split; split; reflexivity). }
  assert (H2 : penalised_fit (mv_env svd nnls) mv_ps 1 2 (mv_A' :: mv_C' :: mv_M) mv_Y).
  { apply mv_start; auto; try (split; reflexivity); try lia. intros k Hk. below2 k Hk; (split; [cbn; lia|]; split; split; reflexivity). }
  destruct (start_state mv_ds H1) as (s & s0 & Ok1 & EX & A1 & B1 & C1 & P1). destruct (start_state mv_ds H2) as (t & t0 & Ok2 & EY & A2 & B2 & C2 & P2).
  exists s0, t0. cbn zeta.
  destruct H1 as [[_ HO HK [HnI HK0] HX _ _ WX] H3 HP _ _]. destruct H2 as [[_ _ _ [HnJ _] HY _ _ WY] _ _ _ _].
  destruct (@prepare_ready (mv_env svd nnls) mv_ps 1 3 HK HO HnI HK0 s Ok1) as (x & Ex & _ & As & _); [rewrite EX; cbn; lia|]. rewrite P1 in Ex. injection Ex as <-.
  destruct (@prepare_ready (mv_env svd nnls) mv_ps 1 2 HK HO HnJ HK0 t Ok2) as (x & Ex & _ & At & _); [rewrite EY; cbn; lia|]. rewrite P2 in Ex. injection Ex as <-.
  split; [now rewrite (proj1 As)|]. split; [now rewrite (proj1 At)|]. intros j.
  destruct (@C99_iterations (mv_env svd nnls) mv_ps 1 3 2 mv_Q mv_p mv_X mv_Y s t s0 t0) with (j := j) as (_ & _ & G1 & G2); auto.
  - repeat (split; [assumption|]). assumption.
  - exact mv_relocated.
  - discriminate.
  - split; [|split].
    + rewrite A1, A2. intros i r Hi Hr. destruct r; [|lia]. destruct i as [|[|[|i]]]; [| | |lia]; cbn; lra.
    + congruence.
    + rewrite C1, C2. intros k r Hk Hr. destruct r; [|lia]. below2 k Hk; reflexivity.
  - split; [exact G1|]. intros Hj. apply (G2 Hj).
Qed.
