(** Property C117: the iterations of Parafac2_ALS with penalties on all modes stay within bounds and accumulate. *)
From Verif Require Import P2AccumFacts SafeExamples Exists Decomposer CPExamples Props_Relocate Props_P2Fix.
From Verif Require Import Prelude Lin.
Local Open Scope R_scope.

(** *** C117.  No constraints, positive penalties la, lb, lc for A, B and C; any start; F(j) and P(j) are factors and projections after
    j iterations.  From the first iteration on, factor m has 256 l ||U||^4 <= 27 (sum_k ||X_k||^2)^2 for its penalty l, and no projection
    lengthens a vector. *)
Theorem C117_iterations : forall env ps K nI Xs s s0 la lb lc, drawn_settings ps K nI -> svd_contract (env_svd (pe_cp env)) ->
  nnls_contract (env_nnls (pe_cp env)) -> ps_nn ps = [false; false; false] -> ps_ridge ps = Some [la; lb; lc] -> 0 < la -> 0 < lb -> 0 < lc ->
  (0 < ps_updates ps)%nat -> slices_ok nI Xs -> (forall k, (k < length Xs)%nat -> (0 < width Xs k)%nat) ->
  p2_ok K nI s -> p2_X s = Xs -> p2_prepare env ps s = (s0, None) ->
  let F j := p2_factors (state_after (p2_model env ps) s0 j) in let P j := p2_Ps (state_after (p2_model env ps) s0 j) in
  forall j,
    (forall m, (m < 3)%nat ->
       256 * nth m [la; lb; lc] 0 * frob2 (nth m [nI; K; length Xs] 0%nat) K (mget (nth m (F (S j)) m0)) ^ 2 <= 27 * slices_energy Xs ^ 2) /\
    (forall k x, (k < length Xs)%nat ->
       sum K (fun q => sum (width Xs k) (fun i => x i * mget (nth k (P (S j)) m0) i q) ^ 2) <= sum (width Xs k) (fun i => x i ^ 2)).
Proof.
  intros env ps K nI Xs s s0 la lb lc HD HS HN Hnn Hr Ha Hb Hc Hup HX HW Hs EX EP F P j. split; intros.
  - now apply (@factor_held env ps K nI Xs s s0 la lb lc HD HS HN Hnn Hr Ha Hb Hc Hup HX HW Hs EX EP).
  - now apply (@projection_held env ps K nI Xs s s0 la lb lc HD HS HN Hnn Hr Ha Hb Hc Hup HX HW Hs EX EP).
Qed.
Print Assumptions C117_iterations.

(** Factors and projections of some iterations, arbitrarily late ones, converge together; the projections of the limit do not
    lengthen vectors either. *)
Theorem C117_accumulate : forall env ps K nI Xs s s0 la lb lc, drawn_settings ps K nI -> svd_contract (env_svd (pe_cp env)) ->
  nnls_contract (env_nnls (pe_cp env)) -> ps_nn ps = [false; false; false] -> ps_ridge ps = Some [la; lb; lc] -> 0 < la -> 0 < lb -> 0 < lc ->
  (0 < ps_updates ps)%nat -> slices_ok nI Xs -> (forall k, (k < length Xs)%nat -> (0 < width Xs k)%nat) ->
  p2_ok K nI s -> p2_X s = Xs -> p2_prepare env ps s = (s0, None) ->
  let F j := p2_factors (state_after (p2_model env ps) s0 j) in let P j := p2_Ps (state_after (p2_model env ps) s0 j) in
  exists Ls Qs pick, factors_ok K (np_zeros [nI; K; length Xs]) Ls /\ length Qs = length Xs /\
    (forall k, (k < length Xs)%nat -> is_mat (width Xs k) K (nth k Qs m0)) /\ (forall k, (k < pick k)%nat) /\
    tends K (fun k => F (pick k)) Ls /\ tends_proj K Xs (fun k => P (pick k)) Qs /\
    forall k x, (k < length Xs)%nat ->
      sum K (fun q => sum (width Xs k) (fun i => x i * mget (nth k Qs m0) i q) ^ 2) <= sum (width Xs k) (fun i => x i ^ 2).
Proof. exact p2_accumulates. Qed.
Print Assumptions C117_accumulate.

(** *** The slice diag(3, 1) with one component and penalties 1, 2 and 3: the hypotheses hold, and from the first iteration on ||C||^2 <= 2. *)
Definition pa_ps : p2_settings :=
  {| ps_rank := 1; ps_init := "random"; ps_nn := [false; false; false]; ps_ridge := Some [1; 2; 3]; ps_orth := None; ps_updates := 5 |}.
Example C117_example : exists env s s0,
  drawn_settings pa_ps 1 2 /\ svd_contract (env_svd (pe_cp env)) /\ nnls_contract (env_nnls (pe_cp env)) /\ slices_ok 2 fz_X /\
  p2_ok 1 2 s /\ p2_X s = fz_X /\ p2_prepare env pa_ps s = (s0, None) /\
  (forall j, frob2 1 1 (mget (p2_C (state_after (p2_model env pa_ps) s0 (S j)))) <= 2) /\
  exists Ls pick, (forall k, (k < pick k)%nat) /\ tends 1 (fun k => p2_factors (state_after (p2_model env pa_ps) s0 (pick k))) Ls /\
    length Ls = 3%nat.
Proof.
  destruct svd_contract_satisfiable as (svd & Hs). destruct nnls_contract_satisfiable as (nnls & Hn). exists (mv_env svd nnls).
  assert (HDS : drawn_start (mv_env svd nnls) pa_ps 1 2 (fz_A :: fz_C :: fz_N) fz_X).
  { assert (H : forall k, (k < length fz_X)%nat -> (1 <= width fz_X k)%nat /\ is_mat 2 (width fz_X k) (nth k fz_X m0) /\ is_mat (width fz_X k) 1 (nth k fz_N m0)).
    { intros k Hk. destruct k; [|cbn in Hk; lia]. split; [cbn; lia|]. split; split; reflexivity. }
    constructor; try reflexivity.
    - now left.
    - split; lia.
    - split; [discriminate|]. intros k Hk. now apply H.
    - exists fz_A, fz_C, fz_N. split; [reflexivity|]. split; [split; reflexivity|]. split; [split; reflexivity|]. split; [reflexivity|]. intros k Hk. now apply H.
    - intros k _ B HB. exact (qr_of_svd Hs HB).
    - intros k Hk. now apply H. }
  assert (HD : drawn_settings pa_ps 1 2) by (split; [reflexivity|]; split; [now left|split; lia]).
  destruct (@drawn_begins (mv_env svd nnls) pa_ps 1 2 no_disk (fz_A :: fz_C :: fz_N) fz_X P2None mv_ds HDS) as (s & l & Hok & _ & EX & _).
  destruct HDS as [_ HO _ _ HX _ _ HW].
  destruct (@prepare_ready (mv_env svd nnls) pa_ps 1 2 eq_refl HO ltac:(lia) ltac:(lia) s Hok ltac:(rewrite EX; cbn; lia)) as (s0 & EP & _).
  exists s, s0. split; [exact HD|]. split; [exact Hs|]. split; [exact Hn|]. split; [exact HX|]. split; [exact Hok|]. split; [exact EX|]. split; [exact EP|]. split.
  - intros j.
    destruct (C117_iterations (mv_env svd nnls) pa_ps 1 2 fz_X s s0 1 2 3 HD Hs Hn eq_refl eq_refl ltac:(lra) ltac:(lra) ltac:(lra) ltac:(cbn; lia) HX HW Hok EX EP j) as [G _].
    specialize (G 2%nat ltac:(lia)). cbn [nth p2_factors] in G. change (length fz_X) with 1%nat in G.
    assert (EE : slices_energy fz_X = 10) by (unfold slices_energy, energy; ev; lra). rewrite EE in G.
    set (f := frob2 1 1 _) in *. clearbody f. nra.
  - destruct (C117_accumulate (mv_env svd nnls) pa_ps 1 2 fz_X s s0 1 2 3 HD Hs Hn eq_refl eq_refl ltac:(lra) ltac:(lra) ltac:(lra) ltac:(cbn; lia) HX HW Hok EX EP)
      as (Ls & Qs & pick & [_ HR] & _ & _ & Hp & HT & _).
    exists Ls, pick. split; [exact Hp|]. split; [exact HT|]. apply (f_equal (@length nat)) in HR. unfold rows in HR. rewrite map_length in HR. exact HR.
Qed.
