(** Property C101: Parafac2_ALS fits of data in other units, from starts with other signs and orders of the components. *)
From Verif Require Import P2UnitFacts SafeExamples Exists ShortMode Decomposer CPExamples Props_Relocate.
From Verif Require Import Prelude Lin.
Local Open Scope R_scope.

(** *** C101.  Y_k = c X_k with c <> 0, no non-negativity and no ridge.  Iterations for X and Y from factors that differ by the
    orders pi of the components and rho of the rows of B and by scales a, b and d have the same orders and the scales b and d
    of B and C at all times; A differs by sg c / (b d) and the projections by rho and the sign sg = +-1 from the first
    iteration on, whatever a was, if only sg c a b d > 0.  The losses differ by c^2. *)
Theorem C101_iterations : forall env ps K nI c sg a b d rho pi Xs Ys s t s0 t0, drawn_settings ps K nI -> svd_contract (env_svd (pe_cp env)) ->
  nnls_contract (env_nnls (pe_cp env)) -> free_settings ps -> (0 < ps_updates ps)%nat ->
  sg = 1 \/ sg = -1 -> c <> 0 -> a <> 0 -> b <> 0 -> d <> 0 -> 0 < sg * (c * (a * b * d)) -> permutes K rho -> permutes K pi ->
  multiplied nI c Xs Ys -> slices_ok nI Xs -> slices_ok nI Ys -> wide K Xs -> p2_ok K nI s -> p2_ok K nI t -> p2_X s = Xs -> p2_X t = Ys ->
  other_units K nI (length Xs) a b d rho pi s t -> p2_prepare env ps s = (s0, None) -> p2_prepare env ps t = (t0, None) ->
  let md := p2_model env ps in
  forall j, let u := state_after md s0 (S j) in let v := state_after md t0 (S j) in
    snd (md_update md (state_after md s0 j)) = None /\ snd (md_update md (state_after md t0 j)) = None /\
    other_units K nI (length Xs) (sg * c / (b * d)) b d rho pi u v /\ other_columns K Xs sg rho (p2_Ps u) (p2_Ps v) /\
    exists l, p2_loss ps u = Ok l /\ p2_loss ps v = Ok (c ^ 2 * l).
Proof. exact units_run. Qed.
Print Assumptions C101_iterations.

(** Complete fits.  Draws that differ by the order of the components and the scale of A give results that differ in the same
    way if the fits take equally many iterations, and they do unless one of them stops after its first iteration: the first
    stopping test is the only one that sees the drawn projections and the drawn scale of A. *)
Theorem C101_fits : forall env ps K nI c sg a pi Xs Ys, free_settings ps -> (0 < ps_updates ps)%nat -> sg = 1 \/ sg = -1 -> c <> 0 ->
  0 < sg * (c * a) -> permutes K pi -> multiplied nI c Xs Ys ->
  forall cf disk1 disk2 A C Ns A' C' Ms budget arg1 arg2 ds es,
  penalised_fit env ps K nI (A :: C :: Ns) Xs -> penalised_fit env ps K nI (A' :: C' :: Ms) Ys ->
  (forall i r, (i < nI)%nat -> (r < K)%nat -> mget A' i (pi r) = a * mget A i r) ->
  (forall k r, (k < length Xs)%nat -> (r < K)%nat -> mget C' k (pi r) = mget C k r) ->
  plain_run ps cf budget ds -> plain_run ps cf budget es ->
  exists ds' es', p2_fit env ps cf disk1 (A :: C :: Ns) (Slices Xs) (Some budget) arg1 ds = (ds', None) /\
    p2_fit env ps cf disk2 (A' :: C' :: Ms) (Slices Ys) (Some budget) arg2 es = (es', None) /\
    (ds_it ds' = ds_it es' \/ ds_it ds' = 1%Z \/ ds_it es' = 1%Z) /\
    (ds_it ds' = ds_it es' -> other_units K nI (length Xs) (sg * c) 1 1 pi pi (ds_num ds') (ds_num es') /\
      other_columns K Xs sg pi (p2_Ps (ds_num ds')) (p2_Ps (ds_num es')) /\
      exists l, p2_loss ps (ds_num ds') = Ok l /\ p2_loss ps (ds_num es') = Ok (c ^ 2 * l)).
Proof.
  intros env ps K nI c sg a pi Xs Ys HU Hup Hsg Hc Hz Hpi HM cf disk1 disk2 A C Ns A' C' Ms budget arg1 arg2 ds es HF HG DA DC HR HT.
  destruct (@units_fits env ps K nI c sg a pi Xs Ys HU Hup Hsg Hc Hz Hpi HM cf disk1 disk2 A C Ns A' C' Ms budget arg1 arg2 ds es HF HG DA DC HR HT)
    as (ds' & es' & H1 & H2 & H3 & H4 & _). exists ds', es'. auto.
Qed.
Print Assumptions C101_fits.

(** Units alone: if the drawn A is multiplied by c too, the fits take equally many iterations, A is multiplied by c, and B, C
    and the projections are the same. *)
Theorem C101_scaled_start : forall env ps K nI c Xs Ys, free_settings ps -> (0 < ps_updates ps)%nat -> c <> 0 -> multiplied nI c Xs Ys ->
  forall cf disk1 disk2 A C Ns A' budget arg1 arg2 ds es,
  penalised_fit env ps K nI (A :: C :: Ns) Xs -> penalised_fit env ps K nI (A' :: C :: Ns) Ys ->
  (forall i r, (i < nI)%nat -> (r < K)%nat -> mget A' i r = c * mget A i r) ->
  plain_run ps cf budget ds -> plain_run ps cf budget es ->
  exists ds' es', p2_fit env ps cf disk1 (A :: C :: Ns) (Slices Xs) (Some budget) arg1 ds = (ds', None) /\
    p2_fit env ps cf disk2 (A' :: C :: Ns) (Slices Ys) (Some budget) arg2 es = (es', None) /\ ds_it ds' = ds_it es' /\
    other_units K nI (length Xs) c 1 1 (fun q => q) (fun r => r) (ds_num ds') (ds_num es') /\
    other_columns K Xs 1 (fun q => q) (p2_Ps (ds_num ds')) (p2_Ps (ds_num es')) /\
    exists l, p2_loss ps (ds_num ds') = Ok l /\ p2_loss ps (ds_num es') = Ok (c ^ 2 * l).
Proof. exact scaled_start. Qed.
Print Assumptions C101_scaled_start.

(** Two slices, two components, the data in metres and in centimetres with the opposite sign *)
Definition un_ps : p2_settings :=
  {| ps_rank := 2; ps_init := "random"; ps_updates := 2; ps_nn := [false; false; false]; ps_ridge := None; ps_orth := None |}.
Definition un_X : list nd := [mk [2; 2]%nat [5; 10; 1; 3]; mk [2; 3]%nat [1; 0; 2; 3; -1; 1]].
Definition un_Y : list nd := [mk [2; 2]%nat [-500; -1000; -100; -300]; mk [2; 3]%nat [-100; 0; -200; -300; 100; -100]].
Definition un_A : nd := mk [2; 2]%nat [5; 2; 1; 3].
Definition un_A' : nd := mk [2; 2]%nat [2; 5; 3; 1].
Definition un_A'' : nd := mk [2; 2]%nat [-500; -200; -100; -300].
Definition un_C : nd := mk [2; 2]%nat [1; 2; 3; 4].
Definition un_C' : nd := mk [2; 2]%nat [2; 1; 4; 3].
Definition un_N : list nd := [mk [2; 2]%nat [1; 3; 2; 5]; mk [3; 2]%nat [7; 1; 0; 2; 3; 1]].
Definition un_pi (r : nat) : nat := (1 - r)%nat.

Lemma un_start svd nnls A C Xs : svd_contract svd -> nnls_contract nnls -> Xs = un_X \/ Xs = un_Y -> is_mat 2 2 A -> is_mat 2 2 C ->
  penalised_fit (mv_env svd nnls) un_ps 2 2 (A :: C :: un_N) Xs.
Proof.
  intros Hs Hn HXs HA HC. assert (HL : length Xs = 2%nat) by (destruct HXs as [->| ->]; reflexivity).
  assert (H : forall k, (k < 2)%nat -> (2 <= width Xs k)%nat /\ is_mat 2 (width Xs k) (nth k Xs m0) /\ is_mat (width Xs k) 2 (nth k un_N m0)).
  { intros k Hk. destruct HXs as [->| ->]; below2 k Hk; (split; [cbn; lia|]; split; split; reflexivity). }
  constructor; auto.
  - constructor; try reflexivity.
    + now left.
    + split; lia.
    + split; [intros ->; discriminate|]. rewrite HL. intros k Hk. now apply H.
    + exists A, C, un_N. rewrite HL. split; [reflexivity|]. split; [exact HA|]. split; [exact HC|]. split; [reflexivity|]. intros k Hk. now apply H.
    + intros k _ B HB. exact (qr_of_svd Hs HB).
    + intros k Hk. rewrite HL in Hk. now apply H.
  - exact I.
Qed.
Lemma un_free : free_settings un_ps.
Proof. split; reflexivity. Qed.
Lemma un_permutes : permutes 2 un_pi.
Proof. unfold un_pi. split; intros; lia. Qed.
Lemma un_multiplied : multiplied 2 (-100) un_X un_Y.
Proof.
  split; [reflexivity|]. intros k Hk. below2 k Hk; (split; [reflexivity|]); intros i j Hi Hj; below2 i Hi.
  - change (width un_X 0) with 2%nat in Hj. below2 j Hj; cbn; lra.
  - change (width un_X 0) with 2%nat in Hj. below2 j Hj; cbn; lra.
  - change (width un_X 1) with 3%nat in Hj. destruct j as [|[|[|j]]]; [| | |lia]; cbn; lra.
  - change (width un_X 1) with 3%nat in Hj. destruct j as [|[|[|j]]]; [| | |lia]; cbn; lra.
Qed.

(** The same draws with the components in the other order, unscaled *)
Example C101_example : exists env ds' es',
  p2_fit env un_ps mv_cf no_disk (un_A :: un_C :: un_N) (Slices un_X) (Some 50%Z) P2None mv_ds = (ds', None) /\
  p2_fit env un_ps mv_cf no_disk (un_A' :: un_C' :: un_N) (Slices un_Y) (Some 50%Z) P2None mv_ds = (es', None) /\
  (ds_it ds' = ds_it es' \/ ds_it ds' = 1%Z \/ ds_it es' = 1%Z) /\
  (ds_it ds' = ds_it es' -> other_units 2 2 2 100 1 1 un_pi un_pi (ds_num ds') (ds_num es') /\
    exists l, p2_loss un_ps (ds_num ds') = Ok l /\ p2_loss un_ps (ds_num es') = Ok (10000 * l)).
Proof.
  destruct svd_contract_satisfiable as (svd & Hs). destruct nnls_contract_satisfiable as (nnls & Hn). exists (mv_env svd nnls).
  assert (HR : plain_run un_ps mv_cf 50 mv_ds) by (constructor; [lia|intros lg []|discriminate|now left]).
  destruct (@C101_fits (mv_env svd nnls) un_ps 2 2 (-100) (-1) 1 un_pi un_X un_Y) with (cf := mv_cf) (disk1 := no_disk) (disk2 := no_disk)
    (A := un_A) (C := un_C) (Ns := un_N) (A' := un_A') (C' := un_C') (Ms := un_N) (budget := 50%Z) (arg1 := P2None) (arg2 := P2None) (ds := mv_ds) (es := mv_ds)
    as (ds' & es' & E1 & E2 & I1 & F).
  - exact un_free.
  - cbn; lia.
  - now right.
  - lra.
  - lra.
  - exact un_permutes.
  - exact un_multiplied.
  - apply un_start; [exact Hs|exact Hn|now left|split; reflexivity|split; reflexivity].
  - apply un_start; [exact Hs|exact Hn|now right|split; reflexivity|split; reflexivity].
  - intros i r Hi Hr. below2 i Hi; below2 r Hr; cbn; lra.
  - intros i r Hi Hr. below2 i Hi; below2 r Hr; reflexivity.
  - exact HR.
  - exact HR.
  - exists ds', es'. split; [exact E1|]. split; [exact E2|]. split; [exact I1|]. intros E. destruct (F E) as (F1 & _ & l & L1 & L2).
    replace (-1 * -100) with 100 in F1 by lra. split; [exact F1|]. exists l. split; [exact L1|]. rewrite L2. f_equal. lra.
Qed.

(** The same draws with A multiplied by -100 *)
Example C101_scaled_example : exists env ds' es',
  p2_fit env un_ps mv_cf no_disk (un_A :: un_C :: un_N) (Slices un_X) (Some 50%Z) P2None mv_ds = (ds', None) /\
  p2_fit env un_ps mv_cf no_disk (un_A'' :: un_C :: un_N) (Slices un_Y) (Some 50%Z) P2None mv_ds = (es', None) /\
  ds_it ds' = ds_it es' /\ other_units 2 2 2 (-100) 1 1 (fun q => q) (fun r => r) (ds_num ds') (ds_num es').
Proof.
  destruct svd_contract_satisfiable as (svd & Hs). destruct nnls_contract_satisfiable as (nnls & Hn). exists (mv_env svd nnls).
  assert (HR : plain_run un_ps mv_cf 50 mv_ds) by (constructor; [lia|intros lg []|discriminate|now left]).
  destruct (@C101_scaled_start (mv_env svd nnls) un_ps 2 2 (-100) un_X un_Y) with (cf := mv_cf) (disk1 := no_disk) (disk2 := no_disk)
    (A := un_A) (C := un_C) (Ns := un_N) (A' := un_A'') (budget := 50%Z) (arg1 := P2None) (arg2 := P2None) (ds := mv_ds) (es := mv_ds)
    as (ds' & es' & E1 & E2 & I1 & F & _).
  - exact un_free.
  - cbn; lia.
  - lra.
  - exact un_multiplied.
  - apply un_start; [exact Hs|exact Hn|now left|split; reflexivity|split; reflexivity].
  - apply un_start; [exact Hs|exact Hn|now right|split; reflexivity|split; reflexivity].
  - intros i r Hi Hr. below2 i Hi; below2 r Hr; cbn; lra.
  - exact HR.
  - exact HR.
  - exists ds', es'. auto.
Qed.

(** Iterations from other factors: A doubled, B negated with its rows exchanged, C halved, and the columns of all exchanged *)
Definition un_state (Xs : list nd) (A B C : nd) : p2_state :=
  {| p2_heap := [A; B; C] ++ un_N; p2_X := Xs; p2_norm := 0;
     p2_ref := {| pr_A := 0; pr_B := 1; pr_C := 2; pr_P := [3; 4]; pr_rank := 2; pr_warning := false; pr_same := false; pr_shapes := [(2, 2); (2, 3)]; pr_num := 2 |};
     p2_cpf := []; p2_inner := p2_inner ex_p2 |}%nat.
Definition un_s : p2_state := un_state un_X un_A (mk [2; 2]%nat [1; 2; 0; 1]) un_C.
Definition un_t : p2_state := un_state un_Y (mk [2; 2]%nat [4; 10; 6; 2]) (mk [2; 2]%nat [-1; 0; -2; -1]) (mk [2; 2]%nat [1; 1/2; 2; 3/2]).
Lemma un_state_ok Xs A B C : Xs = un_X \/ Xs = un_Y -> is_mat 2 2 A -> is_mat 2 2 B -> is_mat 2 2 C -> p2_ok 2 2 (un_state Xs A B C).
Proof.
  intros HXs HA HB HC. assert (HL : length Xs = 2%nat) by (destruct HXs as [->| ->]; reflexivity).
  constructor; cbn [un_state p2_heap p2_ref p2_X pr_A pr_B pr_C pr_P pr_shapes].
  - cbn. repeat constructor; lia.
  - repeat constructor; cbn; intuition lia.
  - exact HA.
  - exact HB.
  - rewrite HL. exact HC.
  - now rewrite HL.
  - rewrite HL. intros k Hk. destruct HXs as [->| ->]; below2 k Hk; split; reflexivity.
  - rewrite HL. intros k Hk. destruct HXs as [->| ->]; below2 k Hk; split; reflexivity.
  - now rewrite HL.
Qed.
Lemma un_units : other_units 2 2 2 2 (-1) (/ 2) un_pi un_pi un_s un_t.
Proof. constructor; intros i r Hi Hr; below2 i Hi; below2 r Hr; cbn; lra. Qed.
Example C101_iterations_example : exists env s0 t0, let md := p2_model env un_ps in p2_prepare env un_ps un_s = (s0, None) /\ p2_prepare env un_ps un_t = (t0, None) /\
  forall j, other_units 2 2 2 200 (-1) (/ 2) un_pi un_pi (state_after md s0 (S j)) (state_after md t0 (S j)) /\
    other_columns 2 un_X 1 un_pi (p2_Ps (state_after md s0 (S j))) (p2_Ps (state_after md t0 (S j))) /\
    exists l, p2_loss un_ps (state_after md s0 (S j)) = Ok l /\ p2_loss un_ps (state_after md t0 (S j)) = Ok (10000 * l).
Proof.
  destruct svd_contract_satisfiable as (svd & Hs). destruct nnls_contract_satisfiable as (nnls & Hn). exists (mv_env svd nnls).
  assert (H1 : p2_ok 2 2 un_s) by (apply un_state_ok; [now left|split; reflexivity..]).
  assert (H2 : p2_ok 2 2 un_t) by (apply un_state_ok; [now right|split; reflexivity..]).
  assert (HD : drawn_settings un_ps 2 2) by (split; [reflexivity|]; split; [now left|]; split; lia). destruct HD as (D1 & D2 & D3 & D4).
  destruct (@prepare_ready (mv_env svd nnls) un_ps 2 2 D1 D2 D3 D4 un_s H1) as (s0 & E1 & _); [cbn; lia|].
  destruct (@prepare_ready (mv_env svd nnls) un_ps 2 2 D1 D2 D3 D4 un_t H2) as (t0 & E2 & _); [cbn; lia|].
  exists s0, t0. cbn zeta. split; [exact E1|]. split; [exact E2|]. intros j.
  assert (W : forall Xs, Xs = un_X \/ Xs = un_Y -> slices_ok 2 Xs /\ wide 2 Xs).
  { intros Xs H. assert (HL : length Xs = 2%nat) by (destruct H as [->| ->]; reflexivity). split; [split|].
    - intros ->. discriminate.
    - rewrite HL. intros k Hk. destruct H as [->| ->]; below2 k Hk; split; reflexivity.
    - intros k Hk. rewrite HL in Hk. destruct H as [->| ->]; below2 k Hk; cbn; lia. }
  destruct (@C101_iterations (mv_env svd nnls) un_ps 2 2 (-100) 1 2 (-1) (/ 2) un_pi un_pi un_X un_Y un_s un_t s0 t0) with (j := j) as (_ & _ & G1 & G2 & l & L1 & L2).
  - repeat (split; [assumption|]). assumption.
  - exact Hs.
  - exact Hn.
  - exact un_free.
  - cbn; lia.
  - now left.
  - lra.
  - lra.
  - lra.
  - lra.
  - lra.
  - exact un_permutes.
  - exact un_permutes.
  - exact un_multiplied.
  - apply W; now left.
  - apply W; now right.
  - apply W; now left.
  - exact H1.
  - exact H2.
  - reflexivity.
  - reflexivity.
  - exact un_units.
  - exact E1.
  - exact E2.
  - replace (1 * -100 / (-1 * / 2)) with 200 in G1 by field. split; [exact G1|]. split; [exact G2|]. exists l. split; [exact L1|]. rewrite L2. f_equal. lra.
Qed.
