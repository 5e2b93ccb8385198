(** Property C97: Parafac2_ALS objects that are used again, and starts given by the caller. *)
From Verif Require Import ReuseExamples.
Local Open Scope R_scope.

(** *** C97.  [drawn_start]: a random start from the given draws.  [same_arrays]: equal data, A, B, C and projections. *)
(** Nothing of an earlier use of the decomposer matters: two fits from the same draws, by decomposers in any states, with the same
    tolerance and budget end with the same arrays, iteration count, loss and change. *)
Theorem C97_refit : forall env ps K nI cf cf' disk disk' draws Xs max_its arg arg' ds ds' d1 d2, drawn_start env ps K nI draws Xs ->
  cf_tol cf = cf_tol cf' -> max_its <> None \/ ds_max ds = ds_max ds' ->
  p2_fit env ps cf disk draws (Slices Xs) max_its arg ds = (d1, None) ->
  p2_fit env ps cf' disk' draws (Slices Xs) max_its arg' ds' = (d2, None) ->
  same_arrays (ds_num d1) (ds_num d2) /\ ds_it d1 = ds_it d2 /\ ds_prev d1 = ds_prev d2 /\ ds_rel d1 = ds_rel d2.
Proof. exact refit. Qed.
Print Assumptions C97_refit.

(** A second unconstrained fit of the same decomposer does complete when it takes no checkpoints, and repeats the first. *)
Theorem C97_second_fit : forall env ps K nI cf cf' disk disk' draws Xs m arg arg' ds, plain_fit env ps K nI draws Xs -> wide K Xs ->
  plain_run ps cf m ds -> cf_tol cf = cf_tol cf' -> (cf_freq cf' < 0)%Z -> cf_print cf' <> 0%Z ->
  exists d1 d2, p2_fit env ps cf disk draws (Slices Xs) (Some m) arg ds = (d1, None) /\
    p2_fit env ps cf' disk' draws (Slices Xs) (Some m) arg' d1 = (d2, None) /\
    same_arrays (ds_num d1) (ds_num d2) /\ ds_it d1 = ds_it d2 /\ ds_prev d1 = ds_prev d2 /\ ds_rel d1 = ds_rel d2.
Proof. exact refit_completes. Qed.
Print Assumptions C97_second_fit.
Example C97_second_fit_example : exists d1 d2,
  p2_fit p2_ex_env ex_ps z_cf no_disk z_draws (Slices z_Xs) (Some 7%Z) P2None z_ds = (d1, None) /\
  p2_fit p2_ex_env ex_ps z_cf_off no_disk z_draws (Slices z_Xs) (Some 7%Z) P2None d1 = (d2, None) /\
  same_arrays (ds_num d1) (ds_num d2).
Proof.
  destruct (@C97_second_fit p2_ex_env ex_ps 1 1 z_cf z_cf_off no_disk no_disk z_draws z_Xs 7 P2None P2None z_ds z_plain z_wide)
    as (d1 & d2 & E1 & E2 & H & _); [apply z_run_any; lia|reflexivity|reflexivity|discriminate|].
  exists d1, d2. auto.
Qed.

(** A Parafac2Tensor given as start (init='precomputed') is not copied: the fit works on the caller's own arrays, so afterwards the
    caller's object is the result.  It still fits the data.  No array outside the object is touched. *)
Theorem C97_start_becomes_result : forall env ps K nI cf disk draws Xs max_its r ds d1,
  given_start ps K nI Xs (p2_heap (ds_num ds)) r ->
  p2_fit env ps cf disk draws (Slices Xs) max_its (P2Dec r) ds = (d1, None) ->
  p2_ref (ds_num d1) = r /\ object_fits K nI Xs (p2_heap (ds_num d1)) r /\
  forall a, (a < length (p2_heap (ds_num ds)))%nat -> ~ In a (arrays_of r) ->
    hread (p2_heap (ds_num d1)) a = hread (p2_heap (ds_num ds)) a.
Proof. exact start_overwritten. Qed.
Print Assumptions C97_start_becomes_result.

(** Two fits from the same object, one after the other, with budgets n and m: the second goes on where the first stopped.  Its result is
    that of one fit with budget n + m. *)
Theorem C97_same_start_again : forall env ps K nI cf cf' cf'' disk draws Xs n m r ds dsB d1 d2 d3,
  given_start ps K nI Xs (p2_heap (ds_num ds)) r -> (0 <= n)%Z -> (0 <= m)%Z ->
  p2_fit env ps cf disk draws (Slices Xs) (Some n) (P2Dec r) ds = (d1, None) -> ds_it d1 = n ->
  p2_heap (ds_num dsB) = p2_heap (ds_num d1) ->
  p2_fit env ps cf' disk draws (Slices Xs) (Some m) (P2Dec r) dsB = (d2, None) -> ds_it d2 = m ->
  p2_fit env ps cf'' disk draws (Slices Xs) (Some (n + m)%Z) (P2Dec r) ds = (d3, None) -> ds_it d3 = (n + m)%Z ->
  same_arrays (ds_num d2) (ds_num d3).
Proof. exact same_start_again. Qed.
Print Assumptions C97_same_start_again.

(** Unconstrained fits from a given start with tolerance zero do all of this. *)
Theorem C97_same_start_completes : forall env ps K nI cf cf' cf'' disk draws Xs n m r ds,
  plain_given env ps K nI Xs (p2_heap (ds_num ds)) r ->
  plain_run ps cf n ds -> plain_run ps cf'' (n + m)%Z ds -> (0 < m)%Z -> (cf_freq cf' < 0)%Z -> cf_print cf' <> 0%Z ->
  cf_tol cf <= 0 -> cf_tol cf' <= 0 -> cf_tol cf'' <= 0 ->
  exists d1 d2 d3, p2_fit env ps cf disk draws (Slices Xs) (Some n) (P2Dec r) ds = (d1, None) /\
    p2_fit env ps cf' disk draws (Slices Xs) (Some m) (P2Dec r) d1 = (d2, None) /\
    p2_fit env ps cf'' disk draws (Slices Xs) (Some (n + m)%Z) (P2Dec r) ds = (d3, None) /\
    same_arrays (ds_num d2) (ds_num d3) /\ ds_it d1 = n /\ ds_it d2 = m /\ ds_it d3 = (n + m)%Z.
Proof. exact same_start_completes. Qed.
Print Assumptions C97_same_start_completes.

Example C97_same_start_example : exists d1 d2 d3,
  p2_fit p2_ex_env given_ps z_cf_off no_disk [] (Slices z_Xs) (Some 2%Z) (P2Dec ex_ref) given_ds = (d1, None) /\
  p2_fit p2_ex_env given_ps z_cf_off no_disk [] (Slices z_Xs) (Some 3%Z) (P2Dec ex_ref) d1 = (d2, None) /\
  p2_fit p2_ex_env given_ps z_cf_off no_disk [] (Slices z_Xs) (Some 5%Z) (P2Dec ex_ref) given_ds = (d3, None) /\
  same_arrays (ds_num d2) (ds_num d3).
Proof.
  destruct (@C97_same_start_completes p2_ex_env given_ps 1 1 z_cf_off z_cf_off z_cf_off no_disk [] z_Xs 2 3 ex_ref given_ds given_example)
    as (d1 & d2 & d3 & E1 & E2 & E3 & H & _);
    [apply given_run; lia|apply given_run; lia|lia|reflexivity|discriminate|apply Rle_refl|apply Rle_refl|apply Rle_refl|].
  exists d1, d2, d3. auto.
Qed.

(** "A fit leaves the decomposition it was given as start as it was" is false. *)
Theorem C97_start_kept_refuted : ~ forall env ps K nI cf disk draws Xs max_its r ds d1,
  given_start ps K nI Xs (p2_heap (ds_num ds)) r ->
  p2_fit env ps cf disk draws (Slices Xs) max_its (P2Dec r) ds = (d1, None) ->
  forall a, In a (arrays_of r) -> hread (p2_heap (ds_num d1)) a = hread (p2_heap (ds_num ds)) a.
Proof.
  intros H. destruct (@zero_projection p2_ex_env given_ps 1 1 z_cf_off no_disk [] z_Xs ex_ref given_ds 1%nat given_example)
    as (d1 & E & Hz); [apply given_run; lia|apply Rle_refl|cbn; lia| |].
  - intros i j Hi Hj. replace i with 0%nat by lia. replace j with 0%nat by (change (width z_Xs 1) with 1%nat in Hj; lia). ev. reflexivity.
  - pose proof (H _ _ _ _ _ _ _ _ _ _ _ _ (pg_start given_example) E 4%nat ltac:(cbn; tauto)) as Hs.
    change (nth 1 (pr_P ex_ref) 0%nat) with 4%nat in Hz. rewrite Hz in Hs. apply (f_equal (fun M => mget M 0 0)) in Hs.
    rewrite mget_zeros in Hs by (cbn; lia). ev_in Hs. lra.
Qed.
Print Assumptions C97_start_kept_refuted.
