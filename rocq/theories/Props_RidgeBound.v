(** Property C114: ridge penalties bound the factors of CP_ALS. *)
From Verif Require Import RidgeBoundFacts CPExamples Exists FitFacts Props_PenFix.
From Verif Require Import DegenCore.
From Verif Require Import Prelude Lin.
Local Open Scope R_scope.

(** *** C114.  [option_set cs s nn lam]: mode m is non-negative if nn(m), has penalty lam(m) >= 0, and is not asked to be orthonormal.
    After every pass the factor U of a free mode with a positive penalty has 256 lam ||U||^4 <= 27 ||X||^4, whatever the start and the
    other factors are. *)
Theorem C114_factors : forall env cs K nn lam s, cs_rank cs = K -> svd_contract (env_svd env) -> nnls_contract (env_nnls env) ->
  cp_coherent K s -> option_set cs s nn lam ->
  let X := cp_X s in let Us k := kt_fms (cp_dec (state_after (cp_model env cs) s k)) in
  forall k m, (m < length (shape X))%nat -> nn m = false -> 0 < lam m ->
    256 * lam m * frob2 (nth m (shape X) 0%nat) K (mget (nth m (Us (S k)) m0)) ^ 2 <= 27 * energy X ^ 2.
Proof. intros env cs K nn lam s HK HS HN HC HO X Us. exact (@pass_bounded env cs K nn lam HK HS HN s HC HO). Qed.
Print Assumptions C114_factors.

(** If the last mode is free and penalised, the squared norms of the model and of what it leaves unexplained add up to at most ||X||^2. *)
Theorem C114_model : forall env cs K nn lam s, cs_rank cs = K -> svd_contract (env_svd env) -> nnls_contract (env_nnls env) ->
  cp_coherent K s -> option_set cs s nn lam -> let X := cp_X s in let m := (length (shape X) - 1)%nat in nn m = false -> 0 < lam m ->
  forall k, let Us := kt_fms (cp_dec (state_after (cp_model env cs) s (S k))) in
    sumf (indices (shape X)) (fun idx => cp_entry Us unit_weights K idx ^ 2) + sse X Us unit_weights K <= energy X.
Proof. intros env cs K nn lam s HK HS HN HC HO. exact (@pass_model env cs K nn lam HK HS HN s HC HO). Qed.
Print Assumptions C114_model.

(** If all modes are free and penalised: the squared length of every component is at most the product of the bounds of its modes. *)
Theorem C114_lengths : forall env cs K lam b s, cs_rank cs = K -> svd_contract (env_svd env) -> nnls_contract (env_nnls env) ->
  cp_coherent K s -> option_set cs s (fun _ => false) lam -> let X := cp_X s in
  (forall m, (m < length (shape X))%nat -> 0 < lam m) ->
  (forall m, (m < length (shape X))%nat -> 0 <= b m /\ 27 * energy X ^ 2 <= 256 * lam m * b m ^ 2) ->
  forall k r, (r < K)%nat ->
    comp_inner (kt_fms (cp_dec (state_after (cp_model env cs) s (S k)))) r r <= prodf (seq 0 (length (shape X))) b.
Proof. intros env cs K lam b s HK HS HN HC HO X Hl Hb k r. exact (@run_lengths env cs K lam b s HK HS HN HC HO Hl Hb k r). Qed.
Print Assumptions C114_lengths.

(** If all modes are free and penalised: the factors of some passes, arbitrarily late ones, converge. *)
Theorem C114_accumulate : forall env cs K lam s, cs_rank cs = K -> svd_contract (env_svd env) -> nnls_contract (env_nnls env) ->
  cp_coherent K s -> option_set cs s (fun _ => false) lam -> let X := cp_X s in (forall m, (m < length (shape X))%nat -> 0 < lam m) ->
  exists Ls pick, factors_ok K X Ls /\ (forall k, (k < pick k)%nat) /\
    tends K (fun k => kt_fms (cp_dec (state_after (cp_model env cs) s (pick k)))) Ls.
Proof.
  intros env cs K lam s HK HS HN HC HO X Hl.
  apply (@run_accumulates env cs K lam (fun m => sqrt (27 / (256 * lam m)) * energy X) s HK HS HN HC HO Hl).
  intros m Hm. apply bounds_exist; [now apply Hl|apply energy_pos].
Qed.
Print Assumptions C114_accumulate.

(** On the data without a best model (C113) the error of penalised passes stays away from zero, although models with errors as small
    as one likes exist: with penalties l and c, L chosen such that c bounds the squared factors and L the lengths, it is at least 1 / (1472 L^4)^2. *)
Theorem C114_no_degeneracy : forall env cs l c L s, cs_rank cs = 2%nat -> svd_contract (env_svd env) -> nnls_contract (env_nnls env) -> cp_coherent 2 s ->
  cp_X s = W3 -> option_set cs s (fun _ => false) (fun _ => l) -> 0 < l -> 0 <= c -> 243 <= 256 * l * c ^ 2 -> 1 <= L -> c ^ 3 <= L ^ 2 ->
  forall k, 1 <= (1472 * L ^ 4) ^ 2 * sse W3 (kt_fms (cp_dec (state_after (cp_model env cs) s (S k)))) unit_weights 2.
Proof. exact penalised_W3. Qed.
Print Assumptions C114_no_degeneracy.

(** The loop of [fit]: once it has made a pass, the factors it ends with are within the bounds, also if it ends with an exception. *)
Theorem C114_loops : forall env cs K nn lam cf ds ds' e, cs_rank cs = K -> svd_contract (env_svd env) -> nnls_contract (env_nnls env) ->
  cp_coherent K (ds_num ds) -> option_set cs (ds_num ds) nn lam -> cp_fit_loop (cp_model env cs) cf ds = (ds', e) ->
  let X := cp_X (ds_num ds) in
  ds_num ds' = ds_num ds \/
  forall m, (m < length (shape X))%nat -> nn m = false -> 0 < lam m ->
    256 * lam m * frob2 (nth m (shape X) 0%nat) K (mget (nth m (kt_fms (cp_dec (ds_num ds'))) m0)) ^ 2 <= 27 * energy X ^ 2.
Proof.
  intros env cs K nn lam cf ds ds' e HK HS HN HC HO F X. apply cp_fit_lemma in F as (n & _ & -> & _).
  destruct n as [|n]; [now left|right]. exact (@C114_factors env cs K nn lam _ HK HS HN HC HO n).
Qed.
Print Assumptions C114_loops.

(** *** The constant cannot be improved: the data [[4]] with penalties 3 and 3 and both factors sqrt 3, where the iteration stands
    still, have 256 * 3 * 9 = 27 * 16^2. *)
Definition rb_X : nd := mk [1; 1]%nat [4].
Definition rb_Us : list nd := [mk [1; 1]%nat [sqrt 3]; mk [1; 1]%nat [sqrt 3]].
Definition rb_cs : cp_settings := {| cs_rank := 1; cs_init := "random"; cs_ridge := Some [3; 3] |}.
Definition rb_s : cp_state := CPExamples.start 1 rb_X rb_Us [false; false] [false; false].
Lemma rb_coherent : cp_coherent 1 rb_s.
Proof.
  apply CPExamples.start_coherent.
  - split; [reflexivity|]. split; [cbn; lia|]. repeat constructor; discriminate.
  - split; [repeat constructor|reflexivity].
Qed.
Lemma rb_options : option_set rb_cs rb_s (fun _ => false) (fun _ => 3).
Proof.
  intros m Hm. cbn in Hm. destruct m as [|[|m]]; [| |lia]; (split; [exists [false; false]; auto|]; split; [exists [false; false]; auto|]; split; [reflexivity|lra]).
Qed.
Lemma rb_settled m : (m < 2)%nat -> mode_settled false 3 1 rb_X rb_Us m.
Proof.
  intros Hm. apply C109_conditions; [lra|]. intros i r Hi Hr. assert (i = 0%nat) by (destruct m as [|[|m]]; cbn in Hi; lia). subst i.
  destruct r; [|lia]. split; [|discriminate]. intros _. pose proof (sqrt_sqrt 3 ltac:(lra)) as E.
  assert (H : sqrt 3 * (sqrt 3 * sqrt 3) * (sqrt 3 * sqrt 3) - 4 * sqrt 3 * (sqrt 3 * sqrt 3) + 3 * sqrt 3 = 0) by (rewrite E; ring).
  destruct m as [|[|m]]; [| |lia]; ev; lra.
Qed.
Example C114_sharp : exists env, svd_contract (env_svd env) /\ nnls_contract (env_nnls env) /\
  forall k m, (m < 2)%nat -> let Us := kt_fms (cp_dec (state_after (cp_model env rb_cs) rb_s k)) in
    256 * 3 * frob2 1 1 (mget (nth m Us m0)) ^ 2 = 27 * energy rb_X ^ 2.
Proof.
  destruct svd_contract_satisfiable as (svd & Hs). destruct nnls_contract_satisfiable as (nnls & Hn).
  exists {| env_svd := svd; env_svd_u := fun A => do (U, _, _) <- svd A ; Ok U; env_qr := fun A => do (U, _, _) <- svd A ; Ok U;
            env_nnls := nnls; env_junk := fun _ _ => 0 |}.
  split; [exact Hs|]. split; [exact Hn|]. intros k m Hm. cbv zeta.
  match goal with |- context [cp_model ?e rb_cs] => set (env := e) end.
  destruct (C109_standing_still env rb_cs 1 (fun _ => false) (fun _ => 3) rb_s eq_refl Hs Hn rb_coherent rb_options) as (_ & _ & H).
  cbv zeta in H. specialize (H ltac:(intros; lra) rb_settled k). rewrite H. clear H.
  assert (EE : energy rb_X = 16) by (ev; lra). rewrite EE.
  assert (EF : frob2 1 1 (mget (nth m (kt_fms (cp_dec (state_after (cp_model env rb_cs) rb_s 0))) m0)) = 3).
  { pose proof (sqrt_sqrt 3 ltac:(lra)). destruct m as [|[|m]]; [| |lia]; ev; lra. }
  rewrite EF. lra.
Qed.

(** The hypotheses on the data without a best model: with penalties 1 and any start, c = 1 and L = 1 satisfy them. *)
Definition rb_W_cs : cp_settings := {| cs_rank := 2; cs_init := "random"; cs_ridge := Some [1; 1; 1] |}.
Definition rb_W_s : cp_state := CPExamples.start 2 W3 (near_W3 2000000) [false; false; false] [false; false; false].
Example C114_example : exists env, svd_contract (env_svd env) /\ nnls_contract (env_nnls env) /\
  sse W3 (kt_fms (cp_dec rb_W_s)) unit_weights 2 < 1 / 1000000000000 /\
  forall k, 1 / 2166784 <= sse W3 (kt_fms (cp_dec (state_after (cp_model env rb_W_cs) rb_W_s (S k)))) unit_weights 2.
Proof.
  destruct svd_contract_satisfiable as (svd & Hs). destruct nnls_contract_satisfiable as (nnls & Hn).
  exists {| env_svd := svd; env_svd_u := fun A => do (U, _, _) <- svd A ; Ok U; env_qr := fun A => do (U, _, _) <- svd A ; Ok U;
            env_nnls := nnls; env_junk := fun _ _ => 0 |}.
  split; [exact Hs|]. split; [exact Hn|]. split.
  { change (sse W3 (near_W3 2000000) unit_weights 2 < 1 / 1000000000000). rewrite near_sse by lra. lra. }
  intros k. match goal with |- context [cp_model ?e rb_W_cs] => set (env := e) end.
  pose proof (C114_no_degeneracy env rb_W_cs 1 1 1 rb_W_s eq_refl Hs Hn) as H.
  assert (G : 1 <= (1472 * 1 ^ 4) ^ 2 * sse W3 (kt_fms (cp_dec (state_after (cp_model env rb_W_cs) rb_W_s (S k)))) unit_weights 2).
  { apply H; try lra; try reflexivity.
    - apply CPExamples.start_coherent; [|apply near_ok]. split; [reflexivity|]. split; [cbn; lia|]. repeat constructor; discriminate.
    - intros m Hm. cbn in Hm. destruct m as [|[|[|m]]]; [| | |lia];
        (split; [exists [false; false; false]; auto|]; split; [exists [false; false; false]; auto|]; split; [reflexivity|lra]). }
  lra.
Qed.
