(** Property C108: how far the iterations of Parafac2_ALS move, and what they tend to. *)
From Verif Require Import P2LimitFacts SafeExamples Exists ShortMode Decomposer CPExamples Props_Relocate Props_P2Fix.
From Verif Require Import Prelude Lin.
Local Open Scope R_scope.

(** *** C108.  Iterations without constraints and penalties that cut off no singular value (then the projections have orthonormal
    columns, see C102_bound); F(j) and P(j) are factors and projections after j iterations, n is the number of slices.
    One iteration with p passes over the factors.  The new projections are the best for the old factors.  The matrices A D_k B^T move, squared and over all slices,
    by at most 3 p times the decrease of the error; no matrix in place of the new C has a smaller error; with one pass per
    iteration no matrix in place of the new B has a smaller error together with the new A and the old C. *)
Theorem C108_iteration : forall env ps K nI Xs s s0, drawn_settings ps K nI -> svd_contract (env_svd (pe_cp env)) ->
  nnls_contract (env_nnls (pe_cp env)) -> plain_settings ps -> (0 < ps_updates ps)%nat -> slices_ok nI Xs -> wide K Xs ->
  p2_ok K nI s -> p2_X s = Xs -> p2_prepare env ps s = (s0, None) ->
  let F j := p2_factors (state_after (p2_model env ps) s0 j) in let P j := p2_Ps (state_after (p2_model env ps) s0 j) in
  let err := p2_err K nI Xs in
  forall j, orth_projections K Xs (P (S j)) ->
    best_projections K nI Xs (P (S j)) (F j) /\
    err (P (S j)) (F (S j)) <= err (P (S j)) (F j) /\
    core_change2 K nI (length Xs) (F j) (F (S j)) <= 3 * INR (ps_updates ps) * (err (P (S j)) (F j) - err (P (S j)) (F (S j))) /\
    (forall W, is_mat nI K W -> err (P (S j)) (F (S j)) <= err (P (S j)) (with_factor 0 W (F j))) /\
    (ps_updates ps = 1%nat -> forall W, is_mat K K W ->
       err (P (S j)) [nth 0 (F (S j)) m0; nth 1 (F (S j)) m0; nth 2 (F j) m0] <= err (P (S j)) [nth 0 (F (S j)) m0; W; nth 2 (F j) m0]) /\
    (forall W, is_mat (length Xs) K W -> err (P (S j)) (F (S j)) <= err (P (S j)) (with_factor 2 W (F (S j)))).
Proof. intros env ps K nI Xs s s0 HD HS HN HU Hup HX HW Hs EX EP F P err j. exact (@run_moves env ps K nI Xs s s0 HD HS HN HU Hup HX HW Hs EX EP j). Qed.
Print Assumptions C108_iteration.

(** *** Runs.  L(j), the loss after iteration j + 1, never increases and has a limit; all movements together are bounded by the decrease, and they tend to zero. *)
Theorem C108_runs : forall env ps K nI Xs s s0, drawn_settings ps K nI -> svd_contract (env_svd (pe_cp env)) ->
  nnls_contract (env_nnls (pe_cp env)) -> plain_settings ps -> (0 < ps_updates ps)%nat -> slices_ok nI Xs -> wide K Xs ->
  p2_ok K nI s -> p2_X s = Xs -> p2_prepare env ps s = (s0, None) ->
  let F j := p2_factors (state_after (p2_model env ps) s0 j) in let P j := p2_Ps (state_after (p2_model env ps) s0 j) in
  (forall j, orth_projections K Xs (P (S j))) ->
  let L j := p2_err K nI Xs (P (S j)) (F (S j)) in
  let moved j := core_change2 K nI (length Xs) (F (S j)) (F (S (S j))) in
  (forall j, p2_loss ps (state_after (p2_model env ps) s0 (S j)) = Ok (L j)) /\
  (forall j, L (S j) <= L j /\ moved j <= 3 * INR (ps_updates ps) * (L j - L (S j))) /\
  (forall n, sum n moved <= 3 * INR (ps_updates ps) * (L 0%nat - L n)) /\
  (exists l, 0 <= l /\ Un_cv L l /\ forall j, l <= L j) /\
  Un_cv moved 0.
Proof.
  intros env ps K nI Xs s s0 HD HS HN HU Hup HX HW Hs EX EP F P HO L moved.
  exact (conj (@run_loss env ps K nI Xs s s0 HD HU Hup HX HW Hs EX EP) (conj (@run_errors env ps K nI Xs s s0 HD HS HN HU Hup HX HW Hs EX EP HO)
    (conj (@run_total env ps K nI Xs s s0 HD HS HN HU Hup HX HW Hs EX EP HO) (conj (@run_tends env ps K nI Xs s s0 HD HS HN HU Hup HX HW Hs EX EP HO)
    (@run_vanish env ps K nI Xs s s0 HD HS HN HU Hup HX HW Hs EX EP HO))))).
Qed.
Print Assumptions C108_runs.

(** *** Limits.  If the factors before and after the iterations pick(0), pick(1), ... tend to Ls and the projections after them to Qs,
    then no projections are better than Qs for Ls, and neither A nor C can be replaced with gain; with one pass per
    iteration B cannot be either.  The error is stationary in these factors.  If pick grows without bound, the losses tend to the error of the limit. *)
Theorem C108_limits : forall env ps K nI Xs s s0 Ls Qs pick, drawn_settings ps K nI -> svd_contract (env_svd (pe_cp env)) ->
  nnls_contract (env_nnls (pe_cp env)) -> plain_settings ps -> (0 < ps_updates ps)%nat -> slices_ok nI Xs -> wide K Xs ->
  p2_ok K nI s -> p2_X s = Xs -> p2_prepare env ps s = (s0, None) ->
  let F j := p2_factors (state_after (p2_model env ps) s0 j) in let P j := p2_Ps (state_after (p2_model env ps) s0 j) in
  (forall j, orth_projections K Xs (P (S j))) ->
  length Ls = 3%nat -> is_mat nI K (nth 0 Ls m0) -> is_mat K K (nth 1 Ls m0) -> is_mat (length Xs) K (nth 2 Ls m0) ->
  tends K (fun k => F (pick k)) Ls -> tends K (fun k => F (S (pick k))) Ls -> tends_proj K Xs (fun k => P (S (pick k))) Qs ->
  best_projections K nI Xs Qs Ls /\
  (forall m, m = 0%nat \/ m = 2%nat \/ (m = 1%nat /\ ps_updates ps = 1%nat) -> p2_best K nI Xs Qs Ls m /\ p2_flat K nI Xs Qs Ls m) /\
  (unbounded pick -> Un_cv (fun j => p2_err K nI Xs (P (S j)) (F (S j))) (p2_err K nI Xs Qs Ls)).
Proof. exact p2_limit_best. Qed.
Print Assumptions C108_limits.

(** The slice diag(3, 1) of C102 with one component, started at the second singular vector: the hypotheses hold, the losses
    tend to 9, and the limit is stationary in A and C, although another model has error 1. *)
Example C108_example : exists env s s0 Qs,
  let F j := p2_factors (state_after (p2_model env fz_ps) s0 j) in let P j := p2_Ps (state_after (p2_model env fz_ps) s0 j) in
  drawn_settings fz_ps 1 2 /\ svd_contract (env_svd (pe_cp env)) /\ nnls_contract (env_nnls (pe_cp env)) /\ plain_settings fz_ps /\
  slices_ok 2 fz_X /\ wide 1 fz_X /\ p2_ok 1 2 s /\ p2_X s = fz_X /\ p2_prepare env fz_ps s = (s0, None) /\
  (forall j, orth_projections 1 fz_X (P (S j))) /\
  tends 1 F fz_F /\ tends_proj 1 fz_X (fun k => P (S k)) Qs /\
  best_projections 1 2 fz_X Qs fz_F /\
  (forall m, m = 0%nat \/ m = 2%nat -> p2_best 1 2 fz_X Qs fz_F m /\ p2_flat 1 2 fz_X Qs fz_F m) /\
  Un_cv (fun j => p2_err 1 2 fz_X (P (S j)) (F (S j))) 9 /\
  p2_err 1 2 fz_X [mk [2; 1]%nat [1; 0]] [mk [2; 1]%nat [3; 0]; mk [1; 1]%nat [1]; mk [1; 1]%nat [1]] = 1.
Proof.
  destruct svd_contract_satisfiable as (svd & Hs). destruct nnls_contract_satisfiable as (nnls & Hn). exists (mv_env svd nnls).
  assert (HR : plain_run fz_ps mv_cf 50 mv_ds) by (constructor; [lia|intros lg []|discriminate|now left]).
  assert (HF : penalised_fit (mv_env svd nnls) fz_ps 1 2 (fz_A :: fz_C :: fz_N) fz_X).
  { apply fx_start; [exact Hs|exact Hn|discriminate| |reflexivity|split; reflexivity|split; reflexivity].
    intros k Hk. destruct k; [|cbn in Hk; lia]. split; [cbn; lia|]. split; split; reflexivity. }
  destruct fx_settings as [HD HU].
  destruct (C102_fits (mv_env svd nnls) fz_ps 1 2 mv_cf no_disk fz_A fz_C fz_N fz_X 50%Z P2None mv_ds HF HU ltac:(cbn; lia) HR)
    as (ds' & s & s0 & E & Hok & EX & EP & F0 & _ & X0 & N & _).
  exists s, s0, (p2_Ps (state_after (p2_model (mv_env svd nnls) fz_ps) s0 1)).
  assert (F0' : p2_factors s0 = fz_F).
  { rewrite F0. unfold fz_F. f_equal. f_equal. f_equal. unfold fz_C, np_map. cbn. f_equal. f_equal. lra. }
  pose proof (pf_start HF) as HDS. destruct HDS as [_ _ _ _ HX _ _ WX].
  pose proof (C102_standing_still (mv_env svd nnls) fz_ps 1 2 fz_X s s0 HD Hs Hn HU ltac:(cbn; lia) HX WX Hok EX EP 0%nat) as H1. cbn zeta in H1. destruct H1 as [H1 H2].
  pose proof (C102_bound (mv_env svd nnls) fz_ps 1 2 fz_X s s0 HD Hs Hn HU ltac:(cbn; lia) HX WX Hok EX EP 0%nat) as H3. cbn zeta in H3. destruct H3 as (_ & H3 & H4).
  set (md := p2_model (mv_env svd nnls) fz_ps) in *. change (state_after md s0 0) with s0 in *.
  assert (HO : orth_projections 1 fz_X (p2_Ps (state_after md s0 1))).
  { apply H3. intros k Hk. unfold p2_factors, fz_F in F0'. injection F0' as -> -> ->. apply fz_untruncated; auto. }
  destruct (H4 HO) as [HB _]. destruct (H2 HO) as [HI _]. rewrite F0' in *.
  assert (EF : p2_factors (state_after md s0 1) = fz_F) by (apply HI; now apply fz_smallest). specialize (H1 EF).
  assert (HA : forall j, p2_factors (state_after md s0 j) = fz_F) by (intros j; apply (H1 j)).
  assert (HP : forall j, p2_Ps (state_after md s0 (S j)) = p2_Ps (state_after md s0 1)) by (intros j; apply (H1 j)).
  assert (E9 : p2_err 1 2 fz_X (p2_Ps (state_after md s0 1)) fz_F = 9).
  { destruct HB as [_ HB]. assert (HQ : orth_projections 1 fz_X [fz_A]).
    { intros k Hk. destruct k; [|cbn in Hk; lia]. intros r q Hr Hq. destruct r; [|lia]. destruct q; [|lia]. cbn. lra. }
    specialize (HB _ HQ). unfold fz_F in HB |- *. rewrite !fz_err in HB. rewrite fz_err. set (P := mget (nth 0 (p2_Ps (state_after md s0 1)) m0)) in *. cbn [nth] in HB.
    change (mget fz_A 0 0) with 0 in HB |- *. change (mget fz_A 1 0) with 1 in HB |- *. change (mget (mk [1; 1]%nat [1]) 0 0) with 1 in HB |- *.
    pose proof (pow2_ge_0 (P 0%nat 0%nat)) as G0. pose proof (pow2_ge_0 (P 1%nat 0%nat - 1)) as G1. lra. }
  assert (HOj : forall j, orth_projections 1 fz_X (p2_Ps (state_after md s0 (S j)))) by (intros j; rewrite HP; exact HO).
  assert (T1 : tends 1 (fun j => p2_factors (state_after md s0 j)) fz_F).
  { intros n i r Hn' Hi Hr. apply (@cv_ext (fun _ => mget (nth n fz_F m0) i r)); [|apply cv_const]. intros k. cbv beta. rewrite HA. reflexivity. }
  assert (T2 : tends 1 (fun j => p2_factors (state_after md s0 (S j))) fz_F).
  { intros n i r Hn' Hi Hr. apply (@cv_ext (fun _ => mget (nth n fz_F m0) i r)); [|apply cv_const]. intros k. cbv beta. rewrite HA. reflexivity. }
  assert (TP : tends_proj 1 fz_X (fun k => p2_Ps (state_after md s0 (S k))) (p2_Ps (state_after md s0 1))).
  { intros k j q Hk Hj Hq. apply (@cv_ext (fun _ => mget (nth k (p2_Ps (state_after md s0 1)) m0) j q)); [|apply cv_const]. intros n. cbv beta. rewrite (HP n). reflexivity. }
  destruct (C108_limits (mv_env svd nnls) fz_ps 1 2 fz_X s s0 fz_F (p2_Ps (state_after md s0 1)) (fun k => k) HD Hs Hn HU ltac:(cbn; lia) HX WX Hok EX EP HOj
    eq_refl ltac:(split; reflexivity) ltac:(split; reflexivity) ltac:(split; reflexivity) T1 T2 TP) as (G1 & G2 & G3).
  intros F P. split; [exact HD|]. split; [exact Hs|]. split; [exact Hn|]. split; [exact HU|]. split; [exact HX|]. split; [exact WX|].
  split; [exact Hok|]. split; [exact EX|]. split; [exact EP|]. split; [exact HOj|]. split; [exact T1|]. split; [exact TP|]. split; [exact G1|].
  split; [intros m [->| ->]; apply G2; auto|]. split.
  - rewrite <- E9. apply G3. intros n. exists n. auto.
  - rewrite fz_err. cbn. lra.
Qed.
