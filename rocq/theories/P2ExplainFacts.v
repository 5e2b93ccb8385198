(** Penalised Parafac2_ALS never does worse than the zero model: lemmas for C119. *)
From Verif Require Export P2PenLimitFacts P2ExplainSpec.
From Verif Require Import CompareFacts FixFacts Parafac2Sweep Parafac2Safe Unique NumPyFacts.
From Verif Require Import Prelude Lin.
Set Implicit Arguments.
Unset Strict Implicit.
Local Open Scope R_scope.

(** If x P is never longer than x, then y P^T is never longer than y. *)
Lemma shrinks_back w K (P : nat -> nat -> R) : (forall x, sum K (fun q => sum w (fun j => x j * P j q) ^ 2) <= sum w (fun j => x j ^ 2)) ->
  forall y, sum w (fun j => sum K (fun q => y q * P j q) ^ 2) <= sum K (fun q => y q ^ 2).
Proof.
  intros H y. set (x := fun j => sum K (fun q => y q * P j q)). specialize (H x). set (z := fun q => sum w (fun j => x j * P j q)) in *.
  assert (E : sum w (fun j => x j ^ 2) = sum K (fun q => y q * z q)).
  { unfold z. rewrite (@sum_ext K _ (fun q => sum w (fun j => y q * (x j * P j q)))) by (intros; now rewrite sum_scal_l).
    rewrite sum_swap. apply sum_ext. intros j _. replace (x j ^ 2) with (x j * x j) by ring. unfold x at 2. rewrite <- sum_scal_l.
    apply sum_ext. intros; ring. }
  assert (G : 0 <= sum K (fun q => (y q - z q) ^ 2)) by (apply sum_nonneg; intros; apply pow2_ge_0).
  assert (EG : sum K (fun q => (y q - z q) ^ 2) = sum K (fun q => y q ^ 2) - 2 * sum K (fun q => y q * z q) + sum K (fun q => z q ^ 2)).
  { rewrite <- sum_scal_l, <- sum_minus, <- sum_plus. apply sum_ext. intros; ring. }
  change (sum w (fun j => x j ^ 2) <= sum K (fun q => y q ^ 2)). change (sum K (fun q => z q ^ 2) <= sum w (fun j => x j ^ 2)) in H. lra.
Qed.

(** One row of a slice: t the row of the model before the projection *)
Lemma row_explained w K (P : nat -> nat -> R) (x t : nat -> R) :
  (forall x, sum K (fun q => sum w (fun j => x j * P j q) ^ 2) <= sum w (fun j => x j ^ 2)) ->
  let y q := sum w (fun j => x j * P j q) in let g j := sum K (fun a => t a * P j a) in
  sum w (fun j => (g j - x j) ^ 2) + sum w (fun j => g j ^ 2) <=
  sum w (fun j => x j ^ 2) + (sum K (fun q => t q ^ 2) + sum K (fun q => (t q - y q) ^ 2) - sum K (fun q => y q ^ 2)).
Proof.
  intros H y g. pose proof (shrinks_back H t) as G. change (sum w (fun j => g j ^ 2) <= sum K (fun q => t q ^ 2)) in G.
  assert (E : sum w (fun j => g j * x j) = sum K (fun q => t q * y q)).
  { unfold g, y. rewrite (@sum_ext w _ (fun j => sum K (fun a => t a * (x j * P j a)))).
    - rewrite sum_swap. apply sum_ext. intros; now rewrite sum_scal_l.
    - intros j _. rewrite Rmult_comm, <- sum_scal_l. apply sum_ext. intros; ring. }
  assert (E1 : sum w (fun j => (g j - x j) ^ 2) = sum w (fun j => g j ^ 2) - 2 * sum w (fun j => g j * x j) + sum w (fun j => x j ^ 2)).
  { rewrite <- sum_scal_l, <- sum_minus, <- sum_plus. apply sum_ext. intros; ring. }
  assert (E2 : sum K (fun q => (t q - y q) ^ 2) = sum K (fun q => t q ^ 2) - 2 * sum K (fun q => t q * y q) + sum K (fun q => y q ^ 2)).
  { rewrite <- sum_scal_l, <- sum_minus, <- sum_plus. apply sum_ext. intros; ring. }
  rewrite E1, E2, E. lra.
Qed.

Lemma slices_explained K nI Xs Ps A B C lam : (forall k, (k < length Xs)%nat -> is_mat nI (width Xs k) (nth k Xs m0)) ->
  (forall k x, (k < length Xs)%nat -> sum K (fun q => sum (width Xs k) (fun j => x j * mget (nth k Ps m0) j q) ^ 2) <= sum (width Xs k) (fun j => x j ^ 2)) ->
  rows [A; B; C] = [nI; K; length Xs] -> 0 < lam -> mode_settled false lam K (projected_tensor K nI Xs Ps) [A; B; C] 2 ->
  p2_err K nI Xs Ps [A; B; C] + model_energy K nI Xs Ps [A; B; C] <= slices_energy Xs.
Proof.
  intros HX HP Hr Hl HM. set (T := projected_tensor K nI Xs Ps) in *.
  pose proof (@model_bound lam K T [A; B; C] 2 Hr ltac:(cbn; lia) Hl HM) as G.
  rewrite (@sse_projected K nI (length Xs)) in G by reflexivity. unfold energy in G. change (shape T) with [nI; K; length Xs] in G. rewrite !sumf_indices3 in G.
  set (t := model_T K A B C) in *.
  assert (Et : forall i q k, cp_entry [A; B; C] unit_weights K [i; q; k] = t k i q).
  { intros i q k. unfold cp_entry, t, model_T, unit_weights, colprod. apply sum_ext. intros r _. cbn. ring. }
  assert (EG : forall k, (k < length Xs)%nat -> slice_err K nI A B C Xs k (mget (nth k Ps m0)) + frob2 nI (width Xs k) (pf_entry K A B C k (mget (nth k Ps m0))) <=
    energy (nth k Xs m0) + (sum nI (fun i => sum K (fun q => t k i q ^ 2)) + dist2 nI K (t k) (fun i q => get T [i; q; k]) - sum nI (fun i => sum K (fun q => get T [i; q; k] ^ 2)))).
  { intros k Hk. rewrite (energy_matrix (HX k Hk)). unfold slice_err, dist2, frob2. rewrite <- !sum_plus, <- sum_minus, <- sum_plus. apply sum_le. intros i Hi.
    pose proof (@row_explained (width Xs k) K (mget (nth k Ps m0)) (fun j => mget (nth k Xs m0) i j) (fun q => t k i q) (fun x => HP k x Hk)) as H. cbv zeta in H.
    rewrite (@sum_ext (width Xs k) _ (fun j => (sum K (fun a => t k i a * mget (nth k Ps m0) j a) - mget (nth k Xs m0) i j) ^ 2)) by (intros j _; now rewrite pf_entry_T).
    rewrite (@sum_ext (width Xs k) (fun j => pf_entry K A B C k (mget (nth k Ps m0)) i j ^ 2) (fun j => sum K (fun a => t k i a * mget (nth k Ps m0) j a) ^ 2)) by (intros j _; now rewrite pf_entry_T).
    eapply Rle_trans; [exact H|]. right. f_equal. f_equal; [f_equal|]; apply sum_ext; intros q Hq;
      unfold T; rewrite (proj2 (tensor_is K nI Xs Ps)) by auto; reflexivity. }
  unfold p2_err, pf_sse, model_energy, slices_energy. cbn [nth]. rewrite sumf_nth, <- sum_plus.
  eapply Rle_trans; [apply sum_le; exact EG|]. rewrite sum_plus, sum_minus, sum_plus.
  assert (S1 : sum nI (fun i => sum K (fun q => sum (length Xs) (fun k => cp_entry [A; B; C] unit_weights K [i; q; k] ^ 2))) = sum (length Xs) (fun k => sum nI (fun i => sum K (fun q => t k i q ^ 2)))).
  { rewrite (@sum_ext nI _ (fun i => sum (length Xs) (fun k => sum K (fun q => t k i q ^ 2)))); [apply sum_swap|]. intros i _. rewrite sum_swap.
    apply sum_ext. intros k _. apply sum_ext. intros q _. now rewrite Et. }
  assert (S2 : sum nI (fun i => sum K (fun q => sum (length Xs) (fun k => get T [i; q; k] ^ 2))) = sum (length Xs) (fun k => sum nI (fun i => sum K (fun q => get T [i; q; k] ^ 2)))).
  { rewrite (@sum_ext nI _ (fun i => sum (length Xs) (fun k => sum K (fun q => get T [i; q; k] ^ 2)))) by (intros; apply sum_swap). apply sum_swap. }
  rewrite S1, S2 in G. lra.
Qed.

Section Run.
Variables (env : p2_env) (ps : p2_settings) (K nI : nat) (Xs : list nd) (s s0 : p2_state) (lam : R).
Let md := p2_model env ps.
Hypothesis (HD : drawn_settings ps K nI) (HS : svd_contract (env_svd (pe_cp env))) (HN : nnls_contract (env_nnls (pe_cp env))).
Hypothesis (H3 : length (ps_nn ps) = 3%nat) (HP : p2_penalties ps).
Hypothesis (Hnn : nth_error (ps_nn ps) 2 = Some false) (Hpen : penalty (inner_settings ps) 2 lam) (Hlam : 0 < lam).
Hypothesis (Hup : (0 < ps_updates ps)%nat) (HX : slices_ok nI Xs) (HW : forall k, (k < length Xs)%nat -> (0 < width Xs k)%nat).
Hypothesis (Hs : p2_ok K nI s) (EX : p2_X s = Xs) (EP : p2_prepare env ps s = (s0, None)).

Lemma run_explained j : let t := state_after md s0 (S j) in
  p2_err K nI Xs (p2_Ps t) (p2_factors t) + model_energy K nI Xs (p2_Ps t) (p2_factors t) <= slices_energy Xs.
Proof.
  intros t. destruct (@P2PenLimitFacts.begun env ps K nI Xs s s0 HD H3 Hup HX HW Hs EX EP) as (Hn & HR & E0).
  destruct (@P2PenLimitFacts.later env ps K nI Xs s s0 HD H3 Hup HX HW Hs EX EP j) as [Hj Ej]. destruct (@P2PenLimitFacts.later env ps K nI Xs s s0 HD H3 Hup HX HW Hs EX EP (S j)) as [Ht Et].
  fold md in Hj, Ej, Ht, Et. fold t in Ht, Et. pose proof HD as (HK & HO & HnI & HK0).
  apply slices_explained with lam; [apply HX| | |exact Hlam|].
  - intros k x Hk. pose proof (@run_projections env ps K nI HK HnI HK0 HS HN H3 HP s0 HR) as G. rewrite E0 in G. specialize (G Hn HW j k Hk).
    pose proof (@projected_shrinks env K nI (state_after md s0 j) k (nth k (p2_Ps t) m0) x HS (rd_ok Hj)) as H. rewrite Ej in H. exact (H Hk G).
  - pose proof (factors_rows (rd_ok Ht)) as Hr. rewrite Et in Hr. exact Hr.
  - destruct (@P2PenLimitFacts.run_settled env ps K nI Xs s s0 HD HS HN H3 HP Hup HX HW Hs EX EP j _ (tensor_is K nI Xs _)) as [G _].
    assert (E1 : nth 2 (ps_nn ps) false = false) by (now apply nth_error_nth).
    assert (E2 : nth 2 (match ps_ridge ps with Some l => l | None => [] end) 0 = lam).
    { unfold penalty in Hpen. cbn [inner_settings cs_ridge] in Hpen. destruct (ps_ridge ps); [now apply nth_error_nth|lra]. }
    cbn beta in G; rewrite E1, E2 in G. exact G.
Qed.
End Run.

Lemma fits_explained env ps K nI cf disk draws Xs max_its arg ds lam :
  let budget := match max_its with Some m => m | None => ds_max ds end in
  penalised_fit env ps K nI draws Xs -> plain_run ps cf budget ds -> (0 < ps_updates ps)%nat ->
  nth_error (ps_nn ps) 2 = Some false -> penalty (inner_settings ps) 2 lam -> 0 < lam ->
  exists ds', p2_fit env ps cf disk draws (Slices Xs) max_its arg ds = (ds', None) /\
    let t := ds_num ds' in p2_err K nI Xs (p2_Ps t) (p2_factors t) + model_energy K nI Xs (p2_Ps t) (p2_factors t) <= slices_energy Xs.
Proof.
  intros budget HF HNr Hu Hnn Hpen Hlam. destruct (@penalised_completes env ps K nI cf disk draws Xs max_its arg ds HF HNr) as (ds' & EF & [Hit _] & _).
  exists ds'. split; [exact EF|]. destruct HF as [HD H3 HP HS HN].
  destruct (@drawn_begins env ps K nI disk draws Xs arg ds HD) as (s1 & l & Hok & _ & EX & _ & E).
  destruct HD as [Hi HO HK [HnI HK0] HX HDr Hqr Hw].
  assert (HnX : (0 < length Xs)%nat) by (destruct HX as [Hne _]; destruct Xs; [congruence|cbn; lia]).
  specialize (E max_its). fold budget in E. unfold p2_fit in EF. rewrite E in EF.
  destruct (@prepare_ready env ps K nI HK HO HnI HK0 s1 Hok ltac:(now rewrite EX)) as (s0 & EP & _).
  destruct (@pf_fit_lemma _ _ (p2_model env ps) cf (Decomposer.start s1 (Fin l) 0 budget (ds_logs ds) (ds_file ds)) ds' None s0 EP EF) as (n & _ & En & _ & Hc).
  destruct (Hc eq_refl) as [_ Hc2]. cbn [Decomposer.start ds_it] in Hc2. destruct n as [|n]; [lia|]. rewrite En.
  apply (@run_explained env ps K nI Xs s1 s0 lam); auto.
  - split; [exact HK|]. split; [exact HO|]. split; assumption.
  - intros k Hk. pose proof (Hw k Hk). lia.
Qed.
