(** Property C115: what the iterations of CP_ALS with ridge penalties and non-negative modes tend to. *)
From Verif Require Import PenLimitFacts CPExamples Exists Props_PenFix.
From Verif Require Import Prelude Lin.
Local Open Scope R_scope.

(** *** C115.  [option_set cs s nn lam]: mode m is non-negative if nn(m), has penalty lam(m) >= 0, and is not asked to be orthonormal.
    If the factors converge, each factor of the limit is one of the best allowed matrices for ||Y V - M||^2 + lam ||Y||^2, where
    Y V = M are the normal equations of its mode in the limit.  If all penalties are positive, a run started at the limit stays there. *)
Theorem C115_limits : forall env cs K nn lam s Ls, cs_rank cs = K -> svd_contract (env_svd env) -> nnls_contract (env_nnls env) ->
  cp_coherent K s -> option_set cs s nn lam -> let X := cp_X s in
  factors_ok K X Ls -> tends K (fun k => kt_fms (cp_dec (state_after (cp_model env cs) s k))) Ls ->
  (forall m, (m < length (shape X))%nat -> mode_settled (nn m) (lam m) K X Ls m) /\
  ((forall m, (m < length (shape X))%nat -> 0 < lam m) ->
   forall t, cp_coherent K t -> option_set cs t nn lam -> cp_X t = X -> kt_fms (cp_dec t) = Ls ->
     forall k, kt_fms (cp_dec (state_after (cp_model env cs) t k)) = Ls).
Proof. exact run_limits. Qed.
Print Assumptions C115_limits.

(** It is enough that the factors of some passes and of the passes after them tend to the same limit. *)
Theorem C115_subsequences : forall env cs K nn lam s Ls pick, cs_rank cs = K -> svd_contract (env_svd env) -> nnls_contract (env_nnls env) ->
  cp_coherent K s -> option_set cs s nn lam ->
  let X := cp_X s in let Us k := kt_fms (cp_dec (state_after (cp_model env cs) s k)) in
  factors_ok K X Ls -> tends K (fun k => Us (pick k)) Ls -> tends K (fun k => Us (S (pick k))) Ls ->
  forall m, (m < length (shape X))%nat -> mode_settled (nn m) (lam m) K X Ls m.
Proof. intros env cs K nn lam s Ls pick HK HS HN HC HO X Us. exact (@limit_settled env cs K nn lam HK HS HN s HC HO Ls pick). Qed.
Print Assumptions C115_subsequences.

(** All modes free with positive penalties: if the steps become arbitrarily small, then such a limit exists. *)
Theorem C115_small_steps : forall env cs K lam s, cs_rank cs = K -> svd_contract (env_svd env) -> nnls_contract (env_nnls env) ->
  cp_coherent K s -> option_set cs s (fun _ => false) lam ->
  let X := cp_X s in let Us k := kt_fms (cp_dec (state_after (cp_model env cs) s k)) in
  (forall m, (m < length (shape X))%nat -> 0 < lam m) ->
  (forall n i r, (n < length (shape X))%nat -> (i < nth n (shape X) 0)%nat -> (r < K)%nat ->
     Un_cv (fun k => mget (nth n (Us (S k)) m0) i r - mget (nth n (Us k) m0) i r) 0) ->
  exists Ls pick, factors_ok K X Ls /\ (forall k, (k < pick k)%nat) /\ tends K (fun k => Us (pick k)) Ls /\
    forall m, (m < length (shape X))%nat -> mode_settled false (lam m) K X Ls m.
Proof. exact small_steps. Qed.
Print Assumptions C115_small_steps.

(** *** The data [[15/7]] with penalties 8/7 and 8/7, first mode non-negative, started at 7, 2: after every pass the factors are 1, 1. *)
Definition pl_X : nd := mk [1; 1]%nat [15 / 7].
Definition pl_Us (a b : R) : list nd := [mk [1; 1]%nat [a]; mk [1; 1]%nat [b]].
Definition pl_cs : cp_settings := {| cs_rank := 1; cs_init := "random"; cs_ridge := Some [8 / 7; 8 / 7] |}.
Definition pl_s : cp_state := CPExamples.start 1 pl_X (pl_Us 7 2) [true; false] [false; false].
Lemma pl_coherent : cp_coherent 1 pl_s.
Proof.
  apply CPExamples.start_coherent.
  - split; [reflexivity|]. split; [cbn; lia|]. repeat constructor; discriminate.
  - split; [repeat constructor|reflexivity].
Qed.
Lemma pl_options : option_set pl_cs pl_s pf_nn (fun _ => 8 / 7).
Proof.
  intros m Hm. cbn in Hm. destruct m as [|[|m]]; [| |lia]; (split; [exists [true; false]; auto|]; split; [exists [false; false]; auto|]; split; [reflexivity|lra]).
Qed.
Lemma pl_shape Us : factors_ok 1 pl_X Us -> exists a b, Us = pl_Us a b.
Proof.
  assert (H1 : forall U, is_mat (nrows U) 1 U -> nrows U = 1%nat -> exists a, U = mk [1; 1]%nat [a]).
  { intros [sh d] [HW E] Hn. cbn [shape] in E. rewrite Hn in E. subst sh. unfold wf in HW. cbn in HW.
    destruct d as [|a [|? ?]]; try discriminate HW. now exists a. }
  intros [HM Hr]. destruct Us as [|U [|V [|W l]]]; try discriminate Hr. injection Hr as E1 E2.
  unfold mats in HM. apply Forall_cons_iff in HM. destruct HM as [HU HM]. apply Forall_cons_iff in HM. destruct HM as [HV _].
  destruct (H1 U HU E1) as (a & ->). destruct (H1 V HV E2) as (b & ->). now exists a, b.
Qed.
Lemma pl_pass env : svd_contract (env_svd env) -> nnls_contract (env_nnls env) ->
  forall k, kt_fms (cp_dec (state_after (cp_model env pl_cs) pl_s (S k))) = pl_Us 1 1.
Proof.
  intros HS HN.
  assert (Hok : forall k, exists a b, kt_fms (cp_dec (state_after (cp_model env pl_cs) pl_s k)) = pl_Us a b).
  { intros k. apply pl_shape. destruct (@after_coherent env pl_cs 1 pl_s k pl_coherent) as [HC HP]. pose proof (co_fac HC) as H. now rewrite (sp_X HP) in H. }
  assert (Hstep : forall k a b, kt_fms (cp_dec (state_after (cp_model env pl_cs) pl_s k)) = pl_Us a b -> b = 2 \/ b = 1 ->
    kt_fms (cp_dec (state_after (cp_model env pl_cs) pl_s (S k))) = pl_Us 1 1).
  { intros k a b E Hb. destruct (Hok (S k)) as (a' & b' & E').
    pose proof (proj2 (@middle_settled env pl_cs 1 pf_nn (fun _ => 8 / 7) eq_refl HS HN pl_s pl_coherent pl_options 0%nat k ltac:(cbn; lia))) as M0.
    pose proof (proj2 (@middle_settled env pl_cs 1 pf_nn (fun _ => 8 / 7) eq_refl HS HN pl_s pl_coherent pl_options 1%nat k ltac:(cbn; lia))) as M1.
    cbv beta zeta in M0, M1. rewrite E, E' in M0, M1. change (LimitFacts.between 0 (pl_Us a b) (pl_Us a' b')) with (pl_Us a' b) in M0.
    change (LimitFacts.between 1 (pl_Us a b) (pl_Us a' b')) with (pl_Us a' b') in M1. change (cp_X pl_s) with pl_X in M0, M1.
    assert (Hl : 0 <= 8 / 7) by lra.
    pose proof (proj1 (C109_conditions _ _ _ _ _ _ Hl) M0) as M0c. pose proof (proj1 (C109_conditions _ _ _ _ _ _ Hl) M1) as M1c.
    clear M0 M1. rename M0c into M0, M1c into M1.
    destruct (M0 0%nat 0%nat ltac:(cbn; lia) ltac:(lia)) as [_ M0']. destruct (M0' eq_refl) as (P1 & P2 & P3). clear M0 M0'.
    destruct (M1 0%nat 0%nat ltac:(cbn; lia) ltac:(lia)) as [Q1 _]. specialize (Q1 eq_refl). clear M1.
    change (mget (nth 0 (pl_Us a' b) m0) 0 0) with a' in P1, P3.
    assert (G0 : turned_gap (8 / 7) 1 pl_X (pl_Us a' b) 0 0 0 = (a' * (b * b) - 15 / 7 * b) * (b * b) + 8 / 7 * a') by (ev; lra).
    assert (G1 : turned_gap (8 / 7) 1 pl_X (pl_Us a' b') 1 0 0 = (b' * (a' * a') - 15 / 7 * a') * (a' * a') + 8 / 7 * b') by (ev; lra).
    rewrite G0 in P2, P3. rewrite G1 in Q1. rewrite E'. clear E E' G0 G1.
    assert (Ea : a' = 1).
    { destruct Hb as [-> | ->]; destruct (Rle_lt_or_eq_dec 0 a' P1) as [Hp|Hp]; try (specialize (P3 Hp); lra); lra. }
    subst a'. assert (Eb : b' = 1) by lra. now rewrite Eb. }
  induction k as [|k IH].
  - apply (Hstep 0%nat 7 2); [reflexivity|now left].
  - apply (Hstep (S k) 1 1); [exact IH|now right].
Qed.
Example C115_example : exists env, svd_contract (env_svd env) /\ nnls_contract (env_nnls env) /\
  kt_fms (cp_dec pl_s) = pl_Us 7 2 /\ tends 1 (fun k => kt_fms (cp_dec (state_after (cp_model env pl_cs) pl_s k))) (pl_Us 1 1) /\
  forall m, (m < 2)%nat -> mode_settled (pf_nn m) (8 / 7) 1 pl_X (pl_Us 1 1) m.
Proof.
  destruct svd_contract_satisfiable as (svd & Hs). destruct nnls_contract_satisfiable as (nnls & Hn).
  exists {| env_svd := svd; env_svd_u := fun A => do (U, _, _) <- svd A ; Ok U; env_qr := fun A => do (U, _, _) <- svd A ; Ok U;
            env_nnls := nnls; env_junk := fun _ _ => 0 |}.
  match goal with |- context [cp_model ?e pl_cs] => set (env := e) end.
  split; [exact Hs|]. split; [exact Hn|]. split; [reflexivity|].
  assert (HT : tends 1 (fun k => kt_fms (cp_dec (state_after (cp_model env pl_cs) pl_s k))) (pl_Us 1 1)).
  { intros n i r _ _ _ e He. exists 1%nat. intros [|k] Hk; [lia|]. rewrite (pl_pass env Hs Hn k). unfold R_dist. rewrite Rminus_diag_eq, Rabs_R0; auto. }
  split; [exact HT|].
  exact (proj1 (C115_limits env pl_cs 1 pf_nn (fun _ => 8 / 7) pl_s (pl_Us 1 1) eq_refl Hs Hn pl_coherent pl_options
    ltac:(split; [repeat constructor|reflexivity]) HT)).
Qed.
