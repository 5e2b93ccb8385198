(** Property C109: where CP_ALS with ridge penalties and non-negative modes stands still. *)
From Verif Require Import PenFixFacts CPExamples Exists.
From Verif Require Import Prelude Lin.
Local Open Scope R_scope.

(** *** C109.  [option_set cs s nn lam]: mode m is non-negative if nn(m), has penalty lam(m) >= 0, and is not asked to be orthonormal.
    A pass does not raise; if it leaves all factors as they are, each of them is one of the best allowed matrices for
    ||Y V - M||^2 + lam ||Y||^2, where Y V = M are the normal equations of its mode.  If all penalties are positive and the
    factors are the best ones, no later pass changes them. *)
Theorem C109_standing_still : forall env cs K nn lam s, cs_rank cs = K -> svd_contract (env_svd env) -> nnls_contract (env_nnls env) ->
  cp_coherent K s -> option_set cs s nn lam ->
  let X := cp_X s in let Us k := kt_fms (cp_dec (state_after (cp_model env cs) s k)) in
  snd (md_update (cp_model env cs) s) = None /\
  (Us 1%nat = Us 0%nat -> forall m, (m < length (shape X))%nat -> mode_settled (nn m) (lam m) K X (Us 0%nat) m) /\
  ((forall m, (m < length (shape X))%nat -> 0 < lam m) ->
   (forall m, (m < length (shape X))%nat -> mode_settled (nn m) (lam m) K X (Us 0%nat) m) -> forall k, Us k = Us 0%nat).
Proof.
  intros env cs K nn lam s HK HS HN HC HO X Us.
  destruct (@pass_settled env cs K nn lam HK HS HN s HC HO) as [H1 H2].
  exact (conj H1 (conj H2 (@pass_keeps env cs K nn lam HK HS HN s HC HO))).
Qed.
Print Assumptions C109_standing_still.

(** Being best, entry by entry: with G = U V - M, half of the gradient of the error, G V^T + lam U is zero; in non-negative
    modes it is not negative, and zero where the entry of U is positive. *)
Theorem C109_conditions : forall nn lam K X Us m, 0 <= lam ->
  let N := nth m (shape X) 0%nat in let U := mget (nth m Us m0) in
  mode_settled nn lam K X Us m <->
  (forall i r, (i < N)%nat -> (r < K)%nat ->
    (nn = false -> turned_gap lam K X Us m i r = 0) /\
    (nn = true -> 0 <= U i r /\ 0 <= turned_gap lam K X Us m i r /\ (0 < U i r -> turned_gap lam K X Us m i r = 0))).
Proof. intros nn lam K X Us m Hl. exact (@settled_iff lam K X Us m Hl nn). Qed.
Print Assumptions C109_conditions.

(** The slope of the documented loss, error plus penalty, in direction D is 2 <G + lam U, D>, not 2 <G V^T + lam U, D>. *)
Theorem C109_slope : forall lam K X Us m D, factors_ok K X Us -> (m < length (shape X))%nat ->
  let N := nth m (shape X) 0%nat in
  derivable_pt_lim (fun t => documented_in lam K X Us m (step_to N K (nth m Us m0) D t)) 0
    (2 * sum N (fun i => sum K (fun r => (gap K X Us m i r + lam * mget (nth m Us m0) i r) * mget D i r))).
Proof. exact documented_slope. Qed.
Print Assumptions C109_slope.

(** So the iteration stands still at a stationary point of the documented loss only if U V^T = U in every mode with a penalty. *)
Theorem C109_documented_only_if : forall lam K X Us m, factors_ok K X Us -> (m < length (shape X))%nat -> 0 < lam -> mode_settled false lam K X Us m ->
  let N := nth m (shape X) 0%nat in
  (forall D, derivable_pt_lim (fun t => documented_in lam K X Us m (step_to N K (nth m Us m0) D t)) 0 0) ->
  forall i r, (i < N)%nat -> (r < K)%nat -> sum K (fun k => mget (nth m Us m0) i k * normal_lhs Us m r k) = mget (nth m Us m0) i r.
Proof. exact settled_documented. Qed.
Print Assumptions C109_documented_only_if.

(** Without penalty: a best factor whose V is regular, and whose entries are positive if the mode is non-negative, makes the error stationary in its mode. *)
Theorem C109_stationary : forall nn K X Us m, factors_ok K X Us -> (m < length (shape X))%nat -> mode_settled nn 0 K X Us m ->
  let N := nth m (shape X) 0%nat in
  (nn = true -> forall i r, (i < N)%nat -> (r < K)%nat -> 0 < mget (nth m Us m0) i r) ->
  (forall g, (forall r, (r < K)%nat -> sum K (fun k => g k * normal_lhs Us m r k) = 0) -> forall k, (k < K)%nat -> g k = 0) ->
  stationary_in K X Us m.
Proof. exact settled_stationary. Qed.
Print Assumptions C109_stationary.

(** *** The data [[5]], penalties 4 and 4, first mode non-negative: the iteration stands still at 2, 2 and reports the loss 33 for
    ever, although the documented loss has slope 12 there and is 29 at 1, 2. *)
Definition pf_X : nd := mk [1; 1]%nat [5].
Definition pf_Us : list nd := [mk [1; 1]%nat [2]; mk [1; 1]%nat [2]].
Definition pf_cs : cp_settings := {| cs_rank := 1; cs_init := "random"; cs_ridge := Some [4; 4] |}.
Definition pf_s : cp_state := start 1 pf_X pf_Us [true; false] [false; false].
Definition pf_nn (m : nat) : bool := match m with O => true | _ => false end.
Lemma pf_coherent : cp_coherent 1 pf_s.
Proof.
  apply start_coherent.
  - split; [reflexivity|]. split; [cbn; lia|]. repeat constructor; discriminate.
  - split; [repeat constructor|reflexivity].
Qed.
Lemma pf_options : option_set pf_cs pf_s pf_nn (fun _ => 4).
Proof.
  intros m Hm. cbn in Hm. destruct m as [|[|m]]; [| |lia]; (split; [exists [true; false]; auto|]; split; [exists [false; false]; auto|]; split; [reflexivity|lra]).
Qed.
Lemma pf_turned m : (m < 2)%nat -> turned_gap 4 1 pf_X pf_Us m 0 0 = 0.
Proof. intros Hm. destruct m as [|[|m]]; [| |lia]; ev; lra. Qed.
Lemma pf_settled m : (m < 2)%nat -> mode_settled (pf_nn m) 4 1 pf_X pf_Us m.
Proof.
  intros Hm. apply C109_conditions; [lra|]. intros i r Hi Hr. assert (i = 0%nat) by (destruct m as [|[|m]]; cbn in Hi; lia). subst i.
  destruct r; [|lia]. rewrite (pf_turned m Hm). split; [auto|]. intros _. split; [|split; [lra|auto]].
  destruct m as [|[|m]]; [| |lia]; cbn; lra.
Qed.

Theorem C109_documented_loss_refuted : forall env, svd_contract (env_svd env) -> nnls_contract (env_nnls env) ->
  (forall k, let s := state_after (cp_model env pf_cs) pf_s k in kt_fms (cp_dec s) = pf_Us /\ cp_loss env pf_cs s = Ok 33) /\
  cp_loss env pf_cs (start 1 pf_X [mk [1; 1]%nat [1]; mk [1; 1]%nat [2]] [true; false] [false; false]) = Ok 29 /\
  derivable_pt_lim (fun t => documented_in 4 1 pf_X pf_Us 0 (step_to 1 1 (mk [1; 1]%nat [2]) (mk [1; 1]%nat [1]) t)) 0 12.
Proof.
  intros env HS HN.
  destruct (C109_standing_still env pf_cs 1 pf_nn (fun _ => 4) pf_s eq_refl HS HN pf_coherent pf_options) as (_ & _ & H).
  cbv zeta in H. specialize (H ltac:(intros; lra) pf_settled).
  split; [|split].
  - intros k s. split; [exact (H k)|].
    destruct (@after_coherent env pf_cs 1 pf_s k pf_coherent) as [HCk HSk]. fold s in HCk, HSk.
    rewrite (@cp_loss_ok env pf_cs 1 s HCk (unit_w_same HSk (start_unit pf_X pf_Us [true; false] [false; false]))). rewrite (sp_X HSk). unfold s. rewrite (H k). clear. f_equal. ev. lra.
  - rewrite (@cp_loss_ok env pf_cs 1).
    + f_equal. ev. lra.
    + apply start_coherent; [split; [reflexivity|]; split; [cbn; lia|]; repeat constructor; discriminate|split; [repeat constructor|reflexivity]].
    + apply start_unit.
  - pose proof (C109_slope 4 1 pf_X pf_Us 0 (mk [1; 1]%nat [1]) (co_fac pf_coherent) ltac:(cbn; lia)) as HD. cbv zeta in HD.
    assert (E : 2 * sum (nth 0 (shape pf_X) 0%nat) (fun i => sum 1 (fun r => (gap 1 pf_X pf_Us 0 i r + 4 * mget (nth 0 pf_Us m0) i r) * mget (mk [1; 1]%nat [1]) i r)) = 12) by (ev; lra).
    rewrite E in HD. exact HD.
Qed.
Print Assumptions C109_documented_loss_refuted.

(** The hypotheses of the theorems hold for this state, and routines with these contracts exist. *)
Example C109_example : (exists env, svd_contract (env_svd env) /\ nnls_contract (env_nnls env)) /\
  cp_coherent 1 pf_s /\ option_set pf_cs pf_s pf_nn (fun _ => 4) /\
  (forall m, (m < 2)%nat -> mode_settled (pf_nn m) 4 1 pf_X pf_Us m) /\ ~ sum 1 (fun k => mget (nth 1 pf_Us m0) 0 k * normal_lhs pf_Us 1 0 k) = mget (nth 1 pf_Us m0) 0 0.
Proof.
  split.
  { destruct svd_contract_satisfiable as (svd & Hs). destruct nnls_contract_satisfiable as (nnls & Hn).
    exists {| env_svd := svd; env_svd_u := fun A => do (U, _, _) <- svd A ; Ok U; env_qr := fun A => do (U, _, _) <- svd A ; Ok U;
              env_nnls := nnls; env_junk := fun _ _ => 0 |}. auto. }
  split; [exact pf_coherent|]. split; [exact pf_options|]. split; [exact pf_settled|]. ev. lra.
Qed.
