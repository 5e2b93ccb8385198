(** Property C118: what the iterations of Parafac2_ALS with penalties and non-negative modes tend to. *)
From Verif Require Import P2PenLimitFacts SafeExamples Exists Decomposer CPExamples Props_Relocate Props_P2Fix Props_P2Accum.
From Verif Require Import Prelude Lin.
Local Open Scope R_scope.

(** *** C118.  Mode m (A, B, C) is non-negative if nn(m) and has the penalty lam(m) >= 0; F(j) and P(j) are factors and projections after
    j iterations; any start.  After every iteration C is one of the best allowed matrices for ||Y V - M||^2 + lam ||Y||^2, where Y V = M are
    its normal equations for the tensor with slices X_k P_k.  With one pass per iteration the same holds for A with the old B and C, and for B with the new A and the old C. *)
Theorem C118_iteration : forall env ps K nI Xs s s0 nn lam, drawn_settings ps K nI -> svd_contract (env_svd (pe_cp env)) ->
  nnls_contract (env_nnls (pe_cp env)) -> length (ps_nn ps) = 3%nat -> p2_penalties ps ->
  (forall m, (m < 3)%nat -> nth_error (ps_nn ps) m = Some (nn m) /\ penalty (inner_settings ps) m (lam m)) ->
  (0 < ps_updates ps)%nat -> slices_ok nI Xs -> (forall k, (k < length Xs)%nat -> (0 < width Xs k)%nat) ->
  p2_ok K nI s -> p2_X s = Xs -> p2_prepare env ps s = (s0, None) ->
  let F j := p2_factors (state_after (p2_model env ps) s0 j) in let P j := p2_Ps (state_after (p2_model env ps) s0 j) in
  forall j, let T := projected_tensor K nI Xs (P (S j)) in
    mode_settled (nn 2%nat) (lam 2%nat) K T (F (S j)) 2 /\
    (ps_updates ps = 1%nat -> forall m, (m < 3)%nat -> mode_settled (nn m) (lam m) K T (mixed (F j) (F (S j)) m) m).
Proof.
  intros env ps K nI Xs s s0 nn lam HD HS HN H3 HP HO Hup HX HW Hs EX EP F P j T. destruct (named_options H3 HO) as [E1 E2].
  destruct (@run_settled env ps K nI Xs s s0 HD HS HN H3 HP Hup HX HW Hs EX EP j T (tensor_is K nI Xs _)) as [G1 G2].
  split; [rewrite <- E1, <- E2 by lia; exact G1|]. intros H1 m Hm. rewrite <- E1, <- E2 by lia. now apply G2.
Qed.
Print Assumptions C118_iteration.

(** Limits.  If factors and projections after the iterations pick(0), pick(1), ... tend to Ls and Qs, then C is best in the same sense
    for the tensor with slices X_k Q_k; if there is one pass per iteration and the factors before these iterations tend to Ls as well, so are A and B. *)
Theorem C118_limits : forall env ps K nI Xs s s0 nn lam Ls Qs pick, drawn_settings ps K nI -> svd_contract (env_svd (pe_cp env)) ->
  nnls_contract (env_nnls (pe_cp env)) -> length (ps_nn ps) = 3%nat -> p2_penalties ps ->
  (forall m, (m < 3)%nat -> nth_error (ps_nn ps) m = Some (nn m) /\ penalty (inner_settings ps) m (lam m)) ->
  (0 < ps_updates ps)%nat -> slices_ok nI Xs -> (forall k, (k < length Xs)%nat -> (0 < width Xs k)%nat) ->
  p2_ok K nI s -> p2_X s = Xs -> p2_prepare env ps s = (s0, None) ->
  let F j := p2_factors (state_after (p2_model env ps) s0 j) in let P j := p2_Ps (state_after (p2_model env ps) s0 j) in
  let T := projected_tensor K nI Xs Qs in
  rows Ls = [nI; K; length Xs] -> tends K (fun k => F (S (pick k))) Ls -> tends_proj K Xs (fun k => P (S (pick k))) Qs ->
  mode_settled (nn 2%nat) (lam 2%nat) K T Ls 2 /\
  (ps_updates ps = 1%nat -> tends K (fun k => F (pick k)) Ls -> forall m, (m < 3)%nat -> mode_settled (nn m) (lam m) K T Ls m).
Proof.
  intros env ps K nI Xs s s0 nn lam Ls Qs pick HD HS HN H3 HP HO Hup HX HW Hs EX EP F P T HL HT HTP. destruct (named_options H3 HO) as [E1 E2].
  destruct (@p2_pen_limit env ps K nI Xs s s0 HD HS HN H3 HP Hup HX HW Hs EX EP Ls Qs pick HL HT HTP) as [G1 G2].
  split; [rewrite <- E1, <- E2 by lia; exact G1|]. intros H1 HT0 m Hm. rewrite <- E1, <- E2 by lia. now apply G2.
Qed.
Print Assumptions C118_limits.

(** If no mode is constrained and all penalties are positive (C117), such limits exist. *)
Theorem C118_exist : forall env ps K nI Xs s s0 la lb lc, drawn_settings ps K nI -> svd_contract (env_svd (pe_cp env)) ->
  nnls_contract (env_nnls (pe_cp env)) -> ps_nn ps = [false; false; false] -> ps_ridge ps = Some [la; lb; lc] -> 0 < la -> 0 < lb -> 0 < lc ->
  (0 < ps_updates ps)%nat -> slices_ok nI Xs -> (forall k, (k < length Xs)%nat -> (0 < width Xs k)%nat) ->
  p2_ok K nI s -> p2_X s = Xs -> p2_prepare env ps s = (s0, None) ->
  let F j := p2_factors (state_after (p2_model env ps) s0 j) in let P j := p2_Ps (state_after (p2_model env ps) s0 j) in
  exists Ls Qs pick, rows Ls = [nI; K; length Xs] /\ (forall k, (k <= pick k)%nat) /\
    tends K (fun k => F (S (pick k))) Ls /\ tends_proj K Xs (fun k => P (S (pick k))) Qs /\
    mode_settled false lc K (projected_tensor K nI Xs Qs) Ls 2.
Proof.
  intros env ps K nI Xs s s0 la lb lc HD HS HN Hnn Hr Ha Hb Hc Hup HX HW Hs EX EP F P.
  destruct (C117_accumulate env ps K nI Xs s s0 la lb lc HD HS HN Hnn Hr Ha Hb Hc Hup HX HW Hs EX EP) as (Ls & Qs & pick & [_ HR] & _ & _ & Hp & HT & HTP & _).
  assert (Ep : forall k, S (pred (pick k)) = pick k) by (intros k; specialize (Hp k); lia).
  assert (HT' : tends K (fun k => F (S (pred (pick k)))) Ls) by (intros n i r Hn Hi Hr'; eapply cv_ext; [|exact (HT n i r Hn Hi Hr')]; intros k; cbv beta; now rewrite Ep).
  assert (HTP' : tends_proj K Xs (fun k => P (S (pred (pick k)))) Qs) by (intros n i r Hn Hi Hr'; eapply cv_ext; [|exact (HTP n i r Hn Hi Hr')]; intros k; cbv beta; now rewrite Ep).
  exists Ls, Qs, (fun k => pred (pick k)). split; [exact HR|]. split; [intros k; specialize (Hp k); lia|]. split; [exact HT'|]. split; [exact HTP'|].
  refine (proj1 (C118_limits env ps K nI Xs s s0 (fun _ => false) (fun m => nth m [la; lb; lc] 0) Ls Qs (fun k => pred (pick k)) HD HS HN _ _ _ Hup HX HW Hs EX EP HR HT' HTP')).
  - now rewrite Hnn.
  - unfold p2_penalties. rewrite Hr. split; [cbn; lia|]. repeat constructor; lra.
  - intros m Hm. rewrite Hnn. unfold penalty. cbn [inner_settings cs_ridge]. rewrite Hr. destruct m as [|[|[|m]]]; try lia; split; reflexivity.
Qed.
Print Assumptions C118_exist.

(** *** The slice diag(3, 1) with one component and penalties 1, 2 and 3 (C117): limits exist, and C is best there in the sense above. *)
Example C118_example : exists env s s0 Ls Qs pick,
  p2_ok 1 2 s /\ p2_X s = fz_X /\ p2_prepare env pa_ps s = (s0, None) /\ (forall k, (k <= pick k)%nat) /\
  tends 1 (fun k => p2_factors (state_after (p2_model env pa_ps) s0 (S (pick k)))) Ls /\
  tends_proj 1 fz_X (fun k => p2_Ps (state_after (p2_model env pa_ps) s0 (S (pick k)))) Qs /\
  (let v := normal_lhs Ls 2 0 0 in let w := normal_rhs (projected_tensor 1 2 fz_X Qs) Ls 2 0 0 in
   mget (nth 2 Ls m0) 0 0 = v * w / (v ^ 2 + 3)).
Proof.
  destruct C117_example as (env & s & s0 & HD & HS & HN & HX & Hok & EX & EP & _).
  destruct (C118_exist env pa_ps 1 2 fz_X s s0 1 2 3 HD HS HN eq_refl eq_refl ltac:(lra) ltac:(lra) ltac:(lra) ltac:(cbn; lia) HX
    ltac:(intros k Hk; destruct k; [cbn; lia|cbn in Hk; lia]) Hok EX EP) as (Ls & Qs & pick & HR & Hp & HT & HTP & HM).
  exists env, s, s0, Ls, Qs, pick. split; [exact Hok|]. split; [exact EX|]. split; [exact EP|]. split; [exact Hp|]. split; [exact HT|]. split; [exact HTP|].
  intros v w. destruct HM as [_ HM]. set (c := mget (nth 2 Ls m0) 0 0). set (y := v * w / (v ^ 2 + 3)).
  specialize (HM (fun _ _ => y) ltac:(discriminate)). unfold normal_loss, normal_dist, dist2, frob2, mprod in HM.
  change (nth 2 (shape (projected_tensor 1 2 fz_X Qs)) 0%nat) with 1%nat in HM. cbn [seq sumf] in HM. fold c v w in HM.
  assert (Hv : 0 < v ^ 2 + 3) by (pose proof (pow2_ge_0 v); lra).
  assert (Ey : y * (v ^ 2 + 3) = v * w) by (unfold y; field; lra).
  assert (Hz : (v ^ 2 + 3) * (c - y) ^ 2 <= 0).
  { replace ((v ^ 2 + 3) * (c - y) ^ 2) with (((c * v - w) ^ 2 + 3 * c ^ 2) - ((y * v - w) ^ 2 + 3 * y ^ 2) - 2 * (c - y) * (y * (v ^ 2 + 3) - v * w)) by ring.
    rewrite Ey. lra. }
  assert (H2 : (c - y) ^ 2 = 0) by (pose proof (pow2_ge_0 (c - y)); nra). nra.
Qed.
