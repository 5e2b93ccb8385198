(** Property C102: where Parafac2_ALS stands still, what one iteration guarantees, and exact starts. *)
From Verif Require Import P2FixFacts SafeExamples Exists ShortMode Decomposer CPExamples Props_Relocate.
From Verif Require Import Prelude Lin.
Local Open Scope R_scope.

(** *** C102.  Iterations without constraints and penalties.  If one leaves A, B and C as they are, so do all later ones, and the
    projections stay the same as well.  If the projections it computes have orthonormal columns, it leaves the factors as they
    are exactly if, given these projections, each of them is the smallest of the best matrices in its place, however many
    passes over the factors an iteration has.  Then the error is flat in every factor (and no
    other projections are better, see below). *)
Theorem C102_standing_still : forall env ps K nI Xs s s0, drawn_settings ps K nI -> svd_contract (env_svd (pe_cp env)) ->
  nnls_contract (env_nnls (pe_cp env)) -> plain_settings ps -> (0 < ps_updates ps)%nat -> slices_ok nI Xs -> wide K Xs ->
  p2_ok K nI s -> p2_X s = Xs -> p2_prepare env ps s = (s0, None) ->
  let md := p2_model env ps in
  forall j, let u := state_after md s0 j in let v := state_after md s0 (S j) in
    (p2_factors v = p2_factors u -> forall i, p2_factors (state_after md s0 (j + i)) = p2_factors u /\ p2_Ps (state_after md s0 (S j + i)) = p2_Ps v) /\
    (orth_projections K Xs (p2_Ps v) ->
      (p2_factors v = p2_factors u <-> forall m, (m < 3)%nat -> p2_smallest K nI Xs (p2_Ps v) (p2_factors u) m) /\
      (p2_factors v = p2_factors u -> forall m, (m < 3)%nat -> p2_flat K nI Xs (p2_Ps v) (p2_factors u) m)).
Proof.
  intros env ps K nI Xs s s0 HD HS HN HU Hup HX HW Hs EX E md j.
  destruct (@still_run env ps K nI Xs s s0 HD HS HN HU Hup HX HW Hs EX E j) as (_ & _ & H1 & H2). split; [exact H1|]. intros HO. destruct (H2 HO) as (G1 & G2 & _). auto.
Qed.
Print Assumptions C102_standing_still.

(** *** One iteration.  It does not raise; the new projections have orthonormal columns exactly if the code cuts off no
    singular value; then they are the best for the old factors, and the new error is not larger than that of the old factors with any projections at all, and not larger
    than that of any matrix in place of A with the old B and C. *)
Theorem C102_bound : forall env ps K nI Xs s s0, drawn_settings ps K nI -> svd_contract (env_svd (pe_cp env)) ->
  nnls_contract (env_nnls (pe_cp env)) -> plain_settings ps -> (0 < ps_updates ps)%nat -> slices_ok nI Xs -> wide K Xs ->
  p2_ok K nI s -> p2_X s = Xs -> p2_prepare env ps s = (s0, None) ->
  let md := p2_model env ps in
  forall j, let u := state_after md s0 j in let v := state_after md s0 (S j) in
    snd (md_update md u) = None /\
    (orth_projections K Xs (p2_Ps v) <->
      forall k, (k < length Xs)%nat -> untruncated (env_svd (pe_cp env)) (width Xs k) K (cross K nI (p2_A u) (p2_B u) (p2_C u) Xs k)) /\
    (orth_projections K Xs (p2_Ps v) ->
      best_projections K nI Xs (p2_Ps v) (p2_factors u) /\
      (forall Qs, orth_projections K Xs Qs -> p2_err K nI Xs (p2_Ps v) (p2_factors v) <= p2_err K nI Xs Qs (p2_factors u)) /\
      (forall W, is_mat nI K W -> p2_err K nI Xs (p2_Ps v) (p2_factors v) <= p2_err K nI Xs (p2_Ps v) (with_factor 0 W (p2_factors u)))).
Proof.
  intros env ps K nI Xs s s0 HD HS HN HU Hup HX HW Hs EX E md j.
  destruct (@still_run env ps K nI Xs s s0 HD HS HN HU Hup HX HW Hs EX E j) as (H0 & H1 & _ & H2). split; [exact H0|]. split; [exact H1|].
  intros HO. destruct (H2 HO) as (_ & _ & G). exact G.
Qed.
Print Assumptions C102_bound.

(** From factors that belong to an exact model, with whatever projections, the error is 0 after every iteration. *)
Theorem C102_exact_runs : forall env ps K nI Xs s s0, drawn_settings ps K nI -> svd_contract (env_svd (pe_cp env)) ->
  nnls_contract (env_nnls (pe_cp env)) -> plain_settings ps -> (0 < ps_updates ps)%nat -> slices_ok nI Xs -> wide K Xs ->
  p2_ok K nI s -> p2_X s = Xs -> p2_prepare env ps s = (s0, None) ->
  let md := p2_model env ps in
  (exists Qs, orth_projections K Xs Qs /\ p2_err K nI Xs Qs (p2_factors s0) = 0) ->
  forall j, (forall i, (i <= j)%nat -> orth_projections K Xs (p2_Ps (state_after md s0 (S i)))) ->
    p2_loss ps (state_after md s0 (S j)) = Ok 0.
Proof. exact exact_run. Qed.
Print Assumptions C102_exact_runs.

(** *** Complete fits; s0 is the state in which the first iteration starts.  A fit with a positive tolerance ends at most one
    iteration after the first that changed no factor, if the error is not zero.  A fit that starts at the factors of an exact
    model ends with error 0, but it uses up its budget: the relative change 0 / 0 is not below the tolerance. *)
Theorem C102_fits : forall env ps K nI cf disk A C Ns Xs budget arg ds,
  penalised_fit env ps K nI (A :: C :: Ns) Xs -> plain_settings ps -> (0 < ps_updates ps)%nat -> plain_run ps cf budget ds ->
  let md := p2_model env ps in
  exists ds' s s0, p2_fit env ps cf disk (A :: C :: Ns) (Slices Xs) (Some budget) arg ds = (ds', None) /\
    p2_ok K nI s /\ p2_X s = Xs /\ p2_prepare env ps s = (s0, None) /\
    p2_factors s0 = [A; np_identity K; np_map (fun x => x + / 10) C] /\ mapM (drawn_projection env K) Ns = Ok (p2_Ps s0) /\ p2_X s0 = Xs /\
    ds_num ds' = state_after md s0 (Z.to_nat (ds_it ds')) /\
    (forall j l, p2_factors (state_after md s0 (S j)) = p2_factors (state_after md s0 j) ->
      p2_loss ps (state_after md s0 (S j)) = Ok l -> l <> 0 -> 0 < cf_tol cf -> (ds_it ds' <= Z.of_nat (S (S j)))%Z) /\
    ((exists Qs, orth_projections K Xs Qs /\ p2_err K nI Xs Qs (p2_factors s0) = 0) ->
     (forall j, orth_projections K Xs (p2_Ps (state_after md s0 (S j)))) ->
     p2_loss ps (ds_num ds') = Ok 0 /\ (cf_tol cf <= 1 -> ds_it ds' = budget)).
Proof. exact still_fits. Qed.
Print Assumptions C102_fits.

(** *** Examples: one slice diag(3, 1) and one component, started at the second singular vector *)
Definition fz_ps : p2_settings :=
  {| ps_rank := 1; ps_init := "random"; ps_updates := 3; ps_nn := [false; false; false]; ps_ridge := None; ps_orth := None |}.
Definition fz_X : list nd := [mk [2; 2]%nat [3; 0; 0; 1]].
Definition fz_A : nd := mk [2; 1]%nat [0; 1].
Definition fz_C : nd := mk [1; 1]%nat [9/10].
Definition fz_N : list nd := [mk [2; 1]%nat [1; 3]].
Definition fz_F : list nd := [fz_A; mk [1; 1]%nat [1]; mk [1; 1]%nat [1]].
(** Exact data: 5 [1; 2] [3/5, 4/5] and 2 [1; 2] [1] *)
Definition ft_X : list nd := [mk [2; 2]%nat [3; 4; 6; 8]; mk [2; 1]%nat [2; 4]].
Definition ft_A : nd := mk [2; 1]%nat [1; 2].
Definition ft_C : nd := mk [2; 1]%nat [49/10; 19/10].
Definition ft_N : list nd := [mk [2; 1]%nat [1; 3]; mk [1; 1]%nat [7]].
Definition ft_F : list nd := [ft_A; mk [1; 1]%nat [1]; mk [2; 1]%nat [5; 2]].
Definition ft_Q : list nd := [mk [2; 1]%nat [3/5; 4/5]; mk [1; 1]%nat [1]].

Lemma fx_settings : drawn_settings fz_ps 1 2 /\ plain_settings fz_ps.
Proof. split; [|split; reflexivity]. split; [reflexivity|]. split; [now left|]. split; lia. Qed.
Lemma fx_start svd nnls A C Ns Xs : svd_contract svd -> nnls_contract nnls -> Xs <> [] ->
  (forall k, (k < length Xs)%nat -> (1 <= width Xs k)%nat /\ is_mat 2 (width Xs k) (nth k Xs m0) /\ is_mat (width Xs k) 1 (nth k Ns m0)) ->
  length Ns = length Xs -> is_mat 2 1 A -> is_mat (length Xs) 1 C -> penalised_fit (mv_env svd nnls) fz_ps 1 2 (A :: C :: Ns) Xs.
Proof.
  intros Hs Hn HL H HNl HA HC. constructor; auto.
  - constructor; try reflexivity.
    + now left.
    + split; lia.
    + split; [exact HL|]. intros k Hk. now apply H.
    + exists A, C, Ns. split; [reflexivity|]. split; [exact HA|]. split; [exact HC|]. split; [exact HNl|]. intros k Hk. now apply H.
    + intros k _ B HB. exact (qr_of_svd Hs HB).
    + intros k Hk. now apply H.
  - exact I.
Qed.
(** Nothing is cut off from a column that is not zero. *)
Lemma column_untruncated svd n M : svd_contract svd -> (1 <= n)%nat -> INR n < 10 ^ 16 -> (exists i, (i < n)%nat /\ M i 0%nat <> 0) -> untruncated svd n 1 M.
Proof.
  intros HS Hn Hb (i & Hi & HM) BA U Sv Vh HBA HE E r Hr. replace r with 0%nat by lia.
  destruct (HS n 1%nat BA HBA) as (U' & Sv' & Vh' & E' & HV). rewrite E in E'. injection E' as <- <- <-.
  rewrite <- HE in HM by auto. rewrite (svd_product HV) in HM by auto. rewrite Nat.min_r in HM by auto.
  cbn [seq sumf] in HM. pose proof (svd_S_nonneg HV) as H0. rewrite Nat.min_r in H0 by auto. specialize (H0 0%nat ltac:(lia)).
  assert (Hp : 0 < vget Sv 0).
  { destruct H0 as [H0|H0]; auto. exfalso. apply HM. rewrite <- H0. ring. }
  rewrite Rmult_comm, <- Rmult_assoc. rewrite <- (Rmult_1_l (vget Sv 0)) at 2. apply Rmult_lt_compat_r; auto.
  apply (Rmult_lt_reg_r (10 ^ 16)); [apply pow_lt; lra|]. rewrite Rmult_comm, <- Rmult_assoc, Rinv_r, !Rmult_1_l; auto.
  apply pow_nonzero. lra.
Qed.
Lemma fz_err Ps A B C : let P := mget (nth 0 Ps m0) in let w := mget C 0 0 * mget B 0 0 in
  p2_err 1 2 fz_X Ps [A; B; C] =
  (mget A 0 0 * w * P 0%nat 0%nat - 3) ^ 2 + (mget A 0 0 * w * P 1%nat 0%nat) ^ 2 + (mget A 1 0 * w * P 0%nat 0%nat) ^ 2 + (mget A 1 0 * w * P 1%nat 0%nat - 1) ^ 2.
Proof.
  intros P w. unfold p2_err, pf_sse, slice_err, dist2, pf_entry, mprod. cbn [nth length fz_X seq sumf]. change (width fz_X 0) with 2%nat.
  cbn [seq sumf]. change (mget (mk [2; 2]%nat [3; 0; 0; 1]) 0 0) with 3. change (mget (mk [2; 2]%nat [3; 0; 0; 1]) 0 1) with 0.
  change (mget (mk [2; 2]%nat [3; 0; 0; 1]) 1 0) with 0. change (mget (mk [2; 2]%nat [3; 0; 0; 1]) 1 1) with 1. fold P. unfold w. ring.
Qed.
Lemma fz_smallest Ps : best_projections 1 2 fz_X Ps fz_F -> forall m, (m < 3)%nat -> p2_smallest 1 2 fz_X Ps fz_F m.
Proof.
  intros [HO HB] m Hm. specialize (HB [fz_A]).
  assert (HQ : orth_projections 1 fz_X [fz_A]).
  { intros k Hk. destruct k; [|cbn in Hk; lia]. intros r q Hr Hq. destruct r; [|lia]. destruct q; [|lia]. cbn. lra. }
  specialize (HB HQ). unfold fz_F in HB. rewrite !fz_err in HB. set (P := mget (nth 0 Ps m0)) in *. cbn [nth] in HB.
  change (mget fz_A 0 0) with 0 in HB. change (mget fz_A 1 0) with 1 in HB. change (mget (mk [1; 1]%nat [1]) 0 0) with 1 in HB.
  assert (HP : (P 0%nat 0%nat) ^ 2 + (P 1%nat 0%nat - 1) ^ 2 <= 0) by lra.
  pose proof (pow2_ge_0 (P 0%nat 0%nat)) as G0. pose proof (pow2_ge_0 (P 1%nat 0%nat - 1)) as G1.
  assert (H0 : P 0%nat 0%nat = 0) by (apply Rsqr_0_uniq; unfold Rsqr; lra).
  assert (H1 : P 1%nat 0%nat = 1) by (apply Rminus_diag_uniq, Rsqr_0_uniq; unfold Rsqr; lra).
  assert (E : forall A B C, p2_err 1 2 fz_X Ps [A; B; C] = 9 + (mget A 0 0 * (mget C 0 0 * mget B 0 0)) ^ 2 + (mget A 1 0 * (mget C 0 0 * mget B 0 0) - 1) ^ 2).
  { intros A B C. rewrite fz_err. fold P. rewrite H0, H1. ring. }
  assert (F : forall W, frob2 2 1 (mget W) = mget W 0 0 ^ 2 + mget W 1 0 ^ 2) by (intros W; unfold frob2; cbn [seq sumf]; ring).
  assert (F' : forall W, frob2 1 1 (mget W) = mget W 0 0 ^ 2) by (intros W; unfold frob2; cbn [seq sumf]; ring).
  unfold p2_smallest, fz_F, with_factor.
  destruct m as [|[|[|m]]]; [| | |lia]; cbn [replace_at nth length fz_X]; (split; intros W HW; rewrite !E, ?F, ?F';
    change (mget fz_A 0 0) with 0; change (mget fz_A 1 0) with 1; change (mget (mk [1; 1]%nat [1]) 0 0) with 1; [|intros H]).
  - pose proof (pow2_ge_0 (mget W 0 0)). pose proof (pow2_ge_0 (mget W 1 0 - 1)). lra.
  - pose proof (pow2_ge_0 (mget W 0 0)) as K0. pose proof (pow2_ge_0 (mget W 1 0 - 1)) as K1.
    assert (H2 : mget W 1 0 = 1) by (apply Rminus_diag_uniq, Rsqr_0_uniq; unfold Rsqr; lra). rewrite H2. lra.
  - pose proof (pow2_ge_0 (mget W 0 0 - 1)). lra.
  - pose proof (pow2_ge_0 (mget W 0 0 - 1)). assert (HW1 : mget W 0 0 = 1) by (apply Rminus_diag_uniq, Rsqr_0_uniq; unfold Rsqr; lra). rewrite HW1. lra.
  - pose proof (pow2_ge_0 (mget W 0 0 - 1)). lra.
  - pose proof (pow2_ge_0 (mget W 0 0 - 1)). assert (HW1 : mget W 0 0 = 1) by (apply Rminus_diag_uniq, Rsqr_0_uniq; unfold Rsqr; lra). rewrite HW1. lra.
Qed.
Lemma fz_untruncated svd : svd_contract svd ->
  forall k, (k < length fz_X)%nat -> untruncated svd (width fz_X k) 1 (cross 1 2 fz_A (mk [1; 1]%nat [1]) (mk [1; 1]%nat [1]) fz_X k).
Proof.
  intros HS k Hk. destruct k; [|cbn in Hk; lia]. change (width fz_X 0) with 2%nat. apply column_untruncated; [exact HS|lia|cbn; lra|].
  exists 1%nat. split; [lia|]. cbn. lra.
Qed.

(** No iteration changes the factors, the fit ends after at most two iterations with error 9, although there is a model with error 1. *)
Example C102_still_example : exists env ds',
  p2_fit env fz_ps mv_cf no_disk (fz_A :: fz_C :: fz_N) (Slices fz_X) (Some 50%Z) P2None mv_ds = (ds', None) /\
  (ds_it ds' <= 2)%Z /\ p2_factors (ds_num ds') = fz_F /\ p2_loss fz_ps (ds_num ds') = Ok 9 /\
  (forall m, (m < 3)%nat -> p2_flat 1 2 fz_X (p2_Ps (ds_num ds')) fz_F m) /\
  p2_err 1 2 fz_X [mk [2; 1]%nat [1; 0]] [mk [2; 1]%nat [3; 0]; mk [1; 1]%nat [1]; mk [1; 1]%nat [1]] = 1.
Proof.
  destruct svd_contract_satisfiable as (svd & Hs). destruct nnls_contract_satisfiable as (nnls & Hn). exists (mv_env svd nnls).
  assert (HR : plain_run fz_ps mv_cf 50 mv_ds) by (constructor; [lia|intros lg []|discriminate|now left]).
  assert (HF : penalised_fit (mv_env svd nnls) fz_ps 1 2 (fz_A :: fz_C :: fz_N) fz_X).
  { apply fx_start; [exact Hs|exact Hn|discriminate| |reflexivity|split; reflexivity|split; reflexivity].
    intros k Hk. destruct k; [|cbn in Hk; lia]. split; [cbn; lia|]. split; split; reflexivity. }
  destruct fx_settings as [HD HU].
  destruct (C102_fits (mv_env svd nnls) fz_ps 1 2 mv_cf no_disk fz_A fz_C fz_N fz_X 50%Z P2None mv_ds HF HU ltac:(cbn; lia) HR)
    as (ds' & s & s0 & E & Hok & EX & EP & F0 & _ & X0 & N & HST & _).
  assert (F0' : p2_factors s0 = fz_F).
  { rewrite F0. unfold fz_F. f_equal. f_equal. f_equal. unfold fz_C, np_map. cbn. f_equal. f_equal. lra. }
  pose proof (pf_start HF) as HDS. destruct HDS as [_ _ _ _ HX _ _ WX].
  pose proof (C102_standing_still (mv_env svd nnls) fz_ps 1 2 fz_X s s0 HD Hs Hn HU ltac:(cbn; lia) HX WX Hok EX EP 0%nat) as H1. cbn zeta in H1. destruct H1 as [H1 H2].
  pose proof (C102_bound (mv_env svd nnls) fz_ps 1 2 fz_X s s0 HD Hs Hn HU ltac:(cbn; lia) HX WX Hok EX EP 0%nat) as H3. cbn zeta in H3. destruct H3 as (_ & H3 & H4).
  set (md := p2_model (mv_env svd nnls) fz_ps) in *. change (state_after md s0 0) with s0 in *.
  assert (HO : orth_projections 1 fz_X (p2_Ps (state_after md s0 1))).
  { apply H3. intros k Hk. unfold p2_factors, fz_F in F0'. injection F0' as -> -> ->. apply fz_untruncated; auto. }
  destruct (H4 HO) as [HB _]. destruct (H2 HO) as [HI HFl]. rewrite F0' in *.
  assert (EF : p2_factors (state_after md s0 1) = fz_F) by (apply HI; now apply fz_smallest). specialize (H1 EF). specialize (HFl EF).
  assert (HA : forall j, p2_factors (state_after md s0 j) = fz_F) by (intros j; apply (H1 j)).
  assert (HP : forall j, p2_Ps (state_after md s0 (S j)) = p2_Ps (state_after md s0 1)) by (intros j; apply (H1 j)).
  assert (E9 : p2_err 1 2 fz_X (p2_Ps (state_after md s0 1)) fz_F = 9).
  { destruct HB as [_ HB]. assert (HQ : orth_projections 1 fz_X [fz_A]).
    { intros k Hk. destruct k; [|cbn in Hk; lia]. intros r q Hr Hq. destruct r; [|lia]. destruct q; [|lia]. cbn. lra. }
    specialize (HB _ HQ). unfold fz_F in HB |- *. rewrite !fz_err in HB. rewrite fz_err. set (P := mget (nth 0 (p2_Ps (state_after md s0 1)) m0)) in *. cbn [nth] in HB.
    change (mget fz_A 0 0) with 0 in HB |- *. change (mget fz_A 1 0) with 1 in HB |- *. change (mget (mk [1; 1]%nat [1]) 0 0) with 1 in HB |- *.
    pose proof (pow2_ge_0 (P 0%nat 0%nat)) as G0. pose proof (pow2_ge_0 (P 1%nat 0%nat - 1)) as G1. lra. }
  assert (HL : forall j, p2_loss fz_ps (state_after md s0 (S j)) = Ok 9).
  { intros j. destruct HD as (D1 & D2 & D3 & D4).
    destruct (@prepare_ready (mv_env svd nnls) fz_ps 1 2 D1 D2 D3 D4 s Hok) as (x & Ex & Rx & Ax & _); [rewrite EX; cbn; lia|]. rewrite EP in Ex. injection Ex as <-.
    pose proof (@ready_after (mv_env svd nnls) fz_ps 1 2 D1 s0 (S j) Rx) as Ru. fold md in Ru. rewrite (p2_loss_ok fz_ps (rd_ok Ru)). cbn [fz_ps ps_ridge]. rewrite Rplus_0_r. f_equal.
    pose proof (fr_X (after_frame (mv_env svd nnls) fz_ps s0 (S j))) as EXj. fold md in EXj. rewrite EXj, X0, HP. rewrite <- E9. rewrite <- (HA (S j)). reflexivity. }
  assert (Hit : (ds_it ds' <= 2)%Z) by (apply (HST 0%nat 9); [now rewrite !HA|apply HL|lra|cbn; lra]).
  exists ds'. split; [exact E|]. split; [exact Hit|]. rewrite N. split; [apply HA|].
  destruct (@drawn_runs (mv_env svd nnls) fz_ps 1 2 mv_cf no_disk fz_A fz_C fz_N fz_X 50%Z P2None mv_ds HF HR) as (d & s0' & n & l & Ed & _ & _ & _ & _ & _ & _ & _ & _ & In & Pn & _).
  rewrite E in Ed. injection Ed as <-. rewrite In, Nat2Z.id. destruct n as [|n]; [lia|]. split; [apply HL|]. split.
  - rewrite HP. exact HFl.
  - rewrite fz_err. cbn. lra.
Qed.

Lemma ft_err Ps A B C : let P := mget (nth 0 Ps m0) in let p := mget (nth 1 Ps m0) 0%nat 0%nat in let w := mget C 0 0 * mget B 0 0 in let x := mget C 1 0 * mget B 0 0 in
  p2_err 1 2 ft_X Ps [A; B; C] =
  (mget A 0 0 * w * P 0%nat 0%nat - 3) ^ 2 + (mget A 0 0 * w * P 1%nat 0%nat - 4) ^ 2 + (mget A 1 0 * w * P 0%nat 0%nat - 6) ^ 2 + (mget A 1 0 * w * P 1%nat 0%nat - 8) ^ 2 +
  (mget A 0 0 * x * p - 2) ^ 2 + (mget A 1 0 * x * p - 4) ^ 2.
Proof.
  intros P p w x. unfold p2_err, pf_sse, slice_err, dist2, pf_entry, mprod. cbn [nth length ft_X seq sumf]. change (width ft_X 0) with 2%nat. change (width ft_X 1) with 1%nat.
  cbn [seq sumf]. change (mget (mk [2; 2]%nat [3; 4; 6; 8]) 0 0) with 3. change (mget (mk [2; 2]%nat [3; 4; 6; 8]) 0 1) with 4.
  change (mget (mk [2; 2]%nat [3; 4; 6; 8]) 1 0) with 6. change (mget (mk [2; 2]%nat [3; 4; 6; 8]) 1 1) with 8.
  change (mget (mk [2; 1]%nat [2; 4]) 0 0) with 2. change (mget (mk [2; 1]%nat [2; 4]) 1 0) with 4. fold P p. unfold w, x. ring.
Qed.
Lemma ft_exact : orth_projections 1 ft_X ft_Q /\ p2_err 1 2 ft_X ft_Q ft_F = 0.
Proof.
  split.
  - intros k Hk. below2 k Hk; intros r q Hr Hq; (destruct r; [|lia]); (destruct q; [|lia]); cbn; lra.
  - unfold ft_F. rewrite ft_err. cbn. lra.
Qed.
Lemma square_zero x : x ^ 2 <= 0 -> x = 0.
Proof. intros H. apply Rsqr_0_uniq. unfold Rsqr. pose proof (pow2_ge_0 x). lra. Qed.
Lemma ft_smallest Ps : best_projections 1 2 ft_X Ps ft_F -> forall m, (m < 3)%nat -> p2_smallest 1 2 ft_X Ps ft_F m.
Proof.
  intros [HO HB] m Hm. specialize (HB _ (proj1 ft_exact)). rewrite (proj2 ft_exact) in HB. unfold ft_F in HB. rewrite ft_err in HB.
  set (P := mget (nth 0 Ps m0)) in *. set (p := mget (nth 1 Ps m0) 0%nat 0%nat) in *.
  change (mget ft_A 0 0) with 1 in HB. change (mget ft_A 1 0) with 2 in HB. change (mget (mk [1; 1]%nat [1]) 0 0) with 1 in HB.
  change (mget (mk [2; 1]%nat [5; 2]) 0 0) with 5 in HB. change (mget (mk [2; 1]%nat [5; 2]) 1 0) with 2 in HB.
  pose proof (pow2_ge_0 (1 * (5 * 1) * P 0%nat 0%nat - 3)) as G1. pose proof (pow2_ge_0 (1 * (5 * 1) * P 1%nat 0%nat - 4)) as G2.
  pose proof (pow2_ge_0 (2 * (5 * 1) * P 0%nat 0%nat - 6)) as G3. pose proof (pow2_ge_0 (2 * (5 * 1) * P 1%nat 0%nat - 8)) as G4.
  pose proof (pow2_ge_0 (1 * (2 * 1) * p - 2)) as G5. pose proof (pow2_ge_0 (2 * (2 * 1) * p - 4)) as G6.
  assert (H0 : 1 * (5 * 1) * P 0%nat 0%nat - 3 = 0) by (apply square_zero; lra).
  assert (H1 : 1 * (5 * 1) * P 1%nat 0%nat - 4 = 0) by (apply square_zero; lra).
  assert (H2 : 1 * (2 * 1) * p - 2 = 0) by (apply square_zero; lra).
  assert (E0 : P 0%nat 0%nat = 3/5) by lra. assert (E1 : P 1%nat 0%nat = 4/5) by lra. assert (E2 : p = 1) by lra.
  assert (E : forall A B C, p2_err 1 2 ft_X Ps [A; B; C] = (mget A 0 0 * (mget C 0 0 * mget B 0 0) - 5) ^ 2 + (mget A 1 0 * (mget C 0 0 * mget B 0 0) - 10) ^ 2 +
    (mget A 0 0 * (mget C 1 0 * mget B 0 0) - 2) ^ 2 + (mget A 1 0 * (mget C 1 0 * mget B 0 0) - 4) ^ 2).
  { intros A B C. rewrite ft_err. fold P p. rewrite E0, E1, E2. field. }
  assert (F : forall W, frob2 2 1 (mget W) = mget W 0 0 ^ 2 + mget W 1 0 ^ 2) by (intros W; unfold frob2; cbn [seq sumf]; ring).
  assert (F' : forall W, frob2 1 1 (mget W) = mget W 0 0 ^ 2) by (intros W; unfold frob2; cbn [seq sumf]; ring).
  unfold p2_smallest, ft_F, with_factor.
  assert (Q : forall x y, 0 <= (x - y) ^ 2) by (intros; apply pow2_ge_0).
  destruct m as [|[|[|m]]]; [| | |lia]; cbn [replace_at nth length ft_X]; (split; intros W HW; rewrite !E, ?F, ?F';
    change (mget ft_A 0 0) with 1; change (mget ft_A 1 0) with 2; change (mget (mk [1; 1]%nat [1]) 0 0) with 1;
    change (mget (mk [2; 1]%nat [5; 2]) 0 0) with 5; change (mget (mk [2; 1]%nat [5; 2]) 1 0) with 2; [|intros H]).
  - pose proof (Q (mget W 0 0 * (5 * 1)) 5). pose proof (Q (mget W 1 0 * (5 * 1)) 10). pose proof (Q (mget W 0 0 * (2 * 1)) 2). pose proof (Q (mget W 1 0 * (2 * 1)) 4). lra.
  - pose proof (Q (mget W 0 0 * (5 * 1)) 5). pose proof (Q (mget W 1 0 * (5 * 1)) 10). pose proof (Q (mget W 0 0 * (2 * 1)) 2). pose proof (Q (mget W 1 0 * (2 * 1)) 4).
    assert (W0 : mget W 0 0 * (5 * 1) - 5 = 0) by (apply square_zero; lra). assert (W1 : mget W 1 0 * (5 * 1) - 10 = 0) by (apply square_zero; lra).
    replace (mget W 0 0) with 1 by lra. replace (mget W 1 0) with 2 by lra. lra.
  - pose proof (Q (1 * (5 * mget W 0 0)) 5). pose proof (Q (2 * (5 * mget W 0 0)) 10). pose proof (Q (1 * (2 * mget W 0 0)) 2). pose proof (Q (2 * (2 * mget W 0 0)) 4). lra.
  - pose proof (Q (1 * (5 * mget W 0 0)) 5). pose proof (Q (2 * (5 * mget W 0 0)) 10). pose proof (Q (1 * (2 * mget W 0 0)) 2). pose proof (Q (2 * (2 * mget W 0 0)) 4).
    assert (W0 : 1 * (5 * mget W 0 0) - 5 = 0) by (apply square_zero; lra). replace (mget W 0 0) with 1 by lra. lra.
  - pose proof (Q (1 * (mget W 0 0 * 1)) 5). pose proof (Q (2 * (mget W 0 0 * 1)) 10). pose proof (Q (1 * (mget W 1 0 * 1)) 2). pose proof (Q (2 * (mget W 1 0 * 1)) 4). lra.
  - pose proof (Q (1 * (mget W 0 0 * 1)) 5). pose proof (Q (2 * (mget W 0 0 * 1)) 10). pose proof (Q (1 * (mget W 1 0 * 1)) 2). pose proof (Q (2 * (mget W 1 0 * 1)) 4).
    assert (W0 : 1 * (mget W 0 0 * 1) - 5 = 0) by (apply square_zero; lra). assert (W1 : 1 * (mget W 1 0 * 1) - 2 = 0) by (apply square_zero; lra).
    replace (mget W 0 0) with 5 by lra. replace (mget W 1 0) with 2 by lra. lra.
Qed.
Lemma ft_untruncated svd : svd_contract svd ->
  forall k, (k < length ft_X)%nat -> untruncated svd (width ft_X k) 1 (cross 1 2 ft_A (mk [1; 1]%nat [1]) (mk [2; 1]%nat [5; 2]) ft_X k).
Proof.
  intros HS k Hk. below2 k Hk.
  - change (width ft_X 0) with 2%nat. apply column_untruncated; [exact HS|lia|cbn; lra|]. exists 0%nat. split; [lia|]. cbn. lra.
  - change (width ft_X 1) with 1%nat. apply column_untruncated; [exact HS|lia|cbn; lra|]. exists 0%nat. split; [lia|]. cbn. lra.
Qed.

(** Started at the factors of an exact model the fit ends there with error 0, after all of its 50 iterations. *)
Example C102_exact_example : exists env ds',
  p2_fit env fz_ps mv_cf no_disk (ft_A :: ft_C :: ft_N) (Slices ft_X) (Some 50%Z) P2None mv_ds = (ds', None) /\
  ds_it ds' = 50%Z /\ p2_factors (ds_num ds') = ft_F /\ p2_loss fz_ps (ds_num ds') = Ok 0.
Proof.
  destruct svd_contract_satisfiable as (svd & Hs). destruct nnls_contract_satisfiable as (nnls & Hn). exists (mv_env svd nnls).
  assert (HR : plain_run fz_ps mv_cf 50 mv_ds) by (constructor; [lia|intros lg []|discriminate|now left]).
  assert (HF : penalised_fit (mv_env svd nnls) fz_ps 1 2 (ft_A :: ft_C :: ft_N) ft_X).
  { apply fx_start; [exact Hs|exact Hn|discriminate| |reflexivity|split; reflexivity|split; reflexivity].
    intros k Hk. below2 k Hk; (split; [cbn; lia|]; split; split; reflexivity). }
  destruct fx_settings as [HD HU].
  destruct (C102_fits (mv_env svd nnls) fz_ps 1 2 mv_cf no_disk ft_A ft_C ft_N ft_X 50%Z P2None mv_ds HF HU ltac:(cbn; lia) HR)
    as (ds' & s & s0 & E & Hok & EX & EP & F0 & _ & X0 & N & _ & HE).
  assert (F0' : p2_factors s0 = ft_F).
  { rewrite F0. unfold ft_F. f_equal. f_equal. f_equal. unfold ft_C, np_map. cbn. f_equal. f_equal; [lra|]. f_equal. lra. }
  pose proof (pf_start HF) as HDS. destruct HDS as [_ _ _ _ HX _ _ WX].
  pose proof (C102_standing_still (mv_env svd nnls) fz_ps 1 2 ft_X s s0 HD Hs Hn HU ltac:(cbn; lia) HX WX Hok EX EP 0%nat) as H1. cbn zeta in H1. destruct H1 as [H1 H2].
  pose proof (C102_bound (mv_env svd nnls) fz_ps 1 2 ft_X s s0 HD Hs Hn HU ltac:(cbn; lia) HX WX Hok EX EP) as H3. cbn zeta in H3.
  set (md := p2_model (mv_env svd nnls) fz_ps) in *.
  assert (HO : forall j, p2_factors (state_after md s0 j) = ft_F -> orth_projections 1 ft_X (p2_Ps (state_after md s0 (S j)))).
  { intros j Fj. destruct (H3 j) as (_ & H & _). apply H. intros k Hk. unfold p2_factors, ft_F in Fj.
    pose proof (f_equal (fun Fs => nth 0 Fs m0) Fj) as EA. pose proof (f_equal (fun Fs => nth 1 Fs m0) Fj) as EB. pose proof (f_equal (fun Fs => nth 2 Fs m0) Fj) as EC.
    cbn [nth] in EA, EB, EC. rewrite EA, EB, EC. apply ft_untruncated; auto. }
  destruct (H3 0%nat) as (_ & _ & H4). change (state_after md s0 0) with s0 in *. pose proof (HO 0%nat F0') as HO0. destruct (H4 HO0) as [HB _]. destruct (H2 HO0) as [HI _].
  rewrite F0' in *. assert (EF : p2_factors (state_after md s0 1) = ft_F) by (apply HI; now apply ft_smallest). specialize (H1 EF).
  assert (HA : forall j, p2_factors (state_after md s0 j) = ft_F) by (intros j; apply (H1 j)).
  destruct HE as [HL HI2]; [exists ft_Q; exact ft_exact|intros j; apply HO, HA|].
  exists ds'. split; [exact E|]. split; [apply HI2; cbn; lra|]. split; [rewrite N; apply HA|exact HL].
Qed.
