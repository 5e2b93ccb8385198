(** Proofs for C103. *)
From Verif Require Export StackSpec StopFacts Parafac2Init CMTFWitness.
From Verif Require Import Prelude Lin.
Set Implicit Arguments.
Unset Strict Implicit.
Local Open Scope R_scope.

Lemma stack_stacked nI w Xs : one_shape nI w Xs -> (0 < nI)%nat -> (0 < w)%nat ->
  exists X, stack Xs = Ok X /\ stacked nI w Xs X /\ data_ok X.
Proof.
  intros [Hne HX] HnI Hw. destruct (stack_ok Hne HX HnI Hw) as (X & E & HS & HD). exists X. split; [exact E|]. split; [|exact HD].
  split; [apply HD|]. split; [exact HS|]. intros k i j Hk Hi Hj. revert E. unfold stack.
  assert (H0 : (0 < length Xs)%nat) by lia.
  rewrite (@list_get_ok _ Xs 0%nat m0 H0). cbn [bind]. unfold shape2. rewrite (proj2 (HX 0%nat H0)). cbn [bind].
  destruct (forallb _ Xs); [|discriminate]. intros E. injection E as <-. rewrite get_tab by (repeat constructor; assumption). cbn [nth]. now rewrite (nth_indep Xs _ m0).
Qed.

(** The error of a PARAFAC2 model with one projection for all slices is that of a CP model of the stacked tensor. *)
Lemma shared_is_cp K nI w Xs X A B C P : one_shape nI w Xs -> stacked nI w Xs X ->
  pf_sse K nI A B C Xs (repeat P (length Xs)) = sse X (as_cp K nI w (length Xs) A B C P) unit_weights K.
Proof.
  intros [_ HX] (_ & HS & HG). unfold sse. rewrite HS, sumf_indices_cons. unfold pf_sse. apply sumf_ext. intros k Hk. apply in_seq in Hk.
  rewrite sumf_indices_cons. unfold slice_err, dist2.
  assert (Ew : width Xs k = w) by (unfold width, ncols; now rewrite (proj2 (HX k ltac:(lia)))). rewrite Ew.
  apply sumf_ext. intros i Hi. apply in_seq in Hi. rewrite sumf_indices1. apply sumf_ext. intros j Hj. apply in_seq in Hj.
  rewrite HG by lia. rewrite nth_repeat' by lia.
  replace (pf_entry K A B C k (mget P) i j) with (cp_entry (as_cp K nI w (length Xs) A B C P) unit_weights K [k; i; j]); [ring|].
  unfold cp_entry, pf_entry. apply sumf_ext. intros r Hr. apply in_seq in Hr. cbn [as_cp colprod]. rewrite !mget_tab2 by lia. unfold unit_weights. ring.
Qed.
Lemma sse_entries X Us Vs K : (forall idx, In idx (indices (shape X)) -> cp_entry Us unit_weights K idx = cp_entry Vs unit_weights K idx) ->
  sse X Us unit_weights K = sse X Vs unit_weights K.
Proof. intros H. unfold sse. apply sumf_ext. intros idx Hi. now rewrite H. Qed.
Lemma as_cp_ok K nI w Xs X A B C P : stacked nI w Xs X -> factors_ok K X (as_cp K nI w (length Xs) A B C P).
Proof.
  intros (_ & HS & _). split.
  - repeat (apply Forall_cons; [rewrite (is_mat_nrows (is_mat_tab2 _ _ _)); apply is_mat_tab2|]). constructor.
  - rewrite HS. reflexivity.
Qed.
(** If B = Q R the CP model made from Q and R is the one with the factor B. *)
Lemma qr_same_cp K nI w Xs X A B C Q T : stacked nI w Xs X -> (K <= w)%nat -> is_qr w K B Q T ->
  sse X (as_cp K nI w (length Xs) A T C Q) unit_weights K = sse X [C; A; B] unit_weights K.
Proof.
  intros (_ & HS & _) HKw HQ. apply sse_entries. intros idx Hi. rewrite HS in Hi. apply in_indices in Hi.
  inversion Hi as [|k ? l1 ? Hk Hi1]; subst. inversion Hi1 as [|i ? l2 ? Hi' Hi2]; subst. inversion Hi2 as [|j ? l3 ? Hj Hi3]; subst. inversion Hi3; subst.
  unfold cp_entry. apply sumf_ext. intros r Hr. apply in_seq in Hr. cbn [as_cp colprod]. rewrite !mget_tab2 by lia.
  rewrite (qr_product HQ) by lia. now rewrite Nat.min_r by lia.
Qed.

(** The same values in separate arrays *)
Definition unshared (s : p2_state) : p2_state :=
  let r := p2_ref s in
  p2_with_ref {| pr_A := 0; pr_B := 1; pr_C := 2; pr_P := seq 3 (length (p2_Ps s)); pr_rank := pr_rank r; pr_warning := pr_warning r;
                 pr_same := pr_same r; pr_shapes := pr_shapes r; pr_num := pr_num r |}
    (p2_with_heap (p2_A s :: p2_B s :: p2_C s :: p2_Ps s) s).
Lemma unshared_Ps s : p2_Ps (unshared s) = p2_Ps s.
Proof.
  unfold p2_Ps at 1, unshared. cbn [p2_with_ref p2_with_heap p2_ref pr_P p2_heap]. apply (nth_ext _ _ m0 m0); rewrite map_length, seq_length; [reflexivity|].
  intros k Hk. rewrite nth_map_read by (now rewrite seq_length). rewrite seq_nth by auto. unfold hread. cbn [nth Nat.add]. now apply nth_indep.
Qed.
Lemma unshared_ok K nI s : p2_shaped K nI s -> p2_ok K nI (unshared s).
Proof.
  intros H. assert (EL : length (p2_Ps s) = length (p2_X s)) by (unfold p2_Ps; rewrite map_length; apply (sh_nP H)).
  constructor.
  - cbn [unshared p2_with_ref p2_with_heap p2_ref p2_heap pr_A pr_B pr_C pr_P length]. repeat (apply Forall_cons; [lia|]).
    apply Forall_forall. intros a Ha. apply in_seq in Ha. lia.
  - cbn [unshared p2_with_ref p2_with_heap p2_ref p2_heap pr_A pr_B pr_C pr_P]. change (NoDup (seq 0 (3 + length (p2_Ps s)))). apply seq_NoDup.
  - exact (sh_A H).
  - exact (sh_B H).
  - exact (sh_C H).
  - cbn [unshared p2_with_ref p2_with_heap p2_ref pr_P p2_X]. now rewrite seq_length.
  - intros k Hk. rewrite unshared_Ps. exact (sh_P H Hk).
  - intros k Hk. exact (sh_X H Hk).
  - exact (sh_shapes H).
Qed.
Lemma shaped_SSE K nI s : p2_shaped K nI s -> p2_SSE s = Ok (pf_sse K nI (p2_A s) (p2_B s) (p2_C s) (p2_X s) (p2_Ps s)).
Proof.
  intros H. rewrite <- (unshared_Ps s) at 1. transitivity (p2_SSE (unshared s)); [|exact (p2_SSE_ok (unshared_ok H))].
  unfold p2_SSE, p2_slices. change (pr_shapes (p2_ref (unshared s))) with (pr_shapes (p2_ref s)). change (p2_X (unshared s)) with (p2_X s).
  rewrite (@mapM_ext_in _ _ (p2_slice (unshared s)) (p2_slice s)); [reflexivity|]. intros k _. unfold p2_slice. rewrite unshared_Ps. reflexivity.
Qed.

Section Start.
Variables (env : p2_env) (ps : p2_settings) (K nI w : nat).
Hypothesis HK : ps_rank ps = K.
Hypothesis HKw : (0 < K <= w)%nat.
Hypothesis HnI : (0 < nI)%nat.
Let cenv := pe_cp env.
Hypothesis HSvd : svd_works_on K K (env_svd cenv).
Hypothesis HQr : qr_contract (pe_qr env).
Let cs : cp_settings := {| cs_rank := K; cs_init := "random"; cs_ridge := None |}.

Lemma cp_start s C A B : one_shape nI w (p2_X s) -> is_mat (length (p2_X s)) K C -> is_mat nI K A -> is_mat w K B ->
  exists s' X c0 n B' Q, p2_init_cp env ps [C; A; B] s = Ok s' /\ p2_X s' = p2_X s /\ stacked nI w (p2_X s) X /\
    cp_X c0 = X /\ kt_fms (cp_dec c0) = normalised K [C; A; B] /\ unit_w K c0 /\ free_fit cs c0 /\
    let U k := kt_fms (cp_dec (state_after (cp_model cenv cs) c0 k)) in
    let L k := sse X (U k) unit_weights K in
    (n <= 20)%nat /\ U n = [p2_C s'; p2_A s'; B'] /\ is_qr w K B' Q (p2_B s') /\ p2_Ps s' = repeat Q (length (p2_X s)) /\
    pf_sse K nI (p2_A s') (p2_B s') (p2_C s') (p2_X s) (p2_Ps s') = L n /\ L n <= L 0%nat /\
    (energy X <> 0 ->
      (forall k, (k < n)%nat -> / 10 ^ 10 * energy X <= L k) /\ (forall k, (S k < n)%nat -> / 10 ^ 6 * L k <= L k - L (S k)) /\
      (n = 20%nat \/ L n < / 10 ^ 10 * energy X \/ exists k, n = S k /\ L k - L n < / 10 ^ 6 * L k)).
Proof.
  intros HX HC HA HB. destruct (stack_stacked HX HnI) as (X & EX & HS & HD); [lia|].
  pose proof HS as (_ & HXs & _). set (n0 := length (p2_X s)) in *.
  assert (HF : factors_ok K X [C; A; B]).
  { destruct (rows3 HC HA HB) as [HM Hr]. split; [exact HM|]. now rewrite HXs. }
  destruct (@random_start_ok cenv cs K (fun _ => None) [C; A; B] X None cp20_start) as (ds1 & E1 & HCo & HU & Hfm & EX1 & Enn & Eor & Eit & Emax & Elogs & Eprev);
    [reflexivity|exact HD|exact HF|reflexivity|reflexivity|reflexivity|].
  assert (Erel : ds_rel ds1 = PInf).
  { clear - E1. unfold cp_init_fit in E1. destruct (cp_init_components _ _ _ _ _ _) as [d1 [x|]]; [discriminate|].
    destruct (cp_orthonormalise _); [|discriminate]. destruct (cp_SSE _ _); [|discriminate]. injection E1 as <-. reflexivity. }
  assert (HFree : free_fit cs (ds_num ds1)).
  { intros m Hm. rewrite EX1, HXs in Hm. split; [reflexivity|]. split; eapply repeat_free; eauto. }
  set (md := cp_model cenv cs). 
  assert (HQ : snd (cp_fit_loop md cp20_cf ds1) = None).
  { apply cp_quiet_neg; [reflexivity|rewrite Eit, Emax; reflexivity|]. split; [|split].
    - intros k _. eexists. apply (@loss_is_sse cenv cs K (ds_num ds1) k HCo HU).
    - intros k _. apply (@free_never_raises cenv cs K (ds_num ds1) HSvd eq_refl HCo HFree).
    - intros k lg _ Hin. rewrite Elogs in Hin. destruct Hin. }
  destruct (cp_fit_loop md cp20_cf ds1) as [ds' e] eqn:E. cbn in HQ. subst e.
  assert (Ef : cp_fit cenv cs cp20_cf (fun _ => None) [C; A; B] X None NoArg cp20_start = (ds', None)) by (unfold cp_fit; rewrite E1; exact E).
  destruct (fit_reported_true HCo E) as [Hco H2]. pose proof (sp_X H2) as EXd. rewrite EX1 in EXd.
  pose proof (@fit_sse_le cenv cs K cp20_cf ds1 ds' None HSvd eq_refl HCo HFree E) as Hle. rewrite EX1 in Hle.
  set (L k := sse X (kt_fms (cp_dec (state_after md (ds_num ds1) k))) unit_weights K).
  assert (HN : exists n, (n <= 20)%nat /\ ds_num ds' = state_after md (ds_num ds1) n /\ (energy X <> 0 ->
      (forall k, (k < n)%nat -> / 10 ^ 10 * energy X <= L k) /\ (forall k, (S k < n)%nat -> / 10 ^ 6 * L k <= L k - L (S k)) /\
      (n = 20%nat \/ L n < / 10 ^ 10 * energy X \/ exists k, n = S k /\ L k - L n < / 10 ^ 6 * L k))).
  { destruct (fit_loop_state E) as (n1 & Hn1 & [En1 _] & _). rewrite Eit, Emax in Hn1. change (ds_max cp20_start) with 20%Z in Hn1.
    destruct (Req_dec (energy X) 0) as [Z|NZ].
    - exists n1. split; [lia|]. split; [exact En1|]. intros H. contradiction.
    - destruct (@cp_why_stopped cenv cs K cp20_cf ds1 ds' HSvd eq_refl HCo HU HFree) as (n & In & En & G1 & G2 & G3); fold md; rewrite ?EX1; auto.
      + cbn. lra.
      + cbn [state_after]. now rewrite Hfm.
      + rewrite EX1 in *. fold md in En, G1, G2, G3. rewrite Eit, Emax in G3. change (Z.to_nat (ds_max cp20_start - 0)) with 20%nat in G3.
        destruct (cp_fit_lemma E) as (n2 & Hn2 & _ & _ & He2). destruct (He2 eq_refl) as [_ Hi2]. rewrite Eit, Emax in Hn2. change (ds_max cp20_start) with 20%Z in Hn2.
        exists n. split; [lia|]. split; [exact En|]. intros _. split; [exact G1|]. split; [exact G2|]. destruct G3 as [G3|[G3|(k & G3 & G4 & _)]]; eauto. }
  destruct HN as (n & Hn & En & Hwhy).
  unfold p2_init_cp. fold n0. rewrite EX. cbn [bind]. rewrite HK. fold cs cenv. rewrite Ef.
  destruct (co_fac Hco) as [HMf Hrf]. rewrite EXd, HXs in Hrf.
  destruct (kt_fms (cp_dec (ds_num ds'))) as [|C' [|A' [|B' [|]]]] eqn:EU; try discriminate.
  unfold rows in Hrf. cbn [map] in Hrf. injection Hrf as R1 R2 R3.
  pose proof (Forall_inv HMf) as M1. pose proof (Forall_inv (Forall_inv_tail HMf)) as M2.
  pose proof (Forall_inv (Forall_inv_tail (Forall_inv_tail HMf))) as M3. cbv beta in M1, M2, M3.
  rewrite R1 in M1. rewrite R2 in M2. rewrite R3 in M3.
  destruct (HQr M3) as (Q & R0 & EQ & HQ'). rewrite EQ. cbn [bind].
  pose proof (qr_Q_shape HQ') as HQ. pose proof (qr_R_shape HQ') as HR0. rewrite Nat.min_r in HQ, HR0 by lia.
  assert (HM : mats K (repeat Q n0)).
  { apply Forall_forall. intros P Hin. apply repeat_spec in Hin. subst P. now rewrite (is_mat_nrows HQ). }
  assert (Hn0 : (0 < n0)%nat) by (destruct HX as [H _]; unfold n0; destruct (p2_X s); [congruence|cbn; lia]).
  assert (HPne : repeat Q n0 <> []) by (destruct n0; [lia|discriminate]).
  destruct (@pf_init_ok nI K A' R0 C' (repeat Q n0) true K M2 HR0 HM HPne) as (b & Ed & _).
  rewrite Ed. cbn [bind halloc]. set (h := p2_heap s). set (l := [A'; R0; C'; Q]).
  assert (RA : hread (h ++ l)%list (length h) = A') by (rewrite <- (Nat.add_0_r (length h)) at 1; now rewrite hread_app_new).
  assert (RB : hread (h ++ l)%list (S (length h)) = R0)
    by (replace (S (length h)) with (length h + 1)%nat by lia; now rewrite hread_app_new).
  assert (RC : hread (h ++ l)%list (S (S (length h))) = C')
    by (replace (S (S (length h))) with (length h + 2)%nat by lia; now rewrite hread_app_new).
  assert (RQ : hread (h ++ l)%list (S (S (S (length h)))) = Q)
    by (replace (S (S (S (length h)))) with (length h + 3)%nat by lia; now rewrite hread_app_new).
  eexists. exists X, (ds_num ds1), n, B', Q. split; [reflexivity|]. split; [reflexivity|]. split; [exact HS|]. split; [exact EX1|]. split; [exact Hfm|]. split; [exact HU|]. split; [exact HFree|].
  cbv zeta. fold md. unfold p2_A, p2_B, p2_C, p2_Ps. cbn [p2_with_ref p2_with_heap p2_X p2_ref pr_A pr_B pr_C pr_P p2_heap]. rewrite RA, RB, RC, map_repeat', RQ.
  assert (EUn : kt_fms (cp_dec (state_after md (ds_num ds1) n)) = [C'; A'; B']) by (now rewrite <- En).
  split; [exact Hn|]. split; [exact EUn|]. split; [exact HQ'|]. split; [reflexivity|]. split; [|split; [|exact Hwhy]].
  - unfold n0. rewrite (shared_is_cp K A' R0 C' Q HX HS). rewrite (qr_same_cp _ _ HS (proj2 HKw) HQ'). now rewrite EUn.
  - rewrite EUn. cbn [state_after]. exact Hle.
Qed.

Lemma cp_init_run disk Xs C A B max_its arg ds : lower (ps_init ps) = "cp"%string -> ps_ridge ps = None -> one_shape nI w Xs ->
  is_mat (length Xs) K C -> is_mat nI K A -> is_mat w K B ->
  exists ds1 X c0 n B' Q, p2_init_fit env ps disk [C; A; B] (Slices Xs) max_its arg ds = (ds1, None) /\ stacked nI w Xs X /\
    cp_X c0 = X /\ kt_fms (cp_dec c0) = normalised K [C; A; B] /\ unit_w K c0 /\ free_fit cs c0 /\
    let s := ds_num ds1 in
    let U k := kt_fms (cp_dec (state_after (cp_model cenv cs) c0 k)) in
    let L k := sse X (U k) unit_weights K in
    p2_X s = Xs /\ (n <= 20)%nat /\ U n = [p2_C s; p2_A s; B'] /\ is_qr w K B' Q (p2_B s) /\ p2_Ps s = repeat Q (length Xs) /\
    p2_loss ps s = Ok (L n) /\ ds_prev ds1 = Fin (L n) /\ ds_it ds1 = 0%Z /\ L n <= L 0%nat /\
    (energy X <> 0 ->
      (forall k, (k < n)%nat -> / 10 ^ 10 * energy X <= L k) /\ (forall k, (S k < n)%nat -> / 10 ^ 6 * L k <= L k - L (S k)) /\
      (n = 20%nat \/ L n < / 10 ^ 10 * energy X \/ exists k, n = S k /\ L k - L n < / 10 ^ 6 * L k)).
Proof.
  intros Hi HR HX HC HA HB.
  assert (ET : exists s, p2_set_target (Slices Xs) (ds_num ds) = Ok s /\ p2_X s = Xs).
  { unfold p2_set_target, p2_X_shape. cbn [bind]. destruct HX as [Hne HX].
    assert (H0 : (0 < length Xs)%nat) by (destruct Xs; [congruence|cbn; lia]).
    rewrite (@list_get_ok _ Xs 0%nat m0 H0). cbn [bind]. pose proof (HX 0%nat H0) as HX0.
    unfold np_len. rewrite (proj2 HX0). cbn [bind].
    rewrite (@mapM_ok nd nat (fun Xk => shape_at Xk 1) ncols).
    - cbn [bind]. eexists. split; reflexivity.
    - intros X Hin. apply (In_nth _ _ m0) in Hin as (k & Hk & <-). unfold shape_at, ncols. now rewrite (proj2 (HX k Hk)). }
  destruct ET as (s & ET & EX). rewrite <- EX in HX, HC.
  destruct (@cp_start s C A B HX HC HA HB) as (s' & X & c0 & n & B' & Q & E & EX' & HS & G1 & G2 & G3 & G4 & G). cbv zeta in G.
  destruct (@init_cp_ok env ps K nI w s [C; A; B] C A B HK HKw HnI (proj1 HX) (proj2 HX) eq_refl HC HA HB HSvd) as (s2 & a & E2 & Hsh & _).
  { intros M HM. destruct (HQr HM) as (Q1 & T1 & EQ1 & HQ1). exists Q1, T1. split; [exact EQ1|]. split; [apply (qr_Q_shape HQ1)|apply (qr_R_shape HQ1)]. }
  rewrite E in E2. injection E2 as <-. destruct G as (Gn & GU & GQ & GP & GE & GL & GW).
  assert (EL : p2_loss ps s' = Ok (sse X (kt_fms (cp_dec (state_after (cp_model cenv cs) c0 n))) unit_weights K)).
  { unfold p2_loss. rewrite (shaped_SSE Hsh), HR, EX', GE. reflexivity. }
  unfold p2_init_fit. cbn [ds_num with_it]. rewrite ET. unfold p2_init_components. rewrite Hi. cbn [ds_num with_num String.eqb Ascii.eqb Bool.eqb]. rewrite E.
  set (d := match max_its with Some m => with_max m _ | None => _ end).
  assert (Ed : ds_num d = s') by (unfold d; destruct max_its; reflexivity).
  assert (Ei : ds_it d = 0%Z) by (unfold d; destruct max_its; reflexivity).
  rewrite Ed, EL. eexists. exists X, c0, n, B', Q. split; [reflexivity|]. rewrite <- EX. split; [exact HS|]. split; [exact G1|]. split; [exact G2|]. split; [exact G3|]. split; [exact G4|].
  cbv zeta. cbn [with_conv ds_num ds_it ds_prev]. rewrite Ed.
  split; [exact EX'|]. split; [exact Gn|]. split; [exact GU|]. split; [exact GQ|]. split; [exact GP|]. split; [exact EL|]. split; [reflexivity|]. split; [exact Ei|].
  split; [exact GL|exact GW].
Qed.
End Start.

(** Lists of slices of different shapes *)
Lemma uneven_slices env ps draws s X0 k : list_get (p2_X s) 0 = Ok X0 -> ndim X0 = 2%nat -> (k < length (p2_X s))%nat ->
  shape (nth k (p2_X s) m0) <> shape X0 -> p2_init_cp env ps draws s = Err ValueError.
Proof.
  intros E H2 Hk Hne. unfold p2_init_cp, stack. rewrite E. cbn [bind]. unfold ndim in H2. unfold shape2.
  destruct (shape X0) as [|n [|m [|]]] eqn:ES; try discriminate H2. cbn [bind].
  destruct (forallb _ (p2_X s)) eqn:EF; [|reflexivity]. exfalso. apply Hne.
  rewrite forallb_forall in EF. specialize (EF _ (nth_In _ m0 Hk)). cbv beta in EF. now destruct (list_eq_dec _ _ _).
Qed.

Lemma uneven_fit env ps disk draws Xs k max_its arg ds : lower (ps_init ps) = "cp"%string ->
  (forall X, In X Xs -> ndim X = 2%nat) -> (k < length Xs)%nat -> shape (nth k Xs m0) <> shape (nth 0 Xs m0) ->
  snd (p2_init_fit env ps disk draws (Slices Xs) max_its arg ds) = Some ValueError.
Proof.
  intros Hi H2 Hk Hne. assert (H0 : (0 < length Xs)%nat) by lia.
  assert (ET : exists s, p2_set_target (Slices Xs) (ds_num ds) = Ok s /\ p2_X s = Xs).
  { unfold p2_set_target, p2_X_shape. cbn [bind]. rewrite (@list_get_ok _ Xs 0%nat m0 H0). cbn [bind].
    pose proof (H2 _ (nth_In _ m0 H0)) as HX0. unfold ndim in HX0. unfold np_len. destruct (shape (nth 0 Xs m0)) as [|n0 l]; [discriminate|]. cbn [bind].
    rewrite (@mapM_ok nd nat (fun Xk => shape_at Xk 1) ncols).
    - cbn [bind]. eexists. split; reflexivity.
    - intros X Hin. specialize (H2 X Hin). unfold ndim in H2. unfold shape_at, ncols. destruct (shape X) as [|a [|b ?]]; [discriminate|discriminate|]. reflexivity. }
  destruct ET as (s & ET & EX). unfold p2_init_fit. cbn [ds_num with_it]. rewrite ET. unfold p2_init_components. rewrite Hi. cbn [ds_num with_num String.eqb Ascii.eqb Bool.eqb].
  rewrite (@uneven_slices env ps draws s (nth 0 Xs m0) k); [reflexivity|rewrite EX; now apply list_get_ok|apply H2; now apply nth_In|now rewrite EX|now rewrite EX].
Qed.

(** Whatever happens in the fit, what it leaves is a CP model. *)
Lemma cp_fit_ends env ps K nI w cf disk draws Xs max_its arg ds ds1 ds' e X : lower (ps_init ps) = "cp"%string -> one_shape nI w Xs -> stacked nI w Xs X ->
  p2_init_fit env ps disk draws (Slices Xs) max_its arg ds = (ds1, None) ->
  p2_fit env ps cf disk draws (Slices Xs) max_its arg ds = (ds', e) ->
  let s := ds_num ds' in p2_X s = Xs /\
  exists P, p2_Ps s = repeat P (length Xs) /\ factors_ok K X (as_cp K nI w (length Xs) (p2_A s) (p2_B s) (p2_C s) P) /\
    pf_sse K nI (p2_A s) (p2_B s) (p2_C s) Xs (p2_Ps s) = sse X (as_cp K nI w (length Xs) (p2_A s) (p2_B s) (p2_C s) P) unit_weights K.
Proof.
  intros Hi HX HS E1 E s. destruct (cp_fit_shares Hi E1 E) as (P & EP).
  assert (EX : p2_X s = Xs).
  { destruct (init_fit_cp Hi E1) as (s1 & Et & Es). destruct (init_cp_shares Es) as (EX & _).
    unfold p2_fit in E. rewrite E1 in E. destruct (fit_ref E) as [_ EX']. unfold s. rewrite EX', EX.
    unfold p2_set_target in Et. cbn [bind] in Et. destruct (p2_X_shape Xs); [|discriminate]. injection Et as <-. reflexivity. }
  split; [exact EX|]. fold s in EP. rewrite EX in EP. exists P. split; [exact EP|]. split; [apply as_cp_ok; exact HS|]. rewrite EP. now apply shared_is_cp.
Qed.
