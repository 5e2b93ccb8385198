(** Ridge penalties bound the factors of Parafac2_ALS: lemmas for C116. *)
From Verif Require Export RidgeBoundFacts Parafac2Total.
From Verif Require Import P2UnitFacts BestFacts CompareFacts Parafac2Sweep.
From Verif Require Import Prelude Lin.
Set Implicit Arguments.
Unset Strict Implicit.
Local Open Scope R_scope.

(** *** Projecting does not lengthen *)
Lemma cut_01 w K s0 s : cut w K s0 s = 0 \/ cut w K s0 s = 1.
Proof. unfold cut. destruct (Rlt_dec _ _); auto. Qed.
Lemma solved_shrinks svd nI w K T X Z x : svd_contract svd -> is_mat nI K T -> is_mat nI w X -> orthogonal_solve svd T X = Ok Z ->
  sum K (fun q => sum w (fun j => x j * mget (transp Z) j q) ^ 2) <= sum w (fun j => x j ^ 2).
Proof.
  intros HS HT HX E. destruct (solve_entries HS HT HX E) as (U & Sv & V & F & _ & ->). set (p := Nat.min w K) in *.
  set (c := fun r => cut w K (vget Sv 0) (vget Sv r)). set (y := fun r => sum w (fun j => x j * mget U j r)).
  apply Rle_trans with (sum p (fun r => y r ^ 2)); [|exact (bessel x (svd_U_orth F))].
  rewrite (@sum_ext K _ (fun q => sum p (fun r => (c r * y r) * mget V r q) * sum p (fun r => (c r * y r) * mget V r q))).
  - rewrite (parseval_rows _ _ (svd_V_orth F)). apply sum_le. intros r Hr. destruct (cut_01 w K (vget Sv 0) (vget Sv r)) as [E0|E0]; fold (c r) in E0; rewrite E0.
    + pose proof (pow2_ge_0 (y r)). lra.
    + right. ring.
  - intros q Hq. assert (EE : sum w (fun j => x j * mget (transp (tab2 K w (fun q j => sum p (fun r => mget U j r * c r * mget V r q)))) j q) =
      sum p (fun r => (c r * y r) * mget V r q)); [|unfold c in EE at 1; rewrite EE; ring].
    rewrite (@sum_ext w _ (fun j => sum p (fun r => c r * mget V r q * (x j * mget U j r)))).
    + rewrite sum_swap. apply sum_ext. intros r Hr. rewrite sum_scal_l. unfold y. ring.
    + intros j Hj. rewrite (mget_transp (is_mat_tab2 K w _)), mget_tab2 by auto. rewrite <- sum_scal_l. apply sum_ext. intros; ring.
Qed.

Lemma energy_matrix n w X : is_mat n w X -> energy X = sum n (fun i => sum w (fun j => mget X i j ^ 2)).
Proof. intros [_ E]. unfold energy. rewrite E, sumf_indices2. reflexivity. Qed.

Lemma projected_energy env K nI s PX Ps : svd_contract (env_svd (pe_cp env)) -> p2_ok K nI s -> shape PX = [nI; K; length (p2_X s)] ->
  (forall k, (k < length (p2_X s))%nat -> projected_from env K nI s k (nth k Ps m0)) ->
  (forall i q k, (i < nI)%nat -> (q < K)%nat -> (k < length (p2_X s))%nat -> get PX [i; q; k] = projected_entry (p2_X s) Ps i q k) ->
  energy PX <= slices_energy (p2_X s).
Proof.
  intros HS Hok Hs HP HE. unfold energy. rewrite Hs, sumf_indices3. unfold slices_energy. rewrite sumf_nth.
  rewrite (@sum_ext nI _ (fun i => sum (length (p2_X s)) (fun k => sum K (fun q => get PX [i; q; k] ^ 2)))) by (intros; apply sum_swap).
  rewrite sum_swap. apply sum_le. intros k Hk. pose proof (ok_X Hok Hk) as HX.
  rewrite (energy_matrix HX). apply sum_le. intros i Hi.
  destruct (pj_solve (HP k Hk)) as (T & Z & HT & _ & ES & EP).
  rewrite (@sum_ext K _ (fun q => sum (width (p2_X s) k) (fun j => mget (nth k (p2_X s) m0) i j * mget (transp Z) j q) ^ 2)).
  - exact (@solved_shrinks _ nI (width (p2_X s) k) K T (nth k (p2_X s) m0) Z (fun j => mget (nth k (p2_X s) m0) i j) HS HT HX ES).
  - intros q Hq. rewrite HE by auto. unfold projected_entry. now rewrite EP.
Qed.

(** *** Updates of one factor *)
Section Bounded.
Variables (env : p2_env) (ps : p2_settings) (K nI : nat).
Let ics := inner_settings ps.
Let cenv := pe_cp env.
Let md := p2_model env ps.
Hypothesis (HK : ps_rank ps = K) (HO : no_orth ps) (HnI : (0 < nI)%nat) (HK0 : (0 < K)%nat).
Hypothesis (HS : svd_contract (env_svd cenv)) (HN : nnls_contract (env_nnls cenv)).
Hypothesis (H3 : length (ps_nn ps) = 3%nat) (HP : p2_penalties ps).
Let nnf m := nth m (ps_nn ps) false.
Let lamf m := nth m (match ps_ridge ps with Some l => l | None => [] end) 0.

Lemma lamf_pen m : (m < 3)%nat -> penalty ics m (lamf m) /\ 0 <= lamf m.
Proof.
  intros Hm. unfold lamf. unfold penalty. change (cs_ridge ics) with (ps_ridge ps). unfold p2_penalties in HP.
  destruct (ps_ridge ps) as [l|].
  - destruct HP as [L1 L2]. split; [apply nth_error_nth'; lia|]. apply (proj1 (Forall_forall _ _) L2). apply nth_In. lia.
  - destruct m; cbn; split; auto; lra.
Qed.
Lemma view_options PX s : busy ps K nI PX s -> option_set ics (forget (p2_view s)) nnf lamf.
Proof.
  intros H m Hm. assert (EX : cp_X (forget (p2_view s)) = PX) by apply (bs_X H). rewrite EX, (bs_shape H) in Hm. cbn in Hm.
  destruct (lamf_pen Hm) as [L1 L2]. split; [|split; [|split; assumption]].
  - exists (ps_nn ps). split; [apply (rd_nn (bs_ready H))|]. apply nth_error_nth'. lia.
  - exists [false; false; false]. split; [apply (rd_orth (bs_ready H))|]. destruct m as [|[|[|m]]]; try reflexivity. lia.
Qed.

Definition bounded (e : R) (dims : list nat) (s : p2_state) (m : nat) : Prop :=
  nnf m = false -> 0 < lamf m -> 256 * lamf m * frob2 (nth m dims 0%nat) K (mget (p2_factor s m)) ^ 2 <= 27 * e ^ 2.

Lemma step_bounded PX s m : busy ps K nI PX s -> (m < 3)%nat ->
  exists s', p2_cp_update env ps s m = (s', None) /\ busy ps K nI PX s' /\ p2_X s' = p2_X s /\ bounded (energy PX) (shape PX) s' m /\
    forall m', (m' < 3)%nat -> m' <> m -> p2_factor s' m' = p2_factor s m'.
Proof.
  intros H Hm. destruct (lamf_pen Hm) as [L1 L2].
  assert (Ha : nth_error (ps_nn ps) m = Some (nnf m)) by (apply nth_error_nth'; lia).
  destruct (@cp_step env ps K nI HK HnI HK0 HS HN PX s m (nnf m) (lamf m) H Hm Ha L1 L2) as (s' & E & B' & X' & _ & O' & F' & _).
  exists s'. split; [exact E|]. split; [exact B'|]. split; [exact X'|]. split; [|exact O']. intros Hnn Hlam. rewrite F'.
  pose proof (busy_coherent H) as HC. pose proof (view_options H) as HOp. assert (EX : cp_X (forget (p2_view s)) = PX) by apply (bs_X H).
  assert (Hm' : (m < length (shape (cp_X (forget (p2_view s)))))%nat) by (rewrite EX, (bs_shape H); exact Hm).
  destruct (@update_settles cenv ics K nnf lamf HK HS HN _ m HC HOp Hm') as (t & Z & Et & _).
  pose proof (update_forget Et) as Et'. fold cenv ics. rewrite Et'. cbn [fst].
  assert (Em : cp_update_modes cenv ics [m] (forget (p2_view s)) = (t, None)) by (cbn [cp_update_modes]; now rewrite Et).
  assert (HFa : Forall (fun m => (m < length (shape (cp_X (forget (p2_view s)))))%nat) [m]) by (constructor; [exact Hm'|constructor]).
  pose proof (@modes_bounded cenv ics K nnf lamf HK HS HN [m] _ t HC HOp HFa Em m (or_introl eq_refl) Hnn Hlam) as G.
  rewrite EX in G. exact G.
Qed.

Lemma modes_hold PX l : forall s, busy ps K nI PX s -> Forall (fun m => (m < 3)%nat) l ->
  exists s', run_all (p2_cp_update env ps) l s = (s', None) /\ busy ps K nI PX s' /\ p2_X s' = p2_X s /\
    forall m, (m < 3)%nat -> In m l \/ bounded (energy PX) (shape PX) s m -> bounded (energy PX) (shape PX) s' m.
Proof.
  induction l as [|m l IH]; intros s H Hl; cbn [run_all].
  - exists s. split; [reflexivity|]. split; [exact H|]. split; [reflexivity|]. intros m _ [[]|]; auto.
  - inversion Hl as [|? ? Hm Hl']; subst. destruct (step_bounded H Hm) as (s1 & E1 & H1 & X1 & P1 & O1). rewrite E1.
    destruct (IH s1 H1 Hl') as (s2 & E2 & H2 & X2 & P2).
    exists s2. split; [exact E2|]. split; [exact H2|]. split; [congruence|]. intros m' Hm' Hor. apply P2; [exact Hm'|].
    destruct (Nat.eq_dec m' m) as [->|Hne]; [right; exact P1|].
    destruct Hor as [[->|Hin]|Hg]; [contradiction|now left|right]. unfold bounded in *. now rewrite O1.
Qed.
Lemma sweeps_hold PX (l : list nat) : forall s, busy ps K nI PX s ->
  exists s', run_all (fun s _ => p2_cp_sweep env ps s) l s = (s', None) /\ busy ps K nI PX s' /\ p2_X s' = p2_X s /\
    forall m, (m < 3)%nat -> l <> [] \/ bounded (energy PX) (shape PX) s m -> bounded (energy PX) (shape PX) s' m.
Proof.
  induction l as [|x l IH]; intros s H; cbn [run_all].
  - exists s. split; [reflexivity|]. split; [exact H|]. split; [reflexivity|]. intros m _ [[]|]; auto.
  - unfold p2_cp_sweep at 1. assert (En : ndim (cp_X (p2_inner s)) = 3%nat) by (unfold ndim; rewrite (bs_X H), (bs_shape H); reflexivity).
    rewrite En. destruct (@modes_hold PX (seq 0 3) s H) as (s1 & E1 & H1 & X1 & P1).
    { apply Forall_forall. intros m Hm. apply in_seq in Hm. lia. }
    rewrite E1. destruct (IH s1 H1) as (s2 & E2 & H2 & X2 & P2). exists s2. split; [exact E2|]. split; [exact H2|].
    split; [congruence|]. intros m Hm _. apply P2; [exact Hm|]. right. apply P1; [exact Hm|]. left. apply in_seq. lia.
Qed.

(** *** Iterations and runs *)
Lemma iteration_bounded s : ready ps K nI s -> (0 < length (p2_X s))%nat -> (forall k, (k < length (p2_X s))%nat -> (0 < width (p2_X s) k)%nat) ->
  (0 < ps_updates ps)%nat -> forall m, (m < 3)%nat -> bounded (slices_energy (p2_X s)) [nI; K; length (p2_X s)] (fst (p2_update env ps s)) m.
Proof.
  intros HR HX HW Hu m Hm.
  destruct (@retargeted env ps K nI HK HnI HK0 HS s HR HX HW) as (s2 & PX & X2 & B2 & EA & EB & EC & HPj & HPe & E). rewrite E.
  destruct (@sweeps_hold PX (seq 0 (ps_updates ps)) s2 B2) as (s3 & E3 & B3 & X3 & P3). rewrite E3. cbn [and_then].
  destruct (@scale_total ps K nI HK HK0 s3 (bs_ready B3)) as (s4 & E4 & X4 & A4 & B4 & C4 & _). rewrite E4. cbn [and_then fst].
  assert (Hs : shape PX = [nI; K; length (p2_X s)]) by (rewrite (bs_shape B2); congruence).
  assert (F4 : p2_factor (p2_unit_weights s4) m = p2_factor s3 m).
  { change (p2_factor s4 m = p2_factor s3 m). unfold p2_factor. now rewrite A4, B4, C4. }
  intros Hnn Hlam. rewrite F4.
  assert (G : bounded (energy PX) (shape PX) s3 m) by (apply P3; [exact Hm|left; destruct (ps_updates ps); [lia|discriminate]]).
  specialize (G Hnn Hlam). rewrite Hs in G. eapply Rle_trans; [exact G|].
  pose proof (@projected_energy env K nI s PX (p2_Ps s2) HS (rd_ok HR) Hs HPj HPe) as HE. pose proof (energy_pos PX) as H0.
  assert (energy PX ^ 2 <= slices_energy (p2_X s) ^ 2); [|lra]. apply pow_incr. split; assumption.
Qed.
Lemma run_held s : ready ps K nI s -> (0 < length (p2_X s))%nat -> (forall k, (k < length (p2_X s))%nat -> (0 < width (p2_X s) k)%nat) ->
  (0 < ps_updates ps)%nat -> forall n m, (m < 3)%nat -> bounded (slices_energy (p2_X s)) [nI; K; length (p2_X s)] (state_after md s (S n)) m.
Proof.
  intros HR HX HW Hu n m Hm. pose proof (@ready_after env ps K nI HK s n HR) as Hj. pose proof (fr_X (after_frame env ps s n)) as EX. fold md in EX, Hj.
  cbn [state_after]. set (u := state_after md s n) in *. change (md_update md u) with (p2_update env ps u). rewrite <- EX.
  apply iteration_bounded; rewrite ?EX; auto.
Qed.
End Bounded.

Lemma fits_bounded env ps K nI cf disk draws Xs max_its arg ds :
  let budget := match max_its with Some m => m | None => ds_max ds end in
  penalised_fit env ps K nI draws Xs -> plain_run ps cf budget ds -> (0 < ps_updates ps)%nat ->
  exists ds', p2_fit env ps cf disk draws (Slices Xs) max_its arg ds = (ds', None) /\
    forall m lam, (m < 3)%nat -> nth_error (ps_nn ps) m = Some false -> penalty (inner_settings ps) m lam -> 0 < lam ->
      256 * lam * frob2 (nth m [nI; K; length Xs] 0%nat) K (mget (p2_factor (ds_num ds') m)) ^ 2 <= 27 * slices_energy Xs ^ 2.
Proof.
  intros budget HF HNr Hu. destruct (@penalised_completes env ps K nI cf disk draws Xs max_its arg ds HF HNr) as (ds' & EF & [Hit _] & _).
  exists ds'. split; [exact EF|]. destruct HF as [HD H3 HP HS HN].
  destruct (@drawn_begins env ps K nI disk draws Xs arg ds HD) as (s1 & l & Hok & _ & EX & _ & E).
  destruct HD as [Hi HO HK [HnI HK0] HX HDr Hqr Hw].
  assert (HnX : (0 < length Xs)%nat) by (destruct HX as [Hne _]; destruct Xs; [congruence|cbn; lia]).
  specialize (E max_its). fold budget in E. unfold p2_fit in EF. rewrite E in EF.
  destruct (@prepare_ready env ps K nI HK HO HnI HK0 s1 Hok ltac:(now rewrite EX)) as (s0 & EP & HR & HA & _). pose proof (proj1 HA) as EX0.
  destruct (@pf_fit_lemma _ _ (p2_model env ps) cf (Decomposer.start s1 (Fin l) 0 budget (ds_logs ds) (ds_file ds)) ds' None s0 EP EF) as (n & _ & En & _ & Hc).
  destruct (Hc eq_refl) as [_ Hc2]. cbn [Decomposer.start ds_it] in Hc2. destruct n as [|n]; [lia|].
  intros m lam Hm Hnn Hp Hlam. rewrite En.
  pose proof (@run_held env ps K nI HK HnI HK0 HS HN H3 HP s0 HR) as G. rewrite EX0, EX in G.
  specialize (G HnX ltac:(intros k Hk; pose proof (Hw k Hk); lia) Hu n m Hm). unfold bounded in G.
  assert (E1 : nth m (ps_nn ps) false = false) by (apply nth_error_nth; exact Hnn).
  assert (E2 : nth m (match ps_ridge ps with Some l => l | None => [] end) 0 = lam).
  { unfold penalty in Hp. cbn [inner_settings cs_ridge] in Hp. destruct (ps_ridge ps) as [pl|]; [now apply nth_error_nth|]. subst lam. lra. }
  rewrite E1, E2 in G. auto.
Qed.
