(** Parafac2_ALS with non-negative modes and ridge penalties: every fit completes (C88). *)
From Verif Require Export PenalisedSpec Parafac2Resume ConstrainedFit.
From Verif Require Import Prelude Lin.
Set Implicit Arguments.
Unset Strict Implicit.
Local Open Scope R_scope.

Section Total.
Variables (env : p2_env) (ps : p2_settings) (K nI : nat).
Let ics := inner_settings ps.
Let cenv := pe_cp env.
Let md := p2_model env ps.
Hypothesis (HK : ps_rank ps = K) (HO : no_orth ps) (HnI : (0 < nI)%nat) (HK0 : (0 < K)%nat).
Hypothesis (HS : svd_contract (env_svd cenv)) (HN : nnls_contract (env_nnls cenv)).

(** The inner decomposer has the projected data PX as its target. *)
Record busy (PX : nd) (s : p2_state) : Prop :=
  { bs_ready : ready ps K nI s; bs_X : cp_X (p2_inner s) = PX; bs_norm : cp_norm (p2_inner s) = norm PX;
    bs_data : data_ok PX; bs_shape : shape PX = [nI; K; length (p2_X s)] }.

Lemma busy_coherent PX s : busy PX s -> cp_coherent K (forget (p2_view s)).
Proof.
  intros [HR EX EN HD Hs]. pose proof (rd_ok HR) as H. destruct (rows3 (ok_A H) (ok_B H) (ok_C H)) as [HM Hrows].
  constructor; cbn [forget cp_with_cache cp_last cp_X cp_dec cp_norm p2_view cp_with_dec kt_w kt_fms].
  - now rewrite EX.
  - now rewrite EX.
  - rewrite (rd_cpf HR), EX. cbn [map]. split; [exact HM|]. rewrite Hs. exact Hrows.
  - rewrite (rd_w HR). apply is_vec_ones.
  - discriminate.
Qed.

Lemma busy_view PX s m : busy PX s -> (m < 3)%nat -> nth m (kt_fms (cp_dec (p2_view s))) m0 = p2_factor s m.
Proof. intros H Hm. unfold p2_view. cbn [cp_with_dec cp_dec kt_fms]. rewrite (rd_cpf (bs_ready H)). destruct m as [|[|[|m]]]; try reflexivity. lia. Qed.

Lemma busy_cpf PX s : busy PX s -> NoDup (p2_cpf s) /\ Forall (fun a => (a < length (p2_heap s))%nat) (p2_cpf s).
Proof.
  intros H. pose proof (rd_ok (bs_ready H)) as Hk. pose proof (ok_distinct Hk) as HD. pose proof (ok_range Hk) as HR.
  rewrite (rd_cpf (bs_ready H)).
  inversion HD as [|? ? N1 HD1]; subst. inversion HD1 as [|? ? N2 HD2]; subst. inversion HD2 as [|? ? N3 HD3]; subst.
  inversion HR as [|? ? R1 HR1]; subst. inversion HR1 as [|? ? R2 HR2]; subst. inversion HR2 as [|? ? R3 HR3]; subst.
  cbn [In] in *. split; [|auto]. repeat constructor; cbn [In]; intuition congruence.
Qed.

(** *** One factor *)
Lemma cp_step PX s m a lam : busy PX s -> (m < 3)%nat -> nth_error (ps_nn ps) m = Some a -> penalty ics m lam -> 0 <= lam ->
  exists s', p2_cp_update env ps s m = (s', None) /\ busy PX s' /\ p2_X s' = p2_X s /\
    (a = true -> nonneg_mat (nth m (shape PX) 0%nat) K (mget (p2_factor s' m))) /\
    (forall m', (m' < 3)%nat -> m' <> m -> p2_factor s' m' = p2_factor s m') /\
    p2_factor s' m = nth m (kt_fms (cp_dec (fst (cp_update_factor cenv ics (p2_view s) m)))) m0 /\ p2_Ps s' = p2_Ps s.
Proof.
  intros H Hm Ha Hp Hl. pose proof (busy_coherent H) as HC. destruct (busy_cpf H) as [HN1 HN2].
  assert (EX : cp_X (forget (p2_view s)) = PX) by apply (bs_X H).
  assert (Hlen : length (shape PX) = 3%nat) by (rewrite (bs_shape H); reflexivity).
  assert (Hpos : (0 < nth m (shape PX) 0)%nat).
  { destruct (bs_data H) as (_ & _ & HF). assert (Hin : In (nth m (shape PX) 0%nat) (shape PX)) by (apply nth_In; lia).
    pose proof (proj1 (Forall_forall _ _) HF _ Hin) as H1. cbn beta in H1. lia. }
  destruct (@update_one cenv ics K (forget (p2_view s)) m a false lam HC) as (c' & Z & E & HZ & Hfm & HSP & HC' & Hnn & _);
    rewrite ?EX; auto; try lia.
  { exists (ps_nn ps). split; [apply (rd_nn (bs_ready H))|exact Ha]. }
  { exists [false; false; false]. split; [apply (rd_orth (bs_ready H))|]. destruct m as [|[|[|m]]]; try reflexivity. lia. }
  rewrite EX in *. apply update_forget in E. cbn [forget cp_with_cache cp_dec] in Hfm.
  assert (Hm' : (m < length (p2_cpf s))%nat) by (rewrite (rd_cpf (bs_ready H)); exact Hm).
  destruct (@cp_update_sim env ps s m c' Z HN1 HN2 Hm' E Hfm) as (s' & Es & Hv & HF).
  assert (HR' : ready ps K nI s').
  { destruct (@twin_cp_update env ps K nI HK m s s) as [[HT _] _].
    - split; [apply twin_refl, H|reflexivity].
    - rewrite Es in HT. apply HT. }
  assert (HB : busy PX s').
  { constructor; auto.
    - change (cp_X (p2_inner s')) with (cp_X (p2_view s')). rewrite Hv, (sp_X HSP). exact EX.
    - change (cp_norm (p2_inner s')) with (cp_norm (p2_view s')). rewrite Hv, (sp_norm HSP). apply (bs_norm H).
    - apply H.
    - rewrite (fr_X HF). apply H. }
  assert (Hfac : forall m', (m' < 3)%nat -> p2_factor s' m' = nth m' (with_factor m Z (kt_fms (cp_dec (p2_view s)))) m0).
  { intros m' Hm2. rewrite <- (busy_view HB Hm2), Hv, Hfm. reflexivity. }
  assert (Hl3 : length (kt_fms (cp_dec (p2_view s))) = 3%nat) by (cbn; rewrite map_length, (rd_cpf (bs_ready H)); reflexivity).
  exists s'. split; [exact Es|]. split; [exact HB|]. split; [apply (fr_X HF)|]. split.
  - intros Et. rewrite Hfac by auto. unfold with_factor. rewrite nth_replace_at_eq by lia. auto.
  - split; [|split].
    + intros m' Hm2 Hne. rewrite Hfac by auto. unfold with_factor. rewrite nth_replace_at_neq by congruence. now apply (busy_view H).
    + rewrite <- (busy_view HB Hm), Hv, E. reflexivity.
    + unfold p2_Ps. rewrite (fr_ref HF). apply map_ext_in. intros x Hx. apply (fr_read HF). rewrite (rd_cpf (bs_ready H)).
      pose proof (ok_distinct (rd_ok (bs_ready H))) as HD. inversion HD as [|? ? N1 HD1]; subst. inversion HD1 as [|? ? N2 HD2]; subst.
      inversion HD2 as [|? ? N3 HD3]; subst. cbn [In] in *. intros [<-|[<-|[<-|[]]]]; tauto.
Qed.

Lemma cp_step_fails PX s m : busy PX s -> (m < 3)%nat -> no_entry ps m ->
  snd (p2_cp_update env ps s m) = Some IndexError.
Proof.
  intros H Hm Hor. pose proof (busy_coherent H) as HC.
  assert (EX : cp_X (forget (p2_view s)) = PX) by apply (bs_X H).
  assert (Hm' : (m < length (shape (cp_X (forget (p2_view s)))))%nat) by (rewrite EX, (bs_shape H); exact Hm).
  destruct (@normal_matrices cenv ics K (forget (p2_view s)) m HC HK Hm') as (V & P & EV & EP & _).
  cbn [forget cp_with_cache cp_dec cp_X] in EV, EP.
  assert (ER : get_rightsolve cenv ics (cp_nn (p2_view s)) (cp_orth (p2_view s)) m = Err IndexError).
  { unfold get_rightsolve. change (cp_nn (p2_view s)) with (cp_nn (p2_inner s)). change (cp_orth (p2_view s)) with (cp_orth (p2_inner s)).
    rewrite (rd_nn (bs_ready H)), (rd_orth (bs_ready H)). cbn [not_none bind]. unfold list_get.
    destruct (nth_error (ps_nn ps) m) as [a|] eqn:Ea; [|reflexivity]. cbn [bind].
    assert (E3 : nth_error [false; false; false] m = Some false) by (destruct m as [|[|[|m]]]; try reflexivity; lia).
    rewrite E3. cbn [bind]. destruct Hor as [Hor|(l & El & En)]; [congruence|].
    change (cs_ridge ics) with (ps_ridge ps). rewrite El.
    destruct a; cbn [bind]; unfold list_get; rewrite En; reflexivity. }
  unfold p2_cp_update. fold cenv ics. unfold cp_update_factor.
  rewrite EV. cbn [bind]. rewrite EP. cbn [bind]. rewrite ER. cbn [bind].
  destruct (nth_error _ m); [|reflexivity]. destruct (nth_error _ m); reflexivity.
Qed.

(** *** Passes over the factors *)
Lemma penalty_of m : p2_penalties ps -> (m < 3)%nat -> exists lam, penalty ics m lam /\ 0 <= lam.
Proof.
  unfold p2_penalties, penalty. change (cs_ridge ics) with (ps_ridge ps). intros H Hm.
  destruct (ps_ridge ps) as [l|]; [|exists 0; split; [reflexivity|lra]].
  destruct H as [H1 H2]. destruct (nth_error l m) as [lam|] eqn:E; [|apply nth_error_None in E; lia].
  exists lam. split; [reflexivity|]. eapply Forall_forall in H2; [exact H2|]. eapply nth_error_In; eauto.
Qed.

Definition positive (PX : nd) (s : p2_state) (m : nat) : Prop :=
  nth_error (ps_nn ps) m = Some true -> nonneg_mat (nth m (shape PX) 0%nat) K (mget (p2_factor s m)).

Section Pass.
Hypothesis (H3 : length (ps_nn ps) = 3%nat) (HP : p2_penalties ps).

Lemma modes_pass PX l : forall s, busy PX s -> Forall (fun m => (m < 3)%nat) l ->
  exists s', run_all (p2_cp_update env ps) l s = (s', None) /\ busy PX s' /\ p2_X s' = p2_X s /\
    forall m, (m < 3)%nat -> In m l \/ positive PX s m -> positive PX s' m.
Proof.
  induction l as [|m l IH]; intros s H Hl; cbn [run_all].
  - exists s. split; [reflexivity|]. split; [exact H|]. split; [reflexivity|]. intros m _ [[]|]; auto.
  - inversion Hl as [|? ? Hm Hl']; subst. destruct (penalty_of HP Hm) as (lam & Hp & Hlam).
    destruct (nth_error (ps_nn ps) m) as [a|] eqn:Ea; [|apply nth_error_None in Ea; lia].
    destruct (cp_step H Hm Ea Hp Hlam) as (s1 & E1 & H1 & X1 & P1 & O1 & _). rewrite E1.
    destruct (IH s1 H1 Hl') as (s2 & E2 & H2 & X2 & P2).
    exists s2. split; [exact E2|]. split; [exact H2|]. split; [congruence|]. intros m' Hm' Hor. apply P2; [exact Hm'|].
    destruct (Nat.eq_dec m' m) as [->|Hne]; [right; intros Et; apply P1; congruence|].
    destruct Hor as [[->|Hin]|Hg]; [contradiction|now left|right]. unfold positive in *. now rewrite O1.
Qed.

Lemma sweeps_pass PX (l : list nat) : forall s, busy PX s ->
  exists s', run_all (fun s _ => p2_cp_sweep env ps s) l s = (s', None) /\ busy PX s' /\ p2_X s' = p2_X s /\
    forall m, (m < 3)%nat -> l <> [] \/ positive PX s m -> positive PX s' m.
Proof.
  induction l as [|x l IH]; intros s H; cbn [run_all].
  - exists s. split; [reflexivity|]. split; [exact H|]. split; [reflexivity|]. intros m _ [[]|]; auto.
  - unfold p2_cp_sweep at 1. assert (En : ndim (cp_X (p2_inner s)) = 3%nat) by (unfold ndim; rewrite (bs_X H), (bs_shape H); reflexivity).
    rewrite En. destruct (@modes_pass PX (seq 0 3) s H) as (s1 & E1 & H1 & X1 & P1).
    { apply Forall_forall. intros m Hm. apply in_seq in Hm. lia. }
    rewrite E1. destruct (IH s1 H1) as (s2 & E2 & H2 & X2 & P2). exists s2. split; [exact E2|]. split; [exact H2|].
    split; [congruence|]. intros m Hm _. apply P2; [exact Hm|]. right. apply P1; [exact Hm|]. left. apply in_seq. lia.
Qed.
End Pass.

(** *** One iteration up to the passes *)
Lemma retargeted s : ready ps K nI s -> (0 < length (p2_X s))%nat -> (forall k, (k < length (p2_X s))%nat -> (0 < width (p2_X s) k)%nat) ->
  exists s2 PX, p2_X s2 = p2_X s /\ busy PX s2 /\ p2_A s2 = p2_A s /\ p2_B s2 = p2_B s /\ p2_C s2 = p2_C s /\
    (forall k, (k < length (p2_X s))%nat -> projected_from env K nI s k (nth k (p2_Ps s2) m0)) /\
    (forall i q k, (i < nI)%nat -> (q < K)%nat -> (k < length (p2_X s))%nat ->
      get PX [i; q; k] = projected_entry (p2_X s) (p2_Ps s2) i q k) /\
    p2_update env ps s = and_then (run_all (fun s _ => p2_cp_sweep env ps s) (seq 0 (ps_updates ps)) s2)
      (fun s => and_then (p2_scale_B s) (fun s => (p2_unit_weights s, None))).
Proof.
  intros HR HX HW. pose proof (rd_ok HR) as H.
  destruct (@projections_safe env K nI s H HK0) as (s1 & E1 & H1 & HF1 & Hin1 & HP1).
  { intros k Hk. split; [auto|]. intros A HA. apply (HS HA). }
  assert (HR1 : ready ps K nI s1).
  { constructor; auto; rewrite ?Hin1; try apply HR. rewrite (fr_cpf HF1), (fr_ref HF1). apply HR. }
  destruct (projected_ok env H1 HK) as (PX & EPX & HPX & HPs & HPe). rewrite (fr_X HF1) in HPe.
  destruct (ok_frame H HF1) as (_ & EA1 & EB1 & EC1); [intros k Hk; now apply (pj_mat (HP1 k Hk))|].
  exists (p2_with_inner (cp_with_target PX (p2_inner s1)) s1), PX. split; [apply (fr_X HF1)|]. split; [|repeat (split; [assumption|])].
  - constructor; auto.
    + destruct HR1 as [G1 G2 G3 G4 G5 G6]. constructor; auto. destruct G1. constructor; auto.
    + split; [exact HPX|]. rewrite HPs, (fr_X HF1). split; [cbn; lia|]. repeat constructor; lia.
  - unfold p2_update. rewrite E1. cbn [and_then]. unfold p2_retarget. now rewrite EPX.
Qed.

Lemma scale_total s : ready ps K nI s -> exists s', p2_scale_B s = (s', None) /\ p2_X s' = p2_X s /\ p2_A s' = p2_A s /\ p2_B s' = p2_B s /\ p2_C s' = p2_C s /\ p2_Ps s' = p2_Ps s.
Proof.
  intros HR. pose proof (rd_ok HR) as H.
  assert (HB : broadcast_into Rmult (p2_B s) (kt_w (cp_dec (p2_inner s))) = Ok (p2_B s)).
  { rewrite (rd_w HR). unfold broadcast_into. pose proof (ok_B H) as HB.
    rewrite (broadcast_mat_vec Rmult HB (is_vec_ones K)). rewrite (proj2 HB), (proj2 (is_vec_ones K)).
    assert (Eb : bshape [K; K] [K] = Some [K; K]) by (unfold bshape; cbn; now rewrite Nat.eqb_refl).
    rewrite Eb. destruct (list_eq_dec Nat.eq_dec [K; K] [K; K]) as [_|N]; [|congruence].
    rewrite (@tab2_ext K K _ (mget (p2_B s))); [now rewrite (tab2_mget HB)|].
    intros i j Hi Hj. rewrite ones_entry by auto. ring. }
  unfold p2_scale_B. rewrite HB. exists s. split; [|auto 10]. unfold p2_B. rewrite heap_same; [reflexivity|].
  pose proof (ok_range H) as R3. inversion R3 as [|? ? _ R4]; subst. now inversion R4.
Qed.

Lemma iteration_total s : length (ps_nn ps) = 3%nat -> p2_penalties ps -> ready ps K nI s -> (0 < length (p2_X s))%nat ->
  (forall k, (k < length (p2_X s))%nat -> (0 < width (p2_X s) k)%nat) ->
  exists s', p2_update env ps s = (s', None) /\ p2_X s' = p2_X s /\ forall m, (m < 3)%nat ->
    (0 < ps_updates ps)%nat \/ (nth_error (ps_nn ps) m = Some true -> nonneg_mat (nth m [nI; K; length (p2_X s)] 0%nat) K (mget (p2_factor s m))) ->
    nth_error (ps_nn ps) m = Some true -> nonneg_mat (nth m [nI; K; length (p2_X s)] 0%nat) K (mget (p2_factor s' m)).
Proof.
  intros H3 HP HR HX HW. destruct (retargeted HR HX HW) as (s2 & PX & X2 & B2 & EA & EB & EC & _ & _ & E). rewrite E.
  destruct (@sweeps_pass H3 HP PX (seq 0 (ps_updates ps)) s2 B2) as (s3 & E3 & B3 & X3 & P3). rewrite E3. cbn [and_then].
  destruct (scale_total (bs_ready B3)) as (s4 & E4 & X4 & A4 & B4 & C4 & _). rewrite E4. cbn [and_then].
  exists (p2_unit_weights s4). split; [reflexivity|]. split; [cbn; congruence|]. intros m Hm Hor.
  assert (Hs : shape PX = [nI; K; length (p2_X s)]) by (rewrite (bs_shape B2); congruence).
  specialize (P3 m Hm). unfold positive in P3. rewrite Hs in P3.
  assert (F2 : p2_factor s2 m = p2_factor s m) by (unfold p2_factor; now rewrite EA, EB, EC).
  assert (F4 : p2_factor (p2_unit_weights s4) m = p2_factor s3 m).
  { change (p2_factor s4 m = p2_factor s3 m). unfold p2_factor. now rewrite A4, B4, C4. }
  rewrite F2 in P3. rewrite F4. apply P3. destruct Hor as [Hu|Hg]; [left|now right].
  destruct (ps_updates ps); [lia|discriminate].
Qed.

(** A list of flags or penalties that ends before a mode's entry *)
Lemma modes_stop PX m0' : (m0' < 3)%nat -> no_entry ps m0' -> forall l s, busy PX s -> Forall (fun m => (m < 3)%nat) l -> In m0' l ->
  match ps_ridge ps with Some l => Forall (Rle 0) l | None => True end ->
  snd (run_all (p2_cp_update env ps) l s) = Some IndexError.
Proof.
  intros Hm0 Hno l. induction l as [|m l IH]; intros s H Hl Hin Hpen; [destruct Hin|]. cbn [run_all].
  inversion Hl as [|? ? Hm Hl']; subst.
  assert (Hdec : no_entry ps m \/ exists a lam, nth_error (ps_nn ps) m = Some a /\ penalty ics m lam /\ 0 <= lam).
  { unfold no_entry, penalty. change (cs_ridge ics) with (ps_ridge ps).
    destruct (nth_error (ps_nn ps) m) as [a|]; [|auto]. destruct (ps_ridge ps) as [pl|]; [|right; exists a, 0; auto with real].
    destruct (nth_error pl m) as [lam|] eqn:E; [|left; right; eauto]. right. exists a, lam. split; [reflexivity|]. split; [reflexivity|].
    eapply Forall_forall in Hpen; [exact Hpen|]. eapply nth_error_In; eauto. }
  destruct Hdec as [Hn|(a & lam & Ea & Hp & Hlam)].
  - pose proof (cp_step_fails H Hm Hn) as Ef. destruct (p2_cp_update env ps s m) as [s1 [e|]]; cbn [snd] in *; congruence.
  - destruct (cp_step H Hm Ea Hp Hlam) as (s1 & E1 & H1 & _). rewrite E1. apply IH; auto.
    destruct Hin as [->|Hin]; [|exact Hin]. exfalso. destruct Hno as [Hno|(pl & El & En)]; [congruence|].
    unfold penalty in Hp. change (cs_ridge ics) with (ps_ridge ps) in Hp. rewrite El in Hp. congruence.
Qed.
Lemma iteration_stops s m : (m < 3)%nat -> no_entry ps m -> match ps_ridge ps with Some l => Forall (Rle 0) l | None => True end ->
  (0 < ps_updates ps)%nat -> ready ps K nI s -> (0 < length (p2_X s))%nat ->
  (forall k, (k < length (p2_X s))%nat -> (0 < width (p2_X s) k)%nat) ->
  snd (p2_update env ps s) = Some IndexError.
Proof.
  intros Hm Hno Hpen Hu HR HX HW. destruct (retargeted HR HX HW) as (s2 & PX & X2 & B2 & _ & _ & _ & _ & _ & E). rewrite E.
  destruct (ps_updates ps) as [|u]; [lia|]. cbn [seq run_all]. unfold p2_cp_sweep at 1.
  assert (En : ndim (cp_X (p2_inner s2)) = 3%nat) by (unfold ndim; rewrite (bs_X B2), (bs_shape B2); reflexivity). rewrite En.
  assert (Hf : snd (run_all (p2_cp_update env ps) (seq 0 3) s2) = Some IndexError).
  { apply (@modes_stop PX m Hm Hno (seq 0 3) s2 B2); auto; [|apply in_seq; lia].
    apply Forall_forall. intros m' Hm'. apply in_seq in Hm'. lia. }
  destruct (run_all (p2_cp_update env ps) (seq 0 3) s2) as [s3 [e|]]; cbn [snd] in Hf; [|discriminate].
  injection Hf as ->. reflexivity.
Qed.

(** *** Runs and loops *)
Lemma run_total s : length (ps_nn ps) = 3%nat -> p2_penalties ps -> ready ps K nI s -> (0 < length (p2_X s))%nat ->
  (forall k, (k < length (p2_X s))%nat -> (0 < width (p2_X s) k)%nat) -> forall n,
  ready ps K nI (state_after md s n) /\ p2_X (state_after md s n) = p2_X s /\ p2_ref (state_after md s n) = p2_ref s /\
  snd (md_update md (state_after md s n)) = None /\
  forall m, (m < 3)%nat -> (0 < n)%nat -> (0 < ps_updates ps)%nat -> nth_error (ps_nn ps) m = Some true ->
    nonneg_mat (nth m [nI; K; length (p2_X s)] 0%nat) K (mget (p2_factor (state_after md s n) m)).
Proof.
  intros H3 HP HR HX HW n. pose proof (@ready_after env ps K nI HK s n HR) as Hn.
  pose proof (after_frame env ps s n) as HF. fold md in HF. pose proof (fr_X HF) as EX.
  assert (Hstep : forall n, exists s', md_update md (state_after md s n) = (s', None) /\ forall m, (m < 3)%nat -> (0 < ps_updates ps)%nat ->
    nth_error (ps_nn ps) m = Some true -> nonneg_mat (nth m [nI; K; length (p2_X s)] 0%nat) K (mget (p2_factor s' m))).
  { intros j. pose proof (@ready_after env ps K nI HK s j HR) as Hj. pose proof (fr_X (after_frame env ps s j)) as EXj. fold md in EXj, Hj.
    destruct (@iteration_total (state_after md s j) H3 HP Hj) as (s' & E & _ & HG); rewrite ?EXj; auto.
    exists s'. split; [exact E|]. rewrite EXj in HG. auto. }
  split; [exact Hn|]. split; [exact EX|]. split; [apply (fr_ref HF)|]. split.
  - destruct (Hstep n) as (s' & E & _). now rewrite E.
  - intros m Hm Hpos Hu Ht. destruct n as [|n]; [lia|]. destruct (Hstep n) as (s' & E & HG).
    cbn [state_after]. rewrite E. now apply HG.
Qed.

Lemma loop_total cf ds : let s := ds_num ds in
  length (ps_nn ps) = 3%nat -> p2_penalties ps -> p2_ok K nI s -> ref_fits K nI s -> (0 < length (p2_X s))%nat ->
  (forall k, (k < length (p2_X s))%nat -> (0 < width (p2_X s) k)%nat) ->
  (0 <= ds_it ds)%Z -> (forall lg, In lg (ds_logs ds) -> exists k, p2_code_logger ps k lg) ->
  cf_print cf <> 0%Z -> checkpoints_fit cf (Z.max (ds_it ds) (ds_max ds)) ds ->
  exists ds' n, pf_fit_loop md cf ds = (ds', None) /\ ds_it ds' = (ds_it ds + Z.of_nat n)%Z /\ (n <= Z.to_nat (ds_max ds - ds_it ds))%nat /\
    (ds_rel ds = PInf -> (ds_it ds < ds_max ds)%Z -> (0 < n)%nat) /\
    p2_ok K nI (ds_num ds') /\ p2_X (ds_num ds') = p2_X s /\
    forall m, (m < 3)%nat -> (0 < n)%nat -> (0 < ps_updates ps)%nat -> nth_error (ps_nn ps) m = Some true ->
      nonneg_mat (nth m [nI; K; length (p2_X s)] 0%nat) K (mget (p2_factor (ds_num ds') m)).
Proof.
  intros s H3 HP H HF HX HW Hit Hlg Hpr Hck.
  destruct (@prepare_ready env ps K nI HK HO HnI HK0 s H HX) as (s0 & EP & HR & HA & Eref).
  pose proof (proj1 HA) as EX0.
  assert (HRun := @run_total s0 H3 HP HR). rewrite EX0 in HRun. specialize (HRun HX HW).
  assert (HQ : quiet md (with_num s0 ds) (Z.to_nat (ds_max ds - ds_it ds))).
  { cbn [with_num ds_num ds_logs]. split; [|split].
    - intros k _. destruct (HRun k) as (Hk & _). pose proof (p2_loss_ok ps (rd_ok Hk)) as EL. eexists.
      exact (f_equal (fun r => bind r (fun l => Ok (Fin l))) EL).
    - intros k _. apply (HRun k).
    - intros k lg _ Hin. destruct (Hlg lg Hin) as (kd & _ & ->). destruct (HRun (S k)) as (Hk & _). apply (p2_metric_total ps kd (rd_ok Hk)). }
  assert (HN0 : snd (pf_fit_loop md cf ds) = None).
  { destruct Hck as [Hf|(Hf & f & Hfile & Hready & Hun)].
    - apply (@pf_quiet_neg _ _ md cf ds s0); auto.
    - destruct (pf_fit_loop md cf ds) as [ds' e] eqn:EL. cbn [snd].
      destruct (@pf_run_lemma _ _ md cf ds s0 f ds' e Hf) as [_ K2]; auto.
      + left. exists "Parafac2_ALS"%string. reflexivity.
      + now apply (@p2_kinds_plain ps).
      + intros k. destruct (HRun k) as (Hk & EX & ER & _). apply (p2_storable env ps (rd_ok Hk)).
        * apply (ref_fits_same (s := s)); auto; congruence.
        * now rewrite EX.
      + intros j Hj. apply Hun. lia. }
  destruct (pf_fit_loop md cf ds) as [ds' e] eqn:EL. cbn [snd] in HN0. subst e.
  destruct (@pf_fit_lemma _ _ md cf ds ds' None s0 EP EL) as (n & Hn & En & _ & Hc).
  destruct (Hc eq_refl) as [Hc1 Hc2]. destruct (HRun n) as (Hk & EX & ER & _ & HG).
  exists ds', n. split; [reflexivity|]. split; [exact Hc2|]. split; [exact Hn|]. split.
  - intros Hrel Hlt. destruct Hc1 as [->|Hst]; [lia|]. rewrite Hrel in Hst. now apply first_check in Hst.
  - rewrite En. split; [apply Hk|]. split; [exact EX|]. exact HG.
Qed.

Lemma loop_stops cf ds m : let s := ds_num ds in (m < 3)%nat -> no_entry ps m ->
  match ps_ridge ps with Some l => Forall (Rle 0) l | None => True end -> (0 < ps_updates ps)%nat ->
  p2_ok K nI s -> (0 < length (p2_X s))%nat -> (forall k, (k < length (p2_X s))%nat -> (0 < width (p2_X s) k)%nat) ->
  ds_rel ds = PInf -> (ds_it ds < ds_max ds)%Z -> snd (pf_fit_loop md cf ds) = Some IndexError.
Proof.
  intros s Hm Hno Hpen Hu H HX HW Hrel Hlt.
  destruct (@prepare_ready env ps K nI HK HO HnI HK0 s H HX) as (s0 & EP & HR & HA & _). pose proof (proj1 HA) as EX0.
  unfold pf_fit_loop. change (md_prepare md) with (p2_prepare env ps). fold s. rewrite EP. cbn [ds_max ds_it with_num].
  destruct (Z.to_nat (ds_max ds - ds_it ds)) as [|n] eqn:En; [lia|]. cbn [pf_loop].
  assert (Hs : pf_stop cf (with_num s0 ds) = false) by (unfold pf_stop; cbn [with_num ds_rel]; rewrite Hrel; reflexivity).
  rewrite Hs. cbn [with_num ds_num].
  pose proof (@iteration_stops s0 m Hm Hno Hpen Hu HR) as Hf. rewrite EX0 in Hf. specialize (Hf HX HW).
  change (md_update md s0) with (p2_update env ps s0). destruct (p2_update env ps s0) as [s1 [e|]]; cbn [snd] in Hf; [|discriminate].
  injection Hf as ->. reflexivity.
Qed.
End Total.

(** *** Whole fits *)
Lemma penalised_completes env ps K nI cf disk draws Xs max_its arg ds :
  let budget := match max_its with Some m => m | None => ds_max ds end in
  penalised_fit env ps K nI draws Xs -> plain_run ps cf budget ds ->
  exists ds', p2_fit env ps cf disk draws (Slices Xs) max_its arg ds = (ds', None) /\ (0 < ds_it ds' <= budget)%Z /\
    p2_ok K nI (ds_num ds') /\ p2_X (ds_num ds') = Xs /\
    forall m, (m < 3)%nat -> (0 < ps_updates ps)%nat -> nth_error (ps_nn ps) m = Some true ->
      nonneg_mat (nth m [nI; K; length Xs] 0%nat) K (mget (p2_factor (ds_num ds') m)).
Proof.
  intros budget [HD H3 HP HS HN] [Hb Hlg Hpr Hck].
  destruct (@drawn_begins env ps K nI disk draws Xs arg ds HD) as (s1 & l & Hok & HF & EX & _ & E).
  destruct HD as [Hi HO HK [HnI HK0] HX HDr Hqr Hw].
  assert (HnX : (0 < length Xs)%nat) by (destruct HX as [Hne _]; destruct Xs; [congruence|cbn; lia]).
  specialize (E max_its). fold budget in E. unfold p2_fit. rewrite E.
  destruct (@loop_total env ps K nI HK HO HnI HK0 HS HN cf (Decomposer.start s1 (Fin l) 0 budget (ds_logs ds) (ds_file ds)))
    as (ds' & n & EL & Eit & Hn & Hpos & H1 & EX1 & HG); cbn [Decomposer.start ds_num ds_it ds_max ds_logs ds_rel] in *; rewrite ?EX; auto; try lia.
  - intros k Hk. pose proof (Hw k Hk). lia.
  - rewrite Z.max_r by lia. destruct Hck as [Hf|(Hf & f & Hfile & Hready & Hun)]; [now left|right].
    split; [exact Hf|]. exists f. auto.
  - exists ds'. split; [exact EL|]. specialize (Hpos eq_refl Hb). split; [lia|]. split; [exact H1|]. split; [congruence|].
    intros m Hm Hu Ht. rewrite EX in HG. auto.
Qed.

Lemma short_list_raises env ps K nI cf disk draws Xs max_its arg ds m : drawn_start env ps K nI draws Xs ->
  svd_contract (env_svd (pe_cp env)) -> nnls_contract (env_nnls (pe_cp env)) ->
  match ps_ridge ps with Some l => Forall (Rle 0) l | None => True end -> (0 < ps_updates ps)%nat ->
  (0 < match max_its with Some m => m | None => ds_max ds end)%Z -> (m < 3)%nat -> no_entry ps m ->
  snd (p2_fit env ps cf disk draws (Slices Xs) max_its arg ds) = Some IndexError.
Proof.
  intros HD HS HN Hpen Hu Hb Hm Hno.
  destruct (@drawn_begins env ps K nI disk draws Xs arg ds HD) as (s1 & l & Hok & HF & EX & _ & E).
  destruct HD as [Hi HO HK [HnI HK0] HX HDr Hqr Hw].
  assert (HnX : (0 < length Xs)%nat) by (destruct HX as [Hne _]; destruct Xs; [congruence|cbn; lia]).
  unfold p2_fit. rewrite (E max_its). set (budget := match max_its with Some m => m | None => ds_max ds end) in *.
  apply (@loop_stops env ps K nI HK HO HnI HK0 HS HN cf (Decomposer.start s1 (Fin l) 0 budget (ds_logs ds) (ds_file ds)) m);
    cbn [Decomposer.start ds_num ds_it ds_max ds_rel]; rewrite ?EX; auto.
  intros k Hk. pose proof (Hw k Hk). lia.
Qed.
