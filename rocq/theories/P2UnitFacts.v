(** Parafac2_ALS in other units and with the components in another order: lemmas for C101. *)
From Verif Require Export P2UnitSpec RelocateFacts SymFacts.
From Verif Require Import SvdFacts Solves Prelude Lin.
Set Implicit Arguments.
Unset Strict Implicit.
Local Open Scope R_scope.

(** *** One projection *)
Lemma transformed_svd w K M M' U Sv V (sg z : R) rho : permutes K rho -> sg * sg = 1 -> 0 < z ->
  (forall j q, (j < w)%nat -> (q < K)%nat -> mget M' j (rho q) = sg * z * mget M j q) -> is_svd w K M U Sv V ->
  is_svd w K M' (tab2 w (Nat.min w K) (fun j r => sg * mget U j r)) (np_map (Rmult z) Sv) (tab2 (Nat.min w K) K (fun r q => mget V r (inv K rho q))).
Proof.
  intros Hrho Hsg Hz HM [HU HSv HV OU OV PS SS PR]. constructor.
  - apply is_mat_tab2.
  - now apply is_vec_np_map.
  - apply is_mat_tab2.
  - intros a b Ha Hb. rewrite <- (OU a b Ha Hb). apply sum_ext. intros i Hi. rewrite !mget_tab2 by auto.
    replace (sg * mget U i a * (sg * mget U i b)) with (sg * sg * (mget U i a * mget U i b)) by ring. rewrite Hsg. ring.
  - intros a b Ha Hb. rewrite <- (OV a b Ha Hb), <- (@sum_permuted K rho _ Hrho). apply sum_ext. intros j Hj.
    rewrite !mget_tab2 by (auto; now apply Hrho). now rewrite (inv_l Hrho Hj).
  - intros r Hr. rewrite (vget_np_map _ HSv Hr). apply Rmult_le_pos; [lra|auto].
  - intros r s Hrs. rewrite (vget_np_map _ HSv (i := s)), (vget_np_map _ HSv (i := r)) by lia. apply Rmult_le_compat_l; [lra|now apply SS].
  - intros i j Hi Hj. destruct (inv_r Hrho Hj) as [Hq Ej]. rewrite <- Ej at 1. rewrite HM, (PR _ _ Hi Hq) by auto. rewrite <- sum_scal_l.
    apply sum_ext. intros r Hr. rewrite (vget_np_map _ HSv Hr), !mget_tab2 by auto. ring.
Qed.

Definition cut (w K : nat) (s0 s : R) : R := if Rlt_dec (INR (Nat.max w (Nat.min w K)) * s0 * / 10 ^ 16) s then 1 else 0.
Lemma cut_scaled w K z s0 s : 0 < z -> cut w K (z * s0) (z * s) = cut w K s0 s.
Proof.
  intros Hz. unfold cut. set (e := INR _). replace (e * (z * s0) * / 10 ^ 16) with (z * (e * s0 * / 10 ^ 16)) by ring.
  set (x := e * s0 * / 10 ^ 16). destruct (Rlt_dec x s), (Rlt_dec (z * x) (z * s)); auto; exfalso.
  - apply n. now apply Rmult_lt_compat_l.
  - apply n. now apply Rmult_lt_reg_l in r.
Qed.
Lemma cut_zero w K s0 : 0 <= s0 -> cut w K s0 0 = 0.
Proof.
  intros H. unfold cut. set (e := INR _). assert (0 <= e) by apply pos_INR. destruct (Rlt_dec (e * s0 * / 10 ^ 16) 0) as [L|L]; auto. exfalso.
  assert (0 <= e * s0 * / 10 ^ 16); [|lra]. repeat apply Rmult_le_pos; auto. left. apply Rinv_0_lt_compat, pow_lt. lra.
Qed.
Lemma first_value n Sv s rest : is_vec n Sv -> data Sv = s :: rest -> (0 < n)%nat /\ vget Sv 0 = s.
Proof.
  intros [W Sh] E. unfold wf in W. rewrite E, Sh in W. cbn in W. split; [lia|]. unfold vget, get. rewrite E, Sh. reflexivity.
Qed.
Lemma solve_entries svd nI w K T X Z : svd_contract svd -> is_mat nI K T -> is_mat nI w X -> orthogonal_solve svd T X = Ok Z ->
  exists U Sv V, is_svd w K (tab2 w K (fun j q => sum nI (fun i => mget X i j * mget T i q))) U Sv V /\ (0 < Nat.min w K)%nat /\
    Z = tab2 K w (fun q j => sum (Nat.min w K) (fun r => mget U j r * cut w K (vget Sv 0) (vget Sv r) * mget V r q)).
Proof.
  intros HS HT HX. unfold orthogonal_solve. rewrite (matmul_ok (is_mat_transp HX) HT). cbn [bind].
  rewrite (@tab2_ext w K _ (fun j q => sum nI (fun i => mget X i j * mget T i q)))
    by (intros j q Hj Hq; apply sum_ext; intros i Hi; now rewrite (mget_transp HX)).
  set (M := tab2 w K _). destruct (HS w K M (is_mat_tab2 w K _)) as (U & Sv & V & -> & F). cbn [bind]. destruct (data Sv) as [|s0 rest] eqn:ES; [discriminate|]. cbn [bind].
  destruct (first_value (svd_S_shape F) ES) as [Hp Es].
  assert (EU : nrows U = w /\ ncols U = Nat.min w K) by (unfold nrows, ncols; now rewrite (proj2 (svd_U_shape F))). destruct EU as [-> ->].
  pose proof (product_entries (cut w K s0) F) as EP. unfold cut at 1 in EP. intros E. rewrite EP in E. injection E as <-.
  exists U, Sv, V. split; [exact F|]. split; [exact Hp|]. now rewrite Es.
Qed.
Lemma solve_scaled svd nI w K T T' X Y Z Z' (sg z : R) rho : svd_contract svd -> permutes K rho -> sg * sg = 1 -> 0 < z ->
  is_mat nI K T -> is_mat nI K T' -> is_mat nI w X -> is_mat nI w Y ->
  (forall j q, (j < w)%nat -> (q < K)%nat -> sum nI (fun i => mget Y i j * mget T' i (rho q)) = sg * z * sum nI (fun i => mget X i j * mget T i q)) ->
  orthogonal_solve svd T X = Ok Z -> orthogonal_solve svd T' Y = Ok Z' ->
  forall j q, (j < w)%nat -> (q < K)%nat -> mget (transp Z') j (rho q) = sg * mget (transp Z) j q.
Proof.
  intros HS Hrho Hsg Hz HT HT' HX HY HE E1 E2 j q Hj Hq.
  destruct (solve_entries HS HT HX E1) as (U & Sv & V & F & Hp & ->). destruct (solve_entries HS HT' HY E2) as (U' & Sv' & V' & F' & _ & ->).
  pose proof (proj1 Hrho q Hq) as Hq'.
  set (M := tab2 w K (fun j q => sum nI (fun i => mget X i j * mget T i q))) in *.
  set (M' := tab2 w K (fun j q => sum nI (fun i => mget Y i j * mget T' i q))) in *.
  assert (HM : forall j q, (j < w)%nat -> (q < K)%nat -> mget M' j (rho q) = sg * z * mget M j q).
  { intros a b Ha Hb. unfold M, M'. rewrite !mget_tab2 by (auto; now apply Hrho). now apply HE. }
  pose proof (transformed_svd Hrho Hsg Hz HM F) as G. clearbody M M'.
  assert (ET : forall g, mget (transp (tab2 K w g)) j (rho q) = g (rho q) j /\ mget (transp (tab2 K w g)) j q = g q j).
  { intros g. rewrite !(mget_transp (is_mat_tab2 K w g)), !mget_tab2 by auto. auto. }
  rewrite (proj1 (ET _)), (proj2 (ET _)). clear ET.
  rewrite <- (values_eq G F'). rewrite <- (values_eq G F') in F'.
  assert (N0 : 0 <= vget Sv 0) by (apply (svd_S_nonneg F); exact Hp).
  rewrite (vget_np_map _ (svd_S_shape F) Hp).
  rewrite <- (@svd_function w K _ _ _ _ _ _ _ G F' (cut w K (z * vget Sv 0)) (cut_zero w K (Rmult_le_pos _ _ (Rlt_le _ _ Hz) N0)) j (rho q) Hj Hq').
  rewrite <- sum_scal_l. apply sum_ext. intros r Hr. rewrite (vget_np_map _ (svd_S_shape F) Hr), cut_scaled, !mget_tab2 by auto.
  rewrite (inv_l Hrho Hq). ring.
Qed.

(** *** Inner updates *)
Definition scales (a b d : R) (n : nat) : R := match n with 0%nat => a | 1%nat => b | _ => d end.
Definition rows_of (rho : nat -> nat) (n i : nat) : nat := match n with 1%nat => rho i | _ => i end.

Section Inner.
Variables (env : p2_env) (ps : p2_settings) (K nI : nat) (c sg : R) (rho pi : nat -> nat).
Let ics := inner_settings ps.
Let cenv := pe_cp env.
Let svd := env_svd cenv.
Let md := p2_model env ps.
Hypothesis (HK : ps_rank ps = K) (HO : no_orth ps) (HnI : (0 < nI)%nat) (HK0 : (0 < K)%nat).
Hypothesis (HS : svd_contract svd) (HN : nnls_contract (env_nnls cenv)) (HU : free_settings ps).
Hypothesis (Hc : c <> 0) (Hsg : sg * sg = 1) (Hrho : permutes K rho) (Hpi : permutes K pi).
Notation move := (rows_of rho).

Definition alike (f : nat -> R) (u v : p2_state) : Prop := same_factors K f move pi [p2_A u; p2_B u; p2_C u] [p2_A v; p2_B v; p2_C v].
Definition unit_pair (f : nat -> R) (PX PG : nd) (u v : p2_state) : Prop :=
  busy ps K nI PX u /\ busy ps K nI PG v /\ alike f u v /\ forall n, (n < 3)%nat -> f n <> 0.
Definition unit_step (f : nat -> R) (PX PG : nd) (u v : p2_state) (ru rv : p2_state * option exn) : Prop :=
  exists u' v', ru = (u', None) /\ rv = (v', None) /\ unit_pair f PX PG u' v' /\ p2_X u' = p2_X u /\ p2_X v' = p2_X v /\
    p2_Ps u' = p2_Ps u /\ p2_Ps v' = p2_Ps v.

Lemma plain_penalties : p2_penalties ps.
Proof. unfold p2_penalties. now rewrite (proj2 HU). Qed.
Lemma inner_free PX s : busy ps K nI PX s -> free_fit ics (forget (p2_view s)).
Proof.
  intros HB m Hm. assert (H3 : (m < 3)%nat) by (change (cp_X (forget (p2_view s))) with (cp_X (p2_inner s)) in Hm; rewrite (bs_X HB), (bs_shape HB) in Hm; exact Hm).
  assert (E : nth_error [false; false; false] m = Some false) by (destruct m as [|[|[|m]]]; try reflexivity; lia).
  split; [exact (proj2 HU)|]. split.
  - exists (ps_nn ps). split; [apply (rd_nn (bs_ready HB))|]. rewrite (proj1 HU). exact E.
  - exists [false; false; false]. split; [apply (rd_orth (bs_ready HB))|exact E].
Qed.
Lemma view_paired f PX PG u v : same_data (sg * c) move PX PG -> unit_pair f PX PG u v ->
  paired ics ics K (sg * c) move pi f (forget (p2_view u)) (forget (p2_view v)).
Proof.
  intros HD (Bu & Bv & HA & Hf). constructor.
  - exact (busy_coherent Bu).
  - exact (busy_coherent Bv).
  - exact (inner_free Bu).
  - exact (inner_free Bv).
  - change (same_data (sg * c) move (cp_X (p2_inner u)) (cp_X (p2_inner v))). rewrite (bs_X Bu), (bs_X Bv). exact HD.
  - rewrite (inner_fms Bu), (inner_fms Bv). exact HA.
  - change (cp_X (forget (p2_view u))) with (cp_X (p2_inner u)). rewrite (bs_X Bu), (bs_shape Bu). exact Hf.
Qed.
Lemma sgc_nonzero : sg * c <> 0.
Proof. apply Rmult_integral_contrapositive_currified; auto. intros E. rewrite E in Hsg. lra. Qed.

Lemma step_units f PX PG u v m : same_data (sg * c) move PX PG -> unit_pair f PX PG u v -> (m < 3)%nat ->
  unit_step (upd f m (rescale 3 f m (sg * c))) PX PG u v (p2_cp_update env ps u m) (p2_cp_update env ps v m).
Proof.
  intros HD HP Hm. pose proof HP as (Bu & Bv & HA & Hf).
  destruct (penalty_of HK HnI HK0 plain_penalties Hm) as (lam & Hpen & Hl).
  assert (Ef : nth_error (ps_nn ps) m = Some false) by (rewrite (proj1 HU); destruct m as [|[|[|m]]]; try reflexivity; lia).
  destruct (@cp_step env ps K nI HK HnI HK0 HS HN PX u m false lam Bu Hm Ef Hpen Hl) as (u' & Eu & Bu' & Xu & _ & Ou & Fu & Pu).
  destruct (@cp_step env ps K nI HK HnI HK0 HS HN PG v m false lam Bv Hm Ef Hpen Hl) as (v' & Ev & Bv' & Xv & _ & Ov & Fv & Pv).
  exists u', v'. split; [exact Eu|]. split; [exact Ev|]. split; [|auto]. split; [exact Bu'|]. split; [exact Bv'|].
  destruct (@update_paired cenv cenv ics ics K HK HK (fun A HA => HS HA) (fun A HA => HS HA) (sg * c) move pi sgc_nonzero Hpi f _ _ m (view_paired HD HP))
    as (t & t' & Et & Et' & SP & _ & HP').
  { change (cp_X (forget (p2_view u))) with (cp_X (p2_inner u)). rewrite (bs_X Bu), (bs_shape Bu). exact Hm. }
  change (cp_X (forget (p2_view u))) with (cp_X (p2_inner u)) in HP'. rewrite (bs_X Bu), (bs_shape Bu) in HP'. cbn [length] in HP'.
  apply update_forget in Et. apply update_forget in Et'. unfold ics, cenv in Et, Et'. rewrite Et in Fu. rewrite Et' in Fv. cbn [fst] in Fu, Fv.
  destruct HP' as [C1 C2 _ _ _ [L1 HS'] _]. split.
  - destruct HA as [L2 HA]. split; [reflexivity|]. intros n i r Hn Hi Hr. cbn [length] in Hn. unfold upd.
    unfold p2_factor in *. destruct (Nat.eqb_spec n m) as [->|Hne].
    + assert (EN : length (kt_fms (cp_dec t)) = 3%nat).
      { rewrite (mode_len (proj2 (co_fac C1))), (sp_X SP). change (cp_X (forget (p2_view u))) with (cp_X (p2_inner u)). now rewrite (bs_X Bu), (bs_shape Bu). }
      pose proof (HS' m i r) as H. rewrite EN in H. unfold upd in H. rewrite Nat.eqb_refl in H. rewrite <- Fv, <- Fu in H.
      destruct m as [|[|[|m]]]; [| | |lia]; cbn [nth] in *; now apply H.
    + specialize (Ou n Hn Hne). specialize (Ov n Hn Hne). specialize (HA n i r Hn).
      destruct n as [|[|[|n]]]; [| | |lia]; cbn [nth] in *; rewrite Ou in Hi |- *; rewrite Ov; now apply HA.
  - intros n Hn. unfold upd. destruct (Nat.eqb n m); [apply rescale_nonzero; auto; apply sgc_nonzero|auto].
Qed.
Lemma alike_ext f g u v : (forall n, (n < 3)%nat -> g n = f n) -> alike f u v -> alike g u v.
Proof. intros E. apply same_factors_ext. exact E. Qed.
Lemma pair_ext f g PX PG u v : (forall n, (n < 3)%nat -> g n = f n) -> unit_pair f PX PG u v -> unit_pair g PX PG u v.
Proof.
  intros E (H1 & H2 & H3 & H4). split; [exact H1|]. split; [exact H2|]. split; [now apply (alike_ext E)|]. intros n Hn. rewrite E by auto. now apply H4.
Qed.
Lemma modes_units f PX PG l : same_data (sg * c) move PX PG -> scale_prod 3 f = sg * c -> forall u v, unit_pair f PX PG u v -> Forall (fun m => (m < 3)%nat) l ->
  unit_step f PX PG u v (run_all (p2_cp_update env ps) l u) (run_all (p2_cp_update env ps) l v).
Proof.
  intros HD Hf. induction l as [|m l IH]; intros u v H Hl; cbn [run_all]; [exists u, v; auto 10|].
  inversion Hl as [|? ? Hm Hl']; subst. destruct (step_units HD H Hm) as (u1 & v1 & -> & -> & H1 & X1 & Y1 & P1 & Q1).
  assert (H1' : unit_pair f PX PG u1 v1).
  { apply (@pair_ext (upd f m (rescale 3 f m (sg * c)))); [|exact H1]. intros n Hn. unfold upd. destruct (Nat.eqb_spec n m) as [->|]; auto.
    rewrite <- Hf. symmetry. apply rescale_same. apply H. }
  destruct (IH u1 v1 H1' Hl') as (u2 & v2 & -> & -> & H2 & X2 & Y2 & P2 & Q2). exists u2, v2. repeat (split; [congruence || exact H2|]). congruence.
Qed.
Definition after_first (a b d : R) : R := sg * c / (b * d).
Lemma sweep_units a b d PX PG u v : same_data (sg * c) move PX PG -> unit_pair (scales a b d) PX PG u v ->
  unit_step (scales (after_first a b d) b d) PX PG u v (p2_cp_sweep env ps u) (p2_cp_sweep env ps v).
Proof.
  intros HD HP. pose proof HP as (Bu & Bv & HA & Hf). unfold p2_cp_sweep, ndim. rewrite (bs_X Bu), (bs_X Bv), (bs_shape Bu), (bs_shape Bv). cbn [length seq run_all].
  pose proof (Hf 0%nat ltac:(lia)) as F0. pose proof (Hf 1%nat ltac:(lia)) as F1. pose proof (Hf 2%nat ltac:(lia)) as F2. cbn [scales] in F0, F1, F2.
  destruct (step_units HD HP (m := 0%nat) ltac:(lia)) as (u1 & v1 & -> & -> & H1 & X1 & Y1 & P1 & Q1).
  assert (H1' : unit_pair (scales (after_first a b d) b d) PX PG u1 v1).
  { revert H1. apply pair_ext. intros [|[|[|n]]] Hn; [|reflexivity|reflexivity|lia]. unfold upd, rescale, after_first. cbn. field. auto. }
  destruct (@modes_units (scales (after_first a b d) b d) PX PG [1%nat; 2%nat] HD) with (u := u1) (v := v1) as (u2 & v2 & E2 & G2 & H2 & X2 & Y2 & P2 & Q2); auto.
  { cbn. unfold after_first. field. split; auto. }
  cbn [run_all] in E2, G2. rewrite E2, G2. exists u2, v2. repeat (split; [congruence || exact H2|]). congruence.
Qed.
Lemma sweeps_units (l : list nat) PX PG : same_data (sg * c) move PX PG -> l <> [] -> forall a b d u v, unit_pair (scales a b d) PX PG u v ->
  unit_step (scales (after_first a b d) b d) PX PG u v (run_all (fun s _ => p2_cp_sweep env ps s) l u) (run_all (fun s _ => p2_cp_sweep env ps s) l v).
Proof.
  intros HD Hl. induction l as [|x l IH]; intros a b d u v H; [congruence|]. cbn [run_all].
  destruct (sweep_units HD H) as (u1 & v1 & -> & -> & H1 & X1 & Y1 & P1 & Q1). destruct l as [|y l]; [cbn [run_all]; exists u1, v1; auto 10|].
  destruct (IH ltac:(discriminate) _ _ _ u1 v1 H1) as (u2 & v2 & -> & -> & H2 & X2 & Y2 & P2 & Q2). exists u2, v2.
  repeat (split; [congruence || exact H2|]). congruence.
Qed.

(** *** Iterations *)
Variables (Xs Ys : list nd).
Hypothesis (HM : multiplied nI c Xs Ys) (HX : slices_ok nI Xs) (HY : slices_ok nI Ys) (WX : wide K Xs) (Hup : (0 < ps_updates ps)%nat).
Notation units a b d := (other_units K nI (length Xs) a b d rho pi).

Lemma alike_iff a b d u v : p2_ok K nI u -> p2_X u = Xs -> alike (scales a b d) u v <-> units a b d u v.
Proof using.
  clear. intros Ho EX. pose proof (is_mat_nrows (ok_A Ho)) as RA. pose proof (is_mat_nrows (ok_B Ho)) as RB. pose proof (is_mat_nrows (ok_C Ho)) as RC.
  rewrite EX in RC. split.
  - intros [_ H]. constructor.
    + intros i r Hi Hr. apply (H 0%nat i r); cbn; rewrite ?RA; auto; lia.
    + intros i r Hi Hr. apply (H 1%nat i r); cbn; rewrite ?RB; auto; lia.
    + intros i r Hi Hr. apply (H 2%nat i r); cbn; rewrite ?RC; auto; lia.
  - intros [HA HB HC]. split; [reflexivity|]. intros [|[|[|n]]] i r Hn Hi Hr; cbn [nth scales rows_of] in *; [| | |cbn in Hn; lia].
    + rewrite RA in Hi. now apply HA.
    + rewrite RB in Hi. now apply HB.
    + rewrite RC in Hi. now apply HC.
Qed.

Lemma iteration_units a b d s t : a <> 0 -> b <> 0 -> d <> 0 -> 0 < sg * (c * (a * b * d)) ->
  ready ps K nI s -> ready ps K nI t -> p2_X s = Xs -> p2_X t = Ys -> units a b d s t ->
  exists s' t', p2_update env ps s = (s', None) /\ p2_update env ps t = (t', None) /\ units (sg * c / (b * d)) b d s' t' /\
    other_columns K Xs sg rho (p2_Ps s') (p2_Ps t').
Proof.
  intros Ha Hb Hd Hz Rs Rt EX EY HUn. destruct HUn as [FA FB FC]. destruct HM as [HL HMk].
  assert (Hn : (0 < length Xs)%nat) by (destruct HX as [Hne _]; destruct Xs; [congruence|cbn; lia]).
  assert (WY : forall k, (k < length Xs)%nat -> width Ys k = width Xs k) by (intros k Hk; apply (HMk k Hk)).
  destruct (@retargeted env ps K nI HK HnI HK0 HS s Rs) as (s2 & PX & X2 & B2 & A2 & BB2 & C2 & HPj & HPe & Es).
  { now rewrite EX. } { intros k Hk. rewrite EX in *. pose proof (WX Hk). lia. }
  destruct (@retargeted env ps K nI HK HnI HK0 HS t Rt) as (t2 & PG & Y2 & D2 & A3 & BB3 & C3 & HQj & HQe & Et).
  { rewrite EY. lia. } { intros k Hk. rewrite EY in *. rewrite HL in Hk. rewrite (WY k Hk). pose proof (WX Hk). lia. }
  rewrite EX in *. rewrite EY in *.
  assert (Hre : other_columns K Xs sg rho (p2_Ps s2) (p2_Ps t2)).
  { intros k j q Hk Hj Hq.
    destruct (pj_solve (HPj k Hk)) as (T & Z & HT & HTe & EZ & ->). destruct (pj_solve (HQj k ltac:(lia))) as (T' & Z' & HT' & HTe' & EZ' & ->).
    rewrite EX in EZ. rewrite EY in EZ'.
    apply (@solve_scaled svd nI (width Xs k) K T T' (nth k Xs m0) (nth k Ys m0) Z Z' sg (sg * (c * (a * b * d))) rho); auto.
    - now apply HX.
    - rewrite <- (WY k Hk). apply HY. lia.
    - intros j' q' Hj' Hq'. replace (sg * (sg * (c * (a * b * d)))) with (c * (a * b * d)) by (rewrite <- (Rmult_assoc sg sg), Hsg; ring).
      rewrite <- sum_scal_l. apply sum_ext. intros i Hi. destruct (HMk k Hk) as [_ HMe]. rewrite HMe by auto.
      rewrite HTe' by (auto; now apply Hrho). rewrite HTe by auto.
      rewrite <- (@sum_permuted K pi (fun r => mget (p2_C t) k r * mget (p2_A t) i r * mget (p2_B t) (rho q') r) Hpi).
      rewrite (@sum_ext K _ (fun r => a * b * d * (mget (p2_C s) k r * mget (p2_A s) i r * mget (p2_B s) q' r)))
        by (intros r Hr; rewrite FA, FB, FC by auto; ring).
      rewrite sum_scal_l. ring. }
  assert (HR : same_data (sg * c) move PX PG).
  { pose proof (bs_shape B2) as S1. pose proof (bs_shape D2) as S2. rewrite X2 in S1. rewrite Y2, HL in S2. split; [congruence|]. rewrite S1. split.
    - intros [|[|[|m]]] Hm; cbn [nth rows_of]; [apply permutes_id|exact Hrho|apply permutes_id|cbn in Hm; lia].
    - intros idx Hv.
      apply valid_cons_inv in Hv as (i & idx1 & -> & Hi & Hv). apply valid_cons_inv in Hv as (q & idx2 & -> & Hq & Hv).
      apply valid_cons_inv in Hv as (k & idx3 & -> & Hk & Hv). apply valid_nil_inv in Hv as ->. cbn [moved rows_of].
      rewrite HPe by auto. rewrite HQe by (solve [auto] || (now apply Hrho) || lia). unfold projected_entry. rewrite (WY k Hk), <- sum_scal_l.
      apply sum_ext. intros j Hj. destruct (HMk k Hk) as [_ HMe]. rewrite HMe, (Hre k j q) by auto. ring. }
  assert (Hs2 : unit_pair (scales a b d) PX PG s2 t2).
  { split; [exact B2|]. split; [exact D2|]. split.
    - apply alike_iff; [apply (rd_ok (bs_ready B2))|exact X2|]. constructor; intros; rewrite ?A2, ?BB2, ?C2, ?A3, ?BB3, ?C3; auto.
    - intros [|[|[|m]]] Hm; cbn [scales]; auto. }
  destruct (@sweeps_units (seq 0 (ps_updates ps)) PX PG HR) with (a := a) (b := b) (d := d) (u := s2) (v := t2)
    as (s3 & t3 & E3 & G3 & (B3 & D3 & F3 & _) & X3 & Y3 & P3 & Q3); [destruct (ps_updates ps); [lia|discriminate]|exact Hs2|].
  rewrite Es, Et, E3, G3. cbn [and_then].
  destruct (scale_total HK HK0 (bs_ready B3)) as (s4 & E4 & X4 & A4 & B4 & C4 & P4).
  destruct (scale_total HK HK0 (bs_ready D3)) as (t4 & G4 & Y4 & A5 & B5 & C5 & P5). rewrite E4, G4. cbn [and_then].
  exists (p2_unit_weights s4), (p2_unit_weights t4). split; [reflexivity|]. split; [reflexivity|].
  apply alike_iff in F3 as [FA3 FB3 FC3]; [|apply (rd_ok (bs_ready B3))|congruence]. split.
  - constructor; intros i r Hi Hr.
    + change (mget (p2_A t4) i (pi r) = sg * c / (b * d) * mget (p2_A s4) i r). rewrite A4, A5. now apply FA3.
    + change (mget (p2_B t4) (rho i) (pi r) = b * mget (p2_B s4) i r). rewrite B4, B5. now apply FB3.
    + change (mget (p2_C t4) i (pi r) = d * mget (p2_C s4) i r). rewrite C4, C5. now apply FC3.
  - change (other_columns K Xs sg rho (p2_Ps s4) (p2_Ps t4)). rewrite P4, P5, P3, Q3. exact Hre.
Qed.

Lemma settled_sign b d : b <> 0 -> d <> 0 -> sg * c / (b * d) <> 0 /\ 0 < sg * (c * (sg * c / (b * d) * b * d)) /\
  sg * c / (b * d) = sg * c / (b * d) * 1.
Proof.
  intros Hb Hd. split; [|split; [|ring]].
  - apply Rmult_integral_contrapositive_currified; [apply sgc_nonzero|]. apply Rinv_neq_0_compat. now apply Rmult_integral_contrapositive_currified.
  - replace (sg * (c * (sg * c / (b * d) * b * d))) with (sg * sg * (c * c)) by (field; auto). rewrite Hsg. assert (0 < c * c) by (now apply Rsqr_pos_lt). lra.
Qed.

Lemma after_units a b d s t : a <> 0 -> b <> 0 -> d <> 0 -> 0 < sg * (c * (a * b * d)) ->
  ready ps K nI s -> ready ps K nI t -> p2_X s = Xs -> p2_X t = Ys -> units a b d s t -> forall j,
  units (sg * c / (b * d)) b d (state_after md s (S j)) (state_after md t (S j)) /\
  other_columns K Xs sg rho (p2_Ps (state_after md s (S j))) (p2_Ps (state_after md t (S j))).
Proof.
  intros Ha Hb Hd Hz Rs Rt EX EY F j. destruct (settled_sign Hb Hd) as (Ha' & Hz' & _).
  assert (G : exists x, x <> 0 /\ 0 < sg * (c * (x * b * d)) /\ units x b d (state_after md s j) (state_after md t j)).
  { induction j as [|j (x & H1 & H2 & H3)]; [exists a; auto|].
    pose proof (@ready_after env ps K nI HK s j Rs) as R1. pose proof (@ready_after env ps K nI HK t j Rt) as R2.
    pose proof (fr_X (after_frame env ps s j)) as X1. pose proof (fr_X (after_frame env ps t j)) as X2. fold md in R1, R2, X1, X2.
    destruct (@iteration_units x b d (state_after md s j) (state_after md t j)) as (s' & t' & E1 & E2 & F' & _); auto; try congruence.
    exists (sg * c / (b * d)). split; [exact Ha'|]. split; [exact Hz'|]. cbn [state_after]. change (md_update md) with (p2_update env ps). now rewrite E1, E2. }
  destruct G as (x & H1 & H2 & H3).
  pose proof (@ready_after env ps K nI HK s j Rs) as R1. pose proof (@ready_after env ps K nI HK t j Rt) as R2.
  pose proof (fr_X (after_frame env ps s j)) as X1. pose proof (fr_X (after_frame env ps t j)) as X2. fold md in R1, R2, X1, X2.
  destruct (@iteration_units x b d (state_after md s j) (state_after md t j)) as (s' & t' & E1 & E2 & F' & C'); auto; try congruence.
  cbn [state_after]. change (md_update md) with (p2_update env ps). rewrite E1, E2. auto.
Qed.

Lemma loss_units a b d s t : a * b * d = sg * c -> p2_ok K nI s -> p2_ok K nI t -> p2_X s = Xs -> p2_X t = Ys -> units a b d s t ->
  other_columns K Xs sg rho (p2_Ps s) (p2_Ps t) -> exists l, p2_loss ps s = Ok l /\ p2_loss ps t = Ok (c ^ 2 * l).
Proof using HM HU Hsg Hrho Hpi.
  clear HnI HK0 HK Hup WX HX HY. intros Habd Hs Ht EX EY [FA FB FC] HC. rewrite (p2_loss_ok ps Hs), (p2_loss_ok ps Ht), EX, EY, (proj2 HU).
  eexists. split; [reflexivity|]. f_equal. rewrite !Rplus_0_r. unfold pf_sse. destruct HM as [HL HMk]. rewrite HL, <- sum_scal_l.
  apply sum_ext. intros k Hk. unfold slice_err, dist2. destruct (HMk k Hk) as [-> HMe]. rewrite <- sum_scal_l. apply sum_ext. intros i Hi.
  rewrite <- sum_scal_l. apply sum_ext. intros j Hj. rewrite HMe by auto.
  replace (pf_entry K (p2_A t) (p2_B t) (p2_C t) k (mget (nth k (p2_Ps t) m0)) i j)
    with (c * pf_entry K (p2_A s) (p2_B s) (p2_C s) k (mget (nth k (p2_Ps s) m0)) i j); [ring|].
  unfold pf_entry, mprod. rewrite <- (@sum_permuted K pi (fun r => mget (p2_A t) i r * mget (p2_C t) k r * sum K (fun q => mget (nth k (p2_Ps t) m0) j q * mget (p2_B t) q r)) Hpi).
  rewrite <- sum_scal_l. apply sum_ext. intros r Hr.
  rewrite <- (@sum_permuted K rho (fun q => mget (nth k (p2_Ps t) m0) j q * mget (p2_B t) q (pi r)) Hrho), FA, FC by auto.
  rewrite (@sum_ext K (fun q => mget (nth k (p2_Ps t) m0) j (rho q) * mget (p2_B t) (rho q) (pi r)) (fun q => sg * b * (mget (nth k (p2_Ps s) m0) j q * mget (p2_B s) q r)))
    by (intros q Hq; rewrite FB, (HC k j q) by auto; ring).
  rewrite sum_scal_l. replace c with (sg * sg * c) at 1 by (rewrite Hsg; ring).
  replace (sg * sg * c) with (sg * (sg * c)) by ring. rewrite <- Habd. ring.
Qed.
End Inner.

(** *** Runs and complete fits *)
Lemma units_run env ps K nI c sg a b d rho pi Xs Ys s t s0 t0 : drawn_settings ps K nI -> svd_contract (env_svd (pe_cp env)) ->
  nnls_contract (env_nnls (pe_cp env)) -> free_settings ps -> (0 < ps_updates ps)%nat ->
  sg = 1 \/ sg = -1 -> c <> 0 -> a <> 0 -> b <> 0 -> d <> 0 -> 0 < sg * (c * (a * b * d)) -> permutes K rho -> permutes K pi ->
  multiplied nI c Xs Ys -> slices_ok nI Xs -> slices_ok nI Ys -> wide K Xs -> p2_ok K nI s -> p2_ok K nI t -> p2_X s = Xs -> p2_X t = Ys ->
  other_units K nI (length Xs) a b d rho pi s t -> p2_prepare env ps s = (s0, None) -> p2_prepare env ps t = (t0, None) ->
  let md := p2_model env ps in
  forall j, let u := state_after md s0 (S j) in let v := state_after md t0 (S j) in
    snd (md_update md (state_after md s0 j)) = None /\ snd (md_update md (state_after md t0 j)) = None /\
    other_units K nI (length Xs) (sg * c / (b * d)) b d rho pi u v /\ other_columns K Xs sg rho (p2_Ps u) (p2_Ps v) /\
    exists l, p2_loss ps u = Ok l /\ p2_loss ps v = Ok (c ^ 2 * l).
Proof.
  intros (HK & HO & HnI & HK0) HS HN HU Hup Hsg Hc Ha Hb Hd Hz Hrho Hpi HM HX HY WX Hs Ht EX EY HF E1 E2 md j u v.
  assert (Hsq : sg * sg = 1) by (destruct Hsg; subst; ring).
  assert (Hn : (0 < length Xs)%nat) by (destruct HX as [Hne _]; destruct Xs; [congruence|cbn; lia]).
  destruct (@prepare_ready env ps K nI HK HO HnI HK0 s Hs) as (x & Ex & Rs & As & _); [now rewrite EX|]. rewrite E1 in Ex. injection Ex as <-.
  destruct (@prepare_ready env ps K nI HK HO HnI HK0 t Ht) as (x & Ex & Rt & At & _); [rewrite EY, (proj1 HM); exact Hn|]. rewrite E2 in Ex. injection Ex as <-.
  apply agree_iff in As as [X0 A0 B0 C0 _]. apply agree_iff in At as [Y0 A1 B1 C1 _].
  assert (HF0 : other_units K nI (length Xs) a b d rho pi s0 t0) by (destruct HF as [F1 F2 F3]; constructor; intros; rewrite ?A0, ?B0, ?C0, ?A1, ?B1, ?C1; auto).
  assert (HA := @after_units env ps K nI c sg rho pi HK HnI HK0 HS HN HU Hc Hsq Hrho Hpi Xs Ys HM HX HY WX Hup a b d s0 t0 Ha Hb Hd Hz Rs Rt
    ltac:(congruence) ltac:(congruence) HF0).
  assert (HXs : forall i, p2_X (state_after md s0 i) = Xs) by (intros i; pose proof (fr_X (after_frame env ps s0 i)) as H; unfold md; congruence).
  assert (HYs : forall i, p2_X (state_after md t0 i) = Ys) by (intros i; pose proof (fr_X (after_frame env ps t0 i)) as H; unfold md; congruence).
  assert (HRs : forall i, ready ps K nI (state_after md s0 i)) by (intros i; apply (@ready_after env ps K nI HK s0 i Rs)).
  assert (HRt : forall i, ready ps K nI (state_after md t0 i)) by (intros i; apply (@ready_after env ps K nI HK t0 i Rt)).
  destruct (@settled_sign c sg Hc Hsq b d Hb Hd) as (S1 & S2 & _).
  assert (G : exists x, x <> 0 /\ 0 < sg * (c * (x * b * d)) /\ other_units K nI (length Xs) x b d rho pi (state_after md s0 j) (state_after md t0 j)).
  { destruct j as [|j]; [exists a; auto|]. exists (sg * c / (b * d)). destruct (HA j). auto. }
  destruct G as (x & G1 & G2 & G3).
  destruct (@iteration_units env ps K nI c sg rho pi HK HnI HK0 HS HN HU Hc Hsq Hrho Hpi Xs Ys HM HX HY WX Hup x b d _ _ G1 Hb Hd G2 (HRs j) (HRt j) (HXs j) (HYs j) G3)
    as (u' & v' & Eu & Ev & _).
  split; [change (md_update md) with (p2_update env ps); now rewrite Eu|]. split; [change (md_update md) with (p2_update env ps); now rewrite Ev|].
  destruct (HA j) as [H1 H2]. fold md in H1, H2. fold u v in H1, H2. split; [exact H1|]. split; [exact H2|].
  apply (@loss_units ps K nI c sg rho pi HU Hsq Hrho Hpi Xs Ys HM (sg * c / (b * d)) b d u v); [field; auto|apply (HRs (S j))|apply (HRt (S j))|apply HXs|apply HYs|exact H1|exact H2].
Qed.

Lemma xchange_scaled q x y : 0 < q -> xdiv (xsub (Fin (q * x)) (Fin (q * y))) (Fin (q * x)) = xdiv (xsub (Fin x) (Fin y)) (Fin x).
Proof. intros Hq. cbn [xsub xdiv]. rewrite <- Rmult_minus_distr_l. now apply xdivR_scale. Qed.

Section Fits.
Variables (env : p2_env) (ps : p2_settings) (K nI : nat) (c sg a : R) (pi : nat -> nat) (Xs Ys : list nd).
Hypothesis (HU : free_settings ps) (Hup : (0 < ps_updates ps)%nat) (Hsg : sg = 1 \/ sg = -1) (Hc : c <> 0) (Hz : 0 < sg * (c * a)) (Hpi : permutes K pi).
Hypothesis (HM : multiplied nI c Xs Ys).
Let md := p2_model env ps.

Lemma units_fits cf disk1 disk2 A C Ns A' C' Ms budget arg1 arg2 ds es :
  penalised_fit env ps K nI (A :: C :: Ns) Xs -> penalised_fit env ps K nI (A' :: C' :: Ms) Ys ->
  (forall i r, (i < nI)%nat -> (r < K)%nat -> mget A' i (pi r) = a * mget A i r) ->
  (forall k r, (k < length Xs)%nat -> (r < K)%nat -> mget C' k (pi r) = mget C k r) ->
  plain_run ps cf budget ds -> plain_run ps cf budget es ->
  exists ds' es', p2_fit env ps cf disk1 (A :: C :: Ns) (Slices Xs) (Some budget) arg1 ds = (ds', None) /\
    p2_fit env ps cf disk2 (A' :: C' :: Ms) (Slices Ys) (Some budget) arg2 es = (es', None) /\
    (ds_it ds' = ds_it es' \/ ds_it ds' = 1%Z \/ ds_it es' = 1%Z) /\
    (ds_it ds' = ds_it es' -> other_units K nI (length Xs) (sg * c) 1 1 pi pi (ds_num ds') (ds_num es') /\
      other_columns K Xs sg pi (p2_Ps (ds_num ds')) (p2_Ps (ds_num es')) /\
      exists l, p2_loss ps (ds_num ds') = Ok l /\ p2_loss ps (ds_num es') = Ok (c ^ 2 * l)) /\
    (a = c -> sg = 1 -> Ms = Ns -> (forall r, (r < K)%nat -> pi r = r) -> ds_it ds' = ds_it es').
Proof.
  intros HF HG DA DC HR HT.
  destruct (@drawn_runs env ps K nI cf disk1 A C Ns Xs budget arg1 ds HF HR) as (ds' & s0 & n & l & E1 & Rs & X0 & FA & FB & FC & FP & FL & N1 & I1 & P1 & L1 & S1 & D1 & _).
  destruct (@drawn_runs env ps K nI cf disk2 A' C' Ms Ys budget arg2 es HG HT) as (es' & t0 & m & l' & E2 & Rt & Y0 & GA & GB & GC & GP & GL & N2 & I2 & P2 & L2 & S2 & D2 & _).
  exists ds', es'. split; [exact E1|]. split; [exact E2|].
  destruct HF as [[_ HO HK [HnI HK0] HX HDX _ WX] H3 HP HS HN]. destruct HG as [[_ _ _ _ HY HDY _ WY] _ _ _ _].
  destruct HDX as (A1 & C1 & Ns1 & Ed & HA1 & HC & HNl & _). injection Ed as <- <- <-.
  destruct HDY as (A2 & C2 & Ms2 & Ed & HA2 & HC' & HMl & _). injection Ed as <- <- <-.
  assert (Hsq : sg * sg = 1) by (destruct Hsg; subst; ring). pose proof (proj1 HM) as HL.
  assert (Ha : a <> 0) by (intros E; rewrite E in Hz; lra).
  assert (Hz1 : 0 < sg * (c * (a * 1 * 1))) by (now rewrite !Rmult_1_r).
  assert (H1 : 1 <> 0) by lra.
  assert (HF0 : other_units K nI (length Xs) a 1 1 pi pi s0 t0).
  { constructor.
    - intros i r Hi Hr. rewrite FA, GA. now apply DA.
    - intros q r Hq Hr. rewrite FB, GB. unfold np_identity. rewrite !mget_tab2 by (auto; now apply Hpi). rewrite Rmult_1_l. unfold delta.
      destruct (Nat.eqb_spec (pi q) (pi r)) as [E|E], (Nat.eqb_spec q r) as [E'|E']; auto; exfalso; [apply E'; now apply Hpi|apply E; now f_equal].
    - intros k r Hk Hr. rewrite FC, GC, Rmult_1_l. pose proof (proj1 Hpi r Hr) as Hr'. assert (Hk' : (k < length Ys)%nat) by lia.
      rewrite (mget_np_map (fun x => x + / 10) HC Hk Hr), (mget_np_map (fun x => x + / 10) HC' Hk' Hr'). now rewrite (DC k r Hk Hr). }
  assert (HA := @after_units env ps K nI c sg pi pi HK HnI HK0 HS HN HU Hc Hsq Hpi Hpi Xs Ys HM HX HY WX Hup a 1 1 s0 t0 Ha H1 H1 Hz1 Rs Rt X0 Y0 HF0).
  replace (sg * c / (1 * 1)) with (sg * c) in HA by field.
  assert (HXs : forall i, p2_X (state_after md s0 i) = Xs) by (intros i; pose proof (fr_X (after_frame env ps s0 i)) as H; unfold md; congruence).
  assert (HYs : forall i, p2_X (state_after md t0 i) = Ys) by (intros i; pose proof (fr_X (after_frame env ps t0 i)) as H; unfold md; congruence).
  assert (HLo : forall j, exists x, p2_loss ps (state_after md s0 (S j)) = Ok x /\ p2_loss ps (state_after md t0 (S j)) = Ok (c ^ 2 * x)).
  { intros j. destruct (HA j) as [Hf Hcol].
    apply (@loss_units ps K nI c sg pi pi HU Hsq Hpi Hpi Xs Ys HM (sg * c) 1 1); auto; [ring| |].
    - apply (rd_ok (@ready_after env ps K nI HK s0 (S j) Rs)).
    - apply (rd_ok (@ready_after env ps K nI HK t0 (S j) Rt)). }
  assert (Hq : 0 < c ^ 2) by (assert (0 < c * c) by (now apply Rsqr_pos_lt); lra).
  assert (HSt : forall j, pf_stops md cf (Fin l) PInf s0 (S (S j)) = pf_stops md cf (Fin l') PInf t0 (S (S j))).
  { intros j. unfold pf_stops, rel_at. cbn [prev_at]. unfold loss_at. cbn [md p2_model md_loss]. fold md.
    destruct (HLo j) as (x & -> & ->). destruct (HLo (S j)) as (y & -> & ->). cbn [bind]. now rewrite (xchange_scaled x y Hq). }
  split; [|split].
  - destruct (Nat.lt_trichotomy n m) as [H|[H|H]]; [|left; lia|].
    + destruct n as [|[|n]]; [lia|right; left; lia|]. destruct D1 as [D1|D1]; [lia|]. specialize (S2 _ H). fold md in D1, S2. rewrite HSt in D1. congruence.
    + destruct m as [|[|m]]; [lia|right; right; lia|]. destruct D2 as [D2|D2]; [lia|]. specialize (S1 _ H). fold md in D2, S1. rewrite <- HSt in D2. congruence.
  - intros E. assert (m = n) as -> by lia. rewrite N1, N2. destruct n as [|n]; [lia|]. destruct (HA n) as [Hf Hcol]. auto.
  - intros Eac Es EN Hid.
    assert (EL : l' = c ^ 2 * l).
    { destruct (@loss_units ps K nI c sg pi pi HU Hsq Hpi Hpi Xs Ys HM a 1 1 s0 t0) as (x & Ex & Ey); auto; [rewrite Eac, Es; ring|apply Rs|apply Rt| |congruence].
      intros k j q Hk Hj Hq'. rewrite (Hid q Hq'), Es, Rmult_1_l. congruence. }
    assert (HSt' : forall j, pf_stops md cf (Fin l) PInf s0 j = pf_stops md cf (Fin l') PInf t0 j).
    { intros [|[|j]]; [reflexivity| |apply HSt]. unfold pf_stops, rel_at. cbn [prev_at]. unfold loss_at. cbn [md p2_model md_loss]. fold md.
      destruct (HLo 0%nat) as (y & -> & ->). cbn [bind]. now rewrite EL, (xchange_scaled l y Hq). }
    assert (n = m) as ->; [|congruence].
    destruct (Nat.lt_trichotomy n m) as [H|[H|H]]; auto.
    + destruct D1 as [->|D1]; [lia|]. specialize (S2 n H). fold md in D1, S2. rewrite HSt' in D1. congruence.
    + destruct D2 as [->|D2]; [lia|]. specialize (S1 m H). fold md in D2, S1. rewrite <- HSt' in D2. congruence.
Qed.
End Fits.

Lemma permutes_id K : permutes K (fun r => r).
Proof. split; auto. Qed.
Lemma scaled_start env ps K nI c Xs Ys : free_settings ps -> (0 < ps_updates ps)%nat -> c <> 0 -> multiplied nI c Xs Ys ->
  forall cf disk1 disk2 A C Ns A' budget arg1 arg2 ds es,
  penalised_fit env ps K nI (A :: C :: Ns) Xs -> penalised_fit env ps K nI (A' :: C :: Ns) Ys ->
  (forall i r, (i < nI)%nat -> (r < K)%nat -> mget A' i r = c * mget A i r) ->
  plain_run ps cf budget ds -> plain_run ps cf budget es ->
  exists ds' es', p2_fit env ps cf disk1 (A :: C :: Ns) (Slices Xs) (Some budget) arg1 ds = (ds', None) /\
    p2_fit env ps cf disk2 (A' :: C :: Ns) (Slices Ys) (Some budget) arg2 es = (es', None) /\ ds_it ds' = ds_it es' /\
    other_units K nI (length Xs) c 1 1 (fun q => q) (fun r => r) (ds_num ds') (ds_num es') /\
    other_columns K Xs 1 (fun q => q) (p2_Ps (ds_num ds')) (p2_Ps (ds_num es')) /\
    exists l, p2_loss ps (ds_num ds') = Ok l /\ p2_loss ps (ds_num es') = Ok (c ^ 2 * l).
Proof.
  intros HU Hup Hc HM cf disk1 disk2 A C Ns A' budget arg1 arg2 ds es HF HG DA HR HT.
  assert (Hz : 0 < 1 * (c * c)) by (rewrite Rmult_1_l; now apply Rsqr_pos_lt).
  destruct (@units_fits env ps K nI c 1 c (fun r => r) Xs Ys HU Hup (or_introl eq_refl) Hc Hz (permutes_id K) HM
    cf disk1 disk2 A C Ns A' C Ns budget arg1 arg2 ds es HF HG DA (fun k r _ _ => eq_refl) HR HT) as (ds' & es' & E1 & E2 & _ & H1 & H2).
  assert (E : ds_it ds' = ds_it es') by (apply H2; auto). specialize (H1 E). rewrite Rmult_1_l in H1.
  exists ds', es'. auto.
Qed.
