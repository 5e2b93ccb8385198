(** Parafac2_ALS on slices in another order and with other coordinates of their rows: lemmas for C99. *)
From Verif Require Export RelocateSpec CompressFacts TuckerFacts.
From Verif Require Import SymFacts.
From Verif Require Import Prelude Lin.
Set Implicit Arguments.
Unset Strict Implicit.
Local Open Scope R_scope.

(** *** One projection: the code decomposes X_k^T T, which is the same matrix for both. *)
Lemma solve_product svd nI nJ w K T T' X Y : is_mat nI K T -> is_mat nJ K T' -> is_mat nI w X -> is_mat nJ w Y ->
  (forall j a, (j < w)%nat -> (a < K)%nat -> sum nI (fun i => mget X i j * mget T i a) = sum nJ (fun i => mget Y i j * mget T' i a)) ->
  orthogonal_solve svd T X = orthogonal_solve svd T' Y.
Proof.
  intros HT HT' HX HY E. unfold orthogonal_solve.
  rewrite (matmul_ok (is_mat_transp HX) HT), (matmul_ok (is_mat_transp HY) HT'). cbn [bind].
  rewrite (@tab2_ext w K _ (fun j a => sum nJ (fun t => mget (transp Y) j t * mget T' t a))); [reflexivity|].
  intros j a Hj Ha. transitivity (sum nI (fun i => mget X i j * mget T i a)).
  - apply sum_ext. intros i Hi. now rewrite (mget_transp HX).
  - rewrite E by auto. apply sum_ext. intros i Hi. now rewrite (mget_transp HY).
Qed.

(** *** The changes of coordinates of the three modes of the projected data *)
Section Turn.
Variables (K nI nJ n : nat) (Q : nd) (p : nat -> nat).
Definition order_matrix : nd := tab2 n n (fun k l => delta (p k) l).
Definition three : list nd := [Q; np_identity K; order_matrix].
Hypothesis (HQ : is_mat nI nJ Q) (HO : orth_cols nI nJ (mget Q)) (Hp : permutes n p).

Lemma order_reorders : reordering n p (mget order_matrix).
Proof. intros i Hi. split; [now apply Hp|]. intros j Hj. unfold order_matrix. now rewrite mget_tab2. Qed.
Lemma identity_reorders : reordering K (fun i => i) (mget (np_identity K)).
Proof. intros i Hi. split; [exact Hi|]. intros j Hj. unfold np_identity. now rewrite mget_tab2. Qed.
Lemma order_orth : orth_cols n n (mget order_matrix).
Proof.
  intros r s Hr Hs. rewrite (@sum_ext n _ (fun i => delta (p i) r * delta (p i) s)).
  - rewrite (@sum_permuted n p (fun j => delta j r * delta j s) Hp). rewrite (@sum_ext n _ (fun k => delta r k * delta k s)).
    + now apply (@sum_delta_l n r (fun j => delta j s)).
    + intros j _. now rewrite (delta_sym j r).
  - intros i Hi. unfold order_matrix. now rewrite !mget_tab2.
Qed.
Lemma identity_orth : orth_cols K K (mget (np_identity K)).
Proof.
  intros r s Hr Hs. rewrite (@sum_ext K _ (fun i => delta r i * delta i s)); [now apply (@sum_delta_l K r (fun j => delta j s))|].
  intros i Hi. destruct (identity_reorders Hi) as [_ E]. rewrite !E by auto. now rewrite (delta_sym i r).
Qed.

Lemma dims : nrows Q = nI /\ ncols Q = nJ.
Proof. unfold ncols, nrows. now rewrite (proj2 HQ). Qed.
Lemma three_dims : map nrows three = [nI; K; n] /\ map ncols three = [nJ; K; n].
Proof.
  unfold three. cbn [map]. unfold ncols, nrows. rewrite (proj2 HQ). split; reflexivity.
Qed.
Lemma three_iso : isometries three.
Proof.
  unfold three. constructor; [|constructor; [|constructor; [|constructor]]].
  - unfold nrows, ncols. rewrite (proj2 HQ). cbn. auto.
  - split; [apply is_mat_tab2|exact identity_orth].
  - split; [apply is_mat_tab2|exact order_orth].
Qed.

Lemma three_rotated PX PG : wf PX -> wf PG -> shape PX = [nI; K; n] -> shape PG = [nJ; K; n] ->
  (forall i q k, (i < nI)%nat -> (q < K)%nat -> (k < n)%nat -> get PX [i; q; k] = sum nJ (fun a => mget Q i a * get PG [a; q; p k])) ->
  rotated three PX PG.
Proof.
  intros WX WG SX SG E. destruct three_dims as [D1 D2]. constructor.
  - exact three_iso.
  - unfold rows. congruence.
  - congruence.
  - rewrite SX, SG. intros idx Hv.
    apply valid_cons_inv in Hv as (i & idx1 & -> & Hi & Hv). apply valid_cons_inv in Hv as (q & idx2 & -> & Hq & Hv).
    apply valid_cons_inv in Hv as (k & idx3 & -> & Hk & Hv). apply valid_nil_inv in Hv as ->. rewrite E by auto.
    rewrite sumf_indices_cons. apply sum_ext. intros a Ha. rewrite sumf_indices_cons.
    transitivity (sum K (fun b => delta q b * (mget Q i a * get PG [a; b; p k]))).
    { symmetry. now apply (@sum_delta_l K q (fun b => mget Q i a * get PG [a; b; p k])). }
    apply sum_ext. intros b Hb. rewrite sumf_indices_cons.
    transitivity (sum n (fun l => delta (p k) l * (delta q b * (mget Q i a * get PG [a; b; l])))).
    { symmetry. apply (@sum_delta_l n (p k) (fun l => delta q b * (mget Q i a * get PG [a; b; l]))). now apply Hp. }
    apply sum_ext. intros l Hl. cbn [indices sumf entprod three].
    rewrite (proj2 (identity_reorders Hq) b Hb), (proj2 (order_reorders Hk) l Hl). ring.
Qed.

Lemma three_permitted ps : length (ps_nn ps) = 3%nat -> rows_permitted ps nI nJ Q ->
  permitted (Some (ps_nn ps)) (Some [false; false; false]) three.
Proof.
  intros HL HR m Hm. destruct dims as [R1 C1].
  assert (R2 : nrows (np_identity K) = K) by reflexivity. assert (C2 : ncols (np_identity K) = K) by reflexivity.
  assert (R3 : nrows order_matrix = n) by reflexivity. assert (C3 : ncols order_matrix = n) by reflexivity.
  cbn zeta. split.
  - intros (l & E & F). injection E as <-. destruct m as [|[|[|m]]]; try discriminate F. now destruct m.
  - intros (l & E & F). injection E as <-. destruct m as [|[|[|m]]]; cbn [three nth].
    + rewrite R1, C1. now apply HR.
    + rewrite R2, C2. split; [reflexivity|]. exists (fun i => i). exact identity_reorders.
    + rewrite R3, C3. split; [reflexivity|]. exists p. exact order_reorders.
    + cbn in Hm. lia.
Qed.

Lemma three_carried A B C A' B' C' : is_mat nI K A -> is_mat nJ K A' -> is_mat K K B -> is_mat K K B' -> is_mat n K C -> is_mat n K C' ->
  carried_by K three [A; B; C] [A'; B'; C'] <-> rows_moved K nI nJ Q A A' /\ B = B' /\ rows_reordered K n p C C'.
Proof.
  intros HA HA' HB HB' HC HC'. destruct dims as [R1 C1].
  assert (R2 : nrows (np_identity K) = K) by reflexivity. assert (C2 : ncols (np_identity K) = K) by reflexivity.
  assert (R3 : nrows order_matrix = n) by reflexivity. assert (C3 : ncols order_matrix = n) by reflexivity. unfold three. split.
  - intros H. destruct (@carried_nth _ _ _ _ H 0%nat ltac:(cbn; lia)) as (_ & _ & EA). destruct (@carried_nth _ _ _ _ H 1%nat ltac:(cbn; lia)) as (_ & _ & EB).
    destruct (@carried_nth _ _ _ _ H 2%nat ltac:(cbn; lia)) as (_ & _ & EC). cbn [nth] in EA, EB, EC.
    rewrite R1, C1 in EA. rewrite R2, C2 in EB. rewrite R3, C3 in EC. split; [exact EA|]. split.
    + apply (mat_ext HB HB'). intros i r Hi Hr. rewrite EB by auto. now rewrite (reordered _ _ identity_reorders Hi).
    + intros k r Hk Hr. rewrite EC by auto. now rewrite (reordered _ _ order_reorders Hk).
  - intros (EA & <- & EC). constructor; [|  |  |constructor; [| | |constructor; [| | |constructor]]];
      rewrite ?R1, ?R2, ?R3, ?C1, ?C2, ?C3; try (now apply is_mat_nrows with (m := K)).
    + exact EA.
    + intros i r Hi Hr. now rewrite (reordered _ _ identity_reorders Hi).
    + intros k r Hk Hr. rewrite (reordered _ _ order_reorders Hk). now apply EC.
Qed.
End Turn.

(** *** Inner updates *)
Section Inner.
Variables (env : p2_env) (ps : p2_settings) (K nI nJ n : nat) (Q : nd) (p : nat -> nat).
Let ics := inner_settings ps.
Let cenv := pe_cp env.
Let svd := env_svd cenv.
Let md := p2_model env ps.
Hypothesis (HK : ps_rank ps = K) (HO : no_orth ps) (HnI : (0 < nI)%nat) (HnJ : (0 < nJ)%nat) (HK0 : (0 < K)%nat).
Hypothesis (HS : svd_contract svd) (HN : nnls_contract (env_nnls cenv)).
Hypothesis (H3 : length (ps_nn ps) = 3%nat) (HP : p2_penalties ps).
Hypothesis (HQ : is_mat nI nJ Q) (HQo : orth_cols nI nJ (mget Q)) (Hp : permutes n p) (Hnn : rows_permitted ps nI nJ Q).
Notation Qs := (three K n Q p).

Definition tuned (a b : p2_state) : Prop := carried_by K Qs [p2_A a; p2_B a; p2_C a] [p2_A b; p2_B b; p2_C b].
Definition pair (PX PG : nd) (a b : p2_state) : Prop := busy ps K nI PX a /\ busy ps K nJ PG b /\ tuned a b.
Definition step_pair (PX PG : nd) (a b : p2_state) (ra rb : p2_state * option exn) : Prop :=
  exists a' b', ra = (a', None) /\ rb = (b', None) /\ pair PX PG a' b' /\ p2_X a' = p2_X a /\ p2_X b' = p2_X b /\
    p2_Ps a' = p2_Ps a /\ p2_Ps b' = p2_Ps b.

Lemma inner_constrained nR PX s : busy ps K nR PX s -> constrained cenv ics K PX (Some (ps_nn ps)) (Some [false; false; false]).
Proof.
  intros HB. assert (Hno : forall m, ~ asked (Some [false; false; false]) m).
  { intros m (l & E & F). injection E as <-. destruct m as [|[|[|m]]]; try discriminate F. now destruct m. }
  assert (HL : length (shape PX) = 3%nat) by (rewrite (bs_shape HB); reflexivity).
  constructor; auto.
  - apply (bs_data HB).
  - right. exists (ps_nn ps). rewrite HL. auto.
  - right. exists [false; false; false]. rewrite HL. auto.
  - intros m H. now apply Hno in H.
  - rewrite HL. exact HP.
  - intros m H. now apply Hno in H.
Qed.
Lemma inner_flagged nR PX s : busy ps K nR PX s -> flagged PX (Some (ps_nn ps)) (Some [false; false; false]) (forget (p2_view s)).
Proof.
  intros HB. split; [apply (bs_X HB)|]. rewrite (bs_shape HB). cbn [length]. intros m Hm. split.
  - destruct (nth_error (ps_nn ps) m) as [f|] eqn:E; [|apply nth_error_None in E; lia].
    exists f. split; [exists (ps_nn ps); split; [apply (rd_nn (bs_ready HB))|exact E]|]. unfold asked. split.
    + intros ->. exists (ps_nn ps). auto.
    + intros (l & El & Fl). injection El as <-. congruence.
  - assert (E3 : nth_error [false; false; false] m = Some false) by (destruct m as [|[|[|m]]]; try reflexivity; lia).
    exists false. split; [exists [false; false; false]; split; [apply (rd_orth (bs_ready HB))|exact E3]|]. split; [discriminate|].
    intros (l & El & Fl). injection El as <-. congruence.
Qed.
Lemma inner_fms nR PX s : busy ps K nR PX s -> kt_fms (cp_dec (forget (p2_view s))) = [p2_A s; p2_B s; p2_C s].
Proof. intros HB. unfold p2_view. cbn [forget cp_with_cache cp_with_dec cp_dec kt_fms]. rewrite (rd_cpf (bs_ready HB)). reflexivity. Qed.

Lemma step_moved PX PG a b m : rotated Qs PX PG -> pair PX PG a b -> (m < 3)%nat ->
  step_pair PX PG a b (p2_cp_update env ps a m) (p2_cp_update env ps b m).
Proof.
  intros HR (Ha & Hb & H) Hm. destruct (penalty_of HK HnI HK0 HP Hm) as (lam & Hpen & Hl).
  destruct (nth_error (ps_nn ps) m) as [f|] eqn:Ef; [|apply nth_error_None in Ef; lia].
  destruct (@cp_step env ps K nI HK HnI HK0 HS HN PX a m f lam Ha Hm Ef Hpen Hl) as (a' & Ea & Ba & Xa & _ & Oa & Fa & Pa).
  destruct (@cp_step env ps K nJ HK HnJ HK0 HS HN PG b m f lam Hb Hm Ef Hpen Hl) as (b' & Eb & Bb & Xb & _ & Ob & Fb & Pb).
  exists a', b'. split; [exact Ea|]. split; [exact Eb|]. split; [|auto]. split; [exact Ba|]. split; [exact Bb|].
  assert (HT : turned K PX PG (Some (ps_nn ps)) (Some [false; false; false]) Qs (forget (p2_view a)) (forget (p2_view b))).
  { constructor.
    - exact (busy_coherent Ha).
    - exact (busy_coherent Hb).
    - exact (inner_flagged Ha).
    - exact (inner_flagged Hb).
    - rewrite (inner_fms Ha), (inner_fms Hb). exact H. }
  destruct (@update_turned cenv ics K PX PG _ _ Qs (inner_constrained Ha) (inner_constrained Hb) HR
    (@three_permitted K nI nJ n Q p HQ Hp ps H3 Hnn) _ _ m HT) as (s' & t' & Es & Et & _ & _ & HT'); [rewrite (bs_shape Ha); exact Hm|].
  apply update_forget in Es. apply update_forget in Et. unfold ics, cenv in Es, Et. rewrite Es in Fa. rewrite Et in Fb. cbn [fst] in Fa, Fb.
  destruct (@carried_nth _ _ _ _ (tu_fac HT') m Hm) as (N1 & N2 & N3). rewrite <- Fa, <- Fb in N3. rewrite <- Fa in N1. rewrite <- Fb in N2.
  pose proof (@carried_replace _ _ _ _ H m _ _ Hm N1 N2 N3) as HC.
  unfold tuned. unfold p2_factor in *. pose proof (Oa 0%nat) as O0. pose proof (Oa 1%nat) as O1. pose proof (Oa 2%nat) as O2.
  pose proof (Ob 0%nat) as Q0. pose proof (Ob 1%nat) as Q1. pose proof (Ob 2%nat) as Q2. cbn [nth] in O0, O1, O2, Q0, Q1, Q2.
  destruct m as [|[|[|m]]]; [| | |lia]; cbn [nth replace_at] in HC.
  - rewrite O1, O2, Q1, Q2 by lia. exact HC.
  - rewrite O0, O2, Q0, Q2 by lia. exact HC.
  - rewrite O0, O1, Q0, Q1 by lia. exact HC.
Qed.
Lemma modes_moved PX PG l : rotated Qs PX PG -> forall a b, pair PX PG a b -> Forall (fun m => (m < 3)%nat) l ->
  step_pair PX PG a b (run_all (p2_cp_update env ps) l a) (run_all (p2_cp_update env ps) l b).
Proof.
  intros HR. induction l as [|m l IH]; intros a b H Hl; cbn [run_all]; [exists a, b; auto 10|].
  inversion Hl as [|? ? Hm Hl']; subst. destruct (step_moved HR H Hm) as (a1 & b1 & -> & -> & H1 & X1 & Y1 & P1 & Q1).
  destruct (IH a1 b1 H1 Hl') as (a2 & b2 & -> & -> & H2 & X2 & Y2 & P2 & Q2). exists a2, b2. repeat (split; [congruence || exact H2|]). congruence.
Qed.
Lemma sweeps_moved PX PG (l : list nat) : rotated Qs PX PG -> forall a b, pair PX PG a b ->
  step_pair PX PG a b (run_all (fun s _ => p2_cp_sweep env ps s) l a) (run_all (fun s _ => p2_cp_sweep env ps s) l b).
Proof.
  intros HR. induction l as [|x l IH]; intros a b H; cbn [run_all]; [exists a, b; auto 10|]. unfold p2_cp_sweep at 1 3.
  destruct H as (Ha & Hb & H). unfold ndim at 1 2. rewrite (bs_X Ha), (bs_X Hb), (bs_shape Ha), (bs_shape Hb). cbn [length].
  destruct (@modes_moved PX PG (seq 0 3) HR a b) as (a1 & b1 & -> & -> & H1 & X1 & Y1 & P1 & Q1); [split; auto| |].
  { apply Forall_forall. intros m Hm. apply in_seq in Hm. lia. }
  destruct (IH a1 b1 H1) as (a2 & b2 & -> & -> & H2 & X2 & Y2 & P2 & Q2). exists a2, b2. repeat (split; [congruence || exact H2|]). congruence.
Qed.

(** *** Iterations *)
Variables (Xs Ys : list nd).
Hypothesis (HE : relocated nI nJ Q p Xs Ys) (En : length Xs = n) (HX : slices_ok nI Xs) (HY : slices_ok nJ Ys) (WX : wide K Xs) (WY : wide K Ys).
Notation moved_states := (moved_factors K nI nJ Q p n).

Lemma tuned_iff a b : p2_ok K nI a -> p2_ok K nJ b -> p2_X a = Xs -> p2_X b = Ys -> tuned a b <-> moved_states a b.
Proof.
  intros Ha Hb EX EY. pose proof (ok_C Ha) as CA. pose proof (ok_C Hb) as CB. rewrite EX, En in CA. rewrite EY, (rl_len HE), En in CB.
  apply (three_carried HQ Hp); try (apply Ha || apply Hb); assumption.
Qed.

Lemma iteration_moved s t : ready ps K nI s -> ready ps K nJ t -> p2_X s = Xs -> p2_X t = Ys -> moved_states s t ->
  exists s' t', p2_update env ps s = (s', None) /\ p2_update env ps t = (t', None) /\ moved_states s' t' /\
    reordered_list n p (p2_Ps s') (p2_Ps t').
Proof.
  intros Rs Rt EX EY HM. pose proof HM as (FA & FB & FC).
  assert (Hn : (0 < length Xs)%nat) by (destruct HX as [Hne _]; destruct Xs; [congruence|cbn; lia]).
  pose proof (rl_len HE) as HL.
  destruct (@retargeted env ps K nI HK HnI HK0 HS s Rs) as (s2 & PX & X2 & B2 & A2 & BB2 & C2 & HPj & HPe & Es).
  { now rewrite EX. } { intros k Hk. rewrite EX in *. pose proof (WX Hk). lia. }
  destruct (@retargeted env ps K nJ HK HnJ HK0 HS t Rt) as (t2 & PG & Y2 & D2 & A3 & BB3 & C3 & HQj & HQe & Et).
  { rewrite EY. lia. } { intros k Hk. rewrite EY in *. pose proof (WY Hk). lia. }
  rewrite EX in *. rewrite EY in *. assert (Hpk : forall k, (k < length Xs)%nat -> (p k < length Ys)%nat) by (intros k Hk; rewrite HL, En; apply Hp; lia).
  assert (Hre : reordered_list n p (p2_Ps s2) (p2_Ps t2)).
  { intros k Hk. assert (Hk' : (k < length Xs)%nat) by lia.
    destruct (pj_solve (HPj k Hk')) as (T & Z & HT & HTe & EZ & ->). destruct (pj_solve (HQj (p k) (Hpk k Hk'))) as (T' & Z' & HT' & HTe' & EZ' & ->).
    rewrite EX in EZ. rewrite EY in EZ'. rewrite (@solve_product (env_svd (pe_cp env)) nI nJ (width Xs k) K T T' (nth k Xs m0) (nth (p k) Ys m0)) in EZ; auto.
    - rewrite EZ in EZ'. now injection EZ' as <-.
    - now apply HX.
    - rewrite <- (rl_width HE Hk'). apply HY. auto.
    - intros j q Hj Hq.
      transitivity (sum nI (fun i => mprod nJ (mget Q) (mget (nth (p k) Ys m0)) i j * mprod nJ (mget Q) (mget T') i q)).
      + apply sum_ext. intros i Hi. rewrite (rl_data HE) by auto. f_equal. rewrite HTe by auto. unfold mprod.
        transitivity (sum K (fun r => sum nJ (fun b => mget Q i b * (mget (p2_C t) (p k) r * mget (p2_A t) b r * mget (p2_B t) q r)))).
        { apply sum_ext. intros r Hr. rewrite (FA i r Hi Hr), (FC k r Hk Hr), FB. unfold mprod. rewrite <- sum_scal_l, <- sum_scal_r.
          apply sum_ext. intros; ring. }
        rewrite sum_swap. apply sum_ext. intros b Hb. rewrite sum_scal_l. now rewrite HTe'.
      + apply (mprod_gram (mget (nth (p k) Ys m0)) (mget T') j q HQo). }
  assert (HR : rotated Qs PX PG).
  { pose proof (bs_shape B2) as S1. pose proof (bs_shape D2) as S2. rewrite X2, En in S1. rewrite Y2, HL, En in S2.
    apply (three_rotated HQ HQo Hp); auto; [apply (bs_data B2)|apply (bs_data D2)|]. intros i q k Hi Hq Hk. assert (Hk' : (k < length Xs)%nat) by lia.
    rewrite HPe by auto. unfold projected_entry.
    transitivity (sum (width Xs k) (fun j => sum nJ (fun a => mget Q i a * (mget (nth (p k) Ys m0) a j * mget (nth (p k) (p2_Ps t2) m0) j q)))).
    - apply sum_ext. intros j Hj. rewrite (rl_data HE) by auto. rewrite (Hre k Hk). unfold mprod. rewrite <- sum_scal_r. apply sum_ext. intros; ring.
    - rewrite sum_swap. apply sum_ext. intros a Hal. rewrite sum_scal_l. f_equal. rewrite HQe by auto. unfold projected_entry. now rewrite (rl_width HE Hk'). }
  assert (Hs2 : tuned s2 t2).
  { apply tuned_iff; auto; [apply (rd_ok (bs_ready B2))|apply (rd_ok (bs_ready D2))|]. unfold moved_factors. rewrite A2, BB2, C2, A3, BB3, C3. exact HM. }
  destruct (@sweeps_moved PX PG (seq 0 (ps_updates ps)) HR s2 t2) as (s3 & t3 & E3 & G3 & (B3 & D3 & F3) & X3 & Y3 & P3 & Q3).
  { split; [exact B2|]. split; [exact D2|exact Hs2]. }
  rewrite Es, Et, E3, G3. cbn [and_then].
  destruct (scale_total HK HK0 (bs_ready B3)) as (s4 & E4 & X4 & A4 & B4 & C4 & P4).
  destruct (scale_total HK HK0 (bs_ready D3)) as (t4 & G4 & Y4 & A5 & B5 & C5 & P5). rewrite E4, G4. cbn [and_then].
  exists (p2_unit_weights s4), (p2_unit_weights t4). split; [reflexivity|]. split; [reflexivity|].
  apply tuned_iff in F3; [|apply (rd_ok (bs_ready B3))|apply (rd_ok (bs_ready D3))|congruence|congruence]. split.
  - change (moved_states s4 t4). unfold moved_factors. rewrite A4, B4, C4, A5, B5, C5. exact F3.
  - change (reordered_list n p (p2_Ps s4) (p2_Ps t4)). rewrite P4, P5, P3, Q3. exact Hre.
Qed.

Lemma after_moved s t : ready ps K nI s -> ready ps K nJ t -> p2_X s = Xs -> p2_X t = Ys -> moved_states s t -> forall j,
  moved_states (state_after md s j) (state_after md t j) /\
  ((0 < j)%nat \/ reordered_list n p (p2_Ps s) (p2_Ps t) -> reordered_list n p (p2_Ps (state_after md s j)) (p2_Ps (state_after md t j))).
Proof.
  intros Rs Rt EX EY F j. induction j as [|j [IH _]]; [split; [exact F|intros [H|H]; [lia|exact H]]|].
  pose proof (@ready_after env ps K nI HK s j Rs) as R1. pose proof (@ready_after env ps K nJ HK t j Rt) as R2.
  pose proof (fr_X (after_frame env ps s j)) as X1. pose proof (fr_X (after_frame env ps t j)) as X2.
  fold md in R1, R2, X1, X2. cbn [state_after].
  destruct (@iteration_moved (state_after md s j) (state_after md t j)) as (s' & t' & E1 & E2 & F' & C'); auto; try congruence.
  change (md_update md) with (p2_update env ps). rewrite E1, E2. auto.
Qed.

Lemma loss_moved s t : p2_ok K nI s -> p2_ok K nJ t -> p2_X s = Xs -> p2_X t = Ys -> moved_states s t ->
  reordered_list n p (p2_Ps s) (p2_Ps t) -> p2_loss ps s = p2_loss ps t.
Proof using HQo Hp HE En.
  clear HnJ HnI HK0 HK H3. intros Hs Ht EX EY (FA & FB & FC) HC. rewrite (p2_loss_ok ps Hs), (p2_loss_ok ps Ht), EX, EY. rewrite (rl_len HE), En.
  assert (EA : frob2 nI K (mget (p2_A s)) = frob2 nJ K (mget (p2_A t))).
  { unfold frob2. rewrite sum_swap. symmetry. rewrite sum_swap. apply sum_ext. intros r Hr.
    transitivity (sum nJ (fun a => mget (p2_A t) a r * mget (p2_A t) a r)); [apply sum_ext; intros; ring|].
    rewrite <- (mprod_gram (mget (p2_A t)) (mget (p2_A t)) r r HQo). apply sum_ext. intros i Hi. rewrite (FA i r Hi Hr). ring. }
  assert (EC : frob2 n K (mget (p2_C s)) = frob2 n K (mget (p2_C t))).
  { unfold frob2. rewrite <- (@sum_permuted n p (fun k => sum K (fun r => mget (p2_C t) k r ^ 2)) Hp).
    apply sum_ext. intros k Hk. apply sum_ext. intros r Hr. now rewrite (FC k r Hk Hr). }
  rewrite EA, FB, EC. f_equal. f_equal. unfold pf_sse. rewrite (rl_len HE), En.
  rewrite <- (@sum_permuted n p (fun k => slice_err K nJ (p2_A t) (p2_B t) (p2_C t) Ys k (mget (nth k (p2_Ps t) m0))) Hp).
  apply sum_ext. intros k Hk. assert (Hk' : (k < length Xs)%nat) by lia. rewrite (HC k Hk). unfold slice_err, dist2. rewrite (rl_width HE Hk').
  set (P := mget (nth (p k) (p2_Ps t) m0)). set (e := fun a j => pf_entry K (p2_A t) (p2_B t) (p2_C t) (p k) P a j - mget (nth (p k) Ys m0) a j).
  rewrite sum_swap. symmetry. rewrite sum_swap. apply sum_ext. intros j Hj.
  transitivity (sum nJ (fun a => e a j * e a j)); [apply sum_ext; intros; unfold e; ring|].
  rewrite <- (mprod_gram e e j j HQo). apply sum_ext. intros i Hi.
  replace (pf_entry K (p2_A s) (p2_B t) (p2_C s) k P i j - mget (nth k Xs m0) i j) with (mprod nJ (mget Q) e i j); [ring|].
  rewrite (rl_data HE) by auto. unfold mprod, e.
  rewrite (@sum_ext nJ _ (fun b => mget Q i b * pf_entry K (p2_A t) (p2_B t) (p2_C t) (p k) P b j - mget Q i b * mget (nth (p k) Ys m0) b j)) by (intros; ring).
  rewrite sum_minus. f_equal. unfold pf_entry.
  transitivity (sum nJ (fun b => sum K (fun r => mget Q i b * (mget (p2_A t) b r * mget (p2_C t) (p k) r * mprod K P (mget (p2_B t)) j r)))).
  { apply sum_ext. intros b Hb. now rewrite sum_scal_l. }
  rewrite sum_swap. apply sum_ext. intros r Hr. rewrite (FA i r Hi Hr), (FC k r Hk Hr). set (z := mprod K P (mget (p2_B t)) j r).
  unfold mprod. rewrite <- !sum_scal_r. apply sum_ext. intros; ring.
Qed.
End Inner.

(** *** Complete fits *)
Definition drawn_projection (env : p2_env) (K : nat) (N : nd) : res nd := do Z <- env_qr (pe_cp env) N ; first_columns Z K.
Lemma mapM_at {A B : Type} (f : A -> res B) l : forall l' k x y, mapM f l = Ok l' -> (k < length l)%nat -> f (nth k l x) = Ok (nth k l' y).
Proof.
  induction l as [|a l IH]; intros l' k x y E Hk; cbn in Hk; [lia|]. cbn [mapM] in E.
  destruct (f a) as [b|] eqn:Ea; [|discriminate]. cbn [bind] in E. destruct (mapM f l) as [r|] eqn:Er; [|discriminate]. cbn [bind] in E.
  injection E as <-. destruct k as [|k]; [exact Ea|]. cbn [nth]. apply IH; [reflexivity|lia].
Qed.

Lemma drawn_runs env ps K nI cf disk A C Ns Xs budget arg ds :
  penalised_fit env ps K nI (A :: C :: Ns) Xs -> plain_run ps cf budget ds ->
  exists ds' s0 n l, p2_fit env ps cf disk (A :: C :: Ns) (Slices Xs) (Some budget) arg ds = (ds', None) /\
    ready ps K nI s0 /\ p2_X s0 = Xs /\ p2_A s0 = A /\ p2_B s0 = np_identity K /\ p2_C s0 = np_map (fun x => x + / 10) C /\
    mapM (drawn_projection env K) Ns = Ok (p2_Ps s0) /\ p2_loss ps s0 = Ok l /\
    ds_num ds' = state_after (p2_model env ps) s0 n /\ ds_it ds' = Z.of_nat n /\ (0 < n)%nat /\ (n <= Z.to_nat budget)%nat /\
    (forall k, (k < n)%nat -> pf_stops (p2_model env ps) cf (Fin l) PInf s0 k = Ok false) /\
    (n = Z.to_nat budget \/ pf_stops (p2_model env ps) cf (Fin l) PInf s0 n = Ok true) /\
    exists s, p2_ok K nI s /\ p2_X s = Xs /\ p2_prepare env ps s = (s0, None).
Proof.
  intros HF HR. destruct (@penalised_completes env ps K nI cf disk (A :: C :: Ns) Xs (Some budget) arg ds HF HR) as (ds' & E & Hit & _).
  destruct HF as [HD _ _ _ _]. destruct HD as [Hi HO HK [HnI HK0] HX HDr Hqr Hw].
  assert (HnX : (0 < length Xs)%nat) by (destruct HX as [Hne _]; destruct Xs; [congruence|cbn; lia]).
  destruct (@set_slices nI Xs (ds_num ds) HX) as (s & ET & EX).
  destruct (@random_ok env ps K nI s (A :: C :: Ns) HK HK0) as (s1 & Es1 & Hok & _ & EXs & _ & FA & _ & FB & FC); rewrite ?EX; auto.
  cbn [nth_error option_map] in FA, FC. injection FA as FA. injection FC as FC. rewrite EX in EXs.
  assert (FP : mapM (drawn_projection env K) Ns = Ok (p2_Ps s1)).
  { revert Es1. unfold p2_init_random. rewrite HK. fold (drawn_projection env K). destruct (mapM _ Ns) as [Ps|]; [|discriminate]. cbn [bind].
    destruct (pf_init A _ _ Ps false) as [d|] eqn:Ed; [|discriminate]. cbn [bind]. intros Ei. injection Ei as <-.
    destruct (adopt_reads d s) as (_ & _ & _ & ->). f_equal. symmetry. revert Ed. unfold pf_init.
    intros Ed. repeat match type of Ed with (bind ?m _) = _ => destruct m; [cbn [bind] in Ed|discriminate] end. now injection Ed as <-. }
  destruct (@prepare_ready env ps K nI HK HO HnI HK0 s1 Hok) as (s0 & EP & Rs & HA & _); [now rewrite EXs|].
  apply agree_iff in HA as [X0 A0 B0 C0 P0].
  assert (EL : exists l, p2_loss ps s1 = Ok l /\ p2_loss ps s0 = Ok l).
  { eexists. split; [exact (p2_loss_ok ps Hok)|]. rewrite (p2_loss_ok ps (rd_ok Rs)). now rewrite X0, A0, B0, C0, P0. }
  destruct EL as (l & EL1 & EL0).
  assert (Eb : p2_init_fit env ps disk (A :: C :: Ns) (Slices Xs) (Some budget) arg ds = (Decomposer.start s1 (Fin l) 0 budget (ds_logs ds) (ds_file ds), None)).
  { unfold p2_init_fit. cbn [ds_num with_it]. rewrite ET. unfold p2_init_components. rewrite Hi.
    cbn [ds_num with_num String.eqb Ascii.eqb Bool.eqb]. rewrite Es1. cbn [ds_num with_num with_max with_it]. rewrite EL1. reflexivity. }
  unfold p2_fit in E. rewrite Eb in E.
  destruct (@pf_fit_lemma _ _ (p2_model env ps) cf (Decomposer.start s1 (Fin l) 0 budget (ds_logs ds) (ds_file ds)) ds' None s0 EP E) as (n & Hn & En & Hst & Hend).
  cbn [Decomposer.start ds_prev ds_rel ds_max ds_it] in *. rewrite Z.sub_0_r in *. destruct (Hend eq_refl) as [He Eit].
  exists ds', s0, n, l. split; [unfold p2_fit; rewrite Eb; exact E|]. split; [exact Rs|]. split; [congruence|]. split; [congruence|]. split; [congruence|].
  split; [congruence|]. split; [congruence|]. split; [exact EL0|]. repeat (split; [solve [auto; lia]|]). exists s1. auto.
Qed.

Lemma moved_fits env ps K nI nJ Q p Xs Ys : relocated nI nJ Q p Xs Ys -> rows_permitted ps nI nJ Q ->
  forall cf disk1 disk2 A C Ns A' C' Ms budget arg1 arg2 ds es,
  penalised_fit env ps K nI (A :: C :: Ns) Xs -> penalised_fit env ps K nJ (A' :: C' :: Ms) Ys ->
  rows_moved K nI nJ Q A A' -> rows_reordered K (length Xs) p C C' -> reordered_list (length Xs) p Ns Ms ->
  plain_run ps cf budget ds -> plain_run ps cf budget es ->
  exists ds' es', p2_fit env ps cf disk1 (A :: C :: Ns) (Slices Xs) (Some budget) arg1 ds = (ds', None) /\
    p2_fit env ps cf disk2 (A' :: C' :: Ms) (Slices Ys) (Some budget) arg2 es = (es', None) /\ ds_it ds' = ds_it es' /\
    moved_factors K nI nJ Q p (length Xs) (ds_num ds') (ds_num es') /\ reordered_list (length Xs) p (p2_Ps (ds_num ds')) (p2_Ps (ds_num es')) /\
    p2_loss ps (ds_num ds') = p2_loss ps (ds_num es').
Proof.
  intros HE Hnn cf disk1 disk2 A C Ns A' C' Ms budget arg1 arg2 ds es HF HG DA DC DN HR HT.
  destruct (@drawn_runs env ps K nI cf disk1 A C Ns Xs budget arg1 ds HF HR) as (ds' & s0 & n & l & E1 & Rs & X0 & FA & FB & FC & FP & FL & N1 & I1 & P1 & L1 & S1 & D1 & _).
  destruct (@drawn_runs env ps K nJ cf disk2 A' C' Ms Ys budget arg2 es HG HT) as (es' & t0 & m & l' & E2 & Rt & Y0 & GA & GB & GC & GP & GL & N2 & I2 & P2 & L2 & S2 & D2 & _).
  exists ds', es'. split; [exact E1|]. split; [exact E2|].
  destruct HF as [[_ HO HK [HnI HK0] HX HDX _ WX] H3 HP HS HN]. destruct HG as [[_ _ _ [HnJ _] HY HDY _ WY] _ _ _ _].
  destruct HDX as (A1 & C1 & Ns1 & Ed & _ & HC & HNl & _). injection Ed as <- <- <-.
  destruct HDY as (A2 & C2 & Ms2 & Ed & _ & HC' & HMl & _). injection Ed as <- <- <-.
  pose proof (rl_perm HE) as Hp. pose proof (rl_len HE) as HL.
  assert (HF0 : moved_factors K nI nJ Q p (length Xs) s0 t0).
  { split; [now rewrite FA, GA|]. split; [congruence|]. rewrite FC, GC. intros k r Hk Hr.
    assert (Hpk : (p k < length Ys)%nat) by (rewrite HL; now apply Hp).
    rewrite (mget_np_map (fun x => x + / 10) HC Hk Hr), (mget_np_map (fun x => x + / 10) HC' Hpk Hr). now rewrite (DC k r Hk Hr). }
  assert (HP0 : reordered_list (length Xs) p (p2_Ps s0) (p2_Ps t0)).
  { intros k Hk. assert (Hpk : (p k < length Ys)%nat) by (rewrite HL; now apply Hp).
    pose proof (@mapM_at _ _ _ _ _ k m0 m0 FP ltac:(lia)) as Ek. pose proof (@mapM_at _ _ _ _ _ (p k) m0 m0 GP ltac:(lia)) as Epk.
    rewrite (DN k Hk) in Ek. congruence. }
  destruct (rl_Q HE) as [HQ HQo].
  assert (HA := @after_moved env ps K nI nJ (length Xs) Q p HK HnI HnJ HK0 HS HN H3 HP HQ HQo Hp Hnn Xs Ys HE eq_refl HX HY WX WY s0 t0 Rs Rt X0 Y0 HF0).
  assert (HLo : forall j, p2_loss ps (state_after (p2_model env ps) s0 j) = p2_loss ps (state_after (p2_model env ps) t0 j)).
  { intros j. destruct (HA j) as [Hf Hc]. apply (@loss_moved ps K nI nJ (length Xs) Q p HQo Hp Xs Ys HE eq_refl); auto.
    - apply (rd_ok (@ready_after env ps K nI HK s0 j Rs)).
    - apply (rd_ok (@ready_after env ps K nJ HK t0 j Rt)).
    - pose proof (fr_X (after_frame env ps s0 j)) as H. congruence.
    - pose proof (fr_X (after_frame env ps t0 j)) as H. congruence. }
  assert (l' = l) as ->. { pose proof (HLo 0%nat) as H0. cbn [state_after] in H0. congruence. }
  assert (HLa : forall j, loss_at (p2_model env ps) s0 j = loss_at (p2_model env ps) t0 j).
  { intros j. unfold loss_at. cbn [p2_model md_loss]. now rewrite (HLo j). }
  assert (HSt : forall j, pf_stops (p2_model env ps) cf (Fin l) PInf s0 j = pf_stops (p2_model env ps) cf (Fin l) PInf t0 j).
  { intros [|j]; [reflexivity|]. unfold pf_stops, rel_at. rewrite HLa. destruct j as [|j]; cbn [prev_at]; [reflexivity|]. now rewrite HLa. }
  assert (n = m) as <-.
  { destruct (Nat.lt_trichotomy n m) as [H|[H|H]]; auto.
    - destruct D1 as [->|D1]; [lia|]. specialize (S2 n H). rewrite HSt in D1. congruence.
    - destruct D2 as [->|D2]; [lia|]. specialize (S1 m H). rewrite <- HSt in D2. congruence. }
  split; [congruence|]. rewrite N1, N2. destruct (HA n) as [Hf Hc]. auto.
Qed.

Lemma moved_run env ps K nI nJ Q p Xs Ys s t s0 t0 : drawn_settings ps K nI -> (0 < nJ)%nat ->
  svd_contract (env_svd (pe_cp env)) -> nnls_contract (env_nnls (pe_cp env)) -> length (ps_nn ps) = 3%nat -> p2_penalties ps ->
  relocated nI nJ Q p Xs Ys -> rows_permitted ps nI nJ Q -> slices_ok nI Xs -> slices_ok nJ Ys -> wide K Xs -> wide K Ys ->
  p2_ok K nI s -> p2_ok K nJ t -> p2_X s = Xs -> p2_X t = Ys -> moved_factors K nI nJ Q p (length Xs) s t ->
  p2_prepare env ps s = (s0, None) -> p2_prepare env ps t = (t0, None) ->
  let md := p2_model env ps in
  forall j, let u := state_after md s0 j in let v := state_after md t0 j in
    snd (md_update md u) = None /\ snd (md_update md v) = None /\ moved_factors K nI nJ Q p (length Xs) u v /\
    ((0 < j)%nat -> reordered_list (length Xs) p (p2_Ps u) (p2_Ps v) /\ p2_loss ps u = p2_loss ps v).
Proof.
  intros (HK & HO & HnI & HK0) HnJ HS HN H3 HP HE Hnn HX HY WX WY Hs Ht EX EY HF E1 E2 md j u v.
  assert (Hn : (0 < length Xs)%nat) by (destruct HX as [Hne _]; destruct Xs; [congruence|cbn; lia]).
  destruct (@prepare_ready env ps K nI HK HO HnI HK0 s Hs) as (x & Ex & Rs & As & _); [now rewrite EX|]. rewrite E1 in Ex. injection Ex as <-.
  destruct (@prepare_ready env ps K nJ HK HO HnJ HK0 t Ht) as (x & Ex & Rt & At & _); [rewrite EY, (rl_len HE); exact Hn|]. rewrite E2 in Ex. injection Ex as <-.
  apply agree_iff in As as [X0 A0 B0 C0 _]. apply agree_iff in At as [Y0 A1 B1 C1 _]. destruct (rl_Q HE) as [HQ HQo]. pose proof (rl_perm HE) as Hp.
  assert (HF0 : moved_factors K nI nJ Q p (length Xs) s0 t0) by (unfold moved_factors; rewrite A0, B0, C0, A1, B1, C1; exact HF).
  assert (HA := @after_moved env ps K nI nJ (length Xs) Q p HK HnI HnJ HK0 HS HN H3 HP HQ HQo Hp Hnn Xs Ys HE eq_refl HX HY WX WY s0 t0 Rs Rt
    ltac:(congruence) ltac:(congruence) HF0).
  pose proof (@ready_after env ps K nI HK s0 j Rs) as R1. pose proof (@ready_after env ps K nJ HK t0 j Rt) as R2. fold md in R1, R2. fold u in R1. fold v in R2.
  assert (U1 : p2_X u = Xs) by (pose proof (fr_X (after_frame env ps s0 j)) as H; unfold u, md; congruence).
  assert (U2 : p2_X v = Ys) by (pose proof (fr_X (after_frame env ps t0 j)) as H; unfold v, md; congruence).
  destruct (HA j) as [Hf Hc].
  destruct (@iteration_moved env ps K nI nJ (length Xs) Q p HK HnI HnJ HK0 HS HN H3 HP HQ HQo Hp Hnn Xs Ys HE eq_refl HX HY WX WY u v R1 R2 U1 U2 Hf)
    as (u' & v' & Eu & Ev & _).
  split; [change (md_update md) with (p2_update env ps); now rewrite Eu|]. split; [change (md_update md) with (p2_update env ps); now rewrite Ev|].
  split; [exact Hf|]. intros Hj. split; [auto|]. apply (@loss_moved ps K nI nJ (length Xs) Q p HQo Hp Xs Ys HE eq_refl); auto; [apply R1|apply R2].
Qed.

(** *** The order of the slices *)
Lemma reordered_relocated nI p Xs Ys : length Ys = length Xs -> permutes (length Xs) p -> reordered_list (length Xs) p Xs Ys ->
  relocated nI nI (np_identity nI) p Xs Ys.
Proof.
  intros HL Hp H. constructor; auto.
  - split; [apply is_mat_tab2|]. apply identity_orth.
  - intros k Hk. unfold width. now rewrite (H k Hk).
  - intros k i j Hk Hi Hj. rewrite (H k Hk). symmetry. apply (@reordered nI (fun i => i)); [apply identity_reorders|exact Hi].
Qed.
Lemma slice_order env ps K nI p Xs Ys : length Ys = length Xs -> permutes (length Xs) p -> reordered_list (length Xs) p Xs Ys ->
  forall cf disk1 disk2 A C Ns C' Ms budget arg1 arg2 ds es,
  penalised_fit env ps K nI (A :: C :: Ns) Xs -> penalised_fit env ps K nI (A :: C' :: Ms) Ys ->
  rows_reordered K (length Xs) p C C' -> reordered_list (length Xs) p Ns Ms ->
  plain_run ps cf budget ds -> plain_run ps cf budget es ->
  exists ds' es', p2_fit env ps cf disk1 (A :: C :: Ns) (Slices Xs) (Some budget) arg1 ds = (ds', None) /\
    p2_fit env ps cf disk2 (A :: C' :: Ms) (Slices Ys) (Some budget) arg2 es = (es', None) /\ ds_it ds' = ds_it es' /\
    p2_A (ds_num ds') = p2_A (ds_num es') /\ p2_B (ds_num ds') = p2_B (ds_num es') /\
    rows_reordered K (length Xs) p (p2_C (ds_num ds')) (p2_C (ds_num es')) /\
    reordered_list (length Xs) p (p2_Ps (ds_num ds')) (p2_Ps (ds_num es')) /\ p2_loss ps (ds_num ds') = p2_loss ps (ds_num es').
Proof.
  intros HL Hp H cf disk1 disk2 A C Ns C' Ms budget arg1 arg2 ds es HF HG DC DN HR HT.
  assert (Hid : forall V i r, (i < nI)%nat -> mprod nI (mget (np_identity nI)) V i r = V i r)
    by (intros V i r Hi; apply (@reordered nI (fun i => i)); [apply identity_reorders|exact Hi]).
  destruct (@moved_fits env ps K nI nI (np_identity nI) p Xs Ys (reordered_relocated nI HL Hp H)) with (cf := cf) (disk1 := disk1) (disk2 := disk2)
    (A := A) (C := C) (Ns := Ns) (A' := A) (C' := C') (Ms := Ms) (budget := budget) (arg1 := arg1) (arg2 := arg2) (ds := ds) (es := es)
    as (ds' & es' & E1 & E2 & I1 & (FA & FB & FC) & FP & FL); auto.
  - intros _. split; [reflexivity|]. exists (fun i => i). apply identity_reorders.
  - intros i r Hi Hr. now rewrite Hid.
  - exists ds', es'. split; [exact E1|]. split; [exact E2|]. split; [exact I1|]. split; [|auto].
    destruct (@drawn_runs env ps K nI cf disk1 A C Ns Xs budget arg1 ds HF HR) as (d1 & s0 & n & l & F1 & Rs & _ & _ & _ & _ & _ & _ & N1 & _).
    destruct (@drawn_runs env ps K nI cf disk2 A C' Ms Ys budget arg2 es HG HT) as (e1 & t0 & m & l' & F2 & Rt & _ & _ & _ & _ & _ & _ & N2 & _).
    rewrite E1 in F1. injection F1 as <-. rewrite E2 in F2. injection F2 as <-.
    destruct HF as [[_ _ HK _ _ _ _ _] _ _ _ _].
    pose proof (ok_A (rd_ok (@ready_after env ps K nI HK s0 n Rs))) as M1. pose proof (ok_A (rd_ok (@ready_after env ps K nI HK t0 m Rt))) as M2.
    rewrite <- N1 in M1. rewrite <- N2 in M2. apply (mat_ext M1 M2). intros i r Hi Hr. rewrite (FA i r Hi Hr). now apply Hid.
Qed.
