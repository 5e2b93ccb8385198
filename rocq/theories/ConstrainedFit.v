(** Complete CP_ALS fits with constraints and ridge penalties (C85). *)
From Verif Require Export ConstrainedSpec QualityFacts CPConstrained CPFit Solves.
From Verif Require Import Prelude Lin.
Set Implicit Arguments.
Unset Strict Implicit.
Local Open Scope R_scope.

(** ** The orthonormal solve always succeeds *)
Lemma orth_partial n k Q : orth_cols n k Q -> partial_isometry n k Q.
Proof.
  intros H i r Hi Hr. transitivity (sum k (fun t => Q i t * delta t r)).
  - apply sum_ext. intros t Ht. rewrite <- (H t r Ht Hr), <- sum_scal_l. apply sum_ext. intros j Hj. ring.
  - now apply sum_delta_r.
Qed.

Lemma orthogonal_rightsolve_total svd p n m A B : svd_contract svd -> is_mat n p A -> is_mat m p B -> (0 < n)%nat -> (0 < m)%nat ->
  exists Q, orthogonal_rightsolve svd A B = Ok Q /\ is_mat m n Q /\ partial_isometry m n (mget Q).
Proof.
  intros HS HA HB Hn Hm.
  set (BA := tab2 m n (fun j a => sum p (fun t => mget (transp (transp B)) j t * mget (transp A) t a))).
  assert (HBA : is_mat m n BA) by apply is_mat_tab2.
  destruct (HS _ _ _ HBA) as (U & Sv & Vh & ES & HV).
  destruct (@orth_solve_entries p n m (transp A) (transp B) U Sv Vh (is_mat_transp HA) (is_mat_transp HB) HV svd ES)
    as (Z & EZ & HZ & HZe); [lia|].
  unfold orthogonal_rightsolve. rewrite EZ. cbn [bind]. exists (transp Z). split; [reflexivity|].
  split; [now apply is_mat_transp|].
  set (k := Nat.min m n) in *.
  set (g := fun r => if Rlt_dec (INR (Nat.max m k) * vget Sv 0 * / 10 ^ 16) (vget Sv r) then 1 else 0).
  assert (Hg : forall r, g r * g r = g r) by (intros r; unfold g; destruct (Rlt_dec _ _); ring).
  assert (HQ : forall j a, (j < m)%nat -> (a < n)%nat -> mget (transp Z) j a = sum k (fun r => g r * (mget Vh r a * mget U j r))).
  { intros j a Hj Ha. rewrite (mget_transp HZ) by auto. now rewrite HZe. }
  (* Z^T Z = V^T g V *)
  assert (HG : forall t r, (t < n)%nat -> (r < n)%nat ->
    sum m (fun j => mget (transp Z) j t * mget (transp Z) j r) = sum k (fun a => g a * (mget Vh a t * mget Vh a r))).
  { intros t r Ht Hr.
    transitivity (sum m (fun j => sum k (fun a => sum k (fun b => g a * mget Vh a t * (g b * mget Vh b r) * (mget U j a * mget U j b))))).
    - apply sum_ext. intros j Hj. rewrite !HQ by auto. rewrite <- sum_scal_r. apply sum_ext. intros a Ha.
      rewrite <- sum_scal_l. apply sum_ext. intros b Hb. ring.
    - rewrite sum_swap. apply sum_ext. intros a Ha. rewrite sum_swap.
      transitivity (sum k (fun b => (g a * mget Vh a t * (g b * mget Vh b r)) * delta b a)).
      + apply sum_ext. intros b Hb. rewrite sum_scal_l. f_equal. rewrite (svd_U_orth HV) by auto. unfold delta. now rewrite Nat.eqb_sym.
      + rewrite sum_delta_r by auto. rewrite <- (Hg a) at 3. ring. }
  intros i r Hi Hr.
  transitivity (sum n (fun t => mget (transp Z) i t * sum k (fun a => g a * (mget Vh a t * mget Vh a r)))).
  { apply sum_ext. intros t Ht. rewrite <- HG by auto. rewrite <- sum_scal_l. apply sum_ext. intros j Hj. ring. }
  transitivity (sum n (fun t => sum k (fun b => sum k (fun a => g b * mget U i b * (g a * mget Vh a r) * (mget Vh b t * mget Vh a t))))).
  { apply sum_ext. intros t Ht. rewrite HQ by auto. rewrite <- sum_scal_r. apply sum_ext. intros b Hb.
    rewrite <- sum_scal_l. apply sum_ext. intros a Ha. ring. }
  rewrite sum_swap, HQ by auto. apply sum_ext. intros b Hb. rewrite sum_swap.
  transitivity (sum k (fun a => (g b * mget U i b * (g a * mget Vh a r)) * delta a b)).
  - apply sum_ext. intros a Ha. rewrite sum_scal_l. f_equal. rewrite (svd_V_orth HV) by auto. unfold delta. now rewrite Nat.eqb_sym.
  - rewrite sum_delta_r by auto. rewrite <- (Hg b) at 3. ring.
Qed.

(** ** Updates *)
Definition good (K : nat) (nn orth : option (list bool)) (X : nd) (Us : list nd) (m : nat) : Prop :=
  (asked nn m -> nonneg_mat (nth m (shape X) 0%nat) K (mget (nth m Us m0))) /\
  (asked orth m -> partial_isometry (nth m (shape X) 0%nat) K (mget (nth m Us m0))).
(** The state knows its flags. *)
Definition flagged (X : nd) (nn orth : option (list bool)) (s : cp_state) : Prop :=
  cp_X s = X /\ forall m, (m < length (shape X))%nat ->
    (exists b, flag (cp_nn s) m b /\ (b = true <-> asked nn m)) /\ (exists b, flag (cp_orth s) m b /\ (b = true <-> asked orth m)).

Lemma flagged_same X nn orth s s' : same_problem s s' -> flagged X nn orth s -> flagged X nn orth s'.
Proof. intros HS [H1 H2]. split; [now rewrite (sp_X HS)|]. intros m Hm. rewrite (sp_nn HS), (sp_orth HS). auto. Qed.

Lemma flagged_or (X : nd) c n (s : cp_state) m : flags_for n c -> length (kt_fms (cp_dec s)) = n -> (m < n)%nat ->
  exists b, flag (or_unconstrained c s) m b /\ (b = true <-> asked c m).
Proof.
  intros [->|(l & -> & El)] Hl Hm; cbn [or_unconstrained].
  - exists false. rewrite Hl. split; [exists (repeat false n); split; [reflexivity|now apply nth_error_repeat]|].
    split; [discriminate|intros (l & E & _); discriminate].
  - destruct (nth_error l m) as [b|] eqn:E; [|apply nth_error_None in E; lia].
    exists b. split; [exists l; auto|]. split; [intros ->; exists l; auto|].
    intros (l' & E' & F). injection E' as <-. rewrite E in F. now injection F.
Qed.

Lemma abs_nonneg U i r : 0 <= mget (np_map Rabs U) i r.
Proof.
  unfold mget, get, np_map. cbn [shape data]. generalize (ravel (shape U) [i; r]). intros j.
  destruct (Nat.lt_ge_cases j (length (map Rabs (data U)))) as [H|H].
  - apply nth_In with (d := 0) in H. apply in_map_iff in H as (x & <- & _). apply Rabs_pos.
  - rewrite nth_overflow by exact H. lra.
Qed.

(** *** One update, whatever the other modes are asked to be *)
Lemma update_one env cs K s m a b lam : cp_coherent K s -> cs_rank cs = K -> (0 < K)%nat -> (m < length (shape (cp_X s)))%nat ->
  (0 < nth m (shape (cp_X s)) 0)%nat -> flag (cp_nn s) m a -> flag (cp_orth s) m b -> (a = true -> b = true -> False) ->
  penalty cs m lam -> 0 <= lam -> svd_contract (env_svd env) -> nnls_contract (env_nnls env) ->
  let n := nth m (shape (cp_X s)) 0%nat in
  exists s' Z, cp_update_factor env cs s m = (s', None) /\ is_mat n K Z /\
    kt_fms (cp_dec s') = with_factor m Z (kt_fms (cp_dec s)) /\ same_problem s s' /\ cp_coherent K s' /\
    (a = true -> nonneg_mat n K (mget Z)) /\ (b = true -> partial_isometry n K (mget Z)).
Proof.
  intros H HK HK0 Hm Hn Fa Fb Hab Hp Hl HS HN n.
  destruct (@normal_matrices env cs K s m H HK Hm) as (V & P & EV & EP & HV & HP & _).
  pose proof (rightsolve_flags env Fa Fb Hp) as ES. fold n in HP, Hn.
  assert (Hridge : match cs_ridge cs with None => lam = 0 | Some _ => True end).
  { unfold penalty in Hp. destruct (cs_ridge cs); auto. }
  assert (Hout : forall solve Z, get_rightsolve env cs (cp_nn s) (cp_orth s) m = Ok solve -> solve V P = Ok Z -> is_mat n K Z ->
    (a = true -> nonneg_mat n K (mget Z)) -> (b = true -> partial_isometry n K (mget Z)) ->
    exists s' Z, cp_update_factor env cs s m = (s', None) /\ is_mat n K Z /\
      kt_fms (cp_dec s') = with_factor m Z (kt_fms (cp_dec s)) /\ same_problem s s' /\ cp_coherent K s' /\
      (a = true -> nonneg_mat n K (mget Z)) /\ (b = true -> partial_isometry n K (mget Z))).
  { intros solve Z E EZ HZ H1 H2.
    destruct (update_with_solver H Hm EV EP E EZ HZ) as (s' & Es & Hfm & _ & _ & HSP & HC').
    exists s', Z. auto 10. }
  destruct b; [destruct a|destruct a].
  - exfalso. now apply Hab.
  - (* orthonormal *)
    destruct (@orthogonal_rightsolve_total (env_svd env) K K n V P HS HV HP HK0 Hn) as (Q & EQ & HQ & HPI).
    assert (Hno : false = true -> nonneg_mat n K (mget Q)) by discriminate.
    cbn [andb] in ES. cbv zeta in ES. destruct (cs_ridge cs); apply (Hout _ Q ES); auto.
    now rewrite (ridge_orthogonal (env_svd env) HV HP Hl).
  - (* non-negative *)
    assert (Hno : forall Q, false = true -> partial_isometry n K Q) by discriminate.
    cbn [andb] in ES. cbv zeta in ES. destruct (cs_ridge cs).
    + destruct (ridge_nonneg_ok HN HV HP Hl) as (Z & EZ & HZ & HZ1 & _). apply (Hout _ Z ES); auto.
    + destruct (@nonneg_rightsolve_total (env_nnls env) K K n V P HV HP) as (Z & EZ & HZ & HZ1 & _).
      { intros i Hi. apply HN; [now apply is_mat_transp|exact (is_vec_row HP Hi)]. }
      apply (Hout _ Z ES); auto.
  - (* free *)
    assert (Hno : forall Q, false = true -> partial_isometry n K Q) by discriminate.
    assert (Hno' : forall Q, false = true -> nonneg_mat n K Q) by discriminate.
    cbn [andb] in ES. cbv zeta in ES. destruct (cs_ridge cs).
    + destruct (ridge_ok (rightsolve (env_svd env)) HV HP Hl) as (A' & B' & E & HA' & HB' & _).
      destruct (HS _ _ _ HA') as (U & Sv & Vh & E1 & HV1).
      destruct (rightsolve_ok HA' HB' E1 HV1) as (Z & EZ & HZ & _). rewrite <- E in EZ. apply (Hout _ Z ES); auto.
    + destruct (HS _ _ _ HV) as (U & Sv & Vh & E1 & HV1).
      destruct (rightsolve_ok HV HP E1 HV1) as (Z & EZ & HZ & _). apply (Hout _ Z ES); auto.
Qed.

Section Fit.
Variables (env : cp_env) (cs : cp_settings) (K : nat) (X : nd) (nn orth : option (list bool)).
Hypothesis (HC : constrained env cs K X nn orth).
Let md := cp_model env cs.

Lemma penalty_here m : (m < length (shape X))%nat -> exists lam, penalty cs m lam /\ 0 <= lam.
Proof.
  intros Hm. pose proof (cn_ridge HC) as H. unfold penalty. destruct (cs_ridge cs) as [l|]; [|exists 0; split; [reflexivity|lra]].
  destruct H as [H1 H2]. destruct (nth_error l m) as [lam|] eqn:E; [|apply nth_error_None in E; lia].
  exists lam. split; [reflexivity|]. eapply Forall_forall in H2; [exact H2|]. eapply nth_error_In; eauto.
Qed.

Lemma mode_pos m : (m < length (shape X))%nat -> (0 < nth m (shape X) 0)%nat.
Proof. intros Hm. destruct (cn_data HC) as (_ & _ & H). pose proof (proj1 (Forall_forall _ _) H _ (@nth_In _ m (shape X) 0%nat Hm)) as H1. cbn beta in H1. lia. Qed.

Lemma update_total s m : cp_coherent K s -> flagged X nn orth s -> (m < length (shape X))%nat ->
  exists s', cp_update_factor env cs s m = (s', None) /\ cp_coherent K s' /\ same_problem s s' /\
    good K nn orth X (kt_fms (cp_dec s')) m /\
    forall m', m' <> m -> nth m' (kt_fms (cp_dec s')) m0 = nth m' (kt_fms (cp_dec s)) m0.
Proof.
  intros H [EX HF] Hm. destruct (HF m Hm) as [(a & Fa & Ha) (b & Fb & Hb)]. destruct (penalty_here Hm) as (lam & Hp & Hl).
  assert (Hm' : (m < length (shape (cp_X s)))%nat) by now rewrite EX.
  destruct (@update_one env cs K s m a b lam) as (s' & Z & Es & HZ & Hfm & HSP & HC' & H1 & H2); auto; try apply HC.
  { rewrite EX. now apply mode_pos. }
  { intros -> ->. apply (@cn_apart _ _ _ _ _ _ HC m); [now apply Ha|now apply Hb]. }
  rewrite EX in *. exists s'. split; [exact Es|]. split; [exact HC'|]. split; [exact HSP|]. rewrite Hfm. unfold with_factor, good.
  rewrite nth_replace_at_eq by (rewrite (coherent_len H), EX; exact Hm).
  split; [split; intros A; [apply H1; now apply Ha|apply H2; now apply Hb]|].
  intros m' Hne. apply nth_replace_at_neq. auto.
Qed.

Lemma modes_total l : forall s, cp_coherent K s -> flagged X nn orth s -> Forall (fun m => (m < length (shape X))%nat) l ->
  exists s', cp_update_modes env cs l s = (s', None) /\ cp_coherent K s' /\ same_problem s s' /\
    forall m, In m l \/ good K nn orth X (kt_fms (cp_dec s)) m -> good K nn orth X (kt_fms (cp_dec s')) m.
Proof.
  induction l as [|m l IH]; intros s H HF Hl; cbn [cp_update_modes].
  - exists s. split; [reflexivity|]. split; [exact H|]. split; [apply same_problem_refl|]. intros m [[]|]; auto.
  - inversion Hl as [|? ? Hm Hl']; subst.
    destruct (update_total H HF Hm) as (s1 & E1 & H1 & HS1 & HG & Hoth). rewrite E1.
    destruct (IH s1 H1 (flagged_same HS1 HF) Hl') as (s2 & E2 & H2 & HS2 & HG2).
    exists s2. split; [exact E2|]. split; [exact H2|]. split; [eapply same_problem_trans; eauto|].
    intros m' Hor. apply HG2. destruct (Nat.eq_dec m' m) as [->|Hne]; [now right|].
    destruct Hor as [[->|Hin]|Hg]; [contradiction|now left|right]. unfold good in *. now rewrite Hoth.
Qed.

Lemma after_total s : cp_coherent K s -> flagged X nn orth s -> forall k,
  cp_coherent K (state_after md s k) /\ same_problem s (state_after md s k) /\ snd (md_update md (state_after md s k)) = None /\
  forall m, (m < length (shape X))%nat -> (0 < k)%nat \/ good K nn orth X (kt_fms (cp_dec s)) m ->
    good K nn orth X (kt_fms (cp_dec (state_after md s k))) m.
Proof.
  intros H HF.
  assert (Hmodes : forall s, cp_X s = X -> Forall (fun m => (m < length (shape X))%nat) (seq 0 (ndim (cp_X s)))).
  { intros s0 E. apply Forall_forall. intros m Hm. apply in_seq in Hm. unfold ndim in Hm. rewrite E in Hm. lia. }
  assert (Hstep : forall k, cp_coherent K (state_after md s k) -> same_problem s (state_after md s k) ->
    exists s', md_update md (state_after md s k) = (s', None) /\ cp_coherent K s' /\ same_problem s s' /\
      forall m, (m < length (shape X))%nat -> good K nn orth X (kt_fms (cp_dec s')) m).
  { intros k H1 H2. pose proof (flagged_same H2 HF) as HF1.
    destruct (@modes_total _ _ H1 HF1 (Hmodes _ (proj1 HF1))) as (s' & E & A & B & C).
    exists s'. split; [exact E|]. split; [exact A|]. split; [eapply same_problem_trans; eauto|].
    intros m Hm. apply C. left. apply in_seq. rewrite (proj1 HF1). unfold ndim. lia. }
  induction k as [|k (H1 & H2 & H3 & H4)].
  - destruct (Hstep 0%nat H (same_problem_refl s)) as (s' & E & _). cbn [state_after] in *. rewrite E.
    split; [exact H|]. split; [apply same_problem_refl|]. split; [reflexivity|]. intros m Hm [|]; [lia|auto].
  - destruct (Hstep k H1 H2) as (s' & E & A & B & C). 
    assert (Es : state_after md s (S k) = s') by (cbn [state_after]; now rewrite E).
    destruct (Hstep (S k)) as (s2 & E2 & _); rewrite ?Es; auto. rewrite Es in E2. rewrite E2.
    split; [exact A|]. split; [exact B|]. split; [reflexivity|]. auto.
Qed.

(** ** The start *)
Lemma orth_loop l : forall a d, (a + length l <= length (kt_fms d))%nat ->
  (forall j, nth_error l j = Some true -> exists n, (K <= n)%nat /\ is_mat n K (nth (a + j) (kt_fms d) m0) /\ qr_works_on n K (env_qr env)) ->
  exists d', foldM (cp_orthonormalise_step env) (combine (seq a (length l)) l) d = Ok d' /\ kt_rank d' = kt_rank d /\ kt_w d' = kt_w d /\ length (kt_fms d') = length (kt_fms d) /\
    (forall m, (m < a)%nat \/ nth_error l (m - a) <> Some true -> nth m (kt_fms d') m0 = nth m (kt_fms d) m0) /\
    (forall m n, (a <= m)%nat -> nth_error l (m - a) = Some true -> is_mat n K (nth m (kt_fms d) m0) ->
       is_mat n K (nth m (kt_fms d') m0) /\ orth_cols n K (mget (nth m (kt_fms d') m0))).
Proof.
  induction l as [|b l IH]; intros a d Hle HQ.
  - exists d. cbn. split; [reflexivity|]. do 3 (split; [reflexivity|]). split; [reflexivity|].
    intros m n _ E. now destruct (m - a)%nat.
  - cbn [length seq combine foldM cp_orthonormalise_step]. cbn [length] in Hle. rewrite (@list_get_nth _ _ a m0) by lia. cbn [bind].
    assert (Hd : exists d1, (if b then do Q <- env_qr env (nth a (kt_fms d) m0) ; Ok (kt_with_factor a Q d) else Ok d) = Ok d1 /\
      kt_rank d1 = kt_rank d /\ kt_w d1 = kt_w d /\ length (kt_fms d1) = length (kt_fms d) /\
      (forall m, m <> a \/ b = false -> nth m (kt_fms d1) m0 = nth m (kt_fms d) m0) /\
      (forall n, b = true -> is_mat n K (nth a (kt_fms d) m0) -> is_mat n K (nth a (kt_fms d1) m0) /\ orth_cols n K (mget (nth a (kt_fms d1) m0)))).
    { destruct b.
      - destruct (HQ 0%nat eq_refl) as (n & Hn & HU & Hqr). rewrite Nat.add_0_r in HU. destruct (Hqr _ HU) as (Q & EQ & HQm & HQo).
        replace (Nat.min n K) with K in * by lia.
        rewrite EQ. cbn [bind]. eexists. split; [reflexivity|]. cbn [kt_with_factor kt_rank kt_w kt_fms].
        do 2 (split; [reflexivity|]). split; [apply length_replace_at|]. split.
        + intros m [Hne|]; [|discriminate]. apply nth_replace_at_neq. auto.
        + intros n' _ HU'. rewrite nth_replace_at_eq by lia.
          assert (n' = n) as -> by (destruct HU as [_ E1], HU' as [_ E2]; congruence). auto.
      - exists d. do 4 (split; [reflexivity|]). split; [reflexivity|discriminate]. }
    destruct Hd as (d1 & Ed & R1 & W1 & L1 & N1 & O1). rewrite Ed. cbn [bind].
    destruct (IH (S a) d1) as (d' & E & R2 & W2 & L2 & N2 & O2).
    { rewrite L1. lia. }
    { intros j Hj. destruct (HQ (S j) Hj) as (n & Hn & HU & Hqr). exists n. split; [exact Hn|]. split; [|exact Hqr].
      rewrite N1 by lia. now replace (S a + j)%nat with (a + S j)%nat by lia. }
    exists d'. split; [exact E|]. split; [congruence|]. split; [congruence|]. split; [congruence|]. split.
    + intros m Hor. destruct (Nat.eq_dec m a) as [->|Hne].
      * rewrite N2 by lia. apply N1. right. destruct Hor as [|Hor]; [lia|]. rewrite Nat.sub_diag in Hor. cbn in Hor. destruct b; congruence.
      * rewrite N2, N1; auto. destruct (Nat.lt_ge_cases m a); [left; lia|right]. destruct Hor as [|Hor]; [lia|].
        replace (m - a)%nat with (S (m - S a)) in Hor by lia. exact Hor.
    + intros m n Ham Ht HU. destruct (Nat.eq_dec m a) as [->|Hne].
      * rewrite N2 by lia. rewrite Nat.sub_diag in Ht. cbn in Ht. apply O1; [congruence|exact HU].
      * apply O2; [lia| |].
        -- replace (m - a)%nat with (S (m - S a)) in Ht by lia. exact Ht.
        -- rewrite N1; auto.
Qed.

Lemma asked_nth c l m : c = Some l -> (asked c m <-> nth_error l m = Some true).
Proof. intros ->. split; [intros (l' & E & F); now injection E as <-|intros F; exists l; auto]. Qed.

Lemma asked_lt n c m : flags_for n c -> asked c m -> (m < n)%nat.
Proof.
  intros [->|(l & -> & <-)] (l' & E & F); [discriminate|]. injection E as <-. apply nth_error_Some. congruence.
Qed.

Lemma orthonormalised s : flags_for (length (kt_fms (cp_dec s))) orth -> cp_orth s = or_unconstrained orth s ->
  length (shape X) = length (kt_fms (cp_dec s)) -> factors_ok K X (kt_fms (cp_dec s)) ->
  exists d, cp_orthonormalise env s = Ok (cp_with_dec d s) /\ kt_rank d = kt_rank (cp_dec s) /\ kt_w d = kt_w (cp_dec s) /\
    factors_ok K X (kt_fms d) /\
    (forall m, ~ asked orth m -> nth m (kt_fms d) m0 = nth m (kt_fms (cp_dec s)) m0) /\
    (forall m, asked orth m -> orth_cols (nth m (shape X) 0%nat) K (mget (nth m (kt_fms d) m0))).
Proof.
  intros Hfl Eo Hlen HF. unfold cp_orthonormalise. rewrite Eo.
  assert (Hl : exists l, or_unconstrained orth s = Some l /\ (length l <= length (kt_fms (cp_dec s)))%nat /\
     forall m, nth_error l m = Some true <-> asked orth m).
  { destruct Hfl as [->|(l & -> & El)]; cbn [or_unconstrained].
    - eexists. split; [reflexivity|]. split; [rewrite repeat_length; lia|]. intros m. split.
      + intros E. apply nth_error_In in E. apply repeat_spec in E. discriminate.
      + intros (l & E & _). discriminate.
    - exists l. split; [reflexivity|]. split; [lia|]. intros m. symmetry. now apply asked_nth. }
  destruct Hl as (l & -> & Hle & Hask). cbn [not_none bind].
  destruct (@orth_loop l 0%nat (cp_dec s)) as (d & E & R1 & W1 & L1 & N1 & O1).
  { exact Hle. }
  { intros j Hj. assert (Hjs : (j < length (kt_fms (cp_dec s)))%nat).
    { assert (j < length l)%nat by (apply nth_error_Some; congruence). lia. }
    apply Hask in Hj. exists (nth j (shape X) 0%nat). split; [now apply (cn_fits HC)|]. split; [|now apply (cn_qr HC)].
    apply (rows_nth HF). lia. }
  rewrite E. cbn [bind]. exists d. split; [reflexivity|]. split; [exact R1|]. split; [exact W1|].
  assert (Hnth : forall m, (m < length (shape X))%nat -> is_mat (nth m (shape X) 0%nat) K (nth m (kt_fms d) m0)).
  { intros m Hm. assert (Hd : {nth_error l m = Some true} + {nth_error l m <> Some true}) by (repeat decide equality).
    destruct Hd as [Ht|Hf].
    - apply (O1 m (nth m (shape X) 0%nat)); [lia|now rewrite Nat.sub_0_r|apply (rows_nth HF); exact Hm].
    - rewrite N1 by (right; now rewrite Nat.sub_0_r). now apply (rows_nth HF). }
  split.
  { split.
    - apply Forall_forall. intros U HU. apply (In_nth _ _ m0) in HU as (m & Hm & <-).
      rewrite L1, <- Hlen in Hm. pose proof (Hnth m Hm) as H1. now rewrite (is_mat_nrows H1).
    - apply (nth_ext _ _ 0%nat 0%nat); [unfold rows; rewrite map_length, L1; now symmetry|].
      intros m Hm. unfold rows in *. rewrite map_length, L1, <- Hlen in Hm.
      rewrite (nth_indep _ 0%nat (nrows m0)) by (rewrite map_length, L1; lia). rewrite map_nth. exact (is_mat_nrows (Hnth m Hm)). }
  split.
  - intros m Hna. apply N1. right. rewrite Nat.sub_0_r. now rewrite Hask.
  - intros m Ha. pose proof Ha as Hn. apply Hask in Hn. apply (O1 m (nth m (shape X) 0%nat)); [lia|now rewrite Nat.sub_0_r|].
    apply (rows_nth HF). assert (m < length l)%nat by (apply nth_error_Some; congruence). lia.
Qed.

Lemma constrained_start disk draws max_its arg ds k i :
  cp_init_components env cs disk draws arg (targeted X ds) = (begun X ds k i, None) ->
  factors_ok K X (kt_fms k) -> is_vec K (kt_w k) -> kt_rank k = K ->
  cp_nn (ds_num ds) = nn -> cp_orth (ds_num ds) = orth -> cp_last (ds_num ds) = None ->
  exists ds1, cp_init_fit env cs disk draws X max_its arg ds = (ds1, None) /\
    cp_coherent K (ds_num ds1) /\ unit_w K (ds_num ds1) /\ flagged X nn orth (ds_num ds1) /\ kt_rank (cp_dec (ds_num ds1)) = K /\
    ds_it ds1 = i /\ ds_max ds1 = match max_its with Some m => m | None => ds_max ds end /\
    ds_logs ds1 = ds_logs ds /\ ds_file ds1 = ds_file ds /\
    ds_prev ds1 = Fin (sse X (kt_fms (cp_dec (ds_num ds1))) unit_weights K) /\ ds_rel ds1 = PInf /\
    (forall m, ~ asked orth m -> nth m (kt_fms (cp_dec (ds_num ds1))) m0 = nth m (kt_fms k) m0) /\
    (forall m, asked orth m -> orth_cols (nth m (shape X) 0%nat) K (mget (nth m (kt_fms (cp_dec (ds_num ds1))) m0))).
Proof.
  intros E1 HF Hw HR Enn Eorth HL. pose proof HF as [HU Hr]. pose proof (mode_len Hr) as Hlen.
  destruct (reset_weights_ok Hw) as [HW1 HW2].
  unfold cp_init_fit. fold (targeted X ds). rewrite E1.
  set (d1 := match max_its with Some m => with_max m (begun X ds k i) | None => begun X ds k i end).
  assert (En : ds_num d1 = ds_num (begun X ds k i)) by (unfold d1; destruct max_its; reflexivity). rewrite En.
  set (s0 := cp_with_dec (kt_reset_weights _) _).
  set (s := cp_with_constraints _ _ s0).
  assert (Ed : cp_dec s = kt_reset_weights k) by reflexivity.
  assert (Es : cp_orth s = or_unconstrained orth s) by (unfold s; cbn; now rewrite Eorth).
  assert (Esn : cp_nn s = or_unconstrained nn s) by (unfold s; cbn; now rewrite Enn).
  destruct (@orthonormalised s) as (d & EO & R1 & W1 & F1 & N1 & O1).
  { rewrite Ed. cbn [kt_reset_weights kt_fms]. rewrite Hlen. apply (cn_orth HC). }
  { exact Es. }
  { rewrite Ed. cbn [kt_reset_weights kt_fms]. now symmetry. }
  { rewrite Ed. exact HF. }
  rewrite EO. rewrite Ed in W1, N1, R1. cbn [kt_reset_weights kt_fms kt_rank] in N1, R1.
  assert (HCo : cp_coherent K (cp_with_dec d s)).
  { constructor; cbn.
    - apply (cn_data HC).
    - reflexivity.
    - exact F1.
    - rewrite W1. exact HW1.
    - rewrite HL. discriminate. }
  rewrite (cp_SSE_ok env HCo).
  eexists. split; [reflexivity|].
  assert (HUw : unit_w K (cp_with_dec d s)). { intros r Hr'. cbn [cp_with_dec cp_dec]. rewrite W1. now apply HW2. }
  split. { destruct HCo; constructor; auto. cbn. rewrite HL. discriminate. }
  split; [exact HUw|]. split.
  { split; [reflexivity|]. intros m Hm.
    assert (Hs : length (kt_fms (cp_dec s)) = length (shape X)) by (rewrite Ed; exact Hlen).
    split.
    - change (cp_nn (ds_num (with_conv PInf (Fin (sse (cp_X (cp_with_dec d s)) (kt_fms (cp_dec (cp_with_dec d s))) (vget (kt_w (cp_dec (cp_with_dec d s)))) K))
        (with_num (cp_with_cache (cp_last (cp_with_dec d s)) None (cp_with_dec d s)) d1)))) with (cp_nn s).
      rewrite Esn. apply (@flagged_or X _ _ _ _ (cn_nn HC) Hs Hm).
    - change (cp_orth (ds_num (with_conv PInf (Fin (sse (cp_X (cp_with_dec d s)) (kt_fms (cp_dec (cp_with_dec d s))) (vget (kt_w (cp_dec (cp_with_dec d s)))) K))
        (with_num (cp_with_cache (cp_last (cp_with_dec d s)) None (cp_with_dec d s)) d1)))) with (cp_orth s).
      rewrite Es. apply (@flagged_or X _ _ _ _ (cn_orth HC) Hs Hm). }
  split; [cbn; now rewrite R1|].
  split; [unfold d1; destruct max_its; reflexivity|]. split; [unfold d1; destruct max_its; reflexivity|].
  split; [unfold d1; destruct max_its; reflexivity|]. split; [unfold d1; destruct max_its; reflexivity|].
  split. { cbn [with_conv ds_prev with_num ds_num cp_with_cache cp_dec cp_with_dec]. f_equal. apply sse_ext. intros r Hr'. rewrite W1. now apply HW2. }
  split; [reflexivity|]. split; [exact N1|exact O1].
Qed.

(** ** The whole fit *)
Lemma constrained_fit_completes cf disk draws max_its arg ds :
  usable_start env cs K X draws arg ->
  cp_nn (ds_num ds) = nn -> cp_orth (ds_num ds) = orth -> cp_last (ds_num ds) = None ->
  let budget := match max_its with Some m => m | None => ds_max ds end in
  (0 < budget)%Z -> (forall lg, In lg (ds_logs ds) -> exists k, code_logger env cs k lg) -> checkpoints_fit cf budget ds ->
  exists ds1 ds', cp_init_fit env cs disk draws X max_its arg ds = (ds1, None) /\
    cp_fit env cs cf disk draws X max_its arg ds = (ds', None) /\
    factors_ok K X (kt_fms (cp_dec (ds_num ds'))) /\ (forall r, (r < K)%nat -> vget (kt_w (cp_dec (ds_num ds'))) r = 1) /\
    cp_SSE env (ds_num ds') = Ok (sse X (kt_fms (cp_dec (ds_num ds'))) unit_weights K) /\
    (0 <= ds_it ds' <= budget)%Z /\
    ((ds_it ds' < budget)%Z ->
     cp_stops (cp_model env cs) cf (ds_prev ds1) PInf (ds_num ds1) (Z.to_nat (ds_it ds')) = Ok true) /\
    (forall m, asked nn m -> (0 < ds_it ds')%Z \/ arg = NoArg /\ lower (cs_init cs) = "random"%string ->
       nonneg_mat (nth m (shape X) 0%nat) K (mget (nth m (kt_fms (cp_dec (ds_num ds'))) m0))) /\
    (forall m, asked orth m -> partial_isometry (nth m (shape X) 0%nat) K (mget (nth m (kt_fms (cp_dec (ds_num ds'))) m0))) /\
    (forall m, asked orth m -> orth_cols (nth m (shape X) 0%nat) K (mget (nth m (kt_fms (cp_dec (ds_num ds1))) m0))).
Proof.
  intros HU Enn Eorth HL budget Hb Hlg Hck. pose proof (cn_rank HC) as HK. pose proof (cn_data HC) as HX.
  assert (Hnl : match cp_nn (ds_num ds) with Some l => (length l <= length (shape X))%nat | None => True end).
  { rewrite Enn. destruct (cn_nn HC) as [->|(l & -> & El)]; [exact I|lia]. }
  destruct (@usable_begun env cs K disk draws X arg ds HK HX HU Hnl) as (k & E & HF & Hw & Hrk).
  destruct (@constrained_start disk draws max_its arg ds k 0%Z E HF Hw Hrk Enn Eorth HL)
    as (ds1 & EI & HCo & HUw & HFl & HR1 & Eit & Emax & Elog & Efile & Eprev & Erel & Hsame & Horth).
  fold budget in Emax.
  pose proof (@after_total (ds_num ds1) HCo HFl) as HA.
  assert (EX : cp_X (ds_num ds1) = X) by apply HFl.
  assert (HQ : quiet md ds1 (Z.to_nat (ds_max ds1 - ds_it ds1))).
  { split; [|split].
    - intros j _. eexists. apply (@loss_is_sse env cs K (ds_num ds1) j HCo HUw).
    - intros j _. apply HA.
    - intros j lg _ Hin. rewrite Elog in Hin. destruct (Hlg lg Hin) as (kd & _ & ->).
      apply cp_metric_total with (K := K). apply HA. }
  assert (HN : snd (cp_fit_loop md cf ds1) = None).
  { destruct Hck as [Hf|(Hf & f & Hfile & Hready & Hun)].
    - apply cp_quiet_neg; auto. lia.
    - destruct (cp_fit_loop md cf ds1) as [ds' e] eqn:EL. cbn [snd].
      destruct (@cp_run_lemma _ _ md cf ds1 f ds' e Hf) as [_ K2]; auto.
      + left. exists "CP_ALS"%string. reflexivity.
      + now rewrite Efile.
      + now rewrite Elog.
      + apply (@kinds_plain env cs). now rewrite Elog.
      + intros j. now apply after_storable with (K := K).
      + intros j Hj. rewrite Eit. apply Hun. lia.
      + apply K2; auto. lia. }
  destruct (cp_fit_loop md cf ds1) as [ds' e] eqn:EL. cbn [snd] in HN. subst e.
  exists ds1, ds'. split; [exact EI|]. split; [unfold cp_fit; rewrite EI; exact EL|].
  destruct (cp_fit_lemma EL) as (n & Hn & Hnum & _ & Hend). destruct (Hend eq_refl) as [Hst Hi].
  destruct (HA n) as (H1 & H2 & _ & H4). rewrite <- Hnum in H1, H2, H4.
  pose proof (co_fac H1) as HF'. rewrite (sp_X H2), EX in HF'.
  pose proof (unit_w_same H2 HUw) as HU'. split; [exact HF'|]. split; [exact HU'|].
  split. { rewrite (cp_SSE_ok env H1), (unit_sse HU'), (sp_X H2), EX. reflexivity. }
  rewrite Eit, Emax in *. rewrite Erel in Hst. split; [lia|]. split.
  { intros Hlt. destruct Hst as [->|Hst]; [lia|]. replace (Z.to_nat (ds_it ds')) with n by lia. exact Hst. }
  split; [|split].
  - intros m Ha Hor. pose proof (asked_lt (cn_nn HC) Ha) as Hm. apply (H4 m Hm); [|exact Ha].
    destruct (Nat.eq_dec n 0) as [->|]; [|left; lia]. right. destruct Hor as [|[Harg Hinit]]; [lia|].
    assert (Hno : ~ asked orth m) by now apply (cn_apart HC).
    split; [intros _; rewrite Hsame by exact Hno|intros A; contradiction].
    destruct HU as [(_ & _ & HFd)|[(Hi' & _)|(Hi' & _)]]; [|rewrite Hi' in Hinit; discriminate|rewrite Hi' in Hinit; discriminate].
    rewrite Harg in E.
    destruct (@random_components env cs K disk draws X ds Hinit HX HFd) as (k' & E' & HF2 & _ & _ & Efm).
    { destruct (cp_nn (ds_num ds)); auto. destruct HFd as [_ Hr]. now rewrite (mode_len Hr). }
    rewrite E in E'. injection E' as E'.
    assert (Ek : k = k') by exact E'. subst k'. rewrite Efm.
    assert (Hlen : length draws = length (shape X)) by (destruct HFd as [_ Hr]; apply (mode_len Hr)).
    rewrite (nth_indep _ m0 (random_factor K (cp_nn (ds_num ds)) draws 0)) by (rewrite map_length, seq_length; lia).
    rewrite map_nth, seq_nth by lia. cbn [Nat.add]. unfold random_factor. rewrite Enn. destruct Ha as (l & -> & Hl).
    rewrite (nth_error_nth _ _ _ Hl). intros i r _ _. apply abs_nonneg.
  - intros m Ha. pose proof (asked_lt (cn_orth HC) Ha) as Hm. apply (H4 m Hm); [|exact Ha].
    right. split; [intros A; exfalso; exact (cn_apart HC A Ha)|]. intros _. apply orth_partial. now apply Horth.
  - exact Horth.
Qed.
End Fit.
