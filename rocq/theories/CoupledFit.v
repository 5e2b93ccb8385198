(** Complete CMTF_ALS fits with orthonormal modes and ridge penalties (C90). *)
From Verif Require Export CoupledFitSpec.
From Verif Require Import ConstrainedFit CMTFComplete CMTFUpdate CMTFNorm CMTFLoss CPComplete RunFacts FitFacts.
From Verif Require Import Prelude Lin.
Set Implicit Arguments.
Unset Strict Implicit.
Local Open Scope R_scope.

(** Without non-negativity the solver chosen for a mode returns a matrix of the right size. *)
Lemma solver_total env cs (c : cp_state) K N n m b lam lhs rhs : flag (cp_nn c) m false -> flag (cp_orth c) m b -> penalty cs m lam -> 0 <= lam ->
  svd_contract (env_svd env) -> (0 < K)%nat -> (0 < n)%nat -> is_mat K N lhs -> is_mat n N rhs ->
  exists solve Z, get_rightsolve env cs (cp_nn c) (cp_orth c) m = Ok solve /\ solve lhs rhs = Ok Z /\ is_mat n K Z /\
    (b = true -> partial_isometry n K (mget Z)).
Proof.
  intros Fa Fb Hp Hl HS HK0 Hn HL HR. pose proof (rightsolve_flags env Fa Fb Hp) as ES.
  cbn [andb] in ES. cbv zeta in ES. destruct b.
  - destruct (@orthogonal_rightsolve_total (env_svd env) N K n lhs rhs HS HL HR HK0 Hn) as (Q & EQ & HQ & HPI).
    destruct (cs_ridge cs); eexists; exists Q; (split; [exact ES|]); (split; [|auto]); auto.
    now rewrite (ridge_orthogonal (env_svd env) HL HR Hl).
  - destruct (cs_ridge cs).
    + destruct (ridge_ok (rightsolve (env_svd env)) HL HR Hl) as (A' & B' & E & HA' & HB' & _).
      destruct (HS _ _ _ HA') as (U & Sv & Vh & E1 & HV1).
      destruct (rightsolve_ok HA' HB' E1 HV1) as (Z & EZ & HZ & _). rewrite <- E in EZ.
      eexists. exists Z. split; [exact ES|]. split; [exact EZ|]. split; [exact HZ|]. discriminate.
    + destruct (HS _ _ _ HL) as (U & Sv & Vh & E1 & HV1).
      destruct (rightsolve_ok HL HR E1 HV1) as (Z & EZ & HZ & _).
      eexists. exists Z. split; [exact ES|]. split; [exact EZ|]. split; [exact HZ|]. discriminate.
Qed.

Section Fit.
Variables (env : cp_env) (cs : cp_settings) (K : nat) (X : nd) (nn orth : option (list bool)) (ms : list nat).
Hypothesis (HC : constrained env cs K X nn orth) (Hnn : forall m, ~ asked nn m) (HN : NoDup ms).
Let md := cmtf_model env cs.
Let HS := cn_svd HC.

Lemma svd_rows : svd_works_rows K (env_svd env).
Proof. intros m Hm A HA. destruct (HS HA) as (U & Sv & Vh & E & H). eauto. Qed.

Definition isometric (Us : list nd) (m : nat) : Prop := asked orth m -> partial_isometry (nth m (shape X) 0%nat) K (mget (nth m Us m0)).

Lemma cm_update_total s m : cm_ok K ms s -> flagged X nn orth (cm_cp s) -> (m < length (shape X))%nat ->
  exists s', cmtf_update_factor env cs s m = (s', None) /\ cm_V s' = cm_V s /\ same_coupled s s' /\ cm_ok K ms s' /\
    isometric (cm_fms s') m /\ forall m', m' <> m -> nth m' (cm_fms s') m0 = nth m' (cm_fms s) m0.
Proof.
  intros H [EX HF] Hm. destruct (HF m Hm) as [(a & Fa & Ha) (b & Fb & Hb)]. destruct (penalty_here HC Hm) as (lam & Hp & Hl).
  assert (a = false) as -> by (destruct a; [exfalso; now apply (Hnn (proj1 Ha eq_refl))|reflexivity]).
  pose proof (cn_rank HC) as HK. pose proof (cn_pos HC) as HK0. pose proof (mode_pos HC Hm) as Hn.
  assert (Hm' : (m < length (shape (cp_X (cm_cp s))))%nat) by now rewrite EX.
  assert (Hsides : exists N lhs rhs, cmtf_lhs env cs s m = Ok lhs /\ cmtf_rhs env s m = Ok rhs /\ is_mat K N lhs /\
    is_mat (nth m (shape (cp_X (cm_cp s))) 0%nat) N rhs).
  { destruct (dict_find (Z.of_nat m) (mode_to_cm_idx (cm_modes s))) as [idxs|] eqn:EF.
    - destruct (@coupled_sides env cs K ms s m idxs H Hm' EF) as (i & lhs & rhs & N & _ & _ & _ & EL & ER & HL & HR & _).
      exists N, lhs, rhs. auto.
    - pose proof (ck_fac H) as [HU Hr].
      destruct (als_rhs_ok env (ck_data H) (ck_fac H) Hm') as (P & EP & HP & _). destruct (als_lhs_ok m HU HK) as (V & EV & HV & _).
      exists K, V, P. unfold cmtf_lhs, cmtf_rhs. rewrite EF. auto. }
  destruct Hsides as (N & lhs & rhs & EL & ER & HL & HR).
  destruct (@solver_total env cs (cm_cp s) K N (nth m (shape X) 0%nat) m b lam lhs rhs Fa Fb Hp Hl HS HK0 Hn HL) as (solve & Z & ES & EZ & HZ & HI).
  { now rewrite <- EX. }
  destruct (cm_update_with H Hm' EL ER ES EZ) as (s' & Es & Hf & HV & HSC & HC'); [now rewrite EX|].
  exists s'. split; [exact Es|]. split; [exact HV|]. split; [exact HSC|]. split; [exact HC'|]. rewrite Hf. split.
  - intros Hask. unfold with_factor. rewrite nth_replace_at_eq by (rewrite (ck_len H); exact Hm'). apply HI. now apply Hb.
  - intros m' Hne. unfold with_factor. now rewrite nth_replace_at_neq by auto.
Qed.

Lemma cm_modes_total l : forall s, cm_ok K ms s -> flagged X nn orth (cm_cp s) -> Forall (fun m => (m < length (shape X))%nat) l ->
  exists s', cmtf_update_modes env cs l s = (s', None) /\ cm_ok K ms s' /\ same_coupled s s' /\
    forall m, In m l \/ isometric (cm_fms s) m -> isometric (cm_fms s') m.
Proof.
  induction l as [|m l IH]; intros s H HF Hl; cbn [cmtf_update_modes].
  - exists s. split; [reflexivity|]. split; [exact H|]. split; [apply same_coupled_refl|]. intros m [[]|]; auto.
  - inversion Hl as [|? ? Hm Hl']; subst. destruct (proj2 HF m Hm) as [(a & (ln & En & Ea) & Ha) _]. rewrite En. cbn [not_none bind].
    assert (a = false) as -> by (destruct a; [exfalso; now apply (Hnn (proj1 Ha eq_refl))|reflexivity]).
    unfold list_get. rewrite Ea. destruct (@cm_update_total s m H HF Hm) as (s1 & -> & _ & S1 & H1 & G1 & O1).
    destruct (IH s1 H1 (flagged_same (sc_cp S1) HF) Hl') as (s2 & E2 & H2 & S2 & G2). exists s2.
    split; [exact E2|]. split; [exact H2|]. split; [eapply same_coupled_trans; eauto|].
    intros m' Hm'. apply G2. destruct (Nat.eq_dec m' m) as [->|Hne]; [now right|]. destruct Hm' as [[<-|Hin]|Hg]; [congruence|now left|right].
    unfold isometric in *. now rewrite (O1 m' Hne).
Qed.

Lemma cm_iteration_total s : cm_ok K ms s -> flagged X nn orth (cm_cp s) ->
  exists s', cmtf_update_factors env cs s = (s', None) /\ cm_ok K ms s' /\ same_coupled s s' /\
    forall m, (m < length (shape X))%nat -> isometric (cm_fms s') m.
Proof.
  intros H HF. unfold cmtf_update_factors, ndim. rewrite (proj1 HF).
  destruct (@cm_modes_total (seq 0 (length (shape X))) s H HF) as (s1 & -> & H1 & S1 & G1).
  { apply Forall_forall. intros m Hm. apply in_seq in Hm. lia. }
  pose proof (flagged_same (sc_cp S1) HF) as HF1.
  destruct (@update_uncoupled_ok env K ms s1 H1 HN) as (s2 & E2 & Hcp & HS2 & H2 & _); auto using svd_rows.
  { destruct HF1 as [EX1 HF1]. assert (H0 : (0 < length (shape X))%nat) by (destruct (cn_data HC) as (_ & H2 & _); lia).
    destruct (HF1 0%nat H0) as [(b & (l & El & _) & _) _]. exists l. split; [exact El|]. intros m Hm. rewrite EX1 in Hm.
    destruct (HF1 m Hm) as [(a & (l' & El' & Ea) & Ha) _]. rewrite El in El'. injection El' as <-.
    destruct a; [exfalso; now apply (Hnn (proj1 Ha eq_refl))|exact Ea]. }
  exists s2. split; [exact E2|]. split; [exact H2|]. split; [eapply same_coupled_trans; eauto|].
  intros m Hm. unfold cm_fms, cm_dec. rewrite Hcp. apply G1. left. apply in_seq. lia.
Qed.

Lemma cm_after_total s : cm_ok K ms s -> flagged X nn orth (cm_cp s) -> forall k,
  cm_ok K ms (state_after md s k) /\ same_coupled s (state_after md s k) /\ snd (md_update md (state_after md s k)) = None /\
  forall m, (m < length (shape X))%nat -> (0 < k)%nat -> isometric (cm_fms (state_after md s k)) m.
Proof.
  intros H HF.
  assert (Hinv : forall k, cm_ok K ms (state_after md s k) /\ same_coupled s (state_after md s k)).
  { induction k as [|k [I1 I2]]; [split; [exact H|apply same_coupled_refl]|]. cbn [state_after].
    destruct (@cm_iteration_total _ I1 (flagged_same (sc_cp I2) HF)) as (s' & E & H' & S' & _).
    change (md_update md) with (cmtf_update_factors env cs). rewrite E. split; [exact H'|]. eapply same_coupled_trans; eauto. }
  intros k. destruct (Hinv k) as [I1 I2]. split; [exact I1|]. split; [exact I2|]. change (md_update md) with (cmtf_update_factors env cs). split.
  - destruct (@cm_iteration_total _ I1 (flagged_same (sc_cp I2) HF)) as (s' & E & _). now rewrite E.
  - intros m Hm Hk. destruct k as [|k]; [lia|]. destruct (Hinv k) as [J1 J2].
    destruct (@cm_iteration_total _ J1 (flagged_same (sc_cp J2) HF)) as (s' & E & _ & _ & G). cbn [state_after].
    change (md_update md) with (cmtf_update_factors env cs). rewrite E. now apply G.
Qed.

Lemma constrained_begin disk draws vdraws Y max_its arg ds :
  usable_start env cs K X draws arg -> coupled_start K X ms Y vdraws ->
  cp_nn (cm_cp (ds_num ds)) = nn -> cp_orth (cm_cp (ds_num ds)) = orth ->
  exists ds1, cmtf_init_fit env cs disk draws vdraws X Y (map Z.of_nat ms) max_its arg ds = (ds1, None) /\
    ds_it ds1 = 0%Z /\ ds_max ds1 = (match max_its with Some m => m | None => ds_max ds end) /\ ds_logs ds1 = ds_logs ds /\
    ds_file ds1 = ds_file ds /\ ds_rel ds1 = PInf /\
    cm_ok K ms (ds_num ds1) /\ flagged X nn orth (cm_cp (ds_num ds1)) /\ cm_Y (ds_num ds1) = Y /\ kt_rank (cm_dec (ds_num ds1)) = K /\
    (forall m, asked orth m -> exists Q, orth_cols (nth m (shape X) 0%nat) K (mget Q) /\
       forall i r, (i < nth m (shape X) 0)%nat -> (r < K)%nat ->
         mget (nth m (cm_fms (ds_num ds1)) m0) i r = mget Q i r / (1 + eps15)) /\
    cp_norm (cm_cp (ds_num ds1)) = norm X /\
    exists s0, cm_ok K ms s0 /\ flagged X nn orth (cm_cp s0) /\ cm_Y s0 = Y /\ (forall r, (r < K)%nat -> vget (kt_w (cm_dec s0)) r = 1) /\
      cmtf_SSE env s0 = Ok (coupled_loss K X (cm_fms s0) (vget (kt_w (cm_dec s0))) ms (cm_V s0) Y) /\
      ds_prev ds1 = Fin (coupled_loss K X (cm_fms s0) (vget (kt_w (cm_dec s0))) ms (cm_V s0) Y) /\
      cm_V (ds_num ds1) = cm_V s0 /\ cp_norm (cm_cp s0) = norm X /\
      (forall i b r, (i < length ms)%nat -> (b < ncols (nth i Y m0))%nat -> (r < K)%nat ->
        mget (nth i (cm_V s0) m0) b r = mget (nth i vdraws m0) b r / clen (nth i vdraws m0) r) /\
      cm_fms (ds_num ds1) = map (fun U => scaled eps15 (nrows U) K U) (cm_fms s0) /\
      (forall r, (r < K)%nat -> vget (kt_w (cm_dec (ds_num ds1))) r = prodf (cm_fms s0) (fun U => clen U r)) /\
      forall k, arg = DecArg k -> forall m, ~ asked orth m -> nth m (cm_fms s0) m0 = nth m (kt_fms k) m0.
Proof.
  intros HU HCS Enn Eor. pose proof (cn_rank HC) as HK. pose proof (cn_data HC) as HX.
  set (d0 := {| ds_num := cm_cp (ds_num ds); ds_it := ds_it ds; ds_max := ds_max ds; ds_rel := ds_rel ds;
                ds_prev := ds_prev ds; ds_logs := []; ds_file := ds_file ds |}).
  destruct (@usable_begun env cs K disk draws X arg d0 HK HX HU) as (d & EB & HF & Hw & Hrk).
  { unfold d0; cbn [ds_num]. rewrite Enn. destruct (cn_nn HC) as [->|(l & -> & El)]; auto. lia. }
  pose proof HF as [HM Hr]. pose proof (mode_len Hr) as Hlen. destruct (reset_weights_ok Hw) as [Hw1 Hw2].
  destruct HCS as (HY & HV & HCo).
  destruct (@init_coupled_ok vdraws K X ms (cm_with_cp (cp_with_dec d (cp_with_target X (cm_cp (ds_num ds))))
                        (cm_with_coupling Y (map Z.of_nat ms) (ds_num ds))) eq_refl HY HV) as (s1 & EI & HCO & HVe).
  { intros i Hi. destruct (HCo i Hi) as (A & B & C & D). split; [exact A|]. split; [exact B|]. split; [exact C|]. split; [exact D|].
    cbn. rewrite Enn. destruct (cn_nn HC) as [->|(l & -> & El)]; auto. now rewrite El. }
  pose proof (init_coupled_only_V EI) as E1.
  change (cm_Y (cm_with_cp (cp_with_dec d (cp_with_target X (cm_cp (ds_num ds)))) (cm_with_coupling Y (map Z.of_nat ms) (ds_num ds)))) with Y in *.
  unfold cmtf_init_fit, on_cp. cbn [ds_num with_num with_it ds_it ds_max ds_rel ds_prev ds_logs ds_file].
  match goal with |- context [cp_init_components env cs disk draws arg ?x] => change x with (targeted X d0) end.
  rewrite EB.
  cbn [begun targeted ds_num with_num ds_it ds_max ds_rel ds_prev ds_logs ds_file with_it d0].
  change (cm_with_cp (cp_with_dec d (cp_with_target X (cm_cp (ds_num ds))))
      (cm_with_cp (cp_with_target X (cm_cp (cm_with_coupling Y (map Z.of_nat ms) (ds_num ds)))) (cm_with_coupling Y (map Z.of_nat ms) (ds_num ds))))
    with (cm_with_cp (cp_with_dec d (cp_with_target X (cm_cp (ds_num ds)))) (cm_with_coupling Y (map Z.of_nat ms) (ds_num ds))).
  rewrite EI. rewrite E1. cbn [cm_with_V cm_dec cm_cp cm_with_cp cp_dec cp_with_dec cp_nn cp_orth cp_with_target].
  rewrite Enn, Eor. set (c := cp_with_constraints _ _ _).
  destruct (@orthonormalised env cs K X nn orth HC c) as (dq & Hc & Rq & Wq & Fq & Nq & Oq).
  { change (kt_fms (cp_dec c)) with (kt_fms d). rewrite Hlen. exact (cn_orth HC). }
  { subst c. cbn. reflexivity. }
  { change (kt_fms (cp_dec c)) with (kt_fms d). now symmetry. }
  { exact HF. }
  rewrite Hc. cbn [cm_with_V cm_with_cp cm_Y cm_modes cm_V cm_cp].
  set (s2 := {| cm_cp := cp_with_dec dq c; cm_Y := Y; cm_modes := map Z.of_nat ms; cm_V := cm_V s1 |}).
  assert (H2 : cm_ok K ms s2).
  { constructor; auto. change (is_vec K (kt_w dq)). rewrite Wq. exact Hw1. }
  match goal with |- context [cmtf_SSE env ?x] => change x with s2 end.
  rewrite (cmtf_SSE_ok env H2). destruct Fq as [HMq Hrq].
  destruct (@kt_normalize_of eps15 K (cm_dec s2) HMq) as (k' & EK & HRk & Ef & Hw' & He).
  { change (is_vec K (kt_w dq)). rewrite Wq. exact Hw1. }
  { change (kt_rank dq = K). rewrite Rq. exact Hrk. }
  { intros U r _ _. pose proof (clen_nonneg U r). pose proof eps15_pos. lra. }
  match goal with |- context [kt_normalize true eps15 ?x] => change x with (cm_dec s2) end. rewrite EK.
  eexists. split; [reflexivity|].
  change (kt_fms (cm_dec s2)) with (kt_fms dq) in *.
  assert (HF' : factors_ok K X (kt_fms k')).
  { rewrite Ef. split; [apply mats_scaled|]. now rewrite rows_scaled. }
  assert (HW2 : forall r, (r < K)%nat -> vget (kt_w (cm_dec s2)) r = 1).
  { intros r Hr'. change (vget (kt_w dq) r = 1). rewrite Wq. now apply Hw2. }
  assert (HKk : forall k, arg = DecArg k -> forall m, ~ asked orth m -> nth m (cm_fms s2) m0 = nth m (kt_fms k) m0).
  { intros k -> m Hm. change (nth m (kt_fms dq) m0 = nth m (kt_fms k) m0). rewrite Nq by exact Hm.
    change (nth m (kt_fms d) m0 = nth m (kt_fms k) m0).
    destruct HU as [(_ & A1 & _)|[(_ & A1 & _)|(Hi & j' & A1 & HFk & _)]]; try discriminate. injection A1 as <-.
    destruct (@init_precomputed env cs disk draws (targeted X d0) k Hi) as [Hacc _].
    rewrite Hacc in EB by (rewrite HK; now apply factors_fit). injection EB as ->. reflexivity. }
  destruct max_its as [mi|]; cbn [ds_num with_num with_conv with_max ds_prev ds_it ds_max ds_logs ds_file ds_rel].
  all: do 5 (split; [reflexivity|]).
  all: split; [constructor; [exact HX | exact HF' | exact Hw' | reflexivity | exact HCO]|].
  all: split; [split; [reflexivity|]; intros m Hm; split;
    [apply (@flagged_or X nn (length (shape X)) (cp_with_dec (kt_reset_weights d) (cp_with_target X (cm_cp (ds_num ds))))); [exact (cn_nn HC)|exact Hlen|exact Hm]|
     apply (@flagged_or X orth (length (shape X)) (cp_with_dec (kt_reset_weights d) (cp_with_target X (cm_cp (ds_num ds))))); [exact (cn_orth HC)|exact Hlen|exact Hm]]|].
  all: do 1 (split; [reflexivity|]). all: split; [exact HRk|].
  all: split; [|split; [reflexivity|]].
  all: try (exists s2; split; [exact H2|]; split; [split; [reflexivity|]; intros m Hm; split;
    [apply (@flagged_or X nn (length (shape X)) (cp_with_dec (kt_reset_weights d) (cp_with_target X (cm_cp (ds_num ds))))); [exact (cn_nn HC)|exact Hlen|exact Hm]|
     apply (@flagged_or X orth (length (shape X)) (cp_with_dec (kt_reset_weights d) (cp_with_target X (cm_cp (ds_num ds))))); [exact (cn_orth HC)|exact Hlen|exact Hm]]|];
    split; [reflexivity|]; split; [exact HW2|]; split; [exact (cmtf_SSE_ok env H2)|]; split; [reflexivity|]; split; [reflexivity|]; split; [reflexivity|]; split; [exact HVe|];
    split; [exact Ef|]; split; [intros r Hr'; rewrite <- (Rmult_1_l (prodf _ _)), <- (HW2 r Hr'); exact (He r Hr')|exact HKk]).
  all: intros m Hask; exists (nth m (kt_fms dq) m0); split; [now apply Oq|].
  all: intros i r Hi Hrk'; assert (Hm : (m < length (shape X))%nat) by (apply (asked_lt (cn_orth HC) Hask)).
  all: change (mget (nth m (kt_fms k') m0) i r = mget (nth m (kt_fms dq) m0) i r / (1 + eps15)); rewrite Ef.
  all: rewrite (nth_map_in (fun U => scaled eps15 (nrows U) K U) m0) by (rewrite (mode_len Hrq); exact Hm).
  all: assert (HQm : is_mat (nth m (shape X) 0%nat) K (nth m (kt_fms dq) m0)) by (apply (rows_nth (conj HMq Hrq)); exact Hm).
  all: unfold scaled; rewrite mget_tab2; auto; [|now rewrite (is_mat_nrows HQm)].
  all: assert (E1c : colnorm (nth m (kt_fms dq) m0) r = 1) by
    (unfold colnorm, colnorm2; rewrite (is_mat_nrows HQm), (Oq m Hask r r Hrk' Hrk'), delta_refl; apply sqrt_1).
  all: now rewrite E1c.
Qed.

(** ** The whole fit *)
Lemma constrained_complete cf disk draws vdraws Y max_its arg ds :
  usable_start env cs K X draws arg -> coupled_start K X ms Y vdraws ->
  cp_nn (cm_cp (ds_num ds)) = nn -> cp_orth (cm_cp (ds_num ds)) = orth ->
  let budget := match max_its with Some m => m | None => ds_max ds end in
  (0 < budget)%Z -> (forall lg, In lg (ds_logs ds) -> exists k, coupled_logger env k lg) -> checkpoints_fit cf budget ds ->
  exists ds1 ds' n, let t := state_after md (ds_num ds1) n in let s' := ds_num ds' in
    cmtf_init_fit env cs disk draws vdraws X Y (map Z.of_nat ms) max_its arg ds = (ds1, None) /\
    cmtf_fit env cs cf disk draws vdraws X Y (map Z.of_nat ms) max_its arg ds = (ds', None) /\
    ds_it ds' = Z.of_nat n /\ (Z.of_nat n <= budget)%Z /\
    (Z.of_nat n = budget \/ cp_stops md cf (ds_prev ds1) PInf (ds_num ds1) n = Ok true) /\
    Forall2 (fun a b => lg_its b = lg_its a ++ its_of 0 n /\ length (lg_vals b) = (length (lg_vals a) + n)%nat) (ds_logs ds) (ds_logs ds') /\
    factors_ok K X (cm_fms s') /\ coupling_ok K X ms (cm_V s') Y /\ cp_X (cm_cp s') = X /\ cm_Y s' = Y /\
    (forall m, asked orth m -> exists Q, orth_cols (nth m (shape X) 0%nat) K (mget Q) /\
       forall i r, (i < nth m (shape X) 0)%nat -> (r < K)%nat ->
         mget (nth m (cm_fms (ds_num ds1)) m0) i r = mget Q i r / (1 + eps15)) /\
    (forall m, asked orth m -> (0 < n)%nat -> partial_isometry (nth m (shape X) 0%nat) K (mget (nth m (cm_fms t) m0))) /\
    (forall m a r, (m < length (shape X))%nat -> (a < nth m (shape X) 0)%nat -> (r < K)%nat ->
      mget (nth m (cm_fms s') m0) a r = mget (nth m (cm_fms t) m0) a r / (clen (nth m (cm_fms t) m0) r + eps15)) /\
    (forall i b r, (i < length ms)%nat -> (b < ncols (nth i Y m0))%nat -> (r < K)%nat ->
      mget (nth i (cm_V s') m0) b r = mget (nth i (cm_V t) m0) b r * clen (nth (nth i ms 0%nat) (cm_fms t) m0) r).
Proof.
  intros HU HCS Enn Eor budget Hb Hlg Hck.
  destruct (@constrained_begin disk draws vdraws Y max_its arg ds HU HCS Enn Eor)
    as (ds1 & EI & Eit & Emax & Elog & Efile & Erel & HOK & HFl & EY & Erk & Horth & _).
  fold budget in Emax. pose proof (cm_after_total HOK HFl) as Hst.
  assert (HC1 : checkpoints_fit cf (ds_max ds1) ds1).
  { rewrite Emax. destruct Hck as [Hf|Hf]; [left; exact Hf|right]. now rewrite Efile, Elog. }
  assert (HQ : quiet md ds1 (Z.to_nat (ds_max ds1 - ds_it ds1))).
  { split; [|split].
    - intros k _. destruct (Hst k) as (A & _). cbn [md cmtf_model md_loss]. fold md. rewrite (cmtf_SSE_ok env A). cbn [bind]. eauto.
    - intros k _. apply Hst.
    - intros k lg _ Hin. rewrite Elog in Hin. destruct (Hlg lg Hin) as (kd & _ & ->). destruct (Hst (Datatypes.S k)) as (A & _).
      now apply (@coupled_metric_total env K kd ms). }
  assert (HE : snd (cp_fit_loop md cf ds1) = None).
  { destruct HC1 as [Hf|(Hf & f & Hfile & Hready & Hun)].
    - apply cp_quiet_neg; auto. lia.
    - destruct (cp_fit_loop md cf ds1) as [ds' e] eqn:EL. cbn [snd].
      destruct (@cp_run_lemma _ _ md cf ds1 f ds' e Hf) as [_ K2]; auto.
      + right. reflexivity.
      + apply (@coupled_plain env). now rewrite Elog.
      + intros k. destruct (Hst k) as (A & _). apply (@coupled_storable env cs K ms _ A). unfold md. now rewrite (@after_coupled_rank env cs).
      + intros j Hj. rewrite Eit. apply Hun. lia.
      + apply K2; auto. lia. }
  destruct (cp_fit_loop md cf ds1) as [ds2 e] eqn:EL. cbn [snd] in HE. subst e.
  destruct (cp_fit_lemma EL) as (n & Hn & En & _ & Hend). destruct (Hend eq_refl) as [Hstop Hit].
  destruct (Hst n) as (HT & HST & _ & Hiso). set (t := state_after md (ds_num ds1) n) in *.
  assert (Erkt : kt_rank (cm_dec t) = K) by (unfold t, md; now rewrite (@after_coupled_rank env cs)).
  assert (HXt : cp_X (cm_cp t) = X) by (rewrite (sp_X (sc_cp HST)); apply HFl).
  assert (HYt : cm_Y t = Y) by now rewrite (sc_Y HST).
  destruct (@cm_normalize_ok eps15 K ms t HT Erkt) as (s' & ES & HOK' & EX' & EY' & Hf' & HV' & Hent).
  { intros U r _ _. pose proof (clen_nonneg U r). pose proof eps15_pos. lra. }
  rewrite HXt in *. rewrite HYt in *.
  exists ds1, (with_num s' ds2), n. cbn zeta. split; [exact EI|]. split.
  { unfold cmtf_fit. rewrite EI. unfold cmtf_fit_loop. fold md. rewrite EL, En. fold t. now rewrite ES. }
  cbn [ds_num with_num ds_it ds_logs]. fold t. split; [lia|]. split; [lia|]. split; [rewrite Erel in Hstop; destruct Hstop; [left; lia|now right]|]. split.
  { pose proof (cp_fit_logs EL) as HL. rewrite Eit, Elog in HL. eapply Forall2_impl; [|exact HL].
    intros a b (_ & _ & B3 & vs & B4 & B5).
    replace (Z.to_nat (ds_it ds2 - 0)) with n in * by lia. split; [exact B3|]. rewrite B4, app_length. f_equal.
    rewrite <- (Forall2_same_len B5). apply seq_length. }
  split; [rewrite <- EX' ; apply (ck_fac HOK')|]. split; [rewrite <- EX', <- EY'; apply (ck_coup HOK')|].
  split; [exact EX'|]. split; [exact EY'|]. split; [exact Horth|]. split.
  { intros m Hm Hn0. apply Hiso; auto. apply (asked_lt (cn_orth HC) Hm). }
  split; [|exact HV'].
  intros m a r Hm Ha Hrk. apply Hf'; auto; [rewrite (ck_len HT), HXt; auto|].
  pose proof (ck_fac HT) as HFt. rewrite HXt in HFt. now rewrite (is_mat_nrows (rows_nth HFt Hm)).
Qed.
End Fit.

(** A partial isometry whose columns are independent has orthonormal columns. *)
Lemma isometry_independent n K Q : partial_isometry n K Q ->
  (forall c : nat -> R, (forall i, (i < n)%nat -> sum K (fun r => Q i r * c r) = 0) -> forall r, (r < K)%nat -> c r = 0) -> orth_cols n K Q.
Proof.
  intros HP HI p r Hp Hr. apply Rminus_diag_uniq.
  apply (HI (fun t => sum n (fun j => Q j t * Q j r) - delta t r)); [|exact Hp].
  intros i Hi. transitivity (sum K (fun t => sum n (fun j => Q i t * Q j t * Q j r)) - sum K (fun t => Q i t * delta t r)).
  - rewrite <- sum_minus. apply sum_ext. intros t Ht. rewrite Rmult_minus_distr_l, <- sum_scal_l. f_equal. apply sum_ext. intros. ring.
  - rewrite (HP i r Hi Hr), sum_delta_r by exact Hr. ring.
Qed.

Lemma scaled_gram n K (Q P : nd) : is_mat n K Q -> partial_isometry n K (mget Q) -> independent_columns n K Q ->
  (forall i r, (i < n)%nat -> (r < K)%nat -> mget P i r = mget Q i r / (clen Q r + eps15)) ->
  forall p r, (p < K)%nat -> (r < K)%nat -> sum n (fun i => mget P i p * mget P i r) = delta p r / (1 + eps15) ^ 2.
Proof.
  intros HQ HP HI HE p r Hp Hr. pose proof (isometry_independent HP HI) as HO. pose proof eps15_pos as He.
  assert (Hone : forall r, (r < K)%nat -> clen Q r = 1).
  { intros q Hq. unfold clen. rewrite (is_mat_nrows HQ). replace (sum n (fun i => mget Q i q ^ 2)) with (sum n (fun i => mget Q i q * mget Q i q)) by (apply sum_ext; intros; ring).
    rewrite (HO q q Hq Hq), delta_refl. apply sqrt_1. }
  transitivity (sum n (fun i => (/ (1 + eps15) ^ 2) * (mget Q i p * mget Q i r))).
  - apply sum_ext. intros i Hi. rewrite !HE, !Hone by auto. field. lra.
  - rewrite sum_scal_l, (HO p r Hp Hr). unfold Rdiv. ring.
Qed.
