(** Properties C67-C69: degeneracy scores, comparison methods and single components of the decomposition classes. *)
From Verif Require Import MetricsMore CompareFacts CPExamples.
Local Open Scope R_scope.

(** *** C67.  Degeneracy scores are the cosines between the components. *)
Theorem C67_kruskal_scores : forall K Us w k,
  mats K Us -> Us <> [] -> is_vec K w -> nonzero_columns K Us -> kt_init Us (Some w) = Ok k ->
  exists D, kt_degeneracy k = Ok D /\ is_mat K K D /\
    forall r s, (r < K)%nat -> (s < K)%nat ->
      mget D r s = comp_cosine Us r s /\ mget D r s = mget D s r /\ mget D r r = 1 /\ Rabs (mget D r s) <= 1 /\
      (Rabs (mget D r s) = 1 <-> comp_multiple Us r s).
Proof.
  intros K Us w k HU Hne Hw HN E. rewrite (kt_init_mats HU Hne Hw) in E. injection E as <-.
  unfold kt_degeneracy. cbn [kt_rank kt_fms].
  destruct (degeneracy_ok HU HN) as (D & ED & HD & Hd). exists D. split; [exact ED|]. split; [exact HD|].
  intros r s Hr Hs. rewrite !Hd by auto. split; [reflexivity|]. split; [apply cosine_sym|].
  split; [exact (cosine_diag HN Hr)|]. split; [exact (cosine_bound HN Hr Hs)|exact (cosine_one HN Hr Hs)].
Qed.
Print Assumptions C67_kruskal_scores.

(** A zero column anywhere makes the scores NaN. *)
Theorem C67_zero_column : forall K Us w k U r,
  mats K Us -> Us <> [] -> is_vec K w -> kt_init Us (Some w) = Ok k ->
  In U Us -> (r < K)%nat -> (forall i, (i < nrows U)%nat -> mget U i r = 0) -> kt_degeneracy k = Err NonFinite.
Proof.
  intros K Us w k U r HU Hne Hw E HI Hr Hz. rewrite (kt_init_mats HU Hne Hw) in E. injection E as <-.
  exact (degeneracy_zero HU HI Hr Hz).
Qed.
Print Assumptions C67_zero_column.

(** The same holds for PARAFAC2 models whose projections have orthonormal columns, *)
Theorem C67_parafac2_scores : forall nI nK Rb K A F C Ps warn t,
  is_mat nI K A -> is_mat Rb K F -> is_mat nK K C -> mats Rb Ps -> length Ps = nK -> (0 < nK)%nat ->
  (forall P, In P Ps -> orth_cols (nrows P) Rb (mget P)) -> nonzero_columns K [A; F; C] ->
  pf_init A F C Ps warn = Ok t ->
  exists D, ev_degeneracy (pf_ev t) = Ok D /\ is_mat K K D /\
    forall r s, (r < K)%nat -> (s < K)%nat -> mget D r s = ev_cosine A C (ev_B (pf_ev t)) r s.
Proof. exact pf_degeneracy_ok. Qed.
Print Assumptions C67_parafac2_scores.

(** but not for evolving tensors in general: two equal components get the score 0. *)
Definition dg_A : nd := mk [1; 2]%nat [1; 1].
Definition dg_C : nd := mk [2; 2]%nat [1; 1; 1; -1].
Definition dg_B : list nd := [mk [1; 2]%nat [1; 1]; mk [1; 2]%nat [1; -1]].
Theorem C67_evolving_refuted : exists e D, ev_init dg_A dg_B dg_C true = Ok e /\ ev_degeneracy e = Ok D /\
  (forall i j k, (i < 1)%nat -> (j < 1)%nat -> (k < 2)%nat ->
     ev_component dg_A dg_C dg_B 0 i j k = ev_component dg_A dg_C dg_B 1 i j k) /\
  ev_cosine dg_A dg_C dg_B 0 1 = 1 /\ mget D 0 1 = 0.
Proof.
  eexists. 
  assert (HN : nonzero_columns 2 [dg_A; mk [2; 2]%nat [1; 1; 1; -1]; dg_C]).
  { intros U r HU Hr. exists 0%nat. destruct HU as [<-|[<-|[<-|[]]]], r as [|[|]]; try lia; (split; [cbn; lia|ev; lra]). }
  assert (HM : mats 2 [dg_A; mk [2; 2]%nat [1; 1; 1; -1]; dg_C]) by repeat constructor.
  destruct (degeneracy_ok HM HN) as (D & ED & HD & Hd). exists D.
  split; [reflexivity|]. split; [exact ED|]. split; [|split].
  - intros i j k Hi Hj Hk. destruct i; [|lia]. destruct j; [|lia]. destruct k as [|[|]]; try lia; ev; ring.
  - unfold ev_cosine. replace (ev_inner dg_A dg_C dg_B 0 1) with 2 by (ev; ring).
    replace (ev_inner dg_A dg_C dg_B 0 0) with 2 by (ev; ring). replace (ev_inner dg_A dg_C dg_B 1 1) with 2 by (ev; ring).
    rewrite sqrt_sqrt by lra. field.
  - rewrite Hd by lia. unfold comp_cosine. replace (comp_inner _ 0 1) with 0 by (ev; ring). unfold Rdiv. ring.
Qed.
Print Assumptions C67_evolving_refuted.

(** Components (1, 1) o (1, 2) and (2, 2) o (-1, -2) are multiples of each other: score -1. *)
Definition dg_Us : list nd := [mk [2; 2]%nat [1; 2; 1; 2]; mk [2; 2]%nat [1; -1; 2; -2]].
Example C67_example : mats 2 dg_Us /\ nonzero_columns 2 dg_Us /\ comp_multiple dg_Us 0 1 /\
  (exists k D, kt_init dg_Us (Some (np_ones [2]%nat)) = Ok k /\ kt_degeneracy k = Ok D /\ mget D 0 1 = -1).
Proof.
  assert (HM : mats 2 dg_Us) by repeat constructor.
  assert (HN : nonzero_columns 2 dg_Us).
  { intros U r HU Hr. exists 0%nat. destruct HU as [<-|[<-|[]]], r as [|[|]]; try lia; (split; [cbn; lia|ev; lra]). }
  split; [exact HM|]. split; [exact HN|]. split.
  - exists (-2). intros idx Hi. cbn in Hi. repeat (destruct Hi as [<-|Hi]; [ev; ring|]). destruct Hi.
  - eexists. destruct (degeneracy_ok HM HN) as (D & ED & HD & Hd). exists D. split; [reflexivity|]. split; [exact ED|].
    rewrite Hd by lia. unfold comp_cosine. replace (comp_inner dg_Us 0 1) with (-20) by (ev; ring).
    replace (comp_inner dg_Us 0 0) with 10 by (ev; ring). replace (comp_inner dg_Us 1 1) with (2 * 2 * 10) by (ev; ring).
    rewrite sqrt_mult, sqrt_square by lra. replace (sqrt 10 * (2 * sqrt 10)) with (2 * (sqrt 10 * sqrt 10)) by ring.
    rewrite sqrt_sqrt by lra. field.
Qed.
(** A PARAFAC2 model with two slices of different sizes and non-orthogonal components *)
Example C67_example_parafac2 : exists t,
  pf_init (mk [1; 2]%nat [1; 2]) (mk [1; 2]%nat [3; 1]) (mk [2; 2]%nat [1; 0; 1; 1]) [mk [1; 1]%nat [1]; mk [2; 1]%nat [0; -1]] false = Ok t /\
  (forall P, In P [mk [1; 1]%nat [1]; mk [2; 1]%nat [0; -1]] -> orth_cols (nrows P) 1 (mget P)) /\
  nonzero_columns 2 [mk [1; 2]%nat [1; 2]; mk [1; 2]%nat [3; 1]; mk [2; 2]%nat [1; 0; 1; 1]].
Proof.
  eexists. split; [reflexivity|]. split.
  - intros P [<-|[<-|[]]] a b Ha Hb; destruct a, b; try lia; ev; ring.
  - intros U r HU Hr. destruct HU as [<-|[<-|[<-|[]]]], r as [|[|]]; try lia;
      try (exists 0%nat; split; [cbn; lia|ev; lra]). exists 1%nat. split; [cbn; lia|ev; lra].
Qed.

(** *** C68.  The comparison methods *)
(** KruskalTensor compares factor matrices only: two tensors that differ in their weights get the score of equal ones. *)
Theorem C68_weights_ignored : forall junk K Us w w' k k' pen red,
  mats K Us -> (2 <= length Us)%nat -> is_vec K w -> is_vec K w' ->
  kt_init Us (Some w) = Ok k -> kt_init Us (Some w') = Ok k' ->
  kt_factor_match_score k k' pen red = kt_factor_match_score k k pen red /\
  exists T T', kt_construct junk k = Ok T /\ kt_construct junk k' = Ok T' /\
    forall idx, valid idx (rows Us) -> get T' idx - get T idx = sum K (fun r => (vget w' r - vget w r) * colprod Us idx r).
Proof.
  intros junk K Us w w' k k' pen red HU Hl Hw Hw' E E'.
  assert (Hne : Us <> []) by (destruct Us; cbn in Hl; [lia|discriminate]).
  destruct (kt_construct_ok junk HU Hw Hl) as (T & ET & _ & _ & He).
  destruct (kt_construct_ok junk HU Hw' Hl) as (T' & ET' & _ & _ & He').
  rewrite (kt_init_mats HU Hne Hw) in E. injection E as <-. rewrite (kt_init_mats HU Hne Hw') in E'. injection E' as <-.
  split; [reflexivity|]. exists T, T'. split; [exact ET|]. split; [exact ET'|]. intros idx Hv.
  rewrite He, He' by auto. unfold cp_entry. rewrite <- sum_minus. apply sum_ext. intros. ring.
Qed.
Print Assumptions C68_weights_ignored.

(** Decompositions of different rank: the Kruskal and PARAFAC2 methods refuse them. *)
Theorem C68_different_ranks : forall k k' t t' pen red,
  (kt_rank k <> kt_rank k' -> kt_factor_match_score k k' pen red = Err AssertionError) /\
  (ev_rank (pf_ev t) <> ev_rank (pf_ev t') -> pf_factor_match_score t t' pen red = Err AssertionError).
Proof.
  intros. unfold kt_factor_match_score, pf_factor_match_score. split; intros H.
  - destruct (Nat.eqb_spec (kt_rank k') (kt_rank k)); [congruence|reflexivity].
  - destruct (Nat.eqb_spec (ev_rank (pf_ev t')) (ev_rank (pf_ev t))); [congruence|reflexivity].
Qed.
Print Assumptions C68_different_ranks.

(** KruskalTensor.factor_match_score finds the best assignment of the components of the argument to its own (C25). *)
Theorem C68_kruskal_comparison : forall red pen K Us Vs w v k k', mats K Us -> mats K Vs -> rows Us = rows Vs -> Us <> [] -> (0 < K)%nat ->
  is_vec K w -> is_vec K v -> kt_init Us (Some w) = Ok k -> kt_init Vs (Some v) = Ok k' ->
  (exists p s, kt_factor_match_score k k' pen (reduction_name red) = Ok (Fin s, Some p) /\ best_assignment red pen Us Vs K K p s) \/
  (kt_factor_match_score k k' pen (reduction_name red) = Ok (Fin (-1), None) /\
   forall p, assignment K K p -> ~ comparable pen Us Vs p).
Proof.
  intros red pen K Us Vs w v k k' HU HV Hr Hne HK Hw Hv E E'.
  assert (Hne' : Vs <> []). { intros ->. destruct Us; [congruence|discriminate]. }
  rewrite (kt_init_mats HU Hne Hw) in E. injection E as <-. rewrite (kt_init_mats HV Hne' Hv) in E'. injection E' as <-.
  unfold kt_factor_match_score. cbn [kt_rank kt_fms]. rewrite Nat.eqb_refl. exact (@fms_lemma red pen K K Us Vs HU HV Hr Hne HK).
Qed.
Print Assumptions C68_kruskal_comparison.

(** Two tensors with orthogonal components in the first mode, and one of them with itself *)
Definition cmp_T : kruskal := {| kt_rank := 1; kt_fms := [mk [2; 1]%nat [1; 0]; mk [2; 1]%nat [1; 0]]; kt_w := np_ones [1%nat] |}.
Definition cmp_E : kruskal := {| kt_rank := 1; kt_fms := [mk [2; 1]%nat [0; 1]; mk [2; 1]%nat [1; 0]]; kt_w := np_ones [1%nat] |}.
Example C68_kruskal_example :
  kt_factor_match_score cmp_T cmp_E false "min" = Ok (Fin 0, Some [0%nat]) /\
  kt_factor_match_score cmp_T cmp_T false "min" = Ok (Fin (/ (1 + tiny) ^ 4), Some [0%nat]).
Proof.
  assert (H : forall k, kt_rank k = 1%nat -> mats 1 (kt_fms k) -> rows (kt_fms k) = [2; 2]%nat ->
    kt_factor_match_score cmp_T k false "min" = Ok (Fin (match_score false (kt_fms cmp_T) (kt_fms k) 0 0), Some [0%nat])).
  { intros k E1 E2 E3. unfold kt_factor_match_score. rewrite E1. cbn [kt_rank cmp_T Nat.eqb].
    apply (@fms_one Minimum); [repeat constructor|exact E2|rewrite E3; reflexivity|discriminate]. }
  pose proof tiny_pos as Ht.
  assert (L1 : clen (mk [2; 1]%nat [1; 0]) 0 = 1).
  { unfold clen. cbn. match goal with |- sqrt ?x = 1 => replace x with 1 by ring; apply sqrt_1 end. }
  assert (L2 : clen (mk [2; 1]%nat [0; 1]) 0 = 1).
  { unfold clen. cbn. match goal with |- sqrt ?x = 1 => replace x with 1 by ring; apply sqrt_1 end. }
  assert (S1 : sum 2 (fun i => mget (mk [2; 1]%nat [1; 0]) i 0 * mget (mk [2; 1]%nat [1; 0]) i 0) = 1) by (ev; lra).
  assert (S2 : sum 2 (fun i => mget (mk [2; 1]%nat [1; 0]) i 0 * mget (mk [2; 1]%nat [0; 1]) i 0) = 0) by (ev; lra).
  split.
  - rewrite (H cmp_E) by (reflexivity || (repeat constructor)). do 3 f_equal.
    unfold match_score, weight_agreement. cbn [combine prodf kt_fms cmp_T cmp_E fst snd]. unfold rcos.
    cbn [nrows shape nth]. rewrite L1, L2, S1, S2, Rabs_R0. field. lra.
  - rewrite (H cmp_T) by (reflexivity || (repeat constructor)). do 3 f_equal.
    unfold match_score, weight_agreement. cbn [combine prodf kt_fms cmp_T cmp_E fst snd]. unfold rcos.
    cbn [nrows shape nth]. rewrite L1, S1, Rabs_R1. field. lra.
Qed.

(** The mode-by-mode comparison of KruskalTensor never works, and the one of EvolvingTensor does not accept a KruskalTensor. *)
Theorem C68_separate_modes_raise : forall k k' e red,
  kt_seperate_mode_factor_match_score k k' red = Err AttributeError /\
  ev_separate_mode_factor_match_score e (inl k) red = Err AttributeError.
Proof. intros. split; reflexivity. Qed.
Print Assumptions C68_separate_modes_raise.

Definition cmp_e1 : nd := mk [2; 1]%nat [1; 0].
Definition cmp_e2 : nd := mk [2; 1]%nat [3; 4].
(** EvolvingTensor compares A, the evolving factors stacked on top of each other, and C: together with the best common
    assignment of the components, or each on its own. *)
Theorem C68_evolving_comparison : forall red pen K A Bs C A' Bs' C' e e',
  ev_A e = A -> ev_B e = Bs -> ev_C e = C -> ev_A e' = A' -> ev_B e' = Bs' -> ev_C e' = C' ->
  mats K (A :: C :: Bs) -> mats K (A' :: C' :: Bs') -> Bs <> [] -> Bs' <> [] -> (0 < K)%nat ->
  nrows A = nrows A' -> nrows C = nrows C' -> rows Bs = rows Bs' ->
  exists B B', is_mat (list_sum (rows Bs)) K B /\ data B = flat_map data Bs /\
    is_mat (list_sum (rows Bs)) K B' /\ data B' = flat_map data Bs' /\
    ((exists p s, ev_factor_match_score e e' pen (reduction_name red) = Ok (Fin s, Some p) /\
        best_assignment red pen [A; B; C] [A'; B'; C'] K K p s) \/
     (ev_factor_match_score e e' pen (reduction_name red) = Ok (Fin (-1), None) /\
      forall p, assignment K K p -> ~ comparable pen [A; B; C] [A'; B'; C'] p)) /\
    exists ms ps, ev_separate_mode_factor_match_score e (inr e') (reduction_name red) = Ok (ms, ps) /\
      length ms = 3%nat /\ length ps = 3%nat /\
      forall k, (k < 3)%nat ->
        factor_match_score [nth k [A; B; C] m0] [nth k [A'; B'; C'] m0] false (reduction_name red) = Ok (nth k ms NaN, nth k ps None).
Proof.
  intros red pen K A Bs C A' Bs' C' e e' EA EB EC EA' EB' EC' HM HM' Hne Hne' HK RA RC RB.
  apply mats_cons in HM as [HA HM]. apply mats_cons in HM as [HC HB]. apply mats_cons in HM' as [HA' HM']. apply mats_cons in HM' as [HC' HB'].
  destruct (concat_list_ok HB Hne) as (B & E1 & HM & HD & _). destruct (concat_list_ok HB' Hne') as (B' & E2 & HM' & HD' & _).
  rewrite <- RB in HM'. assert (M1 : mats K [A; B; C]).
  { repeat (apply mats_cons; split); auto; [rewrite (is_mat_nrows HM); exact HM|constructor]. }
  assert (M2 : mats K [A'; B'; C']).
  { repeat (apply mats_cons; split); auto; [rewrite (is_mat_nrows HM'); exact HM'|constructor]. }
  assert (HR : rows [A; B; C] = rows [A'; B'; C']) by (cbn [rows map]; now rewrite RA, RC, (is_mat_nrows HM), (is_mat_nrows HM')).
  exists B, B'. split; [exact HM|]. split; [exact HD|]. split; [exact HM'|]. split; [exact HD'|].
  unfold ev_factor_match_score, ev_separate_mode_factor_match_score. rewrite EA, EB, EC, EA', EB', EC', E1, E2. cbn [bind]. split.
  - exact (@fms_lemma red pen K K [A; B; C] [A'; B'; C'] M1 M2 HR ltac:(discriminate) HK).
  - destruct (@separate_lemma red K K [A; B; C] [A'; B'; C'] M1 M2 HR ltac:(discriminate) HK) as (ms & ps & E & L1 & L2 & H).
    exists ms, ps. rewrite EB', E2. cbn [bind]. rewrite EA', EC'. auto.
Qed.
Print Assumptions C68_evolving_comparison.
Example C68_evolving_example : exists e e', ev_init cmp_e1 [cmp_e1; cmp_e2] cmp_e1 true = Ok e /\ ev_init cmp_e1 [cmp_e1; cmp_e2] cmp_e2 true = Ok e' /\
  mats 1 (ev_A e :: ev_C e :: ev_B e) /\ mats 1 (ev_A e' :: ev_C e' :: ev_B e').
Proof. do 2 eexists. split; [reflexivity|]. split; [reflexivity|]. split; repeat constructor. Qed.

(** For slices of equal size the PARAFAC2 comparison is the one of EvolvingTensor, for others it raises ValueError although
    the inherited method would work. *)
Theorem C68_parafac2_comparison : forall nI nI' Rb Rb' K A F C Ps warn t A' F' C' Ps' warn' t' pen red,
  is_mat nI K A -> is_mat Rb K F -> is_mat nI' K A' -> is_mat Rb' K F' -> (0 < K)%nat ->
  mats Rb Ps -> mats Rb' Ps' -> Ps <> [] -> Ps' <> [] ->
  pf_init A F C Ps warn = Ok t -> pf_init A' F' C' Ps' warn' = Ok t' ->
  (same_rows Ps -> same_rows Ps' ->
     pf_factor_match_score t t' pen red = ev_factor_match_score (pf_ev t) (pf_ev t') pen red) /\
  (~ same_rows Ps -> pf_factor_match_score t t' pen red = Err ValueError).
Proof.
  intros nI nI' Rb Rb' K A F C Ps warn t A' F' C' Ps' warn' t' pen red HA HF HA' HF' HK HP HP' Hne Hne' E E'. split.
  - intros Hs Hs'. apply (@pf_fms_same nI nI' Rb Rb' K (nrows (hd m0 Ps)) (nrows (hd m0 Ps')) A F C Ps warn t A' F' C' Ps' warn' t'); auto.
    + intros P HI. rewrite <- (Hs P HI). apply (mats_in HP HI).
    + intros P HI. rewrite <- (Hs' P HI). apply (mats_in HP' HI).
  - intros Hs. apply (@pf_fms_ragged nI Rb K A F C Ps warn t t' pen red); auto.
    destruct (@pf_init_ok nI' K A' F' C' Ps' warn' Rb' HA' HF' HP' Hne') as (b & Eb & _). rewrite E' in Eb. now injection Eb as ->.
Qed.
Print Assumptions C68_parafac2_comparison.

(** A PARAFAC2 model stays the same when, in some slices, a component's weight and the column of the projection it uses
    change sign.  The score does not know: the same model written in two ways gets the worst possible score. *)
Definition sf_1 : nd := mk [1; 1]%nat [1].
Definition sf_m : nd := mk [1; 1]%nat [-1].
Definition sf_C : nd := mk [2; 1]%nat [1; 1].
Definition sf_C' : nd := mk [2; 1]%nat [1; -1].
Theorem C68_slice_signs_refuted : exists t t', pf_init sf_1 sf_1 sf_C [sf_1; sf_1] true = Ok t /\
  pf_init sf_1 sf_1 sf_C' [sf_1; sf_m] true = Ok t' /\
  (forall P, In P [sf_1; sf_m] -> orth_cols 1 1 (mget P)) /\
  (exists T T', ev_construct (pf_ev t) = Ok T /\ ev_construct (pf_ev t') = Ok T' /\ shape T = shape T' /\
     forall idx, valid idx (shape T) -> get T idx = get T' idx) /\
  pf_factor_match_score t t' false "min" = Ok (Fin 0, Some [0%nat]).
Proof.
  eexists. eexists. split; [reflexivity|]. split; [reflexivity|]. split.
  { intros P [<-|[<-|[]]] a b Ha Hb; destruct a, b; try lia; ev; ring. }
  split.
  - do 2 eexists. split; [reflexivity|]. split; [reflexivity|]. split; [reflexivity|].
    intros idx Hv. apply in_indices in Hv. cbn in Hv. destruct Hv as [<-|[<-|[]]]; ev; ring.
  - match goal with |- ?l = _ => let x := eval cbv -[factor_match_score Rplus Rmult IZR] in l in change l with x end.
    erewrite (@fms_one Minimum); [|repeat constructor|repeat constructor|reflexivity|discriminate].
    do 2 f_equal. unfold match_score, weight_agreement. cbn [combine prodf fst snd]. 
    match goal with |- Fin (1 * (?p * (?q * (?c * 1)))) = _ => replace c with 0; [f_equal; ring|] end.
    unfold rcos. match goal with |- _ = Rabs ?x / _ => replace x with 0 by (ev; ring) end. rewrite Rabs_R0. unfold Rdiv. ring.
Qed.
Print Assumptions C68_slice_signs_refuted.

Example C68_example : exists k k' e t, kt_init dg_Us (Some (np_ones [2]%nat)) = Ok k /\
  kt_init [mk [1; 1]%nat [1]; mk [1; 1]%nat [1]] None = Ok k' /\ kt_rank k <> kt_rank k' /\
  ev_init dg_A dg_B dg_C true = Ok e /\
  pf_init sf_1 sf_1 sf_C [sf_1; mk [2; 1]%nat [0; 1]] true = Ok t /\ ~ same_rows (pf_P t) /\
  (exists s, ev_factor_match_score (pf_ev t) (pf_ev t) false "min" = Ok (Fin s, Some [0%nat])).
Proof.
  do 4 eexists. split; [reflexivity|]. split; [reflexivity|]. split; [cbn; lia|]. split; [reflexivity|]. split; [reflexivity|]. split.
  - intros H. specialize (H (mk [2; 1]%nat [0; 1]) (or_intror (or_introl eq_refl))). discriminate.
  - eexists. match goal with |- ?l = _ => let x := eval cbv -[factor_match_score Rplus Rmult IZR] in l in change l with x end.
    apply (@fms_one Minimum); [repeat constructor|repeat constructor|reflexivity|discriminate].
Qed.

(** *** C69.  Single components of a PARAFAC2 model *)
(** With slices of equal size, each one describes one component, and together they make up the model. *)
Theorem C69_components_add_up : forall nI nK Rb K A F C Ps warn t,
  is_mat nI K A -> is_mat Rb K F -> is_mat nK K C -> mats Rb Ps -> Ps <> [] -> same_rows Ps -> (length Ps <= nK)%nat ->
  pf_init A F C Ps warn = Ok t ->
  (forall z c, names_axis K z c -> exists e, pf_single t z = Ok e /\ length (ev_B e) = length Ps /\
     forall k, (k < length Ps)%nat -> exists s, ev_construct_slice e k = Ok s /\ is_mat nI (nrows (nth k Ps m0)) s /\
       forall i j, (i < nI)%nat -> (j < nrows (nth k Ps m0))%nat ->
         mget s i j = ev_component A C (ev_B (pf_ev t)) c i j k) /\
  (forall k es ss, (k < length Ps)%nat ->
     (forall c, (c < K)%nat -> pf_single t (Z.of_nat c) = Ok (es c) /\ ev_construct_slice (es c) k = Ok (ss c)) ->
     exists s, ev_construct_slice (pf_ev t) k = Ok s /\
       forall i j, (i < nI)%nat -> (j < nrows (nth k Ps m0))%nat -> mget s i j = sum K (fun c => mget (ss c) i j)).
Proof.
  intros nI nK Rb K A F C Ps warn t HA HF HC HP Hne Hs Hl E.
  assert (HJ : forall P, In P Ps -> is_mat (nrows (hd m0 Ps)) Rb P).
  { intros P HI. rewrite <- (Hs P HI). apply (mats_in HP HI). }
  assert (HR : forall k, (k < length Ps)%nat -> nrows (nth k Ps m0) = nrows (hd m0 Ps)).
  { intros k Hk. apply Hs, nth_In, Hk. }
  assert (G := fun z c => @pf_single_ok nI nK Rb K (nrows (hd m0 Ps)) A F C Ps warn t z c HA HF HC Hne HJ Hl E). split.
  - intros z c Hz. apply names_axis_py in Hz. destruct (G z c Hz) as (e & Ee & HlB & H). exists e. split; [exact Ee|].
    split; [exact HlB|]. intros k Hk. rewrite (HR k Hk). exact (H k Hk).
  - intros k es ss Hk HS. rewrite (HR k Hk).
    destruct (@pf_init_ok nI K A F C Ps warn Rb HA HF HP Hne) as (b & Eb & _).
    assert (Et := Eb). rewrite E in Et. injection Et as Et.
    destruct (@construct_slice_ok nI nK K A C (map (projected Rb K F) Ps) k HA HC (mats_projected Rb K F Ps)) as (s & Es & Hm & He);
      [lia|now rewrite map_length|].
    exists s. split; [rewrite Et; exact Es|]. intros i j Hi Hj. rewrite He; auto.
    2:{ rewrite (nth_map_in (projected Rb K F) m0) by auto. change (nrows (projected Rb K F (nth k Ps m0))) with (nrows (nth k Ps m0)).
        now rewrite HR. }
    unfold slice_entry. apply sum_ext. intros c Hc. destruct (HS c Hc) as [E1 E2].
    destruct (G (Z.of_nat c) c (py_index_nat Hc)) as (e & Ee & _ & H). rewrite E1 in Ee. injection Ee as <-.
    destruct (H k Hk) as (s' & Es' & _ & Hent). rewrite E2 in Es'. injection Es' as <-. rewrite Hent by auto. now rewrite Et.
Qed.
Print Assumptions C69_components_add_up.

(** With slices of different sizes it raises ValueError. *)
Theorem C69_ragged_raises : forall nI Rb K A F C Ps warn t z c,
  is_mat nI K A -> is_mat Rb K F -> mats Rb Ps -> Ps <> [] -> ~ same_rows Ps -> pf_init A F C Ps warn = Ok t ->
  names_axis K z c -> pf_single t z = Err ValueError.
Proof. intros nI Rb K A F C Ps warn t z c HA HF HP Hne Hs E Hz. apply names_axis_py in Hz. exact (@pf_single_ragged nI Rb K A F C Ps warn t z c HA HF HP Hne Hs E Hz). Qed.
Print Assumptions C69_ragged_raises.

(** An index outside the rank raises IndexError. *)
Theorem C69_out_of_range : forall nI Rb K A F C Ps warn t z,
  is_mat nI K A -> is_mat Rb K F -> mats Rb Ps -> Ps <> [] -> pf_init A F C Ps warn = Ok t ->
  (z < - Z.of_nat K \/ Z.of_nat K <= z)%Z -> pf_single t z = Err IndexError.
Proof.
  intros nI Rb K A F C Ps warn t z HA HF HP Hne E Hz.
  destruct (@pf_init_ok nI K A F C Ps warn Rb HA HF HP Hne) as (b1 & E1 & _). rewrite E in E1. injection E1 as ->.
  unfold pf_single, take_col. cbn [pf_ev ev_A]. rewrite (proj2 HA).
  destruct (py_index K z) as [c|] eqn:Ep; [|reflexivity]. exfalso. apply names_axis_py in Ep. destruct Ep as [? Ep]. lia.
Qed.
Print Assumptions C69_out_of_range.

Example C69_example : exists t e, pf_init dg_A (mk [1; 2]%nat [3; 1]) dg_C [mk [2; 1]%nat [1; 0]; mk [2; 1]%nat [0; -1]] true = Ok t /\
  same_rows (pf_P t) /\ names_axis 2 (-1) 1 /\ pf_single t (-1) = Ok e /\
  exists s, ev_construct_slice e 1 = Ok s /\ mget s 0 1 = 1.
Proof.
  do 2 eexists. split; [reflexivity|]. split.
  { intros P [<-|[<-|[]]]; reflexivity. }
  split; [unfold names_axis; lia|]. split; [reflexivity|]. eexists. split; [reflexivity|]. ev. ring.
Qed.
