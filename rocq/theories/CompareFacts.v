(** Facts about the comparison methods (Compare.v). *)
From Verif Require Export CompareSpec Compare CPFacts MetricsFacts Parafac2Sweep.
Set Implicit Arguments.
Unset Strict Implicit.
Local Open Scope R_scope.

(** *** Cauchy-Schwarz over a list, with the case of equality *)
Section CS.
Context {I : Type} (l : list I) (f g : I -> R).
Let a := sumf l (fun i => f i * f i).
Let b := sumf l (fun i => f i * g i).
Let c := sumf l (fun i => g i * g i).

Lemma cs_expand t : sumf l (fun i => (g i - t * f i) ^ 2) = c - 2 * t * b + t ^ 2 * a.
Proof.
  unfold a, b, c. rewrite <- !sumf_scal_l, <- sumf_minus, <- sumf_plus. apply sumf_ext. intros. ring.
Qed.
Lemma cs_list : 0 < a -> b ^ 2 <= a * c.
Proof.
  intros Ha. assert (H : 0 <= sumf l (fun i => (g i - b / a * f i) ^ 2)) by (apply sumf_nonneg; intros; apply pow2_ge_0).
  rewrite cs_expand in H. replace (c - 2 * (b / a) * b + (b / a) ^ 2 * a) with (c - b ^ 2 / a) in H by (field; lra).
  assert (b ^ 2 / a * a <= c * a) by (apply Rmult_le_compat_r; lra).
  replace (b ^ 2 / a * a) with (b ^ 2) in H0 by (field; lra). lra.
Qed.
Lemma cs_list_eq : 0 < a -> b ^ 2 = a * c -> forall i, In i l -> g i = b / a * f i.
Proof.
  intros Ha E i Hi. assert (H : sumf l (fun i => (g i - b / a * f i) ^ 2) = 0).
  { rewrite cs_expand. replace (c - 2 * (b / a) * b + (b / a) ^ 2 * a) with (c - b ^ 2 / a) by (field; lra).
    rewrite E. field. lra. }
  pose proof (@sumf_nonneg_zero I l (fun i => (g i - b / a * f i) ^ 2) (fun i _ => pow2_ge_0 _) H i Hi) as Z.
  cbn beta in Z. nra.
Qed.
End CS.

(** *** Congruence and degeneracy *)
Lemma clen_pos K Us U r : nonzero_columns K Us -> In U Us -> (r < K)%nat -> 0 < clen U r.
Proof.
  intros H HU Hr. destruct (H U r HU Hr) as (i & Hi & Hz). unfold clen. apply sqrt_lt_R0.
  apply Rlt_le_trans with (mget U i r ^ 2); [nra|].
  apply (@sum_term_le (nrows U) (fun i => mget U i r ^ 2)); auto. intros. apply pow2_ge_0.
Qed.

Lemma tucker_ok n K U : is_mat n K U -> (forall r, (r < K)%nat -> clen U r <> 0) ->
  exists T, tucker_congruence U U = Ok T /\ is_mat K K T /\
    forall r s, (r < K)%nat -> (s < K)%nat -> mget T r s = gram U r s / (clen U r * clen U s).
Proof.
  intros HU Hz. pose proof (is_vec_norm_axis0 HU) as HN.
  assert (ED : np_div U (norm_axis0 U) = broadcast Rdiv U (norm_axis0 U)).
  { unfold np_div. replace (has_zero (norm_axis0 U)) with false; [reflexivity|].
    symmetry. apply (has_zero_vec HN). intros r Hr. rewrite (vget_norm_axis0 HU) by auto. rewrite <- clen_colnorm. auto. }
  unfold tucker_congruence. rewrite ED, (broadcast_mat_vec Rdiv HU HN). cbn [bind].
  rewrite (matmul_ok (is_mat_transp (is_mat_tab2 n K _)) (is_mat_tab2 n K _)).
  eexists. split; [reflexivity|]. split; [apply is_mat_tab2|]. intros r s Hr Hs. rewrite mget_tab2 by auto.
  unfold gram. rewrite (is_mat_nrows HU). unfold Rdiv. rewrite <- sum_scal_r. apply sum_ext. intros i Hi.
  rewrite (mget_transp (is_mat_tab2 n K _)) by auto. rewrite !mget_tab2 by auto.
  rewrite !(vget_norm_axis0 HU), <- !clen_colnorm by auto. field. split; apply Hz; auto.
Qed.
Lemma tucker_zero n K U r : is_mat n K U -> (r < K)%nat -> clen U r = 0 -> tucker_congruence U U = Err NonFinite.
Proof.
  intros HU Hr Hz. pose proof (is_vec_norm_axis0 HU) as HN. unfold tucker_congruence, np_div.
  replace (has_zero (norm_axis0 U)) with true; [reflexivity|].
  destruct (has_zero (norm_axis0 U)) eqn:E; auto. apply (has_zero_vec HN) with (i := r) in E; auto.
  rewrite (vget_norm_axis0 HU), <- clen_colnorm in E by auto. congruence.
Qed.

Lemma degeneracy_fold K Us : mats K Us -> (forall U r, In U Us -> (r < K)%nat -> clen U r <> 0) -> forall V, is_mat K K V ->
  exists D, foldM (fun D U => do T <- tucker_congruence U U ; broadcast_into Rmult D T) Us V = Ok D /\ is_mat K K D /\
    forall r s, (r < K)%nat -> (s < K)%nat ->
      mget D r s = mget V r s * prodf Us (fun U => gram U r s / (clen U r * clen U s)).
Proof.
  intros HU. induction HU as [|U Us HU0 HU IH]; intros Hz V HV.
  - exists V. split; [reflexivity|]. split; [auto|]. intros. cbn. ring.
  - cbn [foldM]. destruct (tucker_ok HU0) as (T & ET & HT & Hent); [intros; apply Hz; cbn; auto|].
    rewrite ET. cbn [bind]. rewrite (broadcast_into_mat Rmult HV HT). cbn [bind].
    match goal with |- context [foldM _ _ ?W] => destruct (IH ltac:(intros; apply Hz; cbn; auto) W (is_mat_tab2 _ _ _)) as (D & E & HD & Hd) end.
    exists D. rewrite E. split; [reflexivity|]. split; [auto|]. intros r s Hr Hs.
    rewrite Hd by auto. rewrite mget_tab2 by auto. rewrite Hent by auto. cbn [prodf]. ring.
Qed.

Lemma gram_clen U r : gram U r r = clen U r ^ 2.
Proof.
  unfold clen. rewrite pow2_sqrt by (apply sum_nonneg; intros; apply pow2_ge_0). apply sum_ext. intros. ring.
Qed.
Lemma comp_inner_gram Us r s : comp_inner Us r s = gramprod Us r s.
Proof. apply gramprod_indices. Qed.
Lemma comp_inner_self Us r : sqrt (comp_inner Us r r) = prodf Us (fun U => clen U r).
Proof.
  rewrite comp_inner_gram. unfold gramprod. induction Us as [|U Us IH]; cbn [prodf]; [apply sqrt_1|].
  rewrite gram_clen, sqrt_mult; [|apply pow2_ge_0|].
  - rewrite IH, sqrt_pow2; [reflexivity|apply clen_nonneg].
  - apply prodf_nonneg. intros. rewrite gram_clen. apply pow2_ge_0.
Qed.
Lemma comp_inner_pos K Us r : nonzero_columns K Us -> (r < K)%nat -> 0 < comp_inner Us r r.
Proof.
  intros H Hr. rewrite comp_inner_gram. apply prodf_pos. intros U HU. rewrite gram_clen.
  pose proof (clen_pos H HU Hr). nra.
Qed.
Lemma comp_inner_sym Us r s : comp_inner Us r s = comp_inner Us s r.
Proof. apply sumf_ext. intros. ring. Qed.

Lemma cosine_prod K Us r s : nonzero_columns K Us -> (r < K)%nat -> (s < K)%nat ->
  comp_cosine Us r s = prodf Us (fun U => gram U r s / (clen U r * clen U s)).
Proof.
  intros H Hr Hs. unfold comp_cosine. rewrite !comp_inner_self, comp_inner_gram. unfold gramprod.
  induction Us as [|U Us IH]; cbn [prodf]; [field|].
  rewrite <- IH by (intros V q HV; apply H; now right).
  assert (HP : forall q, (q < K)%nat -> prodf Us (fun U => clen U q) <> 0).
  { intros q Hq. apply Rgt_not_eq, prodf_pos. intros V HV. eapply clen_pos; [exact H|now right|auto]. }
  pose proof (HP r Hr). pose proof (HP s Hs). pose proof (clen_pos H (or_introl eq_refl) Hr). pose proof (clen_pos H (or_introl eq_refl) Hs).
  field. repeat split; auto; lra.
Qed.

Lemma degeneracy_ok K Us : mats K Us -> nonzero_columns K Us ->
  exists D, degeneracy K Us = Ok D /\ is_mat K K D /\
    forall r s, (r < K)%nat -> (s < K)%nat -> mget D r s = comp_cosine Us r s.
Proof.
  intros HU HN. destruct (@degeneracy_fold K Us HU) with (V := np_ones [K; K]) as (D & E & HD & Hd).
  - intros U r HI Hr. pose proof (clen_pos HN HI Hr). lra.
  - apply is_mat_ones.
  - exists D. split; [exact E|]. split; [auto|]. intros r s Hr Hs. rewrite Hd, mget_ones, (cosine_prod HN) by auto. ring.
Qed.
Lemma degeneracy_zero K Us U r : mats K Us -> In U Us -> (r < K)%nat -> (forall i, (i < nrows U)%nat -> mget U i r = 0) ->
  degeneracy K Us = Err NonFinite.
Proof.
  intros HU HI Hr Hz. unfold degeneracy.
  assert (G : forall V, is_mat K K V -> foldM (fun D U => do T <- tucker_congruence U U ; broadcast_into Rmult D T) Us V = Err NonFinite).
  { clear - HU HI Hr Hz. induction HU as [|W Us HW HU IH]; [destruct HI|]. intros V HV. cbn [foldM].
    pose proof (is_vec_norm_axis0 HW) as HN.
    destruct (has_zero (norm_axis0 W)) eqn:EZ.
    - unfold tucker_congruence, np_div. now rewrite EZ.
    - assert (N : forall q, (q < K)%nat -> clen W q <> 0).
      { intros q Hq. rewrite clen_colnorm, <- (vget_norm_axis0 HW) by auto. now apply (has_zero_vec HN). }
      destruct (tucker_ok HW N) as (T & ET & HT & _).
      rewrite ET. cbn [bind]. rewrite (broadcast_into_mat Rmult HV HT). cbn [bind]. destruct HI as [->|HI].
      + exfalso. apply (N r Hr). unfold clen. rewrite sum_zero, sqrt_0; auto.
        intros i Hi. cbn beta. rewrite Hz by auto. ring.
      + apply IH; auto. }
  apply G, is_mat_ones.
Qed.

Lemma cosine_diag K Us r : nonzero_columns K Us -> (r < K)%nat -> comp_cosine Us r r = 1.
Proof.
  intros H Hr. unfold comp_cosine. rewrite sqrt_sqrt by (pose proof (comp_inner_pos H Hr); lra).
  field. pose proof (comp_inner_pos H Hr). lra.
Qed.
Lemma cosine_sym Us r s : comp_cosine Us r s = comp_cosine Us s r.
Proof. unfold comp_cosine. rewrite (comp_inner_sym Us r s). f_equal. apply Rmult_comm. Qed.
Lemma cosine_sq K Us r s : nonzero_columns K Us -> (r < K)%nat -> (s < K)%nat ->
  comp_cosine Us r s ^ 2 * (comp_inner Us r r * comp_inner Us s s) = comp_inner Us r s ^ 2.
Proof.
  intros H Hr Hs. pose proof (comp_inner_pos H Hr). pose proof (comp_inner_pos H Hs). unfold comp_cosine.
  set (x := comp_inner Us r r) in *. set (y := comp_inner Us s s) in *.
  pose proof (sqrt_lt_R0 _ H0). pose proof (sqrt_lt_R0 _ H1).
  rewrite <- (sqrt_sqrt x) at 2 by lra. rewrite <- (sqrt_sqrt y) at 2 by lra. field. split; lra.
Qed.
Lemma cosine_bound K Us r s : nonzero_columns K Us -> (r < K)%nat -> (s < K)%nat -> Rabs (comp_cosine Us r s) <= 1.
Proof.
  intros H Hr Hs. pose proof (cosine_sq H Hr Hs) as E. pose proof (comp_inner_pos H Hr). pose proof (comp_inner_pos H Hs).
  assert (CS : comp_inner Us r s ^ 2 <= comp_inner Us r r * comp_inner Us s s) by (apply cs_list; auto).
  rewrite <- E in CS. apply Rsqr_incr_0_var; [|lra]. rewrite <- Rsqr_abs. unfold Rsqr.
  assert (0 < comp_inner Us r r * comp_inner Us s s) by nra.
  assert (comp_cosine Us r s ^ 2 <= 1) by (apply Rmult_le_reg_r with (comp_inner Us r r * comp_inner Us s s); lra). lra.
Qed.
Lemma cosine_one K Us r s : nonzero_columns K Us -> (r < K)%nat -> (s < K)%nat ->
  (Rabs (comp_cosine Us r s) = 1 <-> comp_multiple Us r s).
Proof.
  intros H Hr Hs. pose proof (cosine_sq H Hr Hs) as E. pose proof (comp_inner_pos H Hr) as P1. pose proof (comp_inner_pos H Hs) as P2.
  split.
  - intros A. assert (A2 : comp_cosine Us r s ^ 2 = 1).
    { replace (comp_cosine Us r s ^ 2) with (Rabs (comp_cosine Us r s) ^ 2) by apply pow2_abs. rewrite A. ring. }
    rewrite A2, Rmult_1_l in E. exists (comp_inner Us r s / comp_inner Us r r). intros idx Hi.
    apply (@cs_list_eq _ (indices (rows Us)) (fun i => colprod Us i r) (fun i => colprod Us i s)); auto.
  - intros (c & Hc). 
    assert (E1 : comp_inner Us r s = c * comp_inner Us r r).
    { unfold comp_inner. rewrite <- sumf_scal_l. apply sumf_ext. intros i Hi. rewrite (Hc i Hi). ring. }
    assert (E2 : comp_inner Us s s = c ^ 2 * comp_inner Us r r).
    { unfold comp_inner. rewrite <- sumf_scal_l. apply sumf_ext. intros i Hi. rewrite (Hc i Hi). ring. }
    rewrite E1 in E.
    assert (A2 : comp_cosine Us r s ^ 2 = 1).
    { apply Rmult_eq_reg_r with (comp_inner Us r r * comp_inner Us s s); [|nra]. rewrite E, E2. ring. }
    destruct (Rcase_abs (comp_cosine Us r s)).
    + rewrite Rabs_left by auto. nra.
    + rewrite Rabs_right by auto. nra.
Qed.

(** *** Stacked and concatenated slices *)
Lemma concat_gram K Bs : mats K Bs -> forall n B, is_mat n K B -> exists M, foldM concat0 Bs B = Ok M /\
  is_mat (n + list_sum (rows Bs)) K M /\ data M = (data B ++ flat_map data Bs)%list /\
  forall r s, (r < K)%nat -> (s < K)%nat -> gram M r s = gram B r s + sumf Bs (fun B => gram B r s).
Proof.
  intros HB. induction HB as [|B1 Bs H1 HB IH]; intros n B H0.
  - exists B. cbn. rewrite Nat.add_0_r, app_nil_r. repeat split; auto; try apply H0. intros. ring.
  - cbn [foldM]. assert (E0 : concat0 B B1 = Ok (mk [n + nrows B1; K]%nat (data B ++ data B1))).
    { unfold concat0. rewrite (proj2 H0), (proj2 H1), Nat.eqb_refl. reflexivity. }
    destruct (concat0_ok H0 H1) as (M1 & E1 & HM1 & G1 & G2). rewrite E1 in E0. injection E0 as EM. rewrite E1. cbn [bind].
    destruct (IH _ _ HM1) as (M & E & HM & HD & HG). exists M. split; [exact E|].
    replace (n + list_sum (rows (B1 :: Bs)))%nat with (n + nrows B1 + list_sum (rows Bs))%nat by (unfold rows; cbn [map list_sum fold_right]; unfold list_sum; lia).
    split; [exact HM|]. split.
    + rewrite HD, EM. cbn [data flat_map]. now rewrite app_assoc.
    + intros r s Hr Hs. rewrite HG by auto. cbn [sumf]. rewrite <- Rplus_assoc. f_equal.
      unfold gram. rewrite (is_mat_nrows HM1), (is_mat_nrows H0), sum_split. f_equal.
      * apply sum_ext. intros i Hi. now rewrite !G1.
      * apply sum_ext. intros i Hi. now rewrite !G2.
Qed.

Lemma concat_list_ok K Bs : mats K Bs -> Bs <> [] -> exists M, concat0_list Bs = Ok M /\
  is_mat (list_sum (rows Bs)) K M /\ data M = flat_map data Bs /\
  forall r s, (r < K)%nat -> (s < K)%nat -> gram M r s = sumf Bs (fun B => gram B r s).
Proof.
  intros HB Hne. destruct Bs as [|B Bs]; [congruence|]. apply mats_cons in HB as [H0 HB].
  destruct (concat_gram HB H0) as (M & E & HM & HD & HG). exists M. split; [exact E|]. split; [exact HM|]. split; [exact HD|].
  exact HG.
Qed.

Lemma list_nth_seq {A} (d : A) l : map (fun i => nth i l d) (seq 0 (length l)) = l.
Proof.
  induction l as [|a l IH]; cbn; auto. f_equal. rewrite <- seq_shift, map_map. exact IH.
Qed.
Lemma sumf_nth (Bs : list nd) (f : nd -> R) : sumf Bs f = sum (length Bs) (fun k => f (nth k Bs m0)).
Proof.
  rewrite <- (list_nth_seq m0 Bs) at 1. now rewrite sumf_map.
Qed.

Lemma stack_data J K Bs : Bs <> [] -> (forall B, In B Bs -> is_mat J K B) ->
  stack Bs = Ok (mk [length Bs; J; K] (flat_map data Bs)).
Proof.
  intros Hne HB. assert (H0 : (0 < length Bs)%nat) by (destruct Bs; [congruence|cbn; lia]).
  unfold stack. rewrite (@list_get_ok _ Bs 0%nat m0 H0). cbn [bind].
  assert (HB0 : is_mat J K (nth 0 Bs m0)) by (apply HB, nth_In; auto).
  unfold shape2. rewrite (proj2 HB0). cbn [bind].
  rewrite (proj2 (forallb_forall _ _)).
  2:{ intros X Hin. rewrite (proj2 (HB X Hin)). now destruct (list_eq_dec Nat.eq_dec [J; K] [J; K]). }
  unfold tab. do 2 f_equal.
  change (indices [length Bs; J; K]) with (flat_map (fun i => map (cons i) (indices [J; K])) (seq 0 (length Bs))).
  transitivity (flat_map (fun k => data (nth k Bs m0)) (seq 0 (length Bs))).
  - rewrite !flat_map_concat_map, concat_map, map_map. f_equal. apply map_ext_in. intros k Hk. apply in_seq in Hk.
    assert (HBk : is_mat J K (nth k Bs m0)) by (apply HB, nth_In; lia).
    rewrite (data_get (proj1 HBk)), (proj2 HBk), map_map. apply map_ext_in. intros idx Hi. apply in_indices in Hi.
    apply valid_cons_inv in Hi as (i & l1 & -> & Hi & Hv). apply valid_cons_inv in Hv as (j & l2 & -> & Hj & Hv).
    inversion Hv; subst. cbn [nth]. rewrite (nth_indep Bs (mk [] []) m0) by lia. reflexivity.
  - rewrite !flat_map_concat_map. f_equal. rewrite <- (list_nth_seq m0 Bs) at 2. now rewrite map_map.
Qed.
Lemma stack_ragged K Bs : mats K Bs -> ~ same_rows Bs -> stack Bs = Err ValueError.
Proof.
  intros HB Hs. destruct Bs as [|B Bs]; [exfalso; apply Hs; intros X []|].
  unfold stack. rewrite (@list_get_ok _ (B :: Bs) 0%nat m0) by (cbn; lia). cbn [nth bind].
  pose proof (mats_in HB (or_introl eq_refl)) as H0. unfold shape2. rewrite (proj2 H0). cbn [bind].
  match goal with |- (if ?b then _ else _) = _ => destruct b eqn:E; auto end.
  exfalso. apply Hs. intros X HX. cbn [hd]. rewrite forallb_forall in E. specialize (E X HX).
  rewrite (proj2 (mats_in HB HX)) in E. destruct (list_eq_dec _ _ _) as [e|]; [|discriminate]. now injection e.
Qed.
Lemma reshape_same J K Bs : (0 < K)%nat -> Bs <> [] -> (forall B, In B Bs -> is_mat J K B) ->
  reshape_cols K Bs = concat0_list Bs.
Proof.
  intros HK Hne HB. unfold reshape_cols. rewrite (stack_data Hne HB). cbn [bind shape data].
  assert (HM : mats K Bs).
  { apply Forall_forall. intros B HI. rewrite (is_mat_nrows (HB B HI)). auto. }
  destruct (concat_list_ok HM Hne) as (M & E & HMM & HD & _). rewrite E.
  assert (HS : list_sum (rows Bs) = (length Bs * J)%nat).
  { clear - HB. induction Bs as [|B Bs IH]; [reflexivity|]. unfold rows in *. cbn [map length].
    change (list_sum (nrows B :: map nrows Bs)) with (nrows B + list_sum (map nrows Bs))%nat.
    rewrite IH by (intros; apply HB; now right). rewrite (is_mat_nrows (HB B (or_introl eq_refl))). lia. }
  replace (prodl [length Bs; J; K]) with (length Bs * J * K)%nat by (cbn; lia).
  rewrite Nat.mod_mul, Nat.div_mul by lia. cbn [Nat.eqb negb].
  replace (K =? 0)%nat with false by (symmetry; apply Nat.eqb_neq; lia). cbn [orb]. f_equal.
  rewrite <- HD, <- HS. destruct M as [sh dt]. destruct HMM as [_ Hs]. cbn in *. now rewrite Hs.
Qed.

Lemma classic_zero U r : (forall i, (i < nrows U)%nat -> mget U i r = 0) \/ (exists i, (i < nrows U)%nat /\ mget U i r <> 0).
Proof.
  generalize (nrows U). intros n. induction n as [|n [IH|(i & Hi & E)]].
  - left. intros; lia.
  - destruct (Req_EM_T (mget U n r) 0) as [E|E].
    + left. intros i Hi. destruct (Nat.eq_dec i n) as [->|]; auto. apply IH. lia.
    + right. exists n. split; auto.
  - right. exists i. split; auto.
Qed.

(** *** Degeneracy of evolving tensors whose slices have the same cross products *)
Lemma ev_inner_gram A C Bs r s :
  ev_inner A C Bs r s = gram A r s * sum (length Bs) (fun k => mget C k r * mget C k s * gram (nth k Bs m0) r s).
Proof.
  unfold ev_inner, ev_component. rewrite <- sum_scal_l. apply sum_ext. intros k _. unfold gram.
  rewrite <- sum_scal_r. apply sum_ext. intros i _.
  rewrite <- !sum_scal_l. apply sum_ext. intros j _. ring.
Qed.
Lemma ev_degeneracy_const nI nK K e G : is_mat nI K (ev_A e) -> is_mat nK K (ev_C e) -> mats K (ev_B e) ->
  ev_rank e = K -> length (ev_B e) = nK -> (0 < nK)%nat ->
  (forall B r s, In B (ev_B e) -> (r < K)%nat -> (s < K)%nat -> gram B r s = G r s) ->
  nonzero_columns K [ev_A e; ev_C e] -> nonzero_columns K (ev_B e) ->
  exists D, ev_degeneracy e = Ok D /\ is_mat K K D /\
    forall r s, (r < K)%nat -> (s < K)%nat -> mget D r s = ev_cosine (ev_A e) (ev_C e) (ev_B e) r s.
Proof.
  intros HA HC HB HK Hl HnK HG HN1 HN2. unfold ev_degeneracy.
  assert (Hne : ev_B e <> []) by (intros E; rewrite E in Hl; cbn in Hl; lia).
  destruct (concat_list_ok HB Hne) as (M & E & HM & _ & HGM). rewrite E. cbn [bind]. rewrite HK.
  assert (HGM' : forall r s, (r < K)%nat -> (s < K)%nat -> gram M r s = INR nK * G r s).
  { intros r s Hr Hs. rewrite HGM by auto. rewrite (@sumf_ext _ _ _ (fun _ => G r s)) by (intros; auto).
    rewrite sumf_nth, sum_const, Hl. ring. }
  assert (Hpos : 0 < INR nK) by (apply lt_0_INR; lia).
  assert (HMM : mats K [ev_A e; M; ev_C e]).
  { repeat constructor; unfold rows; rewrite ?(is_mat_nrows HA), ?(is_mat_nrows HC), ?(is_mat_nrows HM); auto; try apply HA; try apply HM; try apply HC. }
  destruct (degeneracy_ok HMM) as (D & ED & HD & Hd).
  { intros U r HU Hr. destruct HU as [<-|[<-|[<-|[]]]]; [apply HN1; cbn; auto| |apply HN1; cbn; auto].
    destruct (ev_B e) as [|B Bs] eqn:EB; [congruence|].
    assert (HGp : 0 < G r r).
    { rewrite <- (HG B) by (auto; now left). rewrite gram_clen. pose proof (clen_pos HN2 (or_introl eq_refl) Hr). nra. }
    assert (Hg : gram M r r <> 0) by (rewrite HGM' by auto; nra).
    destruct (classic_zero M r) as [Z|Z]; [|exact Z]. exfalso. apply Hg. unfold gram. apply sum_zero. intros i Hi. rewrite Z by auto. ring. }
  exists D. split; [exact ED|]. split; [exact HD|]. intros r s Hr Hs. rewrite Hd by auto.
  assert (EI : forall r s, (r < K)%nat -> (s < K)%nat ->
    comp_inner [ev_A e; M; ev_C e] r s = INR nK * ev_inner (ev_A e) (ev_C e) (ev_B e) r s).
  { intros r' s' Hr' Hs'. rewrite comp_inner_gram, ev_inner_gram. unfold gramprod. cbn [prodf]. rewrite HGM' by auto.
    rewrite (@sum_ext _ _ (fun k => mget (ev_C e) k r' * mget (ev_C e) k s' * G r' s')).
    - rewrite sum_scal_r. replace (gram (ev_C e) r' s') with (sum (length (ev_B e)) (fun i => mget (ev_C e) i r' * mget (ev_C e) i s')).
      + ring.
      + unfold gram. now rewrite (is_mat_nrows HC), Hl.
    - intros k Hk. rewrite HG; auto. apply nth_In. auto. }
  unfold comp_cosine, ev_cosine. rewrite !EI by auto.
  assert (HI : forall q, (q < K)%nat -> 0 <= ev_inner (ev_A e) (ev_C e) (ev_B e) q q).
  { intros q Hq. unfold ev_inner. do 3 (apply sum_nonneg; intros). nra. }
  rewrite !sqrt_mult by (auto; lra).
  rewrite <- (sqrt_sqrt (INR nK)) at 1 by lra. pose proof (sqrt_lt_R0 _ Hpos). unfold Rdiv.
  set (a := sqrt (INR nK)) in *. set (x := sqrt (ev_inner _ _ _ r r)). set (y := sqrt (ev_inner _ _ _ s s)). rewrite !Rinv_mult. set (xi := / x). set (yi := / y).
  transitivity (a * / a * (a * / a) * ev_inner (ev_A e) (ev_C e) (ev_B e) r s * xi * yi); [ring|].
  rewrite Rinv_r by lra. ring.
Qed.

(** *** PARAFAC2 *)
Lemma projected_nonzero Rb K F Ps : is_mat Rb K F -> (forall P, In P Ps -> orth_cols (nrows P) Rb (mget P)) ->
  nonzero_columns K [F] -> nonzero_columns K (map (projected Rb K F) Ps).
Proof.
  intros HF HO HN U r HU Hr. apply in_map_iff in HU as (P & <- & HP).
  destruct (classic_zero (projected Rb K F P) r) as [Z|Z]; [|exact Z]. exfalso.
  pose proof (@projected_gram Rb K F P r r (HO P HP) Hr Hr) as E.
  rewrite sum_zero in E.
  2:{ intros i Hi. rewrite Z by auto. ring. }
  pose proof (clen_pos HN (or_introl eq_refl) Hr). pose proof (gram_clen F r) as G. unfold gram in G. rewrite (is_mat_nrows HF) in G.
  rewrite <- E in G. nra.
Qed.
Lemma pf_degeneracy_ok nI nK Rb K A F C Ps warn t : is_mat nI K A -> is_mat Rb K F -> is_mat nK K C -> mats Rb Ps ->
  length Ps = nK -> (0 < nK)%nat -> (forall P, In P Ps -> orth_cols (nrows P) Rb (mget P)) ->
  nonzero_columns K [A; F; C] -> pf_init A F C Ps warn = Ok t ->
  exists D, ev_degeneracy (pf_ev t) = Ok D /\ is_mat K K D /\
    forall r s, (r < K)%nat -> (s < K)%nat -> mget D r s = ev_cosine A C (ev_B (pf_ev t)) r s.
Proof.
  intros HA HF HC HP Hl HnK HO HN E.
  destruct (@pf_init_ok nI K A F C Ps warn Rb HA HF HP) as (bb & E' & _).
  { intros ->. cbn in Hl. lia. }
  rewrite E in E'. injection E' as ->. cbn [pf_ev].
  match goal with |- context [ev_degeneracy ?x] =>
    destruct (@ev_degeneracy_const nI nK K x (fun r s => sum Rb (fun a => mget F a r * mget F a s))) as (D & HD) end;
    cbn [ev_A ev_B ev_C ev_rank]; auto.
  - apply mats_projected.
  - now rewrite map_length.
  - intros B r s HB Hr Hs. apply in_map_iff in HB as (P & <- & HPi). exact (projected_gram F (HO P HPi) Hr Hs).
  - intros U r [<-|[<-|[]]]; apply HN; cbn; auto.
  - apply (projected_nonzero HF HO). intros U r [<-|[]]; apply HN; cbn; auto.
  - exists D. exact HD.
Qed.

Lemma pf_fms_same nI nI' Rb Rb' K J J' A F C Ps warn t A' F' C' Ps' warn' t' pen red :
  is_mat nI K A -> is_mat Rb K F -> is_mat nI' K A' -> is_mat Rb' K F' -> (0 < K)%nat -> Ps <> [] -> Ps' <> [] ->
  (forall P, In P Ps -> is_mat J Rb P) -> (forall P, In P Ps' -> is_mat J' Rb' P) ->
  pf_init A F C Ps warn = Ok t -> pf_init A' F' C' Ps' warn' = Ok t' ->
  pf_factor_match_score t t' pen red = ev_factor_match_score (pf_ev t) (pf_ev t') pen red.
Proof.
  intros HA HF HA' HF' HK Hne Hne' HP HP' E E'.
  assert (HM : forall (J Rb : nat) Ps, (forall P, In P Ps -> is_mat J Rb P) -> mats Rb Ps).
  { intros j rb ps H. apply Forall_forall. intros P HI. rewrite (is_mat_nrows (H P HI)). auto. }
  destruct (@pf_init_ok nI K A F C Ps warn Rb HA HF (HM _ _ _ HP) Hne) as (b1 & E1 & _). rewrite E in E1. injection E1 as ->.
  destruct (@pf_init_ok nI' K A' F' C' Ps' warn' Rb' HA' HF' (HM _ _ _ HP') Hne') as (b2 & E2 & _). rewrite E' in E2. injection E2 as ->.
  unfold pf_factor_match_score, ev_factor_match_score. cbn [pf_ev ev_rank ev_A ev_B ev_C]. rewrite Nat.eqb_refl.
  rewrite (@reshape_same J K), (@reshape_same J' K); auto.
  - intros H. apply map_eq_nil in H. auto.
  - intros B HB. apply in_map_iff in HB as (P & <- & HI). rewrite <- (is_mat_nrows (HP' P HI)). apply is_mat_tab2.
  - intros H. apply map_eq_nil in H. auto.
  - intros B HB. apply in_map_iff in HB as (P & <- & HI). rewrite <- (is_mat_nrows (HP P HI)). apply is_mat_tab2.
Qed.
Lemma same_rows_projected Rb K F Ps : same_rows (map (projected Rb K F) Ps) -> same_rows Ps.
Proof.
  intros H P HP. specialize (H (projected Rb K F P) (in_map _ _ _ HP)). destruct Ps as [|P0 Ps]; [destruct HP|]. exact H.
Qed.
Lemma pf_fms_ragged nI Rb K A F C Ps warn t t' pen red :
  is_mat nI K A -> is_mat Rb K F -> mats Rb Ps -> Ps <> [] -> ~ same_rows Ps -> ev_rank (pf_ev t') = K ->
  pf_init A F C Ps warn = Ok t -> pf_factor_match_score t t' pen red = Err ValueError.
Proof.
  intros HA HF HP Hne Hs Hr E. destruct (@pf_init_ok nI K A F C Ps warn Rb HA HF HP Hne) as (b1 & E1 & _).
  rewrite E in E1. injection E1 as ->. unfold pf_factor_match_score. cbn [pf_ev ev_rank ev_A ev_B ev_C]. rewrite Hr, Nat.eqb_refl.
  unfold reshape_cols. rewrite (@stack_ragged K); [reflexivity|apply mats_projected|].
  intros H. apply Hs, (same_rows_projected H).
Qed.

Lemma pf_single_ok nI nK Rb K J A F C Ps warn t z c : is_mat nI K A -> is_mat Rb K F -> is_mat nK K C ->
  Ps <> [] -> (forall P, In P Ps -> is_mat J Rb P) -> (length Ps <= nK)%nat -> pf_init A F C Ps warn = Ok t -> py_index K z = Some c ->
  exists e, pf_single t z = Ok e /\ length (ev_B e) = length Ps /\ forall k, (k < length Ps)%nat ->
    exists s, ev_construct_slice e k = Ok s /\ is_mat nI J s /\
      forall i j, (i < nI)%nat -> (j < J)%nat -> mget s i j = ev_component A C (ev_B (pf_ev t)) c i j k.
Proof.
  intros HA HF HC Hne HP Hl E Hz.
  assert (HM : mats Rb Ps) by (apply Forall_forall; intros P HI; rewrite (is_mat_nrows (HP P HI)); auto).
  assert (Hc : (c < K)%nat) by (eapply py_index_lt; eauto).
  destruct (@pf_init_ok nI K A F C Ps warn Rb HA HF HM Hne) as (b1 & E1 & _). rewrite E in E1. injection E1 as ->.
  unfold pf_single. cbn [pf_ev pf_P pf_blueprint ev_A ev_B ev_C]. rewrite (take_col_ok HA Hz). cbn [bind].
  rewrite (stack_data Hne HP). cbn [bind].
  rewrite (@mapM_ok _ _ _ (fun P => tab2 J 1 (fun i _ => mget (projected Rb K F P) i c))).
  2:{ intros P HI. rewrite (matmul_ok (HP P HI) HF). cbn [bind]. rewrite (take_col_ok (is_mat_tab2 J K _) Hz).
      f_equal. unfold projected. now rewrite (is_mat_nrows (HP P HI)). }
  cbn [bind]. rewrite (take_col_ok HC Hz). cbn [bind].
  set (Bs := map _ Ps).
  assert (HB : mats 1 Bs).
  { unfold mats, Bs. rewrite Forall_map. apply Forall_forall. intros P _. apply is_mat_tab2. }
  assert (HBne : Bs <> []) by (unfold Bs; intros H; apply map_eq_nil in H; auto).
  destruct (@ev_init_ok nI 1 (tab2 nI 1 (fun i _ => mget A i c)) Bs (tab2 nK 1 (fun i _ => mget C i c)) true (is_mat_tab2 _ _ _) HB HBne)
    as (b & Ei & _). rewrite Ei. eexists. split; [reflexivity|]. cbn [ev_B]. split; [unfold Bs; apply map_length|].
  intros k Hk. 
  assert (HlB : length Bs = length Ps) by (unfold Bs; apply map_length).
  destruct (@C17_construct_slice_lemma nI nK 1 _ Bs _ true _ k (is_mat_tab2 _ _ _) (is_mat_tab2 _ _ _) HB Ei) as (s & Es & Hs & He); try lia.
  exists s. split; [exact Es|].
  assert (EB : nth k Bs m0 = tab2 J 1 (fun i _ => mget (projected Rb K F (nth k Ps m0)) i c)).
  { unfold Bs. now rewrite (nth_map_in (fun P => tab2 J 1 (fun i _ => mget (projected Rb K F P) i c)) m0) by auto. }
  rewrite EB in Hs, He. change (nrows (tab2 J 1 _)) with J in Hs, He. split; [exact Hs|].
  intros i j Hi Hj. rewrite He by auto. unfold slice_entry, ev_component. cbn [seq sumf].
  rewrite EB, !mget_tab2 by (auto; lia). rewrite (nth_map_in (projected Rb K F) m0) by auto. ring.
Qed.
Lemma pf_single_ragged nI Rb K A F C Ps warn t z c : is_mat nI K A -> is_mat Rb K F -> mats Rb Ps -> Ps <> [] ->
  ~ same_rows Ps -> pf_init A F C Ps warn = Ok t -> py_index K z = Some c -> pf_single t z = Err ValueError.
Proof.
  intros HA HF HP Hne Hs E Hz. destruct (@pf_init_ok nI K A F C Ps warn Rb HA HF HP Hne) as (b1 & E1 & _).
  rewrite E in E1. injection E1 as ->. unfold pf_single. cbn [pf_ev pf_P pf_blueprint ev_A ev_B ev_C].
  rewrite (take_col_ok HA Hz). cbn [bind]. now rewrite (stack_ragged HP Hs).
Qed.
