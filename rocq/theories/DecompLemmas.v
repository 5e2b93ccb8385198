(** The lemmas the statements of Props_Decomp.v close with. *)
From Verif Require Export EvolvingFacts.
Set Implicit Arguments.
Unset Strict Implicit.
Local Open Scope R_scope.

Lemma ratio_01 x eps : 0 <= x -> 0 < eps -> 0 <= x / (x + eps) < 1.
Proof.
  intros Hx He. assert (H : 0 < / (x + eps)) by (apply Rinv_0_lt_compat; lra). split.
  - unfold Rdiv. nra.
  - apply (Rmult_lt_reg_r (x + eps)); [lra|]. unfold Rdiv. rewrite Rmult_assoc, Rinv_l by lra. lra.
Qed.

Lemma normalize_error_bound w Us idx K eps : 0 < eps ->
  Rabs (sum K (fun r => w r * colprod Us idx r * prodf Us (fun U => clen U r / (clen U r + eps))) -
        cp_entry Us w K idx) <=
  sum K (fun r => Rabs (w r * colprod Us idx r) * sumf Us (fun U => eps / (clen U r + eps))).
Proof.
  intros He. unfold cp_entry. rewrite <- sum_minus.
  eapply Rle_trans; [apply sum_Rabs|]. apply sum_le. intros r Hr.
  set (c := w r * colprod Us idx r). set (p := prodf Us _).
  replace (c * p - c) with (c * - (1 - p)) by ring. rewrite Rabs_mult, Rabs_Ropp.
  apply Rmult_le_compat_l; [apply Rabs_pos|].
  assert (H01 : forall U, In U Us -> 0 <= clen U r / (clen U r + eps) <= 1).
  { intros U _. destruct (ratio_01 (clen_nonneg U r) He). lra. }
  pose proof (prodf_01 H01) as Hp. fold p in Hp. rewrite Rabs_right by lra.
  eapply Rle_trans; [apply (prodf_gap H01)|]. right. apply sumf_ext. intros U _.
  pose proof (clen_nonneg U r). field. lra.
Qed.

Lemma normalize_factor_lt1 eps Us r : 0 < eps -> Us <> [] ->
  prodf Us (fun U => clen U r / (clen U r + eps)) < 1.
Proof.
  intros He Hne. destruct Us as [|U Us]; [congruence|]. cbn.
  destruct (ratio_01 (clen_nonneg U r) He) as [H1 H2].
  assert (H3 : 0 <= prodf Us (fun U => clen U r / (clen U r + eps)) <= 1).
  { apply prodf_01. intros V _. destruct (ratio_01 (clen_nonneg V r) He). lra. }
  nra.
Qed.

Lemma kt_single_construct junk K Us w : mats K Us -> (2 <= length Us)%nat -> is_vec K w ->
  forall z c, py_index K z = Some c ->
  exists kc Tc, kt_single {| kt_rank := K; kt_fms := Us; kt_w := w |} z = Ok kc /\ kt_construct junk kc = Ok Tc /\
     wf Tc /\ shape Tc = rows Us /\
     forall idx, valid idx (rows Us) -> get Tc idx = vget w c * colprod Us idx c.
Proof.
  intros HU Hl Hw z c Hz.
  assert (Hne : Us <> []) by (destruct Us; cbn in Hl; [lia|discriminate]).
  eexists. set (Vs := map (fun U => tab2 (nrows U) 1 (fun i _ => mget U i c)) Us).
  assert (HV : mats 1 Vs).
  { unfold mats, Vs. rewrite Forall_map. apply Forall_forall. intros U _.
    assert (H : is_mat (nrows U) 1 (tab2 (nrows U) 1 (fun i _ => mget U i c))) by auto.
    now rewrite (is_mat_nrows H). }
  assert (HR : rows Vs = rows Us) by (unfold rows, Vs; rewrite map_map; apply map_ext; reflexivity).
  destruct (@kt_construct_ok junk 1%nat Vs (tab1 1 (fun _ => vget w c)) HV) as (T & ET & HT & HS & He).
  { auto. } { unfold Vs. now rewrite map_length. }
  exists T. split; [exact (kt_single_ok HU Hne Hw Hz)|]. split; [exact ET|]. split; auto. split; [congruence|].
  intros idx Hv. rewrite He by now rewrite HR. unfold cp_entry. cbn [seq sumf].
  rewrite vget_tab1 by lia. unfold Vs. rewrite (colprod_single c HU Hv). ring.
Qed.

Lemma kt_single_out K Us w z : mats K Us -> Us <> [] ->
  (z < - Z.of_nat K \/ Z.of_nat K <= z)%Z ->
  kt_single {| kt_rank := K; kt_fms := Us; kt_w := w |} z = Err IndexError.
Proof.
  intros HU Hne Hz. destruct Us as [|U Us]; [congruence|]. unfold kt_single. cbn [kt_fms mapM].
  apply mats_cons in HU as [[_ Hs] _]. unfold take_col at 1. rewrite Hs.
  now rewrite (@py_index_None K z Hz).
Qed.

(** *** C15 *)
Lemma nth_vdflt_m0 (K : nat) (l : list nd) m : (m < length l)%nat -> nth m l vdflt = nth m l m0.
Proof. intros H. now apply nth_indep. Qed.

Lemma nth_scores (r : nat) (scores : list nd) m : (m < length scores)%nat ->
  nth m (map (fun s => vget s r) scores) 0 = vget (nth m scores m0) r.
Proof. intros H. now rewrite (nth_map_in (fun s => vget s r) m0). Qed.

Lemma scores_nz (r : nat) scores :
  (forall m, (m < length scores)%nat -> vget (nth m scores m0) r <> 0) ->
  forall x, In x (map (fun s => vget s r) scores) -> x <> 0.
Proof.
  intros H x Hx. apply in_map_iff in Hx as (s & <- & Hs). apply (In_nth _ _ m0) in Hs as (m & Hm & <-). auto.
Qed.

Lemma signs_consistent K scores r :
  Forall (is_vec K) scores -> (r < K)%nat ->
  let score := fun m => vget (nth m scores m0) r in
  let signs := kt_signs_of_scores K scores in
  let sign := fun m => vget (nth m signs m0) r in
  let M := length scores in
  (forall m, (m < M)%nat -> score m <> 0) ->
  length signs = M /\
  (forall m, (m < M)%nat -> sign m = 1 \/ sign m = -1) /\
  prodf (seq 0 M) sign = 1 /\
  (exists m', forall m, (m < M)%nat -> sign m <> sgn (score m) ->
     m = m' /\ forall j, (j < M)%nat -> Rabs (score m) <= Rabs (score j)).
Proof.
  intros Hs Hr. cbn zeta. intros Hz. destruct (kt_signs_spec K scores) as (Hl & Hv & He).
  pose proof (scores_nz Hz) as Hnz. set (col := map (fun s => vget s r) scores) in *.
  assert (Hlc : length col = length scores) by (unfold col; now rewrite map_length).
  assert (E : forall m, (m < length scores)%nat ->
     vget (nth m (kt_signs_of_scores K scores) m0) r = corrected col m).
  { intros m Hm. rewrite <- (nth_vdflt_m0 K) by lia. now apply He. }
  split; auto. split; [|split].
  - intros m Hm. rewrite E by auto. apply corrected_pm; auto. lia.
  - rewrite (@prodf_ext _ _ _ (corrected col)). { rewrite <- Hlc. now apply corrected_prod. }
    intros m Hm. apply in_seq in Hm. apply E. lia.
  - exists (argmin (map Rabs col)). intros m Hm Hd. rewrite E in Hd by auto.
    rewrite <- (nth_scores r) in Hd by auto. fold col in Hd.
    destruct (@corrected_differs col m) as [H1 H2]; auto; try lia.
    { apply Hnz, nth_In. lia. }
    split; auto. intros j Hj. rewrite <- !(nth_scores r) by auto. apply H2. lia.
Qed.

Lemma signs_zero K scores r m :
  Forall (is_vec K) scores -> (r < K)%nat -> (m < length scores)%nat ->
  (exists j, (j < length scores)%nat /\ vget (nth j scores m0) r = 0) ->
  vget (nth m (kt_signs_of_scores K scores) m0) r = sgn (vget (nth m scores m0) r).
Proof.
  intros Hs Hr Hm (j & Hj & Hz). destruct (kt_signs_spec K scores) as (Hl & Hv & He).
  rewrite <- (nth_vdflt_m0 K) by lia. rewrite He by auto. rewrite corrected_zero.
  - now rewrite nth_scores.
  - exists 0. split; auto. rewrite <- Hz. apply in_map_iff. exists (nth j scores m0). split; auto. now apply nth_In.
Qed.

Lemma mapM_length {A B} (f : A -> res B) l ys : mapM f l = Ok ys -> length ys = length l.
Proof. intros H. apply mapM_inv in H. induction H; cbn; auto. Qed.

Lemma signs_preserve_tensor junk K Us w k Vs kv lstsq X signs scores :
  mats K Us -> (2 <= length Us)%nat -> is_vec K w -> kt_init Us (Some w) = Ok k ->
  kt_get_sign_scores lstsq k X = Ok scores -> kt_get_signs lstsq k X = Ok signs ->
  Forall (is_vec K) scores ->
  (forall m r, (m < length Us)%nat -> (r < K)%nat -> vget (nth m scores m0) r <> 0) ->
  columns_times K (fun m r => vget (nth m signs m0) r) Us Vs ->
  kt_init Vs (Some w) = Ok kv ->
  exists T, kt_construct junk k = Ok T /\ kt_construct junk kv = Ok T.
Proof.
  intros HU Hl Hw E ES EG Hsc Hz HC EV.
  assert (Hne : Us <> []) by (destruct Us; cbn in Hl; [lia|discriminate]).
  rewrite (kt_init_mats HU Hne Hw) in E. injection E as <-.
  unfold kt_get_signs in EG. rewrite ES in EG. cbn [bind kt_rank] in EG. injection EG as <-.
  assert (HlV : length Vs = length Us).
  { destruct HC as (_ & HR & _). unfold rows in HR. apply (f_equal (@length nat)) in HR. now rewrite !map_length in HR. }
  assert (HV := proj1 HC). assert (HneV : Vs <> []) by (destruct Vs; cbn in HlV; [lia|discriminate]).
  rewrite (kt_init_mats HV HneV Hw) in EV. injection EV as <-.
  destruct (@kt_construct_ok junk K Us w HU Hw Hl) as (T & ET & HT & HS & He).
  destruct (@kt_construct_ok junk K Vs w HV Hw) as (T' & ET' & HT' & HS' & He'). { lia. }
  exists T. split; auto. rewrite ET'. f_equal.
  assert (HR : rows Vs = rows Us) by apply HC.
  apply nd_ext; auto; [congruence|]. rewrite HS'. intros idx Hv. rewrite He' by auto. rewrite HR in Hv. rewrite He by auto.
  assert (Hlen : length scores = length Us).
  { unfold kt_get_sign_scores in ES. apply mapM_length in ES. cbn [kt_fms] in ES.
    rewrite ES, combine_length, seq_length. lia. }
  apply sum_ext. intros r Hr. rewrite (colprod_times HU HC Hv Hr).
  destruct (@signs_consistent K scores r Hsc Hr) as (_ & _ & Hp & _).
  { intros m Hm. apply Hz; auto. lia. }
  rewrite Hlen in Hp. rewrite Hp. ring.
Qed.

(** *** C17 *)
Lemma ev_init_inv nI K A Bs C warn e : is_mat nI K A -> mats K Bs -> ev_init A Bs C warn = Ok e ->
  Bs <> [] /\ ev_A e = A /\ ev_B e = Bs /\ ev_C e = C /\ ev_warning e = warn /\
  length (ev_slice_shapes e) = length Bs /\ (ev_same e = true <-> same_rows Bs).
Proof.
  intros HA HB E. assert (Hne : Bs <> []).
  { intros ->. unfold ev_init in E. rewrite (shape_at_1 HA) in E. discriminate. }
  destruct (@ev_init_ok nI K A Bs C warn HA HB Hne) as (b & E' & Hb). rewrite E in E'. injection E' as ->.
  cbn. rewrite map_length. repeat split; auto; apply Hb.
Qed.

Lemma C17_construct_slice_lemma nI nK K A Bs C warn e k :
  is_mat nI K A -> is_mat nK K C -> mats K Bs -> ev_init A Bs C warn = Ok e ->
  (k < nK)%nat -> (k < length Bs)%nat ->
  exists s, ev_construct_slice e k = Ok s /\ is_mat nI (nrows (nth k Bs m0)) s /\
    forall i j, (i < nI)%nat -> (j < nrows (nth k Bs m0))%nat -> mget s i j = slice_entry K A C Bs i j k.
Proof.
  intros HA HC HB E Hk Hl. destruct (ev_init_inv HA HB E) as (_ & H1 & H2 & H3 & _).
  unfold ev_construct_slice. rewrite H1, H2, H3. eapply construct_slice_ok; eauto.
Qed.

Lemma C17_construct_slices_lemma nI nK K A Bs C warn e :
  is_mat nI K A -> is_mat nK K C -> mats K Bs -> ev_init A Bs C warn = Ok e -> (length Bs <= nK)%nat ->
  exists l, ev_construct_slices e = Ok l /\ length l = length Bs /\
    forall k, (k < length Bs)%nat -> is_mat nI (nrows (nth k Bs m0)) (nth k l m0) /\
      forall i j, (i < nI)%nat -> (j < nrows (nth k Bs m0))%nat -> mget (nth k l m0) i j = slice_entry K A C Bs i j k.
Proof.
  intros HA HC HB E Hl. unfold ev_construct_slices.
  replace (length (ev_slice_shapes e)) with (length Bs).
  2:{ destruct (ev_init_inv HA HB E) as (_ & _ & _ & _ & H). symmetry. tauto. }
  assert (G : forall n a, (a + n = length Bs)%nat ->
    exists l, mapM (ev_construct_slice e) (seq a n) = Ok l /\ length l = n /\
      forall k, (k < n)%nat -> is_mat nI (nrows (nth (a + k) Bs m0)) (nth k l m0) /\
        forall i j, (i < nI)%nat -> (j < nrows (nth (a + k) Bs m0))%nat -> mget (nth k l m0) i j = slice_entry K A C Bs i j (a + k)).
  { induction n as [|n IH]; intros a Ha.
    - exists []. split; [reflexivity|]. split; [reflexivity|]. lia.
    - destruct (@C17_construct_slice_lemma nI nK K A Bs C warn e a HA HC HB E) as (s & Es & Hs & He); [lia|lia|].
      destruct (IH (S a)) as (l & El & Hll & Hle); [lia|]. exists (s :: l). cbn [seq mapM]. rewrite Es. cbn [bind]. rewrite El. cbn [bind].
      split; [reflexivity|]. split; [cbn; lia|]. intros [|k] Hk; cbn [nth].
      + rewrite Nat.add_0_r. split; assumption.
      + replace (a + S k)%nat with (S a + k)%nat by lia. apply Hle. lia. }
  destruct (G (length Bs) 0%nat eq_refl) as (l & A1 & A2 & A3). exists l. auto.
Qed.

Lemma kt_shape_lemma K Us w k : mats K Us -> kt_init Us (Some w) = Ok k -> is_vec K w -> Us <> [] -> kt_shape k = Ok (rows Us).
Proof.
  intros HU E Hw Hne. rewrite (kt_init_mats HU) in E by auto. injection E as <-. unfold kt_shape. cbn [kt_fms].
  clear Hne. induction HU as [|U Us HU HUs IH]; [reflexivity|]. cbn [mapM rows map].
  rewrite (shape_at_0 HU). cbn [bind]. rewrite IH. reflexivity.
Qed.

Lemma C17_construct_tensor_lemma nI nK K A Bs C warn e :
  is_mat nI K A -> is_mat nK K C -> mats K Bs -> ev_init A Bs C warn = Ok e ->
  (length Bs <= nK)%nat -> warn = false \/ same_rows Bs ->
  exists T, ev_construct e = Ok T /\ wf T /\ shape T = [nI; list_max (rows Bs); nK] /\
    forall i j k, (i < nI)%nat -> (j < list_max (rows Bs))%nat -> (k < nK)%nat ->
      get T [i; j; k] = if (Nat.ltb k (length Bs) && Nat.ltb j (nrows (nth k Bs m0)))%bool
                        then slice_entry K A C Bs i j k else 0.
Proof.
  intros HA HC HB E Hl Hw. destruct (ev_init_inv HA HB E) as (Hne & H1 & H2 & H3 & H4 & H5 & H6).
  destruct (@ev_construct_ok nI nK K e) as (T & HT); rewrite ?H1, ?H2, ?H3, ?H4 in *; auto; try congruence.
  - rewrite H6. tauto.
  - exists T. exact HT.
Qed.

Lemma C17_warns_lemma nI nK K A Bs C warn e :
  is_mat nI K A -> is_mat nK K C -> mats K Bs -> ev_init A Bs C warn = Ok e -> (length Bs <= nK)%nat ->
  (ev_construct e = Err WarningExc <-> warn = true /\ ~ same_rows Bs).
Proof.
  intros HA HC HB E Hl. destruct (ev_init_inv HA HB E) as (Hne & H1 & H2 & H3 & H4 & H5 & H6). split.
  - intros HE. destruct warn.
    + split; auto. intros Hs.
      destruct (@C17_construct_tensor_lemma nI nK K A Bs C true e) as (T & ET & _); auto. congruence.
    + destruct (@C17_construct_tensor_lemma nI nK K A Bs C false e) as (T & ET & _); auto. congruence.
  - intros [-> Hs]. apply ev_construct_warns; auto.
    destruct (ev_same e) eqn:Es; auto. exfalso. apply Hs, H6. reflexivity.
Qed.

(** *** C20, C21 *)
Lemma C20_constraint_lemma nI K A F C Ps warn t Rb :
  is_mat nI K A -> is_mat Rb K F -> mats Rb Ps -> pf_init A F C Ps warn = Ok t ->
  (forall P, In P Ps -> orth_cols (nrows P) Rb (mget P)) ->
  forall k a b, (k < length Ps)%nat -> (a < K)%nat -> (b < K)%nat ->
    sum (nrows (nth k (ev_B (pf_ev t)) m0))
        (fun j => mget (nth k (ev_B (pf_ev t)) m0) j a * mget (nth k (ev_B (pf_ev t)) m0) j b) =
    sum Rb (fun s => mget F s a * mget F s b).
Proof.
  intros HA HF HP E HO k a b Hk Ha Hb.
  destruct (@pf_init_ok nI K A F C Ps warn Rb HA HF HP) as (bb & E' & _).
  { intros ->. cbn in Hk. lia. }
  rewrite E in E'. injection E' as ->. cbn [pf_ev ev_B].
  rewrite (nth_map_in (projected Rb K F) m0) by auto.
  change (nrows (projected Rb K F (nth k Ps m0))) with (nrows (nth k Ps m0)).
  apply projected_gram; auto. apply HO. now apply nth_In.
Qed.

Lemma mats3 nI nJ nK K A B C : is_mat nI K A -> is_mat nJ K B -> is_mat nK K C ->
  mats K [A; B; C] /\ rows [A; B; C] = [nI; nJ; nK].
Proof.
  intros HA HB HC. split.
  - repeat (apply mats_cons; split); [..|constructor].
    + now rewrite (is_mat_nrows HA).
    + now rewrite (is_mat_nrows HB).
    + now rewrite (is_mat_nrows HC).
  - cbn. now rewrite (is_mat_nrows HA), (is_mat_nrows HB), (is_mat_nrows HC).
Qed.

Lemma C21_lemma nI nJ nK K A B C w k :
  is_mat nI K A -> is_mat nJ K B -> is_mat nK K C -> (0 < nK)%nat -> is_vec K w ->
  kt_init [A; B; C] (Some w) = Ok k ->
  exists e T, ev_from_kruskal k = Ok e /\ ev_construct e = Ok T /\ wf T /\ shape T = [nI; nJ; nK] /\
    forall idx, valid idx [nI; nJ; nK] -> get T idx = cp_entry [A; B; C] (fun _ => 1) K idx.
Proof.
  intros HA HB HC HK Hw E. destruct (mats3 HA HB HC) as [HM _].
  rewrite (kt_init_mats HM) in E by (auto; discriminate). injection E as <-.
  exact (ev_from_kruskal_entries HA HB HC HK w).
Qed.

Lemma C21_unit_lemma junk nI nJ nK K A B C k :
  is_mat nI K A -> is_mat nJ K B -> is_mat nK K C -> (0 < nK)%nat ->
  kt_init [A; B; C] None = Ok k ->
  exists e T, ev_from_kruskal k = Ok e /\ ev_construct e = Ok T /\ kt_construct junk k = Ok T.
Proof.
  intros HA HB HC HK E. destruct (mats3 HA HB HC) as [HM HR].
  rewrite (kt_init_mats_none HM) in E by discriminate. injection E as <-.
  destruct (ev_from_kruskal_entries HA HB HC HK (np_ones [K])) as (e & T & E1 & E2 & HT & HS & He).
  exists e, T. split; auto. split; auto.
  assert (Hw : is_vec K (np_ones [K])) by (split; [apply wf_tab|reflexivity]).
  destruct (@kt_construct_ok junk K [A; B; C] (np_ones [K]) HM Hw) as (T' & ET & HT' & HS' & He'). { cbn; lia. }
  rewrite ET. f_equal. apply nd_ext; auto; [congruence|]. rewrite HS', HR. intros idx Hv.
  rewrite He' by now rewrite HR. rewrite He by auto. apply sum_ext. intros r Hr. f_equal.
  unfold np_ones, vget. apply get_tab. now apply valid1.
Qed.

(** *** C22 *)
Lemma C22_lemma junk K Us w k p :
  mats K Us -> (2 <= length Us)%nat -> is_vec K w -> kt_init Us (Some w) = Ok k -> is_perm K p ->
  exists Vs w' k' T, permute_factors_and_weights p Us w = Ok (Vs, w') /\ kt_init Vs (Some w') = Ok k' /\
    kt_construct junk k = Ok T /\ kt_construct junk k' = Ok T /\
    (forall m i r, (m < length Us)%nat -> (i < nrows (nth m Us m0))%nat -> (r < K)%nat ->
       mget (nth m Vs m0) i r = mget (nth m Us m0) i (nth r p 0%nat)) /\
    (forall r, (r < K)%nat -> vget w' r = vget w (nth r p 0%nat)).
Proof.
  intros HU Hl Hw E Hp. assert (Hne : Us <> []) by (destruct Us; cbn in Hl; [lia|discriminate]).
  rewrite (kt_init_mats HU Hne Hw) in E. injection E as <-.
  destruct Hp as (Hpl & Hpn & Hpb). assert (Hp : is_perm K p) by (repeat split; auto).
  set (Vs := map (colperm p) Us). set (w' := tab1 K (fun j => vget w (nth j p 0%nat))).
  assert (HV : mats K Vs). { rewrite <- Hpl. apply mats_colperm. }
  assert (HR : rows Vs = rows Us) by apply rows_colperm.
  assert (HneV : Vs <> []). { intros EV. apply map_eq_nil in EV. auto. }
  assert (Hw' : is_vec K w') by (unfold w'; auto).
  destruct (@kt_construct_ok junk K Us w HU Hw Hl) as (T & ET & HT & HS & He).
  destruct (@kt_construct_ok junk K Vs w' HV Hw') as (T' & ET' & HT' & HS' & He').
  { unfold Vs. now rewrite map_length. }
  exists Vs, w', {| kt_rank := K; kt_fms := Vs; kt_w := w' |}, T.
  split.
  { unfold permute_factors_and_weights. change (mapM _ Us) with (permute_factors p Us).
    rewrite (permute_factors_ok HU Hpb). cbn [bind]. rewrite (take_vec_ok Hw Hpb). cbn [bind].
    unfold w'. now rewrite Hpl. }
  split; [now apply kt_init_mats|]. split; auto. split.
  { rewrite ET'. f_equal. apply nd_ext; auto; [congruence|]. rewrite HS', HR. intros idx Hv.
    rewrite He' by now rewrite HR. rewrite He by auto.
    rewrite <- (@cp_entry_perm K Us (vget w) p idx) by auto. apply sum_ext. intros r Hr.
    unfold w'. now rewrite vget_tab1. }
  split.
  - intros m i r Hm Hi Hr. unfold Vs. rewrite (nth_map_in (colperm p) m0) by auto. unfold colperm. rewrite mget_tab2; auto. lia.
  - intros r Hr. unfold w'. now rewrite vget_tab1.
Qed.

Lemma C22_equal_lemma junk K Us w k p c :
  mats K Us -> (2 <= length Us)%nat -> is_vec K w -> kt_init Us (Some w) = Ok k -> is_perm K p ->
  (forall r, (r < K)%nat -> vget w r = c) ->
  exists Vs k' T, permute_factors p Us = Ok Vs /\ kt_init Vs (Some w) = Ok k' /\
    kt_construct junk k = Ok T /\ kt_construct junk k' = Ok T.
Proof.
  intros HU Hl Hw E Hp Hc.
  destruct (C22_lemma junk HU Hl Hw E Hp) as (Vs & w' & k' & T & E1 & E2 & E3 & E4 & _ & H).
  unfold permute_factors_and_weights in E1. change (mapM _ Us) with (permute_factors p Us) in E1.
  destruct Hp as (Hpl & _ & Hpb).
  destruct (permute_factors p Us) as [Vs'|] eqn:EP; cbn [bind] in E1; [|discriminate].
  rewrite (take_vec_ok Hw Hpb) in E1. cbn [bind] in E1. injection E1 as -> E1.
  assert (w' = w).
  { eapply vec_ext; eauto. { rewrite <- E1, Hpl. auto. }
    intros i Hi. rewrite H by auto. rewrite !Hc; auto. apply Hpb, nth_In. lia. }
  subst w'. exists Vs, k', T. rewrite H0 in E2. auto.
Qed.

(** *** C23, C24 *)
Lemma any_mats_nth Us m : any_mats Us -> (m < length Us)%nat ->
  is_mat (nrows (nth m Us m0)) (ncols (nth m Us m0)) (nth m Us m0).
Proof. intros H Hm. unfold any_mats in H. rewrite Forall_forall in H. apply H. now apply nth_In. Qed.

Lemma C23_lemma Us :
  any_mats Us -> Forall (fun U => (0 < nrows U)%nat) Us ->
  exists Vs signs, flip_factors Us = Ok (Vs, signs) /\ length Vs = length Us /\ length signs = length Us /\
    forall m, (m < length Us)%nat ->
      let U := nth m Us m0 in let V := nth m Vs m0 in let s := nth m signs m0 in let n := nrows U in
      is_mat n (ncols U) V /\ is_vec (ncols U) s /\
      forall r, (r < ncols U)%nat ->
        (forall i, (i < n)%nat -> mget V i r = mget U i r * vget s r) /\
        (forall i, (i < n)%nat -> mget U i r = mget V i r * vget s r) /\
        (vget s r = 1 \/ vget s r = -1 \/ (vget s r = 0 /\ forall i, (i < n)%nat -> mget U i r = 0)) /\
        (nneg n (fun i => mget V i r) <= npos n (fun i => mget V i r))%nat /\
        (npos n (fun i => mget V i r) = nneg n (fun i => mget V i r) ->
           forall i, (i < n)%nat -> mget V i r <> 0 -> (forall j, (j < i)%nat -> mget V j r = 0) ->
             0 < mget V i r).
Proof.
  intros HU Hn. eexists. eexists. split; [exact (flip_list_ok HU Hn)|]. rewrite !map_length.
  split; auto. split; auto. intros m Hm. cbn zeta.
  rewrite (nth_map_in flipped m0), (nth_map_in (fun U => tab1 (ncols U) (column_sign U)) m0) by auto.
  pose proof (any_mats_nth HU Hm) as HUm. rewrite Forall_forall in Hn.
  assert (Hnm : (0 < nrows (nth m Us m0))%nat) by (apply Hn, nth_In; auto).
  set (U := nth m Us m0) in *. split; [apply is_mat_flipped|]. split; auto.
  intros r Hr. rewrite vget_tab1 by auto. split; [|split; [|split]].
  - intros i Hi. unfold flipped. now rewrite mget_tab2.
  - intros i Hi. now rewrite flipped_recover.
  - destruct (column_sign_pm r HUm Hnm) as [[? ?]|[_ [?|?]]]; auto.
  - exact (flipped_canonical HUm Hnm Hr).
Qed.

Lemma C23_idem_lemma Us :
  any_mats Us -> Forall (fun U => (0 < nrows U)%nat) Us ->
  exists Vs signs signs', flip_factors Us = Ok (Vs, signs) /\ flip_factors Vs = Ok (Vs, signs').
Proof.
  intros HU Hn. eexists. eexists. eexists. split; [exact (flip_list_ok HU Hn)|].
  assert (HV : any_mats (map flipped Us)).
  { unfold any_mats. rewrite Forall_map. apply Forall_forall. intros U _. exact (is_mat_flipped U). }
  assert (HVn : Forall (fun U => (0 < nrows U)%nat) (map flipped Us)).
  { rewrite Forall_map. exact Hn. }
  unfold flip_factors. rewrite (flip_list_ok HV HVn). do 2 f_equal.
  rewrite map_map. apply map_ext_in. intros U HI.
  unfold any_mats in HU. rewrite Forall_forall in HU, Hn. apply flipped_flipped; auto.
Qed.

Lemma C23_prepare_lemma Us :
  any_mats Us -> Forall (fun U => (0 < nrows U)%nat) Us ->
  exists Ns norms Vs signs, normalize_factors Us = Ok (Ns, norms) /\ flip_factors Ns = Ok (Vs, signs) /\
    prepare_for_comparison Us = Ok (Vs, signs, norms).
Proof.
  intros HU Hn. pose proof (normalize_factors_ok HU) as E. do 4 eexists. split; [exact E|].
  set (Ns := map _ Us) in *.
  assert (HN : any_mats Ns).
  { unfold any_mats, Ns. rewrite Forall_map. apply Forall_forall. intros U _. exact (is_mat_scaled eps15 (nrows U) (ncols U) U). }
  assert (HNn : Forall (fun U => (0 < nrows U)%nat) Ns) by (unfold Ns; rewrite Forall_map; exact Hn).
  split; [exact (flip_list_ok HN HNn)|].
  unfold prepare_for_comparison. rewrite E. cbn [bind]. rewrite (flip_list_ok HN HNn). reflexivity.
Qed.

Lemma C24_lemma eps n m U :
  is_mat n m U -> 0 < eps ->
  exists V norms, normalize_factor eps U = Ok (V, norms) /\ is_mat n m V /\ is_mat 1 m norms /\
    forall r, (r < m)%nat ->
      mget norms 0 r = clen U r /\
      (forall i, (i < n)%nat -> mget V i r * (mget norms 0 r + eps) = mget U i r) /\
      clen V r = clen U r / (clen U r + eps) /\ clen V r < 1 /\
      ((forall i, (i < n)%nat -> mget U i r = 0) -> forall i, (i < n)%nat -> mget V i r = 0).
Proof.
  intros HU He. eexists. eexists. split. { apply (normalize_factor_ok HU). intros. now apply colnorm_eps_pos. }
  split; auto. split; [now apply (is_mat_norm_keep HU)|]. intros r Hr.
  pose proof (colnorm_nonneg U r) as Hc.
  assert (E1 : mget (norm_axis0_keep U) 0 r = clen U r) by (rewrite clen_colnorm; now apply (mget_norm_keep HU)).
  assert (E2 : clen (scaled eps n m U) r = clen U r / (clen U r + eps)).
  { rewrite !clen_colnorm. apply colnorm_scaled; auto; lra. }
  split; auto. split.
  { intros i Hi. rewrite E1, clen_colnorm. unfold scaled. rewrite mget_tab2 by auto. field. lra. }
  split; auto. split.
  { rewrite E2. apply (ratio_01 (clen_nonneg U r) He). }
  intros Hz i Hi. unfold scaled. rewrite mget_tab2 by auto. rewrite Hz by auto. unfold Rdiv. ring.
Qed.

Lemma C24_each_lemma Us :
  any_mats Us ->
  exists Vs norms, normalize_factors Us = Ok (Vs, norms) /\ length Vs = length Us /\ length norms = length Us /\
    forall m, (m < length Us)%nat ->
      normalize_factor (/ 10 ^ 15) (nth m Us m0) = Ok (nth m Vs m0, nth m norms m0).
Proof.
  intros HU. eexists. eexists. split; [exact (normalize_factors_ok HU)|]. rewrite !map_length.
  split; auto. split; auto. intros m Hm.
  rewrite (nth_map_in (fun U => scaled eps15 (nrows U) (ncols U) U) m0), (nth_map_in norm_axis0_keep m0) by auto.
  change (/ 10 ^ 15) with eps15. apply (normalize_factor_ok (any_mats_nth HU Hm)).
  intros. apply colnorm_eps_pos, eps15_pos.
Qed.
