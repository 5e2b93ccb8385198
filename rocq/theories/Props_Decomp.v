(** Properties C11-C15, C17, C20-C24: decomposition containers and factor utilities. *)
From Verif Require Import DecompLemmas.
Local Open Scope R_scope.

(** *** C11 *)
Theorem C11_construct_entries : forall junk K Us w k,
  mats K Us -> (2 <= length Us)%nat -> is_vec K w -> kt_init Us (Some w) = Ok k ->
  exists T, kt_construct junk k = Ok T /\ wf T /\ shape T = rows Us /\
    forall idx, valid idx (rows Us) -> get T idx = cp_entry Us (vget w) K idx.
Proof.
  intros junk K Us w k HU Hl Hw E. rewrite (kt_init_mats HU) in E; auto.
  - injection E as <-. now apply kt_construct_ok.
  - destruct Us; cbn in Hl; [lia|discriminate].
Qed.
Print Assumptions C11_construct_entries.

(** The attribute shape is the shape of the constructed tensor. *)
Theorem C11_shape : forall junk K Us w k,
  mats K Us -> (2 <= length Us)%nat -> is_vec K w -> kt_init Us (Some w) = Ok k ->
  exists T, kt_construct junk k = Ok T /\ kt_shape k = Ok (shape T) /\ shape T = rows Us.
Proof.
  intros junk K Us w k HU Hl Hw E. destruct (C11_construct_entries junk K Us w k HU Hl Hw E) as (T & ET & _ & HT & _).
  exists T. rewrite HT. split; [exact ET|]. split; [|reflexivity]. apply (kt_shape_lemma HU E Hw).
  destruct Us; cbn in Hl; [lia|discriminate].
Qed.
Print Assumptions C11_shape.

Theorem C11_one_mode_raises : forall junk K U w k,
  mats K [U] -> is_vec K w -> kt_init [U] (Some w) = Ok k -> kt_construct junk k = Err IndexError.
Proof.
  intros junk K U w k HU Hw E. rewrite (kt_init_mats HU) in E; auto; [|discriminate].
  injection E as <-. apply kt_construct_one; auto. now apply mats_cons in HU.
Qed.
Print Assumptions C11_one_mode_raises.

Definition eU1 : nd := mk [2; 2]%nat [1; 2; 3; 4].
Definition eU2 : nd := mk [3; 2]%nat [1; 0; 5; 7; 2; 2].
Definition eU3 : nd := mk [2; 2]%nat [1; 1; 0; 3].
Definition ew : nd := mk [2]%nat [10; -1].
Definition ek : kruskal := {| kt_rank := 2; kt_fms := [eU1; eU2; eU3]; kt_w := ew |}.
Lemma e_mats : mats 2 [eU1; eU2; eU3]. Proof. repeat constructor. Qed.
Lemma e_w : is_vec 2 ew. Proof. split; reflexivity. Qed.
Example C11_example :
  mats 2 [eU1; eU2; eU3] /\ is_vec 2 ew /\
  (exists k T, kt_init [eU1; eU2; eU3] (Some ew) = Ok k /\ kt_construct (fun _ _ => 9) k = Ok T /\
     get T [1; 1; 0]%nat = 10 * (3 * (5 * 1)) + -1 * (4 * (7 * 1))).
Proof.
  split; [exact e_mats|]. split; [exact e_w|].
  exists ek. destruct (@C11_construct_entries (fun _ _ => 9) 2%nat [eU1; eU2; eU3] ew ek e_mats) as (T & E & _ & _ & H);
    [cbn; lia|exact e_w|reflexivity|].
  exists T. split; [reflexivity|]. split; [exact E|]. rewrite H by (repeat constructor).
  cbn. lra.
Qed.

(** *** C12 *)
Theorem C12_init_accepts_exactly : forall Us w k,
  kt_init Us w = Ok k <->
  exists K, Us <> [] /\ Forall (has_cols K) Us /\ kt_rank k = K /\ kt_fms k = Us /\
    match w with
    | None => kt_w k = np_ones [K]
    | Some w => kt_w k = w /\ nth_error (shape w) 0 = Some K
    end.
Proof.
  intros Us w k. rewrite kt_init_ok_iff. split; intros (K & H); exists K; intuition.
Qed.
Print Assumptions C12_init_accepts_exactly.

Theorem C12_init_rejects : forall Us w,
  any_mats Us -> (forall w0, w = Some w0 -> exists n, is_vec n w0) ->
  (Us = [] -> kt_init Us w = Err IndexError) /\
  (Us <> [] -> (exists k, kt_init Us w = Ok k) \/ kt_init Us w = Err ValueError).
Proof. exact kt_init_err. Qed.
Print Assumptions C12_init_rejects.

Example C12_example :
  (exists k, kt_init [eU1; eU2] None = Ok k /\ kt_w k = np_ones [2%nat]) /\
  kt_init [eU1; mk [1; 3]%nat [1; 2; 3]] None = Err ValueError /\
  kt_init [eU1; eU2] (Some (mk [3]%nat [1; 1; 1])) = Err ValueError.
Proof. split; [eexists; split; reflexivity|]. split; reflexivity. Qed.

(** *** C13 *)
Theorem C13_normalize_components : forall junk upd eps K Us w k,
  mats K Us -> (2 <= length Us)%nat -> is_vec K w -> kt_init Us (Some w) = Ok k -> 0 <= eps ->
  (forall U r, In U Us -> (r < K)%nat -> clen U r + eps <> 0) ->
  exists k' T', kt_normalize upd eps k = Ok k' /\
    kt_rank k' = K /\ mats K (kt_fms k') /\ rows (kt_fms k') = rows Us /\ is_vec K (kt_w k') /\
    (forall m r, (m < length Us)%nat -> (r < K)%nat ->
       clen (nth m (kt_fms k') m0) r = clen (nth m Us m0) r / (clen (nth m Us m0) r + eps)) /\
    (forall m i r, (m < length Us)%nat -> (i < nrows (nth m Us m0))%nat -> (r < K)%nat ->
       mget (nth m (kt_fms k') m0) i r = mget (nth m Us m0) i r / (clen (nth m Us m0) r + eps)) /\
    (forall r, (r < K)%nat ->
       vget (kt_w k') r = if upd then vget w r * prodf Us (fun U => clen U r) else vget w r) /\
    kt_construct junk k' = Ok T' /\ wf T' /\ shape T' = rows Us /\
    (upd = true -> forall idx, valid idx (rows Us) ->
       get T' idx = sum K (fun r => vget w r * colprod Us idx r *
                                    prodf Us (fun U => clen U r / (clen U r + eps)))).
Proof.
  intros junk upd eps K Us w k HU Hl Hw E He Hz. rewrite (kt_init_mats HU) in E; auto.
  - injection E as <-. now apply kt_normalize_spec.
  - destruct Us; cbn in Hl; [lia|discriminate].
Qed.
Print Assumptions C13_normalize_components.

Theorem C13_exact_for_eps_zero : forall junk K Us w k,
  mats K Us -> (2 <= length Us)%nat -> is_vec K w -> kt_init Us (Some w) = Ok k ->
  (forall U r, In U Us -> (r < K)%nat -> clen U r <> 0) ->
  exists k' T, kt_normalize true 0 k = Ok k' /\ kt_construct junk k = Ok T /\ kt_construct junk k' = Ok T /\
    forall m r, (m < length Us)%nat -> (r < K)%nat -> clen (nth m (kt_fms k') m0) r = 1.
Proof.
  intros junk K Us w k HU Hl Hw E Hz.
  destruct (@C11_construct_entries junk K Us w k HU Hl Hw E) as (T & ET & HT & HS & He).
  destruct (@C13_normalize_components junk true 0 K Us w k HU Hl Hw E (Rle_refl 0)) as
    (k' & T' & E1 & _ & _ & _ & _ & Hc & _ & _ & ET' & HT' & HS' & He').
  { intros. rewrite Rplus_0_r. auto. }
  exists k', T. split; auto. split; auto. split.
  - rewrite ET'. f_equal. apply nd_ext; auto; [congruence|]. rewrite HS'. intros idx Hv.
    rewrite He', He by auto. apply sum_ext. intros r Hr.
    rewrite (@prodf_ext nd Us _ (fun _ => 1)).
    2:{ intros U HI. rewrite Rplus_0_r. field. auto. }
    replace (prodf Us (fun _ => 1)) with 1 by (clear; induction Us; cbn; lra). ring.
  - intros m r Hm Hr. rewrite Hc by auto. rewrite Rplus_0_r. field. apply Hz; auto. now apply nth_In.
Qed.
Print Assumptions C13_exact_for_eps_zero.

Theorem C13_error_bound : forall junk eps K Us w k,
  mats K Us -> (2 <= length Us)%nat -> is_vec K w -> kt_init Us (Some w) = Ok k -> 0 < eps ->
  exists k' T T', kt_normalize true eps k = Ok k' /\ kt_construct junk k = Ok T /\ kt_construct junk k' = Ok T' /\
    forall idx, valid idx (rows Us) ->
      Rabs (get T' idx - get T idx) <=
      sum K (fun r => Rabs (vget w r * colprod Us idx r) * sumf Us (fun U => eps / (clen U r + eps))).
Proof.
  intros junk eps K Us w k HU Hl Hw E Hz.
  destruct (@C11_construct_entries junk K Us w k HU Hl Hw E) as (T & ET & HT & HS & He).
  destruct (@C13_normalize_components junk true eps K Us w k HU Hl Hw E) as
    (k' & T' & E1 & _ & _ & _ & _ & _ & _ & _ & ET' & _ & _ & He').
  { lra. } { intros U r _ _. pose proof (clen_nonneg U r). lra. }
  exists k', T, T'. repeat (split; [solve [auto]|]). intros idx Hv. rewrite He', He by auto.
  exact (normalize_error_bound (vget w) Us idx K Hz).
Qed.
Print Assumptions C13_error_bound.

Theorem C13_rank_one_changes : forall junk eps Us w k idx,
  mats 1 Us -> (2 <= length Us)%nat -> is_vec 1 w -> kt_init Us (Some w) = Ok k -> 0 < eps ->
  valid idx (rows Us) -> vget w 0 * colprod Us idx 0 <> 0 ->
  exists k' T T', kt_normalize true eps k = Ok k' /\ kt_construct junk k = Ok T /\ kt_construct junk k' = Ok T' /\
    get T' idx <> get T idx.
Proof.
  intros junk eps Us w k idx HU Hl Hw E Hz Hv Hne.
  destruct (@C11_construct_entries junk 1 Us w k HU Hl Hw E) as (T & ET & HT & HS & He).
  destruct (@C13_normalize_components junk true eps 1 Us w k HU Hl Hw E) as
    (k' & T' & E1 & _ & _ & _ & _ & _ & _ & _ & ET' & _ & _ & He').
  { lra. } { intros U r _ _. pose proof (clen_nonneg U r). lra. }
  exists k', T, T'. repeat (split; [solve [auto]|]). rewrite He', He by auto. cbn.
  pose proof (@normalize_factor_lt1 eps Us 0%nat Hz) as Hlt.
  assert (Hn : Us <> []) by (destruct Us; cbn in Hl; [lia|discriminate]). specialize (Hlt Hn).
  set (p := prodf Us (fun U => clen U 0 / (clen U 0 + eps))) in *.
  intros Heq. apply Hne. set (c := vget w 0 * colprod Us idx 0) in *. nra.
Qed.
Print Assumptions C13_rank_one_changes.

Theorem C13_zero_column_without_eps_is_nan : forall upd K Us w k U r,
  mats K Us -> is_vec K w -> kt_init Us (Some w) = Ok k ->
  In U Us -> (r < K)%nat -> (forall i, (i < nrows U)%nat -> mget U i r = 0) ->
  kt_normalize upd 0 k = Err NonFinite.
Proof.
  intros upd K Us w k U r HU Hw E HI Hr Hc. rewrite (kt_init_mats HU) in E; auto.
  - injection E as <-. apply (@kt_normalize_zero_col upd K Us w U r); auto.
    now apply (clen_zero_iff r (mats_in HU HI)).
  - destruct Us; [contradiction|discriminate].
Qed.
Print Assumptions C13_zero_column_without_eps_is_nan.

Example C13_example :
  mats 1 [mk [2; 1]%nat [3; 4]; mk [1; 1]%nat [2]] /\ is_vec 1 (mk [1]%nat [7]) /\
  clen (mk [2; 1]%nat [3; 4]) 0 = 5 /\
  vget (mk [1]%nat [7]) 0 * colprod [mk [2; 1]%nat [3; 4]; mk [1; 1]%nat [2]] [1; 0]%nat 0 <> 0.
Proof.
  split; [repeat constructor|]. split; [split; reflexivity|]. split.
  - unfold clen. replace (sum _ _) with (5 * 5) by (cbn; lra). rewrite sqrt_square; lra.
  - cbn. lra.
Qed.

(** *** C14 *)
Theorem C14_single_components : forall junk K Us w k,
  mats K Us -> (2 <= length Us)%nat -> is_vec K w -> kt_init Us (Some w) = Ok k ->
  (forall z c, names_axis K z c -> exists kc Tc, kt_single k z = Ok kc /\ kt_construct junk kc = Ok Tc /\
     wf Tc /\ shape Tc = rows Us /\
     forall idx, valid idx (rows Us) -> get Tc idx = vget w c * colprod Us idx c) /\
  (exists T, kt_construct junk k = Ok T /\
     forall Ts, (forall c, (c < K)%nat -> exists kc, kt_single k (Z.of_nat c) = Ok kc /\
                                                   kt_construct junk kc = Ok (nth c Ts T)) ->
       forall idx, valid idx (rows Us) -> get T idx = sum K (fun c => get (nth c Ts T) idx)).
Proof.
  intros junk K Us w k HU Hl Hw E.
  assert (Hne : Us <> []) by (destruct Us; cbn in Hl; [lia|discriminate]).
  destruct (@C11_construct_entries junk K Us w k HU Hl Hw E) as (T & ET & HT & HS & He).
  rewrite (kt_init_mats HU Hne Hw) in E. injection E as <-.
  assert (Hs := kt_single_construct junk HU Hl Hw). split.
  - intros z c Hz. apply names_axis_py in Hz. exact (Hs z c Hz).
  - exists T. split; auto. intros Ts HTs idx Hv. rewrite He by auto. apply sum_ext. intros c Hc.
    destruct (HTs c Hc) as (kc & E1 & E2).
    destruct (Hs (Z.of_nat c) c) as (kc' & Tc & E3 & E4 & _ & _ & Hent). { now apply py_index_nat. }
    rewrite E1 in E3. injection E3 as <-. rewrite E2 in E4. injection E4 as <-. now rewrite Hent.
Qed.
Print Assumptions C14_single_components.

Theorem C14_component_out_of_range : forall K Us w k z,
  mats K Us -> Us <> [] -> is_vec K w -> kt_init Us (Some w) = Ok k ->
  (z < - Z.of_nat K \/ Z.of_nat K <= z)%Z -> kt_single k z = Err IndexError.
Proof.
  intros K Us w k z HU Hne Hw E Hz. rewrite (kt_init_mats HU Hne Hw) in E. injection E as <-.
  now apply kt_single_out.
Qed.
Print Assumptions C14_component_out_of_range.

Example C14_example :
  (exists k k1 T1, kt_init [eU1; eU2; eU3] (Some ew) = Ok k /\ kt_single k (-1) = Ok k1 /\
    kt_construct (fun _ _ => 0) k1 = Ok T1 /\ get T1 [1; 1; 1]%nat = -1 * (4 * (7 * (3 * 1)))).
Proof.
  exists ek. destruct (@C14_single_components (fun _ _ => 0) 2%nat [eU1; eU2; eU3] ew ek e_mats) as (H & _);
    [cbn; lia|exact e_w|reflexivity|].
  destruct (H (-1)%Z 1%nat) as (kc & Tc & E1 & E2 & _ & _ & Hent); [split; [lia|right; reflexivity]|].
  exists kc, Tc. split; [reflexivity|]. split; [exact E1|]. split; [exact E2|].
  rewrite Hent by (repeat constructor). cbn. lra.
Qed.

(** *** C15 *)
(** [score m r] is the score of component r in mode m. *)
Theorem C15_signs_consistent : forall K scores r,
  Forall (is_vec K) scores -> (r < K)%nat ->
  let score := fun m => vget (nth m scores m0) r in
  let signs := kt_signs_of_scores K scores in
  let sign := fun m => vget (nth m signs m0) r in
  let M := length scores in
  (forall m, (m < M)%nat -> score m <> 0) ->
  length signs = M /\
  (forall m, (m < M)%nat -> sign m = 1 \/ sign m = -1) /\
  prodf (seq 0 M) sign = 1 /\
  (exists m', forall m, (m < M)%nat -> sign m <> sgn (score m) ->
     m = m' /\ forall j, (j < M)%nat -> Rabs (score m) <= Rabs (score j)).
Proof. exact signs_consistent. Qed.
Print Assumptions C15_signs_consistent.

Theorem C15_zero_score_gives_zero : forall K scores r m,
  Forall (is_vec K) scores -> (r < K)%nat -> (m < length scores)%nat ->
  (exists j, (j < length scores)%nat /\ vget (nth j scores m0) r = 0) ->
  vget (nth m (kt_signs_of_scores K scores) m0) r = sgn (vget (nth m scores m0) r).
Proof. exact signs_zero. Qed.
Print Assumptions C15_zero_score_gives_zero.

Theorem C15_signs_preserve_tensor : forall junk K Us w k Vs kv lstsq X signs scores,
  mats K Us -> (2 <= length Us)%nat -> is_vec K w -> kt_init Us (Some w) = Ok k ->
  kt_get_sign_scores lstsq k X = Ok scores -> kt_get_signs lstsq k X = Ok signs ->
  Forall (is_vec K) scores ->
  (forall m r, (m < length Us)%nat -> (r < K)%nat -> vget (nth m scores m0) r <> 0) ->
  columns_times K (fun m r => vget (nth m signs m0) r) Us Vs ->
  kt_init Vs (Some w) = Ok kv ->
  exists T, kt_construct junk k = Ok T /\ kt_construct junk kv = Ok T.
Proof. exact signs_preserve_tensor. Qed.
Print Assumptions C15_signs_preserve_tensor.

Example C15_example :
  let scores := [mk [1]%nat [5]; mk [1]%nat [-2]; mk [1]%nat [3]] in
  Forall (is_vec 1) scores /\
  map (fun v => vget v 0) (kt_signs_of_scores 1 scores) = [1; 1; 1].
Proof.
  cbn zeta. split; [repeat constructor|].
  unfold kt_signs_of_scores, kt_signs_step. cbn.
  rewrite (@sgn_pos 5), (@sgn_neg (-2)), (@sgn_pos 3) by lra.
  destruct (Req_EM_T _ _) as [_|n]; [|exfalso; apply n; lra].
  unfold argmin. cbn.
  rewrite (Rabs_right 5), (Rabs_left (-2)), (Rabs_right 3) by lra.
  destruct (Rlt_dec (- -2) 5); [|lra]. destruct (Rlt_dec 3 (- -2)); [lra|].
  cbn. repeat f_equal; lra.
Qed.

(** *** C17 *)
Theorem C17_construct_slice : forall nI nK K A Bs C warn e k,
  is_mat nI K A -> is_mat nK K C -> mats K Bs -> ev_init A Bs C warn = Ok e ->
  (k < nK)%nat -> (k < length Bs)%nat ->
  exists s, ev_construct_slice e k = Ok s /\ is_mat nI (nrows (nth k Bs m0)) s /\
    forall i j, (i < nI)%nat -> (j < nrows (nth k Bs m0))%nat -> mget s i j = slice_entry K A C Bs i j k.
Proof. exact C17_construct_slice_lemma. Qed.
Print Assumptions C17_construct_slice.

Theorem C17_construct_slices : forall nI nK K A Bs C warn e,
  is_mat nI K A -> is_mat nK K C -> mats K Bs -> ev_init A Bs C warn = Ok e -> (length Bs <= nK)%nat ->
  exists l, ev_construct_slices e = Ok l /\ length l = length Bs /\
    forall k, (k < length Bs)%nat -> is_mat nI (nrows (nth k Bs m0)) (nth k l m0) /\
      forall i j, (i < nI)%nat -> (j < nrows (nth k Bs m0))%nat -> mget (nth k l m0) i j = slice_entry K A C Bs i j k.
Proof. exact C17_construct_slices_lemma. Qed.
Print Assumptions C17_construct_slices.

Theorem C17_construct_tensor : forall nI nK K A Bs C warn e,
  is_mat nI K A -> is_mat nK K C -> mats K Bs -> ev_init A Bs C warn = Ok e ->
  (length Bs <= nK)%nat -> warn = false \/ same_rows Bs ->
  exists T, ev_construct e = Ok T /\ wf T /\ shape T = [nI; list_max (rows Bs); nK] /\
    forall i j k, (i < nI)%nat -> (j < list_max (rows Bs))%nat -> (k < nK)%nat ->
      get T [i; j; k] = if (Nat.ltb k (length Bs) && Nat.ltb j (nrows (nth k Bs m0)))%bool
                        then slice_entry K A C Bs i j k else 0.
Proof. exact C17_construct_tensor_lemma. Qed.
Print Assumptions C17_construct_tensor.

Theorem C17_warns_exactly_when_irregular : forall nI nK K A Bs C warn e,
  is_mat nI K A -> is_mat nK K C -> mats K Bs -> ev_init A Bs C warn = Ok e -> (length Bs <= nK)%nat ->
  (ev_construct e = Err WarningExc <-> warn = true /\ ~ same_rows Bs).
Proof. exact C17_warns_lemma. Qed.
Print Assumptions C17_warns_exactly_when_irregular.

Definition eB : list nd := [mk [1; 2]%nat [1; 2]; mk [2; 2]%nat [3; 4; 5; 6]].
Example C17_example :
  (exists e T, ev_init eU1 eB eU3 false = Ok e /\ ev_construct e = Ok T /\
     get T [1; 1; 1]%nat = 3 * 0 * 5 + 4 * 3 * 6 /\ get T [1; 1; 0]%nat = 0) /\
  (exists e, ev_init eU1 eB eU3 true = Ok e /\ ev_construct e = Err WarningExc).
Proof.
  assert (HB : mats 2 eB) by repeat constructor.
  assert (H1 : is_mat 2 2 eU1) by (split; reflexivity). assert (H3 : is_mat 2 2 eU3) by (split; reflexivity).
  split.
  - destruct (ev_init eU1 eB eU3 false) as [e|] eqn:Ee; [|discriminate]. exists e.
    destruct (@C17_construct_tensor 2%nat 2%nat 2%nat eU1 eB eU3 false e H1 H3 HB) as (T & E & _ & _ & H);
      [exact Ee|cbn; lia|left; reflexivity|].
    exists T. split; [reflexivity|]. split; [exact E|]. split; rewrite H by (cbn; lia); cbn; [lra|reflexivity].
  - eexists. split; reflexivity.
Qed.

(** *** C20 *)
Theorem C20_parafac2_constraint : forall nI K A F C Ps warn t Rb,
  is_mat nI K A -> is_mat Rb K F -> mats Rb Ps -> pf_init A F C Ps warn = Ok t ->
  (forall P, In P Ps -> orth_cols (nrows P) Rb (mget P)) ->
  forall k a b, (k < length Ps)%nat -> (a < K)%nat -> (b < K)%nat ->
    sum (nrows (nth k (ev_B (pf_ev t)) m0))
        (fun j => mget (nth k (ev_B (pf_ev t)) m0) j a * mget (nth k (ev_B (pf_ev t)) m0) j b) =
    sum Rb (fun s => mget F s a * mget F s b).
Proof. exact C20_constraint_lemma. Qed.
Print Assumptions C20_parafac2_constraint.

(** Nothing checks orthonormality: construction succeeds and the constraint fails. *)
Theorem C20_unchecked_refuted :
  exists A F C P1 P2 t, is_mat 1 1 A /\ is_mat 1 1 F /\ is_mat 2 1 C /\ mats 1 [P1; P2] /\
    pf_init A F C [P1; P2] true = Ok t /\
    sum (nrows (nth 0 (ev_B (pf_ev t)) m0)) (fun j => mget (nth 0 (ev_B (pf_ev t)) m0) j 0 ^ 2) <>
    sum (nrows (nth 1 (ev_B (pf_ev t)) m0)) (fun j => mget (nth 1 (ev_B (pf_ev t)) m0) j 0 ^ 2).
Proof.
  exists (mk [1; 1]%nat [1]), (mk [1; 1]%nat [1]), (mk [2; 1]%nat [1; 1]), (mk [1; 1]%nat [1]), (mk [1; 1]%nat [2]).
  eexists. repeat (split; [first [repeat constructor | reflexivity]|]). cbn. lra.
Qed.
Print Assumptions C20_unchecked_refuted.

Example C20_example :
  (forall P, In P [mk [2; 1]%nat [1; 0]; mk [3; 1]%nat [0; 0; -1]] -> orth_cols (nrows P) 1 (mget P)) /\
  exists t, pf_init (mk [1; 1]%nat [1]) (mk [1; 1]%nat [3]) (mk [2; 1]%nat [1; 1])
                    [mk [2; 1]%nat [1; 0]; mk [3; 1]%nat [0; 0; -1]] true = Ok t.
Proof.
  split; [|eexists; reflexivity].
  intros P [<-|[<-|[]]] a b Ha Hb; replace a with 0%nat by lia; replace b with 0%nat by lia; cbn; lra.
Qed.

(** *** C21 *)
Theorem C21_from_kruskal_ignores_weights : forall nI nJ nK K A B C w k,
  is_mat nI K A -> is_mat nJ K B -> is_mat nK K C -> (0 < nK)%nat -> is_vec K w ->
  kt_init [A; B; C] (Some w) = Ok k ->
  exists e T, ev_from_kruskal k = Ok e /\ ev_construct e = Ok T /\ wf T /\ shape T = [nI; nJ; nK] /\
    forall idx, valid idx [nI; nJ; nK] -> get T idx = cp_entry [A; B; C] (fun _ => 1) K idx.
Proof. exact C21_lemma. Qed.
Print Assumptions C21_from_kruskal_ignores_weights.

Theorem C21_unit_weights_agree : forall junk nI nJ nK K A B C k,
  is_mat nI K A -> is_mat nJ K B -> is_mat nK K C -> (0 < nK)%nat ->
  kt_init [A; B; C] None = Ok k ->
  exists e T, ev_from_kruskal k = Ok e /\ ev_construct e = Ok T /\ kt_construct junk k = Ok T.
Proof. exact C21_unit_lemma. Qed.
Print Assumptions C21_unit_weights_agree.

Theorem C21_other_weights_refuted :
  exists A B C w k e T T' (junk : nat -> nat -> R), kt_init [A; B; C] (Some w) = Ok k /\
    ev_from_kruskal k = Ok e /\ ev_construct e = Ok T /\ kt_construct junk k = Ok T' /\ T <> T'.
Proof.
  exists (mk [1; 1]%nat [1]), (mk [1; 1]%nat [1]), (mk [1; 1]%nat [1]), (mk [1]%nat [2]).
  do 4 eexists. exists (fun _ _ => 0). repeat (split; [reflexivity|]).
  intros E. apply (f_equal (fun a => get a [0; 0; 0]%nat)) in E. cbn in E. lra.
Qed.
Print Assumptions C21_other_weights_refuted.

Theorem C21_wrong_order_raises : forall K Us w k,
  mats K Us -> is_vec K w -> kt_init Us (Some w) = Ok k -> length Us <> 3%nat ->
  ev_from_kruskal k = Err ValueError.
Proof.
  intros K Us w k HU Hw E Hl. apply kt_init_ok_iff in E as (K' & _ & E & _). unfold ev_from_kruskal. rewrite E.
  destruct Us as [|? [|? [|? [|? ?]]]]; cbn in Hl; try lia; reflexivity.
Qed.
Print Assumptions C21_wrong_order_raises.

Example C21_example : is_mat 2 2 eU1 /\ is_mat 3 2 eU2 /\ is_mat 2 2 eU3 /\
  exists k e, kt_init [eU1; eU2; eU3] (Some ew) = Ok k /\ ev_from_kruskal k = Ok e /\ ev_num_elements e = 6%nat.
Proof. repeat (split; [split; reflexivity|]). eexists. eexists. repeat split. Qed.

(** *** C22 *)
Theorem C22_permutation_keeps_tensor : forall junk K Us w k p,
  mats K Us -> (2 <= length Us)%nat -> is_vec K w -> kt_init Us (Some w) = Ok k -> is_perm K p ->
  exists Vs w' k' T, permute_factors_and_weights p Us w = Ok (Vs, w') /\ kt_init Vs (Some w') = Ok k' /\
    kt_construct junk k = Ok T /\ kt_construct junk k' = Ok T /\
    (forall m i r, (m < length Us)%nat -> (i < nrows (nth m Us m0))%nat -> (r < K)%nat ->
       mget (nth m Vs m0) i r = mget (nth m Us m0) i (nth r p 0%nat)) /\
    (forall r, (r < K)%nat -> vget w' r = vget w (nth r p 0%nat)).
Proof. exact C22_lemma. Qed.
Print Assumptions C22_permutation_keeps_tensor.

Theorem C22_factors_only_equal_weights : forall junk K Us w k p c,
  mats K Us -> (2 <= length Us)%nat -> is_vec K w -> kt_init Us (Some w) = Ok k -> is_perm K p ->
  (forall r, (r < K)%nat -> vget w r = c) ->
  exists Vs k' T, permute_factors p Us = Ok Vs /\ kt_init Vs (Some w) = Ok k' /\
    kt_construct junk k = Ok T /\ kt_construct junk k' = Ok T.
Proof. exact C22_equal_lemma. Qed.
Print Assumptions C22_factors_only_equal_weights.

Example C22_example : is_perm 3 [2; 0; 1]%nat /\
  exists Vs w', permute_factors_and_weights [1; 0]%nat [eU1; eU2] ew = Ok (Vs, w') /\
    data w' = [-1; 10] /\ data (nth 0 Vs m0) = [2; 1; 4; 3].
Proof.
  split. { split; [reflexivity|]. split; [repeat constructor; cbn; intuition discriminate|]. cbn. intuition lia. }
  eexists. eexists. repeat split.
Qed.

(** *** C23 *)
Theorem C23_flip_factors : forall Us,
  any_mats Us -> Forall (fun U => (0 < nrows U)%nat) Us ->
  exists Vs signs, flip_factors Us = Ok (Vs, signs) /\ length Vs = length Us /\ length signs = length Us /\
    forall m, (m < length Us)%nat ->
      let U := nth m Us m0 in let V := nth m Vs m0 in let s := nth m signs m0 in let n := nrows U in
      is_mat n (ncols U) V /\ is_vec (ncols U) s /\
      forall r, (r < ncols U)%nat ->
        (forall i, (i < n)%nat -> mget V i r = mget U i r * vget s r) /\
        (forall i, (i < n)%nat -> mget U i r = mget V i r * vget s r) /\
        (vget s r = 1 \/ vget s r = -1 \/ (vget s r = 0 /\ forall i, (i < n)%nat -> mget U i r = 0)) /\
        (nneg n (fun i => mget V i r) <= npos n (fun i => mget V i r))%nat /\
        (npos n (fun i => mget V i r) = nneg n (fun i => mget V i r) ->
           forall i, (i < n)%nat -> mget V i r <> 0 -> (forall j, (j < i)%nat -> mget V j r = 0) ->
             0 < mget V i r).
Proof. exact C23_lemma. Qed.
Print Assumptions C23_flip_factors.

Theorem C23_flip_idempotent : forall Us,
  any_mats Us -> Forall (fun U => (0 < nrows U)%nat) Us ->
  exists Vs signs signs', flip_factors Us = Ok (Vs, signs) /\ flip_factors Vs = Ok (Vs, signs').
Proof. exact C23_idem_lemma. Qed.
Print Assumptions C23_flip_idempotent.

Theorem C23_prepare_for_comparison : forall Us,
  any_mats Us -> Forall (fun U => (0 < nrows U)%nat) Us ->
  exists Ns norms Vs signs, normalize_factors Us = Ok (Ns, norms) /\ flip_factors Ns = Ok (Vs, signs) /\
    prepare_for_comparison Us = Ok (Vs, signs, norms).
Proof. exact C23_prepare_lemma. Qed.
Print Assumptions C23_prepare_for_comparison.

Example C23_example :
  let U := mk [3; 2]%nat [1; 0; -2; -5; -3; 5] in
  any_mats [U] /\ exists Vs signs, flip_factors [U] = Ok (Vs, signs) /\
    vget (nth 0 signs m0) 0 = -1 /\ vget (nth 0 signs m0) 1 = -1.
Proof.
  cbn zeta. split; [repeat constructor|]. eexists. eexists. split; [reflexivity|].
  split; cbn; unfold column_sign, find_first_nonzero_sign; cbn.
  - rewrite (@sgn_pos 1), (@sgn_neg (-2)), (@sgn_neg (-3)) by lra.
    rewrite (@sgn_neg (_ / _)) by lra. destruct (Req_EM_T (-1) 0); lra.
  - rewrite sgn_0, (@sgn_neg (-5)), (@sgn_pos 5) by lra.
    replace ((0 + (-1 + (1 + 0))) / (1 + 1 + 1)) with 0 by lra. rewrite sgn_0.
    destruct (Req_EM_T 0 0); [|lra]. destruct (Req_EM_T (-1) 0); lra.
Qed.

(** *** C24 *)
Theorem C24_normalize_factor : forall eps n m U,
  is_mat n m U -> 0 < eps ->
  exists V norms, normalize_factor eps U = Ok (V, norms) /\ is_mat n m V /\ is_mat 1 m norms /\
    forall r, (r < m)%nat ->
      mget norms 0 r = clen U r /\
      (forall i, (i < n)%nat -> mget V i r * (mget norms 0 r + eps) = mget U i r) /\
      clen V r = clen U r / (clen U r + eps) /\ clen V r < 1 /\
      ((forall i, (i < n)%nat -> mget U i r = 0) -> forall i, (i < n)%nat -> mget V i r = 0).
Proof. exact C24_lemma. Qed.
Print Assumptions C24_normalize_factor.

Theorem C24_normalize_factors_each : forall Us,
  any_mats Us ->
  exists Vs norms, normalize_factors Us = Ok (Vs, norms) /\ length Vs = length Us /\ length norms = length Us /\
    forall m, (m < length Us)%nat ->
      normalize_factor (/ 10 ^ 15) (nth m Us m0) = Ok (nth m Vs m0, nth m norms m0).
Proof. exact C24_each_lemma. Qed.
Print Assumptions C24_normalize_factors_each.

Example C24_example : is_mat 2 2 (mk [2; 2]%nat [3; 0; 4; 0]) /\ clen (mk [2; 2]%nat [3; 0; 4; 0]) 0 = 5 /\
  clen (mk [2; 2]%nat [3; 0; 4; 0]) 1 = 0.
Proof.
  split; [split; reflexivity|]. split.
  - unfold clen. replace (sum _ _) with (5 * 5) by (cbn; lra). rewrite sqrt_square; lra.
  - unfold clen. replace (sum _ _) with 0 by (cbn; lra). apply sqrt_0.
Qed.
