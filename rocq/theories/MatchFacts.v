(** What a factor match score says about the components: lemmas for C87. *)
From Verif Require Export MatchSpec MetricsMore.
From Verif Require Import KruskalFacts CPFacts SignFacts.
From Verif Require Import Prelude Lin.
Set Implicit Arguments.
Unset Strict Implicit.
Local Open Scope R_scope.

Lemma cross_prod Ts Es c d : rows Ts = rows Es ->
  comp_cross Ts Es c d = prodf (combine Ts Es) (fun TE => sum (nrows (fst TE)) (fun i => mget (fst TE) i c * mget (snd TE) i d)).
Proof.
  unfold comp_cross. revert Es. induction Ts as [|T Ts IH]; intros [|E Es] Hr; try discriminate.
  - cbn. ring.
  - cbn [rows map] in *. injection Hr as Hn Hr. rewrite sumf_indices_cons. cbn [colprod combine prodf fst snd].
    fold (rows Ts). rewrite <- IH by exact Hr. rewrite <- sum_scal_r. apply sum_ext. intros i Hi.
    rewrite <- sumf_scal_l. apply sumf_ext. intros; ring.
Qed.
Lemma self_prod Ts c : sumf (indices (rows Ts)) (fun idx => colprod Ts idx c ^ 2) = cweight Ts c ^ 2.
Proof.
  unfold cweight. induction Ts as [|T Ts IH].
  - cbn. ring.
  - cbn [rows map]. rewrite sumf_indices_cons. cbn [colprod prodf]. fold (rows Ts).
    rewrite Rpow_mult_distr, <- IH, clen_sq, <- sum_scal_r. apply sum_ext. intros i Hi.
    rewrite <- sumf_scal_l. apply sumf_ext. intros; ring.
Qed.
Lemma dist2_expand a b Ts Es c d : rows Ts = rows Es ->
  comp_dist2 a Ts c b Es d = a ^ 2 * cweight Ts c ^ 2 + b ^ 2 * cweight Es d ^ 2 - 2 * a * b * comp_cross Ts Es c d.
Proof.
  intros Hr. rewrite <- !self_prod. rewrite <- Hr. unfold comp_dist2, comp_cross.
  rewrite <- !sumf_scal_l, <- sumf_plus, <- sumf_minus. apply sumf_ext. intros; ring.
Qed.

Lemma prodf_le {A : Type} (l : list A) f g : (forall i, In i l -> 0 <= f i <= g i) -> prodf l f <= prodf l g.
Proof.
  induction l as [|x l IH]; intros H; cbn [prodf]; [lra|].
  assert (0 <= prodf l f) by (apply prodf_nonneg; intros i Hi; apply H; now right).
  assert (0 <= f x <= g x) by (apply H; now left).
  assert (prodf l f <= prodf l g) by (apply IH; intros i Hi; apply H; now right). nra.
Qed.
Lemma prodf_abs {A : Type} (l : list A) f : Rabs (prodf l f) = prodf l (fun i => Rabs (f i)).
Proof. induction l as [|x l IH]; cbn [prodf]; [apply Rabs_R1|]. now rewrite Rabs_mult, IH. Qed.
Lemma prodf_lens Ts Es c d : length Ts = length Es ->
  prodf (combine Ts Es) (fun TE => clen (fst TE) c * clen (snd TE) d) = cweight Ts c * cweight Es d.
Proof.
  unfold cweight. revert Es. induction Ts as [|T Ts IH]; intros [|E Es] Hl; try discriminate; cbn [combine prodf fst snd].
  - ring.
  - cbn in Hl. rewrite IH by lia. ring.
Qed.
Lemma rows_len Ts Es : rows Ts = rows Es -> length Ts = length Es.
Proof. intros H. apply (f_equal (@length nat)) in H. unfold rows in H. now rewrite !map_length in H. Qed.

Definition P (Ts Es : list nd) (c d : nat) : R := prodf (combine Ts Es) (fun TE => rcos (fst TE) (snd TE) c d).
Lemma P_bound Ts Es c d : rows Ts = rows Es -> 0 <= P Ts Es c d <= 1.
Proof. intros Hr. apply prodf_01. intros TE HI. apply rcos_bound. now apply (rows_combine Hr). Qed.

Lemma P_cross Ts Es c d : rows Ts = rows Es -> P Ts Es c d * (cweight Ts c * cweight Es d) <= Rabs (comp_cross Ts Es c d).
Proof.
  intros Hr. rewrite <- (prodf_lens c d (rows_len Hr)), (cross_prod c d Hr), prodf_abs. unfold P.
  rewrite <- prodf_mult. apply prodf_le. intros TE HI. pose proof (clen_nonneg (fst TE) c) as H1.
  pose proof (clen_nonneg (snd TE) d) as H2. pose proof tiny_pos as Ht.
  pose proof (@rcos_bound (fst TE) (snd TE) c d (rows_combine Hr HI)) as Hb.
  split. { apply Rmult_le_pos; [lra|nra]. }
  unfold rcos. set (x := Rabs _). assert (Hx : 0 <= x) by apply Rabs_pos.
  set (l := clen (fst TE) c) in *. set (k := clen (snd TE) d) in *.
  assert (Hd : 0 < (l + tiny) * (k + tiny)) by nra.
  apply (Rmult_le_reg_r ((l + tiny) * (k + tiny))); auto.
  replace (x / ((l + tiny) * (k + tiny)) * (l * k) * ((l + tiny) * (k + tiny))) with (x * (l * k)) by (field; split; lra).
  apply Rmult_le_compat_l; auto. nra.
Qed.

Lemma share_bound l x : 0 < l -> l <= x -> 0 < l / (l + tiny) <= x / (x + tiny).
Proof.
  intros Hl Hx. pose proof tiny_pos as Ht. split.
  - apply Rdiv_lt_0_compat; lra.
  - apply (Rmult_le_reg_r ((l + tiny) * (x + tiny))); [nra|].
    replace (l / (l + tiny) * ((l + tiny) * (x + tiny))) with (l * (x + tiny)) by (field; lra).
    replace (x / (x + tiny) * ((l + tiny) * (x + tiny))) with (x * (l + tiny)) by (field; lra). nra.
Qed.
Lemma P_lower l Ts Es c d : rows Ts = rows Es -> 0 < l ->
  (forall T, In T Ts -> l <= clen T c) -> (forall E, In E Es -> l <= clen E d) ->
  Rabs (comp_cross Ts Es c d) * kept_share l (length Ts) <= P Ts Es c d * (cweight Ts c * cweight Es d).
Proof.
  intros Hr Hl HT HE. rewrite <- (prodf_lens c d (rows_len Hr)), (cross_prod c d Hr), prodf_abs. unfold P. rewrite <- prodf_mult.
  assert (Ek : kept_share l (length Ts) = prodf (combine Ts Es) (fun _ => (l / (l + tiny)) ^ 2)).
  { unfold kept_share. assert (El : length (combine Ts Es) = length Ts) by (rewrite combine_length, (rows_len Hr); lia).
    rewrite <- El. generalize (combine Ts Es) as L. induction L as [|x L IH]; [reflexivity|].
    cbn [length prodf]. rewrite <- IH. replace (2 * S (length L))%nat with (2 + 2 * length L)%nat by lia. now rewrite pow_add. }
  rewrite Ek, <- prodf_mult. apply prodf_le. intros [T E] HI.
  assert (HIT : l <= clen T c) by (apply HT; eapply in_combine_l; eauto).
  assert (HIE : l <= clen E d) by (apply HE; eapply in_combine_r; eauto).
  cbn [fst snd]. unfold rcos. set (x := Rabs _). assert (Hx : 0 <= x) by apply Rabs_pos.
  destruct (share_bound Hl HIT) as [S1 S2]. destruct (share_bound Hl HIE) as [S3 S4].
  pose proof tiny_pos as Ht. set (g := l / (l + tiny)) in *.
  split. { apply Rmult_le_pos; auto. apply pow2_ge_0. }
  replace (x / ((clen T c + tiny) * (clen E d + tiny)) * (clen T c * clen E d))
    with (x * (clen T c / (clen T c + tiny) * (clen E d / (clen E d + tiny)))) by (field; split; lra).
  apply Rmult_le_compat_l; auto. cbn [pow]. rewrite Rmult_1_r. apply Rmult_le_compat; lra.
Qed.

(** *** One pair of components *)
Lemma score_max Ts Es c d : ~ (cweight Ts c = 0 /\ cweight Es d = 0) ->
  match_score true Ts Es c d * Rmax (cweight Ts c) (cweight Es d) ^ 2 = P Ts Es c d * (cweight Ts c * cweight Es d) /\
  0 < Rmax (cweight Ts c) (cweight Es d).
Proof.
  intros H. unfold match_score, weight_agreement. fold (P Ts Es c d).
  pose proof (cweight_nonneg Ts c) as Ha. pose proof (cweight_nonneg Es d) as Hb.
  set (a := cweight Ts c) in *. set (b := cweight Es d) in *.
  destruct (Rle_or_lt a b) as [Hab|Hab].
  - rewrite (Rmax_right a b) by lra. assert (Hb0 : 0 < b) by (destruct Hb; auto; exfalso; apply H; split; lra).
    split; auto. rewrite Rabs_left1 by lra. field. lra.
  - rewrite (Rmax_left a b) by lra. assert (Ha0 : 0 < a) by lra. split; auto.
    rewrite Rabs_right by lra. field. lra.
Qed.

Definition sgn1 (x : R) : R := if Rle_dec 0 x then 1 else -1.
Lemma sgn1_or x : sgn1 x = 1 \/ sgn1 x = -1.
Proof. unfold sgn1. destruct (Rle_dec 0 x); auto. Qed.
Lemma sgn1_abs x : sgn1 x * x = Rabs x.
Proof. unfold sgn1. destruct (Rle_dec 0 x); [rewrite Rabs_right by lra|rewrite Rabs_left by lra]; ring. Qed.

Lemma pair_bound Ts Es c d : rows Ts = rows Es -> ~ (cweight Ts c = 0 /\ cweight Es d = 0) ->
  match_score true Ts Es c d <= 1 - rel_dist2 Ts c (sgn1 (comp_cross Ts Es c d)) Es d / 2.
Proof.
  intros Hr H. destruct (score_max H) as [E HM]. pose proof (P_cross c d Hr) as HP. rewrite <- E in HP.
  unfold rel_dist2. rewrite (dist2_expand _ _ c d Hr).
  set (x := comp_cross Ts Es c d) in *. pose proof (sgn1_abs x) as Ex.
  pose proof (cweight_nonneg Ts c) as Ha. pose proof (cweight_nonneg Es d) as Hb.
  pose proof (Rmax_l (cweight Ts c) (cweight Es d)) as M1. pose proof (Rmax_r (cweight Ts c) (cweight Es d)) as M2.
  set (M := Rmax _ _) in *. set (a := cweight Ts c) in *. set (b := cweight Es d) in *. set (s := match_score _ _ _ _ _) in *.
  replace (1 ^ 2 * a ^ 2 + sgn1 x ^ 2 * b ^ 2 - 2 * 1 * sgn1 x * x) with (a ^ 2 + b ^ 2 - 2 * Rabs x)
    by (rewrite <- Ex; destruct (sgn1_or x) as [->| ->]; ring).
  apply (Rmult_le_reg_r (M ^ 2)); [nra|].
  replace ((1 - (a ^ 2 + b ^ 2 - 2 * Rabs x) / M ^ 2 / 2) * M ^ 2) with (M ^ 2 - (a ^ 2 + b ^ 2) / 2 + Rabs x) by (field; lra). nra.
Qed.

Lemma pair_bound_unit Ts Es c d : rows Ts = rows Es ->
  comp_dist2 (cweight Es d) Ts c (sgn1 (comp_cross Ts Es c d) * cweight Ts c) Es d <=
  2 * (1 - match_score false Ts Es c d) * (cweight Ts c * cweight Es d) ^ 2.
Proof.
  intros Hr. pose proof (P_cross c d Hr) as HP. unfold match_score, weight_agreement. fold (P Ts Es c d).
  rewrite (dist2_expand _ _ c d Hr).
  set (x := comp_cross Ts Es c d) in *. pose proof (sgn1_abs x) as Ex.
  pose proof (cweight_nonneg Ts c) as Ha. pose proof (cweight_nonneg Es d) as Hb.
  set (a := cweight Ts c) in *. set (b := cweight Es d) in *.
  replace (b ^ 2 * a ^ 2 + (sgn1 x * a) ^ 2 * b ^ 2 - 2 * b * (sgn1 x * a) * x) with (2 * (a * b) ^ 2 - 2 * (a * b) * Rabs x)
    by (rewrite <- Ex; destruct (sgn1_or x) as [->| ->]; ring).
  assert (0 <= a * b) by nra. set (ab := a * b) in *. nra.
Qed.

Lemma cross_bound Ts Es c d : rows Ts = rows Es -> Rabs (comp_cross Ts Es c d) <= cweight Ts c * cweight Es d.
Proof.
  intros Hr. rewrite <- (prodf_lens c d (rows_len Hr)), (cross_prod c d Hr), prodf_abs. apply prodf_le. intros TE HI.
  split; [apply Rabs_pos|]. pose proof (rows_combine Hr HI) as Hn.
  pose proof (clen_nonneg (fst TE) c). pose proof (clen_nonneg (snd TE) d).
  apply Rsqr_incr_0_var; [|nra]. rewrite <- Rsqr_abs. unfold Rsqr.
  pose proof (@cauchy_schwarz (nrows (fst TE)) (fun i => mget (fst TE) i c) (fun i => mget (snd TE) i d)) as CS.
  pose proof (clen_sq (fst TE) c) as E1. pose proof (clen_sq (snd TE) d) as E2. rewrite <- Hn in E2.
  cbn beta in CS. rewrite <- E1, <- E2 in CS. nra.
Qed.

Lemma pair_close Ts Es c d l e sg : rows Ts = rows Es -> 0 < l ->
  (forall T, In T Ts -> l <= clen T c) -> (forall E, In E Es -> l <= clen E d) ->
  sg = 1 \/ sg = -1 -> 0 <= e -> rel_dist2 Ts c sg Es d <= e ^ 2 ->
  ~ (cweight Ts c = 0 /\ cweight Es d = 0) /\ (1 - e) * kept_share l (length Ts) <= match_score true Ts Es c d.
Proof.
  intros Hr Hl HT HE Hs He HD.
  assert (Ha : 0 < cweight Ts c) by (apply prodf_pos; intros T HI; specialize (HT T HI); lra).
  assert (Hb : 0 < cweight Es d) by (apply prodf_pos; intros E HI; specialize (HE E HI); lra).
  assert (H : ~ (cweight Ts c = 0 /\ cweight Es d = 0)) by lra. split; auto.
  destruct (score_max H) as [E HM]. pose proof (P_lower Hr Hl HT HE) as HP. rewrite <- E in HP.
  pose proof (@match_score_bound true Ts Es c d Hr ltac:(tauto)) as Hms.
  pose proof (cross_bound c d Hr) as HC.
  unfold rel_dist2 in HD. rewrite (dist2_expand _ _ c d Hr) in HD.
  set (x := comp_cross Ts Es c d) in *.
  assert (Hg : 0 < kept_share l (length Ts)).
  { unfold kept_share. apply pow_lt. pose proof tiny_pos. apply Rdiv_lt_0_compat; lra. }
  set (g := kept_share _ _) in *. set (s := match_score _ _ _ _ _) in *.
  pose proof (Rmax_l (cweight Ts c) (cweight Es d)) as M1. pose proof (Rmax_r (cweight Ts c) (cweight Es d)) as M2.
  assert (M3 : Rmax (cweight Ts c) (cweight Es d) = cweight Ts c \/ Rmax (cweight Ts c) (cweight Es d) = cweight Es d).
  { unfold Rmax. destruct (Rle_dec _ _); auto. }
  set (M := Rmax _ _) in *. set (a := cweight Ts c) in *. set (b := cweight Es d) in *.
  assert (HD1 : a ^ 2 + b ^ 2 - 2 * Rabs x <= e ^ 2 * M ^ 2).
  { apply (Rmult_le_compat_r (M ^ 2)) in HD; [|nra].
    assert (Em : (1 ^ 2 * a ^ 2 + sg ^ 2 * b ^ 2 - 2 * 1 * sg * x) / M ^ 2 * M ^ 2 = a ^ 2 + b ^ 2 - 2 * sg * x).
    { destruct Hs as [->| ->]; field; lra. }
    rewrite Em in HD. assert (sg * x <= Rabs x).
    { destruct Hs as [->| ->]; [pose proof (Rle_abs x)|pose proof (Rle_abs (- x)); rewrite Rabs_Ropp in *]; lra. }
    lra. }
  destruct (Rle_or_lt e 1) as [He1|He1].
  2:{ assert ((1 - e) * g <= 0) by nra. lra. }
  assert (HD2 : (a - b) ^ 2 <= (e * M) ^ 2) by nra.
  assert (HD3 : Rabs (a - b) <= e * M).
  { apply Rsqr_incr_0_var; [|nra]. rewrite <- Rsqr_abs. unfold Rsqr. nra. }
  assert (Hx : (1 - e) * M ^ 2 <= Rabs x).
  { destruct M3 as [M3|M3]; rewrite <- M3 in *.
    - assert (b >= (1 - e) * M). { pose proof (Rle_abs (M - b)). lra. }
      assert (((1 - e) * M) ^ 2 <= b ^ 2) by (apply pow_incr; nra). nra.
    - assert (a >= (1 - e) * M). { pose proof (Rle_abs (- (a - M))). rewrite Rabs_Ropp in *. lra. }
      assert (((1 - e) * M) ^ 2 <= a ^ 2) by (apply pow_incr; nra). nra. }
  apply (Rmult_le_reg_r (M ^ 2)); [nra|]. nra.
Qed.

(** *** All components *)
Lemma score_bounds red K K' Ts Es s p : mats K Ts -> mats K' Es -> rows Ts = rows Es -> Ts <> [] -> (0 < K)%nat ->
  factor_match_score Ts Es true (reduction_name red) = Ok (Fin s, Some p) ->
  assignment K' K p /\ forall t,
    reduced red K (fun c => 1 - rel_dist2 Ts c (sgn1 (comp_cross Ts Es c (nth c p 0%nat))) Es (nth c p 0%nat) / 2) t -> s <= t.
Proof.
  intros HT HE Hr Hn HK E.
  destruct (fms_lemma red true HT HE Hr Hn HK) as [(q & t & E1 & A & C & S & _)|(E1 & _)]; rewrite E in E1; [|discriminate].
  injection E1 as <- <-. split; auto. intros t Ht. unfold total_score in S. rewrite (proj1 A) in S.
  refine (reduced_mono _ S Ht). intros c Hc. apply pair_bound; auto. apply C; auto. now rewrite (proj1 A).
Qed.

Lemma score_bounds_unit K K' Ts Es s p : mats K Ts -> mats K' Es -> rows Ts = rows Es -> Ts <> [] -> (0 < K)%nat ->
  factor_match_score Ts Es false "min" = Ok (Fin s, Some p) ->
  assignment K' K p /\ forall c, (c < K)%nat -> let d := nth c p 0%nat in
    comp_dist2 (cweight Es d) Ts c (sgn1 (comp_cross Ts Es c d) * cweight Ts c) Es d <=
    2 * (1 - s) * (cweight Ts c * cweight Es d) ^ 2.
Proof.
  intros HT HE Hr Hn HK E.
  destruct (fms_lemma Minimum false HT HE Hr Hn HK) as [(q & t & E1 & A & C & Sc & _)|(E1 & _)]; cbn [reduction_name] in E1;
    rewrite E in E1; [|discriminate].
  injection E1 as <- <-. split; auto. intros c Hc d. unfold total_score in Sc. rewrite (proj1 A) in Sc.
  destruct Sc as [_ Hmin]. specialize (Hmin c Hc). fold d in Hmin.
  eapply Rle_trans; [apply (pair_bound_unit c d Hr)|].
  apply Rmult_le_compat_r; [apply pow2_ge_0|]. lra.
Qed.

Lemma close_scores red K K' Ts Es q sg e l t : mats K Ts -> mats K' Es -> rows Ts = rows Es -> Ts <> [] -> (0 < K)%nat ->
  assignment K' K q -> signs K sg -> 0 < l ->
  (forall T c, In T Ts -> (c < K)%nat -> l <= clen T c) -> (forall E d, In E Es -> (d < K')%nat -> l <= clen E d) ->
  (forall c, (c < K)%nat -> 0 <= e c /\ rel_dist2 Ts c (sg c) Es (nth c q 0%nat) <= e c ^ 2) ->
  reduced red K (fun c => (1 - e c) * kept_share l (length Ts)) t ->
  exists s p, factor_match_score Ts Es true (reduction_name red) = Ok (Fin s, Some p) /\ t <= s.
Proof.
  intros HT HE Hr Hn HK A Hs Hl HlT HlE He Ht.
  assert (Hb : forall c, (c < K)%nat -> (nth c q 0 < K')%nat).
  { intros c Hc. destruct A as (A1 & _ & A3). rewrite Forall_forall in A3. apply A3, nth_In. lia. }
  assert (Hp : forall c, (c < K)%nat -> ~ (cweight Ts c = 0 /\ cweight Es (nth c q 0%nat) = 0) /\
                 (1 - e c) * kept_share l (length Ts) <= match_score true Ts Es c (nth c q 0%nat)).
  { intros c Hc. destruct (He c Hc) as [He1 He2]. apply (@pair_close Ts Es c (nth c q 0%nat) l (e c) (sg c)); auto. }
  assert (Cq : comparable true Ts Es q).
  { intros _ c Hc. rewrite (proj1 A) in Hc. now apply Hp. }
  destruct (fms_lemma red true HT HE Hr Hn HK) as [(p & s & E1 & _ & _ & _ & Hbest)|(E1 & Hno)].
  2:{ exfalso. exact (Hno q A Cq). }
  exists s, p. split; auto.
  destruct (reduced_exists red (fun c => match_score true Ts Es c (nth c q 0%nat)) HK) as (s' & Hs').
  assert (t <= s') by (refine (reduced_mono _ Ht Hs'); intros c Hc; now apply Hp).
  assert (s' <= s). { apply (Hbest q s'); auto. unfold total_score. now rewrite (proj1 A). }
  lra.
Qed.

(** The tensors, when no matched pair has opposite signs *)
Lemma sq_sum_le {A : Type} K (L : list A) (f : A -> nat -> R) :
  sumf L (fun x => sum K (f x) ^ 2) <= INR K * sum K (fun c => sumf L (fun x => f x c ^ 2)).
Proof.
  rewrite <- sumf_scal_l. 
  assert (E : sumf (seq 0 K) (fun c => INR K * sumf L (fun x => f x c ^ 2)) = sumf L (fun x => INR K * sum K (fun c => f x c ^ 2))).
  { transitivity (INR K * sumf (seq 0 K) (fun c => sumf L (fun x => f x c ^ 2))).
    - now rewrite <- sumf_scal_l.
    - rewrite sumf_swap, <- sumf_scal_l. reflexivity. }
  rewrite E. apply sumf_le. intros x _.
  pose proof (@cauchy_schwarz K (fun _ => 1) (f x)) as CS. cbn beta in CS.
  assert (E1 : sum K (fun i => 1 * f x i) = sum K (f x)) by (apply sum_ext; intros; ring).
  assert (E2 : sum K (fun _ => 1 ^ 2) = INR K).
  { rewrite sumf_const, seq_length. ring. }
  rewrite E1, E2 in CS. exact CS.
Qed.

Lemma tensor_bound K Ts Es s p : mats K Ts -> mats K Es -> rows Ts = rows Es -> Ts <> [] -> (0 < K)%nat ->
  factor_match_score Ts Es true "min" = Ok (Fin s, Some p) ->
  (forall c, (c < K)%nat -> 0 <= comp_cross Ts Es c (nth c p 0%nat)) ->
  sumf (indices (rows Ts)) (fun idx => (cp_entry Ts unit_weights K idx - cp_entry Es unit_weights K idx) ^ 2) <=
  2 * INR K * (1 - s) * sum K (fun c => Rmax (cweight Ts c) (cweight Es (nth c p 0%nat)) ^ 2).
Proof.
  intros HT HE Hr Hn HK E Hpos.
  destruct (fms_lemma Minimum true HT HE Hr Hn HK) as [(q & t & E1 & A & C & Sc & _)|(E1 & _)]; cbn [reduction_name] in E1;
    rewrite E in E1; [|discriminate].
  injection E1 as <- <-.
  assert (Hperm : is_perm K p).
  { destruct A as (A1 & A2 & A3). split; auto. split; auto. now apply Forall_forall. }
  assert (EE : forall idx, cp_entry Ts unit_weights K idx - cp_entry Es unit_weights K idx =
                 sum K (fun c => 1 * colprod Ts idx c - 1 * colprod Es idx (nth c p 0%nat))).
  { intros idx. unfold cp_entry, unit_weights. rewrite <- (sum_nth_perm (fun r => 1 * colprod Es idx r) Hperm).
    now rewrite <- sum_minus. }
  rewrite (sumf_ext _ _ (fun idx => sum K (fun c => 1 * colprod Ts idx c - 1 * colprod Es idx (nth c p 0%nat)) ^ 2))
    by (intros; now rewrite EE).
  eapply Rle_trans; [apply sq_sum_le|].
  assert (HK0 : 0 <= INR K) by apply pos_INR.
  replace (2 * INR K * (1 - s) * sum K (fun c => Rmax (cweight Ts c) (cweight Es (nth c p 0%nat)) ^ 2))
    with (INR K * sum K (fun c => 2 * (1 - s) * Rmax (cweight Ts c) (cweight Es (nth c p 0%nat)) ^ 2))
    by (rewrite sumf_scal_l; ring).
  apply Rmult_le_compat_l; auto. apply sumf_le. intros c Hc. apply in_seq in Hc.
  change (comp_dist2 1 Ts c 1 Es (nth c p 0%nat) <= 2 * (1 - s) * Rmax (cweight Ts c) (cweight Es (nth c p 0%nat)) ^ 2).
  unfold total_score in Sc. rewrite (proj1 A) in Sc. destruct Sc as [_ Hmin]. specialize (Hmin c ltac:(lia)).
  assert (Hnz : ~ (cweight Ts c = 0 /\ cweight Es (nth c p 0%nat) = 0)).
  { apply C; auto. rewrite (proj1 A). lia. }
  pose proof (pair_bound Hr Hnz) as Hb. destruct (score_max Hnz) as [_ HM].
  assert (Es1 : sgn1 (comp_cross Ts Es c (nth c p 0%nat)) = 1).
  { unfold sgn1. destruct (Rle_dec _ _) as [|Hne]; auto. exfalso. apply Hne, Hpos. lia. }
  rewrite Es1 in Hb. unfold rel_dist2 in Hb. set (D := comp_dist2 1 Ts c 1 Es (nth c p 0%nat)) in *.
  set (M := Rmax _ _) in *.
  assert (HD : D / M ^ 2 <= 2 * (1 - s)) by lra.
  apply (Rmult_le_compat_r (M ^ 2)) in HD; [|nra]. replace (D / M ^ 2 * M ^ 2) with D in HD by (field; lra). exact HD.
Qed.

(** The opposite tensor gets the score of the tensor itself. *)
Lemma opposite_score red wp K T Ts : mats K (T :: Ts) -> (0 < K)%nat ->
  let Es := np_map Ropp T :: Ts in
  factor_match_score (T :: Ts) Es wp (reduction_name red) = factor_match_score (T :: Ts) (T :: Ts) wp (reduction_name red) /\
  forall idx, valid idx (rows (T :: Ts)) -> cp_entry Es unit_weights K idx = - cp_entry (T :: Ts) unit_weights K idx.
Proof.
  intros HT HK Es. assert (HT1 : is_mat (nrows T) K T) by (inversion HT; auto).
  assert (HE1 : is_mat (nrows T) K (np_map Ropp T)) by now apply is_mat_np_map.
  assert (HE : mats K Es).
  { constructor; [|inversion HT; auto]. rewrite (is_mat_nrows HE1). exact HE1. }
  split.
  - apply (@sign_lemma red wp K K); auto; try discriminate. constructor.
    + split; [exact (is_mat_nrows HE1)|]. exists (fun _ => -1). split; auto. intros i r Hi Hrk.
      rewrite (@mget_np_map _ (nrows T) K) by auto. ring.
    + clear. induction Ts as [|U Us IH]; constructor; auto. split; auto. exists (fun _ => 1). split; auto. intros; ring.
  - intros idx Hv. unfold cp_entry. rewrite <- sumf_opp. apply sum_ext. intros r Hrk. unfold unit_weights.
    inversion Hv as [|i n idx' sh Hi Hv' E1 E2]; subst. cbn [colprod Es].
    rewrite (@mget_np_map _ (nrows T) K) by auto. ring.
Qed.
