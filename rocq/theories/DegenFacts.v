(** Data without a best model of rank two: lemmas for C113. *)
From Verif Require Export DegenSpec LimitFacts CompareFacts.
From Verif Require Import DegenCore CPExamples CPFit.
From Verif Require Import Prelude Lin.
Set Implicit Arguments.
Unset Strict Implicit.
Local Open Scope R_scope.

Lemma three_matrices Us : rows Us = [2; 2; 2]%nat -> exists A B C, Us = [A; B; C] /\ nrows A = 2%nat /\ nrows B = 2%nat /\ nrows C = 2%nat.
Proof.
  destruct Us as [|A [|B [|C [|D Us]]]]; intros E; try discriminate E. cbn in E. injection E as E1 E2 E3. now exists A, B, C.
Qed.
Lemma sum2 f : sum 2 f = f 0%nat + f 1%nat.
Proof. cbn. ring. Qed.
Lemma gram2 A r s : nrows A = 2%nat -> gram A r s = mget A 0 r * mget A 0 s + mget A 1 r * mget A 1 s.
Proof. intros E. unfold gram. rewrite E. apply sum2. Qed.
Lemma length3 A B C r : nrows A = 2%nat -> nrows B = 2%nat -> nrows C = 2%nat ->
  sqrt (comp_inner [A; B; C] r r) =
  len2 (mget A 0 r) (mget A 1 r) * len2 (mget B 0 r) (mget B 1 r) * len2 (mget C 0 r) (mget C 1 r).
Proof.
  intros EA EB EC. rewrite comp_inner_gram. unfold gramprod. cbn [prodf]. rewrite !gram2 by assumption. unfold len2.
  rewrite <- !sqrt_mult by nra. f_equal. ring.
Qed.
Lemma sse_W3 A B C w : sse W3 [A; B; C] w 2 =
  let t i j k := w 0%nat * (mget A i 0 * mget B j 0 * mget C k 0) + w 1%nat * (mget A i 1 * mget B j 1 * mget C k 1) in
  t 0%nat 0%nat 0%nat ^ 2 + (t 0%nat 0%nat 1%nat - 1) ^ 2 + (t 0%nat 1%nat 0%nat - 1) ^ 2 + t 0%nat 1%nat 1%nat ^ 2 +
  (t 1%nat 0%nat 0%nat - 1) ^ 2 + t 1%nat 0%nat 1%nat ^ 2 + t 1%nat 1%nat 0%nat ^ 2 + t 1%nat 1%nat 1%nat ^ 2.
Proof.
  unfold sse, cp_entry. change (indices (shape W3)) with
    [[0;0;0]; [0;0;1]; [0;1;0]; [0;1;1]; [1;0;0]; [1;0;1]; [1;1;0]; [1;1;1]]%nat.
  cbn [sumf]. rewrite !sum2. cbn [colprod].
  change (get W3 [0;0;0]%nat) with 0. change (get W3 [0;0;1]%nat) with 1. change (get W3 [0;1;0]%nat) with 1.
  change (get W3 [0;1;1]%nat) with 0. change (get W3 [1;0;0]%nat) with 1. change (get W3 [1;0;1]%nat) with 0.
  change (get W3 [1;1;0]%nat) with 0. change (get W3 [1;1;1]%nat) with 0. ring.
Qed.

(** *** Models with short components have a large error *)
Lemma abs_sqrt x e : x ^ 2 <= e -> Rabs x <= sqrt e.
Proof. intros H. rewrite <- sqrt_Rsqr_abs. apply sqrt_le_1_alt. unfold Rsqr. lra. Qed.

Lemma short_bound Us w L : rows Us = [2; 2; 2]%nat -> 1 <= L ->
  (forall r, (r < 2)%nat -> comp_length Us w r <= L) -> 1 <= (1472 * L ^ 4) ^ 2 * sse W3 Us w 2.
Proof.
  intros HR HL HS. destruct (three_matrices HR) as (A & B & C & -> & EA & EB & EC).
  pose proof (HS 0%nat) as S0. pose proof (HS 1%nat) as S1. unfold comp_length in S0, S1. rewrite length3 in S0, S1 by assumption.
  specialize (S0 ltac:(lia)). specialize (S1 ltac:(lia)).
  pose proof (sse_W3 A B C w) as EE. cbv beta zeta in EE. set (x := sse W3 [A; B; C] w 2) in *.
  assert (Hx : 0 <= x) by apply sse_nonneg.
  assert (Scale : forall y a0 a1 b0 b1 c0 c1, Rabs y * (len2 a0 a1 * len2 b0 b1 * len2 c0 c1) =
    len2 (y * a0) (y * a1) * len2 b0 b1 * len2 c0 c1).
  { intros. replace (len2 (y * a0) (y * a1)) with (Rabs y * len2 a0 a1); [ring|]. unfold len2.
    rewrite <- sqrt_Rsqr_abs, <- sqrt_mult by (unfold Rsqr; nra). f_equal. unfold Rsqr. ring. }
  rewrite Scale in S0, S1.
  destruct (balanced (w 0%nat * mget A 0 0) (w 0%nat * mget A 1 0) (mget B 0 0) (mget B 1 0) (mget C 0 0) (mget C 1 0))
    as (a00 & a10 & b00 & b10 & c00 & c10 & P0 & X0 & X1 & X2 & X3 & X4 & X5).
  destruct (balanced (w 1%nat * mget A 0 1) (w 1%nat * mget A 1 1) (mget B 0 1) (mget B 1 1) (mget C 0 1) (mget C 1 1))
    as (a01 & a11 & b01 & b11 & c01 & c11 & P1 & Y0 & Y1 & Y2 & Y3 & Y4 & Y5).
  assert (T0 : forall i j k x y z, (x, i) = (a00, 0%nat) \/ (x, i) = (a10, 1%nat) -> (y, j) = (b00, 0%nat) \/ (y, j) = (b10, 1%nat) ->
    (z, k) = (c00, 0%nat) \/ (z, k) = (c10, 1%nat) -> w 0%nat * (mget A i 0 * mget B j 0 * mget C k 0) = x * y * z).
  { clear - P0. intros i j k x y z Hx Hy Hz.
    transitivity (w 0%nat * mget A i 0 * mget B j 0 * mget C k 0); [ring|].
    apply (P0 (w 0%nat * mget A i 0, x) (mget B j 0, y) (mget C k 0, z)).
    - destruct Hx as [E|E]; injection E as -> ->; auto.
    - destruct Hy as [E|E]; injection E as -> ->; auto.
    - destruct Hz as [E|E]; injection E as -> ->; auto. }
  assert (T1 : forall i j k x y z, (x, i) = (a01, 0%nat) \/ (x, i) = (a11, 1%nat) -> (y, j) = (b01, 0%nat) \/ (y, j) = (b11, 1%nat) ->
    (z, k) = (c01, 0%nat) \/ (z, k) = (c11, 1%nat) -> w 1%nat * (mget A i 1 * mget B j 1 * mget C k 1) = x * y * z).
  { clear - P1. intros i j k x y z Hx Hy Hz.
    transitivity (w 1%nat * mget A i 1 * mget B j 1 * mget C k 1); [ring|].
    apply (P1 (w 1%nat * mget A i 1, x) (mget B j 1, y) (mget C k 1, z)).
    - destruct Hx as [E|E]; injection E as -> ->; auto.
    - destruct Hy as [E|E]; injection E as -> ->; auto.
    - destruct Hz as [E|E]; injection E as -> ->; auto. }
  rewrite (T0 0%nat 0%nat 0%nat a00 b00 c00), (T0 0%nat 0%nat 1%nat a00 b00 c10), (T0 0%nat 1%nat 0%nat a00 b10 c00), (T0 0%nat 1%nat 1%nat a00 b10 c10),
    (T0 1%nat 0%nat 0%nat a10 b00 c00), (T0 1%nat 0%nat 1%nat a10 b00 c10), (T0 1%nat 1%nat 0%nat a10 b10 c00),
    (T0 1%nat 1%nat 1%nat a10 b10 c10), (T1 0%nat 0%nat 0%nat a01 b01 c01),
    (T1 0%nat 0%nat 1%nat a01 b01 c11), (T1 0%nat 1%nat 0%nat a01 b11 c01), (T1 0%nat 1%nat 1%nat a01 b11 c11),
    (T1 1%nat 0%nat 0%nat a11 b01 c01), (T1 1%nat 0%nat 1%nat a11 b01 c11), (T1 1%nat 1%nat 0%nat a11 b11 c01),
    (T1 1%nat 1%nat 1%nat a11 b11 c11) in EE by auto.
  clear T0 T1 P0 P1 Scale. clearbody x.
  destruct (Rle_dec x (1 / 16)) as [Hs|Hs].
  2: { assert (1 <= L ^ 4) by (apply pow_R1_Rle; lra). assert (1 <= (1472 * L ^ 4) ^ 2 / 16) by nra. nra. }
  assert (Hq : sqrt x <= 1 / 4).
  { replace (1 / 4) with (sqrt (1 / 16)); [apply sqrt_le_1_alt; lra|]. replace (1 / 16) with ((1 / 4) ^ 2) by lra. apply sqrt_pow2. lra. }
  assert (G : 1 <= 1472 * L ^ 4 * sqrt x).
  { pose proof (sqrt_pos x).
    apply (@core a00 a01 a10 a11 b00 b01 b10 b11 c00 c01 c10 c11 L (sqrt x)); try lra; apply abs_sqrt;
    rewrite EE;
    pose proof (sq_pos (a00 * b00 * c00 + a01 * b01 * c01)); pose proof (sq_pos (a00 * b00 * c10 + a01 * b01 * c11 - 1));
    pose proof (sq_pos (a00 * b10 * c00 + a01 * b11 * c01 - 1)); pose proof (sq_pos (a00 * b10 * c10 + a01 * b11 * c11));
    pose proof (sq_pos (a10 * b00 * c00 + a11 * b01 * c01 - 1)); pose proof (sq_pos (a10 * b00 * c10 + a11 * b01 * c11));
    pose proof (sq_pos (a10 * b10 * c00 + a11 * b11 * c01)); pose proof (sq_pos (a10 * b10 * c10 + a11 * b11 * c11)); lra. }
  replace x with (sqrt x * sqrt x) at 1 by now apply sqrt_sqrt.
  replace ((1472 * L ^ 4) ^ 2 * (sqrt x * sqrt x)) with ((1472 * L ^ 4 * sqrt x) * (1472 * L ^ 4 * sqrt x)) by ring.
  rewrite <- (Rmult_1_l 1) at 1. apply Rmult_le_compat; lra.
Qed.

Lemma long_component Us w L : rows Us = [2; 2; 2]%nat -> 1 <= L -> too_good L (sse W3 Us w 2) ->
  exists r, (r < 2)%nat /\ L < comp_length Us w r.
Proof.
  intros HR HL HG. unfold too_good in HG. destruct (Rle_dec (comp_length Us w 0) L) as [H0|H0]; [|exists 0%nat; split; [lia|lra]].
  destruct (Rle_dec (comp_length Us w 1) L) as [H1|H1]; [|exists 1%nat; split; [lia|lra]].
  pose proof (@short_bound Us w L HR HL) as H. destruct (Rlt_irrefl 1). apply Rle_lt_trans with (2 := HG). apply H.
  intros [|[|r]] Hr; [assumption|assumption|lia].
Qed.

Lemma never_exact Us w : rows Us = [2; 2; 2]%nat -> 0 < sse W3 Us w 2.
Proof.
  intros HR. assert (H : 0 <= sse W3 Us w 2) by apply sse_nonneg. destruct H as [H|H]; [exact H|]. exfalso.
  set (L := 1 + Rabs (comp_length Us w 0) + Rabs (comp_length Us w 1)).
  pose proof (Rabs_pos (comp_length Us w 0)). pose proof (Rabs_pos (comp_length Us w 1)).
  assert (G : 1 <= (1472 * L ^ 4) ^ 2 * sse W3 Us w 2).
  { apply short_bound; [exact HR|unfold L; lra|]. pose proof (Rle_abs (comp_length Us w 0)). pose proof (Rle_abs (comp_length Us w 1)).
    intros [|[|r]] Hr; [unfold L; lra|unfold L; lra|lia]. }
  rewrite <- H in G. lra.
Qed.

(** *** Models that come as close as one likes *)
Lemma near_ok n : factors_ok 2 W3 (near_W3 n).
Proof. split; [repeat constructor|reflexivity]. Qed.
Lemma near_sse n : n <> 0 -> sse W3 (near_W3 n) unit_weights 2 = 3 / n ^ 2 + 1 / n ^ 4.
Proof.
  intros Hn. unfold near_W3. rewrite sse_W3. unfold unit_weights. cbv beta zeta.
  repeat match goal with |- context [mget (mk ?s ?d) ?i ?j] =>
    let v := eval cbv -[Rplus Rmult Rminus Ropp Rdiv Rinv IZR] in (mget (mk s d) i j) in change (mget (mk s d) i j) with v end.
  field. exact Hn.
Qed.
Lemma near_below e : 0 < e -> exists n, 1 <= n /\ sse W3 (near_W3 n) unit_weights 2 < e.
Proof.
  intros He. set (n := 1 + 4 / e). assert (Hd : 0 < 4 / e) by (apply Rdiv_lt_0_compat; lra). assert (Hn : 1 < n) by (unfold n; lra).
  exists n. split; [lra|]. rewrite near_sse by lra.
  assert (H4 : 4 < e * n). { unfold n. replace (e * (1 + 4 / e)) with (e + 4) by (field; lra). lra. }
  apply (Rmult_lt_reg_r (n ^ 4)); [apply pow_lt; lra|]. replace ((3 / n ^ 2 + 1 / n ^ 4) * n ^ 4) with (3 * n ^ 2 + 1) by (field; lra).
  assert (n < n ^ 2) by nra. assert (4 * n ^ 3 < e * n ^ 4) by (assert (0 < n ^ 3) by (apply pow_lt; lra); nra).
  assert (n ^ 2 <= n ^ 3) by nra. nra.
Qed.
Lemma no_best Us w : rows Us = [2; 2; 2]%nat ->
  exists Vs, factors_ok 2 W3 Vs /\ sse W3 Vs unit_weights 2 < sse W3 Us w 2.
Proof.
  intros HR. destruct (near_below (never_exact w HR)) as (n & _ & H). exists (near_W3 n). split; [apply near_ok|exact H].
Qed.

(** *** Long components point in opposite directions *)
Lemma model_length A B C : nrows A = 2%nat -> nrows B = 2%nat -> nrows C = 2%nat -> let Us := [A; B; C] in
  comp_inner Us 0 0 + comp_inner Us 1 1 + 2 * comp_inner Us 0 1 <= 6 + 2 * sse W3 Us unit_weights 2.
Proof.
  intros EA EB EC. cbv zeta. rewrite sse_W3, !comp_inner_gram. unfold gramprod, unit_weights. cbn [prodf]. rewrite !gram2 by assumption.
  cbv beta zeta.
  set (a00 := mget A 0 0). set (a01 := mget A 0 1). set (a10 := mget A 1 0). set (a11 := mget A 1 1).
  set (b00 := mget B 0 0). set (b01 := mget B 0 1). set (b10 := mget B 1 0). set (b11 := mget B 1 1).
  set (c00 := mget C 0 0). set (c01 := mget C 0 1). set (c10 := mget C 1 0). set (c11 := mget C 1 1).
  set (t := fun i j k : R * R => 1 * (fst i * fst j * fst k) + 1 * (snd i * snd j * snd k)).
  pose proof (sq_pos (t (a00, a01) (b00, b01) (c00, c01))). pose proof (sq_pos (t (a00, a01) (b00, b01) (c10, c11) - 2)).
  pose proof (sq_pos (t (a00, a01) (b10, b11) (c00, c01) - 2)). pose proof (sq_pos (t (a00, a01) (b10, b11) (c10, c11))).
  pose proof (sq_pos (t (a10, a11) (b00, b01) (c00, c01) - 2)). pose proof (sq_pos (t (a10, a11) (b00, b01) (c10, c11))).
  pose proof (sq_pos (t (a10, a11) (b10, b11) (c00, c01))). pose proof (sq_pos (t (a10, a11) (b10, b11) (c10, c11))).
  unfold t in *. cbn [fst snd] in *. lra.
Qed.

Lemma length_unit Us r : comp_length Us unit_weights r = sqrt (comp_inner Us r r).
Proof. unfold comp_length, unit_weights. rewrite Rabs_R1. ring. Qed.
Lemma inner_self_pos Us r : 0 <= comp_inner Us r r.
Proof. unfold comp_inner. apply sumf_nonneg. intros. nra. Qed.

Lemma inner_cs Us r s : comp_inner Us r s ^ 2 <= comp_inner Us r r * comp_inner Us s s.
Proof.
  destruct (inner_self_pos Us r) as [H|H]; [now apply cs_list|].
  replace (comp_inner Us r s) with 0; [rewrite <- H; lra|]. unfold comp_inner in *. symmetry. apply sumf_zero. intros idx Hi.
  assert (E : colprod Us idx r * colprod Us idx r = 0).
  { apply (@sumf_nonneg_zero _ (indices (rows Us)) (fun idx => colprod Us idx r * colprod Us idx r)); [intros; nra|now symmetry|exact Hi]. }
  apply Rmult_integral in E. destruct E as [E|E]; rewrite E; ring.
Qed.

Lemma opposed Us : rows Us = [2; 2; 2]%nat -> let l := comp_length Us unit_weights in let x := sse W3 Us unit_weights 2 in
  (l 0%nat - l 1%nat) ^ 2 <= 6 + 2 * x /\ l 0%nat * l 1%nat + comp_inner Us 0 1 <= 3 + x /\ - (l 0%nat * l 1%nat) <= comp_inner Us 0 1.
Proof.
  intros HR. cbv zeta. rewrite !length_unit. destruct (three_matrices HR) as (A & B & C & -> & EA & EB & EC).
  pose proof (model_length EA EB EC) as H. cbv zeta in H.
  assert (CS : comp_inner [A; B; C] 0 1 ^ 2 <= comp_inner [A; B; C] 0 0 * comp_inner [A; B; C] 1 1) by apply inner_cs.
  pose proof (inner_self_pos [A; B; C] 0) as P0. pose proof (inner_self_pos [A; B; C] 1) as P1.
  set (g00 := comp_inner [A; B; C] 0 0) in *. set (g11 := comp_inner [A; B; C] 1 1) in *. set (g01 := comp_inner [A; B; C] 0 1) in *.
  set (x := sse W3 _ _ _) in *. clearbody g00 g11 g01 x.
  pose proof (sqrt_sqrt g00 P0) as E0. pose proof (sqrt_sqrt g11 P1) as E1. pose proof (sqrt_pos g00). pose proof (sqrt_pos g11).
  set (u := sqrt g00) in *. set (v := sqrt g11) in *. clearbody u v.
  assert (Q : - (u * v) <= g01).
  { assert (HQ : Rabs g01 <= u * v). { apply Rsqr_incr_0_var; [|nra]. rewrite <- Rsqr_abs. unfold Rsqr. subst g00 g11. nra. }
    apply abs_le in HQ. lra. }
  pose proof (sq_pos (u - v)) as Q2. replace ((u - v) ^ 2) with (u * u + v * v - 2 * (u * v)) in * by ring.
  split; [lra|]. split; [lra|exact Q].
Qed.

Lemma columns_live Us : rows Us = [2; 2; 2]%nat -> (forall r, (r < 2)%nat -> 0 < comp_length Us unit_weights r) -> nonzero_columns 2 Us.
Proof.
  intros HR HL U r HU Hr. specialize (HL r Hr). rewrite length_unit in HL.
  destruct (three_matrices HR) as (A & B & C & -> & EA & EB & EC). rewrite length3 in HL by assumption.
  assert (G : forall V, nrows V = 2%nat -> len2 (mget V 0 r) (mget V 1 r) <> 0 -> exists i, (i < nrows V)%nat /\ mget V i r <> 0).
  { intros V EV HV. destruct (Req_dec (mget V 0 r) 0) as [Z0|Z0]; [|exists 0%nat; split; [lia|exact Z0]].
    destruct (Req_dec (mget V 1 r) 0) as [Z1|Z1]; [|exists 1%nat; split; [lia|exact Z1]].
    destruct HV. unfold len2. rewrite Z0, Z1. replace (0 ^ 2 + 0 ^ 2) with 0 by ring. apply sqrt_0. }
  destruct HU as [<-|[<-|[<-|[]]]]; apply G; try assumption; intros Z; rewrite Z in HL; lra.
Qed.

Lemma good_small L e : 1 <= L -> 0 <= e -> too_good L e -> e <= 1.
Proof.
  intros HL He H. unfold too_good in H. assert (1 <= L ^ 4) by (apply pow_R1_Rle; lra). assert (1 <= (1472 * L ^ 4) ^ 2) by nra. nra.
Qed.

Lemma opposite Us L : rows Us = [2; 2; 2]%nat -> 3 < L -> too_good L (sse W3 Us unit_weights 2) ->
  (forall r, (r < 2)%nat -> L - 3 < comp_length Us unit_weights r) /\ nonzero_columns 2 Us /\
  -1 <= comp_cosine Us 0 1 <= -1 + 4 / (L * (L - 3)).
Proof.
  intros HR HL HG. destruct (@long_component Us unit_weights L HR ltac:(lra) HG) as (r & Hr & Hlong).
  destruct (opposed HR) as (H1 & H2 & H3). cbv zeta in H1, H2, H3.
  assert (Hx : sse W3 Us unit_weights 2 <= 1) by (apply (@good_small L); [lra|apply sse_nonneg|exact HG]).
  set (x := sse W3 Us unit_weights 2) in *.
  assert (P0 : 0 <= comp_length Us unit_weights 0) by (rewrite length_unit; apply sqrt_pos).
  assert (P1 : 0 <= comp_length Us unit_weights 1) by (rewrite length_unit; apply sqrt_pos).
  assert (K : L - 3 < comp_length Us unit_weights 0 /\ L - 3 < comp_length Us unit_weights 1 /\
    L * (L - 3) <= comp_length Us unit_weights 0 * comp_length Us unit_weights 1).
  { clear H2 H3. set (l0 := comp_length Us unit_weights 0) in *. set (l1 := comp_length Us unit_weights 1) in *.
    assert (-3 < l0 - l1 < 3) by nra.
    assert (Hc : L < l0 \/ L < l1) by (destruct r as [|[|r]]; [left; exact Hlong|right; exact Hlong|lia]).
    destruct Hc; (split; [lra|split; [lra|nra]]). }
  destruct K as (K0 & K1 & K2). split; [intros [|[|r']] Hr'; [assumption|assumption|lia]|]. split.
  { apply columns_live; [exact HR|]. intros [|[|r']] Hr'; [lra|lra|lia]. }
  unfold comp_cosine. rewrite <- !length_unit. set (p := comp_length Us unit_weights 0 * comp_length Us unit_weights 1) in *.
  assert (Hp : 0 < L * (L - 3)) by (apply Rmult_lt_0_compat; lra).
  split.
  - apply (Rmult_le_reg_r p); [lra|]. unfold Rdiv. rewrite Rmult_assoc, Rinv_l by lra. lra.
  - apply Rle_trans with (-1 + 4 / p).
    + apply (Rmult_le_reg_r p); [lra|]. replace (comp_inner Us 0 1 / p * p) with (comp_inner Us 0 1) by (field; lra).
      replace ((-1 + 4 / p) * p) with (4 - p) by (field; lra). lra.
    + apply Rplus_le_compat_l. unfold Rdiv. apply Rmult_le_compat_l; [lra|]. apply Rinv_le_contravar; lra.
Qed.

Lemma opposite_scores Us w k L : factors_ok 2 W3 Us -> is_vec 2 w -> kt_init Us (Some w) = Ok k ->
  3 < L -> too_good L (sse W3 Us unit_weights 2) ->
  exists D, kt_degeneracy k = Ok D /\ -1 <= mget D 0 1 <= -1 + 4 / (L * (L - 3)).
Proof.
  intros [HM HR] Hw E HL HG. destruct (@opposite Us L HR HL HG) as (_ & HN & HC).
  assert (Hne : Us <> []) by (intros ->; discriminate HR).
  rewrite (kt_init_mats HM Hne Hw) in E. injection E as <-. unfold kt_degeneracy. cbn [kt_rank kt_fms].
  destruct (degeneracy_ok HM HN) as (D & ED & HD & Hd). exists D. split; [exact ED|]. rewrite Hd by lia. exact HC.
Qed.

(** *** Sequences of models whose errors tend to zero *)
Section Sequences.
Variable (Us : nat -> list nd).
Hypothesis (HR : forall k, rows (Us k) = [2; 2; 2]%nat).
Let e k := sse W3 (Us k) unit_weights 2.

Lemma reaches_good L : Un_cv e 0 -> 1 <= L -> exists N, forall k, (N <= k)%nat -> too_good L (e k).
Proof.
  intros H HL. assert (1 <= L ^ 4) by (apply pow_R1_Rle; lra). assert (Hc : 1 <= (1472 * L ^ 4) ^ 2) by nra.
  unfold too_good. set (c := (1472 * L ^ 4) ^ 2) in *. assert (Hi : 0 < / c) by (apply Rinv_0_lt_compat; lra).
  destruct (H (/ c) Hi) as (N & HN). exists N. intros k Hk. specialize (HN k Hk). unfold R_dist in HN.
  assert (e k < / c). { eapply Rle_lt_trans; [|exact HN]. rewrite Rminus_0_r. apply Rle_abs. }
  apply (Rmult_lt_reg_l (/ c)); [exact Hi|]. rewrite <- Rmult_assoc, Rinv_l, Rmult_1_l, Rmult_1_r by lra. assumption.
Qed.

Lemma lengths_explode : Un_cv e 0 ->
  (forall r, (r < 2)%nat -> cv_infty (fun k => comp_length (Us k) unit_weights r)) /\ Un_cv (fun k => comp_cosine (Us k) 0 1) (-1).
Proof.
  intros H. split.
  - intros r Hr M. set (L := Rabs M + 4). pose proof (Rabs_pos M). pose proof (Rle_abs M).
    destruct (@reaches_good L H ltac:(unfold L; lra)) as (N & HN). exists N. intros k Hk.
    destruct (@opposite (Us k) L (HR k) ltac:(unfold L; lra) (HN k Hk)) as (G & _). specialize (G r Hr). unfold L in G. lra.
  - intros eps Heps. set (L := 4 + 4 / eps). assert (Hd : 0 < 4 / eps) by (apply Rdiv_lt_0_compat; lra).
    destruct (@reaches_good L H ltac:(unfold L; lra)) as (N & HN). exists N. intros k Hk.
    destruct (@opposite (Us k) L (HR k) ltac:(unfold L; lra) (HN k Hk)) as (_ & _ & G). unfold R_dist. rewrite Rabs_pos_eq by lra.
    apply Rle_lt_trans with (4 / (L * (L - 3))); [lra|].
    assert (HL : 4 / eps < L * (L - 3)) by (unfold L; nra).
    apply (Rmult_lt_reg_r (L * (L - 3))); [lra|]. replace (4 / (L * (L - 3)) * (L * (L - 3))) with 4 by (field; unfold L; split; lra).
    apply (Rmult_lt_compat_l eps) in HL; [|exact Heps]. replace (eps * (4 / eps)) with 4 in HL by (field; lra). exact HL.
Qed.
End Sequences.

(** *** Iterations *)
Section Passes.
Variables (env : cp_env) (cs : cp_settings) (s : cp_state).
Hypotheses (HK : cs_rank cs = 2%nat) (HS : svd_works_on 2 2 (env_svd env)) (HC : cp_coherent 2 s) (HF : free_fit cs s) (HX : cp_X s = W3).
Let Us k := kt_fms (cp_dec (state_after (cp_model env cs) s k)).
Let e k := sse W3 (Us k) unit_weights 2.

Lemma pass_rows k : rows (Us k) = [2; 2; 2]%nat.
Proof.
  destruct (@after_coherent env cs 2 s k HC) as [H1 H2]. destruct (co_fac H1) as [_ E]. rewrite (sp_X H2), HX in E. exact E.
Qed.
Lemma pass_better j k : (j <= k)%nat -> e k <= e j.
Proof. intros H. pose proof (sse_antitone HS HK HC HF H) as G. rewrite HX in G. exact G. Qed.

Lemma stays_good L j k : too_good L (e j) -> (j <= k)%nat -> too_good L (e k).
Proof.
  unfold too_good. intros H Hjk. pose proof (pass_better Hjk). pose proof (sq_pos (1472 * L ^ 4)).
  eapply Rle_lt_trans; [|exact H]. apply Rmult_le_compat_l; assumption.
Qed.

Lemma stays_long L j k : 3 < L -> too_good L (e j) -> (j <= k)%nat ->
  (exists r, (r < 2)%nat /\ L < comp_length (Us k) unit_weights r) /\
  (forall r, (r < 2)%nat -> L - 3 < comp_length (Us k) unit_weights r) /\ -1 <= comp_cosine (Us k) 0 1 <= -1 + 4 / (L * (L - 3)).
Proof.
  intros HL HG Hjk. pose proof (stays_good HG Hjk) as G.
  split; [apply long_component; [apply pass_rows|lra|exact G]|].
  destruct (@opposite (Us k) L (pass_rows k) HL G) as (H1 & _ & H2). split; assumption.
Qed.

End Passes.

(** *** Complete fits *)
Lemma W3_fits env cs cf disk draws max_its arg ds :
  let budget := match max_its with Some m => m | None => ds_max ds end in
  plain_call env cs 2 cf draws W3 budget arg ds ->
  exists d e, cp_fit env cs cf disk draws W3 max_its arg ds = (d, None) /\ cp_SSE env (ds_num d) = Ok e /\ 0 < e /\
    (exists Vs, factors_ok 2 W3 Vs /\ sse W3 Vs unit_weights 2 < e) /\
    forall L, 3 < L -> too_good L e ->
      (exists r, (r < 2)%nat /\ L < comp_length (kt_fms (cp_dec (ds_num d))) unit_weights r) /\
      -1 <= comp_cosine (kt_fms (cp_dec (ds_num d))) 0 1 <= -1 + 4 / (L * (L - 3)).
Proof.
  intros budget (A1 & A2 & A3 & A4 & A5 & A6 & A7 & A8 & A9 & A10 & A11).
  destruct (@fit_completes env cs 2 cf disk draws W3 max_its arg ds A1 A2 A3 A4 A5 A6 A7 A8 A9 A10 A11)
    as (ds1 & d & _ & F & [_ HR] & _ & E & _).
  exists d, (sse W3 (kt_fms (cp_dec (ds_num d))) unit_weights 2). split; [exact F|]. split; [exact E|].
  split; [now apply never_exact|]. split; [now apply no_best|]. intros L HL HG. split.
  - apply long_component; [exact HR|lra|exact HG].
  - now apply (@opposite _ L HR HL HG).
Qed.

(** *** The models near_W3 (k+1) *)
Lemma near_tends : Un_cv (fun k => sse W3 (near_W3 (INR (S k))) unit_weights 2) 0.
Proof.
  intros eps Heps. destruct (archimed_cor1 (eps / 4)) as (N & HN & HN0); [lra|]. exists N. intros k Hk. unfold R_dist.
  assert (HS1 : 1 <= INR (S k)) by (rewrite S_INR; pose proof (pos_INR k); lra).
  assert (HS2 : INR N <= INR (S k)) by (apply le_INR; lia). assert (HP : 0 < INR N) by now apply lt_0_INR.
  set (n := INR (S k)) in *. rewrite near_sse by lra. rewrite Rminus_0_r.
  assert (0 < n ^ 2) by nra. assert (0 < n ^ 4) by (apply pow_lt; lra).
  assert (P1 : 0 < 3 / n ^ 2) by (apply Rdiv_lt_0_compat; lra). assert (P2 : 0 < 1 / n ^ 4) by (apply Rdiv_lt_0_compat; lra).
  rewrite Rabs_pos_eq by lra.
  assert (H4 : 4 < eps * n).
  { apply (Rmult_lt_compat_r (INR N)) in HN; [|exact HP]. rewrite Rinv_l in HN by lra. nra. }
  apply (Rmult_lt_reg_r (n ^ 4)); [assumption|]. replace ((3 / n ^ 2 + 1 / n ^ 4) * n ^ 4) with (3 * n ^ 2 + 1) by (field; lra).
  assert (4 * n ^ 3 < eps * n ^ 4) by (assert (0 < n ^ 3) by (apply pow_lt; lra); nra).
  assert (n ^ 2 <= n ^ 3) by nra. nra.
Qed.
