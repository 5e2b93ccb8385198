(** Sums of two products of three vectors near a tensor of rank three: inequalities for C113. *)
From Verif Require Import Prelude Lin.
Set Implicit Arguments.
Unset Strict Implicit.
Local Open Scope R_scope.

Lemma abs_le x e : Rabs x <= e -> - e <= x <= e.
Proof. intros H. unfold Rabs in H. destruct (Rcase_abs x); lra. Qed.
Lemma mul_le x y u v : Rabs x <= u -> Rabs y <= v -> Rabs (x * y) <= u * v.
Proof. intros Hx Hy. rewrite Rabs_mult. apply Rmult_le_compat; auto using Rabs_pos. Qed.
Lemma sq_le x u : Rabs x <= u -> x ^ 2 <= u ^ 2.
Proof. intros H. apply abs_le in H. nra. Qed.
Lemma sq_pos x : 0 <= x ^ 2.
Proof. nra. Qed.

Section Core.
Variables (a00 a01 a10 a11 b00 b01 b10 b11 c00 c01 c10 c11 : R).
Let t000 := a00 * b00 * c00 + a01 * b01 * c01.
Let t001 := a00 * b00 * c10 + a01 * b01 * c11.
Let t010 := a00 * b10 * c00 + a01 * b11 * c01.
Let t011 := a00 * b10 * c10 + a01 * b11 * c11.
Let t100 := a10 * b00 * c00 + a11 * b01 * c01.
Let t101 := a10 * b00 * c10 + a11 * b01 * c11.
Let t110 := a10 * b10 * c00 + a11 * b11 * c01.
Let t111 := a10 * b10 * c10 + a11 * b11 * c11.
Let dB := b00 * b11 - b01 * b10.
Let D := (a00 * a11 - a01 * a10) * dB.
Let g := c11 * c00 - c10 * c01.

Lemma det_first : t000 * t110 - t010 * t100 = D * (c00 * c01).
Proof. unfold t000, t110, t010, t100, D, dB. ring. Qed.
Lemma corner : t011 * t000 - t001 * t010 = dB * (a00 * a01) * g.
Proof. unfold t000, t010, t001, t011, g, dB. ring. Qed.
Lemma disc : ((t001 * t110 - t011 * t100) + (t111 * t000 - t101 * t010)) ^ 2
  - 4 * (t000 * t110 - t010 * t100) * (t001 * t111 - t011 * t101) = D ^ 2 * g ^ 2.
Proof. unfold t000, t001, t010, t011, t100, t101, t110, t111, g, D, dB. ring. Qed.

Lemma core L e : 0 <= e <= 1 / 4 ->
  Rabs a00 <= L -> Rabs a01 <= L -> Rabs a10 <= L -> Rabs a11 <= L ->
  Rabs b00 <= 1 -> Rabs b01 <= 1 -> Rabs b10 <= 1 -> Rabs b11 <= 1 ->
  Rabs c00 <= 1 -> Rabs c01 <= 1 -> Rabs c10 <= 1 -> Rabs c11 <= 1 ->
  Rabs t000 <= e -> Rabs (t001 - 1) <= e -> Rabs (t010 - 1) <= e -> Rabs t011 <= e ->
  Rabs (t100 - 1) <= e -> Rabs t101 <= e -> Rabs t110 <= e -> Rabs t111 <= e ->
  1 <= 1472 * L ^ 4 * e.
Proof.
  intros He A0 A1 A2 A3 B0 B1 B2 B3 C0 C1 C2 C3 T0 T1 T2 T3 T4 T5 T6 T7.
  pose proof det_first as E1. pose proof corner as E2. pose proof disc as E3.
  clearbody t000 t001 t010 t011 t100 t101 t110 t111.
  assert (HL : 0 <= L) by (pose proof (Rabs_pos a00); lra).
  assert (Hb : dB ^ 2 <= 2 ^ 2).
  { apply sq_le. unfold dB. pose proof (abs_le (mul_le B0 B3)). pose proof (abs_le (mul_le B1 B2)). apply Rabs_le. lra. }
  assert (Ha : (a00 * a01) ^ 2 <= (L * L) ^ 2) by apply (sq_le (mul_le A0 A1)).
  assert (Hc : (c00 * c01) ^ 2 <= (1 * 1) ^ 2) by apply (sq_le (mul_le C0 C1)).
  assert (U1 : Rabs t001 <= 1 + e) by (apply abs_le in T1; apply Rabs_le; lra).
  assert (U2 : Rabs t010 <= 1 + e) by (apply abs_le in T2; apply Rabs_le; lra).
  assert (U4 : Rabs t100 <= 1 + e) by (apply abs_le in T4; apply Rabs_le; lra).
  assert (P1 : 1 / 2 <= t010 * t100 - t000 * t110).
  { pose proof (abs_le (mul_le T0 T6)). apply abs_le in T2, T4.
    assert ((1 - e) * (1 - e) <= t010 * t100) by (apply Rmult_le_compat; lra). nra. }
  assert (P2 : 1 / 2 <= t001 * t010 - t011 * t000).
  { pose proof (abs_le (mul_le T3 T0)). apply abs_le in T2, T1.
    assert ((1 - e) * (1 - e) <= t001 * t010) by (apply Rmult_le_compat; lra). nra. }
  assert (P3 : D ^ 2 * g ^ 2 <= 23 * e).
  { rewrite <- E3.
    assert (Q1 : Rabs (t001 * t110 - t011 * t100 + (t111 * t000 - t101 * t010)) <= 5 * e).
    { pose proof (abs_le (mul_le U1 T6)). pose proof (abs_le (mul_le T3 U4)). pose proof (abs_le (mul_le T7 T0)).
      pose proof (abs_le (mul_le T5 U2)). apply Rabs_le. assert (e * e <= e * (1 / 4)) by nra. lra. }
    assert (Q2 : Rabs (t000 * t110 - t010 * t100) <= 2).
    { pose proof (abs_le (mul_le T0 T6)). pose proof (abs_le (mul_le U2 U4)). apply Rabs_le. assert (e * e <= e * (1 / 4)) by nra. lra. }
    assert (Q3 : Rabs (t001 * t111 - t011 * t101) <= 2 * e).
    { pose proof (abs_le (mul_le U1 T7)). pose proof (abs_le (mul_le T3 T5)). apply Rabs_le. assert (e * e <= e * (1 / 4)) by nra. lra. }
    pose proof (abs_le (mul_le Q2 Q3)). pose proof (sq_le Q1). assert (e * e <= e * (1 / 4)) by nra. nra. }
  assert (V1 : 1 / 4 <= D ^ 2 * (c00 * c01) ^ 2).
  { replace (D ^ 2 * (c00 * c01) ^ 2) with ((t000 * t110 - t010 * t100) ^ 2) by (rewrite E1; ring). nra. }
  assert (V2 : 1 / 4 <= dB ^ 2 * (a00 * a01) ^ 2 * g ^ 2).
  { replace (dB ^ 2 * (a00 * a01) ^ 2 * g ^ 2) with ((t011 * t000 - t001 * t010) ^ 2) by (rewrite E2; ring). nra. }
  assert (V : 1 / 4 * (1 / 4) <= (D ^ 2 * (c00 * c01) ^ 2) * (dB ^ 2 * (a00 * a01) ^ 2 * g ^ 2)) by (apply Rmult_le_compat; lra).
  assert (W1 : dB ^ 2 * (a00 * a01) ^ 2 <= 4 * L ^ 4).
  { replace (4 * L ^ 4) with (2 ^ 2 * (L * L) ^ 2) by ring. apply Rmult_le_compat; auto using sq_pos. }
  assert (W2 : (c00 * c01) ^ 2 * (dB ^ 2 * (a00 * a01) ^ 2) <= 1 * (4 * L ^ 4)).
  { apply Rmult_le_compat; auto using sq_pos, Rmult_le_pos. lra. }
  assert (W3 : (c00 * c01) ^ 2 * (dB ^ 2 * (a00 * a01) ^ 2) * (D ^ 2 * g ^ 2) <= 1 * (4 * L ^ 4) * (23 * e)).
  { apply Rmult_le_compat; auto using sq_pos, Rmult_le_pos. }
  lra.
Qed.
End Core.

(** Rescaling the vectors of one product *)
Definition len2 (x y : R) : R := sqrt (x ^ 2 + y ^ 2).
Lemma len2_ge x y : Rabs x <= len2 x y /\ Rabs y <= len2 x y.
Proof.
  unfold len2. split; rewrite <- sqrt_Rsqr_abs; apply sqrt_le_1_alt; unfold Rsqr; nra.
Qed.
Lemma len2_pos x y : 0 <= len2 x y.
Proof. apply sqrt_pos. Qed.
Lemma len2_zero x y : len2 x y = 0 -> x = 0 /\ y = 0.
Proof.
  intros H. destruct (len2_ge x y) as [H1 H2]. rewrite H in H1, H2. apply abs_le in H1, H2. lra.
Qed.
Lemma balanced (a0 a1 b0 b1 c0 c1 : R) : exists a0' a1' b0' b1' c0' c1',
  (forall a b c, (a = (a0, a0') \/ a = (a1, a1')) -> (b = (b0, b0') \/ b = (b1, b1')) -> (c = (c0, c0') \/ c = (c1, c1')) ->
     fst a * fst b * fst c = snd a * snd b * snd c) /\
  Rabs a0' <= len2 a0 a1 * len2 b0 b1 * len2 c0 c1 /\ Rabs a1' <= len2 a0 a1 * len2 b0 b1 * len2 c0 c1 /\
  Rabs b0' <= 1 /\ Rabs b1' <= 1 /\ Rabs c0' <= 1 /\ Rabs c1' <= 1.
Proof.
  set (nb := len2 b0 b1). set (nc := len2 c0 c1).
  assert (Hb : 0 <= nb) by apply len2_pos. assert (Hc : 0 <= nc) by apply len2_pos. pose proof (len2_pos a0 a1) as Ha.
  destruct (Req_dec nb 0) as [Zb|Zb].
  { destruct (len2_zero Zb) as [-> ->]. exists 0, 0, 0, 0, 0, 0. rewrite Rabs_R0, Zb.
    split; [|repeat split; lra]. intros a b c [-> | ->] [-> | ->] [-> | ->]; cbn; ring. }
  destruct (Req_dec nc 0) as [Zc|Zc].
  { destruct (len2_zero Zc) as [-> ->]. exists 0, 0, 0, 0, 0, 0. rewrite Rabs_R0, Zc.
    split; [|repeat split; lra]. intros a b c [-> | ->] [-> | ->] [-> | ->]; cbn; ring. }
  exists (a0 * nb * nc), (a1 * nb * nc), (b0 / nb), (b1 / nb), (c0 / nc), (c1 / nc).
  destruct (len2_ge a0 a1) as [A0 A1]. destruct (len2_ge b0 b1) as [B0 B1]. destruct (len2_ge c0 c1) as [C0 C1].
  fold nb in B0, B1. fold nc in C0, C1.
  split. { intros a b c [-> | ->] [-> | ->] [-> | ->]; cbn; field; auto. }
  assert (Q : forall x n, 0 <= n -> n <> 0 -> Rabs x <= n -> Rabs (x / n) <= 1).
  { intros x n H0 Hn Hx. unfold Rdiv. rewrite Rabs_mult, (Rabs_pos_eq (/ n)) by (left; apply Rinv_0_lt_compat; lra).
    apply (Rmult_le_reg_r n); [lra|]. rewrite Rmult_assoc, Rinv_l by assumption. lra. }
  rewrite !Rabs_mult, (Rabs_pos_eq nb), (Rabs_pos_eq nc) by assumption.
  repeat split; auto; repeat apply Rmult_le_compat_r; assumption.
Qed.
