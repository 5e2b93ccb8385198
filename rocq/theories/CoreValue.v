(** Core consistency: what the function computes (C66). *)
From Coq Require Import IndefiniteDescription.
From Verif Require Export CoreFacts Exists.
Set Implicit Arguments.
Unset Strict Implicit.
Local Open Scope R_scope.

Definition core_tail (normalized : bool) (F : nat) (G : nd) : res xr :=
  do D <- np_sub G (as_column (superdiagonal F)) ;
  if Nat.eqb F 0 && negb normalized then Err ZeroDivisionError
  else let denom := if normalized then norm G ^ 2 else INR F in
       Ok (xmul (Fin 100) (xsub (Fin 1) (xdivR (norm2 D) denom))).

Lemma core_steps qr X A B C normalized n1 n2 n3 F : core_setting n1 n2 n3 F X A B C -> qr_contract qr ->
  exists c A' B' C' K Q T, is_mat n1 F A' /\ is_mat n2 F B' /\ is_mat n3 F C' /\
    (forall r, (r < F)%nat -> is_cube_root (clen A r * clen B r * clen C r) (c r)) /\
    (forall i r, (i < n1)%nat -> (r < F)%nat -> mget A' i r = balanced eps15 A c i r) /\
    (forall i r, (i < n2)%nat -> (r < F)%nat -> mget B' i r = balanced eps15 B c i r) /\
    (forall i r, (i < n3)%nat -> (r < F)%nat -> mget C' i r = balanced eps15 C c i r) /\
    is_qr (n1 * n2 * n3) (F * F * F) K Q T /\
    (forall i j l r s t, (i < n1)%nat -> (j < n2)%nat -> (l < n3)%nat -> (r < F)%nat -> (s < F)%nat -> (t < F)%nat ->
      mget K ((i * n2 + j) * n3 + l) ((r * F + s) * F + t) = mget A' i r * mget B' j s * mget C' l t) /\
    core_consistency qr X A B C normalized = do G <- qr_steps Q T (as_column X) ; core_tail normalized F G.
Proof.
  intros (HA & HB & HC & HX & HS) Hqr.
  destruct (spread_ok HA HB HC) as (c & A' & B' & C' & ES & HA' & HB' & HC' & Hc & EA & EB & EC).
  destruct (kron3_ok HA' HB' HC') as (k & Ek & Hk & Ent).
  destruct (Hqr _ _ _ (is_mat_transp Hk)) as (Q & T & EQ & HQ).
  exists c, A', B', C', (transp k), Q, T. repeat (split; [assumption|]).
  unfold core_consistency, shape_at. rewrite (proj2 HA). cbn [nth_error bind]. rewrite ES. cbn [bind]. rewrite Ek. cbn [bind].
  rewrite EQ. cbn [bind]. unfold qr_steps, core_tail. destruct (matmul (transp Q) (as_column X)); reflexivity.
Qed.

(** Positions in the flattened core *)
Lemma flat_inv F q : (q < F * F * F)%nat -> exists r s t, (r < F)%nat /\ (s < F)%nat /\ (t < F)%nat /\ q = ((r * F + s) * F + t)%nat.
Proof.
  intros Hq. assert (HF : F <> 0%nat) by (intros ->; cbn in Hq; lia).
  exists (q / F / F)%nat, (q / F mod F)%nat, (q mod F)%nat.
  assert (H1 : (q / F < F * F)%nat) by (apply Nat.div_lt_upper_bound; lia).
  repeat split; try (apply Nat.mod_upper_bound; assumption); [apply Nat.div_lt_upper_bound; lia|].
  pose proof (Nat.div_mod q F HF). pose proof (Nat.div_mod (q / F) F HF).
  replace (q / F / F * F + (q / F) mod F)%nat with (q / F)%nat by lia. lia.
Qed.
Definition unflat (F : nat) (H : nat -> nat -> nat -> R) (q : nat) : R := H (q / F / F)%nat (q / F mod F)%nat (q mod F)%nat.
Lemma unflat_flat F H r s t : (r < F)%nat -> (s < F)%nat -> (t < F)%nat -> unflat F H ((r * F + s) * F + t) = H r s t.
Proof.
  intros Hr Hs Ht. unfold unflat.
  assert (E1 : (((r * F + s) * F + t) / F = r * F + s)%nat) by (rewrite Nat.div_add_l, Nat.div_small; lia).
  assert (E2 : ((r * F + s) / F = r)%nat) by (rewrite Nat.div_add_l, Nat.div_small; lia).
  rewrite E1, E2. f_equal.
  - rewrite Nat.add_comm, Nat.mod_add by lia. now apply Nat.mod_small.
  - rewrite Nat.add_comm, Nat.mod_add by lia. now apply Nat.mod_small.
Qed.

Section Kron.
  Variables (n1 n2 n3 F : nat) (A B C K : nd).
  Hypothesis Ent : forall i j l r s t, (i < n1)%nat -> (j < n2)%nat -> (l < n3)%nat -> (r < F)%nat -> (s < F)%nat -> (t < F)%nat ->
      mget K ((i * n2 + j) * n3 + l) ((r * F + s) * F + t) = mget A i r * mget B j s * mget C l t.
  Lemma kron_row y i j l : (i < n1)%nat -> (j < n2)%nat -> (l < n3)%nat ->
    sum (F * F * F) (fun q => mget K ((i * n2 + j) * n3 + l) q * y q) =
    tucker_entry F (mget A) (mget B) (mget C) (fun r s t => y ((r * F + s) * F + t)%nat) i j l.
  Proof.
    intros Hi Hj Hl. rewrite sum3_flat. apply sum3_ext. intros r s t Hr Hs Ht. now rewrite Ent.
  Qed.
  Lemma kron_dist X y : wf X -> shape X = [n1; n2; n3] ->
    sum (n1 * n2 * n3) (fun p => (mget (as_column X) p 0 - sum (F * F * F) (fun q => mget K p q * y q)) ^ 2) =
    tucker_dist n1 n2 n3 F X (mget A) (mget B) (mget C) (fun r s t => y ((r * F + s) * F + t)%nat).
  Proof.
    intros HX HS. destruct (as_column_mat HX HS) as (_ & Ecol). rewrite sum3_flat. apply sum3_ext.
    intros i j l Hi Hj Hl. rewrite Ecol, kron_row by auto. reflexivity.
  Qed.
  Lemma kron_injective : injective n1 F (mget A) -> injective n2 F (mget B) -> injective n3 F (mget C) ->
    injective (n1 * n2 * n3) (F * F * F) (mget K).
  Proof.
    intros HA HB HC y Hy q Hq. destruct (flat_inv Hq) as (r & s & t & Hr & Hs & Ht & ->).
    apply (@tucker_injective n1 n2 n3 F (mget A) (mget B) (mget C) (fun r s t => y ((r * F + s) * F + t)%nat)); auto.
    intros i j k Hi Hj Hk. rewrite <- kron_row by auto. apply Hy. auto using flat_lt.
  Qed.
  Lemma kron_injective_inv : injective (n1 * n2 * n3) (F * F * F) (mget K) ->
    injective n1 F (mget A) /\ injective n2 F (mget B) /\ injective n3 F (mget C).
  Proof.
    intros HI.
    assert (H : forall D, (forall i j k, (i < n1)%nat -> (j < n2)%nat -> (k < n3)%nat -> tucker_entry F (mget A) (mget B) (mget C) D i j k = 0) ->
              forall r s t, (r < F)%nat -> (s < F)%nat -> (t < F)%nat -> D r s t = 0).
    { intros D HD r s t Hr Hs Ht. rewrite <- (@unflat_flat F D) by auto.
      apply HI; [|auto using flat_lt]. intros p Hp.
      assert (Hex : exists i j k, (i < n1)%nat /\ (j < n2)%nat /\ (k < n3)%nat /\ p = ((i * n2 + j) * n3 + k)%nat).
      { assert (n3 <> 0%nat) by (intros E; rewrite E, Nat.mul_0_r in Hp; lia).
        assert (n2 <> 0%nat) by (intros E; rewrite E, Nat.mul_0_r in Hp; lia).
        exists (p / n3 / n2)%nat, (p / n3 mod n2)%nat, (p mod n3)%nat.
        assert (H1 : (p / n3 < n1 * n2)%nat) by (apply Nat.div_lt_upper_bound; lia).
        repeat split; try (apply Nat.mod_upper_bound; assumption); [apply Nat.div_lt_upper_bound; lia|].
        pose proof (Nat.div_mod p n3 ltac:(assumption)). pose proof (Nat.div_mod (p / n3) n2 ltac:(assumption)).
        replace (p / n3 / n2 * n2 + (p / n3) mod n2)%nat with (p / n3)%nat by lia. lia. }
      destruct Hex as (i & j & k & Hi & Hj & Hk & ->). rewrite kron_row by auto.
      rewrite <- (HD i j k) by auto. apply sum3_ext. intros. now rewrite unflat_flat. }
    repeat split; intros c Hc r Hr.
    - replace (c r) with (c r * delta r r * delta r r) by (rewrite delta_refl; ring).
      apply (H (fun a b d => c a * delta r b * delta r d)); auto. intros i j k Hi Hj Hk. unfold tucker_entry, sum3.
      transitivity (sum F (fun a => (mget A i a * c a) * (mget B j r * mget C k r))).
      + apply sum_ext. intros a Ha.
        rewrite (@sum_ext F _ (fun b => delta r b * (mget A i a * c a * mget B j b * mget C k r))).
        * rewrite sum_delta_l by auto. ring.
        * intros b Hb. rewrite (@sum_ext F _ (fun d => delta r d * (mget A i a * c a * mget B j b * mget C k d * delta r b))) by (intros; ring).
          rewrite sum_delta_l by auto. ring.
      + rewrite sum_scal_r, Hc by auto. ring.
    - replace (c r) with (delta r r * c r * delta r r) by (rewrite delta_refl; ring).
      apply (H (fun a b d => delta r a * c b * delta r d)); auto. intros i j k Hi Hj Hk. unfold tucker_entry, sum3.
      transitivity (sum F (fun a => delta r a * (mget A i a * mget C k r * sum F (fun b => mget B j b * c b)))).
      + apply sum_ext. intros a Ha. rewrite <- !sum_scal_l.
        apply sum_ext. intros b Hb.
        rewrite (@sum_ext F _ (fun d => delta r d * (mget A i a * mget B j b * c b * mget C k d * delta r a))) by (intros; ring).
        rewrite sum_delta_l by auto. ring.
      + rewrite sum_delta_l, Hc by auto. ring.
    - replace (c r) with (delta r r * delta r r * c r) by (rewrite delta_refl; ring).
      apply (H (fun a b d => delta r a * delta r b * c d)); auto. intros i j k Hi Hj Hk. unfold tucker_entry, sum3.
      transitivity (sum F (fun a => delta r a * (mget A i a * mget B j r * sum F (fun d => mget C k d * c d)))).
      + apply sum_ext. intros a Ha.
        rewrite (@sum_ext F _ (fun b => delta r b * (delta r a * mget A i a * mget B j b * sum F (fun d => mget C k d * c d)))).
        * rewrite sum_delta_l by auto. ring.
        * intros b Hb. rewrite <- !sum_scal_l. apply sum_ext. intros; ring.
      + rewrite sum_delta_l, Hc by auto. ring.
  Qed.
End Kron.

Lemma tucker_entry_ext F (A B C A' B' C' : nat -> nat -> R) G G' i j k :
  (forall r, (r < F)%nat -> A i r = A' i r) -> (forall r, (r < F)%nat -> B j r = B' j r) -> (forall r, (r < F)%nat -> C k r = C' k r) ->
  (forall r s t, (r < F)%nat -> (s < F)%nat -> (t < F)%nat -> G r s t = G' r s t) ->
  tucker_entry F A B C G i j k = tucker_entry F A' B' C' G' i j k.
Proof. intros HA HB HC HG. apply sum3_ext. intros. now rewrite HA, HB, HC, HG. Qed.
Lemma tucker_dist_ext n1 n2 n3 F X (A B C A' B' C' : nat -> nat -> R) G G' :
  (forall i r, (i < n1)%nat -> (r < F)%nat -> A i r = A' i r) -> (forall i r, (i < n2)%nat -> (r < F)%nat -> B i r = B' i r) ->
  (forall i r, (i < n3)%nat -> (r < F)%nat -> C i r = C' i r) ->
  (forall r s t, (r < F)%nat -> (s < F)%nat -> (t < F)%nat -> G r s t = G' r s t) ->
  tucker_dist n1 n2 n3 F X A B C G = tucker_dist n1 n2 n3 F X A' B' C' G'.
Proof.
  intros HA HB HC HG. apply sum3_ext. intros. do 2 f_equal. apply tucker_entry_ext; auto.
Qed.

Lemma balanced_injective n F U c : is_mat n F U -> (forall r, (r < F)%nat -> c r <> 0) -> injective n F (mget U) ->
  injective n F (balanced eps15 U c).
Proof.
  intros HU Hc HI. apply (@injective_ext n F (fun i r => mget U i r * (c r / (clen U r + eps15)))).
  - intros i r Hi Hr. unfold balanced, Rdiv. ring.
  - apply injective_scale; auto. intros r Hr. pose proof (clen_nonneg U r). pose proof eps15_pos.
    apply Rmult_integral_contrapositive_currified; auto. apply Rinv_neq_0_compat. lra.
Qed.
Lemma balanced_injective_inv n F U c : injective n F (balanced eps15 U c) -> injective n F (mget U).
Proof.
  intros HI. apply (@injective_unscale n F (mget U) (fun r => c r / (clen U r + eps15))).
  apply (@injective_ext n F (balanced eps15 U c)); auto. intros i r Hi Hr. unfold balanced, Rdiv. ring.
Qed.
Lemma cube_root_pos x y : is_cube_root x y -> 0 < x -> 0 < y.
Proof. intros [H E] Hx. destruct H as [H|H]; auto. subst y. rewrite <- E in Hx. lra. Qed.

(** The superdiagonal tensor and the tail of the function *)
Lemma superdiagonal_get F r s t : (r < F)%nat -> (s < F)%nat -> (t < F)%nat -> get (superdiagonal F) [r; s; t] = cp_core r s t.
Proof.
  intros Hr Hs Ht. unfold superdiagonal. rewrite get_tab.
  - cbn [nth]. unfold cp_core, delta. destruct (Nat.eqb_spec r s), (Nat.eqb_spec s t); cbn [andb]; ring.
  - repeat (constructor; auto).
Qed.
Lemma core_tail_ok normalized F G : is_mat (F * F * F) 1 G -> (1 <= F)%nat ->
  let g := fun r s t => mget G ((r * F + s) * F + t) 0 in
  core_tail normalized F G = Ok (xmul (Fin 100) (xsub (Fin 1)
     (xdivR (sum3 F F F (fun r s t => (g r s t - cp_core r s t) ^ 2)) (if normalized then sum3 F F F (fun r s t => g r s t ^ 2) else INR F)))).
Proof.
  intros HG HF g. unfold core_tail.
  destruct (@as_column_mat F F F (superdiagonal F)) as (HT & ET); [apply wf_tab|apply shape_tab|].
  unfold np_sub. rewrite (broadcast_mat Rminus HG HT). cbn [bind].
  destruct (Nat.eqb_spec F 0); [lia|]. cbn [andb]. do 2 f_equal.
  assert (E1 : norm2 (tab2 (F * F * F) 1 (fun i j => mget G i j - mget (as_column (superdiagonal F)) i j)) =
               sum3 F F F (fun r s t => (g r s t - cp_core r s t) ^ 2)).
  { rewrite (norm2_mat (is_mat_tab2 _ _ _)), sum3_flat. apply sum3_ext. intros r s t Hr Hs Ht. cbn [seq sumf]. unfold g.
    rewrite mget_tab2 by (auto using flat_lt). rewrite ET, superdiagonal_get by auto. ring. }
  assert (E2 : norm G ^ 2 = sum3 F F F (fun r s t => g r s t ^ 2)).
  { replace (norm G ^ 2) with (norm G * norm G) by ring. rewrite norm_sq, (norm2_mat HG), sum3_flat. apply sum3_ext.
    intros r s t Hr Hs Ht. cbn [seq sumf]. unfold g. ring. }
  rewrite E1, E2. reflexivity.
Qed.

(** *** The value *)
Lemma core_value qr X A B C normalized n1 n2 n3 F : core_setting n1 n2 n3 F X A B C -> qr_contract qr -> (1 <= F)%nat ->
  independent_columns n1 F A -> independent_columns n2 F B -> independent_columns n3 F C ->
  exists c G, (forall r, (r < F)%nat -> is_cube_root (clen A r * clen B r * clen C r) (c r)) /\
    best_core n1 n2 n3 F X (balanced eps15 A c) (balanced eps15 B c) (balanced eps15 C c) G /\
    core_consistency qr X A B C normalized = Ok (xmul (Fin 100) (xsub (Fin 1)
     (xdivR (sum3 F F F (fun r s t => (G r s t - cp_core r s t) ^ 2)) (if normalized then sum3 F F F (fun r s t => G r s t ^ 2) else INR F)))).
Proof.
  intros HC Hqr HF IA IB IC.
  destruct (core_steps normalized HC Hqr) as (c & A' & B' & C' & K & Q & T & HA' & HB' & HC' & Hc & EA & EB & EC & HQ & Ent & E).
  destruct HC as (HA & HB & HCm & HX & HS).
  assert (Hcp : forall r, (r < F)%nat -> c r <> 0).
  { intros r Hr. apply Rgt_not_eq. apply (cube_root_pos (Hc r Hr)).
    repeat apply Rmult_lt_0_compat; [apply (injective_clen HA IA Hr)|apply (injective_clen HB IB Hr)|apply (injective_clen HCm IC Hr)]. }
  assert (HI : injective (n1 * n2 * n3) (F * F * F) (mget K)).
  { apply (kron_injective Ent).
    - apply (@injective_ext n1 F (balanced eps15 A c)); [intros; symmetry; now apply EA|]. now apply balanced_injective.
    - apply (@injective_ext n2 F (balanced eps15 B c)); [intros; symmetry; now apply EB|]. now apply balanced_injective.
    - apply (@injective_ext n3 F (balanced eps15 C c)); [intros; symmetry; now apply EC|]. now apply balanced_injective. }
  destruct (qr_solve (proj1 (as_column_mat HX HS)) HQ HI) as (G & EG & HG & HB0).
  exists c, (fun r s t => mget G ((r * F + s) * F + t) 0). split; [exact Hc|]. split.
  - intros H. rewrite <- (@tucker_dist_ext n1 n2 n3 F X (mget A') (mget B') (mget C') _ _ _ (fun r s t => mget G ((r * F + s) * F + t) 0)) by auto.
    rewrite <- (@tucker_dist_ext n1 n2 n3 F X (mget A') (mget B') (mget C') (balanced eps15 A c) (balanced eps15 B c) (balanced eps15 C c)
       (fun r s t => unflat F H ((r * F + s) * F + t)) H) by (auto; intros; now apply unflat_flat).
    rewrite <- (kron_dist Ent (fun q => mget G q 0) HX HS), <- (kron_dist Ent (unflat F H) HX HS). apply HB0.
  - rewrite E, EG. cbn [bind]. rewrite core_tail_ok by auto. reflexivity.
Qed.
(** Dependent columns *)
Lemma core_dependent qr X A B C normalized n1 n2 n3 F : core_setting n1 n2 n3 F X A B C -> qr_contract qr ->
  ~ (independent_columns n1 F A /\ independent_columns n2 F B /\ independent_columns n3 F C) ->
  core_consistency qr X A B C normalized = Err (if Nat.ltb (n1 * n2 * n3) (F * F * F) then ValueError else LinAlgError).
Proof.
  intros HC Hqr HN.
  destruct (core_steps normalized HC Hqr) as (c & A' & B' & C' & K & Q & T & HA' & HB' & HC' & Hc & EA & EB & EC & HQ & Ent & E).
  destruct HC as (HA & HB & HCm & HX & HS). rewrite E. rewrite (qr_dependent (proj1 (as_column_mat HX HS)) HQ); [reflexivity|].
  intros HI. apply HN. destruct (kron_injective_inv Ent HI) as (I1 & I2 & I3).
  repeat split.
  - apply (@balanced_injective_inv n1 F A c). apply (@injective_ext n1 F (mget A')); auto.
  - apply (@balanced_injective_inv n2 F B c). apply (@injective_ext n2 F (mget B')); auto.
  - apply (@balanced_injective_inv n3 F C c). apply (@injective_ext n3 F (mget C')); auto.
Qed.
Lemma core_at_most_100 qr X A B C normalized v : core_consistency qr X A B C normalized = Ok (Fin v) -> v <= 100.
Proof.
  unfold core_consistency. intros H.
  repeat match type of H with
  | bind ?m _ = _ => let E := fresh "E" in destruct m as [?x|] eqn:E; [cbn [bind] in H|discriminate]
  | (let '(_, _) := ?p in _) = _ => destruct p
  end.
  match type of H with (if ?b then _ else _) = _ => destruct b eqn:Eb; [discriminate|] end.
  cbv zeta in H. set (d := if normalized then _ else _) in H.
  assert (Hd : 0 <= d).
  { unfold d. destruct normalized; [apply pow2_ge_0|apply pos_INR]. }
  match type of H with context [norm2 ?D] => pose proof (norm2_nonneg D) as Hn; set (N := norm2 D) in * end.
  clearbody d N. unfold xdivR in H. destruct (Req_EM_T d 0) as [Hz|Hz].
  - exfalso. repeat match type of H with context [if ?b then _ else _] => destruct b; cbn in H end; try discriminate; lra.
  - cbn in H. injection H as <-. assert (0 <= N / d); [|lra].
    apply Rmult_le_pos; auto. left. apply Rinv_0_lt_compat. lra.
Qed.
(** *** Data that follow the model *)
Lemma best_core_exact n1 n2 n3 F X A B C G g : injective n1 F A -> injective n2 F B -> injective n3 F C ->
  best_core n1 n2 n3 F X A B C G ->
  (forall i j k, (i < n1)%nat -> (j < n2)%nat -> (k < n3)%nat -> get X [i; j; k] = tucker_entry F A B C g i j k) ->
  forall r s t, (r < F)%nat -> (s < F)%nat -> (t < F)%nat -> G r s t = g r s t.
Proof.
  intros IA IB IC HB HX r s t Hr Hs Ht. specialize (HB g).
  assert (E0 : tucker_dist n1 n2 n3 F X A B C g = 0).
  { unfold tucker_dist. rewrite (@sum3_ext n1 n2 n3 _ (fun _ _ _ => 0)) by (intros; rewrite HX by auto; ring).
    unfold sum3. apply sum_zero; intros; apply sum_zero; intros; apply sum_zero; auto. }
  rewrite E0 in HB.
  assert (Hpos : forall i j k, 0 <= (get X [i; j; k] - tucker_entry F A B C G i j k) ^ 2) by (intros; apply pow2_ge_0).
  assert (E1 : tucker_dist n1 n2 n3 F X A B C G = 0) by (apply Rle_antisym; [exact HB|now apply sum3_nonneg]).
  assert (D : G r s t - g r s t = 0); [|lra].
  apply (@tucker_injective n1 n2 n3 F A B C (fun r s t => G r s t - g r s t)); auto.
  intros i j k Hi Hj Hk. pose proof (@sum3_zero n1 n2 n3 _ Hpos E1 i j k Hi Hj Hk) as Z. cbv beta in Z.
  transitivity (tucker_entry F A B C G i j k - tucker_entry F A B C g i j k).
  - unfold tucker_entry, sum3. rewrite <- Lin.sum_minus. apply sum_ext; intros. rewrite <- Lin.sum_minus. apply sum_ext; intros.
    rewrite <- Lin.sum_minus. apply sum_ext; intros. ring.
  - rewrite <- HX by auto. nra.
Qed.
Lemma tucker_diag F (A B C : nat -> nat -> R) g i j k :
  tucker_entry F A B C (fun r s t => cp_core r s t * g r) i j k = sum F (fun r => A i r * B j r * C k r * g r).
Proof.
  unfold tucker_entry, sum3. apply sum_ext. intros r Hr.
  rewrite (@sum_ext F _ (fun s => delta r s * (A i r * B j s * C k s * g r))).
  - now rewrite sum_delta_l.
  - intros s Hs. rewrite (@sum_ext F _ (fun t => delta s t * (delta r s * (A i r * B j s * C k t * g r)))) by (intros; unfold cp_core; ring).
    rewrite sum_delta_l by auto. reflexivity.
Qed.
Lemma sum3_diag F g : sum3 F F F (fun r s t => (cp_core r s t * g r - cp_core r s t) ^ 2) = sum F (fun r => (g r - 1) ^ 2).
Proof.
  unfold sum3. apply sum_ext. intros r Hr.
  rewrite (@sum_ext F _ (fun s => delta r s * (g r - 1) ^ 2)).
  - now rewrite sum_delta_l.
  - intros s Hs. rewrite (@sum_ext F _ (fun t => delta s t * (delta r s * (g r - 1) ^ 2))).
    + now rewrite sum_delta_l.
    + intros t Ht. unfold cp_core, delta. destruct (Nat.eqb r s), (Nat.eqb s t); ring.
Qed.
Lemma core_exact qr X A B C n1 n2 n3 F w : core_setting n1 n2 n3 F X A B C -> qr_contract qr -> (1 <= F)%nat ->
  independent_columns n1 F A -> independent_columns n2 F B -> independent_columns n3 F C ->
  (forall i j k, (i < n1)%nat -> (j < n2)%nat -> (k < n3)%nat ->
     get X [i; j; k] = sum F (fun r => w r * mget A i r * mget B j r * mget C k r)) ->
  core_consistency qr X A B C false =
    Ok (Fin (100 * (1 - sum F (fun r => (w r * smoothing eps15 A B C r - 1) ^ 2) / INR F))).
Proof.
  intros HC Hqr HF IA IB IC HX.
  destruct (core_value false HC Hqr HF IA IB IC) as (c & G & Hc & HG & E). rewrite E.
  destruct HC as (HA & HB & HCm & HXw & HS).
  assert (PA : forall r, (r < F)%nat -> 0 < clen A r) by (intros r Hr; apply (injective_clen HA IA Hr)).
  assert (PB : forall r, (r < F)%nat -> 0 < clen B r) by (intros r Hr; apply (injective_clen HB IB Hr)).
  assert (PC : forall r, (r < F)%nat -> 0 < clen C r) by (intros r Hr; apply (injective_clen HCm IC Hr)).
  assert (Hcp : forall r, (r < F)%nat -> c r <> 0).
  { intros r Hr. apply Rgt_not_eq. apply (cube_root_pos (Hc r Hr)). repeat apply Rmult_lt_0_compat; auto. }
  assert (EG : forall r s t, (r < F)%nat -> (s < F)%nat -> (t < F)%nat -> G r s t = cp_core r s t * (w r * smoothing eps15 A B C r)).
  { apply (@best_core_exact n1 n2 n3 F X (balanced eps15 A c) (balanced eps15 B c) (balanced eps15 C c) G
      (fun r s t => cp_core r s t * (w r * smoothing eps15 A B C r))); auto using balanced_injective.
    intros i j k Hi Hj Hk. rewrite HX, tucker_diag by auto. apply sum_ext. intros r Hr. unfold balanced, smoothing.
    pose proof (PA r Hr). pose proof (PB r Hr). pose proof (PC r Hr). pose proof eps15_pos. pose proof (Hcp r Hr).
    assert (E3 : clen A r * clen B r * clen C r = c r ^ 3) by (symmetry; apply (Hc r Hr)).
    set (p := clen A r) in *. set (q := clen B r) in *. set (u := clen C r) in *. clearbody p q u.
    replace ((1 + eps15 / p) * (1 + eps15 / q) * (1 + eps15 / u)) with ((p + eps15) * (q + eps15) * (u + eps15) / (c r ^ 3))
      by (rewrite <- E3; field; lra).
    field. repeat split; try lra. }
  rewrite (@sum3_ext F F F (fun r s t => (G r s t - cp_core r s t) ^ 2)
     (fun r s t => (cp_core r s t * (w r * smoothing eps15 A B C r) - cp_core r s t) ^ 2)) by (intros; now rewrite EG).
  rewrite (@sum3_diag F (fun r => w r * smoothing eps15 A B C r)). cbn [xmul xsub].
  unfold xdivR. destruct (Req_EM_T (INR F) 0) as [Hz|Hz]; [exfalso; apply INR_eq with (m := 0%nat) in Hz; lia|]. reflexivity.
Qed.

(** *** PARAFAC2 *)
Lemma core_projected qr junk Xs Ps A B C nI F : is_mat nI F A -> is_mat F F B -> is_mat (length Xs) F C -> length Ps = length Xs ->
  (forall k, (k < length Xs)%nat -> is_mat nI (width Xs k) (nth k Xs m0) /\ is_mat (width Xs k) F (nth k Ps m0)) ->
  exists PX, core_setting nI F (length Xs) F PX A B C /\
    core_consistency_parafac2 qr junk Xs Ps A B C = core_consistency qr PX A B C false /\
    forall i q k, (i < nI)%nat -> (q < F)%nat -> (k < length Xs)%nat -> get PX [i; q; k] = projected_entry Xs Ps i q k.
Proof.
  intros HA HB HC Hl HX. unfold core_consistency_parafac2.
  rewrite (shape_at_0 HA), (shape_at_0 HC). unfold shape_at. rewrite (proj2 HB). cbn [nth_error bind].
  rewrite (@combine_seq_map _ m0), foldM_map, Hl.
  destruct (@foldM_seq_inv nd (fun T k => let '(k, P) := (k, nth (k - 0) Ps m0) in
       do Xk <- list_get Xs k ; do XP <- matmul Xk P ; set_last T k XP)
     (fun n T => wf T /\ shape T = [nI; F; length Xs] /\
        forall i q k, (i < nI)%nat -> (q < F)%nat -> (k < n)%nat -> (k < length Xs)%nat ->
          get T [i; q; k] = projected_entry Xs Ps i q k)
     0%nat (length Xs) (np_empty junk [nI; F; length Xs])) as (T & ET & HT & HTs & HTe).
  - split; [|split; [reflexivity|lia]]. unfold wf, np_empty. cbn [data shape]. now rewrite map_length, seq_length.
  - intros k T Hk (HT & HTs & HTe). cbn beta iota. rewrite Nat.sub_0_r, (@list_get_ok _ _ k m0) by lia. cbn [bind].
    destruct (HX k ltac:(lia)) as [HXk HPk]. rewrite (matmul_ok HXk HPk). cbn [bind].
    set (XP := tab2 _ _ _). assert (HXP : is_mat nI F XP) by (apply is_mat_tab2).
    destruct (@set_last_ok nI F (length Xs) T k XP HT HTs HXP ltac:(lia)) as (T' & ET' & HT' & HTs' & HTe').
    exists T'. split; [exact ET'|]. split; [exact HT'|]. split; [exact HTs'|].
    intros i q l Hi Hq Hlk Hl'. rewrite HTe' by auto. destruct (Nat.eqb_spec l k) as [->|Hne].
    + unfold XP. rewrite mget_tab2 by auto. reflexivity.
    + apply HTe; auto. lia.
  - exists T. rewrite ET. cbn [bind]. split; [|split; [reflexivity|]].
    + unfold core_setting. auto.
    + intros i q k Hi Hq Hk. apply HTe; auto; lia.
Qed.
Lemma projected_exact K nI A B C Xs Ps i q k : (i < nI)%nat -> (q < K)%nat ->
  orth_cols (width Xs k) K (mget (nth k Ps m0)) ->
  (forall j, (j < width Xs k)%nat -> mget (nth k Xs m0) i j = pf_entry K A B C k (mget (nth k Ps m0)) i j) ->
  projected_entry Xs Ps i q k = sum K (fun r => 1 * mget A i r * mget B q r * mget C k r).
Proof.
  intros Hi Hq HO HX. unfold projected_entry.
  set (P := mget (nth k Ps m0)) in *. set (n := width Xs k) in *.
  rewrite (@sum_ext n _ (fun j => sum K (fun r => (mget A i r * mget C k r) * (mprod K P (mget B) j r * P j q)))).
  - rewrite sum_swap. apply sum_ext. intros r Hr. rewrite sum_scal_l.
    assert (E : sum n (fun j => mprod K P (mget B) j r * P j q) = mget B q r).
    { unfold mprod. rewrite (@sum_ext n _ (fun j => sum K (fun a => (P j q * P j a) * mget B a r))).
      - rewrite sum_swap. rewrite (@sum_ext K _ (fun a => delta q a * mget B a r)); [now rewrite sum_delta_l|].
        intros a Ha. rewrite sum_scal_r. now rewrite HO.
      - intros j Hj. rewrite <- sum_scal_r. apply sum_ext. intros; ring. }
    rewrite E. ring.
  - intros j Hj. rewrite HX by auto. unfold pf_entry. rewrite <- sum_scal_r. apply sum_ext. intros; ring.
Qed.

(** *** Every matrix has a QR factorisation *)
Lemma qr_exists_fun n : forall m A, exists H T, orth_cols n n H /\
  (forall i j, (i < n)%nat -> (j < m)%nat -> (j < i)%nat -> T i j = 0) /\
  forall i j, (i < n)%nat -> (j < m)%nat -> A i j = mprod n H T i j.
Proof.
  induction n as [|n IH]; intros m A.
  { exists (fun _ _ => 0), (fun _ _ => 0). repeat split; intros; try lia. intros a b Ha; lia. }
  destruct m as [|m].
  { exists delta, (fun _ _ => 0). repeat split; intros; try lia.
    intros a b Ha Hb. rewrite (@sum_ext (S n) _ (fun i => delta a i * delta i b)) by (intros; now rewrite (delta_sym a)).
    now rewrite sum_delta_l. }
  (* a reflection that moves the first column to a multiple of the first axis *)
  assert (HR : exists W d, (forall i j, W i j = W j i) /\
     (forall i j, (i < S n)%nat -> (j < S n)%nat -> mprod (S n) W W i j = delta i j) /\
     forall i, (i < S n)%nat -> A i 0%nat = W i 0%nat * d).
  { set (N := n2 (S n) (fun i => A i 0%nat)). destruct (Req_dec N 0) as [Hz|Hz].
    - exists delta, 0. split; [apply delta_sym|]. split.
      + intros i j Hi Hj. unfold mprod. now rewrite sum_delta_l.
      + intros i Hi. rewrite (@n2_zero (S n) (fun i => A i 0%nat) Hz i Hi). ring.
    - destruct (@reflection n (fun i => / sqrt N * A i 0%nat)) as (W & W1 & W2 & W3); [now apply n2_unit|].
      exists W, (sqrt N). split; auto. split; auto. intros i Hi. rewrite W3 by auto.
      assert (0 < N) by (pose proof (n2_nonneg (S n) (fun i => A i 0%nat)); unfold N in *; lra).
      field. apply Rgt_not_eq. now apply sqrt_lt_R0. }
  destruct HR as (W & d & W1 & W2 & W3).
  set (A1 := mprod (S n) W A).
  destruct (IH m (fun i j => A1 (S i) (S j))) as (H & T & HH & HT & HP).
  exists (mprod (S n) W (up H)).
  set (T' := fun i j : nat => match i, j with O, _ => A1 0%nat j | S i, S j => T i j | S _, O => 0 end).
  exists T'. split; [|split].
  - apply reflect_orth_cols; auto. now apply up_orth_cols.
  - intros [|i] [|j] Hi Hj Hji; try lia; auto. apply HT; lia.
  - intros i j Hi Hj.
    assert (E1 : forall p, (p < S n)%nat -> mprod (S n) (up H) T' p j = A1 p j).
    { intros p Hp. unfold mprod. rewrite sum_S_first. destruct p as [|p].
      - rewrite sum_zero by (intros; cbn [up]; ring). cbn [up T']. ring.
      - cbn [up]. destruct j as [|j].
        + rewrite sum_zero by (intros; cbn [T']; ring). unfold A1, mprod.
          rewrite (@sum_ext (S n) _ (fun k => W (S p) k * W k 0%nat * d)) by (intros k Hk; rewrite W3 by auto; ring).
          rewrite sum_scal_r. pose proof (W2 (S p) 0%nat Hp ltac:(lia)) as E. unfold mprod in E. rewrite E.
          rewrite delta_neq by lia. ring.
        + cbn [T']. rewrite (HP p j) by lia. unfold mprod. ring. }
    assert (E2 : A i j = mprod (S n) W A1 i j).
    { unfold A1, mprod. rewrite (@sum_ext (S n) _ (fun k => sum (S n) (fun l => W i k * W k l * A l j))).
      - rewrite sum_swap. rewrite (@sum_ext (S n) _ (fun l => delta i l * A l j)); [now rewrite sum_delta_l|].
        intros l Hl. rewrite sum_scal_r. f_equal. now apply W2.
      - intros k Hk. rewrite <- sum_scal_l. apply sum_ext. intros; ring. }
    rewrite E2. unfold mprod at 1. rewrite (@sum_ext (S n) _ (fun p => W i p * mprod (S n) (up H) T' p j)) by (intros; now rewrite E1).
    unfold mprod. rewrite (@sum_ext (S n) _ (fun p => sum (S n) (fun k => W i p * up H p k * T' k j))).
    + rewrite sum_swap. apply sum_ext. intros k Hk. now rewrite sum_scal_r.
    + intros p Hp. rewrite <- sum_scal_l. apply sum_ext. intros; ring.
Qed.
Lemma qr_exists n m A : is_mat n m A -> exists Q T, is_qr n m A Q T.
Proof.
  intros HA. destruct (@qr_exists_fun n m (mget A)) as (H & T & HH & HT & HP).
  exists (tab2 n (Nat.min n m) H), (tab2 (Nat.min n m) m T). split.
  - apply is_mat_tab2.
  - apply is_mat_tab2.
  - intros a b Ha Hb. rewrite <- (HH a b) by lia. apply sum_ext. intros i Hi. now rewrite !mget_tab2 by lia.
  - intros i j Hi Hj Hji. rewrite mget_tab2 by lia. apply HT; lia.
  - intros i j Hi Hj. rewrite HP by auto. unfold mprod. rewrite (@sum_drop n (Nat.min n m)) by lia.
    rewrite (@sum_zero (n - Nat.min n m)) by (intros k Hk; rewrite HT by lia; ring). rewrite Rplus_0_r.
    apply sum_ext. intros k Hk. now rewrite !mget_tab2 by lia.
Qed.
Lemma qr_contract_satisfiable : exists qr, qr_contract qr.
Proof.
  assert (H : forall A : nd, exists r : nd * nd, forall n m, is_mat n m A -> is_qr n m A (fst r) (snd r)).
  { intros A. destruct (shape A) as [|n [|m [|]]] eqn:E.
    3:{ destruct (Nat.eq_dec (length (data A)) (prodl (shape A))) as [Hw|Hw].
        - destruct (@qr_exists n m A) as (Q & T & HS); [split; auto|].
          exists (Q, T). intros n' m' [_ HA]. rewrite E in HA. injection HA as <- <-. exact HS.
        - exists (m0, m0). intros n' m' [HA _]. tauto. }
    all: exists (m0, m0); intros n' m' [_ HA]; rewrite E in HA; discriminate. }
  destruct (functional_choice _ H) as (f & Hf).
  exists (fun A => Ok (f A)). intros n m A HA. specialize (Hf A n m HA).
  destruct (f A) as [Q T]. exists Q, T. auto.
Qed.

(** *** Long columns: the smoothing constant hardly matters *)
Lemma smoothing_near_one A B C r : 1 <= clen A r -> 1 <= clen B r -> 1 <= clen C r ->
  0 <= smoothing eps15 A B C r - 1 <= 7 * eps15.
Proof.
  intros HA HB HC. unfold smoothing. pose proof eps15_pos as He.
  assert (He1 : eps15 <= 1).
  { unfold eps15. rewrite <- Rinv_1. apply Rinv_le_contravar; [lra|]. apply pow_R1_Rle. lra. }
  assert (H : forall x, 1 <= x -> 0 <= eps15 / x <= eps15).
  { intros x Hx. assert (0 < / x <= 1) by (split; [apply Rinv_0_lt_compat; lra|rewrite <- Rinv_1; apply Rinv_le_contravar; lra]).
    unfold Rdiv. split; nra. }
  pose proof (H _ HA) as [a0 a1]. pose proof (H _ HB) as [b0 b1]. pose proof (H _ HC) as [c0 c1].
  set (a := eps15 / clen A r) in *. set (b := eps15 / clen B r) in *. set (c := eps15 / clen C r) in *. clearbody a b c. set (e := eps15) in *. clearbody e.
  assert (0 <= a * b <= e * e) by (split; nra). assert (0 <= a * c <= e * e) by (split; nra). assert (0 <= b * c <= e * e) by (split; nra).
  assert (0 <= a * b * c <= e * e * e) by (split; nra). assert (e * e <= e) by nra. assert (e * e * e <= e) by nra.
  replace ((1 + a) * (1 + b) * (1 + c) - 1) with (a + b + c + a * b + a * c + b * c + a * b * c) by ring. lra.
Qed.
Lemma exact_score_near_100 F A B C : (1 <= F)%nat ->
  (forall r, (r < F)%nat -> 1 <= clen A r /\ 1 <= clen B r /\ 1 <= clen C r) ->
  100 - / 10 ^ 20 <= 100 * (1 - sum F (fun r => (1 * smoothing eps15 A B C r - 1) ^ 2) / INR F) <= 100.
Proof.
  intros HF HL. assert (HFp : 0 < INR F) by (apply lt_0_INR; lia).
  assert (Hs : 0 <= sum F (fun r => (1 * smoothing eps15 A B C r - 1) ^ 2) <= INR F * (49 * (eps15 * eps15))).
  { split; [apply sum_nonneg; intros; apply pow2_ge_0|].
    rewrite <- sum_const. apply sum_le. intros r Hr. destruct (HL r Hr) as (H1 & H2 & H3).
    pose proof (smoothing_near_one H1 H2 H3) as [P1 P2]. rewrite Rmult_1_l. set (x := smoothing eps15 A B C r - 1) in *.
    replace (49 * (eps15 * eps15)) with ((7 * eps15) ^ 2) by ring. apply pow_incr. lra. }
  set (s := sum F _) in *. clearbody s.
  assert (Hq : 0 <= s / INR F <= 49 * (eps15 * eps15)).
  { unfold Rdiv. split; [apply Rmult_le_pos; [lra|left; now apply Rinv_0_lt_compat]|].
    apply Rmult_le_reg_r with (INR F); auto. rewrite Rmult_assoc, Rinv_l, Rmult_1_r by lra. lra. }
  assert (He : 100 * (49 * (eps15 * eps15)) <= / 10 ^ 20).
  { unfold eps15. rewrite <- Rinv_mult. apply Rmult_le_reg_r with (10 ^ 15 * 10 ^ 15); [lra|].
    replace (100 * (49 * / (10 ^ 15 * 10 ^ 15)) * (10 ^ 15 * 10 ^ 15)) with 4900 by (field; lra).
    replace (10 ^ 15 * 10 ^ 15) with (10 ^ 20 * 10 ^ 10) by ring. rewrite <- Rmult_assoc, Rinv_l, Rmult_1_l by lra. lra. }
  lra.
Qed.
Lemma core_full_score qr X A B C n1 n2 n3 F : core_setting n1 n2 n3 F X A B C -> qr_contract qr -> (1 <= F)%nat ->
  independent_columns n1 F A -> independent_columns n2 F B -> independent_columns n3 F C ->
  core_consistency qr X A B C false = Ok (Fin 100) ->
  exists c, (forall r, (r < F)%nat -> is_cube_root (clen A r * clen B r * clen C r) (c r)) /\
    best_core n1 n2 n3 F X (balanced eps15 A c) (balanced eps15 B c) (balanced eps15 C c) cp_core.
Proof.
  intros HC Hqr HF IA IB IC E. destruct (core_value false HC Hqr HF IA IB IC) as (c & G & Hc & HG & EV).
  exists c. split; [exact Hc|]. rewrite EV in E.
  assert (HFp : INR F <> 0) by (apply not_0_INR; lia).
  unfold xdivR in E. destruct (Req_EM_T (INR F) 0); [contradiction|]. cbn [xmul xsub] in E. injection E as E.
  set (s := sum3 F F F _) in E.
  assert (Hs : s = 0). { assert (H0 : s / INR F = 0) by lra. unfold Rdiv in H0. apply Rmult_integral in H0 as [|H0]; auto.
    exfalso. now apply (Rinv_neq_0_compat _ HFp). }
  assert (EG : forall r q t, (r < F)%nat -> (q < F)%nat -> (t < F)%nat -> G r q t = cp_core r q t).
  { intros r q t Hr Hq Ht. pose proof (@sum3_zero F F F (fun r s t => (G r s t - cp_core r s t) ^ 2) ltac:(intros; apply pow2_ge_0) Hs r q t Hr Hq Ht) as Z.
    cbv beta in Z. nra. }
  intros H. rewrite <- (@tucker_dist_ext n1 n2 n3 F X (balanced eps15 A c) (balanced eps15 B c) (balanced eps15 C c) _ _ _ G cp_core); auto.
Qed.
Lemma core_normalized qr X A B C n1 n2 n3 F : core_setting n1 n2 n3 F X A B C -> qr_contract qr -> (1 <= F)%nat ->
  independent_columns n1 F A -> independent_columns n2 F B -> independent_columns n3 F C ->
  exists c G, (forall r, (r < F)%nat -> is_cube_root (clen A r * clen B r * clen C r) (c r)) /\
    best_core n1 n2 n3 F X (balanced eps15 A c) (balanced eps15 B c) (balanced eps15 C c) G /\
    let size := sum3 F F F (fun r s t => G r s t ^ 2) in
    (size <> 0 -> core_consistency qr X A B C true =
       Ok (Fin (100 * (1 - sum3 F F F (fun r s t => (G r s t - cp_core r s t) ^ 2) / size)))) /\
    (size = 0 -> core_consistency qr X A B C true = Ok NInf).
Proof.
  intros HC Hqr HF IA IB IC. destruct (core_value true HC Hqr HF IA IB IC) as (c & G & Hc & HG & EV).
  exists c, G. split; [exact Hc|]. split; [exact HG|]. cbv zeta. split; intros Hz; rewrite EV; unfold xdivR.
  - destruct (Req_EM_T _ 0) as [H0|H0]; [contradiction|reflexivity].
  - rewrite Hz. destruct (Req_EM_T 0 0) as [_|]; [|lra].
    assert (EG : forall r q t, (r < F)%nat -> (q < F)%nat -> (t < F)%nat -> G r q t = 0).
    { intros r q t Hr Hq Ht. pose proof (@sum3_zero F F F (fun r s t => G r s t ^ 2) ltac:(intros; apply pow2_ge_0) Hz r q t Hr Hq Ht) as Z.
      cbv beta in Z. nra. }
    rewrite (@sum3_ext F F F _ (fun r s t => (cp_core r s t * 0 - cp_core r s t) ^ 2)) by (intros; rewrite EG by auto; ring).
    rewrite (@sum3_diag F (fun _ => 0)). rewrite (@sum_ext F _ (fun _ => 1)) by (intros; ring). rewrite sum_const.
    assert (HFp : 0 < INR F) by (apply lt_0_INR; lia).
    destruct (Rlt_dec (INR F * 1) 0); [lra|]. destruct (Rlt_dec 0 (INR F * 1)); [|lra]. cbn.
    destruct (Req_EM_T 100 0); [lra|]. destruct (Rlt_dec 100 0); [lra|reflexivity].
Qed.

(** *** Example: a 2 x 2 x 2 tensor of rank 2 *)
Definition coreA : nd := mk [2; 2]%nat [1; 1; 0; 1].
Definition coreB : nd := mk [2; 2]%nat [1; 0; 1; 2].
Definition coreC : nd := mk [2; 2]%nat [2; 1; 1; 1].
Definition coreX : nd := tab [2; 2; 2]%nat (fun idx => cp_entry [coreA; coreB; coreC] (fun _ => 1) 2 idx).
Lemma two_by_two a b c d : a * d - b * c <> 0 -> independent_columns 2 2 (mk [2; 2]%nat [a; b; c; d]).
Proof.
  intros Hd x Hx. pose proof (Hx 0%nat ltac:(lia)) as H0. pose proof (Hx 1%nat ltac:(lia)) as H1.
  cbv -[Rplus Rmult Rminus Ropp IZR] in H0, H1.
  assert (E0 : (a * d - b * c) * x 0%nat = 0).
  { replace ((a * d - b * c) * x 0%nat) with (d * (a * x 0%nat + (b * x 1%nat + 0)) - b * (c * x 0%nat + (d * x 1%nat + 0))) by ring.
    rewrite H0, H1. ring. }
  assert (E1 : (a * d - b * c) * x 1%nat = 0).
  { replace ((a * d - b * c) * x 1%nat) with (a * (c * x 0%nat + (d * x 1%nat + 0)) - c * (a * x 0%nat + (b * x 1%nat + 0))) by ring.
    rewrite H0, H1. ring. }
  apply Rmult_integral in E0 as [|E0]; [contradiction|]. apply Rmult_integral in E1 as [|E1]; [contradiction|].
  intros [|[|r]] Hr; auto; lia.
Qed.
