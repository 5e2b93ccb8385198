(** An exact coupled fit finds the components of the coupled matrices as well (C93). *)
From Verif Require Import Metrics MetricsMore CP CMTF UniqueSpec Unique CMTFSpec CMTFFacts CPFacts KruskalFacts Spec SymFacts.
From Coq Require Import Permutation.
From Verif Require Import Prelude Lin.
Set Implicit Arguments.
Unset Strict Implicit.
Local Open Scope R_scope.

Lemma sum_assigned K q f : assignment K K q -> sum K (fun c => f (nth c q 0%nat)) = sum K f.
Proof.
  intros (Hl & HN & Hb).
  assert (HP : Permutation q (seq 0 K)).
  { apply NoDup_Permutation_bis; auto; [rewrite seq_length; lia|].
    intros x Hx. rewrite Forall_forall in Hb. apply in_seq. specialize (Hb x Hx). lia. }
  rewrite <- (@sumf_perm _ _ _ f HP). clear HP HN Hb. subst K.
  induction q as [|x q IH]; [reflexivity|]. cbn [length seq sumf nth]. f_equal.
  rewrite <- seq_shift, sumf_map. exact IH.
Qed.

(** A matrix with a known left factor determines the right factor. *)
Lemma coupled_columns n p K T E A B Y q : independent_columns n K T -> assignment K K q ->
  (forall c, (c < K)%nat -> exists s, s <> 0 /\ forall a, (a < n)%nat -> mget E a (nth c q 0%nat) = s * mget T a c) ->
  (forall a b, (a < n)%nat -> (b < p)%nat -> mget Y a b = sum K (fun r => mget T a r * mget A b r)) ->
  (forall a b, (a < n)%nat -> (b < p)%nat -> mget Y a b = sum K (fun r => mget E a r * mget B b r)) ->
  forall c a b, (c < K)%nat -> (a < n)%nat -> (b < p)%nat ->
    mget T a c * mget A b c = mget E a (nth c q 0%nat) * mget B b (nth c q 0%nat).
Proof.
  intros HT Hq HE HA HB c a b Hc Ha Hb.
  assert (Hs : exists s, forall d, (d < K)%nat -> forall a, (a < n)%nat -> mget E a (nth d q 0%nat) = s d * mget T a d).
  { clear - HE. induction K as [|k IH].
    - exists (fun _ => 0). intros d Hd. lia.
    - destruct IH as (s & Hs); [intros d Hd; apply HE; lia|]. destruct (HE k ltac:(lia)) as (x & _ & Hx).
      exists (fun d => if (d =? k)%nat then x else s d). intros d Hd. destruct (Nat.eqb_spec d k) as [->|]; [exact Hx|].
      apply Hs. lia. }
  destruct Hs as (s & Hs).
  assert (Hz : forall r, (r < K)%nat -> mget A b r - s r * mget B b (nth r q 0%nat) = 0).
  { apply HT. intros i Hi. pose proof (HA i b Hi Hb) as E1. rewrite (HB i b Hi Hb) in E1.
    rewrite <- (sum_assigned (fun r => mget E i r * mget B b r) Hq) in E1.
    rewrite (@sum_ext K _ (fun r => mget T i r * mget A b r - mget E i (nth r q 0%nat) * mget B b (nth r q 0%nat))).
    - rewrite sum_minus. lra.
    - intros r Hr. cbv beta. rewrite (Hs r Hr i Hi). ring. }
  specialize (Hz c Hc). rewrite (Hs c Hc a Ha). replace (mget A b c) with (s c * mget B b (nth c q 0%nat)) by lra. ring.
Qed.

Lemma coupled_exact_fit env junk K ms Ts w s : cm_ok K ms s -> mats K Ts -> identifiable K Ts -> is_vec K w ->
  (forall c, (c < K)%nat -> vget w c <> 0) ->
  kt_construct junk {| kt_rank := K; kt_fms := Ts; kt_w := w |} = Ok (cp_X (cm_cp s)) -> cmtf_SSE env s = Ok 0 ->
  exists q, same_components K (vget w) Ts (vget (kt_w (cm_dec s))) (cm_fms s) q /\
    forall i A, (i < length ms)%nat ->
      let T := nth (nth i ms 0%nat) Ts m0 in
      let E := nth (nth i ms 0%nat) (cm_fms s) m0 in
      independent_columns (nrows T) K T ->
      (forall a b, (a < nrows T)%nat -> (b < ncols (nth i (cm_Y s) m0))%nat ->
         mget (nth i (cm_Y s) m0) a b = sum K (fun r => mget T a r * mget A b r)) ->
      forall c a b, (c < K)%nat -> (a < nrows T)%nat -> (b < ncols (nth i (cm_Y s) m0))%nat ->
        mget T a c * mget A b c = mget E a (nth c q 0%nat) * mget (nth i (cm_V s) m0) b (nth c q 0%nat).
Proof.
  intros H HT HI Hw Hwz EX E.
  assert (H2 : (2 <= length Ts)%nat). { destruct HI as (_ & a & b & Hab & _). lia. }
  destruct (kt_construct_ok junk HT Hw H2) as (X' & EX' & HXw & HXs & HXe). rewrite EX in EX'. injection EX' as <-.
  rewrite (cmtf_SSE_ok env H) in E. injection E as E. destruct (ck_fac H) as [HU Hr].
  assert (HM : forall i, (i < length ms)%nat -> 0 <= mat_sse K (nth (nth i ms 0%nat) (cm_fms s) m0) (nth i (cm_V s) m0) (nth i (cm_Y s) m0)).
  { intros i _. apply sumf_nonneg. intros a _. apply sumf_nonneg. intros b _. apply pow2_ge_0. }
  assert (HS : 0 <= sse (cp_X (cm_cp s)) (cm_fms s) (vget (kt_w (cm_dec s))) K).
  { apply sumf_nonneg. intros idx _. apply pow2_ge_0. }
  assert (HMs : 0 <= mats_sse K (cm_fms s) ms (cm_V s) (cm_Y s)).
  { apply sumf_nonneg. intros i Hi. apply HM. apply in_seq in Hi. lia. }
  unfold coupled_loss in E. assert (E1 : sse (cp_X (cm_cp s)) (cm_fms s) (vget (kt_w (cm_dec s))) K = 0) by lra.
  assert (E2 : mats_sse K (cm_fms s) ms (cm_V s) (cm_Y s) = 0) by lra.
  assert (Hrows : rows Ts = rows (cm_fms s)) by congruence.
  destruct (components_unique (w := vget w) (v := vget (kt_w (cm_dec s))) HT HU Hrows HI Hwz) as (q & Hq).
  { intros idx Hidx. rewrite <- HXe by auto.
    assert (Hz : get (cp_X (cm_cp s)) idx - cp_entry (cm_fms s) (vget (kt_w (cm_dec s))) K idx = 0).
    { apply (proj1 (@sq_sum_zero (shape (cp_X (cm_cp s)))
        (fun idx => get (cp_X (cm_cp s)) idx - cp_entry (cm_fms s) (vget (kt_w (cm_dec s))) K idx)) E1 idx).
      now rewrite HXs. }
    lra. }
  exists q. split; [exact Hq|]. intros i A Hi T F HTi HA.
  destruct (ck_coup H) as (HV & HY & HC). destruct (HC i Hi) as (Hm & HYi & HVi).
  assert (Hml : (nth i ms 0 < length Ts)%nat) by (rewrite HXs in Hm; cbn [kt_fms] in Hm; rewrite length_rows in Hm; exact Hm).
  assert (HnT : nrows T = nth (nth i ms 0%nat) (shape (cp_X (cm_cp s))) 0%nat).
  { unfold T. rewrite <- nth_rows by auto. now rewrite HXs. }
  apply (@coupled_columns (nrows T) (ncols (nth i (cm_Y s) m0)) K T F A (nth i (cm_V s) m0) (nth i (cm_Y s) m0) q); auto.
  - exact (proj1 Hq).
  - intros c Hc. exact (proj1 (unique_columns HT HU Hrows HI Hwz Hq) _ c Hml Hc).
  - intros a b Ha Hb.
    assert (Hi0 := sum_nonneg_zero HM E2 Hi). unfold mat_sse in Hi0.
    assert (HrY : nrows (nth i (cm_Y s) m0) = nrows T) by (rewrite HnT; apply (is_mat_nrows HYi)).
    rewrite HrY in Hi0.
    assert (Hi1 := fun K1 => @sum_nonneg_zero _ _ K1 Hi0 a Ha). cbv beta in Hi1.
    assert (Hi2 := fun K1 => @sum_nonneg_zero _ _ K1 (Hi1 ltac:(intros; apply sumf_nonneg; intros; apply pow2_ge_0)) b Hb). cbv beta in Hi2.
    assert (Hi3 := Hi2 ltac:(intros; apply pow2_ge_0)).
    match type of Hi3 with ?x ^ 2 = 0 => assert (Hx : x = 0) by nra end. unfold F. lra.
Qed.
