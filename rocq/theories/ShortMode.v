(** Orthonormal modes shorter than the rank (C85). *)
From Verif Require Export ConstrainedFit.
From Verif Require Import Prelude Lin.
Set Implicit Arguments.
Unset Strict Implicit.
Local Open Scope R_scope.

(** Columns: matrices with nJ rows and the numbers of columns [cs] *)
Definition tabular (U : nd) : Prop := exists n c, (0 < n)%nat /\ shape U = [n; c].

Lemma bshape_row a nJ b : bshape [1%nat; a] [nJ; b] =
  if (a =? b)%nat then Some [nJ; a] else if (a =? 1)%nat then Some [nJ; b] else if (b =? 1)%nat then Some [nJ; a] else None.
Proof.
  unfold bshape. cbn [rev app bshape_rev].
  assert (E : (if (1 =? nJ)%nat then Some [1%nat] else if (1 =? 1)%nat then Some [nJ] else if (nJ =? 1)%nat then Some [1%nat] else None) = Some [nJ]).
  { destruct (Nat.eqb_spec 1 nJ) as [<-|]; reflexivity. }
  rewrite E. destruct (a =? b)%nat, (a =? 1)%nat, (b =? 1)%nat; reflexivity.
Qed.

Lemma krb_cases junk A B nI a nJ b : shape A = [nI; a] -> shape B = [nJ; b] -> (0 < nI)%nat -> (0 < nJ)%nat ->
  match khatri_rao_binary junk A B with
  | Ok C => (a = 1%nat \/ a = b) /\ shape C = [(nI * nJ)%nat; b]
  | Err e => e = ValueError
  end.
Proof.
  intros HA HB HI HJ. unfold khatri_rao_binary, shape2. rewrite HA, HB. cbn [bind].
  assert (Hrow : forall i, shape (newaxis0 (row A i)) = [1%nat; a]) by (intros i; unfold newaxis0, row; cbn; now rewrite HA).
  assert (Hstep : forall out i, shape out = [(nI * nJ)%nat; b] ->
    match (do rb <- np_mul (newaxis0 (row A i)) B ; set_slice0 out (i * nJ) ((i + 1) * nJ) rb) with
    | Ok C => (a = 1%nat \/ a = b) /\ shape C = [(nI * nJ)%nat; b]
    | Err e => e = ValueError
    end).
  { intros out i Ho. unfold np_mul, broadcast. rewrite Hrow, HB, bshape_row.
    destruct (Nat.eqb_spec a b) as [->|Hne].
    - cbn [bind]. unfold set_slice0. destruct (list_eq_dec _ _ _); [cbn [shape]; auto|reflexivity].
    - destruct (Nat.eqb_spec a 1) as [->|Hn1].
      + cbn [bind]. unfold set_slice0. destruct (list_eq_dec _ _ _); [cbn [shape]; auto|reflexivity].
      + destruct (Nat.eqb_spec b 1) as [->|Hb1]; [|reflexivity]. cbn [bind]. unfold set_slice0.
        destruct (list_eq_dec _ _ _) as [E|]; [|reflexivity]. exfalso.
        unfold slice0 in E. rewrite Ho in E. cbn [shape tab tl nth] in E. congruence. }
  destruct nI as [|k]; [lia|]. change (seq 0 (S k)) with (0%nat :: seq 1 k).
  set (f := fun out i => _). set (out0 := np_empty _ _). cbn [foldM].
  assert (Hl : forall l out, (a = 1%nat \/ a = b) -> shape out = [(S k * nJ)%nat; b] ->
    match foldM f l out with Ok C => (a = 1%nat \/ a = b) /\ shape C = [(S k * nJ)%nat; b] | Err e => e = ValueError end).
  { induction l as [|i l IH]; intros out Hc Ho; cbn [foldM]; [auto|].
    pose proof (Hstep out i Ho) as H. fold (f out i) in H. destruct (f out i) as [out'|e]; cbn [bind]; [|exact H].
    destruct H as [_ H]. now apply IH. }
  pose proof (Hstep out0 0%nat eq_refl) as H. fold (f out0 0%nat) in H. destruct (f out0 0%nat) as [out'|e]; cbn [bind]; [|exact H].
  destruct H as [H1 H2]. now apply Hl.
Qed.

(** khatri_rao of matrices: each next number of columns is that of the product so far, unless that is 1. *)
Lemma kr_fold junk Us : Forall tabular Us -> forall l P p c, shape P = [p; c] -> (0 < p)%nat ->
  (forall i, In i l -> (i < length Us)%nat) ->
  match foldM (fun product i => do f <- list_get Us i ; khatri_rao_binary (junk i) product f) l P with
  | Ok C => exists p' c', (0 < p')%nat /\ shape C = [p'; c'] /\ (c = 1%nat \/ c = c') /\
      forall i, In i l -> ncols (nth i Us m0) = 1%nat \/ ncols (nth i Us m0) = c'
  | Err e => e = ValueError
  end.
Proof.
  intros HU. induction l as [|i l IH]; intros P p c HP Hp Hl; cbn [foldM].
  - exists p, c. split; [exact Hp|]. split; [exact HP|]. split; [now right|]. intros i [].
  - assert (Hi : (i < length Us)%nat) by (apply Hl; now left).
    rewrite (@list_get_nth _ _ i m0) by exact Hi. cbn [bind].
    assert (HT : tabular (nth i Us m0)) by (eapply Forall_forall in HU; [exact HU|now apply nth_In]).
    destruct HT as (n & b & Hn & Hs).
    pose proof (@krb_cases (junk i) P (nth i Us m0) p c n b HP Hs Hp Hn) as H.
    destruct (khatri_rao_binary (junk i) P (nth i Us m0)) as [Q|e]; cbn [bind]; [|exact H].
    destruct H as [H1 H2]. specialize (IH Q (p * n)%nat b H2 ltac:(nia) ltac:(intros; apply Hl; now right)).
    destruct (foldM _ l Q) as [C|e]; [|exact IH]. destruct IH as (p' & c' & Hp' & HC & Hb & Hrest).
    exists p', c'. split; [exact Hp'|]. split; [exact HC|]. split.
    + destruct H1 as [->| ->]; auto.
    + intros j [<-|Hj]; [|auto]. unfold ncols. rewrite Hs. cbn [nth]. exact Hb.
Qed.

Lemma kr_cases junk Us : Forall tabular Us -> Us <> [] ->
  match khatri_rao junk Us None with
  | Ok C => exists p c, shape C = [p; c] /\ forall U, In U Us -> ncols U = 1%nat \/ ncols U = c
  | Err e => e = ValueError
  end.
Proof.
  intros HU Hne. unfold khatri_rao. cbn [bind]. destruct Us as [|U Us]; [congruence|]. 
  inversion HU as [|? ? HT HU']; subst. destruct HT as (n & b & Hn & Hs).
  assert (E : list_get (U :: Us) 0 = Ok U) by reflexivity. rewrite E. cbn [bind].
  pose proof (@kr_fold junk (U :: Us) HU (seq 1 (length (U :: Us) - 1)) U n b Hs Hn) as H.
  assert (Hin : forall i, In i (seq 1 (length (U :: Us) - 1)) -> (i < length (U :: Us))%nat).
  { intros i Hi. apply in_seq in Hi. cbn [length] in *. lia. }
  specialize (H Hin). destruct (foldM _ _ U) as [C|e]; [|exact H]. destruct H as (p' & c' & _ & HC & Hb & Hrest).
  exists p', c'. split; [exact HC|]. intros V [<-|HV].
  - unfold ncols. rewrite Hs. cbn [nth]. exact Hb.
  - apply (In_nth _ _ m0) in HV as (j & Hj & <-). apply (Hrest (S j)). apply in_seq. cbn [length]. lia.
Qed.

Lemma construct_cases junk k K : Forall tabular (kt_fms k) -> (2 <= length (kt_fms k))%nat -> is_vec K (kt_w k) -> (1 < K)%nat ->
  (exists U, In U (kt_fms k) /\ (1 < ncols U)%nat /\ ncols U <> K) -> kt_construct junk k = Err ValueError.
Proof.
  intros HU Hlen Hw HK (U & Hin & H1 & HneK). unfold kt_construct.
  assert (E0 : exists sh, mapM (fun U => shape_at U 0) (kt_fms k) = Ok sh).
  { clear - HU. induction HU as [|V l (n & c & Hn & Hs) _ (sh & E)]; [exists []; reflexivity|].
    exists (n :: sh). cbn [mapM]. unfold shape_at at 1. rewrite Hs. cbn [list_get nth_error bind]. rewrite E. reflexivity. }
  destruct E0 as (sh & ->). cbn [bind].
  destruct (kt_fms k) as [|U0 Us] eqn:EF; [cbn in Hlen; lia|].
  assert (E : list_get (U0 :: Us) 0 = Ok U0) by reflexivity. rewrite E. cbn [bind tl].
  inversion HU as [|? ? HT HU']; subst. destruct HT as (n & c & Hn & Hs).
  assert (Hafter : forall W, shape W = [n; K] -> c = 1%nat \/ c = K ->
    (do KR <- khatri_rao junk Us None ; do T <- matmul W (transp KR) ; fold T 0 sh) = Err ValueError).
  { intros W HW Hc. pose proof (@kr_cases junk Us HU') as H.
    destruct (khatri_rao junk Us None) as [C|e]; cbn [bind].
    2:{ f_equal. apply H. intros ->. cbn in Hlen. lia. }
    destruct H as (p & c' & HC & Hcols). { intros ->. cbn in Hlen. lia. }
    unfold matmul. rewrite HW. unfold transp. cbn [shape tab]. rewrite HC. cbn [rev app].
    destruct (Nat.eqb_spec K c') as [<-|]; [|reflexivity]. exfalso.
    destruct Hin as [<-|Hin]; [unfold ncols in *; rewrite Hs in *; cbn [nth] in *; lia|]. destruct (Hcols U Hin); lia. }
  assert (Ew : shape (newaxis0 (kt_w k)) = [1%nat; K]) by (unfold newaxis0; cbn; now rewrite (proj2 Hw)).
  unfold np_mul, broadcast. rewrite Ew, Hs, bshape_row. replace (K =? 1)%nat with false by (symmetry; apply Nat.eqb_neq; lia).
  destruct (Nat.eqb_spec K c) as [<-|Hc]; cbn [bind].
  - apply Hafter; auto.
  - destruct (Nat.eqb_spec c 1) as [->|]; cbn [bind]; [|reflexivity]. apply Hafter; auto.
Qed.

(** *** The start *)
Section Short.
Variables (env : cp_env) (cs : cp_settings) (K : nat).

Lemma short_loop l : forall a d, (a + length l <= length (kt_fms d))%nat ->
  (forall j, nth_error l j = Some true -> exists n, is_mat n K (nth (a + j) (kt_fms d) m0) /\ qr_works_on n K (env_qr env)) ->
  exists d', foldM (cp_orthonormalise_step env) (combine (seq a (length l)) l) d = Ok d' /\ kt_w d' = kt_w d /\ length (kt_fms d') = length (kt_fms d) /\
    (forall m, (m < a)%nat \/ nth_error l (m - a) <> Some true -> nth m (kt_fms d') m0 = nth m (kt_fms d) m0) /\
    (forall m n, (a <= m)%nat -> nth_error l (m - a) = Some true -> is_mat n K (nth m (kt_fms d) m0) ->
       is_mat n (Nat.min n K) (nth m (kt_fms d') m0)).
Proof.
  induction l as [|b l IH]; intros a d Hle HQ.
  - exists d. cbn. split; [reflexivity|]. do 2 (split; [reflexivity|]). split; [reflexivity|].
    intros m n _ E. now destruct (m - a)%nat.
  - cbn [length seq combine foldM cp_orthonormalise_step]. cbn [length] in Hle. rewrite (@list_get_nth _ _ a m0) by lia. cbn [bind].
    assert (Hd : exists d1, (if b then do Q <- env_qr env (nth a (kt_fms d) m0) ; Ok (kt_with_factor a Q d) else Ok d) = Ok d1 /\
      kt_w d1 = kt_w d /\ length (kt_fms d1) = length (kt_fms d) /\
      (forall m, m <> a \/ b = false -> nth m (kt_fms d1) m0 = nth m (kt_fms d) m0) /\
      (forall n, b = true -> is_mat n K (nth a (kt_fms d) m0) -> is_mat n (Nat.min n K) (nth a (kt_fms d1) m0))).
    { destruct b.
      - destruct (HQ 0%nat eq_refl) as (n & HU & Hqr). rewrite Nat.add_0_r in HU. destruct (Hqr _ HU) as (Q & EQ & HQm & _).
        rewrite EQ. cbn [bind]. eexists. split; [reflexivity|]. cbn [kt_with_factor kt_rank kt_w kt_fms].
        split; [reflexivity|]. split; [apply length_replace_at|]. split.
        + intros m [Hne|]; [|discriminate]. apply nth_replace_at_neq. auto.
        + intros n' _ HU'. rewrite nth_replace_at_eq by lia.
          assert (n' = n) as -> by (destruct HU as [_ E1], HU' as [_ E2]; congruence). auto.
      - exists d. do 3 (split; [reflexivity|]). split; [reflexivity|discriminate]. }
    destruct Hd as (d1 & Ed & W1 & L1 & N1 & O1). rewrite Ed. cbn [bind].
    destruct (IH (S a) d1) as (d' & E & W2 & L2 & N2 & O2).
    { rewrite L1. lia. }
    { intros j Hj. destruct (HQ (S j) Hj) as (n & HU & Hqr). exists n. split; [|exact Hqr].
      rewrite N1 by lia. now replace (S a + j)%nat with (a + S j)%nat by lia. }
    exists d'. split; [exact E|]. split; [congruence|]. split; [congruence|]. split.
    + intros m Hor. destruct (Nat.eq_dec m a) as [->|Hne].
      * rewrite N2 by lia. apply N1. right. destruct Hor as [|Hor]; [lia|]. rewrite Nat.sub_diag in Hor. cbn in Hor. destruct b; congruence.
      * rewrite N2, N1; auto. destruct (Nat.lt_ge_cases m a); [left; lia|right]. destruct Hor as [|Hor]; [lia|].
        replace (m - a)%nat with (S (m - S a)) in Hor by lia. exact Hor.
    + intros m n Ham Ht HU. destruct (Nat.eq_dec m a) as [->|Hne].
      * rewrite N2 by lia. rewrite Nat.sub_diag in Ht. cbn in Ht. apply O1; [congruence|exact HU].
      * apply O2; [lia| |].
        -- replace (m - a)%nat with (S (m - S a)) in Ht by lia. exact Ht.
        -- rewrite N1; auto.
Qed.

Lemma short_mode_raises cf disk draws X max_its arg ds l m :
  cs_rank cs = K -> data_ok X -> usable_start env cs K X draws arg -> cp_last (ds_num ds) = None ->
  (match cp_nn (ds_num ds) with Some l => (length l <= length (shape X))%nat | None => True end) ->
  cp_orth (ds_num ds) = Some l -> (length l <= length (shape X))%nat ->
  (forall m', nth_error l m' = Some true -> qr_works_on (nth m' (shape X) 0%nat) K (env_qr env)) ->
  nth_error l m = Some true -> (1 < nth m (shape X) 0 < K)%nat ->
  exists ds', cp_fit env cs cf disk draws X max_its arg ds = (ds', Some ValueError) /\ ds_logs ds' = ds_logs ds /\ ds_file ds' = ds_file ds.
Proof.
  intros HK HX HU HL Hnl Eorth Hll Hqr Hm Hshort.
  destruct (@usable_begun env cs K disk draws X arg ds HK HX HU Hnl) as (k & E1 & HF & Hw & Hrk).
  pose proof HF as [HM Hr]. pose proof (mode_len Hr) as Hlen.
  destruct (reset_weights_ok Hw) as [HW1 HW2].
  unfold cp_fit, cp_init_fit. fold (targeted X ds). rewrite E1.
  set (d1 := match max_its with Some m => with_max m (begun X ds k 0) | None => begun X ds k 0 end).
  assert (En : ds_num d1 = ds_num (begun X ds k 0)) by (unfold d1; destruct max_its; reflexivity). rewrite En.
  set (s0 := cp_with_dec (kt_reset_weights _) _).
  set (s := cp_with_constraints _ _ s0).
  assert (Es : cp_orth s = Some l) by (unfold s; cbn; now rewrite Eorth).
  unfold cp_orthonormalise. rewrite Es. cbn [not_none bind].
  assert (Hml : (m < length l)%nat) by (apply nth_error_Some; congruence).
  destruct (@short_loop l 0%nat (cp_dec s)) as (d & EO & W1 & L1 & N1 & O1).
  { cbn. lia. }
  { intros j Hj. assert (Hjl : (j < length l)%nat) by (apply nth_error_Some; congruence).
    exists (nth j (shape X) 0%nat). split; [|now apply Hqr]. apply (rows_nth HF). lia. }
  rewrite EO. cbn [bind]. change (kt_fms (cp_dec s)) with (kt_fms k) in *. change (kt_w (cp_dec s)) with (kt_w (kt_reset_weights k)) in *.
  assert (ES : cp_SSE env (cp_with_dec d s) = Err ValueError).
  { unfold cp_SSE. cbn [cp_with_dec cp_last cp_dec]. change (cp_last s) with (cp_last (ds_num ds)). rewrite HL.
    rewrite (@construct_cases (env_junk env) d K); [reflexivity| | | |lia|].
    - apply Forall_forall. intros U HU'. apply (In_nth _ _ m0) in HU' as (j & Hj & <-). rewrite L1, Hlen in Hj.
      assert (Hpos : (0 < nth j (shape X) 0)%nat).
      { destruct HX as (_ & _ & H). pose proof (proj1 (Forall_forall _ _) H _ (@nth_In _ j (shape X) 0%nat Hj)) as H1. cbn beta in H1. lia. }
      assert (Hd : {nth_error l j = Some true} + {nth_error l j <> Some true}) by (repeat decide equality).
      destruct Hd as [Ht|Hf].
      + exists (nth j (shape X) 0%nat), (Nat.min (nth j (shape X) 0%nat) K). split; [exact Hpos|].
        apply (O1 j (nth j (shape X) 0%nat)); [lia|now rewrite Nat.sub_0_r|now apply (rows_nth HF)].
      + exists (nth j (shape X) 0%nat), K. split; [exact Hpos|]. rewrite N1 by (right; now rewrite Nat.sub_0_r). now apply (rows_nth HF).
    - rewrite L1, Hlen. destruct HX as (_ & H2 & _). lia.
    - rewrite W1. exact HW1.
    - exists (nth m (kt_fms d) m0). split; [apply nth_In; rewrite L1, Hlen; lia|].
      assert (HQm : is_mat (nth m (shape X) 0%nat) (Nat.min (nth m (shape X) 0%nat) K) (nth m (kt_fms d) m0)).
      { apply (O1 m (nth m (shape X) 0%nat)); [lia|now rewrite Nat.sub_0_r|apply (rows_nth HF); lia]. }
      unfold ncols. rewrite (proj2 HQm). cbn [nth]. lia. }
  rewrite ES. eexists. split; [reflexivity|]. split; unfold d1; destruct max_its; reflexivity.
Qed.
End Short.
