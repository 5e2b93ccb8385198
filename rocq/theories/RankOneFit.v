(** Complete rank-one fits of non-negative data: lemmas for C111. *)
From Verif Require Export PerronFacts.
From Verif Require Import TuckerFacts Prelude Lin.
Set Implicit Arguments.
Unset Strict Implicit.
Local Open Scope R_scope.

Definition asks (c : option (list bool)) (m : nat) : bool := match c with Some l => nth m l false | None => false end.
Lemma asks_spec n c m : flags_for n c -> (m < n)%nat -> asks c m = true <-> asked c m.
Proof.
  intros [->|(l & -> & El)] Hm; cbn [asks]; unfold asked.
  - split; [discriminate|]. intros (l & E & _). discriminate.
  - assert (En : nth_error l m = Some (nth m l false)) by (apply nth_error_nth'; lia). split.
    + intros E. exists l. split; [reflexivity|]. now rewrite En, E.
    + intros (l' & E & E1). injection E as <-. rewrite En in E1. now injection E1.
Qed.

Section Fits.
Variables (env : cp_env) (cs : cp_settings) (X : nd) (nn nn' orth orth' : option (list bool)).
Hypothesis (H1 : constrained env cs 1 X nn orth) (H2 : constrained env cs 1 X nn' orth').
Hypothesis (HO : forall m, ~ asked orth m) (HO' : forall m, ~ asked orth' m) (HX : nonneg_data X).
Let md := cp_model env cs.
Let lam m := match cs_ridge cs with Some l => nth m l 0 | None => 0 end.

Lemma flagged_option c o s : constrained env cs 1 X c o -> (forall m, ~ asked o m) -> flagged X c o s -> option_set cs s (asks c) lam.
Proof.
  intros HC Hn [EX HF] m Hm. rewrite EX in Hm. destruct (HF m Hm) as ((b & F1 & B1) & (b' & F2 & B2)).
  assert (E1 : b = asks c m).
  { pose proof (asks_spec (cn_nn HC) Hm) as H. destruct b, (asks c m); try reflexivity.
    - symmetry. apply H, B1. reflexivity.
    - apply B1, H. reflexivity. }
  assert (E2 : b' = false) by (destruct b'; [exfalso; apply (Hn m), B2; reflexivity|reflexivity]). subst b b'.
  split; [exact F1|]. split; [exact F2|]. unfold penalty, lam. pose proof (cn_ridge HC) as HR. destruct (cs_ridge cs) as [l|].
  - destruct HR as [Hl HP]. split; [apply nth_error_nth'; lia|]. apply (proj1 (Forall_forall _ _) HP). apply nth_In. lia.
  - split; [reflexivity|lra].
Qed.

Section Run.
Variables s t : cp_state.
Hypothesis (HT : twins cs X lam (asks nn) (asks nn') s t) (Hd : (0 < length (shape X))%nat) (Hne : ~ orthogonal_start 1 X (fms s)).
Hypothesis (HU : unit_w 1 s) (HU' : unit_w 1 t).

Lemma after_twins k : twins cs X lam (asks nn) (asks nn') (state_after md s k) (state_after md t k).
Proof. apply (@passes_twins env cs X lam (asks nn) (asks nn') (cn_rank H1) (cn_svd H1) (cn_nnls H1) HX s t HT Hd Hne k). Qed.

Lemma losses_twins k : loss_at md t k = loss_at md s k.
Proof.
  pose proof (after_twins k) as A. unfold md.
  rewrite (@loss_is_sse env cs 1 s k (tw_coh HT) HU), (@loss_is_sse env cs 1 t k (tw_coh' HT) HU'). fold md.
  now rewrite (tw_X HT), (tw_X' HT), (tw_fac A).
Qed.
Lemma norms_twins k : cp_norm (state_after md t k) ^ 2 = cp_norm (state_after md s k) ^ 2.
Proof.
  pose proof (after_twins k) as A. now rewrite (co_norm (tw_coh A)), (co_norm (tw_coh' A)), (tw_X A), (tw_X' A).
Qed.
Lemma stops_twins cf cf' l k : cf_tol cf' = cf_tol cf -> cf_rel_tol cf' = cf_rel_tol cf ->
  cp_stops md cf' l PInf t k = cp_stops md cf l PInf s k.
Proof.
  intros Et Er. unfold cp_stops. rewrite losses_twins.
  assert (Hrel : rel_at md l PInf t k = rel_at md l PInf s k).
  { destruct k as [|k]; [reflexivity|]. cbn [rel_at]. rewrite losses_twins. destruct k as [|k]; cbn [prev_at bind]; [reflexivity|]. now rewrite losses_twins. }
  rewrite Hrel. destruct (loss_at md s k); [|reflexivity]. cbn [bind]. destruct (rel_at md l PInf s k) as [x|]; [|reflexivity]. cbn [bind]. rewrite Et, Er.
  cbn [md_norm2 md cp_model]. fold md. now rewrite norms_twins.
Qed.
End Run.

Lemma fits_twins cf cf' disk disk' draws draws' max_its max_its' arg arg' ds dt ds1 dt1 :
  let budget := match max_its with Some m => m | None => ds_max ds end in
  let budget' := match max_its' with Some m => m | None => ds_max dt end in
  constrained_call env cs cf 1 X nn orth draws budget arg ds -> constrained_call env cs cf' 1 X nn' orth' draws' budget' arg' dt ->
  budget' = budget -> cf_tol cf' = cf_tol cf -> cf_rel_tol cf' = cf_rel_tol cf ->
  cp_init_fit env cs disk draws X max_its arg ds = (ds1, None) ->
  cp_init_fit env cs disk' draws' X max_its' arg' dt = (dt1, None) ->
  fms (ds_num dt1) = fms (ds_num ds1) -> nonneg_factors 1 (fms (ds_num ds1)) -> (0 < length (shape X))%nat -> ~ orthogonal_start 1 X (fms (ds_num ds1)) ->
  exists d e, cp_fit env cs cf disk draws X max_its arg ds = (d, None) /\ cp_fit env cs cf' disk' draws' X max_its' arg' dt = (e, None) /\
    ds_it e = ds_it d /\ fms (ds_num e) = fms (ds_num d) /\ cp_SSE env (ds_num e) = cp_SSE env (ds_num d) /\ nonneg_factors 1 (fms (ds_num d)).
Proof.
  intros budget budget' (A1 & A2 & A3 & A4 & A5 & A6 & A7) (B1 & B2 & B3 & B4 & B5 & B6 & B7) Eb Et Er E1 E1' EF HP Hd Hne.
  destruct (@constrained_fit_completes env cs 1 X nn orth H1 cf disk draws max_its arg ds A1 A2 A3 A4 A5 A6 A7) as (x1 & d & F1 & F & _).
  destruct (@constrained_fit_completes env cs 1 X nn' orth' H2 cf' disk' draws' max_its' arg' dt B1 B2 B3 B4 B5 B6 B7) as (y1 & e & F1' & F' & _).
  rewrite E1 in F1. injection F1 as <-. rewrite E1' in F1'. injection F1' as <-.
  assert (Hl : forall c, flags_for (length (shape X)) c -> match c with Some l => (length l <= length (shape X))%nat | None => True end).
  { intros c [->|(l & -> & El)]; [exact I|lia]. }
  destruct (@usable_begun env cs 1 disk draws X arg ds (cn_rank H1) (cn_data H1) A1) as (k & G1 & G2 & G3 & G4).
  { rewrite A2. apply Hl. apply (cn_nn H1). }
  destruct (@usable_begun env cs 1 disk' draws' X arg' dt (cn_rank H2) (cn_data H2) B1) as (k' & G1' & G2' & G3' & G4').
  { rewrite B2. apply Hl. apply (cn_nn H2). }
  destruct (@constrained_start env cs 1 X nn orth H1 disk draws max_its arg ds k 0%Z G1 G2 G3 G4 A2 A3 A4)
    as (z1 & I1 & C1 & U1 & L1 & _ & T1 & M1 & _ & _ & P1 & R1 & _).
  destruct (@constrained_start env cs 1 X nn' orth' H2 disk' draws' max_its' arg' dt k' 0%Z G1' G2' G3' G4' B2 B3 B4)
    as (w1 & I2 & C2 & U2 & L2 & _ & T2 & M2 & _ & _ & P2 & R2 & _).
  rewrite E1 in I1. injection I1 as <-. rewrite E1' in I2. injection I2 as <-.
  assert (HT : twins cs X lam (asks nn) (asks nn') (ds_num ds1) (ds_num dt1)).
  { constructor; auto; try apply L1; try apply L2; [apply (flagged_option H1 HO L1)|apply (flagged_option H2 HO' L2)]. }
  pose proof F as FL. unfold cp_fit in FL. rewrite E1 in FL. pose proof F' as FL'. unfold cp_fit in FL'. rewrite E1' in FL'.
  destruct (cp_fit_lemma FL) as (j & Hj & Ej & Hbefore & Hend). destruct (Hend eq_refl) as [Hstop Hit].
  destruct (cp_fit_lemma FL') as (j' & Hj' & Ej' & Hbefore' & Hend'). destruct (Hend' eq_refl) as [Hstop' Hit'].
  rewrite P1, R1 in Hbefore, Hstop. rewrite P2, R2 in Hbefore', Hstop'. change (cp_model env cs) with md in Hbefore, Hstop, Hbefore', Hstop', Ej, Ej'. rewrite EF in Hbefore', Hstop'.
  rewrite T1, M1 in *. rewrite T2, M2 in *. fold budget in Hstop, Hj. fold budget' in Hstop', Hj'. rewrite Eb in *.
  assert (ES : forall l i, cp_stops md cf' l PInf (ds_num dt1) i = cp_stops md cf l PInf (ds_num ds1) i).
  { intros l i. apply stops_twins; auto. }
  assert (Enn : j' = j).
  { destruct (Nat.lt_trichotomy j j') as [Hlt|[Heq|Hlt]]; auto.
    - destruct Hstop as [Hs|Hs]; [lia|]. specialize (Hbefore' j Hlt). rewrite ES in Hbefore'. congruence.
    - destruct Hstop' as [Hs|Hs]; [lia|]. specialize (Hbefore j' Hlt). rewrite ES in Hs. congruence. }
  subst j'. pose proof (after_twins HT Hd Hne j) as A. rewrite <- Ej, <- Ej' in A.
  exists d, e. split; [exact F|]. split; [exact F'|]. split; [congruence|]. split; [exact (tw_fac A)|]. split; [|exact (tw_pos A)].
  pose proof (proj2 (@after_coherent env cs 1 (ds_num ds1) j C1)) as S1. pose proof (proj2 (@after_coherent env cs 1 (ds_num dt1) j C2)) as S2.
  fold md in S1, S2. rewrite <- Ej in S1. rewrite <- Ej' in S2.
  rewrite (cp_SSE_ok env (tw_coh A)), (cp_SSE_ok env (tw_coh' A)), (unit_sse (unit_w_same S1 U1)), (unit_sse (unit_w_same S2 U2)).
  now rewrite (tw_X A), (tw_X' A), (tw_fac A).
Qed.
End Fits.

Lemma flags_change_nothing env cs s t nn nn' lam : cs_rank cs = 1%nat -> svd_contract (env_svd env) -> nnls_contract (env_nnls env) ->
  cp_coherent 1 s -> cp_coherent 1 t -> cp_X t = cp_X s -> kt_fms (cp_dec t) = kt_fms (cp_dec s) ->
  let X := cp_X s in let Us := kt_fms (cp_dec s) in
  only_nonneg s nn -> only_nonneg t nn' -> penalised_by cs (length (shape X)) lam ->
  nonneg_data X -> nonneg_factors 1 Us -> (0 < length (shape X))%nat -> ~ orthogonal_start 1 X Us ->
  forall k, let s' := state_after (cp_model env cs) s k in let t' := state_after (cp_model env cs) t k in
    snd (cp_update_factors env cs s') = None /\ snd (cp_update_factors env cs t') = None /\
    kt_fms (cp_dec t') = kt_fms (cp_dec s') /\ nonneg_factors 1 (kt_fms (cp_dec s')).
Proof.
  intros HK HS HN C C' EX EF X Us O O' HL HX HP Hd Hne k s' t'.
  assert (HT : twins cs X lam nn nn' s t).
  { constructor; auto.
    - intros m Hm. destruct (O m Hm). destruct (HL m Hm). auto.
    - intros m Hm. destruct (O' m Hm). rewrite EX in Hm. destruct (HL m Hm). auto. }
  destruct (@passes_twins env cs X lam nn nn' HK HS HN HX s t HT Hd Hne k) as ((A & B) & HTk & _).
  split; [exact A|]. split; [exact B|]. split; [exact (tw_fac HTk)|exact (tw_pos HTk)].
Qed.
