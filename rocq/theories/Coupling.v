(** Which couplings CMTF_ALS accepts (C91). *)
From Verif Require Export CoupledFit StateMap.
From Verif Require Import ConstrainedFit CMTFComplete CMTFUpdate CMTFNorm CMTFLoss CMTFMore CPComplete RunFacts FitFacts Parafac2Safe SignScores.
From Verif Require Import Prelude Lin.
Set Implicit Arguments.
Unset Strict Implicit.
Local Open Scope R_scope.

Lemma foldM_fails {A B : Type} (f : B -> A -> res B) e l : forall b, (forall b x, In x l -> (exists y, f b x = Ok y) \/ f b x = Err e) ->
  (exists x, In x l /\ forall b, f b x = Err e) -> foldM f l b = Err e.
Proof.
  induction l as [|x l IH]; intros b H (y & Hin & E); [destruct Hin|]. cbn [foldM].
  destruct (H b x (or_introl eq_refl)) as [(z & Ez)|Ez]; rewrite Ez; cbn [bind]; [|reflexivity].
  destruct Hin as [->|Hin]; [now rewrite E in Ez|]. apply IH; [intros; apply H; now right|exists y; auto].
Qed.

Lemma combine_in {A B} (l : list A) : forall (l' : list B) i a b, nth_error l i = Some a -> nth_error l' i = Some b -> In (a, b) (combine l l').
Proof.
  induction l as [|x l IH]; intros l' i a b Ha Hb; [now destruct i|]. destruct l' as [|y l']; [now destruct i|].
  destruct i as [|i]; cbn in *; [injection Ha as ->; injection Hb as ->; now left|right; eauto].
Qed.
Lemma combine_nth_error {A B} (l : list A) : forall (l' : list B) i a b, nth_error l i = Some a -> nth_error l' i = Some b -> nth_error (combine l l') i = Some (a, b).
Proof.
  induction l as [|x l IH]; intros l' i a b Ha Hb; [now destruct i|]. destruct l' as [|y l']; [now destruct i|].
  destruct i as [|i]; cbn in *; [injection Ha as ->; injection Hb as ->; reflexivity|eauto].
Qed.

(** ** Names of modes *)
Lemma names_index n z m : names n z m <-> py_index n z = Some m.
Proof.
  unfold names, py_index. destruct (Z.leb_spec 0 z), (Z.ltb_spec z (Z.of_nat n)), (Z.leb_spec (- Z.of_nat n) z), (Z.ltb_spec z 0); cbn [andb];
    (split; [intros [Ha [Hb|Hb]]; try lia; f_equal; lia|intros E; try discriminate; injection E as <-; lia]).
Qed.
Lemma no_mode_index n z : no_mode n z <-> py_index n z = None.
Proof.
  unfold no_mode. split; intros H.
  - destruct (py_index n z) as [m|] eqn:E; [|reflexivity]. exfalso. apply (H m). now apply names_index.
  - intros m Hm. apply names_index in Hm. congruence.
Qed.
Lemma index_lt n z m : py_index n z = Some m -> (m < n)%nat.
Proof. intros H. apply names_index in H. apply H. Qed.
Lemma py_get_of {A} (l : list A) z m d : py_index (length l) z = Some m -> py_get l z = Ok (nth m l d).
Proof. intros H. unfold py_get. rewrite H. apply list_get_nth. eapply index_lt; eauto. Qed.
Lemma py_get_none {A} (l : list A) z : py_index (length l) z = None -> py_get l z = Err IndexError.
Proof. intros H. unfold py_get. now rewrite H. Qed.
Lemma py_get_cases {A} (l : list A) z : (exists x, py_get l z = Ok x) \/ py_get l z = Err IndexError.
Proof.
  unfold py_get. destruct (py_index (length l) z) as [m|] eqn:E; auto. unfold list_get.
  destruct (nth_error l m); eauto.
Qed.

(** ** The random matrices *)
Definition draw_step (Y : list nd) (nn : option (list bool)) (Vs : list nd) (p : nat * Z) : res nd :=
  let '(i, mode) := p in
  do Y0 <- list_get Y i ;
  do _ <- shape_at Y0 1 ;
  do _ <- (match nn with None => Ok true | Some nn => py_get nn mode end) ;
  do V <- list_get Vs i ;
  do Q <- np_div V (norm_axis0 V) ;
  assign_full V Q.
Lemma init_coupled_steps vdraws s : init_coupled vdraws s =
  do V <- mapM (draw_step (cm_Y s) (cp_nn (cm_cp s)) vdraws) (combine (seq 0 (length (cm_modes s))) (cm_modes s)) ; Ok (cm_with_V V s).
Proof. reflexivity. Qed.

Lemma in_numbered {A} (l : list A) : forall a i x, In (i, x) (combine (seq a (length l)) l) -> (a <= i)%nat /\ nth_error l (i - a) = Some x.
Proof.
  induction l as [|y l IH]; intros a i x H; cbn [length seq combine] in H; [destruct H|]. destruct H as [E|H].
  - injection E as <- <-. split; [lia|]. now rewrite Nat.sub_diag.
  - apply IH in H as [H1 H2]. split; [lia|]. replace (i - a)%nat with (S (i - S a)) by lia. exact H2.
Qed.
Lemma numbered_in {A} (l : list A) : forall a i x, nth_error l i = Some x -> In ((a + i)%nat, x) (combine (seq a (length l)) l).
Proof.
  induction l as [|y l IH]; intros a i x H; [now destruct i|]. cbn [length seq combine]. destruct i as [|i].
  - injection H as <-. left. f_equal. lia.
  - right. replace (a + S i)%nat with (S a + i)%nat by lia. now apply IH.
Qed.

Section Draws.
Variables (K : nat) (Y vdraws : list nd).
Hypothesis (HD : drawn K Y vdraws).

Lemma draw_step_ok nn i z : (i < length Y)%nat -> (i < length vdraws)%nat ->
  (match nn with None => True | Some l => exists b, py_get l z = Ok b end) ->
  exists V, draw_step Y nn vdraws (i, z) = Ok V /\ is_mat (ncols (nth i Y m0)) K V.
Proof.
  intros Hi Hv Hn. destruct (HD Hi) as (HY & HVa & Hz). unfold draw_step. rewrite (@list_get_nth _ Y i m0) by exact Hi. cbn [bind].
  rewrite (shape_at_1 HY). cbn [bind].
  assert (En : exists b, (match nn with None => Ok true | Some nn => py_get nn z end) = Ok b) by (destruct nn; eauto).
  destruct En as [b0 ->]. cbn [bind]. rewrite (@list_get_nth _ vdraws i m0) by exact Hv. cbn [bind].
  pose proof (is_vec_norm_axis0 HVa) as HN.
  pose proof (broadcast_mat_vec Rdiv HVa HN) as EB.
  assert (ED : np_div (nth i vdraws m0) (norm_axis0 (nth i vdraws m0)) = broadcast Rdiv (nth i vdraws m0) (norm_axis0 (nth i vdraws m0))).
  { unfold np_div. replace (has_zero (norm_axis0 (nth i vdraws m0))) with false; [reflexivity|].
    symmetry. apply (has_zero_vec HN). intros r Hr. rewrite (vget_norm_axis0 HVa) by auto. rewrite <- clen_colnorm. auto. }
  rewrite ED, EB. cbn [bind]. rewrite (assign_full_mat HVa (is_mat_tab2 _ _ _)). eexists. split; [reflexivity|]. apply is_mat_tab2.
Qed.
Lemma draw_step_cases nn i z : (i < length vdraws)%nat ->
  (exists V, draw_step Y nn vdraws (i, z) = Ok V) \/ draw_step Y nn vdraws (i, z) = Err IndexError.
Proof.
  intros Hv. destruct (Nat.lt_ge_cases i (length Y)) as [Hi|Hi].
  - destruct nn as [l|].
    + destruct (py_get_cases l z) as [(b & E)|E].
      * left. destruct (@draw_step_ok (Some l) i z Hi Hv) as (V & EV & _); eauto.
      * right. destruct (HD Hi) as (HY & _). unfold draw_step. rewrite (@list_get_nth _ Y i m0) by exact Hi. cbn [bind].
        rewrite (shape_at_1 HY). cbn [bind]. now rewrite E.
    + left. destruct (@draw_step_ok None i z Hi Hv) as (V & EV & _); eauto.
  - right. unfold draw_step, list_get. now rewrite (proj2 (nth_error_None Y i) Hi).
Qed.
Lemma draws_fail nn modes : (length modes <= length vdraws)%nat ->
  (length Y < length modes)%nat \/ (exists l z, nn = Some l /\ In z modes /\ py_index (length l) z = None) ->
  mapM (draw_step Y nn vdraws) (combine (seq 0 (length modes)) modes) = Err IndexError.
Proof.
  intros Hv H. apply mapM_fails.
  - intros [i z] Hin. apply in_numbered in Hin as [_ Hin]. rewrite Nat.sub_0_r in Hin.
    apply draw_step_cases. assert (i < length modes)%nat by (apply nth_error_Some; congruence). lia.
  - destruct H as [H|(l & z & -> & Hin & E)].
    + destruct (nth_error modes (length Y)) as [z|] eqn:E; [|apply nth_error_None in E; lia].
      exists (length Y, z). split; [exact (numbered_in 0 E)|]. unfold draw_step, list_get. rewrite (proj2 (nth_error_None Y _)); [reflexivity|lia].
    + destruct (In_nth_error _ _ Hin) as (i & Ei). exists (i, z). split; [exact (numbered_in 0 Ei)|].
      assert (Hi : (i < length modes)%nat) by (apply nth_error_Some; congruence).
      destruct (Nat.lt_ge_cases i (length Y)) as [Hy|Hy].
      * destruct (HD Hy) as (HY & _). unfold draw_step. rewrite (@list_get_nth _ Y i m0) by exact Hy. cbn [bind].
        rewrite (shape_at_1 HY). cbn [bind]. now rewrite py_get_none.
      * unfold draw_step, list_get. now rewrite (proj2 (nth_error_None Y i) Hy).
Qed.
Lemma draws_pass nn modes : (length modes <= length vdraws)%nat -> (length modes <= length Y)%nat ->
  (match nn with None => True | Some l => forall z, In z modes -> exists b, py_get l z = Ok b end) ->
  exists V, mapM (draw_step Y nn vdraws) (combine (seq 0 (length modes)) modes) = Ok V /\ length V = length modes /\
    forall i, (i < length modes)%nat -> is_mat (ncols (nth i Y m0)) K (nth i V m0).
Proof.
  intros Hv Hy Hn.
  assert (G : forall p, In p (combine (seq 0 (length modes)) modes) -> exists V, draw_step Y nn vdraws p = Ok V /\ is_mat (ncols (nth (fst p) Y m0)) K V).
  { intros [i z] Hin. apply in_numbered in Hin as [_ Hin]. rewrite Nat.sub_0_r in Hin.
    assert (Hi : (i < length modes)%nat) by (apply nth_error_Some; congruence). apply (@draw_step_ok nn i z); [lia|lia|].
    destruct nn as [l|]; auto. apply Hn. eapply nth_error_In; eauto. }
  destruct (@mapM_total _ _ (draw_step Y nn vdraws) (combine (seq 0 (length modes)) modes)) as [V EV].
  { intros p Hp. destruct (G p Hp) as (V & E & _). eauto. }
  exists V. split; [exact EV|]. pose proof (mapM_length EV) as HL. rewrite combine_length, seq_length, Nat.min_id in HL. split; [exact HL|].
  intros i Hi. destruct (nth_error modes i) as [z|] eqn:E; [|apply nth_error_None in E; lia].
  pose proof (numbered_in 0 E) as Hin. cbn [Nat.add] in Hin.
  assert (Hn2 : nth_error (combine (seq 0 (length modes)) modes) i = Some (i, z)).
  { clear - E. revert i E. change (forall i, nth_error modes i = Some z -> nth_error (combine (seq 0 (length modes)) modes) i = Some ((0 + i)%nat, z)).
    generalize 0%nat. induction modes as [|y l IH]; intros a i E; [now destruct i|]. destruct i as [|i]; cbn in *.
    - injection E as <-. now rewrite Nat.add_0_r.
    - rewrite IH by exact E. do 2 f_equal. lia. }
  destruct (G _ Hin) as (V0 & E0 & HV0). apply mapM_inv in EV.
  assert (Ev : nth_error V i = Some V0).
  { clear - EV Hn2 E0. set (j := i) in Hn2 at 1. change (nth_error V j = Some V0). clearbody j. set (q := (i, z)) in *. clearbody q. revert j Hn2. induction EV as [|p v ps vs H1 _ IH]; intros j Hj; [now destruct j|]. destruct j as [|j]; cbn in *.
    - injection Hj as ->. rewrite E0 in H1. now injection H1 as ->.
    - now apply IH. }
  rewrite (nth_error_nth _ _ m0 Ev). exact HV0.
Qed.
End Draws.

(** ** The start of a fit, whatever the coupling *)
Section Start.
Variables (env : cp_env) (cs : cp_settings) (K : nat) (X : nd) (nn orth : option (list bool)).
Hypothesis (HC : constrained env cs K X nn orth).
Variables (cf : config) (disk : string -> option file) (draws vdraws Y : list nd) (modes : list Z) (max_its : option Z) (arg : init_arg)
  (ds : dstate cmtf_state).
Hypothesis (HU : usable_start env cs K X draws arg) (Enn : cp_nn (cm_cp (ds_num ds)) = nn) (Eor : cp_orth (cm_cp (ds_num ds)) = orth).

(** How a fit that raises before its first iteration leaves the decomposer *)
Definition raises_at_start (e : exn) : Prop := exists ds',
  cmtf_fit env cs cf disk draws vdraws X Y modes max_its arg ds = (ds', Some e) /\ ds_it ds' = 0%Z /\ ds_logs ds' = ds_logs ds /\ ds_file ds' = ds_file ds.

Lemma start_fails e : mapM (draw_step Y nn vdraws) (combine (seq 0 (length modes)) modes) = Err e -> raises_at_start e.
Proof.
  intros EM. pose proof (cn_rank HC) as HK. pose proof (cn_data HC) as HX.
  set (d0 := {| ds_num := cm_cp (ds_num ds); ds_it := ds_it ds; ds_max := ds_max ds; ds_rel := ds_rel ds;
                ds_prev := ds_prev ds; ds_logs := []; ds_file := ds_file ds |}).
  destruct (@usable_begun env cs K disk draws X arg d0 HK HX HU) as (d & EB & HF & Hw & Hrk).
  { unfold d0; cbn [ds_num]. rewrite Enn. destruct (cn_nn HC) as [->|(l & -> & El)]; auto. lia. }
  eexists. split.
  { unfold cmtf_fit, cmtf_init_fit, on_cp. cbn [ds_num with_num with_it ds_it ds_max ds_rel ds_prev ds_logs ds_file].
    match goal with |- context [cp_init_components env cs disk draws arg ?x] => change x with (targeted X d0) end.
    rewrite EB. rewrite init_coupled_steps.
    cbn [begun targeted ds_num with_num with_it d0 cm_with_cp cm_with_coupling cm_Y cm_modes cm_cp cp_with_dec cp_with_target cp_nn]. rewrite Enn, EM.
    cbn [bind]. reflexivity. }
  split; [reflexivity|]. split; reflexivity.
Qed.

Lemma start_passes V : mapM (draw_step Y nn vdraws) (combine (seq 0 (length modes)) modes) = Ok V ->
  exists s2, cp_X (cm_cp s2) = X /\ factors_ok K X (cm_fms s2) /\ is_vec K (kt_w (cm_dec s2)) /\ cm_Y s2 = Y /\ cm_modes s2 = modes /\ cm_V s2 = V /\
    forall e, cmtf_SSE env s2 = Err e -> raises_at_start e.
Proof.
  intros EM. pose proof (cn_rank HC) as HK. pose proof (cn_data HC) as HX.
  set (d0 := {| ds_num := cm_cp (ds_num ds); ds_it := ds_it ds; ds_max := ds_max ds; ds_rel := ds_rel ds;
                ds_prev := ds_prev ds; ds_logs := []; ds_file := ds_file ds |}).
  destruct (@usable_begun env cs K disk draws X arg d0 HK HX HU) as (d & EB & HF & Hw & Hrk).
  { unfold d0; cbn [ds_num]. rewrite Enn. destruct (cn_nn HC) as [->|(l & -> & El)]; auto. lia. }
  pose proof HF as [HM Hr]. pose proof (mode_len Hr) as Hlen. destruct (reset_weights_ok Hw) as [Hw1 Hw2].
  set (c0 := cp_with_dec (kt_reset_weights d) (cp_with_target X (cm_cp (ds_num ds)))).
  set (c := cp_with_constraints (or_unconstrained nn c0) (or_unconstrained orth c0) c0).
  destruct (@orthonormalised env cs K X nn orth HC c) as (dq & Hc & Rq & Wq & Fq & _ & _).
  { change (kt_fms (cp_dec c)) with (kt_fms d). rewrite Hlen. exact (cn_orth HC). }
  { reflexivity. }
  { change (kt_fms (cp_dec c)) with (kt_fms d). now symmetry. }
  { exact HF. }
  exists {| cm_cp := cp_with_dec dq c; cm_Y := Y; cm_modes := modes; cm_V := V |}.
  split; [reflexivity|]. split; [exact Fq|]. split; [change (is_vec K (kt_w dq)); rewrite Wq; exact Hw1|].
  do 3 (split; [reflexivity|]). intros e EE. eexists. split.
  { unfold cmtf_fit, cmtf_init_fit, on_cp. cbn [ds_num with_num with_it ds_it ds_max ds_rel ds_prev ds_logs ds_file].
    match goal with |- context [cp_init_components env cs disk draws arg ?x] => change x with (targeted X d0) end.
    rewrite EB. rewrite init_coupled_steps.
    cbn [begun targeted ds_num with_num with_it d0 cm_with_cp cm_with_coupling cm_Y cm_modes cm_cp cp_with_dec cp_with_target cp_nn]. rewrite Enn, EM.
    cbn [bind cm_with_V cm_dec cm_cp cm_with_cp cp_dec cp_with_dec cp_nn cp_orth cp_with_target]. rewrite Enn, Eor.
    match goal with |- context [cp_orthonormalise env ?x] => change x with c end. rewrite Hc.
    match goal with |- context [cmtf_SSE env ?x] => change x with {| cm_cp := cp_with_dec dq c; cm_Y := Y; cm_modes := modes; cm_V := V |} end.
    rewrite EE. reflexivity. }
  destruct max_its; (split; [reflexivity|]; split; reflexivity).
Qed.

Lemma nn_index : match nn with None => True | Some l => length l = length (shape X) end.
Proof. destruct (cn_nn HC) as [->|(l & -> & El)]; auto. Qed.

(** Fewer matrices than modes, or a mode that does not exist *)
Lemma bad_modes_raise : drawn K Y vdraws -> (length modes <= length vdraws)%nat ->
  (length Y < length modes)%nat \/ (exists z, In z modes /\ no_mode (length (shape X)) z) -> raises_at_start IndexError.
Proof.
  intros HD Hv H. pose proof nn_index as HN.
  destruct (Nat.lt_ge_cases (length Y) (length modes)) as [Hlt|Hge].
  { apply start_fails. eapply draws_fail; eauto. }
  destruct H as [H|(z & Hin & Hz)]; [lia|]. apply no_mode_index in Hz.
  assert (Hnn : (exists l, nn = Some l) \/ nn = None) by (destruct nn; eauto). destruct Hnn as [(l & El)|El].
  { apply start_fails. rewrite El in HN |- *. eapply draws_fail; eauto. right. exists l, z. rewrite HN. auto. }
  destruct (@draws_pass K Y vdraws HD nn modes Hv Hge) as (V & EV & _); [now rewrite El|].
  destruct (start_passes EV) as (s2 & EX & HF & Hw & EY & Em & EVs & Hr). apply Hr.
  pose proof HF as [HM Hrow]. pose proof (mode_len Hrow) as Hlen. destruct (cn_data HC) as (HX & H2 & _).
  unfold cmtf_SSE. destruct (@kt_construct_of (env_junk env) K (cm_dec s2)) as (T & ET & HT & HTs & HTe); auto.
  { change (kt_fms (cm_dec s2)) with (cm_fms s2). now rewrite Hlen. }
  rewrite ET. cbn [bind]. change (kt_fms (cm_dec s2)) with (cm_fms s2) in *. rewrite Hrow in HTs.
  unfold np_sub. rewrite EX, broadcast_same by auto. cbn [bind]. unfold coupled_SSE, reconstructed_coupled_matrices, coupled_factor_matrices.
  rewrite Em. rewrite (@mapM_fails _ _ (py_get (cm_fms s2)) IndexError); [reflexivity| |].
  - intros x _. apply py_get_cases.
  - exists z. split; [exact Hin|]. apply py_get_none. now rewrite Hlen.
Qed.

(** A matrix with the wrong number of rows *)
Lemma bad_rows_raise i m : drawn K Y vdraws -> (length modes <= length vdraws)%nat -> (length modes <= length Y)%nat ->
  (forall z, In z modes -> exists m, names (length (shape X)) z m) ->
  (i < length modes)%nat -> names (length (shape X)) (nth i modes 0%Z) m -> ~ hidden (nrows (nth i Y m0)) (nth m (shape X) 0%nat) ->
  raises_at_start ValueError.
Proof.
  intros HD Hv Hy Hall Hi Hm Hne. pose proof nn_index as HN.
  destruct (@draws_pass K Y vdraws HD nn modes Hv Hy) as (V & EV & HVl & HVm).
  { destruct nn as [l|]; auto. intros z Hz. destruct (Hall z Hz) as (m' & Hm'). apply names_index in Hm'. rewrite <- HN in Hm'.
    exists (nth m' l false). now apply py_get_of. }
  destruct (start_passes EV) as (s2 & EX & HF & Hw & EY & Em & EVs & Hr). apply Hr.
  pose proof HF as [HM Hrow]. pose proof (mode_len Hrow) as Hlen. destruct (cn_data HC) as (HX & H2 & _).
  unfold cmtf_SSE. destruct (@kt_construct_of (env_junk env) K (cm_dec s2)) as (T & ET & HT & HTs & HTe); auto.
  { change (kt_fms (cm_dec s2)) with (cm_fms s2). now rewrite Hlen. }
  rewrite ET. cbn [bind]. change (kt_fms (cm_dec s2)) with (cm_fms s2) in *. rewrite Hrow in HTs.
  unfold np_sub at 1. rewrite EX, broadcast_same by auto. cbn [bind]. unfold coupled_SSE, reconstructed_coupled_matrices, coupled_factor_matrices.
  rewrite Em, EVs, EY.
  set (fm := fun z => nth (match py_index (length (cm_fms s2)) z with Some m => m | None => 0%nat end) (cm_fms s2) m0).
  assert (Efm : mapM (py_get (cm_fms s2)) modes = Ok (map fm modes)).
  { apply mapM_ext_ok. intros z Hz. destruct (Hall z Hz) as (m' & Hm'). apply names_index in Hm'. rewrite <- Hlen in Hm'.
    rewrite (@py_get_of _ (cm_fms s2) z m' m0 Hm'). unfold fm. now rewrite Hm'. }
  rewrite Efm. cbn [bind].
  assert (Hfm : forall j z, nth_error modes j = Some z -> exists m', py_index (length (shape X)) z = Some m' /\
     fm z = nth m' (cm_fms s2) m0 /\ is_mat (nth m' (shape X) 0%nat) K (fm z)).
  { intros j z Ej. destruct (Hall z (nth_error_In _ _ Ej)) as (m' & Hm'). pose proof (proj1 Hm') as Hlt. apply names_index in Hm'.
    exists m'. split; [exact Hm'|]. rewrite <- Hlen in Hm'. unfold fm. rewrite Hm'. split; [reflexivity|]. now apply (rows_nth HF). }
  set (pr := fun p : nd * nd => tab2 (nrows (fst p)) (nrows (snd p)) (fun a b => sum K (fun r => mget (fst p) a r * mget (transp (snd p)) r b))).
  assert (Epr : mapM (fun '(scores, loadings) => matmul scores (transp loadings)) (combine (map fm modes) V) = Ok (map pr (combine (map fm modes) V))).
  { apply mapM_ext_ok. intros [A B] Hin. apply (In_nth _ _ (m0, m0)) in Hin as (j & Hj & Ej). rewrite combine_length, map_length, HVl, Nat.min_id in Hj.
    rewrite combine_nth in Ej by (now rewrite map_length). injection Ej as EA EB.
    destruct (nth_error modes j) as [z|] eqn:Ez; [|apply nth_error_None in Ez; lia].
    assert (EA' : A = fm z). { rewrite <- EA. rewrite (nth_indep _ m0 (fm 0%Z)) by (now rewrite map_length). rewrite map_nth. f_equal. now apply nth_error_nth. }
    destruct (Hfm j z Ez) as (m' & _ & _ & Hmat). rewrite <- EA' in Hmat. pose proof (HVm j Hj) as HB. rewrite EB in HB.
    rewrite (matmul_ok Hmat (is_mat_transp HB)). unfold pr. cbn [fst snd]. now rewrite (is_mat_nrows Hmat), (is_mat_nrows HB). }
  rewrite Epr. cbn [bind]. rewrite (@foldM_fails _ _ _ ValueError); [reflexivity| |].
  - intros b [P Q] Hin. unfold np_sub, broadcast. destruct (bshape (shape P) (shape Q)); cbn [bind]; eauto.
  - destruct (nth_error modes i) as [z|] eqn:Ez; [|apply nth_error_None in Ez; lia].
    rewrite (nth_error_nth _ _ 0%Z Ez) in Hm. destruct (Hfm i z Ez) as (m' & Em' & _ & Hmat). apply names_index in Hm. rewrite Hm in Em'. injection Em' as <-.
    exists (nth i Y m0, pr (fm z, nth i V m0)). split.
    + apply combine_in with (i := i); [apply nth_error_nth'; lia|]. apply map_nth_error. apply combine_nth_error; [now apply map_nth_error|].
      apply nth_error_nth'. lia.
    + intros b. unfold np_sub, broadcast. destruct (HD i ltac:(lia)) as (HY & _). rewrite (proj2 HY).
      unfold pr. cbn [fst snd]. rewrite (is_mat_nrows Hmat), (is_mat_nrows (HVm i Hi)). cbn [tab2 shape tab].
      unfold bshape. cbn. rewrite Nat.eqb_refl. unfold hidden in Hne.
      destruct (Nat.eqb_spec (nrows (nth i Y m0)) (nth m (shape X) 0%nat)); [tauto|].
      destruct (Nat.eqb_spec (nrows (nth i Y m0)) 1); [tauto|]. destruct (Nat.eqb_spec (nth m (shape X) 0%nat) 1); [tauto|]. reflexivity.
Qed.
End Start.

(** ** A wrong number of rows that the start does not notice *)
Lemma rows_update_raises env cs K s i m : data_ok (cp_X (cm_cp s)) -> factors_ok K (cp_X (cm_cp s)) (cm_fms s) ->
  (m < length (shape (cp_X (cm_cp s))))%nat -> length (cm_V s) = length (cm_modes s) -> (length (cm_modes s) <= length (cm_Y s))%nat ->
  (forall j, (j < length (cm_modes s))%nat -> is_mat (nrows (nth j (cm_Y s) m0)) (ncols (nth j (cm_Y s) m0)) (nth j (cm_Y s) m0) /\
     is_mat (ncols (nth j (cm_Y s) m0)) K (nth j (cm_V s) m0)) ->
  nth_error (cm_modes s) i = Some (Z.of_nat m) -> (forall j, (j < i)%nat -> nth_error (cm_modes s) j <> Some (Z.of_nat m)) ->
  nrows (nth i (cm_Y s) m0) <> nth m (shape (cp_X (cm_cp s))) 0%nat ->
  cmtf_update_factor env cs s m = (s, Some ValueError).
Proof.
  intros HX [HU Hr] Hm HlV HlY Hmats Ei Hfirst Hne. pose proof (mode_len Hr) as Hlen.
  assert (EF : exists idxs, dict_find (Z.of_nat m) (mode_to_cm_idx (cm_modes s)) = Some idxs).
  { rewrite dict_find_modes. destruct (positions (Z.of_nat m) (cm_modes s) 0) as [|a l] eqn:E; [|eauto].
    exfalso. assert (Hin : In i (positions (Z.of_nat m) (cm_modes s) 0)) by (apply in_positions; rewrite Nat.sub_0_r; split; [lia|exact Ei]).
    rewrite E in Hin. destruct Hin. }
  destruct EF as (idxs & EF). destruct (find_first EF) as (i' & rest & El & Hf1 & Hf2).
  assert (i' = i).
  { destruct (Nat.lt_trichotomy i i') as [H|[H|H]]; auto; [exfalso; now apply (Hf2 i H)|exfalso; now apply (Hfirst i' H)]. }
  subst i'.
  assert (Hidx : forall j, In j idxs -> (j < length (cm_modes s))%nat).
  { intros j Hj. rewrite dict_find_modes in EF. destruct (positions (Z.of_nat m) (cm_modes s) 0) as [|a l] eqn:E; [discriminate|].
    injection EF as <-. rewrite <- E in Hj. apply in_positions in Hj as [_ Hj]. rewrite Nat.sub_0_r in Hj. apply nth_error_Some. congruence. }
  assert (Hfirst_of : forall l : list nd, (length (cm_modes s) <= length l)%nat -> first_of l idxs = Ok (nth i l m0)).
  { intros l Hl. unfold first_of. rewrite (@mapM_ext_ok _ _ (list_get l) (fun j => nth j l m0)).
    - cbn [bind]. rewrite El. reflexivity.
    - intros j Hj. apply list_get_nth. specialize (Hidx j Hj). lia. }
  assert (Hi : (i < length (cm_modes s))%nat) by (apply nth_error_Some; congruence).
  destruct (Hmats i Hi) as [HY HV].
  destruct (@khatri_rao_skip_ok (env_junk env) K (cm_fms s) (Z.of_nat m) m HU) as (KR & EKR & HKR & _).
  { apply py_index_nat. lia. } { destruct HX as (_ & H2 & _). lia. }
  destruct (@unfold_ok (cp_X (cm_cp s)) (Z.of_nat m) m (proj1 HX)) as (M & EM & HM & _).
  { now apply py_index_nat. } { apply (shape_nonzero HX Hm). }
  unfold cmtf_update_factor, cmtf_lhs, cmtf_rhs. rewrite EF, EKR. cbn [bind]. rewrite Hfirst_of by lia. cbn [bind].
  unfold concat0. rewrite (proj2 HKR), (proj2 HV), Nat.eqb_refl. cbn [bind]. rewrite EM. cbn [bind]. rewrite Hfirst_of by lia. cbn [bind].
  unfold concat1. rewrite (proj2 HM), (proj2 HY). destruct (Nat.eqb_spec (nth m (shape (cp_X (cm_cp s))) 0%nat) (nrows (nth i (cm_Y s) m0))); [congruence|].
  reflexivity.
Qed.

(** ** Further matrices *)
Section More.
Variables (env : cp_env) (cs : cp_settings) (Y' : list nd).
Definition enough (s : cmtf_state) : Prop := (length (cm_modes s) <= length (cm_Y s))%nat.

Lemma get_more {A} (l l' : list A) i : (i < length l)%nat -> list_get (l ++ l') i = list_get l i.
Proof. intros H. unfold list_get. now rewrite nth_error_app1. Qed.
Lemma positions_lt k modes i : In i (positions k modes 0) -> (i < length modes)%nat.
Proof. intros H. apply in_positions in H as [_ H]. rewrite Nat.sub_0_r in H. apply nth_error_Some. congruence. Qed.
Lemma dict_idx_lt k modes idxs : dict_find k (mode_to_cm_idx modes) = Some idxs -> forall i, In i idxs -> (i < length modes)%nat.
Proof.
  rewrite dict_find_modes. destruct (positions k modes 0) as [|a l] eqn:E; [discriminate|]. intros E2 i Hi. injection E2 as <-.
  rewrite <- E in Hi. eapply positions_lt; eauto.
Qed.
Lemma more_rhs s m : enough s -> cmtf_rhs env (with_more Y' s) m = cmtf_rhs env s m.
Proof.
  intros H. unfold cmtf_rhs. change (cm_modes (with_more Y' s)) with (cm_modes s).
  destruct (dict_find (Z.of_nat m) (mode_to_cm_idx (cm_modes s))) as [idxs|] eqn:E; [|reflexivity].
  change (cp_X (cm_cp (with_more Y' s))) with (cp_X (cm_cp s)). destruct (unfold _ _); [|reflexivity]. cbn [bind].
  unfold first_of. rewrite (@mapM_ext_in _ _ (list_get (cm_Y (with_more Y' s))) (list_get (cm_Y s)) idxs); [reflexivity|].
  intros i Hi. apply get_more. pose proof (dict_idx_lt E Hi). unfold enough in H. lia.
Qed.
Lemma more_update_factor s m : enough s -> enough (fst (cmtf_update_factor env cs s m)) /\
  cmtf_update_factor env cs (with_more Y' s) m = (with_more Y' (fst (cmtf_update_factor env cs s m)), snd (cmtf_update_factor env cs s m)).
Proof.
  intros H. unfold cmtf_update_factor. rewrite (more_rhs m H).
  change (cmtf_lhs env cs (with_more Y' s) m) with (cmtf_lhs env cs s m). change (cm_cp (with_more Y' s)) with (cm_cp s).
  change (cm_fms (with_more Y' s)) with (cm_fms s).
  destruct (do lhs <- cmtf_lhs env cs s m ; _) as [[[lhs rhs] solve]|e]; [|split; [exact H|reflexivity]].
  destruct (do Z <- solve lhs rhs ; _) as [U|e]; (split; [exact H|reflexivity]).
Qed.
Lemma more_update_modes l : forall s, enough s -> enough (fst (cmtf_update_modes env cs l s)) /\
  cmtf_update_modes env cs l (with_more Y' s) = (with_more Y' (fst (cmtf_update_modes env cs l s)), snd (cmtf_update_modes env cs l s)).
Proof.
  induction l as [|m l IH]; intros s H; cbn [cmtf_update_modes]; [split; [exact H|reflexivity]|].
  change (cm_cp (with_more Y' s)) with (cm_cp s). destruct (do nn <- _ ; _) as [[|]|e]; try (split; [exact H|reflexivity]).
  destruct (more_update_factor m H) as [H1 ->]. destruct (cmtf_update_factor env cs s m) as [s' [e|]]; cbn [fst snd] in *; [split; [exact H1|reflexivity]|].
  now apply IH.
Qed.
Lemma more_step s mode idxs V : enough s -> (forall i, In i idxs -> (i < length (cm_modes s))%nat) ->
  uncoupled_step env (with_more Y' s) mode idxs V = uncoupled_step env s mode idxs V.
Proof.
  intros H Hi. unfold uncoupled_step. change (cm_fms (with_more Y' s)) with (cm_fms s). change (cm_cp (with_more Y' s)) with (cm_cp s).
  destruct idxs as [|i idxs]; [reflexivity|]. cbn [list_get nth_error bind]. destruct (py_get (cm_fms s) mode); cbn [bind]; [|reflexivity].
  change (cm_Y (with_more Y' s)) with (cm_Y s ++ Y'). rewrite get_more; [reflexivity|]. specialize (Hi i (or_introl eq_refl)). unfold enough in H. lia.
Qed.
Lemma more_loop s d : enough s -> (forall mode idxs, In (mode, idxs) d -> forall i, In i idxs -> (i < length (cm_modes s))%nat) ->
  forall V, uncoupled_loop env (with_more Y' s) d V = uncoupled_loop env s d V.
Proof.
  intros H. induction d as [|[mode idxs] d IH]; intros Hi V; cbn [uncoupled_loop]; [reflexivity|].
  rewrite more_step; [|exact H|apply (Hi mode idxs); now left]. destruct (uncoupled_step env s mode idxs V) as [V' [e|]]; [reflexivity|].
  apply IH. intros m l Hin. apply (Hi m l). now right.
Qed.
Lemma more_update s : enough s -> enough (fst (cmtf_update_factors env cs s)) /\
  cmtf_update_factors env cs (with_more Y' s) = (with_more Y' (fst (cmtf_update_factors env cs s)), snd (cmtf_update_factors env cs s)).
Proof.
  intros H. unfold cmtf_update_factors. change (cp_X (cm_cp (with_more Y' s))) with (cp_X (cm_cp s)).
  destruct (more_update_modes (seq 0 (ndim (cp_X (cm_cp s)))) H) as [H1 ->].
  destruct (cmtf_update_modes env cs _ s) as [s' [e|]]; cbn [fst snd] in *; [split; [exact H1|reflexivity]|].
  unfold update_uncoupled. change (cm_modes (with_more Y' s')) with (cm_modes s'). change (cm_V (with_more Y' s')) with (cm_V s').
  rewrite more_loop; [|exact H1|].
  - destruct (uncoupled_loop env s' _ _) as [V e]. split; [exact H1|reflexivity].
  - intros mode idxs Hin. apply (@dict_idx_lt mode). apply dict_in_find; auto. apply dict_nodup. constructor.
Qed.
Lemma more_SSE s : enough s -> cmtf_SSE env (with_more Y' s) = cmtf_SSE env s.
Proof.
  intros H. unfold cmtf_SSE. change (cm_dec (with_more Y' s)) with (cm_dec s). change (cm_cp (with_more Y' s)) with (cm_cp s).
  replace (coupled_SSE (with_more Y' s)) with (coupled_SSE s); [reflexivity|]. unfold coupled_SSE.
  change (reconstructed_coupled_matrices (with_more Y' s)) with (reconstructed_coupled_matrices s).
  destruct (reconstructed_coupled_matrices s) as [Rs|] eqn:E; cbn [bind]; [|reflexivity].
  assert (HL : (length Rs <= length (cm_Y s))%nat).
  { unfold reconstructed_coupled_matrices, coupled_factor_matrices in E. destruct (mapM (py_get (cm_fms s)) (cm_modes s)) as [As|] eqn:E1; cbn [bind] in E; [|discriminate].
    apply mapM_length in E. apply mapM_length in E1. rewrite combine_length in E. unfold enough in H. lia. }
  cbn [with_more cm_Y]. f_equal. revert HL. generalize (cm_Y s). clear. induction Rs as [|R0 Rs IH]; intros Y HL.
  - now rewrite !combine_nil.
  - destruct Y as [|y Y]; cbn in *; [lia|]. f_equal. apply IH. lia.
Qed.
Lemma more_metric k s : enough s -> cmtf_metric env k (with_more Y' s) = cmtf_metric env k s.
Proof.
  intros H. pose proof (more_SSE H) as E.
  assert (E2 : cmtf_MSE env (with_more Y' s) = cmtf_MSE env s) by (unfold cmtf_MSE; now rewrite E).
  destruct k; cbn [cmtf_metric]; unfold as_metric, cmtf_RMSE, cmtf_explained; now rewrite ?E, ?E2.
Qed.
Lemma more_normalize s : cmtf_normalize eps15 (with_more Y' s) = do s' <- cmtf_normalize eps15 s ; Ok (with_more Y' s').
Proof.
  unfold cmtf_normalize. change (scale_uncoupled (with_more Y' s)) with (scale_uncoupled s). change (cm_dec (with_more Y' s)) with (cm_dec s).
  destruct (scale_uncoupled s); cbn [bind]; [|reflexivity]. destruct (kt_normalize _ _ _); reflexivity.
Qed.
Lemma more_normalize_left s : cmtf_normalize_left eps15 (with_more Y' s) = with_more Y' (cmtf_normalize_left eps15 s).
Proof.
  unfold cmtf_normalize_left. change (scale_uncoupled (with_more Y' s)) with (scale_uncoupled s). destruct (scale_uncoupled s); [reflexivity|].
  replace (scale_uncoupled_left (with_more Y' s)) with (scale_uncoupled_left s); [reflexivity|]. unfold scale_uncoupled_left. cbn [with_more cm_V cm_modes].
  assert (E : forall l, scale_left (with_more Y' s) l = scale_left s l).
  { induction l as [|p l IH]; [reflexivity|]. cbn [scale_left]. change (scale_one (with_more Y' s) p) with (scale_one s p). now rewrite IH. }
  now rewrite E.
Qed.

Notation more := (mapped (with_more Y')).

Lemma more_init_fit disk draws vdraws X Y modes max_its arg ds : (length modes <= length Y)%nat ->
  let r := cmtf_init_fit env cs disk draws vdraws X Y modes max_its arg ds in
  cmtf_init_fit env cs disk draws vdraws X (Y ++ Y') modes max_its arg ds = (more (fst r), snd r) /\
  enough (ds_num (fst r)) /\ ds_logs (fst r) = ds_logs ds.
Proof.
  intros HL. cbn zeta. unfold cmtf_init_fit, on_cp. cbn [ds_num with_num with_it ds_it ds_max ds_rel ds_prev ds_logs ds_file].
  change (cm_cp (cm_with_cp (cp_with_target X (cm_cp (cm_with_coupling (Y ++ Y') modes (ds_num ds)))) (cm_with_coupling (Y ++ Y') modes (ds_num ds))))
    with (cp_with_target X (cm_cp (ds_num ds))).
  change (cm_cp (cm_with_cp (cp_with_target X (cm_cp (cm_with_coupling Y modes (ds_num ds)))) (cm_with_coupling Y modes (ds_num ds))))
    with (cp_with_target X (cm_cp (ds_num ds))).
  destruct (cp_init_components env cs disk draws arg _) as [d [e|]]; cbn [ds_num]; [split; [reflexivity|split; [exact HL|reflexivity]]|].
  set (sY := cm_with_cp (ds_num d) (cm_with_cp (cp_with_target X (cm_cp (cm_with_coupling Y modes (ds_num ds)))) (cm_with_coupling Y modes (ds_num ds)))).
  match goal with |- context [init_coupled vdraws ?x] => change x with (with_more Y' sY) end.
  rewrite !init_coupled_steps. change (cm_modes (with_more Y' sY)) with modes. change (cm_modes sY) with modes.
  change (cm_cp (with_more Y' sY)) with (cm_cp sY). change (cm_Y (with_more Y' sY)) with (Y ++ Y'). change (cm_Y sY) with Y.
  rewrite (@mapM_ext_in _ _ (draw_step (Y ++ Y') (cp_nn (cm_cp sY)) vdraws) (draw_step Y (cp_nn (cm_cp sY)) vdraws)).
  2:{ intros [i z] Hin. apply in_numbered in Hin as [_ Hin]. rewrite Nat.sub_0_r in Hin. unfold draw_step. rewrite get_more; [reflexivity|].
      assert (i < length modes)%nat by (apply nth_error_Some; congruence). lia. }
  destruct (mapM _ _) as [V|e]; cbn [bind]; [|split; [reflexivity|split; [exact HL|reflexivity]]].
  change (cm_dec (cm_with_V V (with_more Y' sY))) with (cm_dec (cm_with_V V sY)).
  change (cm_cp (cm_with_V V (with_more Y' sY))) with (cm_cp (cm_with_V V sY)).
  set (c := cp_with_constraints _ _ _). destruct (cp_orthonormalise env c) as [c'|e].
  2:{ destruct max_its; (split; [reflexivity|split; [exact HL|reflexivity]]). }
  change (cm_with_cp c' (cm_with_V V (with_more Y' sY))) with (with_more Y' (cm_with_cp c' (cm_with_V V sY))).
  assert (He : enough (cm_with_cp c' (cm_with_V V sY))) by exact HL. rewrite (more_SSE He).
  destruct (cmtf_SSE env (cm_with_cp c' (cm_with_V V sY))) as [l|e].
  2:{ destruct max_its; (split; [reflexivity|split; [exact HL|reflexivity]]). }
  set (s3 := cm_with_cp (cp_with_cache (cp_last c') None c') (cm_with_cp c' (cm_with_V V sY))).
  change (cm_with_cp (cp_with_cache (cp_last c') None c') (with_more Y' (cm_with_cp c' (cm_with_V V sY)))) with (with_more Y' s3).
  change (cm_dec (with_more Y' s3)) with (cm_dec s3).
  destruct (kt_normalize true eps15 (cm_dec s3)) as [k|e]; (destruct max_its; (split; [reflexivity|split; [exact HL|reflexivity]])).
Qed.

Lemma more_fit cf disk draws vdraws X Y modes max_its arg ds : (length modes <= length Y)%nat ->
  (forall lg, In lg (ds_logs ds) -> exists k, coupled_logger env k lg) ->
  let r := cmtf_fit env cs cf disk draws vdraws X Y modes max_its arg ds in
  cmtf_fit env cs cf disk draws vdraws X (Y ++ Y') modes max_its arg ds = (more (fst r), snd r).
Proof.
  intros HL Hlg. cbn zeta. unfold cmtf_fit. destruct (@more_init_fit disk draws vdraws X Y modes max_its arg ds HL) as (E & HP & EL). rewrite E.
  destruct (cmtf_init_fit env cs disk draws vdraws X Y modes max_its arg ds) as [d [e|]]; cbn [fst snd] in *; [reflexivity|].
  unfold cmtf_fit_loop.
  destruct (@fit_loop_mapped _ _ (cmtf_model env cs) cf (with_more Y') enough) with (ds := d) as [E2 [HP2 _]].
  - reflexivity.
  - intros s Hs. cbn [cmtf_model md_loss]. now rewrite (more_SSE Hs).
  - reflexivity.
  - intros s Hs. exact (more_update Hs).
  - split; [exact HP|]. rewrite EL. apply Forall_forall. intros lg Hin s Hs. destruct (Hlg lg Hin) as (k & _ & ->). now apply more_metric.
  - rewrite E2. destruct (cp_fit_loop (cmtf_model env cs) cf d) as [d2 [e|]]; cbn [fst snd] in *; [reflexivity|].
    change (ds_num (more d2)) with (with_more Y' (ds_num d2)). rewrite more_normalize, more_normalize_left. destruct (cmtf_normalize eps15 (ds_num d2)); reflexivity.
Qed.
End More.
