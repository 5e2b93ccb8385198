(** Concrete CMTF_ALS runs, and coupling modes given as negative numbers: lemmas for C52, C61, C62. *)
From Verif Require Export CMTFNorm.
Set Implicit Arguments.
Unset Strict Implicit.
Local Open Scope R_scope.

Lemma data11 x : data_ok (mk [1; 1]%nat [x]).
Proof. split; [reflexivity|]. split; [cbn; lia|]. repeat constructor; discriminate. Qed.
Lemma fac11 x a b : factors_ok 1 (mk [1; 1]%nat [x]) [mk [1; 1]%nat [a]; mk [1; 1]%nat [b]].
Proof. split; [repeat constructor|reflexivity]. Qed.
Lemma clen11 a : 0 <= a -> clen (mk [1; 1]%nat [a]) 0 = a.
Proof.
  intros H. unfold clen. replace (sum (nrows (mk [1; 1]%nat [a])) (fun i => mget (mk [1; 1]%nat [a]) i 0 ^ 2)) with (a * a).
  - now apply sqrt_square.
  - ev. ring.
Qed.
Lemma scaled11 eps a : 0 <= a -> scaled eps 1 1 (mk [1; 1]%nat [a]) = mk [1; 1]%nat [a / (a + eps)].
Proof.
  intros H. replace (a / (a + eps)) with (a / (colnorm (mk [1; 1]%nat [a]) 0 + eps)); [reflexivity|].
  now rewrite <- clen_colnorm, clen11.
Qed.

(** *** C61 *)
Definition w_X : nd := mk [1; 1]%nat [2].
Definition w_dec : kruskal := {| kt_rank := 1; kt_fms := [mk [1; 1]%nat [3]; mk [1; 1]%nat [1]]; kt_w := mk [1]%nat [1] |}.
Definition w_cs : cp_settings := {| cs_rank := 1; cs_init := "precomputed"; cs_ridge := None |}.
(** A model that has not been fitted; what its fields hold is overwritten by the initialisation. *)
Definition unfitted : dstate cmtf_state :=
  {| ds_num := {| cm_cp := {| cp_X := m0; cp_norm := 0; cp_dec := {| kt_rank := 0; kt_fms := []; kt_w := m0 |};
                              cp_last := None; cp_cache := None; cp_nn := None; cp_orth := None |};
                  cm_Y := []; cm_modes := []; cm_V := [] |};
     ds_it := 0; ds_max := 10; ds_rel := PInf; ds_prev := PInf; ds_logs := []; ds_file := None |}.

Lemma loss11 x a b w : coupled_loss 1 (mk [1; 1]%nat [x]) [mk [1; 1]%nat [a]; mk [1; 1]%nat [b]] w [] [] [] =
  (x - w 0%nat * a * b) * (x - w 0%nat * a * b).
Proof. ev. ring. Qed.

Lemma weights_break_descent env : svd_works_rows 1 (env_svd env) ->
  exists ds' s', cmtf_init_fit env w_cs (fun _ => None) [] [] w_X [] [] None (DecArg w_dec) unfitted = (ds', None) /\
    ds_prev ds' = Fin 1 /\
    cmtf_update_factors env w_cs (ds_num ds') = (s', None) /\ cmtf_SSE env s' = Ok 16.
Proof.
  intros Hsvd.
  destruct (@cm_init_precomputed env w_cs (fun _ => None) [] [] w_X [] [] None w_dec unfitted 1
    (cm_with_cp (cp_with_dec w_dec (cp_with_target w_X (cm_cp (ds_num unfitted)))) (cm_with_coupling [] [] (ds_num unfitted))))
    as (ds' & EI & EP & HOK & EX & EV & EY & Ef & En & Eo & Ew); try reflexivity.
  { apply data11. } { apply fac11. } { split; reflexivity. } { split; [reflexivity|]. split; [reflexivity|]. cbn. lia. }
  cbn [w_dec kt_fms map nrows shape nth] in Ef. rewrite !scaled11 in Ef by lra.
  pose proof eps15_pos as He. set (u := 1 / (1 + eps15)) in *. assert (Hu : u <> 0).
  { unfold u, Rdiv. rewrite Rmult_1_l. apply Rinv_neq_0_compat. lra. }
  set (s := ds_num ds') in *.
  assert (Hfree : forall m, (m < 2)%nat -> free_mode w_cs (cm_cp s) m).
  { intros m Hm. split; [reflexivity|]. rewrite En, Eo. cbn. split; exists [false; false]; (split; [reflexivity|]).
    all: destruct m as [|[|m]]; [reflexivity|reflexivity|lia]. }
  assert (HKs : shape (cp_X (cm_cp s)) = [1; 1]%nat) by now rewrite EX.
  destruct (@cm_update_optimal env w_cs 1 [] s 0 HOK eq_refl (le_n 1)) as (s1 & Z0 & E1 & HZ0 & Ef1 & EV1 & HS1 & HOK1 & Hopt1); auto.
  { rewrite HKs. cbn. lia. }
  rewrite HKs in HZ0. destruct (mat11 HZ0) as (z & ->). specialize (Hopt1 (NoDup_nil _) (mk [1; 1]%nat [2 / u])).
  rewrite EX, EV, EY, Ef in Hopt1. cbn [cm_V cm_with_cp cm_with_coupling unfitted ds_num] in Hopt1.
  unfold w_X, with_factor in Hopt1. cbn [replace_at] in Hopt1. rewrite !loss11 in Hopt1. unfold unit_weights in Hopt1.
  assert (Hz : z * u = 2).
  { replace (2 - 1 * (2 / u) * u) with 0 in Hopt1 by (field; auto). rewrite Rmult_0_l in Hopt1.
    apply sq_zero in Hopt1. lra. }
  rewrite Ef in Ef1. unfold with_factor in Ef1. cbn [replace_at] in Ef1.
  destruct (@cm_update_optimal env w_cs 1 [] s1 1 HOK1 eq_refl (le_n 1)) as (s2 & Z1 & E2 & HZ1 & Ef2 & EV2 & HS2 & HOK2 & Hopt2); auto.
  { rewrite (sp_X (sc_cp HS1)), HKs. cbn. lia. }
  { apply (free_mode_same (sc_cp HS1)). apply Hfree. lia. }
  rewrite (sp_X (sc_cp HS1)), HKs in HZ1. destruct (mat11 HZ1) as (v & ->). specialize (Hopt2 (NoDup_nil _) (mk [1; 1]%nat [u])).
  rewrite (sp_X (sc_cp HS1)), (sc_Y HS1), EV1, EX, EV, EY, Ef1 in Hopt2.
  cbn [cm_V cm_with_cp cm_with_coupling unfitted ds_num] in Hopt2.
  unfold w_X, with_factor in Hopt2. cbn [replace_at] in Hopt2. rewrite !loss11 in Hopt2. unfold unit_weights in Hopt2.
  assert (Hv : z * v = 2).
  { replace (2 - 1 * z * u) with 0 in Hopt2 by lra. rewrite Rmult_0_l in Hopt2. apply sq_zero in Hopt2. lra. }
  rewrite Ef1 in Ef2. unfold with_factor in Ef2. cbn [replace_at] in Ef2.
  exists ds', (cm_with_V (cm_V s2) s2). split; [exact EI|]. split.
  { rewrite EP. cbn [cm_V cm_with_cp cm_with_coupling unfitted ds_num]. f_equal.
    unfold w_X, w_dec. cbn [kt_fms]. rewrite loss11. unfold unit_weights. ring. }
  assert (Em : cm_modes s2 = []) by exact (ck_modes HOK2).
  assert (HOK2' : cm_ok 1 [] (cm_with_V (cm_V s2) s2)) by (constructor; apply HOK2).
  split.
  - change (ds_num ds') with s. unfold cmtf_update_factors, ndim. rewrite HKs. cbn [length seq cmtf_update_modes].
    rewrite En. cbn [unfitted ds_num cm_cp cp_nn not_none bind repeat length w_dec kt_fms list_get nth_error].
    rewrite E1. rewrite (sp_nn (sc_cp HS1)), En. cbn [unfitted ds_num cm_cp cp_nn not_none bind repeat length w_dec kt_fms list_get nth_error].
    rewrite E2. unfold update_uncoupled. rewrite Em. reflexivity.
  - rewrite (cmtf_SSE_ok env HOK2'). f_equal. cbn [cm_with_V cm_cp cm_V cm_Y].
    change (cm_fms (cm_with_V (cm_V s2) s2)) with (cm_fms s2). change (cm_dec (cm_with_V (cm_V s2) s2)) with (cm_dec s2).
    rewrite Ef2, EV2, EV1, EV, (sc_Y HS2), (sc_Y HS1), EY, (sp_X (sc_cp HS2)), (sp_X (sc_cp HS1)), EX.
    cbn [cm_V cm_with_cp cm_with_coupling unfitted ds_num]. unfold w_X. rewrite loss11.
    assert (Ew0 : vget (kt_w (cm_dec s2)) 0 = 3).
    { unfold cm_dec. rewrite (sp_w (sc_cp HS2)), (sp_w (sc_cp HS1)). change (cp_dec (cm_cp s)) with (cm_dec s).
      rewrite Ew by lia. cbn [w_dec kt_fms prodf]. rewrite !clen11 by lra. ring. }
    rewrite Ew0. replace (3 * z * v) with (3 * (z * v)) by ring. rewrite Hv. ring.
Qed.

(** *** C62 *)
Lemma negative_not_found modes m : Forall (fun z => (z < 0)%Z) modes ->
  dict_find (Z.of_nat m) (mode_to_cm_idx modes) = None.
Proof.
  intros H. destruct (dict_find _ _) as [l|] eqn:E; [|reflexivity]. destruct (find_first E) as (i & rest & _ & Hi & _).
  apply nth_error_In in Hi. rewrite Forall_forall in H. apply H in Hi. lia.
Qed.
Lemma negative_update_factor env cs s m : Forall (fun z => (z < 0)%Z) (cm_modes s) ->
  cmtf_update_factor env cs s m =
  let (c, e) := cp_update_factor env cs (cm_cp s) m in (cm_with_cp c s, e).
Proof.
  intros H. unfold cmtf_update_factor, cmtf_lhs, cmtf_rhs. rewrite (negative_not_found m H). unfold cp_update_factor.
  change (kt_fms (cp_dec (cm_cp s))) with (cm_fms s).
  destruct (do lhs <- als_lhs cs (cm_fms s) m ; _) as [[[V P] solve]|e0].
  2:{ destruct s; reflexivity. }
  destruct (do Z <- solve V P ; _) as [U'|e0]; reflexivity.
Qed.
Lemma negative_update_modes env cs l : forall s, Forall (fun z => (z < 0)%Z) (cm_modes s) ->
  (exists nn, cp_nn (cm_cp s) = Some nn /\ forall m, In m l -> nth_error nn m = Some false) ->
  cmtf_update_modes env cs l s =
  let (c, e) := cp_update_modes env cs l (cm_cp s) in (cm_with_cp c s, e).
Proof.
  induction l as [|m l IH]; intros s H (nn & En & Hn); cbn [cmtf_update_modes cp_update_modes].
  - destruct s; reflexivity.
  - rewrite En. cbn [not_none bind]. unfold list_get. rewrite (Hn m (or_introl eq_refl)).
    pose proof (negative_update_factor env cs m H) as E. rewrite E.
    destruct (cp_update_factor env cs (cm_cp s) m) as [c [e|]] eqn:E1; [reflexivity|].
    rewrite IH.
    + cbn [cm_with_cp cm_cp]. destruct (cp_update_modes env cs l c) as [c' e']. reflexivity.
    + exact H.
    + pose proof (cm_update_keeps_nn E) as En'. cbn [cm_with_cp cm_cp] in *. exists nn. rewrite En', En. split; auto.
      intros m' Hm'. apply Hn. now right.
Qed.
Lemma negative_update env cs s : Forall (fun z => (z < 0)%Z) (cm_modes s) ->
  (exists nn, cp_nn (cm_cp s) = Some nn /\ forall m, (m < ndim (cp_X (cm_cp s)))%nat -> nth_error nn m = Some false) ->
  cm_cp (fst (cmtf_update_factors env cs s)) = fst (cp_update_factors env cs (cm_cp s)) /\
  (snd (cp_update_factors env cs (cm_cp s)) <> None ->
   snd (cmtf_update_factors env cs s) = snd (cp_update_factors env cs (cm_cp s))).
Proof.
  intros H (nn & En & Hn). unfold cmtf_update_factors, cp_update_factors. rewrite (@negative_update_modes env cs _ s H).
  2:{ exists nn. split; auto. intros m Hm. apply in_seq in Hm. apply Hn. lia. }
  destruct (cp_update_modes env cs _ (cm_cp s)) as [c [e|]]; [cbn; auto|]. unfold update_uncoupled.
  destruct (uncoupled_loop env _ _ _) as [V e]. cbn. split; [reflexivity|]. congruence.
Qed.

(** Everything else takes a negative mode to mean the mode counted from the end. *)
Definition from_front (n : nat) (z : Z) : Z := if (z <? 0)%Z then (z + Z.of_nat n)%Z else z.
Lemma py_get_front {A} (l : list A) z : (- Z.of_nat (length l) <= z)%Z -> py_get l (from_front (length l) z) = py_get l z.
Proof.
  intros H. unfold py_get, from_front. destruct (Z.ltb_spec z 0) as [Hz|Hz]; [|reflexivity]. f_equal.
  unfold py_index. destruct (Z.leb_spec 0 (z + Z.of_nat (length l))); [|lia].
  destruct (Z.ltb_spec (z + Z.of_nat (length l)) (Z.of_nat (length l))); [|lia].
  destruct (Z.leb_spec 0 z); [lia|]. destruct (Z.leb_spec (- Z.of_nat (length l)) z); [|lia].
  destruct (Z.ltb_spec z 0); [|lia]. reflexivity.
Qed.
Lemma mapM_map {A B C} (f : B -> res C) (g : A -> B) l : mapM f (map g l) = mapM (fun x => f (g x)) l.
Proof. induction l as [|x l IH]; cbn [map mapM]; [reflexivity|]. now rewrite IH. Qed.
Lemma mapM_ext_in {A B} (f g : A -> res B) l : (forall x, In x l -> f x = g x) -> mapM f l = mapM g l.
Proof. induction l as [|x l IH]; intros H; cbn [mapM]; [reflexivity|]. rewrite H by (now left). rewrite IH; auto. intros; apply H; now right. Qed.

Definition with_front_modes (s : cmtf_state) : cmtf_state :=
  cm_with_coupling (cm_Y s) (map (from_front (length (cm_fms s))) (cm_modes s)) s.
Lemma front_factors s : Forall (fun z => (- Z.of_nat (length (cm_fms s)) <= z)%Z) (cm_modes s) ->
  coupled_factor_matrices (with_front_modes s) = coupled_factor_matrices s.
Proof.
  intros H. unfold coupled_factor_matrices. cbn [with_front_modes cm_with_coupling cm_modes].
  change (cm_fms (with_front_modes s)) with (cm_fms s). rewrite mapM_map. apply mapM_ext_in. intros z Hz.
  rewrite Forall_forall in H. now apply py_get_front, H.
Qed.
Lemma front_SSE env s : Forall (fun z => (- Z.of_nat (length (cm_fms s)) <= z)%Z) (cm_modes s) ->
  cmtf_SSE env (with_front_modes s) = cmtf_SSE env s.
Proof.
  intros H. unfold cmtf_SSE, coupled_SSE, reconstructed_coupled_matrices. now rewrite front_factors.
Qed.
Lemma front_step env s z idxs V : (- Z.of_nat (length (cm_fms s)) <= z)%Z ->
  (forall nn, cp_nn (cm_cp s) = Some nn -> length nn = length (cm_fms s)) ->
  uncoupled_step env s (from_front (length (cm_fms s)) z) idxs V = uncoupled_step env s z idxs V.
Proof.
  intros Hz Hn. unfold uncoupled_step. rewrite py_get_front by auto.
  destruct (do i <- list_get idxs 0 ; _) as [[[[i lhs] rhs] V0]|]; [|reflexivity].
  destruct (cp_nn (cm_cp s)) as [nn|]; [|reflexivity]. rewrite <- (Hn nn eq_refl). rewrite py_get_front; [reflexivity|].
  now rewrite (Hn nn eq_refl).
Qed.

Lemma mat21 Z : is_mat 2 1 Z -> exists a b, Z = mk [2; 1]%nat [a; b].
Proof.
  destruct Z as [sh l]. intros [H1 H2]. cbn in *. subst sh. unfold wf in H1. cbn in H1.
  destruct l as [|a [|b [|? ?]]]; try discriminate. eauto.
Qed.

(** A coupling to mode -2 of a matrix: the loss after the update exceeds the loss before it. *)
Definition neg_X : nd := mk [2; 1]%nat [1; 0].
Definition neg_Y : nd := mk [2; 1]%nat [0; 2].
Definition neg_state : cmtf_state :=
  {| cm_cp := start 1 neg_X [mk [2; 1]%nat [0; 1]; mk [1; 1]%nat [1 / 10]] [false; false] [false; false];
     cm_Y := [neg_Y]; cm_modes := [(-2)%Z]; cm_V := [mk [1; 1]%nat [2]] |}.
Lemma neg_data : data_ok neg_X.
Proof. split; [reflexivity|]. split; [cbn; lia|]. repeat constructor; discriminate. Qed.
Lemma neg_coherent : cp_coherent 1 (cm_cp neg_state).
Proof. apply start_coherent; [apply neg_data|]. split; [repeat constructor|reflexivity]. Qed.
Lemma neg_free c m : same_problem (cm_cp neg_state) c -> (m < 2)%nat -> free_mode w_cs c m.
Proof.
  intros HS Hm. apply (free_mode_same HS). split; [reflexivity|].
  split; exists [false; false]; (split; [reflexivity|]); destruct m as [|[|m]]; [reflexivity|reflexivity|lia|reflexivity|reflexivity|lia].
Qed.
Lemma neg_front_ok : cm_ok 1 [0%nat] (with_front_modes neg_state).
Proof.
  constructor; try reflexivity.
  - apply neg_data.
  - split; [repeat constructor|reflexivity].
  - apply is_vec_ones.
  - split; [reflexivity|]. split; [reflexivity|]. intros [|i] Hi; cbn in Hi; [|lia]. cbn.
    split; [lia|]. split; split; reflexivity.
Qed.

Lemma negative_mode_increases env : svd_works_rows 1 (env_svd env) ->
  exists s' l l', cmtf_SSE env neg_state = Ok l /\ cmtf_update_factors env w_cs neg_state = (s', None) /\
    cmtf_SSE env s' = Ok l' /\ l < l'.
Proof.
  intros Hsvd.
  assert (Hs1 : svd_works_on 1 1 (env_svd env)) by now apply Hsvd.
  assert (E0 : cmtf_SSE env neg_state = Ok (101 / 100)).
  { rewrite <- front_SSE by (repeat constructor; cbn; lia). rewrite (cmtf_SSE_ok env neg_front_ok). f_equal. ev. lra. }
  destruct (@update_optimal env w_cs 1 (cm_cp neg_state) 0 neg_coherent eq_refl) as (c1 & Z0 & E1 & HZ0 & Ef1 & HS1 & HC1 & Hopt); auto.
  { cbn; lia. } { apply neg_free; [apply same_problem_refl|lia]. }
  destruct (mat21 HZ0) as (a & b & ->).
  specialize (Hopt (mk [2; 1]%nat [10; 0])). ev_in Hopt.
  assert (Hb : b = 0).
  { pose proof (sq0 (1 - a / 10)). assert (b * b <= 0) by lra. now apply sq_zero. }
  destruct (@update_optimal env w_cs 1 c1 1 HC1 eq_refl) as (c2 & Z1 & E2 & HZ1 & Ef2 & HS2 & HC2 & _); auto.
  { rewrite (sp_X HS1). cbn; lia. } { apply neg_free; [exact HS1|lia]. }
  rewrite (sp_X HS1) in HZ1. destruct (mat11 HZ1) as (v & ->). rewrite Ef1 in Ef2.
  assert (Ef : kt_fms (cp_dec c2) = [mk [2; 1]%nat [a; 0]; mk [1; 1]%nat [v]]) by (rewrite Ef2, Hb; reflexivity).
  set (s2 := cm_with_cp c2 neg_state).
  assert (HX2 : cp_X c2 = neg_X) by (now rewrite (sp_X HS2), (sp_X HS1)).
  assert (Hnn : cp_nn c2 = Some [false; false]) by (now rewrite (sp_nn HS2), (sp_nn HS1)).
  assert (Hf2 : cm_fms s2 = [mk [2; 1]%nat [a; 0]; mk [1; 1]%nat [v]]) by exact Ef.
  assert (HOK2 : cm_ok 1 [0%nat] (with_front_modes s2)).
  { constructor.
    - cbn. rewrite HX2. apply neg_data.
    - change (cm_fms (with_front_modes s2)) with (cm_fms s2). rewrite Hf2. cbn. rewrite HX2. split; [repeat constructor|reflexivity].
    - apply (co_w HC2).
    - cbn [with_front_modes cm_with_coupling cm_modes]. rewrite Hf2. reflexivity.
    - cbn. rewrite HX2. split; [reflexivity|]. split; [reflexivity|]. intros [|i] Hi; cbn in Hi; [|lia]. cbn.
      split; [lia|]. split; split; reflexivity. }
  destruct (@uncoupled_step_ok env 1 [0%nat] (with_front_modes s2) 0 (cm_V neg_state) HOK2) as (W & EW & HW & _).
  { cbn; lia. }
  { exists [false; false]. split; [exact Hnn|]. cbn. rewrite HX2. intros [|[|m]] Hm; cbn in Hm; try lia; reflexivity. }
  { exact Hsvd. } { reflexivity. } { split; reflexivity. }
  change (uncoupled_step env (with_front_modes s2)) with (uncoupled_step env s2) in EW.
  assert (Estep : uncoupled_step env s2 (-2) [0%nat] (cm_V neg_state) = ([W], None)).
  { pose proof (@front_step env s2 (-2)%Z [0%nat] (cm_V neg_state)) as EF. rewrite Hf2 in EF. cbn [length] in EF.
    rewrite <- EF; [exact EW|lia|]. intros nn En. change (cp_nn (cm_cp s2)) with (cp_nn c2) in En. rewrite Hnn in En.
    injection En as <-. reflexivity. }
  assert (EU : cmtf_update_factors env w_cs neg_state = (cm_with_V [W] s2, None)).
  { unfold cmtf_update_factors. rewrite negative_update_modes.
    - change (cp_update_modes env w_cs (seq 0 (ndim (cp_X (cm_cp neg_state)))) (cm_cp neg_state))
        with (cp_update_modes env w_cs [0; 1]%nat (cm_cp neg_state)).
      cbn [cp_update_modes]. rewrite E1, E2. unfold update_uncoupled.
      change (mode_to_cm_idx (cm_modes (cm_with_cp c2 neg_state))) with [((-2)%Z, [0%nat])]. cbn [uncoupled_loop].
      fold s2. change (cm_V s2) with (cm_V neg_state). rewrite Estep. reflexivity.
    - repeat constructor.
    - exists [false; false]. split; [reflexivity|]. intros m Hm. apply in_seq in Hm. cbn in Hm.
      destruct m as [|[|m]]; [reflexivity|reflexivity|lia]. }
  destruct (mat11 HW) as (x & EWx).
  assert (HOK3 : cm_ok 1 [0%nat] (with_front_modes (cm_with_V [W] s2))).
  { constructor; try apply HOK2. cbn. rewrite HX2. split; [reflexivity|]. split; [reflexivity|].
    intros [|i] Hi; cbn in Hi; [|lia]. cbn. split; [lia|]. split; [split; reflexivity|exact HW]. }
  pose proof (cmtf_SSE_ok env HOK3) as E3. rewrite front_SSE in E3.
  2:{ change (cm_fms (cm_with_V [W] s2)) with (cm_fms s2). rewrite Hf2. repeat constructor. cbn. lia. }
  exists (cm_with_V [W] s2). eexists. eexists. split; [exact E0|]. split; [exact EU|]. split; [exact E3|].
  cbn [with_front_modes cm_with_coupling cm_with_V cm_cp cm_V cm_Y].
  change (cm_fms (with_front_modes (cm_with_V [W] s2))) with (cm_fms s2). rewrite Hf2, EWx.
  match goal with |- _ < coupled_loss _ ?X ?U ?w _ _ _ => assert (Hs : 0 <= sse X U w 1) end.
  { unfold sse. apply sumf_nonneg. intros. apply pow2_ge_0. }
  unfold coupled_loss.
  match goal with |- _ < _ + ?m => assert (Hm : 4 <= m) end.
  { ev. pose proof (sq0 (a * x)). lra. }
  lra.
Qed.
