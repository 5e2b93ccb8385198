(** A concrete run for C105. *)
From Verif Require Import LimitFacts FixWitness SymWitness CMTFWitness Parafac2Examples Props_Quality Props_Best.
Set Implicit Arguments.
Unset Strict Implicit.
Local Open Scope R_scope.

Definition g_Ls : list nd := [mk [2; 1]%nat [2; 3]; mk [2; 1]%nat [1; 2]].
(** A column that fits alone is the smallest of the best. *)
Lemma column_least X Us m Z c a b : nth m (shape X) 0%nat = 2%nat -> is_mat 2 1 Z -> 0 < c ->
  mget Z 0 0 = a -> mget Z 1 0 = b ->
  (forall W, is_mat 2 1 W -> sse X (with_factor m W Us) unit_weights 1 = c * ((a - mget W 0 0) ^ 2 + (b - mget W 1 0) ^ 2)) ->
  least_best 1 X Us m Z.
Proof.
  intros EN HZ Hc Ha Hb E. unfold least_best. rewrite EN. split; [exact HZ|].
  assert (EZ : sse X (with_factor m Z Us) unit_weights 1 = 0) by (rewrite E, Ha, Hb by exact HZ; ring).
  split; intros W HW; rewrite EZ, (E W HW); pose proof (pow2_ge_0 (a - mget W 0 0)) as P; pose proof (pow2_ge_0 (b - mget W 1 0)) as Q.
  - apply Rmult_le_pos; lra.
  - intros H. assert (H1 : (a - mget W 0 0) ^ 2 + (b - mget W 1 0) ^ 2 <= 0).
    { apply (Rmult_le_reg_l c); lra. }
    assert (Ea : a - mget W 0 0 = 0) by (apply Rsqr_0_uniq; unfold Rsqr; lra).
    assert (Eb : b - mget W 1 0 = 0) by (apply Rsqr_0_uniq; unfold Rsqr; lra).
    unfold frob2. cbn [seq sumf]. rewrite Ha, Hb. replace (mget W 0 0) with a by lra. replace (mget W 1 0) with b by lra. lra.
Qed.
Lemma g_first : least_best 1 g_X g_Us 0 (mk [2; 1]%nat [2; 3]).
Proof.
  apply (@column_least g_X g_Us 0 _ 5 2 3); [reflexivity|repeat constructor|lra|reflexivity|reflexivity|].
  intros W HW. ev. unfold mget in *. cbn in *. ring.
Qed.
Lemma g_still : forall m, (m < 2)%nat -> smallest_best 1 g_X g_Ls m.
Proof.
  assert (HO : factors_ok 1 g_X g_Ls) by (split; [repeat constructor|reflexivity]).
  intros [|[|m]] Hm; [| |lia]; apply (smallest_least HO); try (cbn; lia).
  - apply (@column_least g_X g_Ls 0 _ 5 2 3); [reflexivity|repeat constructor|lra|reflexivity|reflexivity|].
    intros W HW. ev. unfold mget in *. cbn in *. ring.
  - apply (@column_least g_X g_Ls 1 _ 13 1 2); [reflexivity|repeat constructor|lra|reflexivity|reflexivity|].
    intros W HW. ev. unfold mget in *. cbn in *. ring.
Qed.

Lemma g_passes s : cp_coherent 1 s -> free_fit y_cs s -> cp_X s = g_X -> kt_fms (cp_dec s) = g_Us ->
  forall k, kt_fms (cp_dec (state_after (cp_model q_env y_cs) s (S k))) = g_Ls.
Proof.
  intros HC HF EX EU. assert (Hm : (0 < length (shape (cp_X s)))%nat) by (rewrite EX; cbn; lia).
  destruct (update_least HC (eq_refl : cs_rank y_cs = 1%nat) Hm (HF 0%nat Hm) y_svd) as (t & Z & E & Ef & HSP & HCt & HL).
  rewrite EX, EU in HL. assert (Hr : rows g_Us = shape g_X) by reflexivity. assert (H2 : (0 < length (shape g_X))%nat) by (cbn; lia).
  rewrite (least_unique Hr H2 HL g_first), EU in Ef. change (kt_fms (cp_dec t) = g_Ls) in Ef.
  pose proof (free_fit_same HSP HF) as HFt. assert (EXt : cp_X t = g_X) by (now rewrite (sp_X HSP)).
  assert (HB : forall m, (m < length (shape (cp_X t)))%nat -> smallest_best 1 (cp_X t) (kt_fms (cp_dec t)) m).
  { rewrite EXt, Ef. exact g_still. }
  destruct (@modes_keep_best q_env y_cs 1 eq_refl y_svd [1%nat] t HCt HFt) as (u & Eu & Fu & HSu).
  - rewrite EXt. repeat constructor.
  - intros m [<-|[]]. apply HB. rewrite EXt. cbn. lia.
  - assert (E1 : kt_fms (cp_dec (state_after (cp_model q_env y_cs) s 1)) = g_Ls).
    { cbn [state_after cp_model md_update]. unfold cp_update_factors, ndim. rewrite EX. cbn [g_X shape length seq].
      cbn [cp_update_modes]. cbn [cp_update_modes] in Eu. rewrite E, Eu. cbn [fst]. now rewrite Fu. }
    destruct (@after_coherent q_env y_cs 1 s 1 HC) as [HC1 HS1]. pose proof (free_fit_same HS1 HF) as HF1.
    assert (Hfix : kt_fms (cp_dec (state_after (cp_model q_env y_cs) (state_after (cp_model q_env y_cs) s 1) 1)) =
                   kt_fms (cp_dec (state_after (cp_model q_env y_cs) s 1))).
    { apply (@fixed_points q_env y_cs 1 eq_refl y_svd _ HC1 HF1). rewrite (sp_X HS1), EX, E1. exact g_still. }
    pose proof (@fixed_forever q_env y_cs 1 eq_refl y_svd _ HC1 HF1 Hfix) as HK. intros k. rewrite <- E1. rewrite <- (HK k).
    f_equal. f_equal. clear. induction k as [|k IH]; [reflexivity|].
    change (state_after (cp_model q_env y_cs) s (S (S k))) with (fst (md_update (cp_model q_env y_cs) (state_after (cp_model q_env y_cs) s (S k)))).
    rewrite IH. reflexivity.
Qed.
