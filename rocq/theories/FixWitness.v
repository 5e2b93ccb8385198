(** Concrete starts for C80. *)
From Verif Require Import FixFacts SymWitness CMTFWitness Parafac2Examples Props_Quality Props_Best.
Local Open Scope R_scope.

(** The matrix with singular values 3 and 1: its second component alone is a fixed point with error 9. *)
Definition f_Us : list nd := [mk [2; 1]%nat [0; 1]; mk [2; 1]%nat [0; 1]].
Lemma f_best : forall m, (m < length (shape b_X))%nat -> smallest_best 1 b_X f_Us m.
Proof.
  assert (E0 : sse b_X f_Us unit_weights 1 = 9) by (ev; lra).
  assert (F : forall W, is_mat 2 1 W -> frob2 2 1 (mget W) = mget W 0 0 ^ 2 + mget W 1 0 ^ 2).
  { intros W HW. unfold frob2. cbn [seq sumf]. ring. }
  intros [|[|m]] Hm; [| |cbn in Hm; lia].
  - assert (E : forall W, is_mat 2 1 W -> sse b_X (with_factor 0 W f_Us) unit_weights 1 = 9 + mget W 0 0 ^ 2 + (1 - mget W 1 0) ^ 2).
    { intros W HW. ev. unfold mget in *. cbn in *. ring. }
    split; intros W HW; rewrite E0, (E W HW).
    + pose proof (pow2_ge_0 (mget W 0 0)). pose proof (pow2_ge_0 (1 - mget W 1 0)). lra.
    + intros H. cbn [b_X shape nth] in *. rewrite (F W HW), F by (repeat constructor).
      pose proof (pow2_ge_0 (mget W 0 0)) as P. pose proof (pow2_ge_0 (1 - mget W 1 0)) as Q.
      assert (HQ : (1 - mget W 1 0) ^ 2 = 0) by lra.
      assert (H1 : mget W 1 0 = 1) by nra. rewrite H1. cbn [f_Us nth]. ev. nra.
  - assert (E : forall W, is_mat 2 1 W -> sse b_X (with_factor 1 W f_Us) unit_weights 1 = 9 + mget W 0 0 ^ 2 + (1 - mget W 1 0) ^ 2).
    { intros W HW. ev. unfold mget in *. cbn in *. ring. }
    split; intros W HW; rewrite E0, (E W HW).
    + pose proof (pow2_ge_0 (mget W 0 0)). pose proof (pow2_ge_0 (1 - mget W 1 0)). lra.
    + intros H. cbn [b_X shape nth] in *. rewrite (F W HW), F by (repeat constructor).
      pose proof (pow2_ge_0 (mget W 0 0)) as P. pose proof (pow2_ge_0 (1 - mget W 1 0)) as Q.
      assert (HQ : (1 - mget W 1 0) ^ 2 = 0) by lra.
      assert (H1 : mget W 1 0 = 1) by nra. rewrite H1. cbn [f_Us nth]. ev. nra.
Qed.
Lemma f_ok : factors_ok 1 b_X f_Us.
Proof. split; [repeat constructor|reflexivity]. Qed.
(** The state in which a fit from given factors begins *)
Lemma y_free X Us : data_ok X -> factors_ok 1 X Us -> exists ds1,
  cp_init_fit q_env y_cs no_disk [] X (Some 5%Z) (y_arg Us) y_ds = (ds1, None) /\ kt_fms (cp_dec (ds_num ds1)) = Us /\
  cp_coherent 1 (ds_num ds1) /\ free_fit y_cs (ds_num ds1) /\ cp_X (ds_num ds1) = X.
Proof.
  intros HX HU. destruct (y_start q_env no_disk X Us HX HU) as (d1 & E1 & F1). exists d1. split; [exact E1|]. split; [exact F1|].
  pose proof (y_call X Us HX HU) as (A1 & A2 & A3 & A4 & A5 & A6 & A7 & A8 & A9 & A10 & A11).
  destruct (@complete_fit q_env y_cs 1 y_cf no_disk [] X (Some 5%Z) _ y_ds A1 A2 A3 A4 A5 A6 A7 A8 A9 A10 A11)
    as (x1 & d & G1 & F & FL & HC & HU' & HF & EX & _). rewrite E1 in G1. injection G1 as <-. auto.
Qed.
Lemma y_svd : svd_works_on 1 1 (env_svd q_env).
Proof. apply svd_row_works. lia. Qed.

(** Data of rank one, a start with the right second factor and a start with a second factor orthogonal to the rows *)
Definition g_X : nd := mk [2; 2]%nat [2; 4; 3; 6].
Definition g_Us : list nd := [mk [2; 1]%nat [9; 9]; mk [2; 1]%nat [1; 2]].
Definition g_Vs : list nd := [mk [2; 1]%nat [2; 3]; mk [2; 1]%nat [2; -1]].
Lemma gx_data : data_ok g_X.
Proof. split; [reflexivity|]. split; [cbn; lia|]. repeat constructor; discriminate. Qed.
Lemma g_ok : factors_ok 1 g_X g_Us /\ factors_ok 1 g_X g_Vs.
Proof. split; (split; [repeat constructor|reflexivity]). Qed.
Lemma g_orthogonal : orthogonal_start 1 g_X g_Vs.
Proof. intros [|[|i]] [|r] Hi Hr; cbn in Hi; try lia; ev; lra. Qed.
Lemma g_energy : energy g_X = 65.
Proof. ev. lra. Qed.
