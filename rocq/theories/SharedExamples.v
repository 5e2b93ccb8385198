(** Examples for C98: 1 x 1 x 1 tensors whose factors share an array. *)
From Verif Require Export SharedFacts CPExamples Props_CP FixWitness.
From Verif Require Export Props_Quality SymWitness FixFacts.
From Verif Require Import Props_Fixed.
From Verif Require Import Prelude Lin.
Set Implicit Arguments.
Unset Strict Implicit.
Local Open Scope R_scope.

Definition c11 (x : R) : nd := mk [1; 1]%nat [x].
Lemma rightsolve_11 svd a b : svd_works_on 1 1 svd -> a <> 0 -> rightsolve svd (c11 a) (c11 b) = Ok (c11 (b / a)).
Proof.
  intros H Ha. assert (HA : is_mat 1 1 (c11 a)) by (split; reflexivity). assert (HB : is_mat 1 1 (c11 b)) by (split; reflexivity).
  destruct (H _ HA) as (U & Sv & Vh & E & HS). destruct (rightsolve_ok HA HB E HS) as (X & EX & HX & _ & H1 & _).
  rewrite EX. f_equal. destruct (mat11 HX) as (x & ->). specialize (H1 (fun _ _ => b / a)). ev_in H1. unfold c11. f_equal. f_equal.
  replace (b / a * a + 0 - b) with 0 in H1 by (field; auto). apply Rmult_eq_reg_r with a; [|auto].
  replace (b / a * a) with b by (field; auto). apply Rminus_diag_uniq. apply sq_zero.
  match type of H1 with ?l <= ?r => replace ((x * a - b) * (x * a - b)) with l by ring; replace r with 0 in H1 by (unfold Rdiv; field_simplify; [lra|auto..]) end. exact H1.
Qed.

Lemma ok_11 a b : a = b -> Ok (mk [1; 1]%nat [a]) = Ok (mk [1; 1]%nat [b]).
Proof. now intros ->. Qed.

Definition aa_cs : cp_settings := {| cs_rank := 1; cs_init := "precomputed"; cs_ridge := None |}.
(** Three modes, all of them the array at address 0; the weights at address 1 *)
Definition aa_ref : kref := {| kr_rank := 1; kr_fms := [0; 0; 0]%nat; kr_w := 1 |}.
Definition aa_X : nd := mk [1; 1; 1]%nat [8].
(** [d]: the stale decomposition *)
Definition aa_state (d : kruskal) (u : R) (last : option nat) (cache : option nd) : cph :=
  {| ch_heap := [c11 u; mk [1]%nat [1]]; ch_ref := aa_ref;
     ch_cp := {| cp_X := aa_X; cp_norm := norm aa_X; cp_dec := d; cp_last := last; cp_cache := cache; cp_nn := Some [false; false; false]; cp_orth := Some [false; false; false] |} |}.

Lemma aa_step env d u last cache m : svd_works_on 1 1 (env_svd env) -> u <> 0 -> (m < 3)%nat ->
  exists d', ch_update_factor env aa_cs (aa_state d u last cache) m =
  (aa_state d' (8 / (u * u)) (Some m) (Some (c11 (8 * (u * u)))), None).
Proof.
  intros HN Hu Hm. unfold ch_update_factor, cp_update_factor.
  assert (EL : als_lhs aa_cs (kt_fms (cp_dec (ch_view (aa_state d u last cache)))) m = Ok (c11 (u * u * (u * u)))).
  { destruct m as [|[|[|m]]]; [ev; apply ok_11; ring..|lia]. }
  assert (ER : als_rhs env (cp_X (ch_view (aa_state d u last cache))) (kt_fms (cp_dec (ch_view (aa_state d u last cache)))) m = Ok (c11 (8 * (u * u)))).
  { destruct m as [|[|[|m]]]; [ev; apply ok_11; ring..|lia]. }
  assert (EG : get_rightsolve env aa_cs (cp_nn (ch_view (aa_state d u last cache))) (cp_orth (ch_view (aa_state d u last cache))) m = Ok (rightsolve (env_svd env))).
  { destruct m as [|[|[|m]]]; [reflexivity..|lia]. }
  rewrite EL. cbn [bind]. rewrite ER. cbn [bind]. rewrite EG. cbn [bind].
  rewrite (rightsolve_11 _ HN) by (intros E; apply Hu; apply Rmult_integral in E as [E|E]; apply Rmult_integral in E as [E|E]; auto).
  replace (8 * (u * u) / (u * u * (u * u))) with (8 / (u * u)) by (field; auto).
  destruct m as [|[|[|m]]]; [eexists; reflexivity..|lia].
Qed.
Definition aa_start : cph := aa_state {| kt_rank := 0; kt_fms := []; kt_w := mk [] [] |} 1 None None.
Lemma aa_pass env : svd_works_on 1 1 (env_svd env) ->
  exists d, ch_update_factors env aa_cs aa_start = (aa_state d 512 (Some 2%nat) (Some (c11 (1 / 8))), None).
Proof.
  intros HN. unfold ch_update_factors. cbn [aa_start aa_state ch_cp cp_X aa_X ndim shape length seq run_all].
  fold aa_start. unfold aa_start.
  destruct (@aa_step env {| kt_rank := 0; kt_fms := []; kt_w := mk [] [] |} 1 None None 0 HN) as [d1 ->]; [lra|lia|].
  replace (8 / (1 * 1)) with 8 by lra.
  destruct (@aa_step env d1 8 (Some 0%nat) (Some (c11 (8 * (1 * 1)))) 1 HN) as [d2 ->]; [lra|lia|].
  replace (8 / (8 * 8)) with (1 / 8) by lra.
  destruct (@aa_step env d2 (1 / 8) (Some 1%nat) (Some (c11 (8 * (8 * 8)))) 2 HN) as [d3 ->]; [lra|lia|].
  replace (8 / (1 / 8 * (1 / 8))) with 512 by lra. replace (8 * (1 / 8 * (1 / 8))) with (1 / 8) by lra. now exists d3.
Qed.
Lemma aa_reported env d : cp_SSE env (ch_view (aa_state d 512 (Some 2%nat) (Some (c11 (1 / 8))))) = Ok (64 + 512 ^ 6 - 128).
Proof.
  ev. f_equal. rewrite !Rmult_1_r. rewrite !sqrt_sqrt by lra. lra.
Qed.
Lemma aa_data : data_ok (cp_X (ch_cp aa_start)).
Proof. split; [reflexivity|]. split; [cbn; lia|]. repeat constructor; discriminate. Qed.
Lemma aa_factors : factors_ok 1 (cp_X (ch_cp aa_start)) (kt_fms (ch_value aa_start)).
Proof. split; [repeat constructor|reflexivity]. Qed.
Lemma aa_free : free_fit aa_cs (ch_view aa_start).
Proof.
  intros m Hm. cbn in Hm. split; [reflexivity|].
  split; exists [false; false; false]; (split; [reflexivity|]); destruct m as [|[|[|m]]]; (reflexivity || lia).
Qed.
Lemma aa_true u : sse aa_X [c11 u; c11 u; c11 u] unit_weights 1 = (8 - u * u * u) ^ 2.
Proof. ev. ring. Qed.

(** Two modes, both the array at address 0 *)
Definition ab_ref : kref := {| kr_rank := 1; kr_fms := [0; 0]%nat; kr_w := 1 |}.
Definition ab_heap (u w : R) : heap := [c11 u; mk [1]%nat [w]].
Lemma div_11 u : u <> 0 -> np_div (c11 u) (np_map (fun x => x + 0) (newaxis0 (mk [1]%nat [u]))) = Ok (c11 1).
Proof.
  intros Hu. unfold np_div. replace (has_zero (np_map (fun x => x + 0) (newaxis0 (mk [1]%nat [u])))) with false.
  - transitivity (Ok (c11 (u / (u + 0)))); [reflexivity|]. apply ok_11. field. lra.
  - unfold has_zero. cbn. destruct (Req_EM_T (u + 0) 0) as [E|E]; [lra|reflexivity].
Qed.
Lemma norm_11 u : 0 < u -> norm_axis0 (c11 u) = mk [1]%nat [u].
Proof.
  intros Hu. ev. now rewrite Rplus_0_r, sqrt_square by lra.
Qed.
Lemma ab_step u w i : 0 < u -> (i < 2)%nat -> kr_normalize_step true 0 ab_ref (ab_heap u w) i = Ok (ab_heap 1 (w * u)).
Proof.
  intros Hu Hi. unfold kr_normalize_step. destruct i as [|[|i]]; [| |lia]; cbn [ab_ref kr_fms list_get nth_error bind];
    change (hread (ab_heap u w) 0) with (c11 u); rewrite norm_11 by auto; rewrite div_11 by lra; reflexivity.
Qed.
Lemma ab_normalize : kr_normalize true 0 ab_ref (ab_heap 2 1) = Ok (ab_heap 1 2).
Proof.
  unfold kr_normalize. cbn [ab_ref kr_fms length seq foldM]. rewrite ab_step by (lra || lia). cbn [bind]. rewrite ab_step by (lra || lia).
  cbn [bind]. replace (1 * 2 * 1) with 2 by ring. reflexivity.
Qed.
Lemma ab_construct env u w : kt_construct (env_junk env) (kr_value (ab_heap u w) ab_ref) = Ok (c11 (w * u * u)).
Proof. ev. apply ok_11. ring. Qed.

(** A start [9; 9] x [1; 2] in arrays 0 and 1, its weights in array 2, another array 3 *)
Definition w_heap : heap := g_Us ++ [np_ones [1%nat]; mk [1]%nat [5]].
Definition w_ref : kref := {| kr_rank := 1; kr_fms := [0; 1]%nat; kr_w := 2 |}.
Definition w_ds (orth : option (list bool)) : dstate cph :=
  {| ds_num := {| ch_heap := w_heap; ch_ref := {| kr_rank := 0; kr_fms := []; kr_w := 4 |}; ch_cp := fresh_cp None orth |};
     ds_it := 0; ds_max := 100; ds_rel := PInf; ds_prev := PInf; ds_logs := []; ds_file := None |}.
Lemma w_own : own_arrays w_heap w_ref.
Proof. split; [repeat constructor; cbn; intuition discriminate|repeat constructor; cbn; lia]. Qed.
Lemma w_view : ds_view ch_view (w_ds None) y_ds.
Proof. constructor; try reflexivity. constructor. Qed.
(** The fit from there: exact, hence elsewhere *)
Lemma w_fit : exists d', ch_fit q_env y_cs y_cf g_X (Some 5%Z) w_ref (w_ds None) = (d', None) /\
  sse g_X (map (hread (ch_heap (ds_num d'))) (kr_fms w_ref)) unit_weights 1 <= 0.
Proof.
  destruct (y_free g_X g_Us gx_data (proj1 g_ok)) as (s1 & E1 & F1 & HC & HF & EX).
  destruct (C80_fit_bound q_env y_cs 1 y_cf no_disk [] g_X (Some 5%Z) (y_arg g_Us) y_ds s1
    (y_call g_X g_Us gx_data (proj1 g_ok)) E1) as (d & e & Ed & _ & Ee & H).
  { rewrite F1. cbn [y_cf cf_rel_tol]. rewrite Rmult_0_l. apply sse_nonneg. }
  assert (He : e <= 0).
  { specialize (H (mk [2; 1]%nat [2; 3])). rewrite F1 in H.
    assert (E0 : sse g_X (with_factor 0 (mk [2; 1]%nat [2; 3]) g_Us) unit_weights 1 = 0) by (ev; lra).
    rewrite E0 in H. apply H. repeat constructor. }
  destruct (@given_start_result q_env y_cs 1 y_cf g_X (Some 5%Z) w_ref (w_ds None) y_ds w_own w_view)
    as (d' & E' & _ & _ & _ & _ & H5 & _).
  - reflexivity.
  - reflexivity.
  - reflexivity.
  - apply svd_row_works; lia.
  - exact gx_data.
  - reflexivity.
  - exact (proj1 g_ok).
  - apply is_vec_ones.
  - reflexivity.
  - now left.
  - now left.
  - lia.
  - intros lg [].
  - left. cbn. lia.
  - exists d'. split; [exact E'|].
    destruct (@fit_view q_env y_cs y_cf no_disk [] g_X (Some 5%Z) w_ref (w_ds None) y_ds w_own w_view) as [[HW _] _].
    rewrite E' in HW. cbn [fst] in HW. change (DecArg (kr_value (ch_heap (ds_num (w_ds None))) w_ref)) with (y_arg g_Us) in HW. rewrite Ed in HW.
    cbn [fst] in HW. rewrite (dv_num HW), H5 in Ee. injection Ee as Ee. rewrite <- Ee in He. exact He.
Qed.
Lemma w_start_error : 0 < sse g_X g_Us unit_weights 1.
Proof. ev. lra. Qed.
