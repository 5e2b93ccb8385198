(** Property C112: CMTF_ALS on data in other units and with components in another order. *)
From Verif Require Import CmUnitSpec CmUnitFacts CmUnitWitness CMTFUpdate CMTFFacts CMTFComplete CmFixFacts CMTFWitness CoupledSpec CPExamples Exists Props_Stop.
From Verif Require Import Prelude Lin.
Local Open Scope R_scope.

(** *** C112.  [rescaled K c pi a d s t]: the tensor and all coupled matrices of t are c times those of s, the components are in the order
    pi, factor n is multiplied by [a n] and the factor of coupled matrix i by [d i].  [scales_match]: none of these factors is 0 and
    each model is multiplied by c. *)
(** Every iteration without constraints goes on like this, and the reported error is multiplied by c^2. *)
Theorem C112_iterations : forall env cs K ms c pi a d s t, svd_contract (env_svd env) -> cs_rank cs = K -> NoDup ms -> permutes K pi -> c <> 0 ->
  cm_ok K ms s -> cm_ok K ms t -> free_fit cs (cm_cp s) -> free_fit cs (cm_cp t) ->
  scales_match (length (shape (cp_X (cm_cp s)))) ms c a d -> rescaled K c pi a d s t ->
  forall k, let u := state_after (cmtf_model env cs) s k in let v := state_after (cmtf_model env cs) t k in
  snd (cmtf_update_factors env cs u) = None /\ snd (cmtf_update_factors env cs v) = None /\
  rescaled K c pi a d u v /\ exists x, cmtf_SSE env u = Ok x /\ cmtf_SSE env v = Ok (c ^ 2 * x).
Proof.
  intros env cs K ms c pi a d s t HS HK HN Hp Hc O O' F F' Hsc HR k u v.
  exact (@iterations_scaled env cs K ms c pi a d s t HS HK HN Hp Hc O O' F F' Hsc HR k).
Qed.
Print Assumptions C112_iterations.

(** The loops of both fits complete after the same number of iterations, in states that differ only like this. *)
Theorem C112_loops : forall env cs K ms c pi a d cf cf' ds dt x, svd_contract (env_svd env) -> cs_rank cs = K -> (1 <= K)%nat -> NoDup ms ->
  permutes K pi -> c <> 0 -> let s := ds_num ds in let t := ds_num dt in
  cm_ok K ms s -> cm_ok K ms t -> free_fit cs (cm_cp s) -> free_fit cs (cm_cp t) ->
  scales_match (length (shape (cp_X (cm_cp s)))) ms c a d -> rescaled K c pi a d s t ->
  loop_begins env K cf x ds -> loop_begins env K cf' (c ^ 2 * x) dt ->
  ds_max dt = ds_max ds -> cf_tol cf' = cf_tol cf -> cf_rel_tol cf' = cf_rel_tol cf ->
  exists e e', cp_fit_loop (cmtf_model env cs) cf ds = (e, None) /\ cp_fit_loop (cmtf_model env cs) cf' dt = (e', None) /\
    ds_it e' = ds_it e /\ rescaled K c pi a d (ds_num e) (ds_num e') /\
    exists y, cmtf_SSE env (ds_num e) = Ok y /\ cmtf_SSE env (ds_num e') = Ok (c ^ 2 * y).
Proof.
  intros env cs K ms c pi a d cf cf' ds dt x HS HK HK1 HN Hp Hc s t O O' F F' Hsc HR B B' Em Et Er.
  exact (@loops_scaled env cs K ms c pi a d cf cf' ds dt HS HK HK1 HN Hp Hc O O' F F' Hsc HR x B B' Em Et Er).
Qed.
Print Assumptions C112_loops.

(** In particular the order of the components does not matter. *)
Theorem C112_order : forall env cs K ms pi s t, svd_contract (env_svd env) -> cs_rank cs = K -> NoDup ms -> permutes K pi ->
  cm_ok K ms s -> cm_ok K ms t -> free_fit cs (cm_cp s) -> free_fit cs (cm_cp t) ->
  rescaled K 1 pi (fun _ => 1) (fun _ => 1) s t ->
  forall k, cmtf_SSE env (state_after (cmtf_model env cs) t k) = cmtf_SSE env (state_after (cmtf_model env cs) s k).
Proof. intros env cs K ms pi s t HS HK HN Hp O O' F F' HR. exact (order_free HS HK HN Hp O O' F F' HR). Qed.
Print Assumptions C112_order.

(** The number 1 and, coupled to the second mode, 2, two components *)
Definition pair_cs : cp_settings := {| cs_rank := 2; cs_init := "precomputed"; cs_ridge := None |}.
Definition pair (a a' b b' v v' : R) : cmtf_state :=
  {| cm_cp := start 2 (mk [1; 1]%nat [1]) [mk [1; 2]%nat [a; a']; mk [1; 2]%nat [b; b']] [false; false] [false; false];
     cm_Y := [mk [1; 1]%nat [2]]; cm_modes := [1%Z]; cm_V := [mk [1; 2]%nat [v; v']] |}.
Example C112_order_example : exists env, svd_contract (env_svd env) /\
  forall k, cmtf_SSE env (state_after (cmtf_model env pair_cs) (pair 4 1 5 2 6 3) k) = cmtf_SSE env (state_after (cmtf_model env pair_cs) (pair 1 4 2 5 3 6) k).
Proof.
  destruct an_env as (env & HS). exists env. split; [exact HS|].
  assert (HO : forall a a' b b' v v', cm_ok 2 [1%nat] (pair a a' b b' v v')).
  { intros. constructor.
    - apply data11.
    - split; [repeat constructor|reflexivity].
    - apply is_vec_ones.
    - reflexivity.
    - split; [reflexivity|]. split; [reflexivity|]. intros i Hi. cbn in Hi. destruct i; [|lia]. cbn. split; [lia|]. split; split; reflexivity. }
  assert (HF : forall a a' b b' v v', free_fit pair_cs (cm_cp (pair a a' b b' v v'))).
  { intros a a' b b' v v' m Hm. cbn in Hm. split; [reflexivity|]. cbn. split; exists [false; false]; (split; [reflexivity|]).
    all: destruct m as [|[|m]]; [reflexivity|reflexivity|lia]. }
  apply (C112_order env pair_cs 2 [1%nat] (fun r => 1 - r)%nat); auto.
  - repeat constructor. intros [].
  - split; intros; lia.
  - constructor.
    + split; [reflexivity|]. split; [intros n Hn; split; auto|]. intros idx Hv. rewrite SymFacts.moved_id. cbn [pair cm_cp start cp_X]. ring.
    + cbn [pair cm_cp start cp_norm]. ring.
    + split; [reflexivity|]. intros i Hi. split; [reflexivity|]. intros p q _ _. cbn [pair cm_Y]. ring.
    + split; [reflexivity|]. intros n i r Hn Hi Hr. cbn in Hn. destruct n as [|[|n]]; [| |lia]; cbn in Hi; (destruct i; [|lia]);
        (destruct r as [|[|r]]; [| |lia]); ev; ring.
    + split; [reflexivity|]. intros n i r Hn Hi Hr. cbn in Hn. destruct n; [|lia]; cbn in Hi; (destruct i; [|lia]); (destruct r as [|[|r]]; [| |lia]); ev; ring.
    + intros r Hr. destruct r as [|[|r]]; [| |lia]; reflexivity.
Qed.

(** The numbers 1 and, coupled to the second mode, 2, from factors 1: after one pass the error is 1/4.  In other units 2 and 4, from
    factors 2, 1 and 2, it is 1. *)
Example C112_example : exists env, svd_contract (env_svd env) /\
  let s := numbers 1 2 1 1 1 in let t := numbers (2 * 1) (2 * 2) 2 1 2 in
  scales_match 2 [1%nat] 2 (fun n => match n with O => 2 | _ => 1 end) (fun _ => 2) /\
  rescaled 1 2 (fun r => r) (fun n => match n with O => 2 | _ => 1 end) (fun _ => 2) s t /\
  cm_ok 1 [1%nat] s /\ cm_ok 1 [1%nat] t /\ free_fit w_cs (cm_cp s) /\ free_fit w_cs (cm_cp t) /\
  cmtf_SSE env (state_after (cmtf_model env w_cs) s 1) = Ok (1 / 4) /\ cmtf_SSE env (state_after (cmtf_model env w_cs) t 1) = Ok 1.
Proof. exact scaled_numbers. Qed.

(** The loops from these states *)
Definition number_ds (prev : R) (s : cmtf_state) : dstate cmtf_state :=
  {| ds_num := s; ds_it := 0; ds_max := 50; ds_rel := PInf; ds_prev := Fin prev; ds_logs := []; ds_file := None |}.
Example C112_loops_example : exists env e e',
  cp_fit_loop (cmtf_model env w_cs) half_cf (number_ds 1 (numbers 1 2 1 1 1)) = (e, None) /\
  cp_fit_loop (cmtf_model env w_cs) half_cf (number_ds (2 ^ 2 * 1) (numbers (2 * 1) (2 * 2) 2 1 2)) = (e', None) /\
  ds_it e' = ds_it e /\ exists y, cmtf_SSE env (ds_num e) = Ok y /\ cmtf_SSE env (ds_num e') = Ok (2 ^ 2 * y).
Proof.
  destruct C112_example as (env & HS & Hsc & HR & O & O' & F & F' & _). exists env.
  assert (HB : forall x s, kt_rank (cm_dec s) = 1%nat -> loop_begins env 1 half_cf x (number_ds x s)).
  { intros x s Hs. constructor; try reflexivity; [exact Hs|intros lg []|left; cbn; lia]. }
  destruct (C112_loops env w_cs 1 [1%nat] 2 (fun r => r) (fun n => match n with O => 2 | _ => 1 end) (fun _ => 2) half_cf half_cf
    (number_ds 1 (numbers 1 2 1 1 1)) (number_ds (2 ^ 2 * 1) (numbers (2 * 1) (2 * 2) 2 1 2)) 1 HS) as (e & e' & A & B & C & _ & D); auto.
  - repeat constructor. intros [].
  - split; auto.
  - exists e, e'. auto.
Qed.

(** A start made without regard to the units does not do: normalised starts (those of complete fits) have columns of length about one in every
    factor, whatever the data.  With data 2 and 4 but factors 1 the error after one pass is 36/25 instead of 1. *)
Theorem C112_units_refuted : forall env, svd_contract (env_svd env) ->
  ~ (forall s t, cm_ok 1 [1%nat] s -> cm_ok 1 [1%nat] t -> free_fit w_cs (cm_cp s) -> free_fit w_cs (cm_cp t) ->
       same_data 2 (fun _ i => i) (cp_X (cm_cp s)) (cp_X (cm_cp t)) -> scaled_matrices 2 (cm_Y s) (cm_Y t) ->
       cm_fms t = cm_fms s -> cm_V t = cm_V s -> cm_dec t = cm_dec s ->
       forall x y, cmtf_SSE env (state_after (cmtf_model env w_cs) s 1) = Ok x -> cmtf_SSE env (state_after (cmtf_model env w_cs) t 1) = Ok y ->
       y = 2 ^ 2 * x).
Proof. exact units_matter. Qed.
Print Assumptions C112_units_refuted.
Example C112_units_example : exists env, svd_contract (env_svd env) /\
  cmtf_SSE env (state_after (cmtf_model env w_cs) (numbers 1 2 1 1 1) 1) = Ok (1 / 4) /\
  cmtf_SSE env (state_after (cmtf_model env w_cs) (numbers (2 * 1) (2 * 2) 1 1 1) 1) = Ok (36 / 25).
Proof. exact unscaled_numbers. Qed.
