(** Two different svd routines, for the examples of C82. *)
From Verif Require Export SvdFacts SymFacts SymWitness Exists Props_Quality.
From Verif Require Import Prelude Lin.
Local Open Scope R_scope.

Definition is_matb (A : nd) : bool := (length (data A) =? prodl (shape A))%nat && (length (shape A) =? 2)%nat.
Lemma is_matb_ok A : is_matb A = true <-> exists n m, is_mat n m A.
Proof.
  unfold is_matb. rewrite andb_true_iff, !Nat.eqb_eq. split.
  - intros [W L]. destruct (shape A) as [|n [|m [|x l]]] eqn:E; try discriminate. exists n, m. split; [unfold wf; now rewrite E|exact E].
  - intros (n & m & W & E). split; [exact W|now rewrite E].
Qed.
(** An svd routine that accepts matrices only, and the same routine with all signs the other way round *)
Definition guarded (svd : nd -> res (nd * nd * nd)) (A : nd) : res (nd * nd * nd) :=
  if is_matb A then svd A else Err ValueError.
Definition negated (svd : nd -> res (nd * nd * nd)) (A : nd) : res (nd * nd * nd) :=
  do (U, Sv, V) <- svd A ; Ok (np_map Ropp U, Sv, np_map Ropp V).

Lemma is_svd_negated n m A U S V : is_svd n m A U S V -> is_svd n m A (np_map Ropp U) S (np_map Ropp V).
Proof.
  intros [s1 s2 s3 s4 s5 s6 s7 s8]. constructor; auto using is_mat_np_map.
  - intros a b Ha Hb. rewrite <- (s4 a b Ha Hb). apply sum_ext. intros i Hi. rewrite !(mget_np_map _ s1) by auto. ring.
  - intros a b Ha Hb. rewrite <- (s5 a b Ha Hb). apply sum_ext. intros i Hi. rewrite !(mget_np_map _ s3) by auto. ring.
  - intros i j Hi Hj. rewrite (s8 i j Hi Hj). apply sum_ext. intros r Hr. rewrite (mget_np_map _ s1), (mget_np_map _ s3) by auto. ring.
Qed.
Lemma negated_both svd : svd_contract svd -> both_svd (guarded svd) (negated (guarded svd)).
Proof.
  intros H.
  assert (G : svd_contract (guarded svd)).
  { intros n m A HA. unfold guarded. replace (is_matb A) with true by (symmetry; apply is_matb_ok; eauto). now apply H. }
  split; [exact G|]. split.
  - intros n m A HA. destruct (G n m A HA) as (U & S & V & E & F). unfold negated. rewrite E. cbn [bind].
    do 3 eexists. split; [reflexivity|]. now apply is_svd_negated.
  - intros A HA. unfold negated, guarded. replace (is_matb A) with false; auto. symmetry. apply Bool.not_true_is_false.
    intros E. apply is_matb_ok in E. destruct E as (n & m & E). exact (HA n m E).
Qed.
Lemma negated_differs svd n m A : svd_contract svd -> is_mat n m A -> (0 < Nat.min n m)%nat -> negated (guarded svd) A <> guarded svd A.
Proof.
  intros H HA Hp E. destruct (negated_both svd H) as (G & _). destruct (G n m A HA) as (U & S & V & E1 & F).
  unfold negated in E. rewrite E1 in E. cbn [bind] in E. injection E as EU _.
  pose proof (@svd_U_orth _ _ _ _ _ _ F 0%nat 0%nat Hp Hp) as O. rewrite delta_refl in O.
  rewrite sum_zero in O; [lra|]. intros i Hi. pose proof (mget_np_map Ropp (svd_U_shape F) Hi Hp) as N. rewrite EU in N.
  replace (mget U i 0) with 0 by lra. ring.
Qed.
(** The call of the examples of C79 *)
Lemma y_call_any svd X Us : svd_contract svd -> data_ok X -> factors_ok 1 X Us ->
  plain_call (with_svd svd q_env) y_cs 1 y_cf [] X 5 (y_arg Us) y_ds.
Proof.
  intros Hs HX HU. destruct (y_call X Us HX HU) as (A1 & A2 & A3 & A4 & A5 & A6 & A7 & A8 & A9 & A10 & A11).
  split; [exact A1|]. split; [exact A2|]. split; [intros A HA; exact (Hs _ _ _ HA)|]. split; [exact A4|]. split; [exact A5|].
  split; [exact A6|]. split; [exact A7|]. split; [exact A8|]. split; [exact A9|]. split; [intros lg []|exact A11].
Qed.
