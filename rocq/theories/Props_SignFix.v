(** Property C83: the sign helpers for evolving tensors (utils.py:191-218). *)
From Verif Require Import SignFix.
From Coq Require Import String Lia Lra.
Local Open Scope R_scope.
Local Open Scope list_scope.

(** *** C83.  signfix_evolving_factors returns for an empty list of matrices only. *)
Theorem C83_evolving_raises : forall lstsq data Bs C,
  (forall p, signfix_evolving_factors lstsq data Bs C = Ok p <-> Bs = [] /\ p = ([], C)) /\
  (Bs <> [] -> data = [] -> signfix_evolving_factors lstsq data Bs C = Err IndexError) /\
  (Bs <> [] -> data <> [] -> signfix_evolving_factors lstsq data Bs C = Err TypeError).
Proof.
  intros lstsq data [|B Bs] C.
  - split; [|split; congruence]. intros p. split; [intros E; injection E as <-; auto|intros [_ ->]; reflexivity].
  - destruct data as [|X data]; (split; [|split]); try congruence; try reflexivity; intros p; (split; [discriminate|intros [? _]; discriminate]).
Qed.
Print Assumptions C83_evolving_raises.

(** signfix_normal_factors never returns; on an array with something along its first mode it is a TypeError. *)
Theorem C83_normal_raises : forall lstsq data fixing flipping,
  signfix_normal_factors lstsq data fixing flipping =
  Err (match shape data with [] => IndexError | O :: _ => ValueError | _ => TypeError end).
Proof.
  intros lstsq data fixing flipping. unfold signfix_normal_factors, shape_at. destruct (shape data) as [|n sh] eqn:E; [reflexivity|].
  cbn [nth_error bind]. unfold reshape_auto. rewrite E. destruct n as [|n]; [reflexivity|].
  cbn [Nat.eqb orb]. unfold prodl. cbn [fold_right]. rewrite Nat.mul_comm, Nat.mod_mul by lia. reflexivity.
Qed.
Print Assumptions C83_normal_raises.

(** So no evolving tensor can have its signs fixed. *)
Theorem C83_fix_signs_refuted : forall lstsq A Bs C warn e data,
  ev_init A Bs C warn = Ok e -> exists x, fix_signs_evolving_tensor lstsq e data = Err x.
Proof.
  intros lstsq A Bs C warn e data E. unfold ev_init in E. destruct (shape_at A 1) as [R0|]; [|discriminate]. cbn [bind] in E.
  destruct (check_all_same_size Bs) as [b|] eqn:Eb; [|discriminate]. cbn [bind] in E.
  destruct (shape_at A 0) as [nI|]; [|discriminate]. cbn [bind] in E. destruct (mapM _ Bs) as [l|]; [|discriminate]. cbn [bind] in E.
  injection E as <-. unfold fix_signs_evolving_tensor. cbn [ev_B ev_C]. destruct Bs as [|B Bs]; [discriminate|].
  destruct (C83_evolving_raises lstsq data (B :: Bs) C) as (_ & H1 & H2).
  destruct data; [rewrite H1|rewrite H2]; try congruence; cbn [bind]; eauto.
Qed.
Print Assumptions C83_fix_signs_refuted.

(** A tensor with one slice: the call that fails, and the one get_signs would accept *)
Example C83_example : let A := mk [1; 1]%nat [1] in
  exists e, ev_init A [A] A true = Ok e /\ (forall lstsq, fix_signs_evolving_tensor lstsq e [A] = Err TypeError) /\
    check_call get_signs_params 2 [] = Ok tt.
Proof. cbn zeta. eexists. split; [reflexivity|]. split; reflexivity. Qed.
