(** A start for the Examples beside C97: one component, slices [3 4] and [0]. *)
From Verif Require Export ReuseFacts ResumeExamples.
From Verif Require Import Prelude Lin.
Set Implicit Arguments.
Unset Strict Implicit.
Local Open Scope R_scope.

Definition given_ps : p2_settings :=
  {| ps_rank := 1; ps_init := "precomputed"; ps_updates := 2; ps_nn := [false; false; false]; ps_ridge := None; ps_orth := None |}.
Definition given_ds : dstate p2_state :=
  {| ds_num := ex_p2; ds_it := 0; ds_max := 1; ds_rel := PInf; ds_prev := PInf; ds_logs := []; ds_file := None |}.
Lemma given_object : object_fits 1 1 z_Xs (p2_heap ex_p2) ex_ref.
Proof.
  destruct ex_p2_ok as [H1 H2 H3 H4 H5 H6 H7 H8 H9]. constructor.
  - exact H1.
  - exact H2.
  - exact H3.
  - exact H4.
  - exact H5.
  - exact H6.
  - change (forall k : nat, (k < 2)%nat -> is_mat (width z_Xs k) 1 (nth k (p2_Ps ex_p2) m0)). slices; split; reflexivity.
  - change (forall k : nat, (k < 2)%nat -> is_mat 1 (width z_Xs k) (nth k z_Xs m0)). slices; split; reflexivity.
  - exact H9.
Qed.
Lemma given_example : plain_given p2_ex_env given_ps 1 1 z_Xs (p2_heap (ds_num given_ds)) ex_ref.
Proof.
  pose proof z_plain as [_ _ _ _ _ HP HX _ _ Hsvd HW]. constructor.
  - constructor; [reflexivity|now left|reflexivity|exact HP|exact HX|exact given_object].
  - constructor; [reflexivity| |reflexivity|reflexivity].
    split; [discriminate|]. intros H. specialize (H 1%nat ltac:(cbn; lia)). discriminate.
  - reflexivity.
  - reflexivity.
  - exact Hsvd.
  - exact HW.
Qed.
Lemma given_run b : (0 < b)%Z -> plain_run given_ps z_cf_off b given_ds.
Proof. intros Hb. constructor; [exact Hb|intros lg []|discriminate|now left]. Qed.
