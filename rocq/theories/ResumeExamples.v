(** The fit of SafeExamples, interrupted and continued, for the Examples beside C77. *)
From Verif Require Export Parafac2Resume SafeExamples.
Set Implicit Arguments.
Unset Strict Implicit.
Local Open Scope R_scope.

Definition z_cf_off : config := {| cf_freq := -1; cf_tol := 0; cf_rel_tol := 0; cf_print := 10 |}.
Lemma z_run_any b : (0 < b)%Z -> plain_run ex_ps z_cf b z_ds.
Proof.
  intros Hb. destruct z_run as [_ H1 H2 _]. constructor; auto. right. split; [reflexivity|]. exists empty_file. split; [reflexivity|]. split.
  - split; [reflexivity|]. split; [now left|]. discriminate.
  - intros i _ H. now apply H.
Qed.
Lemma z_run_off b : (0 < b)%Z -> plain_run ex_ps z_cf_off b z_ds.
Proof. intros Hb. destruct z_run as [_ H1 H2 _]. constructor; auto. now left. Qed.
