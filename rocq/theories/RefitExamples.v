(** Fits for the Examples beside C100: one component; a 2 x 2 matrix and a 2 x 2 x 1 tensor, each with a 2 x 1 matrix coupled to mode 0. *)
From Verif Require Export RefitFacts.
From Verif Require Import CPExamples CMTFComplete CoupledFit Exists StopFacts Prelude Lin.
Set Implicit Arguments.
Unset Strict Implicit.
Local Open Scope R_scope.

Definition r_X : nd := mk [2; 2]%nat [1; 2; 3; 5].
Definition r_X3 : nd := mk [2; 2; 1]%nat [1; 2; 3; 5].
Definition r_Y : list nd := [mk [2; 1]%nat [1; -1]].
Definition r_V : list nd := [mk [1; 1]%nat [2]].
Definition r_draws : list nd := [mk [2; 1]%nat [1; 1]; mk [2; 1]%nat [2; 1]].
Definition r_draws3 : list nd := r_draws ++ [mk [1; 1]%nat [1]].
Definition r_cs : cp_settings := {| cs_rank := 1; cs_init := "random"; cs_ridge := None |}.
Definition r_cf : config := {| cf_freq := -1; cf_tol := 0; cf_rel_tol := 0; cf_print := -1 |}.
Definition r_ds : dstate cmtf_state :=
  {| ds_num := {| cm_cp := fresh_cp None None; cm_Y := []; cm_modes := []; cm_V := [] |}; ds_it := 0; ds_max := 10; ds_rel := PInf; ds_prev := PInf;
     ds_logs := []; ds_file := None |}.
Lemma r_constrained : exists env, constrained env r_cs 1 r_X None None /\ constrained env r_cs 1 r_X3 None None.
Proof.
  destruct svd_contract_satisfiable as (svd & Hs). destruct nnls_contract_satisfiable as (nnls & Hn).
  exists {| env_svd := svd; env_svd_u := fun A => do (U, _, _) <- svd A ; Ok U; env_qr := fun A => Ok A; env_nnls := nnls; env_junk := fun _ _ => 0 |}.
  assert (Hb : forall m, ~ asked None m) by (intros m (l & E & _); discriminate).
  split.
  - constructor.
    + reflexivity.
    + lia.
    + split; [reflexivity|]. split; [cbn; lia|]. repeat constructor; discriminate.
    + left. reflexivity.
    + left. reflexivity.
    + intros m H. destruct (Hb m H).
    + intros m H. destruct (Hb m H).
    + exact I.
    + exact Hs.
    + exact Hn.
    + intros m H. destruct (Hb m H).
  - constructor.
    + reflexivity.
    + lia.
    + split; [reflexivity|]. split; [cbn; lia|]. repeat constructor; discriminate.
    + left. reflexivity.
    + left. reflexivity.
    + intros m H. destruct (Hb m H).
    + intros m H. destruct (Hb m H).
    + exact I.
    + exact Hs.
    + exact Hn.
    + intros m H. destruct (Hb m H).
Qed.
Lemma r_not_asked m : ~ asked None m.
Proof. intros (l & E & _). discriminate. Qed.
Lemma r_start env : usable_start env r_cs 1 r_X r_draws NoArg.
Proof. left. split; [reflexivity|]. split; [reflexivity|]. split; [repeat constructor|reflexivity]. Qed.
Lemma r_start3 env : usable_start env r_cs 1 r_X3 r_draws3 NoArg.
Proof. left. split; [reflexivity|]. split; [reflexivity|]. split; [repeat constructor|reflexivity]. Qed.
Lemma r_lengths r : (r < 1)%nat -> clen (mk [1; 1]%nat [2]) r <> 0.
Proof.
  intros Hr E. apply sqrt_eq_0 in E.
  - destruct r as [|r]; [|lia]. ev_in E. lra.
  - apply sum_nonneg. intros. apply pow2_ge_0.
Qed.
Lemma r_coupled X : nth 0 (shape X) 0%nat = 2%nat -> (0 < length (shape X))%nat -> coupled_start 1 X [0%nat] r_Y r_V.
Proof.
  intros H2 Hl. split; [reflexivity|]. split; [reflexivity|]. intros [|i] Hi; [|cbn in Hi; lia]. cbn [nth].
  split; [exact Hl|]. split; [rewrite H2; split; reflexivity|]. split; [split; reflexivity|]. exact r_lengths.
Qed.
(** The fits, by the decomposer as constructed *)
Lemma r_fits env : constrained env r_cs 1 r_X None None -> exists d,
  cmtf_fit env r_cs r_cf (fun _ => None) r_draws r_V r_X r_Y [0%Z] (Some 3%Z) NoArg r_ds = (d, None) /\ length (cm_fms (ds_num d)) = 2%nat /\
  nn_list d = Some [false; false] /\ orth_list d = Some [false; false] /\ ds_logs d = [].
Proof.
  intros HC. destruct (@constrained_complete env r_cs 1 r_X None None [0%nat] HC) with (cf := r_cf) (disk := fun _ : string => @None file) (draws := r_draws) (vdraws := r_V)
    (Y := r_Y) (max_its := Some 3%Z) (arg := NoArg) (ds := r_ds) as (a & d & n & _ & E & _ & _ & _ & HL & HF & _).
  - exact r_not_asked.
  - repeat constructor. intros [].
  - apply r_start.
  - apply r_coupled; [reflexivity|cbn; lia].
  - reflexivity.
  - reflexivity.
  - reflexivity.
  - intros lg [].
  - left. reflexivity.
  - assert (L : length (cm_fms (ds_num d)) = 2%nat).
    { destruct HF as [_ H]. apply (f_equal (@length nat)) in H. unfold rows in H. rewrite map_length in H. exact H. }
    exists d. split; [exact E|]. split; [exact L|]. destruct (completed_fills E) as [F1 F2]. rewrite L in F1, F2.
    split; [exact F1|]. split; [exact F2|]. inversion HL. reflexivity.
Qed.
Lemma r_fits3 env : constrained env r_cs 1 r_X3 None None -> exists d,
  cmtf_fit env r_cs r_cf (fun _ => None) r_draws3 r_V r_X3 r_Y [0%Z] (Some 3%Z) NoArg r_ds = (d, None) /\ length (cm_fms (ds_num d)) = 3%nat /\
  orth_list d = Some [false; false; false].
Proof.
  intros HC. destruct (@constrained_complete env r_cs 1 r_X3 None None [0%nat] HC) with (cf := r_cf) (disk := fun _ : string => @None file) (draws := r_draws3) (vdraws := r_V)
    (Y := r_Y) (max_its := Some 3%Z) (arg := NoArg) (ds := r_ds) as (a & d & n & _ & E & _ & _ & _ & _ & HF & _).
  - exact r_not_asked.
  - repeat constructor. intros [].
  - apply r_start3.
  - apply r_coupled; [reflexivity|cbn; lia].
  - reflexivity.
  - reflexivity.
  - reflexivity.
  - intros lg [].
  - left. reflexivity.
  - assert (L : length (cm_fms (ds_num d)) = 3%nat).
    { destruct HF as [_ H]. apply (f_equal (@length nat)) in H. unfold rows in H. rewrite map_length in H. exact H. }
    exists d. split; [exact E|]. split; [exact L|]. destruct (completed_fills E) as [_ F2]. rewrite L in F2. exact F2.
Qed.
Lemma r_refuted : ~ forall env cs cf disk draws vdraws X Y modes draws' vdraws' X' Y' modes' max_its ds d d',
  cmtf_fit env cs cf disk draws vdraws X Y modes max_its NoArg ds = (d, None) ->
  cmtf_fit env cs cf disk draws' vdraws' X' Y' modes' max_its NoArg ds = (d', None) ->
  exists d2, cmtf_fit env cs cf disk draws' vdraws' X' Y' modes' max_its NoArg d = (d2, None).
Proof.
  intros H. destruct r_constrained as (env & HC & HC3). destruct (r_fits HC) as (d & E & _ & E1 & _). destruct (r_fits3 HC3) as (d3 & F & _).
  destruct (H _ _ _ _ _ _ _ _ _ _ _ _ _ _ _ _ _ _ E F) as (d2 & E2).
  refine (@more_modes_raise env r_cs r_cf (fun _ => None) r_draws3 r_V r_X3 r_Y [0%Z] (Some 3%Z) NoArg d _ E1 _ _ _).
  - cbn. lia.
  - cbn. lra.
  - rewrite E2. reflexivity.
Qed.
