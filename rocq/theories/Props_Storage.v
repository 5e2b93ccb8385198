(** Properties C16, C18, C19, C41: decompositions in HDF5 files and checkpoint names. *)
From Coq Require Import Sorted Permutation.
From Verif Require Import NamesFacts.
Local Open Scope nat_scope.

(** *** C16 *)
Theorem C16_kruskal_roundtrip : forall Us w k g,
  kt_init Us w = Ok k ->
  (forall n, In n (kt_names (length Us)) -> lookup n (g_data g) = None) ->
  exists g', run_steps (kt_store k) g = (g', None) /\ kt_load g' = Ok k.
Proof.
  intros Us w k g E H. apply (@kt_roundtrip_lemma Us w k g E).
  replace (length (kt_fms k)) with (length Us); [exact H|].
  apply kt_init_ok_iff in E as (K & _ & -> & _). reflexivity.
Qed.
Print Assumptions C16_kruskal_roundtrip.

Theorem C16_kruskal_file_roundtrip : forall Us w k old,
  kt_init Us w = Ok k ->
  exists f, store_file (kt_store k) old = (f, None) /\ from_file kt_load f = Ok k.
Proof.
  intros Us w k old E.
  destruct (@kt_roundtrip_lemma Us w k empty_group E) as (g & H1 & H2); [apply no_clash_empty|].
  unfold store_file. rewrite run_at_root. cbn [f_root empty_file]. rewrite H1.
  eexists. split; [reflexivity|]. exact H2.
Qed.
Print Assumptions C16_kruskal_file_roundtrip.

Theorem C16_occupied_group_refused : forall k n g,
  In n (kt_names (length (kt_fms k))) -> lookup n (g_data g) <> None ->
  snd (run_steps (kt_store k) g) = Some NameExists.
Proof. exact kt_clash_lemma. Qed.
Print Assumptions C16_occupied_group_refused.

Theorem C16_wrong_type_refused : forall g s,
  lookup "type" (g_attrs g) = Some (DStr s) -> s <> "KruskalTensor"%string -> kt_load g = Err WarningExc.
Proof. intros g s H Hn. apply kt_load_wrong. now exists s. Qed.
Print Assumptions C16_wrong_type_refused.

Definition sU1 : nd := mk [2; 1] [1; 2]%R.
Definition sU2 : nd := mk [3; 1] [4; 5; 6]%R.
Example C16_example :
  exists k g, kt_init [sU1; sU2] (Some (mk [1] [7%R])) = Ok k /\
    run_steps (kt_store k) empty_group = (g, None) /\
    map fst (g_data g) = ["factor_matrix000"; "factor_matrix001"; "weights"]%string /\
    kt_load g = Ok k /\ pf_load g = Err WarningExc /\
    snd (run_steps (kt_store k) g) = Some NameExists.
Proof.
  eexists. eexists. split; [reflexivity|]. split; [reflexivity|]. repeat split; reflexivity.
Qed.
(** The three digits of the name template are a minimum, not a maximum. *)
Example C16_overflow : fm_name 999 = "factor_matrix999"%string /\ fm_name 1000 = "factor_matrix1000"%string.
Proof. split; reflexivity. Qed.

(** *** C18 *)
Theorem C18_evolving_never_loads : forall A Bs C warn e g,
  ev_init A Bs C warn = Ok e ->
  (forall n, In n (ev_names (length Bs)) -> lookup n (g_data g) = None) ->
  exists g', run_steps (ev_store e) g = (g', None) /\ ev_load g' = Err TypeError.
Proof.
  intros A Bs C warn e g E H. apply ev_load_type_error.
  replace (ev_B e) with Bs; [exact H|]. unfold ev_init in E.
  destruct (shape_at A 1); cbn [bind] in E; [|discriminate].
  destruct (check_all_same_size Bs); cbn [bind] in E; [|discriminate].
  destruct (shape_at A 0); cbn [bind] in E; [|discriminate].
  destruct (mapM _ Bs); cbn [bind] in E; [|discriminate]. now injection E as <-.
Qed.
Print Assumptions C18_evolving_never_loads.

Theorem C18_evolving_file_never_loads : forall e old,
  exists f, store_file (ev_store e) old = (f, None) /\ from_file ev_load f = Err TypeError.
Proof.
  intros e old. destruct (@ev_load_type_error e empty_group) as (g & H1 & H2); [apply no_clash_empty|].
  unfold store_file. rewrite run_at_root. cbn [f_root empty_file]. rewrite H1.
  eexists. split; [reflexivity|]. exact H2.
Qed.
Print Assumptions C18_evolving_file_never_loads.

(** Everything needed is in the file: a loader passing only the arguments the constructor has would
    return the tensor. *)
Definition ev_load_fixed (g : group) : res evolving :=
  do A <- load_array "A" g ;
  do nv <- get_attr "num_Bs" g ;
  do n <- as_int nv ;
  do Bs <- mapM (fun k => load_array (B_name k) g) (py_range n) ;
  do C <- load_array "C" g ;
  do wv <- get_attr "warning" g ;
  do warning <- as_bool wv ;
  ev_init A Bs C warning.
Theorem C18_file_is_complete : forall A Bs C warn e,
  ev_init A Bs C warn = Ok e ->
  exists g, run_steps (ev_store e) empty_group = (g, None) /\ ev_load_fixed g = Ok e.
Proof.
  intros A Bs C warn e E.
  assert (HA : ev_A e = A /\ ev_B e = Bs /\ ev_C e = C /\ ev_warning e = warn).
  { unfold ev_init in E. destruct (shape_at A 1); cbn [bind] in E; [|discriminate].
    destruct (check_all_same_size Bs); cbn [bind] in E; [|discriminate].
    destruct (shape_at A 0); cbn [bind] in E; [|discriminate].
    destruct (mapM _ Bs); cbn [bind] in E; [|discriminate]. now injection E as <-. }
  destruct HA as (HA & HB & HC & Hw).
  eexists. split; [apply ev_store_run; apply no_clash_empty|].
  unfold ev_load_fixed, get_attr. cbn [g_attrs].
  repeat (rewrite lookup_set_same || rewrite lookup_set_other by discriminate).
  rewrite (@load_ok "A" _ (ev_A e)) by reflexivity. cbn [bind as_int].
  rewrite (@load_named B_name (ev_B e)).
  - cbn [bind]. rewrite (@load_ok "C" _ (ev_C e)).
    2:{ cbn [g_data]. rewrite !lookup_app. cbn [lookup empty_group g_data String.eqb Ascii.eqb Bool.eqb].
        rewrite lookup_named_other by discriminate. reflexivity. }
    cbn [bind as_bool]. rewrite HA, HB, HC, Hw. exact E.
  - exact B_name_inj.
  - intros i Hi. cbn [g_data]. rewrite !lookup_app. cbn [lookup empty_group g_data].
    pose proof (@lookup_named B_name B_name_inj (ev_B e) 0 i Hi) as H. cbn [Nat.add] in H. now rewrite H.
Qed.
Print Assumptions C18_file_is_complete.

Example C18_example : exists e g,
  ev_init sU1 [sU2; sU1] (mk [2; 1] [1; 1]%R) false = Ok e /\ run_steps (ev_store e) empty_group = (g, None) /\
  map fst (g_data g) = ["A"; "B_000"; "B_001"; "C"]%string /\ ev_load g = Err TypeError.
Proof. eexists. eexists. split; [reflexivity|]. split; [reflexivity|]. split; reflexivity. Qed.

(** *** C19 *)
Theorem C19_parafac2_roundtrip : forall A B C Ps warn t g,
  pf_init A B C Ps warn = Ok t ->
  (forall n, In n (pf_names (length Ps)) -> lookup n (g_data g) = None) ->
  exists g', run_steps (pf_store t) g = (g', None) /\ pf_load g' = Ok t.
Proof.
  intros A B C Ps warn t g E H. apply (@pf_roundtrip_lemma A B C Ps warn t g E).
  replace (pf_P t) with Ps; [exact H|]. unfold pf_init in E.
  destruct (shape_at A 1); cbn [bind] in E; [|discriminate].
  destruct (check_all_same_size Ps); cbn [bind] in E; [|discriminate].
  destruct (shape_at A 0); cbn [bind] in E; [|discriminate].
  destruct (projected_factor B Ps); cbn [bind] in E; [|discriminate].
  destruct (mapM _ _); cbn [bind] in E; [|discriminate]. now injection E as <-.
Qed.
Print Assumptions C19_parafac2_roundtrip.

Theorem C19_parafac2_file_roundtrip : forall A B C Ps warn t old,
  pf_init A B C Ps warn = Ok t ->
  exists f, store_file (pf_store t) old = (f, None) /\ from_file pf_load f = Ok t.
Proof.
  intros A B C Ps warn t old E.
  destruct (@pf_roundtrip_lemma A B C Ps warn t empty_group E) as (g & H1 & H2); [apply no_clash_empty|].
  unfold store_file. rewrite run_at_root. cbn [f_root empty_file]. rewrite H1.
  eexists. split; [reflexivity|]. exact H2.
Qed.
Print Assumptions C19_parafac2_file_roundtrip.

Theorem C19_wrong_type_refused : forall g s,
  lookup "type" (g_attrs g) = Some (DStr s) -> s <> "Parafac2Tensor"%string -> pf_load g = Err WarningExc.
Proof. intros g s H Hn. apply pf_load_wrong. now exists s. Qed.
Print Assumptions C19_wrong_type_refused.

Example C19_example : exists t g,
  pf_init sU1 (mk [1; 1] [3%R]) (mk [2; 1] [1; 1]%R) [sU2; sU1] false = Ok t /\
  run_steps (pf_store t) empty_group = (g, None) /\
  map fst (g_data g) = ["A"; "blueprint_B"; "C"; "projection_matrix_000"; "projection_matrix_001"]%string /\
  pf_load g = Ok t /\ kt_load g = Err WarningExc.
Proof. eexists. eexists. split; [reflexivity|]. split; [reflexivity|]. repeat split; reflexivity. Qed.

(** *** C41 *)
Theorem C41_names_distinct : forall i j, ckpt_name i = ckpt_name j -> i = j.
Proof. exact ckpt_name_inj. Qed.
Print Assumptions C41_names_distinct.

Theorem C41_iteration_order : forall f its,
  (forall i, In i its -> (0 <= i < 100000)%Z) -> StronglySorted Z.lt its ->
  Permutation (filter (String.prefix "checkpoint") (file_names f)) (map ckpt_name its) ->
  iter_checkpoints f = map ckpt_name its.
Proof. exact iter_lemma. Qed.
Print Assumptions C41_iteration_order.

(** The names are exactly those of groups and of arrays in the root of the file that start with 'checkpoint'. *)
Theorem C41_which_names : forall f n, In n (iter_checkpoints f) <->
  String.prefix "checkpoint" n = true /\ ((exists g, In (n, g) (f_groups f)) \/ exists d, In (n, d) (g_data (f_root f))).
Proof.
  intros f n.
  assert (HM : forall (A : Type) (l : list (string * A)), In n (map fst l) <-> exists x, In (n, x) l).
  { intros A l. rewrite in_map_iff. split; [intros ([m x] & <- & H); eauto|intros (x & H); exists (n, x); auto]. }
  unfold iter_checkpoints. rewrite filter_In. assert (E : In n (py_sorted (file_names f)) <-> In n (file_names f)).
  { split; apply Permutation_in; [symmetry|]; apply py_sorted_perm. }
  rewrite E. unfold file_names. rewrite in_app_iff, !HM. tauto.
Qed.
Print Assumptions C41_which_names.

(** An array in the root counts as a checkpoint. *)
Example C41_names_example :
  let f := {| f_root := {| g_data := [("checkpoint_notes"%string, DArr (mk [1] [1%R]))]; g_attrs := [] |}; f_groups := [(ckpt_name 3, empty_group)] |} in
  iter_checkpoints f = [ckpt_name 3; "checkpoint_notes"%string].
Proof. reflexivity. Qed.

Definition file_with (names : list string) : file :=
  {| f_root := empty_group; f_groups := map (fun n => (n, empty_group)) names |}.
Example C41_example :
  let f := file_with [ckpt_name 12; "LossLogger"%string; ckpt_name 3; ckpt_name 99999] in
  iter_checkpoints f = map ckpt_name [3; 12; 99999]%Z /\ ckpt_name 12 = "checkpoint_00012"%string.
Proof. split; reflexivity. Qed.

Theorem C41_wrong_order_refuted : exists f i j,
  (0 <= i < j)%Z /\ file_names f = [ckpt_name i; ckpt_name j] /\
  iter_checkpoints f = [ckpt_name j; ckpt_name i].
Proof.
  exists (file_with [ckpt_name 99999; ckpt_name 100000]), 99999%Z, 100000%Z.
  split; [lia|]. split; reflexivity.
Qed.
Print Assumptions C41_wrong_order_refuted.
