(** Vocabulary for the properties of fits and checkpoints (C30-C39), independent of the loops. *)
From Verif Require Export Decomposer.
Set Implicit Arguments.
Unset Strict Implicit.
Local Open Scope nat_scope.

Section FitSpec.
Context {St D : Type} (md : model St D) (cf : config).

(** The state after [k] updates starting from [s]. *)
Fixpoint state_after (s : St) (k : nat) : St :=
  match k with O => s | S k' => fst (md_update md (state_after s k')) end.
(** The loss after [k] updates; [p0] is the loss remembered when the loop was entered. *)
Definition loss_at (s : St) (k : nat) : res xr := md_loss md (state_after s k).
Definition prev_at (p0 : xr) (s : St) (k : nat) : res xr :=
  match k with O => Ok p0 | S _ => loss_at s k end.
(** The relative change (L(k-1) - L(k)) / L(k-1) known before pass [k]; [r0] before the first. *)
Definition rel_at (p0 r0 : xr) (s : St) (k : nat) : res xr :=
  match k with
  | O => Ok r0
  | S j => do p <- prev_at p0 s j ; do x <- loss_at s k ; Ok (xdiv (xsub p x) p)
  end.
(** Does the CP stopping rule hold before pass [k]?  Does the PARAFAC2 rule? *)
Definition cp_stops (p0 r0 : xr) (s : St) (k : nat) : res bool :=
  do x <- loss_at s k ;
  do r <- rel_at p0 r0 s k ;
  Ok (xltb (xabs r) (Fin (cf_tol cf)) ||
      xltb (xdiv x (Fin (md_norm2 md (state_after s k)))) (Fin (cf_rel_tol cf))).
Definition pf_stops (p0 r0 : xr) (s : St) (k : nat) : res bool :=
  do r <- rel_at p0 r0 s k ; Ok (xltb (xabs r) (Fin (cf_tol cf))).

(** Numbers of the periodic checkpoints of a run of [n] updates that starts at counter [c0]. *)
Definition periodic (freq c0 : Z) (n : nat) : list Z :=
  filter (fun i => ((i + 1) mod freq =? 0)%Z) (map (fun j => (c0 + Z.of_nat j)%Z) (seq 0 n)).

(** What a logger has recorded about a run of [n] updates starting at counter [c0]. *)
Definition its_of (c0 : Z) (n : nat) : list Z := map (fun j => (c0 + Z.of_nat j)%Z) (seq 0 n).

(** A decomposition that survives being stored in an empty group and loaded again (C16, C19). *)
Definition storable (d : D) : Prop :=
  exists g, run_steps (md_store md d) empty_group = (g, None) /\ md_load md g = Ok d.
(** The decomposition stored under iteration [i] in a file, if any *)
Definition stored_at (f : file) (i : Z) (d : D) : Prop :=
  exists g, lookup (ckpt_name i) (f_groups f) = Some g /\ md_load md g = Ok d.
(** The two kinds of file attributes in use: base_decomposer.py:180-186 and cmtf.py:13 *)
Definition known_root : Prop := (exists c, md_root md = base_root c) \/ md_root md = cmtf_root.
Definition has_ckpt (f : file) (i : Z) : Prop := lookup (ckpt_name i) (f_groups f) <> None.
End FitSpec.

(** A file without anything in the way of the given logger classes: no datasets at the top, and the
    loggers' groups either absent or holding what a logger wrote. *)
Definition seq_group (g : group) : Prop :=
  (lookup "iterations" (g_data g) = None \/ exists l, lookup "iterations" (g_data g) = Some (DInts l)) /\
  (lookup "values" (g_data g) = None \/ exists l, lookup "values" (g_data g) = Some (DSeq l)).
Definition ready_file (classes : list string) (f : file) : Prop :=
  g_data (f_root f) = [] /\
  (lookup "checkpoint_its" (g_attrs (f_root f)) = None \/
   exists l, lookup "checkpoint_its" (g_attrs (f_root f)) = Some (DInts l)) /\
  forall c, In c classes -> forall g, lookup c (f_groups f) = Some g -> seq_group g.
(** Class names that are not checkpoint names (Python class names contain no such names in practice). *)
Definition plain_classes (classes : list string) : Prop :=
  forall c i, In c classes -> c <> ckpt_name i.
Definition classes_of {St} (logs : list (logger St)) : list string := map (@lg_class St) logs.

(** The iteration list and pointer kept as attributes of the file *)
Definition its_attr (f : file) : list Z :=
  match lookup "checkpoint_its" (g_attrs (f_root f)) with Some (DInts l) => l | _ => [] end.
Definition final_attr (f : file) : option dval := lookup "final_iteration" (g_attrs (f_root f)).

(** The entries of a logger class in a file *)
Definition its_in (f : file) (c : string) : list Z :=
  match lookup c (f_groups f) with
  | Some g => match lookup "iterations" (g_data g) with Some (DInts l) => l | _ => [] end
  | None => []
  end.
Definition vals_in (f : file) (c : string) : list xr :=
  match lookup c (f_groups f) with
  | Some g => match lookup "values" (g_data g) with Some (DSeq l) => l | _ => [] end
  | None => []
  end.

(** ** Whole runs *)
Section Runs.
Context {St D : Type} (md : model St D) (cf : config).

(** All checkpoint numbers of a run of [n] updates; [final] tells whether there is a final one. *)
Definition all_its (c0 : Z) (n : nat) (final : bool) : list Z :=
  periodic (cf_freq cf) c0 n ++ (if final then [(c0 + Z.of_nat n)%Z] else []).

(** The file [f] a run of [n] updates from state [s] and counter [c0] makes of [f0] *)
Definition run_file (s : St) (c0 : Z) (f0 f : file) (n : nat) (final : bool) : Prop :=
  (forall j, j < n -> ((c0 + Z.of_nat j + 1) mod cf_freq cf = 0)%Z ->
     stored_at md f (c0 + Z.of_nat j) (md_dec md (state_after md s (S j)))) /\
  (final = true -> stored_at md f (c0 + Z.of_nat n) (md_dec md (state_after md s n))) /\
  (forall i, ~ In i (all_its c0 n final) -> lookup (ckpt_name i) (f_groups f) = lookup (ckpt_name i) (f_groups f0)) /\
  ((exists c, md_root md = base_root c) -> its_attr f = its_attr f0 ++ all_its c0 n final) /\
  final_attr f = match rev (all_its c0 n final) with [] => final_attr f0 | z :: _ => Some (DInt z) end.

(** Everything that may raise besides storage does not. *)
Definition quiet (ds : dstate St) (budget : nat) : Prop :=
  (forall k, k <= budget -> exists l, md_loss md (state_after md (ds_num ds) k) = Ok l) /\
  (forall k, k < budget -> snd (md_update md (state_after md (ds_num ds) k)) = None) /\
  (forall k lg, k < budget -> In lg (ds_logs ds) -> exists v, lg_metric lg (state_after md (ds_num ds) (S k)) = Ok v).

(** The decomposition after all [n] updates is in the file; every checkpoint is of an earlier one.
    (Checkpoint [i] of a run holds the decomposition after [i+1] updates, the final one after [i].) *)
Definition keeps_final (f : file) (s : St) (n : nat) : Prop :=
  exists i, (Z.of_nat n <= i + 1)%Z /\ stored_at md f i (md_dec md (state_after md s n)).
Definition loses_final (f : file) (n : nat) : Prop := forall i, has_ckpt f i -> (i + 1 < Z.of_nat n)%Z.


(** A fit of [ds] whose updates start at [s] writes checkpoints to a file with contents [f0], which
    is not in the way, and every decomposition on the way survives storage. *)
Definition checkpointed (ds : dstate St) (s : St) (f0 : file) : Prop :=
  (0 < cf_freq cf)%Z /\ known_root md /\ ds_file ds = Some f0 /\
  ready_file (classes_of (ds_logs ds)) f0 /\ plain_classes (classes_of (ds_logs ds)) /\
  forall k, storable md (md_dec md (state_after md s k)).
(** None of the numbers the fit may use is taken. *)
Definition unused (ds : dstate St) (f0 : file) : Prop :=
  forall j, j <= Z.to_nat (ds_max ds - ds_it ds) -> ~ has_ckpt f0 (ds_it ds + Z.of_nat j).

(** A logger that has not logged *)
Definition fresh (lg : logger St) : Prop := lg_its lg = [] /\ lg_vals lg = [] /\ lg_prev lg = 0.

(** ** Histories of events *)
(** An event: all loggers log state [s] under iteration [it] (base_decomposer.py:222-223), or a
    checkpoint of decomposition [d] is stored under [it] (base_decomposer.py:178-191). *)
Inductive event : Type := ELog (s : St) (it : Z) | EStore (it : Z) (d : D).
Definition do_event (ev : event) (logs : list (logger St)) (f : file) : list (logger St) * file * option exn :=
  match ev with
  | ELog s it => let (logs', e) := log_all s it logs in (logs', f, e)
  | EStore it d =>
    match run_steps (ckpt_steps md it d) f with
    | (f', Some e) => (logs, f', Some e)
    | (f', None) => store_logs logs f'
    end
  end.
Fixpoint do_events (h : list event) (logs : list (logger St)) (f : file) : list (logger St) * file * option exn :=
  match h with
  | [] => (logs, f, None)
  | ev :: h' => match do_event ev logs f with
                | (logs', f', None) => do_events h' logs' f'
                | r => r
                end
  end.

(** What has been logged in a history *)
Definition logged (h : list event) : list (St * Z) :=
  flat_map (fun ev => match ev with ELog s it => [(s, it)] | EStore _ _ => [] end) h.
Definition is_store (ev : event) : bool := match ev with EStore _ _ => true | _ => false end.

(** Concatenation over the checkpoints of what [add] makes of the entries since the last one *)
Fixpoint content {A} (add : list (St * Z) -> list A) (pend : list (St * Z)) (h : list event) : list A :=
  match h with
  | [] => []
  | ELog s it :: h' => content add (pend ++ [(s, it)]) h'
  | EStore _ _ :: h' => add pend ++ content add [] h'
  end.


(** The events of [n] passes of a fit that writes checkpoints *)
Definition pass_events (s : St) (c0 : Z) (j : nat) : list event :=
  ELog (state_after md s (S j)) (c0 + Z.of_nat j) ::
  (if ((c0 + Z.of_nat j + 1) mod cf_freq cf =? 0)%Z
   then [EStore (c0 + Z.of_nat j) (md_dec md (state_after md s (S j)))] else []).
Definition fit_events (s : St) (c0 : Z) (n : nat) : list event := flat_map (pass_events s c0) (seq 0 n).

End Runs.
Arguments event : clear implicits.
