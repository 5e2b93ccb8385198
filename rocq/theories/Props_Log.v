(** Property C40: the HDF5 logger of log.py. *)
From Verif Require Import HlogFailure.
Local Open Scope nat_scope.

(** *** C40 *)
(** A session (a new logger, or one continuing an experiment with [n0] entries per target): after any
    error-free history each dataset is the old content followed by the values of the first [m]
    logged parameters, where [m] had been logged at the last save; fewer than [freq] are unsaved. *)
Theorem C40_session : forall P (to32 : xr -> xr) ex freq (targets : list (string * (P -> res xr)))
    (cont : bool) f f1 h evs h' f' n0 (old : string -> list xr),
  NoDup (map fst targets) -> (0 < freq)%Z ->
  (if cont then forall n, In n (map fst targets) -> length (old n) = n0 /\ entries_of f ex n = Some (old n)
   else n0 = 0 /\ forall n, old n = []) ->
  hl_new ex freq targets cont f = (f1, Ok h) -> hl_events to32 evs h f1 = (h', f', None) ->
  let m := saved freq n0 0 0 evs in
  (forall n t, In (n, t) targets ->
     entries_of f' ex n = Some (old n ++ map (fun p => to32 (value t p)) (firstn m (params evs)))) /\
  m <= length (params evs) /\ (Z.of_nat (length (params evs) - m) < freq)%Z.
Proof. exact @C40_session_lemma. Qed.
Print Assumptions C40_session.

(** Any number of sessions on one experiment *)
Theorem C40_sessions : forall P (to32 : xr -> xr) ex freq (targets : list (string * (P -> res xr))) s ss f f',
  NoDup (map fst targets) -> (0 < freq)%Z ->
  hl_sessions to32 ex freq targets false (s :: ss) f = (f', None) ->
  forall n t, In (n, t) targets ->
    entries_of f' ex n = Some (map (fun p => to32 (value t p)) (kept_of freq 0 (s :: ss))).
Proof. exact @C40_sessions_lemma. Qed.
Print Assumptions C40_sessions.

(** The logger itself raises nothing in a new experiment. *)
Theorem C40_no_exception : forall P (to32 : xr -> xr) ex freq (targets : list (string * (P -> res xr))) f evs,
  NoDup (map fst targets) -> freq <> 0%Z -> in_file ex f = false ->
  (forall p n t, In p (params evs) -> In (n, t) targets -> exists v, t p = Ok v) ->
  exists f1 h, hl_new ex freq targets false f = (f1, Ok h) /\ snd (hl_events to32 evs h f1) = None.
Proof. exact @C40_progress_lemma. Qed.
Print Assumptions C40_no_exception.

(** Creating a logger anew where one of its targets is stored already raises; nothing stored is lost. *)
Theorem C40_recreate_refused : forall P ex freq (targets : list (string * (P -> res xr))) f n,
  In n (map fst targets) -> data_of f ex n <> None ->
  exists f', hl_new ex freq targets false f = (f', Err NameExists) /\
    (forall e t v, data_of f e t = Some v -> data_of f' e t = Some v).
Proof. exact @new_refused_lemma. Qed.
Print Assumptions C40_recreate_refused.

Ltac by_eval :=
  repeat (cbv -[IZR]; match goal with
                      | |- exists _, _ => eexists
                      | |- _ /\ _ => split
                      | |- _ = _ => reflexivity
                      end).
(** Frequency 2: of the first session (1, 2, 3) the last value is lost, the second one adds (4, 5). *)
Definition ex_targets : list (string * (Z -> res xr)) :=
  [("loss", fun z => Ok (Fin (IZR z))); ("other", fun z => Ok (if (z =? 1)%Z then NaN else PInf))]%string.
Example C40_example :
  exists f, hl_sessions (fun x => x) "run" 2 ex_targets false
      [[HLog 1%Z; HLog 2%Z; HLog 3%Z]; [HLog 4%Z; HLog 5%Z]] empty_file = (f, None) /\
    entries_of f "run" "loss" = Some [Fin 1; Fin 2; Fin 4; Fin 5] /\
    entries_of f "run" "other" = Some [NaN; PInf; PInf; PInf] /\
    hl_new "run" 2 ex_targets false f = (f, Err NameExists).
Proof. by_eval. Qed.
Example C40_example_save :
  exists f1 h h' f', hl_new "run" 5 ex_targets false empty_file = (f1, Ok h) /\
    hl_events (fun x => x) [HLog 1%Z; HSave; HLog 2%Z] h f1 = (h', f', None) /\
    entries_of f' "run" "loss" = Some [Fin 1].
Proof. by_eval. Qed.

(** A target raises: the targets before it have got their value, it and those after it have not, and the call is not counted. *)
Theorem C40_failing_call : forall P (to32 : xr -> xr) p h f pre n (t : P -> res xr) post vs v ws e,
  hl_targets h = pre ++ (n, t) :: post -> hl_vals h = vs ++ v :: ws -> length vs = length pre ->
  (forall n' t', In (n', t') pre -> exists x, t' p = Ok x) -> t p = Err e ->
  exists h', hl_log to32 p h f = (h', f, Some e) /\ hl_it h' = hl_it h /\ hl_prev h' = hl_prev h /\
    hl_vals h' = map (fun tv => snd tv ++ [value (snd (fst tv)) p]) (combine pre vs) ++ v :: ws.
Proof. intros. eapply log_fails; eauto. Qed.
Print Assumptions C40_failing_call.

(** So once a target other than the first has raised, nothing of the first target is ever stored again, though the program
    catches all exceptions ([hl_caught]): its dataset keeps what was saved before, followed by zeros. *)
Theorem C40_failure_ends_storing : forall P (to32 : xr -> xr) ex freq n1 (t1 : P -> res xr) rest (cont : bool)
    f f1 h evs h1 f2 p h2 f3 e n0 (old : string -> list xr) evs',
  NoDup (map fst ((n1, t1) :: rest)) -> (0 < freq)%Z ->
  (if cont then forall n, In n (map fst ((n1, t1) :: rest)) -> length (old n) = n0 /\ entries_of f ex n = Some (old n)
   else n0 = 0 /\ forall n, old n = []) ->
  hl_new ex freq ((n1, t1) :: rest) cont f = (f1, Ok h) -> hl_events to32 evs h f1 = (h1, f2, None) ->
  hl_log to32 p h1 f2 = (h2, f3, Some e) -> (exists v, t1 p = Ok v) ->
  exists z, entries_of (snd (hl_caught to32 evs' (h2, f3))) ex n1 =
    Some (old n1 ++ map (fun p => to32 (value t1 p)) (firstn (saved freq n0 0 0 evs) (params evs)) ++ repeat (Fin 0%R) z).
Proof. exact failure_lemma. Qed.
Print Assumptions C40_failure_ends_storing.

(** The second target raises for 2: of the values 1, 2, 3, 4 of the first one only 1 reaches the file. *)
Definition partial_targets : list (string * (Z -> res xr)) :=
  [("loss", fun z => Ok (Fin (IZR z))); ("score", fun z => if (z =? 2)%Z then Err ValueError else Ok (Fin 7))]%string.
Example C40_failure_example :
  exists f1 h h1 f2 h2, hl_new "run" 1 partial_targets false empty_file = (f1, Ok h) /\
    hl_events (fun x => x) [HLog 1%Z] h f1 = (h1, f2, None) /\
    hl_log (fun x => x) 2%Z h1 f2 = (h2, f2, Some ValueError) /\
    let f4 := snd (hl_caught (fun x => x) [HLog 3%Z; HSave; HLog 4%Z] (h2, f2)) in
    entries_of f4 "run" "loss" = Some [Fin 1; Fin 0; Fin 0] /\ entries_of f4 "run" "score" = Some [Fin 7].
Proof.
  do 5 eexists. split; [cbv -[IZR]; reflexivity|]. split; [cbv -[IZR]; reflexivity|]. split; [cbv -[IZR]; reflexivity|].
  cbv zeta. split; cbv -[IZR]; reflexivity.
Qed.
