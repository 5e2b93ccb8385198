(** Property C73: what Experiment (log.py) stores, and what remains after a failure. *)
From Verif Require Import ExperimentFacts.
Local Open Scope nat_scope.

(** *** C73 *)
(** A run that does not continue an old one stores the parameters except init as attributes and all outputs and
    metrics under their names, provided these are free; nothing outside the experiment's group is touched. *)
Theorem C73_run_stores_results : forall ex params f g ef fe g1 outs ms,
  ex_group f ex = Some g -> is_dict params -> (forall k, In k (keys params) -> ~ In k own_keywords) -> storable_params params ->
  ef false g = (g1, Ok outs) -> fe outs = Ok ms ->
  is_dict outs -> is_dict ms -> storable_dict outs -> storable_dict ms ->
  (forall n, In n (keys outs) -> lookup n (g_data g1) = None) ->
  (forall n, In n (keys ms) -> lookup n (g_data g1) = None /\ ~ In n (keys outs)) ->
  exists f' g', exp_run ex params ef fe false f = (f', None) /\ ex_group f' ex = Some g' /\ only_group ex f f' /\
    (forall k, lookup k (g_attrs g') = attrs_after params g1 k) /\
    (forall n, lookup n (g_data g') = match stored_value n outs with Some v => Some v | None =>
                                      match stored_value n ms with Some v => Some v | None => lookup n (g_data g1) end end).
Proof. intros. eapply new_run_lemma; eauto. Qed.
Print Assumptions C73_run_stores_results.

(** Repeating a run: refused, yet the attributes are those of the second run while the data are those of the first. *)
Theorem C73_repeated_run_mixes_refuted : forall ex params f g ef fe g1 outs n,
  ex_group f ex = Some g -> is_dict params -> (forall k, In k (keys params) -> ~ In k own_keywords) -> storable_params params ->
  ef false g = (g1, Ok outs) -> storable_dict outs -> In n (keys outs) -> lookup n (g_data g1) <> None ->
  exists f' g', exp_run ex params ef fe false f = (f', Some NameExists) /\ ex_group f' ex = Some g' /\ only_group ex f f' /\
    (forall k, lookup k (g_attrs g') = attrs_after params g1 k) /\
    (forall k v, lookup k (g_data g1) = Some v -> lookup k (g_data g') = Some v).
Proof. intros. eapply repeat_lemma; eauto. Qed.
Print Assumptions C73_repeated_run_mixes_refuted.

(** Continuing replaces the results of the earlier run by values of the same kind and size. *)
Theorem C73_continued_run : forall ex params f g ef fe g1 outs ms,
  ex_group f ex = Some g -> is_dict params -> (forall k, In k (keys params) -> ~ In k own_keywords) -> storable_params params ->
  ef true g = (g1, Ok outs) -> fe outs = Ok ms ->
  is_dict outs -> is_dict ms -> replaces_all outs g1 -> replaces_all ms g1 -> (forall n, In n (keys ms) -> ~ In n (keys outs)) ->
  exists f' g', exp_run ex params ef fe true f = (f', None) /\ ex_group f' ex = Some g' /\ only_group ex f f' /\
    (forall k, lookup k (g_attrs g') = attrs_after params g1 k) /\
    (forall n, lookup n (g_data g') = match stored_value n outs with Some v => Some v | None =>
                                      match stored_value n ms with Some v => Some v | None => lookup n (g_data g1) end end).
Proof. intros. eapply continue_lemma; eauto. Qed.
Print Assumptions C73_continued_run.

(** Continuing where an output is not stored yet is a KeyError; the outputs before it have been replaced. *)
Theorem C73_continue_needs_results : forall ex params f g ef fe g1 pre n v post,
  ex_group f ex = Some g -> is_dict params -> (forall k, In k (keys params) -> ~ In k own_keywords) -> storable_params params ->
  ef true g = (g1, Ok (pre ++ (n, v) :: post)) ->
  is_dict pre -> replaces_all pre g1 -> ~ In n (keys pre) -> lookup n (g_data g1) = None ->
  exists f' g', exp_run ex params ef fe true f = (f', Some KeyError) /\ ex_group f' ex = Some g' /\ only_group ex f f' /\
    (forall k, lookup k (g_attrs g') = attrs_after params g1 k) /\
    (forall k, lookup k (g_data g') = match stored_value k pre with Some x => Some x | None => lookup k (g_data g1) end).
Proof. intros. eapply continue_missing_lemma; eauto. Qed.
Print Assumptions C73_continue_needs_results.

(** When final_eval raises, the outputs have been stored without the metrics. *)
Theorem C73_evaluation_raises : forall ex params f g ef fe g1 outs e,
  ex_group f ex = Some g -> is_dict params -> (forall k, In k (keys params) -> ~ In k own_keywords) -> storable_params params ->
  ef false g = (g1, Ok outs) -> fe outs = Err e -> is_dict outs -> storable_dict outs ->
  (forall n, In n (keys outs) -> lookup n (g_data g1) = None) ->
  exists f' g', exp_run ex params ef fe false f = (f', Some e) /\ ex_group f' ex = Some g' /\ only_group ex f f' /\
    (forall k, lookup k (g_attrs g') = attrs_after params g1 k) /\
    (forall n, lookup n (g_data g') = match stored_value n outs with Some v => Some v | None => lookup n (g_data g1) end).
Proof. intros. eapply eval_raises_lemma; eauto. Qed.
Print Assumptions C73_evaluation_raises.
(** An experiment with an output but without a metric cannot be completed any more, neither by repeating the run nor by
    continuing it, whatever is computed. *)
Theorem C73_no_recovery_refuted : forall ex params f g (ef : bool -> group -> group * res dict) fe cont n m g' outs,
  ex_group f ex = Some g -> ef cont g = (g', Ok outs) -> g_data g' = g_data g ->
  In n (keys outs) -> lookup n (g_data g) <> None ->
  (forall ms, fe outs = Ok ms -> In m (keys ms)) -> lookup m (g_data g) = None ->
  snd (exp_run ex params ef fe cont f) <> None.
Proof. exact stuck_lemma. Qed.
Print Assumptions C73_no_recovery_refuted.

(** The parameters are written after the computation and before its results: a parameter HDF5 cannot represent (other
    than init) loses everything computed. *)
Theorem C73_unstorable_parameter : forall ex params f g ef fe cont k g1 outs,
  ex_group f ex = Some g -> (forall k, In k (keys params) -> ~ In k own_keywords) ->
  In (k, None) params -> k <> "init"%string -> ef cont g = (g1, Ok outs) ->
  exists f' g', exp_run ex params ef fe cont f = (f', Some TypeError) /\ ex_group f' ex = Some g' /\ only_group ex f f' /\
    g_data g' = g_data g1.
Proof. intros. eapply unstorable_lemma; eauto. Qed.
Print Assumptions C73_unstorable_parameter.

(** A parameter with the name of one of these arguments: TypeError, before anything is computed or written. *)
Theorem C73_reserved_parameter : forall ex params ef fe cont f g k,
  ex_group f ex = Some g -> In k (keys params) -> k = "h5_group"%string \/ k = "logger"%string \/ k = "load_old"%string ->
  exp_run ex params ef fe cont f = (f, Some TypeError).
Proof.
  intros ex params ef fe cont f g k Hg Hk Hn. unfold exp_run. unfold ex_group in Hg. rewrite Hg, (@clash params k Hk); [reflexivity|].
  destruct Hn as [->|[->| ->]]; cbn; auto.
Qed.
Print Assumptions C73_reserved_parameter.

(** The constructor replaces attributes; metadata of the file can be given once only. *)
Theorem C73_constructor : forall ex attributes metadata f, ex <> "metadata"%string ->
  (ex_group f ex <> None \/ in_file ex f = false) -> (ex_group f "metadata" <> None \/ in_file "metadata" f = false) ->
  is_dict attributes -> storable_dict attributes -> is_dict metadata -> storable_dict metadata ->
  exists f' e ga gm, exp_new ex (Some attributes) (Some metadata) f = (f', e) /\
    ex_group f' ex = Some ga /\ ex_group f' "metadata" = Some gm /\
    g_data ga = g_data (old_group f ex) /\
    (forall k, lookup k (g_attrs ga) = match stored_value k attributes with Some v => Some v | None => lookup k (g_attrs (old_group f ex)) end) /\
    ((forall n, In n (keys metadata) -> lookup n (g_data (old_group f "metadata")) = None) ->
     e = None /\ forall n, lookup n (g_data gm) =
       match stored_value n metadata with Some v => Some v | None => lookup n (g_data (old_group f "metadata")) end) /\
    ((exists n, In n (keys metadata) /\ lookup n (g_data (old_group f "metadata")) <> None) -> e = Some NameExists /\
     forall n v, lookup n (g_data (old_group f "metadata")) = Some v -> lookup n (g_data gm) = Some v).
Proof. exact exp_new_lemma. Qed.
Print Assumptions C73_constructor.

(** A history: create the experiment with metadata, run it, run it again with another rank (refused; the file now says
    rank 3 while the result is that of rank 2), continue it. *)
Definition ex_params (rank : Z) : dict := [("rank", Some (DInt rank)); ("init", Some (DStr "svd"))]%string.
Definition ex_ef (x : R) : bool -> group -> group * res dict :=
  fun _ g => (g, Ok [("A", Some (DArr (mk [2] [x; x])))]%string).
Definition ex_fe (x : R) : dict -> res dict := fun _ => Ok [("score", Some (DArr (mk [] [x])))]%string.
Definition exp_group (f : file) : group := old_group f "e".
Example C73_example :
  exists f1 f2 f3 f4 f5,
    exp_new "e" (Some [("who", Some (DStr "me"))]%string) (Some [("year", Some (DInt 2020))]%string) empty_file = (f1, None) /\
    exp_run "e" (ex_params 2) (ex_ef 5) (ex_fe 7) false f1 = (f2, None) /\
    g_attrs (exp_group f2) = [("who", DStr "me"); ("rank", DInt 2)]%string /\
    g_data (exp_group f2) = [("A", DArr (mk [2] [5; 5]%R)); ("score", DArr (mk [] [7%R]))]%string /\
    exp_run "e" (ex_params 3) (ex_ef 6) (ex_fe 8) false f2 = (f3, Some NameExists) /\
    lookup "rank" (g_attrs (exp_group f3)) = Some (DInt 3) /\
    lookup "A" (g_data (exp_group f3)) = Some (DArr (mk [2] [5; 5]%R)) /\
    exp_run "e" (ex_params 3) (ex_ef 6) (ex_fe 8) true f3 = (f4, None) /\
    g_data (exp_group f4) = [("A", DArr (mk [2] [6; 6]%R)); ("score", DArr (mk [] [8%R]))]%string /\
    exp_new "e" (Some [("who", Some (DStr "you"))]%string) (Some [("year", Some (DInt 2020))]%string) f4 = (f5, Some NameExists) /\
    lookup "who" (g_attrs (exp_group f5)) = Some (DStr "you").
Proof.
  do 5 eexists.
  split; [cbv -[IZR]; reflexivity|]. split; [cbv -[IZR]; reflexivity|]. split; [cbv -[IZR]; reflexivity|]. split; [cbv -[IZR]; reflexivity|].
  split; [cbv -[IZR]; reflexivity|]. split; [cbv -[IZR]; reflexivity|]. split; [cbv -[IZR]; reflexivity|].
  split; [cbv -[IZR]; reflexivity|]. split; [cbv -[IZR]; reflexivity|]. split; [cbv -[IZR]; reflexivity|]. cbv -[IZR]; reflexivity.
Qed.
(** final_eval raises: neither a new nor a continued run gets through afterwards; None as a parameter loses the output;
    continuing an experiment that was never run is a KeyError. *)
Example C73_failures :
  exists f1 f2 f3 f4 f5 f6,
    exp_new "e" None None empty_file = (f1, None) /\
    exp_run "e" (ex_params 2) (ex_ef 5) (fun _ => Err ZeroDivisionError) false f1 = (f2, Some ZeroDivisionError) /\
    g_data (exp_group f2) = [("A", DArr (mk [2] [5; 5]%R))]%string /\
    exp_run "e" (ex_params 2) (ex_ef 6) (ex_fe 8) false f2 = (f3, Some NameExists) /\
    exp_run "e" (ex_params 2) (ex_ef 6) (ex_fe 8) true f2 = (f4, Some KeyError) /\
    g_data (exp_group f4) = [("A", DArr (mk [2] [6; 6]%R))]%string /\
    exp_run "e" (("tol", None) :: ex_params 2)%string (ex_ef 6) (ex_fe 8) false f1 = (f5, Some TypeError) /\
    g_data (exp_group f5) = [] /\
    exp_run "e" (ex_params 2) (ex_ef 6) (ex_fe 8) true f1 = (f6, Some KeyError) /\
    exp_run "other" (ex_params 2) (ex_ef 6) (ex_fe 8) true f1 = (f1, Some KeyError) /\
    exp_run "e" (("logger", Some (DInt 1)) :: ex_params 2)%string (ex_ef 6) (ex_fe 8) true f1 = (f1, Some TypeError).
Proof.
  do 6 eexists.
  split; [cbv -[IZR]; reflexivity|]. split; [cbv -[IZR]; reflexivity|]. split; [cbv -[IZR]; reflexivity|]. split; [cbv -[IZR]; reflexivity|].
  split; [cbv -[IZR]; reflexivity|]. split; [cbv -[IZR]; reflexivity|]. split; [cbv -[IZR]; reflexivity|].
  split; [cbv -[IZR]; reflexivity|]. split; [cbv -[IZR]; reflexivity|]. split; [cbv -[IZR]; reflexivity|]. cbv -[IZR]; reflexivity.
Qed.
