(** A small decomposer on which the statements about fits can be evaluated: its decomposition is a
    number, an update adds one. *)
From Verif Require Export FitLemmas.
Local Open Scope nat_scope.

Definition toy (loss : Z -> res xr) : model Z Z :=
  {| md_class := "Toy"; md_dec := fun z => z; md_set := fun _ d => d;
     md_store := fun d => [set_attr "value" (DInt d)];
     md_load := fun g => match lookup "value" (g_attrs g) with Some (DInt z) => Ok z | _ => Err KeyError end;
     md_check := fun _ _ => Ok tt; md_prepare := fun z => (z, None);
     md_update := fun z => ((z + 1)%Z, None); md_loss := loss; md_norm2 := fun _ => 1%R;
     md_root := base_root "Toy" |}.
(** The loss is never a number: no stopping rule applies. *)
Definition endless : model Z Z := toy (fun _ => Ok NaN).
(** From 2 updates on the loss is -inf, which is below any tolerance. *)
Definition two_steps : model Z Z := toy (fun z => Ok (if (z <? 2)%Z then NaN else NInf)).
(** From 2 updates on the loss is 1; the relative change is 0 after the third. *)
Definition flat : model Z Z := toy (fun z => Ok (if (z <? 2)%Z then NaN else Fin 1)).
Definition ex_cf (freq : Z) : config := {| cf_freq := freq; cf_tol := 1; cf_rel_tol := 1; cf_print := 1 |}.
Definition toy_log (c : string) : logger Z := new_logger c (fun z => Ok NaN).

Lemma toy_after loss s k : state_after (toy loss) s k = (s + Z.of_nat k)%Z.
Proof. induction k; cbn [state_after]; [lia|]. rewrite IHk. cbn [md_update toy fst]. lia. Qed.
Lemma toy_storable loss d : storable (toy loss) d.
Proof. eexists. split; reflexivity. Qed.
Lemma toy_checkpointed loss freq s it max : (0 < freq)%Z ->
  checkpointed (toy loss) (ex_cf freq) (start s NaN it max [toy_log "LossLogger"] (Some empty_file)) s empty_file.
Proof.
  intros H. split; [exact H|]. split; [left; eexists; reflexivity|]. split; [reflexivity|].
  split; [|split].
  - split; [reflexivity|]. split; [left; reflexivity|]. intros c Hc g. discriminate.
  - intros c i [<-|[]] E. cbn in E. discriminate.
  - intros k. apply toy_storable.
Qed.
Lemma toy_unused s it max : unused (start s NaN it max [toy_log "LossLogger"] (Some empty_file)) empty_file.
Proof. intros j _ H. now apply H. Qed.
Lemma toy_quiet s loss it max logs b : (forall z, exists v, loss z = Ok v) -> (forall lg, In lg logs -> forall z, exists v, lg_metric lg z = Ok v) ->
  quiet (toy loss) (start s NaN it max logs (Some empty_file)) b.
Proof. intros H1 H2. split; [|split]; auto. Qed.

(** Evaluates a goal about such a decomposer, leaving operations on reals alone *)
Ltac run := cbv -[Rlt_dec IZR Rabs Rdiv Rminus Req_EM_T].
Ltac by_run :=
  repeat (run; match goal with
               | |- exists _, _ => eexists
               | |- _ /\ _ => split
               | |- _ = _ => reflexivity
               end).
