(** What a target that raises does to the HDF5 logger (C40). *)
From Verif Require Export HlogFacts.
Set Implicit Arguments.
Unset Strict Implicit.
Local Open Scope nat_scope.

Section Failure.
Context {P : Type} (to32 : xr -> xr).
Notation target := (string * (P -> res xr))%type.

(** A program that catches every exception and carries on *)
Definition hl_caught (evs : list (hevent P)) (hf : hlog P * file) : hlog P * file :=
  fold_left (fun hf ev => fst (hl_event to32 ev (fst hf) (snd hf))) evs hf.

(** *** One call *)
Lemma append_all_fail (p : P) pre (n : string) t post e : forall (vs ws : list (list xr)) v,
  length vs = length pre -> (forall n' t', In (n', t') pre -> exists x, t' p = Ok x) -> t p = Err e ->
  append_all p (pre ++ (n, t) :: post) (vs ++ v :: ws) =
    (map (fun tv => snd tv ++ [value (P := P) (snd (fst tv)) p]) (combine pre vs) ++ v :: ws, Some e).
Proof.
  induction pre as [|[n' t'] pre IH]; intros [|v' vs] ws v Hl Hok He; cbn [length] in Hl; try lia; cbn [List.app append_all combine map].
  - now rewrite He.
  - destruct (Hok n' t' (or_introl eq_refl)) as [x Ex]. rewrite Ex. rewrite IH; [|lia|intros; eapply Hok; right; eauto|auto].
    cbn [fst snd]. unfold value at 2. now rewrite Ex.
Qed.

Lemma log_fails (p : P) h f pre n t post vs v ws e :
  hl_targets h = pre ++ (n, t) :: post -> hl_vals h = vs ++ v :: ws -> length vs = length pre ->
  (forall n' t', In (n', t') pre -> exists x, t' p = Ok x) -> t p = Err e ->
  exists h', hl_log to32 p h f = (h', f, Some e) /\ hl_it h' = hl_it h /\ hl_prev h' = hl_prev h /\
    hl_vals h' = map (fun tv => snd tv ++ [value (P := P) (snd (fst tv)) p]) (combine pre vs) ++ v :: ws.
Proof.
  intros E1 E2 Hl Hok He. unfold hl_log. rewrite E1, E2, (append_all_fail n post ws v Hl Hok He). eexists. split; [reflexivity|]. auto.
Qed.

(** *** Afterwards *)
Variables (ex n1 : string) (t1 : P -> res xr) (rest : list target) (base : list xr).
Hypothesis names : ~ In n1 (map fst rest).

(** The first target has more values than were counted. *)
Definition ahead (h : hlog P) (f : file) : Prop :=
  hl_ex h = ex /\ hl_targets h = (n1, t1) :: rest /\ hl_first h <= hl_prev h <= hl_it h /\ length base = hl_prev h /\
  (exists v1 vs, hl_vals h = v1 :: vs /\ hl_it h < hl_first h + length v1) /\
  exists z, z <= hl_it h - hl_prev h /\ data_of f ex n1 = Some (DSeq (base ++ repeat (Fin 0) z)).

Lemma other_steps l : forall f, Forall (fun s : step => forall f, match s f with Ok f' => data_of f' ex n1 = data_of f ex n1 | Err _ => True end) l ->
  data_of (fst (run_steps l f)) ex n1 = data_of f ex n1.
Proof.
  induction l as [|s l IH]; intros f H; cbn [run_steps]; [reflexivity|]. inversion_clear H as [|? ? H1 H2]. specialize (H1 f).
  destruct (s f) as [f'|e]; [|reflexivity]. now rewrite IH.
Qed.
Lemma write_other n fn f : n <> n1 ->
  match at_group ex (write_data n fn) f with Ok f' => data_of f' ex n1 = data_of f ex n1 | Err _ => True end.
Proof.
  intros Hn. unfold at_group, write_data, data_of. destruct (lookup ex (f_groups f)) as [g|] eqn:Eg; [|exact Logic.I].
  destruct (lookup n (g_data g)) as [v|]; [|exact Logic.I]. destruct (fn v) as [v'|]; cbn [bind]; [|exact Logic.I].
  cbn [f_groups]. rewrite lookup_set_same. cbn [g_data]. rewrite lookup_set_other by auto. reflexivity.
Qed.

Lemma ahead_save h f : ahead h f -> let '(h', f', _) := hl_save to32 h f in ahead h' f'.
Proof.
  intros HA. pose proof HA as (A1 & A2 & A3 & A4 & (v1 & vs & A5 & A6) & z & A7 & A8). unfold hl_save. rewrite A1.
  pose proof (data_group A8) as Hg. destruct (lookup ex (f_groups f)) as [g|] eqn:Eg; [|congruence].
  unfold save_steps. rewrite A1, A2, A5. cbn [map fst combine concat].
  set (others := concat _). cbn [List.app run_steps].
  assert (HO : Forall (fun s : step => forall f, match s f with Ok f' => data_of f' ex n1 = data_of f ex n1 | Err _ => True end) others).
  { unfold others. clear - names. apply Forall_concat. apply Forall_map. apply Forall_forall. intros [n v] Hin.
    apply in_combine_l in Hin. assert (n <> n1) by congruence. repeat constructor; intros f; now apply write_other. }
  set (zs := repeat (Fin 0) (hl_it h - hl_prev h)).
  destruct (@write_step f ex n1 _ (resize (hl_it h)) (DSeq (base ++ zs)) A8) as (f1 & -> & F1 & _).
  { cbn [resize]. rewrite firstn_all2 by (rewrite app_length, repeat_length; lia). rewrite app_length, repeat_length, <- app_assoc, <- repeat_app.
    unfold zs. do 4 f_equal. lia. }
  assert (Hz : length zs = hl_it h - hl_prev h) by apply repeat_length.
  assert (HA1 : ahead h f1).
  { split; [auto|]. split; [auto|]. split; [auto|]. split; [auto|]. split; [eauto|]. exists (hl_it h - hl_prev h). auto. }
  unfold at_group at 1, write_data at 1. pose proof F1 as F1'. unfold data_of in F1'.
  destruct (lookup ex (f_groups f1)) as [g1|] eqn:Eg1; [|discriminate]. rewrite F1'. cbn [assign_from].
  set (vals := skipn _ v1).
  assert (Hv : hl_it h - hl_prev h < length vals) by (unfold vals; rewrite skipn_length; lia).
  rewrite app_length, Hz, A4. replace (hl_prev h + (hl_it h - hl_prev h) - hl_prev h) with (hl_it h - hl_prev h) by lia.
  replace (length vals =? hl_it h - hl_prev h) with false by (symmetry; apply Nat.eqb_neq; lia).
  destruct vals as [|x [|y vals]]; cbn [length] in Hv; cbn [bind]; [lia| |exact HA1].
  (* a single value, and no room for it *)
  assert (Hit : hl_it h = hl_prev h) by lia.
  set (f2 := {| f_root := _; f_groups := _ |}).
  assert (F2 : data_of f2 ex n1 = Some (DSeq base)).
  { unfold data_of, f2. cbn [f_groups]. rewrite lookup_set_same. cbn [g_data]. rewrite lookup_set_same.
    replace (hl_it h - hl_prev h) with 0 by lia. cbn [repeat]. rewrite app_nil_r.
    rewrite firstn_app, <- A4, firstn_all, Nat.sub_diag. cbn [firstn]. now rewrite app_nil_r. }
  pose proof (other_steps f2 HO) as E3. destruct (run_steps others f2) as [f3 [e|]]; cbn [fst] in E3.
  - split; [auto|]. split; [auto|]. split; [auto|]. split; [auto|]. split; [eauto|]. exists 0. split; [lia|].
    cbn [repeat]. rewrite app_nil_r. congruence.
  - split; [auto|]. split; [auto|]. split; [cbn; lia|]. split; [cbn; lia|]. split; [eauto|]. exists 0. split; [cbn; lia|].
    cbn [repeat]. rewrite app_nil_r. congruence.
Qed.

Lemma ahead_log q h f : ahead h f -> let '(h', f', _) := hl_log to32 q h f in ahead h' f'.
Proof.
  intros HA. pose proof HA as (A1 & A2 & A3 & A4 & (v1 & vs & A5 & A6) & z & A7 & A8). unfold hl_log. rewrite A2, A5.
  cbn [append_all]. destruct (t1 q) as [x|e].
  - destruct (append_all q rest vs) as [r [e|]].
    + split; [auto|]. split; [auto|]. split; [auto|]. split; [auto|]. split; [|eauto].
      exists (v1 ++ [x]), r. split; [reflexivity|]. rewrite app_length. cbn [hl_it hl_first with_vals with_count length]. lia.
    + set (h1 := with_count _ _).
      assert (HA1 : ahead h1 f).
      { unfold h1. split; [auto|]. split; [auto|]. split; [cbn [hl_it hl_prev hl_first with_vals with_count]; lia|]. split; [auto|]. split.
        - exists (v1 ++ [x]), r. split; [reflexivity|]. rewrite app_length. cbn [hl_it hl_first with_vals with_count length]. lia.
        - exists z. split; [cbn [hl_it hl_prev with_vals with_count]; lia|auto]. }
      destruct (hl_freq h =? 0)%Z; [exact HA1|]. destruct (_ =? 0)%Z; [|exact HA1]. now apply ahead_save.
  - split; [auto|]. split; [auto|]. split; [auto|]. split; [auto|]. split; [|eauto]. exists v1, vs. auto.
Qed.

Lemma ahead_caught evs : forall h f, ahead h f -> ahead (fst (hl_caught evs (h, f))) (snd (hl_caught evs (h, f))).
Proof.
  unfold hl_caught. induction evs as [|ev evs IH]; intros h f H; [exact H|]. cbn [fold_left fst snd].
  assert (H1 : ahead (fst (fst (hl_event to32 ev h f))) (snd (fst (hl_event to32 ev h f)))).
  { destruct ev; cbn [hl_event]; [pose proof (ahead_log p H) as HL|pose proof (ahead_save H) as HL].
    - now destruct (hl_log to32 p h f) as [[h' f'] o].
    - now destruct (hl_save to32 h f) as [[h' f'] o]. }
  destruct (fst (hl_event to32 ev h f)) as [h' f']. now apply IH.
Qed.
End Failure.

(** *** A session with a call in which a target other than the first raised *)
Lemma failure_lemma P (to32 : xr -> xr) ex freq n1 (t1 : P -> res xr) rest (cont : bool) f f1 h evs h1 f2 p h2 f3 e n0 (old : string -> list xr) evs' :
  NoDup (map fst ((n1, t1) :: rest)) -> (0 < freq)%Z ->
  (if cont then forall n, In n (map fst ((n1, t1) :: rest)) -> length (old n) = n0 /\ entries_of f ex n = Some (old n)
   else n0 = 0 /\ forall n, old n = []) ->
  hl_new ex freq ((n1, t1) :: rest) cont f = (f1, Ok h) -> hl_events to32 evs h f1 = (h1, f2, None) ->
  hl_log to32 p h1 f2 = (h2, f3, Some e) -> (exists v, t1 p = Ok v) ->
  exists z, entries_of (snd (hl_caught to32 evs' (h2, f3))) ex n1 =
    Some (old n1 ++ map (fun p => to32 (value t1 p)) (firstn (saved freq n0 0 0 evs) (params evs)) ++ repeat (Fin 0%R) z).
Proof.
  intros Hnd Hf Hold E1 E2 E3 [v Ev]. pose proof (session_start to32 Hnd Hold E1) as HI0.
  pose proof (session_lemma Hnd HI0 E2) as HI. cbn [List.app length] in HI. set (m := saved freq n0 0 0 evs) in *. set (ps := params evs) in *.
  pose proof HI as (I1 & I2 & I3 & I4 & I5 & I6 & I7 & I8 & I9 & I10).
  destruct (I10 n1 t1 (or_introl eq_refl)) as [L1 L2].
  assert (HA : ahead ex n1 t1 rest (old n1 ++ map to32 (map (value t1) (firstn m ps))) h2 f3).
  { assert (Hlen : length (old n1 ++ map to32 (map (value t1) (firstn m ps))) = hl_prev h1).
    { rewrite app_length, !map_length, firstn_length. lia. }
    unfold hl_log in E3. rewrite I2, I3, I4 in E3. destruct (append_all p _ _) as [vs [x|]] eqn:E.
    - injection E3 as <- <- <-. cbn [append_all map snd] in E. rewrite Ev in E.
      destruct (append_all p rest _) as [r e'] in E. injection E as <- _.
      split; [auto|]. split; [auto|]. split; [cbn; lia|]. split; [auto|]. split.
      + exists (map (value t1) ps ++ [v]), r. split; [reflexivity|]. rewrite app_length, map_length. cbn [hl_it hl_first with_vals with_count length]. lia.
      + exists 0. split; [lia|]. cbn [repeat]. now rewrite app_nil_r.
    - exfalso. pose proof (session_progress (evs := [HLog p]) Hnd (P := P) (to32 := to32) (ex := ex) (freq := freq)
        (targets := (n1, t1) :: rest)) as HS.
      assert (HN : snd (hl_events to32 [HLog p] h1 f2) = None).
      { apply HS with (n0 := n0) (old := old) (ps := ps) (m := m); [lia| |exact HI].
        intros q n t [<-|[]] Hin. apply append_all_ok in E as [_ HE]. eauto. }
      cbn [hl_events hl_event] in HN. unfold hl_log in HN. rewrite I2, I3, I4, E in HN. rewrite E3 in HN. discriminate. }
  pose proof (@ahead_caught P to32 ex n1 t1 rest (old n1 ++ map to32 (map (value t1) (firstn m ps)))) as HC.
  inversion_clear Hnd as [|? ? Hn Hnd']. destruct (HC Hn evs' h2 f3 HA) as (_ & _ & _ & _ & _ & z & _ & D).
  exists z. apply entries_data. rewrite D, map_map, <- app_assoc. reflexivity.
Qed.
