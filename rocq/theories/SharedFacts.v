(** CP on array objects (C98). *)
From Verif Require Export SharedSpec.
From Verif Require Import Parafac2Facts QualityFacts Prelude Lin.
Set Implicit Arguments.
Unset Strict Implicit.
Local Open Scope R_scope.

(** *** Reading and writing *)
Lemma read_write_same h a v : (a < length h)%nat -> hread (hwrite h a v) a = v.
Proof. intros H. unfold hread, hwrite. now apply nth_replace_at_eq. Qed.
Lemma read_write_other h a b v : a <> b -> hread (hwrite h a v) b = hread h b.
Proof. intros H. unfold hread, hwrite. now apply nth_replace_at_neq. Qed.
Lemma write_read h a : hwrite h a (hread h a) = h.
Proof.
  unfold hwrite, hread. revert a. induction h as [|x h IH]; intros [|a]; cbn; auto. now rewrite IH.
Qed.
Lemma length_write h a v : length (hwrite h a v) = length h.
Proof. apply length_replace_at. Qed.
Lemma map_read_other h a v l : ~ In a l -> map (hread (hwrite h a v)) l = map (hread h) l.
Proof. intros H. apply map_ext_in. intros b Hb. apply read_write_other. intros ->. contradiction. Qed.
Lemma map_read_write h v : forall l m a, NoDup l -> nth_error l m = Some a -> (a < length h)%nat ->
  map (hread (hwrite h a v)) l = replace_at m v (map (hread h) l).
Proof.
  induction l as [|b l IH]; intros [|m] a HN E Ha; cbn [nth_error] in E; try discriminate; inversion HN as [|? ? Hb HN']; subst.
  - injection E as ->. cbn [map replace_at]. rewrite read_write_same by auto. f_equal. now apply map_read_other.
  - cbn [map replace_at]. rewrite (IH m a HN' E Ha). f_equal. apply read_write_other. intros ->.
    apply Hb. eapply nth_error_In; eauto.
Qed.
Lemma own_write h r a v : own_arrays h r -> own_arrays (hwrite h a v) r.
Proof. intros [H1 H2]. split; [exact H1|]. now rewrite length_write. Qed.
Lemma own_grow h r t : own_arrays h r -> own_arrays (h ++ t)%list r.
Proof. intros [H1 H2]. split; [exact H1|]. eapply Forall_impl; [|exact H2]. cbn. intros a Ha. rewrite app_length. lia. Qed.
Lemma own_range h r a : own_arrays h r -> In a (kr_fms r) -> (a < length h)%nat.
Proof. intros [_ H] Hin. rewrite Forall_forall in H. apply H. now right. Qed.
Lemma value_grow h r t : own_arrays h r -> kr_value (h ++ t)%list r = kr_value h r.
Proof.
  intros [_ H]. inversion H as [|? ? H1 H2]; subst. unfold kr_value. rewrite hread_app by auto. f_equal.
  apply map_ext_in. intros a Ha. apply hread_app. rewrite Forall_forall in H2. auto.
Qed.

(** *** Updates *)
Section Update.
Variables (env : cp_env) (cs : cp_settings).

Lemma update_factor_dec s m : let c := fst (cp_update_factor env cs s m) in
  cp_dec c = cp_dec s \/ exists U, (m < length (kt_fms (cp_dec s)))%nat /\ cp_dec c = kt_with_factor m U (cp_dec s).
Proof.
  cbn zeta. unfold cp_update_factor.
  destruct (do lhs <- als_lhs cs _ m ; _) as [[[lhs rhs] solve]|e]; [|now left].
  destruct (solve lhs rhs) as [Z|]; cbn [bind]; [|now left].
  destruct (list_get _ m) as [U|] eqn:EU; cbn [bind]; [|now left].
  destruct (assign_full U Z) as [U'|]; [|now left]. right. exists U'. split; [|reflexivity].
  unfold list_get in EU. destruct (nth_error (kt_fms (cp_dec s)) m) eqn:E; [|discriminate]. apply nth_error_Some. congruence.
Qed.
Lemma view_with_cp c s : cp_dec c = ch_value s -> ch_view (ch_with_cp c s) = c.
Proof. intros E. unfold ch_view. change (ch_value (ch_with_cp c s)) with (ch_value s). rewrite <- E. now destruct c. Qed.

Lemma update_factor_view s m : own_arrays (ch_heap s) (ch_ref s) ->
  let r := ch_update_factor env cs s m in
  cp_update_factor env cs (ch_view s) m = (ch_view (fst r), snd r) /\ own_arrays (ch_heap (fst r)) (ch_ref (fst r)) /\
  ch_ref (fst r) = ch_ref s /\ length (ch_heap (fst r)) = length (ch_heap s) /\
  (forall a, ~ In a (kr_fms (ch_ref s)) -> hread (ch_heap (fst r)) a = hread (ch_heap s) a).
Proof.
  intros HO. cbn zeta. unfold ch_update_factor. pose proof (update_factor_dec (ch_view s) m) as HD.
  destruct (cp_update_factor env cs (ch_view s) m) as [c e]. cbn zeta in HD. cbn [fst] in HD.
  change (cp_dec (ch_view s)) with (ch_value s) in HD. change (ch_ref (ch_with_cp c s)) with (ch_ref s).
  change (ch_heap (ch_with_cp c s)) with (ch_heap s).
  destruct HD as [HD|(U & Hm & HD)].
  - assert (E0 : ch_view (ch_with_cp c s) = c) by now apply view_with_cp.
    destruct (nth_error (kr_fms (ch_ref s)) m) as [a|] eqn:Ea; [|cbn; rewrite E0; auto].
    destruct (nth_error (kt_fms (cp_dec c)) m) as [U|] eqn:EU; [|cbn; rewrite E0; auto]. cbn [fst snd].
    assert (U = hread (ch_heap s) a) as ->.
    { rewrite HD in EU. unfold ch_value, kr_value in EU. cbn [kt_fms] in EU. apply map_nth_error with (f := hread (ch_heap s)) in Ea. congruence. }
    rewrite write_read. change (ch_with_heap (ch_heap s) (ch_with_cp c s)) with (ch_with_cp c s). rewrite E0. auto.
  - unfold ch_value, kr_value in Hm. cbn [kt_fms] in Hm. rewrite map_length in Hm.
    destruct (nth_error (kr_fms (ch_ref s)) m) as [a|] eqn:Ea; [|apply nth_error_None in Ea; lia].
    assert (EU : nth_error (kt_fms (cp_dec c)) m = Some U).
    { rewrite HD. cbn [kt_with_factor kt_fms ch_value kr_value]. rewrite (nth_error_nth' _ (mk [] [])).
      - now rewrite nth_replace_at_eq by (now rewrite map_length).
      - now rewrite length_replace_at, map_length. }
    rewrite EU. cbn [fst snd]. assert (Ha : In a (kr_fms (ch_ref s))) by (eapply nth_error_In; eauto).
    pose proof (own_range HO Ha) as Hlt. pose proof HO as [HN _]. inversion HN as [|? ? Hw HN']; subst.
    split; [|split; [now apply own_write|split; [reflexivity|split; [apply length_write|]]]].
    + f_equal. unfold ch_view. cbn [ch_with_heap ch_with_cp ch_cp ch_heap ch_ref ch_value kr_value].
      unfold ch_value, kr_value. cbn [ch_with_heap ch_with_cp ch_cp ch_heap ch_ref]. rewrite (map_read_write U HN' Ea Hlt).
      rewrite read_write_other by (intros ->; contradiction).
      transitivity (cp_with_dec (cp_dec c) c); [now destruct c|]. rewrite HD. reflexivity.
    + intros b Hb. apply read_write_other. intros ->. contradiction.
Qed.

Lemma update_modes_view l : forall s, own_arrays (ch_heap s) (ch_ref s) ->
  let r := run_all (ch_update_factor env cs) l s in
  cp_update_modes env cs l (ch_view s) = (ch_view (fst r), snd r) /\ own_arrays (ch_heap (fst r)) (ch_ref (fst r)) /\
  ch_ref (fst r) = ch_ref s /\ length (ch_heap (fst r)) = length (ch_heap s) /\
  (forall a, ~ In a (kr_fms (ch_ref s)) -> hread (ch_heap (fst r)) a = hread (ch_heap s) a).
Proof.
  induction l as [|m l IH]; intros s HO; cbn zeta; cbn [run_all cp_update_modes]; [cbn; auto|].
  destruct (update_factor_view m HO) as (E1 & E2 & E3 & E4 & E5). destruct (ch_update_factor env cs s m) as [s' [e|]]; cbn [fst snd] in *; rewrite E1; [auto|].
  destruct (IH s' E2) as (F1 & F2 & F3 & F4 & F5). rewrite F1. split; [reflexivity|]. split; [exact F2|]. split; [congruence|]. split; [congruence|].
  intros a Ha. rewrite F5 by (now rewrite E3). now apply E5.
Qed.
Lemma update_view s : own_arrays (ch_heap s) (ch_ref s) ->
  let r := ch_update_factors env cs s in
  cp_update_factors env cs (ch_view s) = (ch_view (fst r), snd r) /\ own_arrays (ch_heap (fst r)) (ch_ref (fst r)) /\
  ch_ref (fst r) = ch_ref s /\ length (ch_heap (fst r)) = length (ch_heap s) /\
  (forall a, ~ In a (kr_fms (ch_ref s)) -> hread (ch_heap (fst r)) a = hread (ch_heap s) a).
Proof. intros HO. exact (update_modes_view (seq 0 (ndim (cp_X (ch_cp s)))) HO). Qed.

(** *** Orthonormal modes at the start *)
Lemma orth_step_view s p : own_arrays (ch_heap s) (ch_ref s) ->
  let r := ch_orthonormalise_step env s p in
  match snd r with
  | Some e => cp_orthonormalise_step env (ch_value s) p = Err e /\ fst r = s
  | None => cp_orthonormalise_step env (ch_value s) p = Ok (ch_value (fst r))
  end /\ own_arrays (ch_heap (fst r)) (ch_ref (fst r)) /\ ch_cp (fst r) = ch_cp s /\ kr_w (ch_ref (fst r)) = kr_w (ch_ref s) /\
  (exists t, ch_heap (fst r) = ch_heap s ++ t)%list /\ length (kr_fms (ch_ref (fst r))) = length (kr_fms (ch_ref s)) /\
  forall m, (m < length (kr_fms (ch_ref s)))%nat ->
    if Nat.eqb m (fst p) && snd p && (match snd r with None => true | _ => false end) then (length (ch_heap s) <= nth m (kr_fms (ch_ref (fst r))) 0)%nat
    else nth m (kr_fms (ch_ref (fst r))) 0%nat = nth m (kr_fms (ch_ref s)) 0%nat.
Proof.
  intros HO. destruct p as [mode o]. cbn zeta. unfold ch_orthonormalise_step, cp_orthonormalise_step. cbn [ch_value kr_value kt_fms fst snd].
  unfold ch_value, kr_value. cbn [kt_fms]. unfold list_get. rewrite nth_error_map.
  assert (Hsame : forall e, own_arrays (ch_heap s) (ch_ref s) /\ ch_cp s = ch_cp s /\ kr_w (ch_ref s) = kr_w (ch_ref s) /\
    (exists t, ch_heap s = ch_heap s ++ t)%list /\ length (kr_fms (ch_ref s)) = length (kr_fms (ch_ref s)) /\
    (o = false \/ e = false -> forall m, (m < length (kr_fms (ch_ref s)))%nat ->
      if Nat.eqb m mode && o && e then (length (ch_heap s) <= nth m (kr_fms (ch_ref s)) 0)%nat
      else nth m (kr_fms (ch_ref s)) 0%nat = nth m (kr_fms (ch_ref s)) 0%nat)).
  { intros e. split; [exact HO|]. split; [reflexivity|]. split; [reflexivity|]. split; [exists []; now rewrite app_nil_r|]. split; [reflexivity|].
    intros H m Hm. destruct H as [-> | ->]; now rewrite ?andb_false_r. }
  destruct (nth_error (kr_fms (ch_ref s)) mode) as [a|] eqn:Ea; cbn [option_map bind].
  2:{ cbn [fst snd]. split; [split; reflexivity|]. destruct (Hsame false) as (S1 & S2 & S3 & S4 & S5 & S6). repeat (split; [assumption|]). apply S6. now right. }
  destruct o.
  2:{ cbn [bind fst snd]. split; [reflexivity|]. destruct (Hsame true) as (S1 & S2 & S3 & S4 & S5 & S6). repeat (split; [assumption|]). apply S6. now left. }
  destruct (env_qr env (hread (ch_heap s) a)) as [Q|e] eqn:EQ; cbn [bind fst snd].
  2:{ split; [split; reflexivity|]. destruct (Hsame false) as (S1 & S2 & S3 & S4 & S5 & S6). repeat (split; [assumption|]). apply S6. now right. }
  assert (Hm : (mode < length (kr_fms (ch_ref s)))%nat) by (apply nth_error_Some; congruence).
  pose proof HO as [HN HF]. inversion HN as [|? ? Hw HN']; subst. inversion HF as [|? ? Fw FF]; subst. rewrite Forall_forall in FF.
  assert (Hreb : forall b, In b (replace_at mode (length (ch_heap s)) (kr_fms (ch_ref s))) -> b = length (ch_heap s) \/ In b (kr_fms (ch_ref s))).
  { intros b Hb. apply In_nth with (d := 0%nat) in Hb as (i & Hi & <-). rewrite length_replace_at in Hi.
    destruct (Nat.eq_dec i mode) as [->|Hne]; [left; now rewrite nth_replace_at_eq|right]. rewrite nth_replace_at_neq by auto. now apply nth_In. }
  split; [|split; [|split; [reflexivity|split; [reflexivity|split; [exists [Q]; reflexivity|split]]]]].
  - f_equal. unfold kr_rebind, kt_with_factor. cbn [kr_rank kr_fms kr_w kt_rank kt_fms kt_w ch_with_ref ch_with_heap ch_heap ch_ref]. f_equal.
    + apply nth_ext with (d := mk [] []) (d' := hread (ch_heap s ++ [Q])%list 0%nat).
      * now rewrite length_replace_at, !map_length, length_replace_at.
      * intros i Hi. rewrite length_replace_at, map_length in Hi. rewrite map_nth.
        destruct (Nat.eq_dec i mode) as [->|Hne].
        -- rewrite !nth_replace_at_eq by (rewrite ?map_length; auto). unfold hread. rewrite app_nth2 by lia. now rewrite Nat.sub_diag.
        -- rewrite !nth_replace_at_neq by auto. rewrite (nth_indep _ _ (hread (ch_heap s) 0%nat)) by (now rewrite map_length). rewrite map_nth.
           symmetry. apply hread_app. apply FF. now apply nth_In.
    + symmetry. now apply hread_app.
  - split.
    + cbn [ch_with_ref ch_ref kr_rebind kr_w kr_fms]. constructor.
      * intros Hin. apply Hreb in Hin as [Hin|Hin]; [lia|contradiction].
      * apply NoDup_nth with (d := 0%nat). rewrite length_replace_at. intros i j Hi Hj E.
        destruct (Nat.eq_dec i mode) as [->|Hi'], (Nat.eq_dec j mode) as [->|Hj']; auto.
        -- rewrite nth_replace_at_eq, nth_replace_at_neq in E by auto. pose proof (FF _ (nth_In _ 0%nat Hj)). lia.
        -- rewrite nth_replace_at_eq, nth_replace_at_neq in E by auto. pose proof (FF _ (nth_In _ 0%nat Hi)). lia.
        -- rewrite !nth_replace_at_neq in E by auto. rewrite NoDup_nth in HN'. now apply HN' in E.
    + cbn [ch_with_ref ch_with_heap ch_heap ch_ref kr_rebind kr_w kr_fms]. rewrite app_length. cbn [length]. constructor; [lia|].
      rewrite Forall_forall. intros b Hb. apply Hreb in Hb as [-> |Hb]; [lia|]. apply FF in Hb. lia.
  - cbn. apply length_replace_at.
  - intros m Hlt. cbn [ch_with_ref ch_ref kr_rebind kr_fms]. destruct (Nat.eqb_spec m mode) as [->|Hne]; cbn [andb].
    + rewrite nth_replace_at_eq by auto. lia.
    + now rewrite nth_replace_at_neq by auto.
Qed.
End Update.

Section Start.
Variables (env : cp_env) (cs : cp_settings).

Definition orth_in (l : list (nat * bool)) (m : nat) : bool := existsb (fun p => Nat.eqb m (fst p) && snd p) l.
Lemma orth_steps_view l : forall s, own_arrays (ch_heap s) (ch_ref s) ->
  let r := run_all (ch_orthonormalise_step env) l s in
  match snd r with
  | Some e => foldM (cp_orthonormalise_step env) l (ch_value s) = Err e /\
              foldL (cp_orthonormalise_step env) (fun d _ => d) l (ch_value s) = ch_value (fst r)
  | None => foldM (cp_orthonormalise_step env) l (ch_value s) = Ok (ch_value (fst r))
  end /\ own_arrays (ch_heap (fst r)) (ch_ref (fst r)) /\ ch_cp (fst r) = ch_cp s /\ kr_w (ch_ref (fst r)) = kr_w (ch_ref s) /\
  (exists t, ch_heap (fst r) = ch_heap s ++ t)%list /\ length (kr_fms (ch_ref (fst r))) = length (kr_fms (ch_ref s)) /\
  forall m, (m < length (kr_fms (ch_ref s)))%nat ->
    (nth m (kr_fms (ch_ref (fst r))) 0%nat = nth m (kr_fms (ch_ref s)) 0%nat \/ (length (ch_heap s) <= nth m (kr_fms (ch_ref (fst r))) 0)%nat) /\
    (snd r = None -> if orth_in l m then (length (ch_heap s) <= nth m (kr_fms (ch_ref (fst r))) 0)%nat
                     else nth m (kr_fms (ch_ref (fst r))) 0%nat = nth m (kr_fms (ch_ref s)) 0%nat).
Proof.
  induction l as [|p l IH]; intros s HO; cbn zeta; cbn [run_all foldM foldL].
  - cbn [fst snd]. split; [reflexivity|]. split; [exact HO|]. split; [reflexivity|]. split; [reflexivity|]. split; [exists []; now rewrite app_nil_r|].
    split; [reflexivity|]. intros m Hm. split; [now left|]. intros _. reflexivity.
  - destruct (orth_step_view env p HO) as (E1 & E2 & E3 & E4 & (t & E5) & E6 & E7).
    destruct (ch_orthonormalise_step env s p) as [s' [e|]]; cbn [fst snd] in *.
    + destruct E1 as [E1 ->]. rewrite E1. cbn [bind]. split; [split; reflexivity|]. split; [exact HO|]. split; [reflexivity|]. split; [reflexivity|].
      split; [exists []; now rewrite app_nil_r|]. split; [reflexivity|]. intros m Hm. split; [now left|discriminate].
    + rewrite E1. cbn [bind]. destruct (IH s' E2) as (F1 & F2 & F3 & F4 & (t' & F5) & F6 & F7).
      split; [exact F1|]. split; [exact F2|]. split; [congruence|]. split; [congruence|].
      split; [exists (t ++ t')%list; rewrite F5, E5; now rewrite app_assoc|]. split; [congruence|]. intros m Hm.
      specialize (F7 m ltac:(congruence)). specialize (E7 m Hm). destruct F7 as [F7 F8].
      assert (HL : (length (ch_heap s) <= length (ch_heap s'))%nat) by (rewrite E5, app_length; lia).
      rewrite andb_true_r in E7. unfold orth_in. cbn [existsb]. fold (orth_in l m).
      destruct (Nat.eqb m (fst p) && snd p); cbn [orb].
      * split; [right; destruct F7; lia|]. intros _. destruct F7; lia.
      * rewrite E7 in *. split; [destruct F7; [now left|right; lia]|]. intros He. specialize (F8 He). destruct (orth_in l m); [lia|exact F8].
Qed.
Lemma orth_in_enum l m : forall k, orth_in (combine (seq k (length l)) l) (k + m) = nth m l false.
Proof.
  revert m. induction l as [|b l IH]; intros m k; [now destruct m|]. cbn [length seq combine]. unfold orth_in. cbn [existsb fst snd].
  fold (orth_in (combine (seq (S k) (length l)) l) (k + m)). destruct m as [|m].
  - rewrite Nat.add_0_r, Nat.eqb_refl. cbn [nth]. destruct b; [reflexivity|]. cbn [andb orb].
    unfold orth_in. apply not_true_is_false. intros H. apply existsb_exists in H as ([i o] & Hi & Hb). apply in_combine_l in Hi. apply in_seq in Hi.
    cbn [fst] in Hb. apply andb_true_iff in Hb as [Hb _]. apply Nat.eqb_eq in Hb. lia.
  - replace (Nat.eqb (k + S m) k) with false by (symmetry; apply Nat.eqb_neq; lia). cbn [andb orb nth].
    rewrite <- (IH m (S k)). f_equal. lia.
Qed.

Lemma own_reset h r : own_arrays h r -> own_arrays (kr_reset_weights r h) r.
Proof. apply own_write. Qed.
Lemma value_reset h r : own_arrays h r -> kr_value (kr_reset_weights r h) r = kt_reset_weights (kr_value h r).
Proof.
  intros [HN HF]. inversion HN; inversion HF; subst. unfold kr_value, kr_reset_weights, kt_reset_weights. cbn [kt_rank kt_fms kt_w].
  f_equal; [now apply map_read_other|now apply read_write_same].
Qed.

(** What preparing a fit does to the arrays *)
Record prepared (h : heap) (r : kref) (orth : option (list bool)) (s : cph) (e : option exn) : Prop :=
  { pr_own : own_arrays (ch_heap s) (ch_ref s);
    pr_w : kr_w (ch_ref s) = kr_w r;
    pr_len : length (kr_fms (ch_ref s)) = length (kr_fms r);
    pr_size : (length h <= length (ch_heap s))%nat;
    pr_heap : forall a, (a < length h)%nat -> a <> kr_w r -> hread (ch_heap s) a = hread h a;
    pr_mode : forall m, (m < length (kr_fms r))%nat ->
      nth m (kr_fms (ch_ref s)) 0%nat = nth m (kr_fms r) 0%nat \/ (length h <= nth m (kr_fms (ch_ref s)) 0)%nat;
    pr_orth : e = None -> forall m, (m < length (kr_fms r))%nat ->
      if orth_mode orth m then (length h <= nth m (kr_fms (ch_ref s)) 0)%nat else nth m (kr_fms (ch_ref s)) 0%nat = nth m (kr_fms r) 0%nat }.

Lemma nth_error_repeat {A} (x : A) n m y : nth_error (repeat x n) m = Some y -> y = x.
Proof. intros H. apply nth_error_In in H. now apply repeat_spec in H. Qed.

Lemma init_view disk draws X max_its r d1 d2 : own_arrays (ch_heap (ds_num d1)) r -> ds_view ch_view d1 d2 ->
  let r1 := ch_init_fit env cs X max_its r d1 in
  view_res ch_view r1 (cp_init_fit env cs disk draws X max_its (DecArg (kr_value (ch_heap (ds_num d1)) r)) d2) /\
  ((ch_heap (ds_num (fst r1)) = ch_heap (ds_num d1) /\ ch_ref (ds_num (fst r1)) = ch_ref (ds_num d1) /\ snd r1 <> None) \/
   prepared (ch_heap (ds_num d1)) r (cp_orth (ch_cp (ds_num d1))) (ds_num (fst r1)) (snd r1)).
Proof.
  intros HO HV. cbn zeta. pose proof HV as [V1 V2 V3 V4 V5 V6 V7]. unfold ch_init_fit, cp_init_fit, cp_init_components. cbn [andb].
  set (e1 := with_num (ch_with_cp (cp_with_target X (ch_cp (ds_num d1))) (ds_num d1)) (with_it 0%Z d1)).
  set (e2 := with_num (cp_with_target X (ds_num d2)) (with_it 0%Z d2)).
  assert (HE : ds_view ch_view e1 e2).
  { constructor; auto. cbn [e1 e2 with_num ds_num]. rewrite V1. reflexivity. }
  destruct (negb (existsb (String.eqb (lower (cs_init cs))) ["precomputed"%string; "from_checkpoint"%string])) eqn:EI.
  { split; [split; [exact HE|reflexivity]|]. left. split; [reflexivity|]. split; [reflexivity|discriminate]. }
  apply negb_false_iff in EI. apply existsb_exists in EI as (i & Hi & Ei). apply String.eqb_eq in Ei. rewrite Ei.
  destruct Hi as [<-|[<-|[]]]; cbn [String.eqb Ascii.eqb Bool.eqb].
  2:{ split; [split; [exact HE|reflexivity]|]. left. split; [reflexivity|]. split; [reflexivity|discriminate]. }
  assert (EC : cp_check cs (ds_num e2) (kr_value (ch_heap (ds_num d1)) r) = cp_check cs (ch_view (ds_num e1)) (kr_value (ch_heap (ds_num e1)) r)).
  { rewrite (dv_num HE). reflexivity. }
  rewrite EC. destruct (cp_check cs (ch_view (ds_num e1)) _) as [[]|e]; cbn [bind].
  2:{ split; [split; [exact HE|reflexivity]|]. left. split; [reflexivity|]. split; [reflexivity|discriminate]. }
  set (h := ch_heap (ds_num d1)) in *.
  set (f1 := match max_its with Some m => with_max m e1 | None => e1 end).
  set (f2 := match max_its with Some m => with_max m (with_num (cp_with_dec (kr_value h r) (ds_num e2)) e2) | None => with_num (cp_with_dec (kr_value h r) (ds_num e2)) e2 end).
  assert (N1 : ds_num f1 = ds_num e1) by (unfold f1; now destruct max_its).
  assert (N2 : ds_num f2 = cp_with_dec (kr_value h r) (ds_num e2)) by (unfold f2; now destruct max_its).
  rewrite N1, N2. cbn zeta.
  set (s1 := ch_with_heap _ (ch_with_ref r (ds_num e1))).
  set (s2 := ch_with_cp _ s1).
  set (u1 := cp_with_dec (kt_reset_weights _) (cp_with_dec (kr_value h r) (ds_num e2))).
  assert (ES : ch_view s2 = cp_with_constraints (or_unconstrained (cp_nn u1) u1) (or_unconstrained (cp_orth u1) u1) u1).
  { unfold s2, ch_view. cbn [ch_with_cp ch_cp]. change (ch_value (ch_with_cp _ s1)) with (kr_value (kr_reset_weights r h) r).
    rewrite (value_reset HO). unfold u1. cbn [e1 e2 with_num ds_num]. rewrite V1. unfold or_unconstrained, ch_value.
    cbn [s1 ch_with_heap ch_with_ref ch_cp ch_ref ch_heap ch_view cp_with_dec cp_dec kt_fms kr_value e1 with_num ds_num ch_with_cp].
    fold h. unfold kt_reset_weights. cbn [kt_fms cp_with_dec cp_with_target cp_dec kr_value ch_view cp_nn cp_orth]. rewrite !map_length. reflexivity. }
  rewrite <- ES.
  assert (HO2 : own_arrays (ch_heap s2) (ch_ref s2)) by (apply own_reset; exact HO).
  assert (HF : forall a b : cph * unit, True) by auto. clear HF.
  assert (HVF : forall s1' s2', s2' = ch_view s1' -> ds_view ch_view (with_num s1' f1) (with_num s2' f2)).
  { intros a b ->. unfold f1, f2. destruct max_its; constructor; cbn; auto. }
  assert (HP : forall s e, own_arrays (ch_heap s) (ch_ref s) -> kr_w (ch_ref s) = kr_w r -> length (kr_fms (ch_ref s)) = length (kr_fms r) ->
    (exists t, ch_heap s = ch_heap s2 ++ t)%list ->
    (forall m, (m < length (kr_fms r))%nat ->
      nth m (kr_fms (ch_ref s)) 0%nat = nth m (kr_fms r) 0%nat \/ (length h <= nth m (kr_fms (ch_ref s)) 0)%nat) ->
    (e = None -> forall m, (m < length (kr_fms r))%nat ->
      if orth_mode (cp_orth (ch_cp (ds_num d1))) m then (length h <= nth m (kr_fms (ch_ref s)) 0)%nat else nth m (kr_fms (ch_ref s)) 0%nat = nth m (kr_fms r) 0%nat) ->
    prepared h r (cp_orth (ch_cp (ds_num d1))) s e).
  { intros s e P1 P2 P3 (t & P4) P5 P6. constructor; auto.
    - rewrite P4, app_length. change (ch_heap s2) with (kr_reset_weights r h). unfold kr_reset_weights. rewrite length_write. lia.
    - intros a Ha Hne. rewrite P4. change (ch_heap s2) with (kr_reset_weights r h). unfold kr_reset_weights.
      rewrite hread_app by (now rewrite length_write). apply read_write_other. auto. }
  unfold ch_orthonormalise, cp_orthonormalise, cp_orthonormalise_left.
  assert (EO : cp_orth (ch_view s2) = cp_orth (ch_cp s2)) by reflexivity. rewrite EO.
  assert (Hom : exists l, cp_orth (ch_cp s2) = Some l /\ forall m, nth m l false = orth_mode (cp_orth (ch_cp (ds_num d1))) m).
  { change (cp_orth (ch_cp s2)) with (or_unconstrained (cp_orth (ch_cp (ds_num d1))) (ch_view s1)). unfold or_unconstrained, orth_mode.
    destruct (cp_orth (ch_cp (ds_num d1))) as [l|]; eexists; (split; [reflexivity|]); [reflexivity|]. intros m. apply nth_repeat. }
  destruct Hom as (l & -> & Hom). cbn [not_none bind].
  change (cp_dec (ch_view s2)) with (ch_value s2).
  destruct (orth_steps_view (combine (seq 0 (length l)) l) HO2) as (O1 & O2 & O3 & O4 & O5 & O6 & O7).
  destruct (run_all (ch_orthonormalise_step env) (combine (seq 0 (length l)) l) s2) as [s3 [e|]]; cbn [fst snd] in *.
  - destruct O1 as [O1 O1']. rewrite O1. cbn [bind]. rewrite O1'. split.
    + split; [|reflexivity]. apply HVF. unfold ch_view. now rewrite O3.
    + right. cbn [with_num ds_num fst snd]. apply HP; auto.
      * intros m Hm. destruct (O7 m Hm) as [O8 _]. change (ch_heap s2) with (kr_reset_weights r h) in O8. unfold kr_reset_weights in O8. now rewrite length_write in O8.
      * discriminate.
  - rewrite O1. cbn [bind]. assert (E3 : cp_with_dec (ch_value s3) (ch_view s2) = ch_view s3) by (unfold ch_view; now rewrite O3).
    rewrite E3.
    assert (HP3 : forall s e, ch_heap s = ch_heap s3 -> ch_ref s = ch_ref s3 -> prepared h r (cp_orth (ch_cp (ds_num d1))) s e).
    { intros s e Hh Hr. assert (HL : length (ch_heap s2) = length h) by apply length_write. apply HP; rewrite ?Hh, ?Hr; auto.
      - intros m Hm. destruct (O7 m Hm) as [O8 _]. now rewrite HL in O8.
      - intros _ m Hm. destruct (O7 m Hm) as [_ O8]. specialize (O8 eq_refl). rewrite HL in O8.
        specialize (Hom m). rewrite <- (orth_in_enum l m 0) in Hom. cbn [Nat.add] in Hom. now rewrite Hom in O8. }
    destruct (cp_SSE env (ch_view s3)) as [v|e].
    + split; [|right; now apply HP3]. split; [|reflexivity]. unfold f1, f2. destruct max_its; constructor; cbn; auto.
    + split; [|right; now apply HP3]. split; [|reflexivity]. unfold f1, f2. destruct max_its; constructor; cbn; auto.
Qed.
End Start.

(** What the iterations do to the arrays *)
Lemma frame_end d1 r s0 s' : let h := ch_heap (ds_num d1) in own_arrays h r ->
  prepared h r (cp_orth (ch_cp (ds_num d1))) s0 None -> own_arrays (ch_heap s') (ch_ref s') -> ch_ref s' = ch_ref s0 ->
  (forall a, ~ In a (kr_fms (ch_ref s0)) -> hread (ch_heap s') a = hread (ch_heap s0) a) ->
  (forall a, (a < length h)%nat -> ~ In a (kr_w r :: kr_fms r) -> hread (ch_heap s') a = hread h a) /\
  (own_arrays (ch_heap s') (ch_ref s') /\ kr_w (ch_ref s') = kr_w r /\ length (kr_fms (ch_ref s')) = length (kr_fms r) /\
    forall m, (m < length (kr_fms r))%nat ->
      let a := nth m (kr_fms r) 0%nat in let a' := nth m (kr_fms (ch_ref s')) 0%nat in
      if orth_mode (cp_orth (ch_cp (ds_num d1))) m then (length h <= a')%nat /\ hread (ch_heap s') a = hread h a else a' = a).
Proof.
  cbn zeta. intros HO HP P1 P2 P3. set (h := ch_heap (ds_num d1)) in *.
      assert (Hfree : forall a, (a < length h)%nat -> a <> kr_w r ->
        (forall m, (m < length (kr_fms r))%nat -> orth_mode (cp_orth (ch_cp (ds_num d1))) m = false -> nth m (kr_fms r) 0%nat <> a) ->
        hread (ch_heap s') a = hread h a).
      { intros a Ha Hw Hm. rewrite P3; [now apply (pr_heap HP)|]. intros Hin. apply In_nth with (d := 0%nat) in Hin as (m & Hlt & Hna).
        rewrite (pr_len HP) in Hlt. pose proof (pr_orth HP eq_refl Hlt) as Hq. specialize (Hm m Hlt).
        destruct (orth_mode _ m); [lia|]. apply (Hm eq_refl). congruence. }
      split.
      * intros a Ha Hn. apply Hfree; auto.
        -- intros ->. apply Hn. now left.
        -- intros m Hm _ <-. apply Hn. right. now apply nth_In.
      * split; [exact P1|]. rewrite P2. split; [exact (pr_w HP)|]. split; [exact (pr_len HP)|]. intros m Hm.
        pose proof (pr_orth HP eq_refl Hm) as Hq. destruct (orth_mode _ m) eqn:Eo; [|exact Hq]. split; [exact Hq|].
        pose proof HO as [HN HF]. inversion HN as [|? ? Hw HN']; subst. inversion HF as [|? ? _ HF']; subst. rewrite Forall_forall in HF'.
        apply Hfree.
        -- apply HF'. now apply nth_In.
        -- intros E. apply Hw. rewrite <- E. now apply nth_In.
        -- intros m' Hm' Eo' E. rewrite NoDup_nth in HN'. apply HN' in E; auto. subst m'. congruence.
Qed.

Section Fit.
Variables (env : cp_env) (cs : cp_settings) (cf : config).

Theorem fit_view disk draws X max_its r d1 d2 : own_arrays (ch_heap (ds_num d1)) r -> ds_view ch_view d1 d2 ->
  view_res ch_view (ch_fit env cs cf X max_its r d1)
    (cp_fit env cs cf disk draws X max_its (DecArg (kr_value (ch_heap (ds_num d1)) r)) d2) /\
  let s' := ds_num (fst (ch_fit env cs cf X max_its r d1)) in
  let e := snd (ch_fit env cs cf X max_its r d1) in
  (forall a, (a < length (ch_heap (ds_num d1)))%nat -> ~ In a (kr_w r :: kr_fms r) -> hread (ch_heap s') a = hread (ch_heap (ds_num d1)) a) /\
  (e = None -> own_arrays (ch_heap s') (ch_ref s') /\ kr_w (ch_ref s') = kr_w r /\ length (kr_fms (ch_ref s')) = length (kr_fms r) /\
    forall m, (m < length (kr_fms r))%nat ->
      let a := nth m (kr_fms r) 0%nat in let a' := nth m (kr_fms (ch_ref s')) 0%nat in
      if orth_mode (cp_orth (ch_cp (ds_num d1))) m
      then (length (ch_heap (ds_num d1)) <= a')%nat /\ hread (ch_heap s') a = hread (ch_heap (ds_num d1)) a
      else a' = a).
Proof.
  intros HO HV. unfold ch_fit, cp_fit. destruct (init_view env cs disk draws X max_its HO HV) as [[HW HE] HP].
  destruct (ch_init_fit env cs X max_its r d1) as [i1 e1], (cp_init_fit env cs disk draws X max_its _ d2) as [i2 e2]. cbn [fst snd] in *. subst e2.
  set (h := ch_heap (ds_num d1)) in *.
  destruct e1 as [e|]; cbn zeta; cbn [fst snd].
  - split; [split; [exact HW|reflexivity]|]. split; [|discriminate]. intros a Ha Hn. destruct HP as [(Hh & _)|HP]; [now rewrite Hh|].
    apply (pr_heap HP); auto. intros ->. apply Hn. now left.
  - destruct HP as [(_ & _ & HC)|HP]; [congruence|].
    set (s0 := ds_num i1) in *.
    pose (P := fun s => own_arrays (ch_heap s) (ch_ref s) /\ ch_ref s = ch_ref s0 /\
                        forall a, ~ In a (kr_fms (ch_ref s0)) -> hread (ch_heap s) a = hread (ch_heap s0) a).
    destruct (@view_fit_loop _ _ _ (ch_model env cs) (cp_model env cs) ch_view P) with (cf := cf) (d1 := i1) (d2 := i2) as [HR HPf].
    + reflexivity.
    + reflexivity.
    + reflexivity.
    + reflexivity.
    + reflexivity.
    + intros s (P1 & P2 & P3). destruct (update_view env cs P1) as (U1 & U2 & U3 & _ & U5).
      change (md_update (ch_model env cs)) with (ch_update_factors env cs). change (md_update (cp_model env cs)) with (cp_update_factors env cs).
      split; [|exact U1]. split; [exact U2|]. split; [congruence|]. intros a Ha. rewrite U5 by (now rewrite P2). now apply P3.
    + split; [exact (pr_own HP)|]. split; [reflexivity|]. reflexivity.
    + exact HW.
    + split; [exact HR|]. destruct HPf as (P1 & P2 & P3).
      destruct (frame_end HO HP P1 P2 P3) as [G1 G2]. split; [exact G1|]. intros _. exact G2.
Qed.
End Fit.

(** *** Normalising *)
Lemma normalize_step_view upd eps r h i : own_arrays h r ->
  match kr_normalize_step upd eps r h i with
  | Ok h' => kt_normalize_step upd eps (kr_value h r) i = Ok (kr_value h' r) /\ own_arrays h' r /\
      forall a, ~ In a (kr_w r :: kr_fms r) -> hread h' a = hread h a
  | Err e => kt_normalize_step upd eps (kr_value h r) i = Err e
  end.
Proof.
  intros HO. pose proof HO as [HN HF]. inversion HN as [|? ? Hw HN']; subst. inversion HF as [|? ? Fw FF]; subst. rewrite Forall_forall in FF.
  unfold kr_normalize_step, kt_normalize_step. cbn [kr_value kt_fms kt_w kt_rank]. unfold list_get. rewrite nth_error_map.
  destruct (nth_error (kr_fms r) i) as [a|] eqn:Ea; cbn [option_map bind]; [|reflexivity].
  assert (Hin : In a (kr_fms r)) by (eapply nth_error_In; eauto). assert (Ha := FF _ Hin).
  destruct (np_div (hread h a) _) as [q|]; cbn [bind]; [|reflexivity].
  destruct (assign_full (hread h a) q) as [U'|]; cbn [bind]; [|reflexivity].
  assert (Hne : kr_w r <> a) by (intros E; apply Hw; now rewrite E).
  rewrite read_write_other by auto.
  assert (Hout : forall b, ~ In b (kr_w r :: kr_fms r) -> hread (hwrite h a U') b = hread h b).
  { intros b Hb. apply read_write_other. intros <-. apply Hb. now right. }
  destruct upd; cbn [bind].
  - destruct (broadcast_into Rmult (hread h (kr_w r)) _) as [w'|]; cbn [bind]; [|reflexivity]. split; [|split; [now apply own_write, own_write|]].
    + f_equal. unfold kr_value. f_equal.
      * rewrite map_read_other by auto. now rewrite (map_read_write U' HN' Ea Ha).
      * rewrite read_write_same; [reflexivity|]. now rewrite length_write.
    + intros b Hb. rewrite read_write_other; [now apply Hout|]. intros <-. apply Hb. now left.
  - split; [|split; [now apply own_write|exact Hout]]. f_equal. unfold kr_value. f_equal.
    + now rewrite (map_read_write U' HN' Ea Ha).
    + now rewrite read_write_other by auto.
Qed.
Theorem normalize_view upd eps r h : own_arrays h r ->
  match kr_normalize upd eps r h with
  | Ok h' => kt_normalize upd eps (kr_value h r) = Ok (kr_value h' r) /\ own_arrays h' r /\
      forall a, ~ In a (kr_w r :: kr_fms r) -> hread h' a = hread h a
  | Err e => kt_normalize upd eps (kr_value h r) = Err e
  end.
Proof.
  unfold kr_normalize, kt_normalize. cbn [kr_value kt_fms]. rewrite map_length. generalize (seq 0 (length (kr_fms r))) as l. intros l. revert h.
  induction l as [|i l IH]; intros h HO; cbn [foldM]; [auto|]. pose proof (normalize_step_view upd eps i HO) as HS.
  destruct (kr_normalize_step upd eps r h i) as [h1|e]; cbn [bind].
  - destruct HS as (E & H1 & H2). specialize (IH h1 H1). fold (kr_value h r). rewrite E. cbn [bind]. unfold kr_value in IH at 1.
    destruct (foldM (kr_normalize_step upd eps r) l h1) as [h2|e].
    + destruct IH as (I1 & I2 & I3). split; [exact I1|]. split; [exact I2|]. intros a Ha. rewrite I3 by auto. now apply H2.
    + exact IH.
  - fold (kr_value h r). now rewrite HS.
Qed.

(** *** Corollaries *)
Definition no_logs (d : dstate cph) : dstate cph :=
  {| ds_num := ds_num d; ds_it := ds_it d; ds_max := ds_max d; ds_rel := ds_rel d; ds_prev := ds_prev d; ds_logs := []; ds_file := ds_file d |}.
Definition ds_by_value (d : dstate cph) : dstate cp_state :=
  {| ds_num := ch_view (ds_num d); ds_it := ds_it d; ds_max := ds_max d; ds_rel := ds_rel d; ds_prev := ds_prev d; ds_logs := [];
     ds_file := ds_file d |}.
Lemma by_value_view d : ds_view ch_view (no_logs d) (ds_by_value d).
Proof. constructor; try reflexivity. constructor. Qed.
Lemma init_no_logs env cs X max_its r d :
  ch_init_fit env cs X max_its r (no_logs d) =
  (no_logs (fst (ch_init_fit env cs X max_its r d)), snd (ch_init_fit env cs X max_its r d)).
Proof.
  unfold ch_init_fit. cbn [no_logs with_num with_it ds_num].
  destruct (negb _); [reflexivity|]. destruct (String.eqb _ _); [reflexivity|]. destruct (cp_check _ _ _); [|reflexivity].
  destruct max_its; cbn [with_max with_num with_it ds_num].
  all: destruct (ch_orthonormalise env _) as [s [e|]]; [reflexivity|]; destruct (cp_SSE env (ch_view s)); reflexivity.
Qed.
Lemma fit_arrays env cs cf X max_its r d1 d' e : own_arrays (ch_heap (ds_num d1)) r ->
  ch_fit env cs cf X max_its r d1 = (d', e) ->
  let h := ch_heap (ds_num d1) in let h' := ch_heap (ds_num d') in let r' := ch_ref (ds_num d') in
  (forall a, (a < length h)%nat -> ~ In a (kr_w r :: kr_fms r) -> hread h' a = hread h a) /\
  (e = None -> own_arrays h' r' /\ kr_w r' = kr_w r /\ length (kr_fms r') = length (kr_fms r) /\
    forall m, (m < length (kr_fms r))%nat ->
      let a := nth m (kr_fms r) 0%nat in let a' := nth m (kr_fms r') 0%nat in
      if orth_mode (cp_orth (ch_cp (ds_num d1))) m then (length h <= a')%nat /\ hread h' a = hread h a else a' = a).
Proof.
  intros HO E. assert (HO' : own_arrays (ch_heap (ds_num (no_logs d1))) r) by exact HO.
  destruct (init_view env cs (fun _ => None) [] X max_its HO' (by_value_view d1)) as [_ HP]. rewrite init_no_logs in HP.
  cbn [fst snd no_logs ds_num] in HP. unfold ch_fit in E.
  destruct (ch_init_fit env cs X max_its r d1) as [i1 e1]. cbn [fst snd] in HP.
  cbn zeta. destruct e1 as [e1|].
  - injection E as <- <-. split; [|discriminate]. intros a Ha Hn. destruct HP as [(Hh & _)|HP]; [now rewrite Hh|].
    apply (pr_heap HP); auto. intros ->. apply Hn. now left.
  - destruct HP as [(_ & _ & HC)|HP]; [congruence|].
    replace d' with (fst (cp_fit_loop (ch_model env cs) cf i1)) by now rewrite E.
    set (s0 := ds_num i1) in *.
    pose (P := fun s => own_arrays (ch_heap s) (ch_ref s) /\ ch_ref s = ch_ref s0 /\
                        forall a, ~ In a (kr_fms (ch_ref s0)) -> hread (ch_heap s) a = hread (ch_heap s0) a).
    destruct (@view_fit_loop _ _ _ (ch_model env cs) (ch_model env cs) (fun s => s) P) with (cf := cf) (d1 := i1) (d2 := i1) as [_ HPf].
    + reflexivity.
    + reflexivity.
    + reflexivity.
    + reflexivity.
    + reflexivity.
    + intros s (P1 & P2 & P3). destruct (update_view env cs P1) as (_ & U2 & U3 & _ & U5).
      change (md_update (ch_model env cs)) with (ch_update_factors env cs).
      split; [|apply surjective_pairing]. split; [exact U2|]. split; [congruence|]. intros a Ha. rewrite U5 by (now rewrite P2). now apply P3.
    + split; [exact (pr_own HP)|]. split; [reflexivity|]. reflexivity.
    + constructor; try reflexivity. induction (ds_logs i1) as [|x l IH]; [constructor|]. constructor; [now constructor|exact IH].
    + destruct HPf as (P1 & P2 & P3). destruct (frame_end HO HP P1 P2 P3) as [G1 G2]. split; [exact G1|]. intros _. exact G2.
Qed.
Lemma given_start_result env cs K cf X max_its r d1 d2 :
  own_arrays (ch_heap (ds_num d1)) r -> ds_view ch_view d1 d2 ->
  cs_rank cs = K -> cs_ridge cs = None -> lower (cs_init cs) = "precomputed"%string -> svd_works_on K K (env_svd env) -> data_ok X ->
  kr_rank r = K -> factors_ok K X (kt_fms (kr_value (ch_heap (ds_num d1)) r)) -> is_vec K (kt_w (kr_value (ch_heap (ds_num d1)) r)) ->
  cp_last (ds_num d2) = None -> free_flags (cp_nn (ds_num d2)) (length (shape X)) ->
  free_flags (cp_orth (ds_num d2)) (length (shape X)) ->
  let budget := match max_its with Some m => m | None => ds_max d2 end in
  (0 < budget)%Z -> (forall lg, In lg (ds_logs d2) -> exists k, code_logger env cs k lg) -> checkpoints_fit cf budget d2 ->
  exists d', ch_fit env cs cf X max_its r d1 = (d', None) /\
    let before := kr_value (ch_heap (ds_num d1)) r in let after := kr_value (ch_heap (ds_num d')) r in
    kt_fms (ch_value (ds_num d')) = kt_fms after /\ kt_w (ch_value (ds_num d')) = kt_w after /\
    factors_ok K X (kt_fms after) /\ (forall k, (k < K)%nat -> vget (kt_w after) k = 1) /\
    cp_SSE env (ch_view (ds_num d')) = Ok (sse X (kt_fms after) unit_weights K) /\
    sse X (kt_fms after) unit_weights K <= sse X (kt_fms before) unit_weights K.
Proof.
  intros HO HV HK HR Hi HS HX Hrk HF Hw HL Hnn Hor budget Hb Hlg Hck.
  set (d := kr_value (ch_heap (ds_num d1)) r) in *.
  assert (HU : usable_start env cs K X [] (DecArg d)).
  { right. right. split; [exact Hi|]. exists d. auto. }
  destruct (@fit_completes env cs K cf (fun _ => None) [] X max_its (DecArg d) d2 HK HR HS HX HU HL Hnn Hor Hb Hlg Hck)
    as (di & df & Ei & Ef & F1 & F2 & F3 & F4 & _).
  assert (Hall : all_false (cp_orth (ds_num d2)) (length (shape X))).
  { destruct Hor as [-> | ->]; [exact Logic.I|]. cbn. split; [|now rewrite repeat_length]. apply Forall_forall. intros b Hin. now apply repeat_spec in Hin. }
  destruct (@precomputed_weights env cs (fun _ => None) [] X max_its d2 K d Hi HK HL HX HF Hw Hall) as (di' & Ei' & Hfm & _).
  assert (di' = di) as -> by congruence. rewrite Hfm in F4.
  destruct (@fit_view env cs cf (fun _ => None) [] X max_its r d1 d2 HO HV) as [[HW HE] H]. fold d in HW, HE. rewrite Ef in HW, HE.
  destruct (ch_fit env cs cf X max_its r d1) as [d' e]. cbn [fst snd] in *. subst e. exists d'. split; [reflexivity|]. cbn zeta in H |- *.
  destruct H as (_ & H). destruct (H eq_refl) as (_ & H1 & H2 & H3). rewrite (dv_num HW) in F1, F2, F3, F4.
  change (cp_dec (ch_view (ds_num d'))) with (ch_value (ds_num d')) in *.
  assert (EF : kr_fms (ch_ref (ds_num d')) = kr_fms r).
  { apply nth_ext with (d := 0%nat) (d' := 0%nat); [exact H2|]. intros m Hm. rewrite H2 in Hm. specialize (H3 m Hm). cbn zeta in H3.
    replace (orth_mode (cp_orth (ch_cp (ds_num d1))) m) with false in H3; [exact H3|].
    rewrite (dv_num HV) in Hor. unfold orth_mode. cbn in Hor. destruct Hor as [-> | ->]; [reflexivity|]. now rewrite nth_repeat. }
  assert (E1 : kt_fms (ch_value (ds_num d')) = kt_fms (kr_value (ch_heap (ds_num d')) r)) by (cbn; now rewrite EF).
  assert (E2 : kt_w (ch_value (ds_num d')) = kt_w (kr_value (ch_heap (ds_num d')) r)) by (cbn; now rewrite H1).
  rewrite <- E1, <- E2. auto 8.
Qed.

(** ** Loading *)
Lemma adopt_own d s : own_arrays (ch_heap (ch_adopt d s)) (ch_ref (ch_adopt d s)).
Proof.
  unfold own_arrays, ch_adopt, halloc. cbn [length seq tl ch_with_ref ch_with_heap ch_heap ch_ref kr_w kr_fms].
  change (length (ch_heap s) :: seq (S (length (ch_heap s))) (length (kt_fms d))) with (seq (length (ch_heap s)) (S (length (kt_fms d)))).
  split; [apply seq_NoDup|]. apply Forall_forall. intros a Ha. apply in_seq in Ha. rewrite app_length. cbn [length]. lia.
Qed.
Lemma adopt_value d s : ch_value (ch_adopt d s) = d.
Proof.
  unfold ch_value, ch_adopt, halloc, kr_value. cbn [length seq tl ch_with_ref ch_with_heap ch_heap ch_ref kr_w kr_fms kr_rank].
  destruct d as [K Us w]. cbn [kt_rank kt_fms kt_w]. set (h := ch_heap s). f_equal.
  - apply (nth_ext _ _ (mk [] []) (mk [] [])); [now rewrite map_length, seq_length|].
    rewrite map_length, seq_length. intros k Hk. rewrite nth_indep with (d' := hread (h ++ w :: Us)%list 0) by (now rewrite map_length, seq_length).
    rewrite map_nth, seq_nth by auto. unfold hread. rewrite app_nth2 by lia.
    now replace (S (length h) + k - length h)%nat with (S k) by lia.
  - unfold hread. rewrite app_nth2, Nat.sub_diag by lia. reflexivity.
Qed.
Lemma load_view env cs f i d1 d2 : ds_view ch_view d1 d2 ->
  view_res ch_view (load_checkpoint (ch_model env cs) f i d1) (load_checkpoint (cp_model env cs) f i d2) /\
  forall d', load_checkpoint (ch_model env cs) f i d1 = (d', None) ->
    let h := ch_heap (ds_num d1) in let h' := ch_heap (ds_num d') in let r' := ch_ref (ds_num d') in
    own_arrays h' r' /\ (forall a, In a (kr_w r' :: kr_fms r') -> (length h <= a)%nat) /\
    forall a, (a < length h)%nat -> hread h' a = hread h a.
Proof.
  intros H. pose proof H as [H1 H2 H3 H4 H5 H6 H7]. unfold load_checkpoint.
  destruct (lookup "final_iteration" (g_attrs (f_root f))) as [fin|]; [|split; [now split|discriminate]].
  destruct (match i with Some z => Ok z | None => as_int fin end) as [it|e]; [|split; [now split|discriminate]].
  assert (HV : ds_view ch_view (with_it it d1) (with_it it d2)) by (constructor; auto).
  destruct (in_file (ckpt_name it) f); [|split; [now split|discriminate]].
  destruct (lookup (ckpt_name it) (f_groups f)) as [g|]; [|split; [now split|discriminate]].
  cbn [ch_model cp_model md_load md_check md_set ds_num with_it]. rewrite H1.
  destruct (do d <- kt_load g ; do _ <- cp_check cs (ch_view (ds_num d1)) d ; Ok d) as [d|e]; [|split; [now split|discriminate]].
  split.
  - split; [|reflexivity]. constructor; cbn [fst with_num with_it ds_num ds_it ds_max ds_rel ds_prev ds_logs ds_file]; auto.
    unfold ch_view at 2. now rewrite adopt_value.
  - intros d' E. injection E as <-. cbn [with_num ds_num]. cbn zeta. split; [apply adopt_own|].
    unfold ch_adopt, halloc. cbn [length seq tl ch_with_ref ch_with_heap ch_heap ch_ref kr_w kr_fms]. split.
    + intros a [<- | Ha]; [lia|]. apply in_seq in Ha. lia.
    + intros a Ha. unfold hread. now rewrite app_nth1.
Qed.
