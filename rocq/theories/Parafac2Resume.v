(** Continued and resumed runs of Parafac2_ALS (C77). *)
From Verif Require Export Parafac2Safe QualityFacts ResumeSpec.
Set Implicit Arguments.
Unset Strict Implicit.
Local Open Scope R_scope.

(** *** Reading and writing *)
Definition vals (s : p2_state) : list nd := map (hread (p2_heap s)) (addresses s).
Definition agree (a b : p2_state) : Prop := p2_X a = p2_X b /\ vals a = vals b.

Lemma agree_iff a b : agree a b <-> same_arrays a b.
Proof.
  unfold agree, vals, addresses. cbn [map]. split.
  - intros [H1 H2]. injection H2 as E1 E2 E3 E4. constructor; auto.
  - intros [H1 H2 H3 H4 H5]. split; [exact H1|]. unfold p2_A, p2_B, p2_C, p2_Ps in *. now rewrite H2, H3, H4, H5.
Qed.

Lemma write_vals s p v : separate s -> (p < length (addresses s))%nat ->
  vals (p2_with_heap (hwrite (p2_heap s) (nth p (addresses s) 0%nat) v) s) = replace_at p v (vals s).
Proof.
  intros [HN HR] Hp. unfold vals. cbn [p2_heap p2_with_heap]. change (addresses (p2_with_heap _ s)) with (addresses s).
  apply map_read_write; auto. rewrite Forall_forall in HR. apply HR. now apply nth_In.
Qed.

Lemma read_keeps h a b v n m : (a < length h)%nat -> wf v -> shape v = shape (hread h a) -> is_mat n m (hread h b) ->
  is_mat n m (hread (hwrite h a v) b).
Proof.
  intros Ha Hv Hs [H1 H2]. rewrite hread_write by auto. destruct (Nat.eqb_spec b a) as [->|_]; [|split; auto]. split; [exact Hv|congruence].
Qed.

Lemma ok_write K nI s p v : p2_ok K nI s -> (p < length (addresses s))%nat -> wf v ->
  shape v = shape (hread (p2_heap s) (nth p (addresses s) 0%nat)) ->
  p2_ok K nI (p2_with_heap (hwrite (p2_heap s) (nth p (addresses s) 0%nat) v) s).
Proof.
  intros H Hp Hv Hs. assert (Ha : (nth p (addresses s) 0%nat < length (p2_heap s))%nat).
  { pose proof (ok_range H) as HR. rewrite Forall_forall in HR. apply HR. now apply nth_In. }
  destruct H as [H1 H2 H3 H4 H5 H6 H7 H8 H9]. constructor; auto; cbn [p2_with_heap p2_heap p2_ref p2_X].
  - now rewrite length_hwrite.
  - now apply read_keeps.
  - now apply read_keeps.
  - now apply read_keeps.
  - intros k Hk. specialize (H7 k Hk). unfold p2_Ps in *. cbn [p2_with_heap p2_heap p2_ref].
    rewrite nth_map_read in H7 |- * by (now rewrite H6). now apply read_keeps.
Qed.
Lemma ok_separate K nI s : p2_ok K nI s -> separate s.
Proof. intros H. split; apply H. Qed.

Lemma agree_write a b p v : separate a -> separate b -> agree a b -> (p < length (addresses a))%nat ->
  agree (p2_with_heap (hwrite (p2_heap a) (nth p (addresses a) 0%nat) v) a)
        (p2_with_heap (hwrite (p2_heap b) (nth p (addresses b) 0%nat) v) b).
Proof.
  intros Ha Hb [H1 H2] Hp. split; [exact H1|].
  assert (El : length (addresses b) = length (addresses a)).
  { pose proof (f_equal (@length nd) H2) as E. unfold vals in E. now rewrite !map_length in E. }
  rewrite !write_vals; auto; [now rewrite H2|now rewrite El].
Qed.
Lemma agree_read a b p : agree a b -> (p < length (addresses a))%nat ->
  hread (p2_heap a) (nth p (addresses a) 0%nat) = hread (p2_heap b) (nth p (addresses b) 0%nat).
Proof.
  intros [_ H] Hp.
  assert (El : length (addresses b) = length (addresses a)).
  { pose proof (f_equal (@length nd) H) as E. unfold vals in E. now rewrite !map_length in E. }
  rewrite <- !nth_map_read by (rewrite ?El; auto). unfold vals in H. now rewrite H.
Qed.

Lemma factor_kept env cs c m : let c' := fst (cp_update_factor env cs c m) in
  cp_X c' = cp_X c /\ kt_rank (cp_dec c') = kt_rank (cp_dec c) /\ kt_w (cp_dec c') = kt_w (cp_dec c) /\
  cp_nn c' = cp_nn c /\ cp_orth c' = cp_orth c /\
  forall U, nth_error (kt_fms (cp_dec c')) m = Some U -> exists U0, nth_error (kt_fms (cp_dec c)) m = Some U0 /\
    (U = U0 \/ (wf U /\ shape U = shape U0)).
Proof.
  unfold cp_update_factor. destruct (do lhs <- _ ; _) as [[[V P] solve]|]; cbn [fst]; [|repeat (split; [reflexivity|]); eauto].
  destruct (solve V P) as [Z|]; cbn [bind fst]; [|cbn; repeat (split; [reflexivity|]); eauto].
  unfold list_get. destruct (nth_error (kt_fms (cp_dec c)) m) as [U0|] eqn:E0; cbn [bind].
  2:{ cbn. repeat (split; [reflexivity|]). rewrite E0. discriminate. }
  destruct (assign_full U0 Z) as [U'|] eqn:EA; cbn [bind fst]; [|cbn; repeat (split; [reflexivity|]); rewrite E0; eauto].
  cbn [cp_with_cache cp_with_dec cp_X cp_dec kt_with_factor kt_rank kt_w kt_fms cp_nn cp_orth].
  repeat (split; [reflexivity|]). intros U HU. exists U0. split; [auto|]. right.
  apply broadcast_into_shape in EA as [W1 W2].
  assert (Hm : (m < length (kt_fms (cp_dec c)))%nat) by (apply nth_error_Some; congruence).
  rewrite (nth_error_nth' _ m0) in HU by (now rewrite length_replace_at). rewrite nth_replace_at_eq in HU by auto.
  injection HU as <-. auto.
Qed.

Definition sim {St : Type} (Rel : St -> St -> Prop) (x y : St * option exn) : Prop := Rel (fst x) (fst y) /\ snd x = snd y.
Lemma run_all_sim {St A} (Rel : St -> St -> Prop) (f g : St -> A -> St * option exn) l :
  (forall x a b, Rel a b -> sim Rel (f a x) (g b x)) -> forall a b, Rel a b -> sim Rel (run_all f l a) (run_all g l b).
Proof.
  intros Hf. induction l as [|x l IH]; intros a b H; cbn [run_all]; [split; auto|].
  pose proof (Hf x a b H) as [H1 H2]. destruct (f a x) as [a' ea], (g b x) as [b' eb]. cbn [fst snd] in *. subst eb.
  destruct ea; [split; auto|]. now apply IH.
Qed.
Lemma and_then_sim {St} (R1 R2 : St -> St -> Prop) x y (f g : St -> St * option exn) : (forall a b, R1 a b -> R2 a b) ->
  sim R1 x y -> (forall a b, R1 a b -> sim R2 (f a) (g b)) -> sim R2 (and_then x f) (and_then y g).
Proof.
  intros HR [H1 H2] Hf. destruct x as [a ea], y as [b eb]. cbn [fst snd and_then] in *. subst eb.
  destruct ea; [split; cbn; auto|]. now apply Hf.
Qed.

Lemma set_slices nI Xs s : slices_ok nI Xs -> exists s', p2_set_target (Slices Xs) s = Ok s' /\ p2_X s' = Xs.
Proof.
  intros [Hne HX]. unfold p2_set_target, p2_X_shape. cbn [bind].
  assert (H0 : (0 < length Xs)%nat) by (destruct Xs; [congruence|cbn; lia]).
  rewrite (@list_get_ok _ Xs 0%nat m0 H0). cbn [bind]. pose proof (HX 0%nat H0) as HX0.
  unfold np_len. rewrite (proj2 HX0). cbn [bind].
  rewrite (@mapM_ok nd nat (fun Xk => shape_at Xk 1) ncols).
  - cbn [bind]. eexists. split; reflexivity.
  - intros X Hin. apply (In_nth _ _ m0) in Hin as (k & Hk & <-). unfold shape_at, ncols. now rewrite (proj2 (HX k Hk)).
Qed.

Section Resume.
Variables (env : p2_env) (ps : p2_settings) (K nI : nat).
Let ics := inner_settings ps.
Let cenv := pe_cp env.
Let md := p2_model env ps.
Hypothesis HK : ps_rank ps = K.

(** The inner decomposer works on the arrays of the decomposition with unit weights. *)
Record ready (s : p2_state) : Prop :=
  { rd_ok : p2_ok K nI s;
    rd_cpf : p2_cpf s = [pr_A (p2_ref s); pr_B (p2_ref s); pr_C (p2_ref s)];
    rd_rank : kt_rank (cp_dec (p2_inner s)) = K; rd_w : kt_w (cp_dec (p2_inner s)) = np_ones [K];
    rd_nn : cp_nn (p2_inner s) = Some (ps_nn ps); rd_orth : cp_orth (p2_inner s) = Some [false; false; false] }.
Definition twin (a b : p2_state) : Prop := ready a /\ ready b /\ agree a b.
Definition twin_in (a b : p2_state) : Prop := twin a b /\ cp_X (p2_inner a) = cp_X (p2_inner b).

Lemma ready_write s p v : ready s -> (p < length (addresses s))%nat -> wf v ->
  shape v = shape (hread (p2_heap s) (nth p (addresses s) 0%nat)) ->
  ready (p2_with_heap (hwrite (p2_heap s) (nth p (addresses s) 0%nat) v) s).
Proof. intros [H1 H2 H3 H4 H5 H6] Hp Hv Hs. constructor; auto. now apply ok_write. Qed.

Lemma twin_write a b p v : twin a b -> (p < length (addresses a))%nat -> wf v ->
  shape v = shape (hread (p2_heap a) (nth p (addresses a) 0%nat)) ->
  twin (p2_with_heap (hwrite (p2_heap a) (nth p (addresses a) 0%nat) v) a)
       (p2_with_heap (hwrite (p2_heap b) (nth p (addresses b) 0%nat) v) b).
Proof.
  intros (Ha & Hb & HA) Hp Hv Hs.
  assert (El : length (addresses b) = length (addresses a)).
  { pose proof (f_equal (@length nd) (proj2 HA)) as E. unfold vals in E. now rewrite !map_length in E. }
  split; [now apply ready_write|]. split.
  - apply ready_write; auto; [now rewrite El|]. now rewrite <- (agree_read HA Hp).
  - apply agree_write; auto; eapply ok_separate; [apply Ha|apply Hb].
Qed.

Lemma twin_projection k a b : twin a b -> sim twin (p2_update_projection env a k) (p2_update_projection env b k).
Proof.
  intros HT. pose proof HT as (Ha & Hb & HA). pose proof (proj1 (agree_iff a b) HA) as [E1 E2 E3 E4 E5].
  unfold p2_update_projection. assert (ET : p2_target b k = p2_target a k) by (unfold p2_target; now rewrite E2, E3, E4).
  rewrite ET, <- E1. destruct (p2_target a k) as [T|]; cbn [bind]; [|split; auto].
  destruct (list_get (p2_X a) k) as [Xk|]; cbn [bind]; [|split; auto].
  destruct (orthogonal_solve _ T Xk) as [Q|]; cbn [bind]; [|split; auto].
  pose proof (ok_nP (rd_ok Ha)) as La. pose proof (ok_nP (rd_ok Hb)) as Lb. rewrite <- E1 in Lb.
  destruct (Nat.lt_ge_cases k (length (p2_X a))) as [Hk|Hk].
  - rewrite (@list_get_ok _ (pr_P (p2_ref a)) k 0%nat) by (now rewrite La). rewrite (@list_get_ok _ (pr_P (p2_ref b)) k 0%nat) by (now rewrite Lb).
    cbn [bind]. change (nth k (pr_P (p2_ref a)) 0%nat) with (nth (3 + k) (addresses a) 0%nat).
    change (nth k (pr_P (p2_ref b)) 0%nat) with (nth (3 + k) (addresses b) 0%nat).
    assert (Hp : (3 + k < length (addresses a))%nat) by (cbn; rewrite La; lia).
    rewrite <- (agree_read HA Hp). destruct (assign_full _ _) as [P|] eqn:EA; cbn [bind]; [|split; auto].
    apply broadcast_into_shape in EA as [W1 W2]. split; [|reflexivity]. now apply twin_write.
  - assert (Hn : forall l : list nat, length l = length (p2_X a) -> list_get l k = Err IndexError).
    { intros l Hl. unfold list_get. rewrite (proj2 (nth_error_None l k)); [reflexivity|lia]. }
    rewrite !Hn by auto. cbn [bind]. split; auto.
Qed.

Lemma projected_same a b : agree a b -> p2_projected_X env ps a = p2_projected_X env ps b.
Proof. intros H. destruct (proj1 (agree_iff a b) H) as [E1 E2 E3 E4 E5]. unfold p2_projected_X. now rewrite E1, E2, E4, E5. Qed.

Lemma twin_retarget a b : twin a b -> sim twin_in (p2_retarget env ps a) (p2_retarget env ps b).
Proof.
  intros HT. pose proof HT as (Ha & Hb & HA). unfold p2_retarget. rewrite <- (projected_same HA).
  destruct (projected_ok env (rd_ok Ha) HK) as (PX & E & _). rewrite E. split; [|reflexivity]. cbn [fst].
  split; [|reflexivity]. split; [|split]; [destruct Ha as [[] ]; constructor; auto; constructor; auto|destruct Hb as [[] ]; constructor; auto; constructor; auto|].
  destruct HA as [A1 A2]. split; [exact A1|exact A2].
Qed.

Lemma ready_inner s c : ready s -> kt_rank (cp_dec c) = K -> kt_w (cp_dec c) = np_ones [K] -> cp_nn c = Some (ps_nn ps) ->
  cp_orth c = Some [false; false; false] -> ready (p2_with_inner c s).
Proof. intros [H1 H2 H3 H4 H5 H6] R1 R2 R3 R4. constructor; auto. destruct H1. constructor; auto. Qed.

Lemma twin_cp_update m a b : twin_in a b -> sim twin_in (p2_cp_update env ps a m) (p2_cp_update env ps b m).
Proof.
  intros [HT HX]. pose proof HT as (Ha & Hb & HA). unfold p2_cp_update. fold cenv ics.
  assert (HI : same_inputs (p2_view a) (p2_view b)).
  { destruct (proj1 (agree_iff a b) HA) as [E1 E2 E3 E4 E5]. constructor.
    - exact HX.
    - cbn. rewrite (rd_rank Ha), (rd_rank Hb), (rd_w Ha), (rd_w Hb), (rd_cpf Ha), (rd_cpf Hb). cbn.
      unfold p2_A, p2_B, p2_C in *. now rewrite E2, E3, E4.
    - cbn. now rewrite (rd_nn Ha), (rd_nn Hb).
    - cbn. now rewrite (rd_orth Ha), (rd_orth Hb). }
  destruct (@same_factor cenv ics (p2_view a) (p2_view b) m HI) as [HF He].
  pose proof (@factor_kept cenv ics (p2_view a) m) as Fa. pose proof (@factor_kept cenv ics (p2_view b) m) as Fb.
  destruct (cp_update_factor cenv ics (p2_view a) m) as [ca ea], (cp_update_factor cenv ics (p2_view b) m) as [cb eb].
  cbn [fst snd] in *. subst eb. destruct Fa as (A1 & A2 & A3 & A4 & A5 & A6), Fb as (B1 & B2 & B3 & B4 & B5 & _).
  cbn in A1, A2, A3, A4, A5, B1, B2, B3, B4, B5.
  assert (HT' : twin (p2_with_inner ca a) (p2_with_inner cb b)).
  { split; [|split].
    - apply ready_inner; auto; rewrite ?A2, ?A3, ?A4, ?A5; apply Ha.
    - apply ready_inner; auto; rewrite ?B2, ?B3, ?B4, ?B5; apply Hb.
    - destruct HA as [X1 X2]. split; [exact X1|exact X2]. }
  cbn [p2_with_inner p2_cpf]. rewrite (rd_cpf Ha), (rd_cpf Hb).
  destruct (Nat.lt_ge_cases m 3) as [Hm|Hm].
  2:{ rewrite !(proj2 (nth_error_None [_; _; _] m)) by (cbn; lia). split; [split; [exact HT'|exact (si_X HF)]|reflexivity]. }
  assert (Hp : forall s : p2_state, nth_error [pr_A (p2_ref s); pr_B (p2_ref s); pr_C (p2_ref s)] m = Some (nth m (addresses s) 0%nat)).
  { intros s. destruct m as [|[|[|m]]]; try reflexivity. lia. }
  rewrite !Hp. rewrite <- (si_dec HF).
  destruct (nth_error (kt_fms (cp_dec ca)) m) as [U|] eqn:EU; [|split; [split; [exact HT'|exact (si_X HF)]|reflexivity]].
  split; [|reflexivity]. cbn [fst]. split; [|exact (si_X HF)].
  assert (Hl : (m < length (addresses (p2_with_inner ca a)))%nat) by (cbn; lia).
  destruct (A6 U eq_refl) as (U0 & E0 & HU). cbn in E0. rewrite (rd_cpf Ha) in E0.
  assert (ER : U0 = hread (p2_heap a) (nth m (addresses a) 0%nat)).
  { rewrite nth_error_map, Hp in E0. cbn in E0. now injection E0 as <-. }
  assert (HW : wf U0).
  { rewrite ER. destruct (rd_ok Ha) as [_ _ P1 P2 P3 _ _ _ _]. destruct m as [|[|[|m]]]; [apply P1|apply P2|apply P3|lia]. }
  change (p2_with_heap (hwrite (p2_heap (p2_with_inner ca a)) (nth m (addresses a) 0%nat) U) (p2_with_inner ca a))
    with (p2_with_heap (hwrite (p2_heap (p2_with_inner ca a)) (nth m (addresses (p2_with_inner ca a)) 0%nat) U) (p2_with_inner ca a)).
  apply (@twin_write (p2_with_inner ca a) (p2_with_inner cb b) m U HT' Hl).
  - destruct HU as [->|[HU _]]; auto.
  - change (shape U = shape (hread (p2_heap a) (nth m (addresses a) 0%nat))). rewrite <- ER. destruct HU as [->|[_ HU]]; auto.
Qed.

Lemma twin_sweep a b : twin_in a b -> sim twin_in (p2_cp_sweep env ps a) (p2_cp_sweep env ps b).
Proof.
  intros H. unfold p2_cp_sweep. rewrite <- (proj2 H). apply run_all_sim; auto. intros m x y Hxy. now apply twin_cp_update.
Qed.

Lemma twin_scale a b : twin a b -> sim twin (p2_scale_B a) (p2_scale_B b).
Proof.
  intros HT. pose proof HT as (Ha & Hb & HA). unfold p2_scale_B.
  destruct (proj1 (agree_iff a b) HA) as [E1 E2 E3 E4 E5]. rewrite (rd_w Ha), (rd_w Hb), <- E3.
  destruct (broadcast_into Rmult (p2_B a) (np_ones [K])) as [B|] eqn:EB; [|split; auto].
  apply broadcast_into_shape in EB as [W1 W2]. split; [|reflexivity].
  apply (@twin_write a b 1%nat B HT); auto. cbn. lia.
Qed.

Lemma ones_unit n : np_map (fun x => x * 0 + 1) (np_ones [n]) = np_ones [n].
Proof.
  assert (H : is_vec n (np_ones [n])) by apply is_vec_ones.
  unfold np_map, np_ones, tab. cbn [shape data]. f_equal. rewrite map_map. apply map_ext. intros. lra.
Qed.
Lemma ones_entry n r : (r < n)%nat -> vget (np_ones [n]) r = 1.
Proof.
  intros Hr. unfold vget, np_ones. rewrite get_tab; auto. now apply valid1.
Qed.
Lemma twin_unit a b : twin a b -> sim twin (p2_unit_weights a, None) (p2_unit_weights b, None).
Proof.
  intros (Ha & Hb & HA). split; [|reflexivity]. cbn [fst].
  assert (H : forall s, ready s -> ready (p2_unit_weights s)).
  { intros s Hs. unfold p2_unit_weights. apply ready_inner; auto; cbn; try apply Hs. rewrite (rd_w Hs). apply ones_unit. }
  split; [auto|]. split; [auto|]. destruct HA as [X1 X2]. split; [exact X1|exact X2].
Qed.

Lemma twin_update a b : twin a b -> sim twin (p2_update env ps a) (p2_update env ps b).
Proof.
  intros HT. unfold p2_update. apply and_then_sim with (R1 := twin); auto.
  { unfold p2_update_projections. pose proof HT as (_ & _ & HA). rewrite <- (proj1 HA). apply run_all_sim; auto.
    intros k x y Hxy. now apply twin_projection. }
  clear a b HT. intros a b HT. apply and_then_sim with (R1 := twin_in); [intros ? ? []; auto|now apply twin_retarget|].
  clear a b HT. intros a b HT. apply and_then_sim with (R1 := twin_in); [intros ? ? []; auto| |].
  { apply run_all_sim; auto. intros _ x y Hxy. now apply twin_sweep. }
  clear a b HT. intros a b HT. apply and_then_sim with (R1 := twin); [auto|apply twin_scale, HT|].
  intros x y Hxy. now apply twin_unit.
Qed.

Lemma twin_after a b n : twin a b -> twin (state_after md a n) (state_after md b n).
Proof. intros H. apply related_after with (Rel := twin); auto. intros x y Hxy. apply (twin_update Hxy). Qed.
Lemma twin_refl s : ready s -> twin s s.
Proof. intros H. split; auto. split; auto. split; auto. Qed.
Lemma ready_after s n : ready s -> ready (state_after md s n).
Proof. intros H. apply (twin_after n (twin_refl H)). Qed.

Lemma twin_loss a b : twin a b -> md_loss md a = md_loss md b.
Proof.
  intros (Ha & Hb & HA). cbn [md p2_model md_loss]. destruct (proj1 (agree_iff a b) HA) as [E1 E2 E3 E4 E5].
  rewrite (p2_loss_ok ps (rd_ok Ha)), (p2_loss_ok ps (rd_ok Hb)), E1, E2, E3, E4, E5. reflexivity.
Qed.

(** *** Preparing *)
Hypothesis HO : no_orth ps.
Hypothesis HnI : (0 < nI)%nat.
Hypothesis HK0 : (0 < K)%nat.

Lemma prepare_ready s : p2_ok K nI s -> (0 < length (p2_X s))%nat ->
  exists s0, p2_prepare env ps s = (s0, None) /\ ready s0 /\ agree s0 s /\ p2_ref s0 = p2_ref s.
Proof.
  intros H HnX. destruct (rows3 (ok_A H) (ok_B H) (ok_C H)) as [HM Hrows].
  destruct (projected_ok env H HK) as (PX & EPX & HPX & HPs & HPe).
  unfold p2_prepare. rewrite (kt_init_mats_none HM) by discriminate. cbn [bind]. rewrite EPX. cbn [bind].
  set (k := {| kt_rank := K; kt_fms := [p2_A s; p2_B s; p2_C s]; kt_w := np_ones [K] |}).
  assert (HFac : factors_ok K PX (kt_fms k)) by (split; [exact HM|rewrite HPs; exact Hrows]).
  assert (HData : data_ok PX) by (split; auto; rewrite HPs; split; [cbn; lia|repeat constructor; lia]).
  set (ds := inner_start ps). set (d1 := with_num (cp_with_dec k (ds_num (targeted PX ds))) (targeted PX ds)).
  assert (E1 : cp_init_components cenv ics (fun _ => None) [] (DecArg k) (targeted PX ds) = (d1, None)).
  { apply init_precomputed; [reflexivity|]. cbn [ics inner_settings cs_rank]. rewrite HK. apply (factors_fit HFac). }
  assert (Hw : is_vec K (kt_w k)) by apply is_vec_ones.
  destruct (reset_weights_ok Hw) as [HW1 HW2].
  destruct (@init_fit_prepared cenv ics (fun _ => None) [] PX None (DecArg k) ds d1 E1) as (l & El).
  { cbn. destruct HO as [-> | ->]; cbn; auto. }
  { eexists. apply (@cp_SSE_ok cenv K). constructor; cbn; auto. discriminate. }
  change (cp_init_fit (pe_cp env) (inner_settings ps)) with (cp_init_fit cenv ics). rewrite El.
  set (c := ds_num (prepared None d1 l)).
  assert (Ho : cp_orth c = Some [false; false; false]).
  { unfold c. cbn. destruct HO as [-> | ->]; reflexivity. }
  rewrite Ho. cbn [nth rebind]. eexists. split; [reflexivity|]. split; [|split; [split; reflexivity|reflexivity]].
  constructor; auto.
  - destruct H. constructor; auto.
  - apply vec_ext with (n := K); [exact HW1|apply is_vec_ones|]. intros r Hr. rewrite HW2 by auto.
    symmetry. now apply ones_entry.
Qed.

Lemma twin_again s u : ready s -> (0 < length (p2_X s))%nat -> let s' := state_after md s u in
  exists t, p2_prepare env ps s' = (t, None) /\ twin t s' /\ p2_ref t = p2_ref s'.
Proof.
  intros Hs HX s'. pose proof (ready_after u Hs) as Hu. fold s' in Hu.
  assert (EX : p2_X s' = p2_X s) by apply (fr_X (after_frame env ps s u)).
  destruct (prepare_ready (rd_ok Hu)) as (t & Et & Ht & HA & Hr); [now rewrite EX|].
  exists t. split; [exact Et|]. split; [split; [exact Ht|split; auto]|exact Hr].
Qed.

(** *** Continuing *)
Lemma twin_stops cf p0 r0 s t u p r k : twin t (state_after md s u) ->
  prev_at md p0 s u = Ok p -> rel_at md p0 r0 s u = Ok r ->
  pf_stops md cf p r t k = pf_stops md cf p0 r0 s (u + k).
Proof.
  intros HT Hp Hr. assert (EL : forall j, loss_at md t j = loss_at md s (u + j)).
  { intros j. unfold loss_at. rewrite (twin_loss (twin_after j HT)). now rewrite state_after_add. }
  unfold pf_stops. f_equal. destruct k as [|k].
  - rewrite Nat.add_0_r. cbn [rel_at]. now rewrite Hr.
  - rewrite Nat.add_succ_r. cbn [rel_at]. rewrite EL, Nat.add_succ_r. f_equal.
    destruct k as [|k]; [rewrite Nat.add_0_r; cbn [prev_at]; now rewrite Hp|].
    rewrite Nat.add_succ_r. cbn [prev_at]. rewrite EL. now rewrite Nat.add_succ_r.
Qed.

Lemma pf_fit_end cf ds ds' s : md_prepare md (ds_num ds) = (s, None) -> pf_fit_loop md cf ds = (ds', None) ->
  let stops := pf_stops md cf (ds_prev ds) (ds_rel ds) s in
  let budget := Z.to_nat (ds_max ds - ds_it ds) in
  exists n, (n <= budget)%nat /\ ds_num ds' = state_after md s n /\ (forall k, (k < n)%nat -> stops k = Ok false) /\
    (n = budget \/ stops n = Ok true) /\ ds_it ds' = (ds_it ds + Z.of_nat n)%Z /\
    prev_at md (ds_prev ds) s n = Ok (ds_prev ds') /\ rel_at md (ds_prev ds) (ds_rel ds) s n = Ok (ds_rel ds').
Proof.
  cbn zeta. unfold pf_fit_loop. intros ->. cbn [ds_max ds_it with_num].
  set (ds0 := with_num s ds). replace (ds_prev ds) with (ds_prev ds0) by reflexivity.
  replace (ds_rel ds) with (ds_rel ds0) by reflexivity. replace s with (ds_num ds0) by reflexivity.
  replace (ds_it ds) with (ds_it ds0) by reflexivity. replace (ds_max ds) with (ds_max ds0) by reflexivity.
  destruct (pf_loop _ _ _ _) as [d1 e1] eqn:E. intros H.
  apply pf_loop_cases in E as (k & dk & Hk & HP & _ & E).
  pose proof (passes_state HP) as (I1 & I2 & _ & I4 & I5).
  assert (Hst : forall j, (j < k)%nat -> pf_stops md cf (ds_prev ds0) (ds_rel ds0) (ds_num ds0) j = Ok false).
  { intros j Hj. destruct (passes_stops HP Hj) as (dj & HPj & Hs). now rewrite <- (pf_stop_at HPj). }
  assert (HF : forall d, (if (cf_freq cf =? 0)%Z then (d, Some ZeroDivisionError)
      else if (negb ((ds_it d + 1) mod cf_freq cf =? 0) && (0 <? cf_freq cf))%Z then store_checkpoint md d else (d, None)) = (ds', None) ->
      ds_num ds' = ds_num d /\ ds_it ds' = ds_it d /\ ds_prev ds' = ds_prev d /\ ds_rel ds' = ds_rel d).
  { intros d. destruct (cf_freq cf =? 0)%Z; [discriminate|].
    destruct (negb ((ds_it d + 1) mod cf_freq cf =? 0) && (0 <? cf_freq cf))%Z.
    - intros E0. apply store_keeps in E0. tauto.
    - intros E0. now injection E0 as <-. }
  destruct E as [(-> & -> & ->)|[(-> & Hlt & Hs & ->)|(x & -> & Hlt & Hf)]].
  - destruct (HF dk H) as (F1 & F2 & F3 & F4). exists (Z.to_nat (ds_max ds0 - ds_it ds0)).
    rewrite F1, F2, F3, F4. repeat (split; [auto; fail|]). auto.
  - destruct (HF dk H) as (F1 & F2 & F3 & F4). exists k. rewrite F1, F2, F3, F4.
    assert (Hs' : pf_stops md cf (ds_prev ds0) (ds_rel ds0) (ds_num ds0) k = Ok true) by (now rewrite <- (pf_stop_at HP), Hs).
    repeat (split; [auto; fail|]). auto.
  - discriminate.
Qed.

Lemma first_stop (stops : nat -> res bool) budget n n' :
  (n <= budget)%nat -> (forall k, (k < n)%nat -> stops k = Ok false) -> (n = budget \/ stops n = Ok true) ->
  (n' <= budget)%nat -> (forall k, (k < n')%nat -> stops k = Ok false) -> (n' = budget \/ stops n' = Ok true) -> n = n'.
Proof.
  intros H1 H2 H3 H4 H5 H6. destruct (lt_eq_lt_dec n n') as [[Hlt|Heq]|Hlt]; auto.
  - destruct H3 as [->|H3]; [lia|]. rewrite (H5 n Hlt) in H3. discriminate.
  - destruct H6 as [->|H6]; [lia|]. rewrite (H2 n' Hlt) in H6. discriminate.
Qed.

Lemma continue_p2 cf ds n m d1 d2 d3 : p2_ok K nI (ds_num ds) -> (0 < length (p2_X (ds_num ds)))%nat ->
  (ds_it ds <= n <= m)%Z -> pf_fit_loop md cf (with_max n ds) = (d1, None) ->
  pf_continue_fit md cf (Some m) d1 = (d2, None) -> pf_fit_loop md cf (with_max m ds) = (d3, None) ->
  same_arrays (ds_num d2) (ds_num d3) /\ ds_it d2 = ds_it d3 /\ ds_prev d2 = ds_prev d3 /\ ds_rel d2 = ds_rel d3.
Proof.
  intros H HX Hnm E1 E2 E3. destruct (prepare_ready H HX) as (s0 & EP & HR & HA & _).
  destruct (@pf_fit_end cf (with_max n ds) d1 s0 EP E1) as (n1 & L1 & N1 & F1 & S1 & I1 & P1 & R1).
  destruct (@pf_fit_end cf (with_max m ds) d3 s0 EP E3) as (n3 & L3 & N3 & F3 & S3 & I3 & P3 & R3).
  cbn [with_max ds_num ds_max ds_it ds_prev ds_rel] in *.
  destruct (@twin_again s0 n1 HR) as (t & Et & HT & _); [now rewrite (proj1 HA)|]. fold md in HT, Et. rewrite <- N1 in Et.
  unfold pf_continue_fit in E2.
  destruct (@pf_fit_end cf (with_max m d1) d2 t Et E2) as (n2 & L2 & N2 & F2 & S2 & I2 & P2 & R2).
  cbn [with_max ds_num ds_max ds_it ds_prev ds_rel] in *.
  assert (EQ : forall k, pf_stops md cf (ds_prev d1) (ds_rel d1) t k = pf_stops md cf (ds_prev ds) (ds_rel ds) s0 (n1 + k)).
  { intros k. now apply twin_stops. }
  assert (En : (n1 + n2)%nat = n3).
  { apply (@first_stop (pf_stops md cf (ds_prev ds) (ds_rel ds) s0) (Z.to_nat (m - ds_it ds))); auto.
    - lia.
    - intros k Hk. destruct (Nat.lt_ge_cases k n1) as [Hk1|Hk1]; [auto|]. replace k with (n1 + (k - n1))%nat by lia.
      rewrite <- EQ. apply F2. lia.
    - destruct S2 as [->|S2]; [left; lia|right; now rewrite <- EQ]. }
  pose proof (twin_after n2 HT) as HT2. rewrite state_after_add, En, <- N3, <- N2 in HT2. destruct HT2 as (Ha & Hb & HA2).
  split; [now apply agree_iff|]. split; [lia|].
  assert (EPv : prev_at md (ds_prev d1) t n2 = prev_at md (ds_prev ds) s0 n3).
  { rewrite <- En. destruct n2 as [|j]; [rewrite Nat.add_0_r; cbn [prev_at]; now rewrite P1|]. rewrite Nat.add_succ_r. cbn [prev_at].
    unfold loss_at. rewrite (twin_loss (twin_after (S j) HT)). now rewrite state_after_add, Nat.add_succ_r. }
  assert (ERl : rel_at md (ds_prev d1) (ds_rel d1) t n2 = rel_at md (ds_prev ds) (ds_rel ds) s0 n3).
  { rewrite <- En. destruct n2 as [|j]; [rewrite Nat.add_0_r; cbn [rel_at]; now rewrite R1|].
    assert (EL : forall j, loss_at md t j = loss_at md s0 (n1 + j)).
    { intros i. unfold loss_at. rewrite (twin_loss (twin_after i HT)). now rewrite state_after_add. }
    rewrite Nat.add_succ_r. cbn [rel_at]. rewrite EL, Nat.add_succ_r. f_equal.
    destruct j as [|j]; [rewrite Nat.add_0_r; cbn [prev_at]; now rewrite P1|].
    rewrite Nat.add_succ_r. cbn [prev_at]. rewrite EL. now rewrite Nat.add_succ_r. }
  rewrite EPv in P2. rewrite ERl in R2. split; congruence.
Qed.

(** *** Resuming *)
Lemma adopt_ok s sB : p2_ok K nI s -> p2_X sB = p2_X s -> p2_ok K nI (p2_adopt (p2_value s) sB) /\ agree (p2_adopt (p2_value s) sB) s.
Proof.
  intros H EX. destruct (adopt_reads (p2_value s) sB) as (RA & RB & RC & RP). cbn [p2_value pf_ev ev_A ev_C pf_blueprint pf_P] in RA, RB, RC, RP.
  destruct (adopt_separate (p2_value s) sB) as [HN HR]. set (t := p2_adopt (p2_value s) sB) in *.
  assert (EXt : p2_X t = p2_X s) by exact EX.
  split; [|apply agree_iff; constructor; auto].
  destruct H as [H1 H2 H3 H4 H5 H6 H7 H8 H9]. constructor.
  - exact HR.
  - exact HN.
  - now rewrite RA.
  - now rewrite RB.
  - now rewrite RC, EXt.
  - rewrite EXt, <- H6. transitivity (length (p2_Ps t)); [unfold p2_Ps; now rewrite map_length|]. rewrite RP. unfold p2_Ps. now rewrite map_length.
  - intros k. rewrite RP, EXt. apply H7.
  - intros k. rewrite EXt. apply H8.
  - rewrite EXt. exact H9.
Qed.

Lemma value_checked s t : p2_ok K nI s -> p2_X t = p2_X s -> (0 < length (p2_X s))%nat -> p2_check ps t (p2_value s) = Ok tt.
Proof.
  intros H EX HX. destruct (p2_mats H) as (HM & HL & Hrows).
  assert (EB : ev_B (pf_ev (p2_value s)) = map (projected K K (p2_B s)) (p2_Ps s) ).
  { cbn [p2_value pf_ev ev_B]. now rewrite (projected_factor_ok (ok_B H) HM). }
  assert (HBk : forall P, In P (p2_Ps s) -> is_mat (nrows P) K (projected K K (p2_B s) P)).
  { intros P Hin. apply is_mat_tab2. }
  destruct (@p2_check_iff ps nI t (p2_value s)) as [HC _].
  - split; rewrite EX; [intros E; rewrite E in HX; cbn in HX; lia|apply H].
  - exists nI, K. apply H.
  - exists (length (p2_X s)), K. apply H.
  - intros B Hin. rewrite EB in Hin. apply in_map_iff in Hin as (P & <- & Hin). exists (nrows P), K. now apply HBk.
  - apply HC. rewrite HK, EX. split; [apply H|]. split; [apply H|]. rewrite EB, map_length, HL. intros k Hk _.
    rewrite (nth_indep _ m0 (projected K K (p2_B s) m0)) by (now rewrite map_length, HL). rewrite map_nth.
    rewrite <- (is_mat_nrows (ok_P H Hk)). apply HBk. apply nth_In. now rewrite HL.
Qed.

Lemma resumed_p2 disk draws Xs m ds f i s : slices_ok nI Xs -> p2_ok K nI s -> p2_X s = Xs ->
  stored_at md f i (p2_value s) -> final_attr f = Some (DInt i) ->
  exists d1, p2_init_fit env (p2_resuming ps) disk draws (Slices Xs) (Some m) (P2Path (Some f)) ds = (d1, None) /\
    p2_ok K nI (ds_num d1) /\ agree (ds_num d1) s /\ ds_it d1 = i /\ ds_max d1 = m /\ ds_logs d1 = ds_logs ds /\
    ds_file d1 = ds_file ds /\ ds_rel d1 = PInf /\ (exists sB, p2_X sB = Xs /\ ds_num d1 = p2_adopt (p2_value s) sB).
Proof.
  intros HX H EX Hst Hfin. destruct (@set_slices nI Xs (ds_num ds) HX) as (sB & ET & EXB).
  assert (HnX : (0 < length (p2_X s))%nat) by (rewrite EX; destruct HX as [Hne _]; destruct Xs; [congruence|cbn; lia]).
  destruct (@adopt_ok s sB H) as [HO1 HA1]; [congruence|].
  unfold p2_init_fit. cbn [ds_num with_it]. rewrite ET. unfold p2_init_components.
  change (lower (ps_init (p2_resuming ps))) with "from_checkpoint"%string. cbn [String.eqb Ascii.eqb Bool.eqb].
  set (dl := with_num sB (with_it 0%Z ds)).
  assert (EL : load_checkpoint (p2_model env (p2_resuming ps)) f None dl = (with_num (p2_adopt (p2_value s) sB) (with_it i dl), None)).
  { refine (@load_last _ _ (p2_model env (p2_resuming ps)) f i (p2_value s) dl Hst Hfin _).
    refine (@value_checked s sB H _ HnX). congruence. }
  rewrite EL. cbn [ds_num with_num with_max].
  change (p2_loss (p2_resuming ps)) with (p2_loss ps). rewrite (p2_loss_ok ps HO1).
  eexists. split; [reflexivity|]. cbn. repeat (split; [first [exact HO1|exact HA1|reflexivity]|]). exists sB. split; [exact EXB|reflexivity].
Qed.

Lemma resume_loop cf cf' ds1 dsB s0 u d2 d3 : p2_ok K nI (ds_num ds1) -> (0 < length (p2_X (ds_num ds1)))%nat ->
  p2_prepare env ps (ds_num ds1) = (s0, None) -> p2_ok K nI (ds_num dsB) -> agree (ds_num dsB) (state_after md s0 u) ->
  (ds_it ds1 <= ds_max ds1)%Z -> (ds_it dsB <= ds_max dsB)%Z ->
  (ds_max ds1 - ds_it ds1 = Z.of_nat u + (ds_max dsB - ds_it dsB))%Z ->
  pf_fit_loop md cf' dsB = (d2, None) -> ds_it d2 = ds_max dsB ->
  pf_fit_loop md cf ds1 = (d3, None) -> ds_it d3 = ds_max ds1 -> same_arrays (ds_num d2) (ds_num d3).
Proof.
  intros H HX EP HB HA L1 LB Hb E2 I2 E3 I3.
  destruct (prepare_ready H HX) as (s0' & EP' & HR & HA0 & _). rewrite EP in EP'. injection EP' as <-.
  assert (EX : p2_X (state_after md s0 u) = p2_X (ds_num ds1)) by (transitivity (p2_X s0); [apply (fr_X (after_frame env ps s0 u))|apply HA0]).
  destruct (@prepare_ready (ds_num dsB) HB) as (t & Et & Ht & HAt & _); [rewrite (proj1 HA), EX; exact HX|].
  destruct (@pf_fit_end cf ds1 d3 s0 EP E3) as (n3 & _ & N3 & _ & _ & J3 & _).
  destruct (@pf_fit_end cf' dsB d2 t Et E2) as (n2 & _ & N2 & _ & _ & J2 & _).
  assert (HT : twin t (state_after md s0 u)).
  { split; [exact Ht|]. split; [now apply ready_after|]. destruct HA as [A1 A2], HAt as [B1 B2]. split; congruence. }
  pose proof (twin_after n2 HT) as (_ & _ & HA2). rewrite state_after_add in HA2.
  replace (u + n2)%nat with n3 in HA2 by lia. rewrite N2, N3. now apply agree_iff.
Qed.
End Resume.

(** *** Whole fits *)
Lemma drawn_begins env ps K nI disk draws Xs arg ds : drawn_start env ps K nI draws Xs ->
  exists s1 l, p2_ok K nI s1 /\ ref_fits K nI s1 /\ p2_X s1 = Xs /\
    (exists s, p2_X s = Xs /\ p2_init_random env ps draws s = Ok s1) /\ forall max_its,
    p2_init_fit env ps disk draws (Slices Xs) max_its arg ds =
    (start s1 (Fin l) 0 (match max_its with Some m => m | None => ds_max ds end) (ds_logs ds) (ds_file ds), None).
Proof.
  intros [Hi _ HK [HnI HK0] HX HD Hqr Hw]. destruct (@set_slices nI Xs (ds_num ds) HX) as (s & ET & EX).
  destruct (@random_ok env ps K nI s draws HK HK0) as (s1 & Es1 & Hok & _ & EXs & _); rewrite ?EX; auto.
  assert (HnX : (0 < length Xs)%nat) by (destruct HX as [Hne _]; destruct Xs; [congruence|cbn; lia]).
  assert (HF : ref_fits K nI s1).
  { revert Es1. unfold p2_init_random. destruct draws as [|A [|C Ns]]; [discriminate|discriminate|].
    destruct (mapM _ Ns) as [Ps|]; [|discriminate]. cbn [bind].
    destruct (pf_init A _ _ Ps false) as [d|] eqn:Ed; [|discriminate]. cbn [bind]. intros E. injection E as <-.
    apply (adopt_fits Ed Hok). now rewrite EX. }
  eexists s1, _. split; [exact Hok|]. split; [exact HF|]. split; [congruence|]. split; [exists s; auto|]. intros max_its.
  unfold p2_init_fit. cbn [ds_num with_it]. rewrite ET. unfold p2_init_components. rewrite Hi.
  cbn [ds_num with_num String.eqb Ascii.eqb Bool.eqb]. rewrite Es1.
  set (d := match max_its with Some m => with_max m _ | None => _ end).
  assert (Ed : ds_num d = s1) by (unfold d; destruct max_its; reflexivity).
  rewrite Ed, (p2_loss_ok ps Hok). unfold d. destruct max_its; reflexivity.
Qed.

Lemma drawn_agree env ps draws s s' t t' : p2_init_random env ps draws s = Ok t -> p2_init_random env ps draws s' = Ok t' ->
  p2_X s = p2_X s' -> agree t t'.
Proof.
  unfold p2_init_random. destruct draws as [|A [|C Ns]]; [discriminate|discriminate|].
  destruct (mapM _ Ns) as [Ps|]; [|discriminate]. cbn [bind].
  destruct (pf_init A _ _ Ps false) as [d|] eqn:Ed; [|discriminate]. cbn [bind]. intros E E' EX. injection E as <-. injection E' as <-.
  destruct (adopt_reads d s) as (R1 & R2 & R3 & R4), (adopt_reads d s') as (Q1 & Q2 & Q3 & Q4).
  apply agree_iff. constructor; [exact EX|congruence|congruence|congruence|congruence].
Qed.

Section Interrupted.
Variables (env : p2_env) (ps : p2_settings) (K nI : nat).
Let md := p2_model env ps.

Lemma run_leaves_p2 cf ds1 f0 d1 a : drawn_settings ps K nI -> (0 < cf_freq cf)%Z ->
  p2_ok K nI (ds_num ds1) -> ref_fits K nI (ds_num ds1) -> (0 < length (p2_X (ds_num ds1)))%nat ->
  ds_file ds1 = Some f0 -> ready_file (classes_of (ds_logs ds1)) f0 ->
  (forall lg, In lg (ds_logs ds1) -> exists k, p2_code_logger ps k lg) ->
  (forall i, (0 <= i <= a)%Z -> ~ has_ckpt f0 i) -> (0 < a)%Z -> ds_it ds1 = 0%Z -> ds_max ds1 = a ->
  ((a + 1) mod cf_freq cf <> 0 \/ cf_freq cf <= a)%Z ->
  pf_fit_loop md cf ds1 = (d1, None) -> ds_it d1 = a ->
  exists f s0, p2_prepare env ps (ds_num ds1) = (s0, None) /\ ds_file d1 = Some f /\
    ds_num d1 = state_after md s0 (Z.to_nat a) /\
    let last := ((a + 1) mod cf_freq cf =? 0)%Z in
    let i := (if last then a - cf_freq cf else a)%Z in
    let u := Z.to_nat (if last then i + 1 else a)%Z in
    stored_at md f i (p2_value (state_after md s0 u)) /\ final_attr f = Some (DInt i).
Proof.
  intros (HK & HO & HnI & HK0) Hf H HF HX Hfile Hready Hlg Hun Ha Eit Emax Hor E1 Hit1.
  destruct (prepare_ready env HK HO HnI HK0 H HX) as (s0 & EP & HR & HA & Eref).
  destruct (@pf_run_lemma _ _ md cf ds1 s0 f0 d1 None Hf) as [K1 _]; auto.
  { left. exists "Parafac2_ALS"%string. reflexivity. }
  { apply (p2_kinds_plain Hlg). }
  { intros j. pose proof (ready_after env HK j HR) as Hj. pose proof (after_frame env ps s0 j) as FR.
    assert (EXj : p2_X (state_after md s0 j) = p2_X (ds_num ds1)) by (transitivity (p2_X s0); [apply (fr_X FR)|apply HA]).
    apply (p2_storable env ps (rd_ok Hj)).
    - apply (ref_fits_same (s := ds_num ds1)); auto. transitivity (p2_ref s0); [apply (fr_ref FR)|exact Eref].
    - change (0 < length (p2_X (state_after md s0 j)))%nat. rewrite EXj. exact HX. }
  { intros j Hj. apply Hun. lia. }
  destruct (K1 eq_refl) as (n & f & Hnum & Hit & Hcase & Hf' & _ & _ & HRun).
  rewrite Eit, Emax in *. assert (Hn : n = Z.to_nat a) by lia.
  exists f, s0. split; [exact EP|]. split; [exact Hf'|]. split; [now rewrite <- Hn|].
  replace (0 + Z.of_nat n)%Z with a in HRun by lia.
  destruct HRun as (R1 & R2 & _ & _ & R5). rewrite Z.add_0_l in R2. replace (Z.of_nat n) with a in R2 by lia.
  destruct ((a + 1) mod cf_freq cf =? 0)%Z eqn:Em; cbn [negb] in *; cbn zeta.
  - apply Z.eqb_eq in Em. destruct Hor as [Hor|Hor]; [congruence|]. set (i := (a - cf_freq cf)%Z).
    assert (Hi : (0 <= i < a)%Z) by (unfold i; lia).
    assert (Hmod : ((i + 1) mod cf_freq cf = 0)%Z).
    { unfold i. replace (a - cf_freq cf + 1)%Z with (a + 1 + (-1) * cf_freq cf)%Z by lia. rewrite Z_mod_plus_full. exact Em. }
    split.
    + specialize (R1 (Z.to_nat i) ltac:(lia)). rewrite Z.add_0_l, Z2Nat.id in R1 by lia.
      replace (Z.to_nat (i + 1)) with (S (Z.to_nat i)) by lia. now apply R1.
    + rewrite R5. unfold all_its. rewrite app_nil_r.
      assert (EN : n = (S (Z.to_nat i) + (Z.to_nat (cf_freq cf) - 1))%nat) by (unfold i in *; lia).
      assert (G : forall k, (k <= Z.to_nat (cf_freq cf) - 1)%nat ->
        periodic (cf_freq cf) 0 (S (Z.to_nat i) + k) = periodic (cf_freq cf) 0 (S (Z.to_nat i))).
      { induction k as [|k IH]; intros Hk; [now rewrite Nat.add_0_r|]. rewrite Nat.add_succ_r, periodic_S.
        assert (E0 : ((0 + Z.of_nat (S (Z.to_nat i) + k) + 1) mod cf_freq cf =? 0)%Z = false).
        { apply Z.eqb_neq. intros E. apply Z.mod_divide in E; [|lia]. apply Z.mod_divide in Hmod; [|lia].
          assert (D : (cf_freq cf | (0 + Z.of_nat (S (Z.to_nat i) + k) + 1) - (i + 1))%Z) by now apply Z.divide_sub_r.
          apply Z.divide_pos_le in D; lia. }
        rewrite E0. rewrite IH by lia. now rewrite app_nil_r. }
      rewrite EN, G by lia. rewrite periodic_S. rewrite Z.add_0_l, Z2Nat.id by lia. rewrite Hmod. cbn [Z.eqb].
      rewrite rev_app_distr. reflexivity.
  - split; [now rewrite <- Hn; apply R2|]. rewrite R5. unfold all_its. rewrite rev_app_distr. cbn [rev app]. do 2 f_equal. lia.
Qed.

Lemma interrupted_p2 cf cf' cf3 disk disk' disk3 draws draws' Xs arg arg3 ds dsB ds3 f0 f a m d1 d2 d3 :
  drawn_start env ps K nI draws Xs ->
  (forall lg, In lg (ds_logs ds) -> exists k, p2_code_logger ps k lg) ->
  (0 < cf_freq cf)%Z -> ds_file ds = Some f0 -> ready_file (classes_of (ds_logs ds)) f0 ->
  (forall i, (0 <= i <= a)%Z -> ~ has_ckpt f0 i) -> (0 < a < m)%Z ->
  let lost := ((a + 1) mod cf_freq cf =? 0)%Z in (lost = true -> (cf_freq cf <= a)%Z) ->
  let budget := (if lost then m + 1 else m)%Z in
  p2_fit env ps cf disk draws (Slices Xs) (Some a) arg ds = (d1, None) -> ds_it d1 = a -> ds_file d1 = Some f ->
  p2_fit env (p2_resuming ps) cf' disk' draws' (Slices Xs) (Some m) (P2Path (Some f)) dsB = (d2, None) -> ds_it d2 = m ->
  p2_fit env ps cf3 disk3 draws (Slices Xs) (Some budget) arg3 ds3 = (d3, None) -> ds_it d3 = budget ->
  same_arrays (ds_num d2) (ds_num d3).
Proof.
  intros HD Hlg Hf Hfile Hready Hun Ham lost Hlost budget E1 I1 F1 E2 I2 E3 I3.
  destruct (@drawn_begins env ps K nI disk draws Xs arg ds HD) as (s1 & l & Hok & HF & EX & (s & Es & Er) & EI).
  destruct (@drawn_begins env ps K nI disk3 draws Xs arg3 ds3 HD) as (s3 & l3 & Hok3 & HF3 & EX3 & (s' & Es' & Er') & EI3).
  pose proof (drawn_agree Er Er' (eq_trans Es (eq_sym Es'))) as HA13.
  assert (HS : drawn_settings ps K nI) by (destruct HD as [_ H1 H2 [H3 H4] _ _ _ _]; repeat (split; [assumption|]); assumption).
  pose proof HS as (HK & HO & HnI & HK0).
  assert (HnX : (0 < length Xs)%nat) by (destruct (dw_data HD) as [Hne _]; destruct Xs; [congruence|cbn; lia]).
  unfold p2_fit in E1, E3. rewrite EI in E1. rewrite EI3 in E3.
  destruct (@run_leaves_p2 cf (start s1 (Fin l) 0 a (ds_logs ds) (ds_file ds)) f0 d1 a HS Hf Hok HF) as (g & s0 & EP & Eg & En & Hst & Hfin); eauto; try lia.
  { cbn. now rewrite EX. }
  { destruct lost eqn:El; [right; auto|left; now apply Z.eqb_neq]. }
  assert (g = f) by congruence. subst g. cbn [start ds_num] in EP.
  fold lost in Hst, Hfin. set (i := (if lost then a - cf_freq cf else a)%Z) in *. set (u := Z.to_nat (if lost then i + 1 else a)%Z) in *.
  assert (HX1 : (0 < length (p2_X s1))%nat) by now rewrite EX.
  destruct (prepare_ready env HK HO HnI HK0 Hok HX1) as (s0' & EP' & HR & HA & _). rewrite EP in EP'. injection EP' as <-.
  pose proof (ready_after env HK u HR) as Hu.
  assert (EXu : p2_X (state_after md s0 u) = Xs) by (transitivity (p2_X s0); [apply (fr_X (after_frame env ps s0 u))|rewrite <- EX; apply HA]).
  destruct (@resumed_p2 env ps K nI HK HnI HK0 disk' draws' Xs m dsB f i _ (dw_data HD) (rd_ok Hu) EXu Hst Hfin)
    as (dB & EB & HokB & HAB & Eit & Emax & _).
  unfold p2_fit in E2. rewrite EB in E2. change (p2_model env (p2_resuming ps)) with md in E2.
  assert (HX3 : (0 < length (p2_X s3))%nat) by now rewrite EX3.
  destruct (prepare_ready env HK HO HnI HK0 Hok3 HX3) as (t0 & EP3 & HR3 & HA3 & _).
  assert (HT : twin ps K nI t0 s0).
  { split; [exact HR3|]. split; [exact HR|]. destruct HA3 as [B1 B2], HA as [B3 B4], HA13 as [B5 B6]. split; congruence. }
  pose proof (twin_after env HK u HT) as (_ & _ & HAu).
  assert (Hi : (0 <= i)%Z /\ (i < m)%Z) by (unfold i; destruct lost; [specialize (Hlost eq_refl)|]; lia).
  eapply (@resume_loop env ps K nI HK HO HnI HK0 cf3 cf' (start s3 (Fin l3) 0 budget (ds_logs ds3) (ds_file ds3)) dB t0 u d2 d3 Hok3 HX3 EP3 HokB); auto; cbn [start ds_it ds_max ds_num].
  - destruct HAB as [B1 B2], HAu as [B3 B4]. split; [exact (eq_trans B1 (eq_sym B3))|exact (eq_trans B2 (eq_sym B4))].
  - unfold budget. destruct lost; lia.
  - lia.
  - rewrite Emax, Eit. unfold budget, u, i in *. destruct lost; lia.
  - congruence.
Qed.
End Interrupted.

(** *** Unconstrained fits: everything completes *)
Lemma never_stops St D (md : model St D) cf p0 r0 s k : cf_tol cf <= 0 -> pf_stops md cf p0 r0 s k <> Ok true.
Proof.
  intros Ht. unfold pf_stops. destruct (rel_at md p0 r0 s k) as [r|]; cbn [bind]; [|discriminate]. intros E. injection E as E.
  destruct r as [r| | |]; cbn in E; try discriminate. destruct (Rlt_dec (Rabs r) (cf_tol cf)) as [Hl|]; [|discriminate].
  pose proof (Rabs_pos r). lra.
Qed.

Lemma resumed_fits K nI s sB : ref_fits K nI s -> p2_X sB = p2_X s -> ref_fits K nI (p2_adopt (p2_value s) sB).
Proof. intros [F1 F2 F3 F4] EX. constructor; change (p2_X (p2_adopt (p2_value s) sB)) with (p2_X sB); now rewrite ?EX. Qed.

Lemma plain_drawn env ps K nI draws Xs : plain_fit env ps K nI draws Xs -> wide K Xs -> drawn_start env ps K nI draws Xs.
Proof. intros [] HW. constructor; auto. Qed.

Lemma plain_whole env ps K nI cf disk draws Xs max_its arg ds :
  let budget := match max_its with Some m => m | None => ds_max ds end in
  plain_fit env ps K nI draws Xs -> plain_run ps cf budget ds -> wide K Xs -> cf_tol cf <= 0 ->
  exists ds', p2_fit env ps cf disk draws (Slices Xs) max_its arg ds = (ds', None) /\ ds_it ds' = budget.
Proof.
  intros budget [Hi Hnn Ho Hr Hrd [HnI HK] HX HD Hqr Hsvd HW] [Hb Hlg Hpr Hck] Hwide Ht.
  assert (HU : unconstrained ps) by (split; auto).
  destruct (@p2_random_completes env ps K nI cf disk draws Xs max_its arg ds Hi HU Hr Hrd HnI HK HX HD)
    as (ds1 & ds' & s0 & E1 & E & EP & H0 & HL & EX & En & H' & EX' & Hit & Hst); auto.
  exists ds'. split; [exact E|]. destruct (Z.eq_dec (ds_it ds') budget) as [|Hne]; [assumption|].
  exfalso. apply (@never_stops _ _ (p2_model env ps) cf (ds_prev ds1) PInf s0 (Z.to_nat (ds_it ds')) Ht). apply Hst. unfold budget in *. lia.
Qed.

Lemma plain_interrupted env ps K nI cf cf' cf3 disk disk' disk3 draws draws' Xs arg arg3 ds dsB ds3 a m :
  plain_fit env ps K nI draws Xs -> wide K Xs -> (0 < cf_freq cf)%Z -> (0 < a < m)%Z ->
  let lost := ((a + 1) mod cf_freq cf =? 0)%Z in (lost = true -> (cf_freq cf <= a)%Z) ->
  let budget := (if lost then m + 1 else m)%Z in
  plain_run ps cf a ds -> plain_run ps cf' m dsB -> plain_run ps cf3 budget ds3 ->
  cf_tol cf <= 0 -> cf_tol cf' <= 0 -> cf_tol cf3 <= 0 ->
  exists d1 f d2 d3,
    p2_fit env ps cf disk draws (Slices Xs) (Some a) arg ds = (d1, None) /\ ds_file d1 = Some f /\
    p2_fit env (p2_resuming ps) cf' disk' draws' (Slices Xs) (Some m) (P2Path (Some f)) dsB = (d2, None) /\
    p2_fit env ps cf3 disk3 draws (Slices Xs) (Some budget) arg3 ds3 = (d3, None) /\
    ds_it d2 = m /\ ds_it d3 = budget /\ same_arrays (ds_num d2) (ds_num d3).
Proof.
  intros HF HW Hf Ham lost Hlost budget R1 R2 R3 T1 T2 T3. pose proof (plain_drawn HF HW) as HD.
  destruct (@plain_whole env ps K nI cf disk draws Xs (Some a) arg ds HF R1 HW T1) as (d1 & E1 & I1). cbn in I1.
  destruct (@plain_whole env ps K nI cf3 disk3 draws Xs (Some budget) arg3 ds3 HF R3 HW T3) as (d3 & E3 & I3). cbn in I3.
  destruct (pn_ckpts R1) as [Hneg|(_ & f0 & Hfile & Hready & Hun)]; [lia|]. pose proof (pn_logs R1) as Hlg.
  destruct (@drawn_begins env ps K nI disk draws Xs arg ds HD) as (s1 & l & Hok & HFs & EX & _ & EI).
  pose proof E1 as E1'. unfold p2_fit in E1'. rewrite EI in E1'.
  assert (HS : drawn_settings ps K nI) by (destruct HD as [_ H1 H2 [H3 H4] _ _ _ _]; repeat (split; [assumption|]); assumption).
  pose proof HS as (HK & HO & HnI & HK0).
  assert (HnX : (0 < length Xs)%nat) by (destruct (dw_data HD) as [Hne _]; destruct Xs; [congruence|cbn; lia]).
  destruct (@run_leaves_p2 env ps K nI cf (start s1 (Fin l) 0 a (ds_logs ds) (ds_file ds)) f0 d1 a HS Hf Hok HFs)
    as (f & s0 & EP & Ef & _ & Hst & Hfin); eauto; try lia.
  { cbn. now rewrite EX. }
  { unfold lost in Hlost. destruct ((a + 1) mod cf_freq cf =? 0)%Z eqn:El; [right; auto|left; now apply Z.eqb_neq]. }
  cbn [start ds_num] in EP.
  fold lost in Hst, Hfin. set (i := (if lost then a - cf_freq cf else a)%Z) in *. set (u := Z.to_nat (if lost then i + 1 else a)%Z) in *.
  assert (HX1 : (0 < length (p2_X s1))%nat) by now rewrite EX.
  destruct (prepare_ready env HK HO HnI HK0 Hok HX1) as (s0' & EP' & HR & HA & Eref). rewrite EP in EP'. injection EP' as <-.
  pose proof (ready_after env HK u HR) as Hu. pose proof (after_frame env ps s0 u) as FR.
  set (su := state_after (p2_model env ps) s0 u) in *.
  assert (EXu : p2_X su = Xs) by (transitivity (p2_X s0); [apply (fr_X FR)|rewrite <- EX; apply HA]).
  assert (HFu : ref_fits K nI su).
  { apply (ref_fits_same (s := s1)); auto; [congruence|]. transitivity (p2_ref s0); [apply (fr_ref FR)|exact Eref]. }
  destruct (@resumed_p2 env ps K nI HK HnI HK0 disk' draws' Xs m dsB f i _ (dw_data HD) (rd_ok Hu) EXu Hst Hfin)
    as (dB & EB & HokB & HAB & Eit & Emax & Elog & Efile & _ & (sB & EXB & EsB)).
  assert (HFB : ref_fits K nI (ds_num dB)) by (rewrite EsB; apply resumed_fits; [exact HFu|congruence]).
  assert (EXdB : p2_X (ds_num dB) = Xs) by (rewrite (proj1 HAB); exact EXu).
  assert (Hi : (0 <= i <= m)%Z) by (unfold i; destruct lost; [specialize (Hlost eq_refl)|]; lia).
  destruct HF as [_ Hnn Ho Hr Hrd _ _ _ _ Hsvd HWk]. destruct R2 as [_ Hlg2 Hpr2 Hck2].
  destruct (@loop_completes env ps K nI cf' dB HokB HFB) as (d2 & t0 & n2 & E2 & _ & _ & J2 & L2 & C2 & _);
    rewrite ?EXdB, ?Eit, ?Emax, ?Elog; auto; try lia.
  { split; auto. }
  { rewrite Z.max_r by lia. destruct Hck2 as [Hn|(Hp & g & Hg & Hrest)]; [now left|right]. split; [exact Hp|]. exists g. rewrite Efile, Elog. auto. }
  assert (I2 : ds_it d2 = m).
  { rewrite Eit, Emax in *. destruct C2 as [C2|C2]; [lia|]. exfalso. revert C2. now apply never_stops. }
  assert (E2' : p2_fit env (p2_resuming ps) cf' disk' draws' (Slices Xs) (Some m) (P2Path (Some f)) dsB = (d2, None)).
  { unfold p2_fit. rewrite EB. exact E2. }
  exists d1, f, d2, d3. repeat (split; [assumption|]).
  apply (@interrupted_p2 env ps K nI cf cf' cf3 disk disk' disk3 draws draws' Xs arg arg3 ds dsB ds3 f0 f a m d1 d2 d3); auto.
Qed.

(** *** Records *)
Lemma pf_fit_logs St D (md : model St D) cf ds ds' s : md_prepare md (ds_num ds) = (s, None) -> pf_fit_loop md cf ds = (ds', None) ->
  Forall2 (grown md s (ds_it ds) (Z.to_nat (ds_it ds' - ds_it ds))) (ds_logs ds) (ds_logs ds').
Proof.
  unfold pf_fit_loop. intros ->. destruct (pf_loop _ _ _ _) as [d1 e1] eqn:E. intros H.
  apply pf_loop_cases in E as (k & dk & Hk & HP & _ & E).
  pose proof (passes_state HP) as (I1 & I2 & _). pose proof (passes_logs HP) as HL. cbn [with_num ds_num ds_it ds_logs] in *.
  assert (HH : exists b : bool, (if b then store_checkpoint md dk else (dk, None)) = (ds', None)).
  { destruct E as [(-> & -> & ->)|[(-> & Hlt & Hs & ->)|(x & -> & Hlt & Hff)]].
    - destruct (cf_freq cf =? 0)%Z; [discriminate|]. eexists; exact H.
    - destruct (cf_freq cf =? 0)%Z; [discriminate|]. eexists; exact H.
    - discriminate. }
  destruct HH as [b Hb]. destruct (final_keeps Hb) as (_ & K2 & _). rewrite K2, I2.
  replace (Z.to_nat _) with k by lia. destruct b.
  - unfold store_checkpoint in Hb. destruct (ds_file dk); [|discriminate].
    destruct (run_steps _ f) as [f' [x|]]; [discriminate|].
    destruct (store_logs (ds_logs dk) f') as [[l1 f2] e2] eqn:E2. injection Hb as <- _. cbn [ds_logs with_file with_logs].
    apply store_logs_same in E2. eapply Forall2_trans3; [|exact HL|exact E2].
    intros a b c (B1 & B2 & B3 & vs & B4 & B5) (C1 & C2 & C3 & C4). unfold grown. rewrite C1, C2, C3, C4. eauto 8.
  - injection Hb as <-. exact HL.
Qed.

Lemma prepare_norm env ps s s0 : p2_prepare env ps s = (s0, None) -> p2_norm s0 = p2_norm s.
Proof.
  unfold p2_prepare. destruct (bind _ _) as [c|]; [|discriminate]. destruct (rebind _ _) as [h cpf]. intros E. now injection E as <-.
Qed.

Lemma twin_loss' ps K nI a b : twin ps K nI a b -> p2_loss ps a = p2_loss ps b.
Proof.
  intros (Ha & Hb & HA). destruct (proj1 (agree_iff a b) HA) as [E1 E2 E3 E4 E5].
  now rewrite (p2_loss_ok ps (rd_ok Ha)), (p2_loss_ok ps (rd_ok Hb)), E1, E2, E3, E4, E5.
Qed.
Lemma twin_metric ps K nI k a b : twin ps K nI a b -> pr_num (p2_ref a) = pr_num (p2_ref b) -> p2_norm a = p2_norm b ->
  p2_metric ps k a = p2_metric ps k b.
Proof.
  intros (Ha & Hb & HA) En Eh.
  assert (ES : p2_SSE a = p2_SSE b).
  { destruct (proj1 (agree_iff a b) HA) as [E1 E2 E3 E4 E5]. now rewrite (p2_SSE_ok (rd_ok Ha)), (p2_SSE_ok (rd_ok Hb)), E1, E2, E3, E4, E5. }
  assert (EL' : p2_loss ps a = p2_loss ps b).
  { destruct (proj1 (agree_iff a b) HA) as [E1 E2 E3 E4 E5]. now rewrite (p2_loss_ok ps (rd_ok Ha)), (p2_loss_ok ps (rd_ok Hb)), E1, E2, E3, E4, E5. }
  destruct k; cbn [p2_metric]; unfold p2_RMSE, p2_explained, p2_MSE; now rewrite ?EL', ?ES, ?En, ?Eh.
Qed.

Lemma seq_shift_add a b n : seq (a + b) n = map (fun j => (a + j)%nat) (seq b n).
Proof. revert b. induction n as [|n IH]; intros b; cbn [seq map]; [reflexivity|]. now rewrite <- Nat.add_succ_r, IH. Qed.
Lemma its_of_add c n m : its_of c (n + m) = its_of c n ++ its_of (c + Z.of_nat n) m.
Proof.
  unfold its_of. rewrite seq_app, map_app. f_equal. rewrite Nat.add_0_l. rewrite <- (Nat.add_0_r n) at 1. rewrite seq_shift_add.
  rewrite map_map. apply map_ext. intros j. lia.
Qed.

Lemma continue_logs env ps K nI cf ds n m d1 d2 d3 : ps_rank ps = K -> no_orth ps -> (0 < nI)%nat -> (0 < K)%nat ->
  p2_ok K nI (ds_num ds) -> (0 < length (p2_X (ds_num ds)))%nat ->
  (ds_it ds <= n <= m)%Z -> pf_fit_loop (p2_model env ps) cf (with_max n ds) = (d1, None) ->
  pf_continue_fit (p2_model env ps) cf (Some m) d1 = (d2, None) -> pf_fit_loop (p2_model env ps) cf (with_max m ds) = (d3, None) ->
  (forall lg, In lg (ds_logs ds) -> exists k, p2_code_logger ps k lg) -> Forall2 same_record (ds_logs d2) (ds_logs d3).
Proof.
  intros HK HO HnI HK0 H HX Hnm E1 E2 E3 Hlg.
  destruct (@continue_p2 env ps K nI HK HO HnI HK0 cf ds n m d1 d2 d3 H HX Hnm E1 E2 E3) as (_ & Eit & _).
  set (md := p2_model env ps) in *.
  destruct (prepare_ready env HK HO HnI HK0 H HX) as (s0 & EP & HR & HA & _).
  destruct (@pf_fit_end env ps cf (with_max n ds) d1 s0 EP E1) as (n1 & _ & N1 & _ & _ & I1 & _).
  destruct (@pf_fit_end env ps cf (with_max m ds) d3 s0 EP E3) as (n3 & _ & N3 & _ & _ & I3 & _).
  destruct (@twin_again env ps K nI HK HO HnI HK0 s0 n1 HR) as (t & Et & HT & Er); [now rewrite (proj1 HA)|].
  fold md in HT, Et, Er, N1. rewrite <- N1 in Et. unfold pf_continue_fit in E2.
  destruct (@pf_fit_end env ps cf (with_max m d1) d2 t Et E2) as (n2 & _ & N2 & _ & _ & I2 & _).
  pose proof (@pf_fit_logs _ _ md cf (with_max n ds) d1 s0 EP E1) as L1.
  pose proof (@pf_fit_logs _ _ md cf (with_max m ds) d3 s0 EP E3) as L3.
  pose proof (@pf_fit_logs _ _ md cf (with_max m d1) d2 t Et E2) as L2.
  cbn [with_max ds_num ds_max ds_it ds_logs] in *.
  replace (Z.to_nat (ds_it d1 - ds_it ds)) with n1 in L1 by lia.
  replace (Z.to_nat (ds_it d2 - ds_it d1)) with n2 in L2 by lia.
  replace (Z.to_nat (ds_it d3 - ds_it ds)) with (n1 + n2)%nat in L3 by lia.
  assert (Hmet : forall k j, p2_metric ps k (state_after md t j) = p2_metric ps k (state_after md s0 (n1 + j))).
  { intros k j. pose proof (after_frame env ps t j) as F1. pose proof (after_frame env ps s0 n1) as F2.
    pose proof (after_frame env ps s0 (n1 + j)) as F3. fold md in F1, F2, F3.
    pose proof (twin_after env HK j HT) as HTj. fold md in HTj. rewrite state_after_add in HTj.
    apply (twin_metric k HTj).
    - rewrite (fr_ref F1), (fr_ref F3), Er, (fr_ref F2). reflexivity.
    - rewrite (fr_norm F1), (fr_norm F3), (prepare_norm Et), N1, (fr_norm F2). reflexivity. }
  clear - L1 L2 L3 Hlg Hmet I1. rewrite I1 in L2. clear I1.
  revert L2 L3 Hlg. generalize (ds_logs d2) as lc, (ds_logs d3) as ld.
  induction L1 as [|a b la lb H1 _ IH]; intros lc ld L2 L3 Hlg.
  - inversion L2; subst. inversion L3; subst. constructor.
  - inversion L2 as [|? c ? lc' H2 L2']; subst. inversion L3 as [|? d ? ld' H3 L3']; subst.
    constructor; [|apply IH; auto; intros lg Hin; apply Hlg; now right].
    destruct (Hlg a (or_introl eq_refl)) as (k & Ck & Mk).
    destruct H1 as (A1 & A2 & A3 & vs1 & A4 & A5), H2 as (B1 & B2 & B3 & vs2 & B4 & B5), H3 as (D1 & D2 & D3 & vs3 & D4 & D5).
    split; [congruence|]. split.
    + rewrite B3, A3, D3, its_of_add, app_assoc. reflexivity.
    + rewrite B4, A4, D4, <- app_assoc. f_equal. rewrite seq_app in D5. apply Forall2_app_inv_l in D5 as (u1 & u2 & U1 & U2 & ->).
      rewrite A2 in B5. rewrite Mk in A5, B5, U1, U2. f_equal.
      * clear - A5 U1. revert u1 U1. induction A5 as [|j v l vs Hv _ IH]; intros u1 U1; inversion U1; subst; [reflexivity|].
        f_equal; [congruence|auto].
      * rewrite Nat.add_0_l in U2. clear - B5 U2 Hmet. revert u2 U2. 
        assert (G : forall l vs u2, Forall2 (fun j v => p2_metric ps k (state_after md t (S j)) = Ok v) l vs ->
          Forall2 (fun j v => p2_metric ps k (state_after md s0 (S j)) = Ok v) (map (fun j => (n1 + j)%nat) l) u2 -> vs = u2).
        { intros l vs u2 HB. revert u2. induction HB as [|j v l vs Hv _ IH]; intros u2 HU; inversion HU; subst; [reflexivity|].
          f_equal; [|auto]. rewrite Hmet, Nat.add_succ_r in Hv. congruence. }
        intros u2 U2. apply (G _ _ _ B5). replace (map (fun j => (n1 + j)%nat) (seq 0 n2)) with (seq n1 n2); [exact U2|].
        rewrite <- (Nat.add_0_r n1) at 1. apply seq_shift_add.
Qed.

(** *** The whole-fit forms of continuing *)
Lemma values_matter env ps K nI a b : ps_rank ps = K -> no_orth ps -> (0 < nI)%nat -> (0 < K)%nat ->
  p2_ok K nI a -> p2_ok K nI b -> (0 < length (p2_X a))%nat -> same_arrays a b ->
  exists a0 b0, p2_prepare env ps a = (a0, None) /\ p2_prepare env ps b = (b0, None) /\ forall n,
    let a' := state_after (p2_model env ps) a0 n in let b' := state_after (p2_model env ps) b0 n in
    same_arrays a' b' /\ p2_loss ps a' = p2_loss ps b' /\ snd (p2_update env ps a') = snd (p2_update env ps b').
Proof.
  intros HK HO HnI HK0 Ha Hb HX HS. pose proof (sa_X HS) as EX.
  destruct (prepare_ready env HK HO HnI HK0 Ha HX) as (a0 & Ea & Ra & Aa & _). rewrite EX in HX.
  destruct (prepare_ready env HK HO HnI HK0 Hb HX) as (b0 & Eb & Rb & Ab & _).
  exists a0, b0. split; [exact Ea|]. split; [exact Eb|]. intros n a' b'.
  assert (HT : twin ps K nI a0 b0).
  { split; [exact Ra|]. split; [exact Rb|]. apply agree_iff in HS. destruct HS as [A1 A2], Aa as [B1 B2], Ab as [C1 C2]. split; congruence. }
  apply (twin_after env HK n) in HT. split; [now apply agree_iff, HT|]. split; [apply (twin_loss' HT)|].
  apply (twin_update env HK HT).
Qed.

Lemma continue_fit_p2 env ps K nI cf disk draws Xs arg ds n m d1 d2 d3 : drawn_start env ps K nI draws Xs -> (0 <= n <= m)%Z ->
  p2_fit env ps cf disk draws (Slices Xs) (Some n) arg ds = (d1, None) ->
  pf_continue_fit (p2_model env ps) cf (Some m) d1 = (d2, None) ->
  p2_fit env ps cf disk draws (Slices Xs) (Some m) arg ds = (d3, None) ->
  (forall lg, In lg (ds_logs ds) -> exists k, p2_code_logger ps k lg) ->
  same_arrays (ds_num d2) (ds_num d3) /\ ds_it d2 = ds_it d3 /\ ds_prev d2 = ds_prev d3 /\ ds_rel d2 = ds_rel d3 /\
    Forall2 same_record (ds_logs d2) (ds_logs d3).
Proof.
  intros HD Hnm E1 E2 E3 Hlg. destruct (@drawn_begins env ps K nI disk draws Xs arg ds HD) as (s1 & l & Hok & HF & EX & _ & EI).
  unfold p2_fit in E1, E3. rewrite EI in E1, E3.
  assert (HnX : (0 < length Xs)%nat) by (destruct (dw_data HD) as [Hne _]; destruct Xs; [congruence|cbn; lia]).
  destruct HD as [_ HO HK [HnI HK0] _ _ _ _].
  set (ds0 := start s1 (Fin l) 0 n (ds_logs ds) (ds_file ds)) in *.
  assert (HX : (0 < length (p2_X (ds_num ds0)))%nat) by (cbn; now rewrite EX).
  destruct (@continue_p2 env ps K nI HK HO HnI HK0 cf ds0 n m d1 d2 d3) as (Q1 & Q2 & Q3 & Q4); auto.
  repeat (split; [assumption|]).
  apply (@continue_logs env ps K nI cf ds0 n m d1 d2 d3); auto.
Qed.

Lemma kept_loggers ps md s c k (la lb : list (logger p2_state)) : Forall2 (@grown p2_state parafac2 md s c k) la lb ->
  (forall lg, In lg la -> exists k, p2_code_logger ps k lg) -> forall lg, In lg lb -> exists k, p2_code_logger ps k lg.
Proof.
  induction 1 as [|a b la lb (B1 & B2 & _) _ IH]; intros Hlg lg Hin; [destruct Hin|].
  destruct Hin as [<-|Hin]; [|apply IH; auto; intros x Hx; apply Hlg; now right].
  destruct (Hlg a (or_introl eq_refl)) as (k' & C1 & C2). exists k'. split; congruence.
Qed.

Lemma plain_continue env ps K nI cf disk draws Xs arg ds n m : plain_fit env ps K nI draws Xs -> wide K Xs -> (0 < n <= m)%Z ->
  plain_run ps cf m ds -> (cf_freq cf < 0)%Z ->
  exists d1 d2 d3,
    p2_fit env ps cf disk draws (Slices Xs) (Some n) arg ds = (d1, None) /\
    pf_continue_fit (p2_model env ps) cf (Some m) d1 = (d2, None) /\
    p2_fit env ps cf disk draws (Slices Xs) (Some m) arg ds = (d3, None) /\
    same_arrays (ds_num d2) (ds_num d3) /\ ds_it d2 = ds_it d3 /\ ds_prev d2 = ds_prev d3 /\ ds_rel d2 = ds_rel d3 /\
    Forall2 same_record (ds_logs d2) (ds_logs d3).
Proof.
  intros HF HW Hnm [Hb Hlg Hpr Hck] Hf. pose proof (plain_drawn HF HW) as HD.
  pose proof HF as [Hi Hnn Ho Hr Hrd [HnI HK] HX HDr Hqr Hsvd HWk].
  assert (HU : unconstrained ps) by (split; auto).
  assert (HnX : (0 < length Xs)%nat) by (destruct HX as [Hne _]; destruct Xs; [congruence|cbn; lia]).
  destruct (@drawn_begins env ps K nI disk draws Xs arg ds HD) as (s1 & l & Hok & HFs & EX & _ & EI).
  destruct (@loop_completes env ps K nI cf (start s1 (Fin l) 0 n (ds_logs ds) (ds_file ds)) Hok HFs)
    as (d1 & s0 & n1 & E1 & EP & En & Eit & Hle & _ & _ & _ & _ & _ & _ & _ & _ & Hok1 & EX1 & Er1);
    cbn [start ds_it ds_max ds_num ds_logs] in *; rewrite ?EX; auto; try lia.
  { now left. }
  pose proof (@pf_fit_logs _ _ (p2_model env ps) cf (start s1 (Fin l) 0 n (ds_logs ds) (ds_file ds)) d1 s0 EP E1) as HL.
  assert (Elog : forall lg, In lg (ds_logs d1) -> exists k, p2_code_logger ps k lg).
  { exact (kept_loggers HL Hlg). }
  assert (HF1 : ref_fits K nI (ds_num d1)) by (now apply (ref_fits_same EX1 Er1)).
  destruct (@loop_completes env ps K nI cf (with_max m d1)) as (d2 & _ & _ & E2 & _); cbn [with_max ds_it ds_num ds_logs]; rewrite ?EX1, ?EX; auto; try lia.
  { now left. }
  destruct (@plain_completes env ps K nI cf disk draws Xs (Some m) arg ds HF) as (d3 & _ & _ & E3 & _); auto.
  { constructor; auto. }
  assert (E1' : p2_fit env ps cf disk draws (Slices Xs) (Some n) arg ds = (d1, None)) by (unfold p2_fit; rewrite EI; exact E1).
  exists d1, d2, d3. split; [exact E1'|]. split; [exact E2|]. split; [exact E3|].
  apply (@continue_fit_p2 env ps K nI cf disk draws Xs arg ds n m d1 d2 d3 HD); auto. lia.
Qed.
