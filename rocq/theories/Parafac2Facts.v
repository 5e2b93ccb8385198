(** Lemmas about Parafac2_ALS. *)
From Verif Require Export Parafac2 Parafac2Spec CPFit EvolvingFacts.
Set Implicit Arguments.
Unset Strict Implicit.
Local Open Scope R_scope.

(** *** Heap *)
Lemma hread_write h a b v : (a < length h)%nat -> hread (hwrite h a v) b = if Nat.eqb b a then v else hread h b.
Proof.
  intros Ha. unfold hread, hwrite. destruct (Nat.eqb_spec b a) as [->|Hne].
  - now apply nth_replace_at_eq.
  - apply nth_replace_at_neq. auto.
Qed.
Lemma hread_write_other h a b v : b <> a -> hread (hwrite h a v) b = hread h b.
Proof. intros Hne. unfold hread, hwrite. apply nth_replace_at_neq. auto. Qed.
Lemma length_hwrite h a v : length (hwrite h a v) = length h.
Proof. apply length_replace_at. Qed.
Lemma hread_app h h' a : (a < length h)%nat -> hread (h ++ h')%list a = hread h a.
Proof. intros. unfold hread. now apply app_nth1. Qed.
Lemma hread_app_new h v a : hread (h ++ v)%list (length h + a) = nth a v (mk [] []).
Proof. unfold hread. rewrite app_nth2 by lia. f_equal. lia. Qed.

(** *** The shape of a well-formed state *)
Record p2_ok (K nI : nat) (s : p2_state) : Prop :=
  { ok_range : Forall (fun a => (a < length (p2_heap s))%nat) (pr_A (p2_ref s) :: pr_B (p2_ref s) :: pr_C (p2_ref s) :: pr_P (p2_ref s));
    ok_distinct : NoDup (pr_A (p2_ref s) :: pr_B (p2_ref s) :: pr_C (p2_ref s) :: pr_P (p2_ref s));
    ok_A : is_mat nI K (p2_A s);
    ok_B : is_mat K K (p2_B s);
    ok_C : is_mat (length (p2_X s)) K (p2_C s);
    ok_nP : length (pr_P (p2_ref s)) = length (p2_X s);
    ok_P : forall k, (k < length (p2_X s))%nat -> is_mat (width (p2_X s) k) K (nth k (p2_Ps s) m0);
    ok_X : forall k, (k < length (p2_X s))%nat -> is_mat nI (width (p2_X s) k) (nth k (p2_X s) m0);
    ok_shapes : length (pr_shapes (p2_ref s)) = length (p2_X s) }.

(** The same without the demand that the arrays are different objects *)
Record p2_shaped (K nI : nat) (s : p2_state) : Prop :=
  { sh_range : Forall (fun a => (a < length (p2_heap s))%nat) (pr_A (p2_ref s) :: pr_B (p2_ref s) :: pr_C (p2_ref s) :: pr_P (p2_ref s));
    sh_A : is_mat nI K (p2_A s);
    sh_B : is_mat K K (p2_B s);
    sh_C : is_mat (length (p2_X s)) K (p2_C s);
    sh_nP : length (pr_P (p2_ref s)) = length (p2_X s);
    sh_P : forall k, (k < length (p2_X s))%nat -> is_mat (width (p2_X s) k) K (nth k (p2_Ps s) m0);
    sh_X : forall k, (k < length (p2_X s))%nat -> is_mat nI (width (p2_X s) k) (nth k (p2_X s) m0);
    sh_shapes : length (pr_shapes (p2_ref s)) = length (p2_X s) }.

Lemma ok_shaped K nI s : p2_ok K nI s -> p2_shaped K nI s.
Proof. intros []. constructor; auto. Qed.

Lemma nth_map_read h l k : (k < length l)%nat -> nth k (map (hread h) l) m0 = hread h (nth k l 0%nat).
Proof.
  intros H. rewrite (nth_indep _ m0 (hread h 0%nat)) by (now rewrite map_length). apply map_nth.
Qed.


(** What a step leaves alone when it writes only to the addresses in [W] *)
Record frame (W : list nat) (s s' : p2_state) : Prop :=
  { fr_X : p2_X s' = p2_X s; fr_norm : p2_norm s' = p2_norm s; fr_ref : p2_ref s' = p2_ref s;
    fr_cpf : p2_cpf s' = p2_cpf s; fr_len : length (p2_heap s') = length (p2_heap s);
    fr_read : forall a, ~ In a W -> hread (p2_heap s') a = hread (p2_heap s) a }.
Lemma frame_refl W s : frame W s s.
Proof. constructor; auto. Qed.
Lemma frame_trans W s t u : frame W s t -> frame W t u -> frame W s u.
Proof.
  intros H1 H2. constructor; try (etransitivity; [apply H2|apply H1]; fail).
  intros b Ha. now rewrite (fr_read H2 Ha), (fr_read H1 Ha).
Qed.
Lemma frame_incl W W' s s' : incl W W' -> frame W s s' -> frame W' s s'.
Proof. intros HI H. constructor; try apply H. intros a Ha. apply H. intros Hin. apply Ha. auto. Qed.

Lemma frame_write W s a v : In a W -> frame W s (p2_with_heap (hwrite (p2_heap s) a v) s).
Proof.
  intros Ha. constructor; auto; cbn [p2_with_heap p2_heap].
  - apply length_hwrite.
  - intros b Hb. apply hread_write_other. congruence.
Qed.

Lemma run_all_frame {A} W (f : p2_state -> A -> p2_state * option exn) l :
  forall s s' e, (forall t a t' e, In a l -> frame W s t -> f t a = (t', e) -> frame W t t') ->
  run_all f l s = (s', e) -> frame W s s'.
Proof.
  induction l as [|a l IH]; intros s s' e Hf E; cbn [run_all] in E.
  - injection E as <- <-. apply frame_refl.
  - destruct (f s a) as [s1 [e1|]] eqn:E1.
    + injection E as <- <-. eapply Hf; eauto; [now left|apply frame_refl].
    + assert (H1 : frame W s s1) by (eapply Hf; eauto; [now left|apply frame_refl]).
      apply (frame_trans H1). apply (IH s1 s' e); auto.
      intros t b t' e' Hb Ht Et. apply (Hf t b t' e'); [now right| |auto]. eapply frame_trans; eauto.
Qed.

Lemma run_all_snoc {S A} (f : S -> A -> S * option exn) l : forall a s s1, run_all f l s = (s1, None) ->
  run_all f (l ++ [a]) s = f s1 a.
Proof.
  induction l as [|b l IH]; intros a s s1 E; cbn [run_all app] in *.
  - injection E as <-. destruct (f s a) as [t [e|]]; reflexivity.
  - destruct (f s b) as [t [e|]]; [discriminate|]. now apply IH.
Qed.

(** *** Projections *)
Section Updates.
Variables (env : p2_env) (ps : p2_settings).
Let svd := env_svd (pe_cp env).

Lemma target_ok K nI s k : p2_shaped K nI s -> (k < length (p2_X s))%nat ->
  exists T, p2_target s k = Ok T /\ is_mat nI K T /\
    forall i a, (i < nI)%nat -> (a < K)%nat ->
      mget T i a = sum K (fun r => mget (p2_C s) k r * mget (p2_A s) i r * mget (p2_B s) a r).
Proof.
  intros H Hk. unfold p2_target, np_len. pose proof (sh_C H) as HC. rewrite (proj2 HC). cbn [bind].
  destruct (Nat.ltb_spec k (length (p2_X s))); [|lia]. cbn [bind].
  unfold np_mul. rewrite (broadcast_vec_mat Rmult (is_vec_row HC Hk) (sh_A H)). cbn [bind].
  rewrite (matmul_ok (is_mat_tab2 _ _ _) (is_mat_transp (sh_B H))).
  eexists. split; [reflexivity|]. split; [apply is_mat_tab2|].
  intros i a Hi Ha. rewrite mget_tab2 by auto. apply sum_ext. intros r Hr.
  rewrite mget_tab2 by auto. rewrite (vget_row HC) by auto. now rewrite (mget_transp (sh_B H)) by auto.
Qed.

Lemma update_projection_ok K nI s k : p2_shaped K nI s -> (k < length (p2_X s))%nat ->
  (0 < K <= width (p2_X s) k)%nat -> svd_works_on (width (p2_X s) k) K svd ->
  untruncated svd (width (p2_X s) k) K (cross K nI (p2_A s) (p2_B s) (p2_C s) (p2_X s) k) ->
  exists P, p2_update_projection env s k = (p2_with_heap (hwrite (p2_heap s) (nth k (pr_P (p2_ref s)) 0%nat) P) s, None) /\
    is_mat (width (p2_X s) k) K P /\ orth_cols (width (p2_X s) k) K (mget P) /\
    forall Q, orth_cols (width (p2_X s) k) K Q ->
      slice_err K nI (p2_A s) (p2_B s) (p2_C s) (p2_X s) k (mget P) <=
      slice_err K nI (p2_A s) (p2_B s) (p2_C s) (p2_X s) k Q.
Proof.
  intros H Hk HK Hsvd Hunt. set (J := width (p2_X s) k) in *. set (X := nth k (p2_X s) m0).
  destruct (target_ok H Hk) as (T & ET & HT & HTe).
  pose proof (sh_X H Hk) as HX. fold J X in HX.
  destruct (Hsvd (tab2 J K (fun j a => sum nI (fun t => mget (transp X) j t * mget T t a))) (is_mat_tab2 _ _ _))
    as (U & Sv & Vh & ES & HS).
  destruct (@orthogonal_solve_ok svd nI K J T X U Sv Vh HT HX HK ES HS) as (Z & EZ & HZ & HO & Hopt).
  { eapply Hunt; [| |exact ES]; [apply is_mat_tab2|].
    intros j a Hj Ha. rewrite mget_tab2 by auto. unfold cross. fold X. apply sum_ext. intros i Hi.
    rewrite (mget_transp HX) by auto. now rewrite HTe. }
  unfold p2_update_projection. rewrite ET. cbn [bind]. rewrite (list_get_ok m0 Hk). cbn [bind]. fold X svd.
  rewrite EZ. cbn [bind]. rewrite (@list_get_ok _ _ k 0%nat) by (now rewrite (sh_nP H)). cbn [bind].
  pose proof (sh_P H Hk) as HP. fold J in HP. unfold p2_Ps in HP. rewrite nth_map_read in HP by (now rewrite (sh_nP H)).
  rewrite (assign_full_mat HP (is_mat_transp HZ)). cbn [bind].
  exists (transp Z). split; [reflexivity|]. split; [auto|].
  assert (Ht : forall j a, (j < J)%nat -> (a < K)%nat -> mget (transp Z) j a = mget Z a j).
  { intros j a Hj Ha. now rewrite (mget_transp HZ). }
  split.
  { intros a b Ha Hb. rewrite <- (HO a b Ha Hb). apply sum_ext. intros j Hj. now rewrite !Ht. }
  assert (Eerr : forall Q, slice_err K nI (p2_A s) (p2_B s) (p2_C s) (p2_X s) k Q =
                           dist2 nI J (mprod K (mget T) (fun a j => Q j a)) (mget X)).
  { intros Q. unfold slice_err. fold J X. apply dist2_ext; [|reflexivity]. intros i j Hi Hj.
    unfold pf_entry, mprod.
    transitivity (sum K (fun r => sum K (fun a => mget (p2_A s) i r * mget (p2_C s) k r * (Q j a * mget (p2_B s) a r)))).
    { apply sum_ext. intros r Hr. now rewrite <- sum_scal_l. }
    rewrite sum_swap. apply sum_ext. intros a Ha. rewrite HTe by auto. rewrite <- sum_scal_r.
    apply sum_ext. intros r Hr. ring. }
  intros Q HQ. rewrite !Eerr.
  specialize (Hopt (fun a j => Q j a) HQ).
  replace (dist2 nI J (mprod K (mget T) (fun a j => mget (transp Z) j a)) (mget X))
    with (dist2 nI J (mprod K (mget T) (mget Z)) (mget X)); [exact Hopt|].
  apply dist2_ext; [|reflexivity]. intros i j Hi Hj. apply mprod_ext; [reflexivity|]. intros a Ha. now rewrite Ht.
Qed.

(** Writing to one of the projections keeps the state well-formed. *)
Lemma ok_frame K nI s s' : p2_ok K nI s -> frame (pr_P (p2_ref s)) s s' ->
  (forall k, (k < length (p2_X s))%nat -> is_mat (width (p2_X s) k) K (nth k (p2_Ps s') m0)) ->
  p2_ok K nI s' /\ p2_A s' = p2_A s /\ p2_B s' = p2_B s /\ p2_C s' = p2_C s.
Proof.
  intros H HF HP. pose proof (ok_distinct H) as HD. inversion HD as [|? ? N1 HD1]; subst.
  inversion HD1 as [|? ? N2 HD2]; subst. inversion HD2 as [|? ? N3 HD3]; subst. cbn [In] in *.
  assert (EA : p2_A s' = p2_A s) by (unfold p2_A; rewrite (fr_ref HF); apply HF; tauto).
  assert (EB : p2_B s' = p2_B s) by (unfold p2_B; rewrite (fr_ref HF); apply HF; tauto).
  assert (EC : p2_C s' = p2_C s) by (unfold p2_C; rewrite (fr_ref HF); apply HF; tauto).
  split; auto. constructor; rewrite ?EA, ?EB, ?EC, ?(fr_ref HF), ?(fr_X HF), ?(fr_len HF); try apply H; auto.
Qed.

Definition solvable (K nI : nat) (s : p2_state) : Prop :=
  forall k, (k < length (p2_X s))%nat -> (0 < K <= width (p2_X s) k)%nat /\ svd_works_on (width (p2_X s) k) K svd /\
    untruncated svd (width (p2_X s) k) K (cross K nI (p2_A s) (p2_B s) (p2_C s) (p2_X s) k).

Lemma nodup_nth_P K nI s j k : p2_ok K nI s -> (j < length (p2_X s))%nat -> (k < length (p2_X s))%nat ->
  nth j (pr_P (p2_ref s)) 0%nat = nth k (pr_P (p2_ref s)) 0%nat -> j = k.
Proof.
  intros H Hj Hk E. pose proof (ok_distinct H) as HD. inversion HD as [|? ? N1 HD1]; subst.
  inversion HD1 as [|? ? N2 HD2]; subst. inversion HD2 as [|? ? N3 HD3]; subst.
  apply (proj1 (NoDup_nth (pr_P (p2_ref s)) 0%nat) HD3); auto; now rewrite (ok_nP H).
Qed.

Lemma projections_loop K nI s : p2_ok K nI s -> solvable K nI s -> forall n, (n <= length (p2_X s))%nat ->
  exists s', run_all (p2_update_projection env) (seq 0 n) s = (s', None) /\
    frame (pr_P (p2_ref s)) s s' /\ p2_inner s' = p2_inner s /\
    (forall k, (n <= k < length (p2_X s))%nat -> nth k (p2_Ps s') m0 = nth k (p2_Ps s) m0) /\
    forall k, (k < n)%nat -> is_mat (width (p2_X s) k) K (nth k (p2_Ps s') m0) /\
      orth_cols (width (p2_X s) k) K (mget (nth k (p2_Ps s') m0)) /\
      forall Q, orth_cols (width (p2_X s) k) K Q ->
        slice_err K nI (p2_A s) (p2_B s) (p2_C s) (p2_X s) k (mget (nth k (p2_Ps s') m0)) <=
        slice_err K nI (p2_A s) (p2_B s) (p2_C s) (p2_X s) k Q.
Proof.
  intros H HS. induction n as [|n IH]; intros Hn.
  - exists s. cbn. split; [reflexivity|]. split; [apply frame_refl|]. split; [reflexivity|]. split; [reflexivity|]. lia.
  - destruct IH as (s1 & E1 & HF1 & Hin1 & Hrest & Hdone); [lia|].
    assert (HP1 : forall k, (k < length (p2_X s))%nat -> is_mat (width (p2_X s) k) K (nth k (p2_Ps s1) m0)).
    { intros k Hk. destruct (Nat.lt_ge_cases k n) as [Hlt|Hge].
      - now apply Hdone.
      - rewrite Hrest by lia. now apply (ok_P H). }
    destruct (ok_frame H HF1 HP1) as (H1 & EA & EB & EC).
    destruct (HS n ltac:(lia)) as (HK & Hsvd & Hunt).
    destruct (@update_projection_ok K nI s1 n (ok_shaped H1)) as (P & EP & HPm & HPo & HPopt);
      rewrite ?EA, ?EB, ?EC, ?(fr_X HF1) in *; auto.
    rewrite (fr_ref HF1) in EP. set (a := nth n (pr_P (p2_ref s)) 0%nat) in *.
    assert (Ha : In a (pr_P (p2_ref s))) by (apply nth_In; rewrite (ok_nP H); lia).
    assert (Hra : (a < length (p2_heap s1))%nat).
    { rewrite (fr_len HF1). pose proof (ok_range H) as HR. rewrite Forall_forall in HR. apply HR. cbn [In]. tauto. }
    set (s2 := p2_with_heap (hwrite (p2_heap s1) a P) s1) in *.
    assert (Hread : forall k, (k < length (p2_X s))%nat -> nth k (p2_Ps s2) m0 = if Nat.eqb k n then P else nth k (p2_Ps s1) m0).
    { intros k Hk. unfold p2_Ps. change (p2_ref s2) with (p2_ref s1). rewrite (fr_ref HF1).
      rewrite !nth_map_read by (now rewrite (ok_nP H)). cbn [s2 p2_with_heap p2_heap].
      rewrite hread_write by auto. fold a. destruct (Nat.eqb_spec k n) as [->|Hne].
      - fold a. now rewrite Nat.eqb_refl.
      - destruct (Nat.eqb_spec (nth k (pr_P (p2_ref s)) 0%nat) a) as [E|]; [|reflexivity].
        exfalso. apply Hne. apply (nodup_nth_P H); auto. }
    exists s2. split.
    { rewrite seq_S, Nat.add_0_l. rewrite (run_all_snoc n E1). now rewrite EP. }
    split. { apply (frame_trans HF1). now apply frame_write. }
    split; [exact Hin1|]. split.
    + intros k Hk. rewrite Hread by lia. destruct (Nat.eqb_spec k n); [lia|]. apply Hrest. lia.
    + intros k Hk. rewrite Hread by lia. destruct (Nat.eqb_spec k n) as [->|]; [auto|]. apply Hdone. lia.
Qed.

Lemma projections_ok K nI s : p2_ok K nI s -> solvable K nI s ->
  exists s', p2_update_projections env s = (s', None) /\ p2_ok K nI s' /\
    frame (pr_P (p2_ref s)) s s' /\ p2_inner s' = p2_inner s /\
    p2_A s' = p2_A s /\ p2_B s' = p2_B s /\ p2_C s' = p2_C s /\
    forall k, (k < length (p2_X s))%nat -> is_mat (width (p2_X s) k) K (nth k (p2_Ps s') m0) /\
      orth_cols (width (p2_X s) k) K (mget (nth k (p2_Ps s') m0)) /\
      forall Q, orth_cols (width (p2_X s) k) K Q ->
        slice_err K nI (p2_A s) (p2_B s) (p2_C s) (p2_X s) k (mget (nth k (p2_Ps s') m0)) <=
        slice_err K nI (p2_A s) (p2_B s) (p2_C s) (p2_X s) k Q.
Proof.
  intros H HS. destruct (projections_loop H HS (le_n _)) as (s' & E & HF & Hin & _ & Hdone).
  destruct (ok_frame H HF) as (H' & EA & EB & EC); [intros k Hk; now apply Hdone|].
  exists s'. auto 10.
Qed.
End Updates.
