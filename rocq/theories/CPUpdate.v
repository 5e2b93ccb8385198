(** Lemmas about single-mode updates, whole iterations and fits of CP_ALS. *)
From Verif Require Export CPFacts FitSpec.
Set Implicit Arguments.
Unset Strict Implicit.
Local Open Scope R_scope.

Lemma broadcast_into_shape op a b c : broadcast_into op a b = Ok c -> wf c /\ shape c = shape a.
Proof.
  unfold broadcast_into, broadcast. destruct (bshape (shape a) (shape b)) as [sh|]; [|discriminate].
  destruct (list_eq_dec Nat.eq_dec sh (shape a)) as [->|]; [|discriminate].
  intros E. injection E as <-. split; [apply wf_tab|apply shape_tab].
Qed.

Lemma als_rhs_ok env K X Us m : data_ok X -> factors_ok K X Us -> (m < length (shape X))%nat ->
  exists P, als_rhs env X Us m = Ok P /\ is_mat (nth m (shape X) 0%nat) K P /\
    forall i r, (i < nth m (shape X) 0%nat)%nat -> (r < K)%nat -> mget P i r = normal_rhs X Us m i r.
Proof.
  intros HD [HU Hr] Hm. pose proof (mode_len Hr) as Hl. pose proof HD as (HX & H2 & _). unfold als_rhs.
  destruct (@mttkrp_ok (env_junk env) X Us K (Z.of_nat m) m) as (P & E & HP & Hent); auto.
  - now rewrite Hl.
  - unfold py_index. rewrite Hl. 
    destruct (Z.leb_spec 0 (Z.of_nat m)); [|lia].
    destruct (Z.ltb_spec (Z.of_nat m) (Z.of_nat (length (shape X)))); [|lia]. cbn. now rewrite Nat2Z.id.
  - now apply shape_nonzero.
  - lia.
  - rewrite E. cbn [bind not_none]. eauto.
Qed.

Lemma factors_ok_replace K X Us m U : factors_ok K X Us -> (m < length (shape X))%nat ->
  is_mat (nth m (shape X) 0%nat) K U -> factors_ok K X (with_factor m U Us).
Proof.
  intros [HU Hr] Hm HUm. assert (Hn : nrows U = nth m (shape X) 0%nat) by (unfold nrows; now rewrite (proj2 HUm)).
  split.
  - apply Forall_replace_at; auto. now rewrite Hn.
  - unfold rows, with_factor. rewrite map_replace_at. fold (rows Us). rewrite Hr, Hn. now apply replace_at_same.
Qed.

Lemma mttkrp_other X Us m U i r : mttkrp_entry X (replace_at m U Us) m i r = mttkrp_entry X Us m i r.
Proof. unfold mttkrp_entry. now rewrite remove_replace_at. Qed.

(** What a single-mode update leaves alone, whether it succeeds or raises. *)
Record same_problem (s s' : cp_state) : Prop :=
  { sp_X : cp_X s' = cp_X s; sp_norm : cp_norm s' = cp_norm s; sp_w : kt_w (cp_dec s') = kt_w (cp_dec s);
    sp_nn : cp_nn s' = cp_nn s; sp_orth : cp_orth s' = cp_orth s }.
Lemma same_problem_refl s : same_problem s s.
Proof. constructor; reflexivity. Qed.
Lemma same_problem_trans s t u : same_problem s t -> same_problem t u -> same_problem s u.
Proof. intros [] []. constructor; congruence. Qed.

Lemma coherent_cached K s m P : cp_coherent K s -> (m < length (shape (cp_X s)))%nat ->
  is_mat (nth m (shape (cp_X s)) 0%nat) K P ->
  (forall i r, (i < nth m (shape (cp_X s)) 0%nat)%nat -> (r < K)%nat ->
     mget P i r = mttkrp_entry (cp_X s) (kt_fms (cp_dec s)) m i r) ->
  cp_coherent K (cp_with_cache (Some m) (Some P) s).
Proof.
  intros H Hm HP He. constructor; try apply H. cbn. intros m' E. injection E as <-. split; auto. exists P. auto.
Qed.

Lemma coherent_factor K s m U C : cp_coherent K s -> (m < length (shape (cp_X s)))%nat ->
  cp_last s = Some m -> cp_cache s = Some C ->
  is_mat (nth m (shape (cp_X s)) 0%nat) K U ->
  cp_coherent K (cp_with_dec (kt_with_factor m U (cp_dec s)) s).
Proof.
  intros H Hm El Ec HU. constructor; try apply H.
  - cbn. now apply factors_ok_replace; [apply H| |].
  - cbn. intros m' E. rewrite El in E. injection E as <-. split; auto.
    destruct (co_cache H El) as (_ & C' & EC & HC & HCe). exists C'. split; auto. split; auto.
    intros i r Hi Hr. rewrite mttkrp_other. auto.
Qed.

Lemma update_coherent env cs K s m s' e : cp_coherent K s -> (m < length (shape (cp_X s)))%nat ->
  cp_update_factor env cs s m = (s', e) -> cp_coherent K s' /\ same_problem s s'.
Proof.
  intros H Hm E. unfold cp_update_factor in E.
  destruct (als_rhs_ok env (co_data H) (co_fac H) Hm) as (P & EP & HP & HPe).
  destruct (als_lhs cs (kt_fms (cp_dec s)) m) as [V|e0]; cbn [bind] in E.
  2:{ injection E as <- <-. split; auto. apply same_problem_refl. }
  rewrite EP in E. cbn [bind] in E.
  destruct (get_rightsolve env cs (cp_nn s) (cp_orth s) m) as [solve|e0]; cbn [bind] in E.
  2:{ injection E as <- <-. split; auto. apply same_problem_refl. }
  pose proof (coherent_cached H Hm HP HPe) as HC.
  destruct (solve V P) as [Z|e0]; cbn [bind] in E.
  2:{ injection E as <- <-. split; auto. constructor; reflexivity. }
  rewrite (@list_get_nth _ _ m m0) in E by (rewrite (coherent_len H); auto). cbn [bind] in E.
  destruct (assign_full (nth m (kt_fms (cp_dec s)) m0) Z) as [U'|e0] eqn:EA.
  2:{ injection E as <- <-. split; auto. constructor; reflexivity. }
  injection E as <- <-. apply broadcast_into_shape in EA as [HU1 HU2].
  rewrite (proj2 (rows_nth (co_fac H) Hm)) in HU2. split; [|constructor; reflexivity].
  apply (@coherent_factor K (cp_with_cache (Some m) (Some P) s) m U' P); auto. split; auto.
Qed.

Lemma modes_coherent env cs K l : forall s s' e, cp_coherent K s ->
  Forall (fun m => (m < length (shape (cp_X s)))%nat) l ->
  cp_update_modes env cs l s = (s', e) -> cp_coherent K s' /\ same_problem s s'.
Proof.
  induction l as [|m l IH]; intros s s' e H Hl E; cbn [cp_update_modes] in E.
  - injection E as <- <-. split; auto. apply same_problem_refl.
  - inversion Hl as [|? ? Hm Hl']; subst.
    destruct (cp_update_factor env cs s m) as [s1 e1] eqn:E1.
    destruct (update_coherent H Hm E1) as [H1 HS1].
    destruct e1 as [e1|].
    + injection E as <- <-. auto.
    + destruct (IH s1 s' e) as [H2 HS2]; auto; [now rewrite (sp_X HS1)|].
      split; auto. eapply same_problem_trans; eauto.
Qed.

Lemma ridge_fold K Us lams : mats K Us -> forall l,
  fold_left (fun l '(lam, U) => l + lam * norm U ^ 2) (combine lams Us) l = l + ridge_terms lams Us.
Proof.
  intros HU. revert lams. induction HU as [|U Us HU0 HU IH]; intros [|lam lams] l; cbn [combine fold_left];
    try (unfold ridge_terms; cbn; ring).
  rewrite IH. unfold ridge_terms. cbn [combine sumf fst snd].
  rewrite norm_pow2, (norm2_mat HU0). unfold frob2, ncols. rewrite (proj2 HU0). cbn [nth].
  rewrite <- Rplus_assoc. do 2 f_equal. f_equal. apply sum_ext. intros. apply sum_ext. intros. ring.
Qed.

(** *** Unconstrained updates *)
Definition free_mode (cs : cp_settings) (s : cp_state) (m : nat) : Prop :=
  cs_ridge cs = None /\
  (exists l, cp_nn s = Some l /\ nth_error l m = Some false) /\
  (exists l, cp_orth s = Some l /\ nth_error l m = Some false).

Lemma free_rightsolve env cs s m : free_mode cs s m ->
  get_rightsolve env cs (cp_nn s) (cp_orth s) m = Ok (rightsolve (env_svd env)).
Proof.
  intros (Hr & (l1 & E1 & E2) & (l2 & E3 & E4)). unfold get_rightsolve.
  rewrite E1, E3. cbn [not_none bind]. unfold list_get. rewrite E2, E4. cbn [bind]. now rewrite Hr.
Qed.

Lemma with_factor_self m Us : (m < length Us)%nat -> with_factor m (nth m Us m0) Us = Us.
Proof. intros. now apply replace_at_same. Qed.

(** The update with a solver that returns a matrix of the right shape *)
Lemma update_with_solver env cs K s m V P solve Z :
  cp_coherent K s -> (m < length (shape (cp_X s)))%nat ->
  als_lhs cs (kt_fms (cp_dec s)) m = Ok V -> als_rhs env (cp_X s) (kt_fms (cp_dec s)) m = Ok P ->
  get_rightsolve env cs (cp_nn s) (cp_orth s) m = Ok solve ->
  solve V P = Ok Z -> is_mat (nth m (shape (cp_X s)) 0%nat) K Z ->
  exists s', cp_update_factor env cs s m = (s', None) /\
    kt_fms (cp_dec s') = with_factor m Z (kt_fms (cp_dec s)) /\
    cp_last s' = Some m /\ cp_cache s' = Some P /\ same_problem s s' /\ cp_coherent K s'.
Proof.
  intros H Hm EV EP ES EZ HZ. unfold cp_update_factor. rewrite EV, EP, ES. cbn [bind]. rewrite EZ. cbn [bind].
  rewrite (@list_get_nth _ _ m m0) by (rewrite (coherent_len H); auto). cbn [bind].
  rewrite (assign_full_mat (rows_nth (co_fac H) Hm) HZ).
  eexists. split; [reflexivity|]. split; [reflexivity|]. split; [reflexivity|]. split; [reflexivity|].
  split; [constructor; reflexivity|].
  destruct (als_rhs_ok env (co_data H) (co_fac H) Hm) as (P' & EP' & HP & HPe).
  rewrite EP in EP'. injection EP' as <-.
  apply (@coherent_factor K (cp_with_cache (Some m) (Some P) s) m Z P); auto. now apply coherent_cached.
Qed.

Definition unit_w (K : nat) (s : cp_state) : Prop := forall r, (r < K)%nat -> vget (kt_w (cp_dec s)) r = 1.
Lemma sse_ext X Us w w' K : (forall r, (r < K)%nat -> w r = w' r) -> sse X Us w K = sse X Us w' K.
Proof.
  intros H. unfold sse. apply sumf_ext. intros idx _. do 2 f_equal. unfold cp_entry. apply sum_ext.
  intros r Hr. now rewrite H.
Qed.
Lemma unit_sse K s : unit_w K s ->
  sse (cp_X s) (kt_fms (cp_dec s)) (vget (kt_w (cp_dec s))) K = sse (cp_X s) (kt_fms (cp_dec s)) unit_weights K.
Proof. intros H. apply sse_ext. exact H. Qed.

Lemma update_optimal env cs K s m :
  cp_coherent K s -> cs_rank cs = K -> (m < length (shape (cp_X s)))%nat -> free_mode cs s m ->
  svd_works_on K K (env_svd env) ->
  exists s' Z, cp_update_factor env cs s m = (s', None) /\ is_mat (nth m (shape (cp_X s)) 0%nat) K Z /\
    kt_fms (cp_dec s') = with_factor m Z (kt_fms (cp_dec s)) /\ same_problem s s' /\ cp_coherent K s' /\
    forall Z', sse (cp_X s) (with_factor m Z (kt_fms (cp_dec s))) unit_weights K <=
               sse (cp_X s) (with_factor m Z' (kt_fms (cp_dec s))) unit_weights K.
Proof.
  intros H HK Hm Hfree Hsvd. pose proof (co_fac H) as HF. pose proof HF as [HU Hr].
  destruct (als_rhs_ok env (co_data H) HF Hm) as (P & EP & HP & HPe).
  destruct (als_lhs_ok m HU HK) as (V & EV & HV & HVe).
  destruct (Hsvd V HV) as (U & Sv & Vh & ES & HS).
  destruct (rightsolve_ok HV HP ES HS) as (Z & EZ & HZ & Hnormal & _).
  destruct (update_with_solver H Hm EV EP (free_rightsolve env Hfree) EZ HZ)
    as (s' & Es & Hfm & _ & _ & HSP & HC).
  exists s', Z. split; auto. split; auto. split; auto. split; auto. split; auto.
  intros Z'. rewrite !(mode_sse K Hr Hm). apply gram_optimal.
  intros i a Hi Ha. rewrite <- (Hnormal i a Hi Ha). apply sum_ext. intros j Hj.
  rewrite mode_gV by auto. rewrite HVe by auto. f_equal. rewrite mode_gM by auto. rewrite HPe by auto. f_equal.
  unfold mprod. apply sum_ext. intros k Hk. rewrite mode_gV by auto. now rewrite HVe.
Qed.

(** One iteration *)
Definition free_fit (cs : cp_settings) (s : cp_state) : Prop :=
  forall m, (m < length (shape (cp_X s)))%nat -> free_mode cs s m.

Lemma free_fit_same cs s s' : same_problem s s' -> free_fit cs s -> free_fit cs s'.
Proof.
  intros HS H m Hm. rewrite (sp_X HS) in Hm. destruct (H m Hm) as (A & B & C).
  unfold free_mode. rewrite (sp_nn HS), (sp_orth HS). auto.
Qed.
Lemma unit_w_same K s s' : same_problem s s' -> unit_w K s -> unit_w K s'.
Proof. intros HS H r Hr. rewrite (sp_w HS). auto. Qed.

Lemma modes_decrease env cs K l : svd_works_on K K (env_svd env) -> cs_rank cs = K ->
  forall s, cp_coherent K s -> free_fit cs s ->
  Forall (fun m => (m < length (shape (cp_X s)))%nat) l ->
  exists s', cp_update_modes env cs l s = (s', None) /\ cp_coherent K s' /\ same_problem s s' /\
    sse (cp_X s) (kt_fms (cp_dec s')) unit_weights K <= sse (cp_X s) (kt_fms (cp_dec s)) unit_weights K.
Proof.
  intros Hsvd HK. induction l as [|m l IH]; intros s H Hfree Hl.
  - exists s. split; [reflexivity|]. split; auto. split; [apply same_problem_refl|lra].
  - inversion Hl as [|? ? Hm Hl']; subst.
    destruct (update_optimal H eq_refl Hm (Hfree m Hm) Hsvd) as (s1 & Z & E1 & HZ & Hfm & HS1 & HC1 & Hopt).
    destruct (IH s1) as (s2 & E2 & HC2 & HS2 & Hle2); auto.
    { now apply (free_fit_same HS1). } { now rewrite (sp_X HS1). }
    exists s2. cbn [cp_update_modes]. rewrite E1, E2. split; auto. split; auto.
    split; [eapply same_problem_trans; eauto|].
    rewrite (sp_X HS1) in Hle2. eapply Rle_trans; [exact Hle2|]. rewrite Hfm.
    specialize (Hopt (nth m (kt_fms (cp_dec s)) m0)). rewrite with_factor_self in Hopt; auto.
    rewrite (coherent_len H). auto.
Qed.

Lemma all_modes s : Forall (fun m => (m < length (shape (cp_X s)))%nat) (seq 0 (ndim (cp_X s))).
Proof. apply Forall_forall. intros m Hm. apply in_seq in Hm. unfold ndim in Hm. lia. Qed.

Lemma iterations_decrease env cs K : svd_works_on K K (env_svd env) -> cs_rank cs = K ->
  forall s, cp_coherent K s -> free_fit cs s -> forall n,
  let s1 := state_after (cp_model env cs) s n in let s2 := state_after (cp_model env cs) s (S n) in
  cp_coherent K s1 /\ same_problem s s1 /\ snd (cp_update_factors env cs s1) = None /\ cp_coherent K s2 /\
  sse (cp_X s) (kt_fms (cp_dec s2)) unit_weights K <= sse (cp_X s) (kt_fms (cp_dec s1)) unit_weights K.
Proof.
  intros Hsvd HK s H Hfree.
  assert (Hinv : forall n, cp_coherent K (state_after (cp_model env cs) s n) /\
                           same_problem s (state_after (cp_model env cs) s n)).
  { induction n as [|n [IH1 IH2]]; [split; [auto|apply same_problem_refl]|].
    cbn [state_after md_update cp_model].
    destruct (modes_decrease Hsvd HK IH1 (free_fit_same IH2 Hfree) (all_modes _)) as (s' & E & HC & HS & _).
    unfold cp_update_factors. rewrite E. cbn [fst]. split; auto. eapply same_problem_trans; eauto. }
  intros n s1 s2. destruct (Hinv n) as [H1 H2]. split; auto. split; auto.
  destruct (modes_decrease Hsvd HK H1 (free_fit_same H2 Hfree) (all_modes _)) as (s' & E & HC & HS & Hle).
  assert (E2 : s2 = s').
  { unfold s2. cbn [state_after md_update cp_model]. unfold cp_update_factors. now rewrite E. }
  split; [unfold cp_update_factors; fold s1 in E; now rewrite E|].
  rewrite E2. split; auto. rewrite (sp_X H2) in Hle. exact Hle.
Qed.
