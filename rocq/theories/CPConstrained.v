(** Constrained and penalised updates (C46, C47, C48). *)
From Verif Require Export CPInit.
Set Implicit Arguments.
Unset Strict Implicit.
Local Open Scope R_scope.

(** The constraint flags and the penalty of mode m *)
Definition flag (c : option (list bool)) (m : nat) (b : bool) : Prop :=
  exists l, c = Some l /\ nth_error l m = Some b.
Definition penalty (cs : cp_settings) (m : nat) (lam : R) : Prop :=
  match cs_ridge cs with None => lam = 0 | Some l => nth_error l m = Some lam end.

Lemma dist2_ext n m A A' B B' :
  (forall i j, (i < n)%nat -> (j < m)%nat -> A i j = A' i j) ->
  (forall i j, (i < n)%nat -> (j < m)%nat -> B i j = B' i j) -> dist2 n m A B = dist2 n m A' B'.
Proof.
  intros HA HB. unfold dist2. apply sum_ext. intros i Hi. apply sum_ext. intros j Hj. now rewrite HA, HB.
Qed.

Section Update.
Variables (env : cp_env) (cs : cp_settings) (K : nat) (s : cp_state) (m : nat).
Hypothesis (H : cp_coherent K s) (HK : cs_rank cs = K) (Hm : (m < length (shape (cp_X s)))%nat).
Let X := cp_X s.
Let Us := kt_fms (cp_dec s).
Let n := nth m (shape X) 0%nat.

Lemma normal_matrices : exists V P,
  als_lhs cs Us m = Ok V /\ als_rhs env X Us m = Ok P /\ is_mat K K V /\ is_mat n K P /\
  (forall r t, (r < K)%nat -> (t < K)%nat -> mget V r t = normal_lhs Us m r t) /\
  (forall i r, (i < n)%nat -> (r < K)%nat -> mget P i r = normal_rhs X Us m i r) /\
  forall Z, dist2 n K (mprod K Z (mget V)) (mget P) = normal_dist K X Us m Z.
Proof.
  destruct (als_rhs_ok env (co_data H) (co_fac H) Hm) as (P & EP & HP & HPe).
  destruct (als_lhs_ok m (proj1 (co_fac H)) HK) as (V & EV & HV & HVe).
  exists V, P. do 6 (split; auto). intros Z. apply dist2_ext; auto.
  intros i r Hi Hr. unfold mprod. apply sum_ext. intros t Ht. now rewrite HVe.
Qed.

(** Every successful update comes from a solver applied to V and M. *)
Lemma update_result (feasible : (nat -> nat -> R) -> Prop) lam solve :
  get_rightsolve env cs (cp_nn s) (cp_orth s) m = Ok solve ->
  (forall V P, is_mat K K V -> is_mat n K P -> als_lhs cs Us m = Ok V -> als_rhs env X Us m = Ok P ->
     exists Z, solve V P = Ok Z /\ is_mat n K Z /\ feasible (mget Z) /\
     forall Y, feasible Y -> dist2 n K (mprod K (mget Z) (mget V)) (mget P) + lam * frob2 n K (mget Z) <=
                             dist2 n K (mprod K Y (mget V)) (mget P) + lam * frob2 n K Y) ->
  exists s' Z, cp_update_factor env cs s m = (s', None) /\ is_mat n K Z /\
    kt_fms (cp_dec s') = with_factor m Z Us /\ same_problem s s' /\ cp_coherent K s' /\ feasible (mget Z) /\
    forall Y, feasible Y -> normal_dist K X Us m (mget Z) + lam * frob2 n K (mget Z) <=
                            normal_dist K X Us m Y + lam * frob2 n K Y.
Proof.
  intros ES Hsolve. destruct normal_matrices as (V & P & EV & EP & HV & HP & _ & _ & Hd).
  destruct (Hsolve V P HV HP EV EP) as (Z & EZ & HZ & HF & Hopt).
  destruct (update_with_solver H Hm EV EP ES EZ HZ) as (s' & Es & Hfm & _ & _ & HSP & HC).
  exists s', Z. do 6 (split; auto). intros Y HY. specialize (Hopt Y HY). now rewrite !Hd in Hopt.
Qed.

Lemma flag_get c b : flag c m b -> (do l <- not_none c ; list_get l m) = Ok b.
Proof. intros (l & -> & E). cbn [not_none bind]. unfold list_get. now rewrite E. Qed.

Lemma rightsolve_flags nn orth lam : flag (cp_nn s) m nn -> flag (cp_orth s) m orth -> penalty cs m lam ->
  get_rightsolve env cs (cp_nn s) (cp_orth s) m =
  if andb orth nn then Err ValueError else
  let base := if orth then orthogonal_rightsolve (env_svd env)
              else if nn then non_negative_rightsolve (env_nnls env) else rightsolve (env_svd env) in
  match cs_ridge cs with None => Ok base | Some _ => Ok (add_rightsolve_ridge base lam) end.
Proof.
  intros (l1 & E1 & F1) (l2 & E2 & F2) Hp. unfold get_rightsolve, list_get, penalty in *.
  rewrite E1, E2. cbn [not_none bind]. rewrite F1, F2. cbn [bind].
  destruct orth, nn; cbn [andb bind]; try reflexivity;
    (destruct (cs_ridge cs) as [lams|]; [now rewrite Hp|reflexivity]).
Qed.

Lemma both_constraints : flag (cp_nn s) m true -> flag (cp_orth s) m true ->
  cp_update_factor env cs s m = (s, Some ValueError).
Proof.
  intros (l1 & E1 & F1) (l2 & E2 & F2). unfold cp_update_factor.
  destruct normal_matrices as (V & P & EV & EP & _). unfold Us, X in *. rewrite EV, EP. cbn [bind].
  unfold get_rightsolve, list_get. rewrite E1, E2. cbn [not_none bind]. rewrite F1, F2. reflexivity.
Qed.

Lemma update_nonneg lam : flag (cp_nn s) m true -> flag (cp_orth s) m false -> penalty cs m lam -> 0 <= lam ->
  nnls_contract (env_nnls env) ->
  exists s' Z, cp_update_factor env cs s m = (s', None) /\ is_mat n K Z /\
    kt_fms (cp_dec s') = with_factor m Z Us /\ same_problem s s' /\ cp_coherent K s' /\ nonneg_mat n K (mget Z) /\
    forall Y, nonneg_mat n K Y -> normal_dist K X Us m (mget Z) + lam * frob2 n K (mget Z) <=
                              normal_dist K X Us m Y + lam * frob2 n K Y.
Proof.
  intros H1 H2 H3 Hl HN. pose proof (rightsolve_flags H1 H2 H3) as ES. cbn [andb] in ES.
  assert (Hp : match cs_ridge cs with None => lam = 0 | Some _ => True end).
  { unfold penalty in H3. destruct (cs_ridge cs); auto. }
  destruct (cs_ridge cs); cbv zeta in ES; apply (update_result ES); intros V P HV HP _ _.
  - now apply ridge_nonneg_ok.
  - destruct (@nonneg_rightsolve_total (env_nnls env) K K n V P HV HP) as (Z & EZ & HZ & HZ1 & HZ2).
    { intros i Hi. apply HN; [now apply is_mat_transp|exact (is_vec_row HP Hi)]. }
    exists Z. do 3 (split; auto). intros Y HY. specialize (HZ2 Y HY). rewrite Hp. lra.
Qed.

Lemma update_ridge lam : flag (cp_nn s) m false -> flag (cp_orth s) m false -> cs_ridge cs <> None ->
  penalty cs m lam -> 0 <= lam ->
  svd_works_on K (K + K) (env_svd env) ->
  exists s' Z, cp_update_factor env cs s m = (s', None) /\ is_mat n K Z /\
    kt_fms (cp_dec s') = with_factor m Z Us /\ same_problem s s' /\ cp_coherent K s' /\
    forall Y, normal_dist K X Us m (mget Z) + lam * frob2 n K (mget Z) <=
              normal_dist K X Us m Y + lam * frob2 n K Y.
Proof.
  intros H1 H2 H0 H3 Hl HN. pose proof (rightsolve_flags H1 H2 H3) as ES. cbn [andb] in ES.
  destruct (cs_ridge cs); [|congruence]. cbv zeta in ES.
  destruct (update_result (feasible := fun _ => True) (lam := lam) ES) as (s' & Z & A1 & A2 & A3 & A4 & A5 & _ & A6).
  2:{ exists s', Z. do 5 (split; auto). }
  intros V P HV HP _ _. destruct (ridge_ok (rightsolve (env_svd env)) HV HP Hl) as (A' & B' & E & HA' & HB' & Hd & _).
  destruct (HN A' HA') as (U & Sv & Vh & E1 & HS).
  destruct (rightsolve_ok HA' HB' E1 HS) as (Z & EZ & HZ & _ & Hopt & _).
  exists Z. rewrite E. do 3 (split; auto). intros Y _. specialize (Hopt Y). now rewrite !Hd in Hopt.
Qed.

(** [M V] is the matrix whose singular vectors the orthonormal update uses. *)
Definition MV (i r : nat) : R := mprod K (normal_rhs X Us m) (fun k r => normal_lhs Us m r k) i r.

Lemma update_orth lam U Sv Vh : flag (cp_nn s) m false -> flag (cp_orth s) m true -> penalty cs m lam -> 0 <= lam ->
  (0 < K <= n)%nat ->
  env_svd env (tab2 n K MV) = Ok (U, Sv, Vh) -> is_svd n K (tab2 n K MV) U Sv Vh ->
  (forall r, (r < K)%nat -> INR n * vget Sv 0 * / 10 ^ 16 < vget Sv r) ->
  exists s' Z, cp_update_factor env cs s m = (s', None) /\ is_mat n K Z /\
    kt_fms (cp_dec s') = with_factor m Z Us /\ same_problem s s' /\ cp_coherent K s' /\ orth_cols n K (mget Z) /\
    forall Y, orth_cols n K Y -> normal_dist K X Us m (mget Z) <= normal_dist K X Us m Y.
Proof.
  intros H1 H2 H3 Hl Hk ES HS Htr. pose proof (rightsolve_flags H1 H2 H3) as ER. cbn [andb] in ER. cbv zeta in ER.
  assert (Hcore : forall V P, is_mat K K V -> is_mat n K P -> als_lhs cs Us m = Ok V -> als_rhs env X Us m = Ok P ->
     exists Z, orthogonal_rightsolve (env_svd env) V P = Ok Z /\ is_mat n K Z /\ orth_cols n K (mget Z) /\
     forall Y, orth_cols n K Y -> dist2 n K (mprod K (mget Z) (mget V)) (mget P) <= dist2 n K (mprod K Y (mget V)) (mget P)).
  { intros V P HV HP EV EP. destruct normal_matrices as (V' & P' & EV' & EP' & _ & _ & HVe & HPe & _).
    rewrite EV in EV'. injection EV' as <-. rewrite EP in EP'. injection EP' as <-.
    assert (EM : matmul P (transp V) = Ok (tab2 n K MV)).
    { rewrite (matmul_ok HP (is_mat_transp HV)). f_equal. apply tab2_ext. intros i r Hi Hr.
      unfold MV, mprod. apply sum_ext. intros k Hkk. rewrite (mget_transp HV) by auto. now rewrite HPe, HVe. }
    destruct (orthogonal_rightsolve_ok HV HP Hk EM ES HS Htr) as (Z & EZ & HZ & HO & Hopt).
    exists Z. auto. }
  destruct (update_result (feasible := orth_cols n K) (lam := 0)
     (solve := match cs_ridge cs with None => orthogonal_rightsolve (env_svd env)
               | Some _ => add_rightsolve_ridge (orthogonal_rightsolve (env_svd env)) lam end))
     as (s' & Z & A1 & A2 & A3 & A4 & A5 & A6 & A7).
  - rewrite ER. now destruct (cs_ridge cs).
  - intros V P HV HP EV EP. destruct (Hcore V P HV HP EV EP) as (Z & EZ & HZ & HO & Hopt).
    exists Z. split.
    { destruct (cs_ridge cs); auto. now rewrite (ridge_orthogonal (env_svd env) HV HP Hl). }
    do 2 (split; auto). intros Y HY. specialize (Hopt Y HY). lra.
  - exists s', Z. do 6 (split; auto). intros Y HY. specialize (A7 Y HY). lra.
Qed.
End Update.

(** *** C46: constrained factors stay non-negative *)
Definition nonneg_factor (K : nat) (s : cp_state) (m : nat) : Prop :=
  nonneg_mat (nth m (shape (cp_X s)) 0%nat) K (mget (nth m (kt_fms (cp_dec s)) m0)).
Definition penalties_ok (cs : cp_settings) : Prop :=
  forall m lam, penalty cs m lam -> 0 <= lam.

Lemma penalty_of_ok env cs nn orth m solve : get_rightsolve env cs nn orth m = Ok solve -> exists lam, penalty cs m lam.
Proof.
  unfold get_rightsolve, penalty. intros E.
  destruct (not_none nn) as [l1|]; cbn [bind] in E; [|discriminate].
  destruct (list_get l1 m) as [b1|]; cbn [bind] in E; [|discriminate].
  destruct (not_none orth) as [l2|]; cbn [bind] in E; [|discriminate].
  destruct (list_get l2 m) as [b2|]; cbn [bind] in E; [|discriminate].
  destruct (if (b2 : bool) then _ else _) as [f|]; cbn [bind] in E; [|discriminate].
  destruct (cs_ridge cs) as [lams|]; [|eauto].
  unfold list_get in E. destruct (nth_error lams m) as [lam|]; [eauto|discriminate].
Qed.

Lemma flag_fun c m b b' : flag c m b -> flag c m b' -> b = b'.
Proof. intros (l & E & F) (l' & E' & F'). congruence. Qed.

Lemma flag_of_ok env cs nn orth m solve : get_rightsolve env cs nn orth m = Ok solve -> flag nn m true ->
  flag orth m false.
Proof.
  unfold get_rightsolve, flag, list_get. intros E (l1 & -> & F). cbn [not_none bind] in E. rewrite F in E.
  cbn [bind] in E. destruct orth as [l2|]; cbn [not_none bind] in E; [|discriminate].
  destruct (nth_error l2 m) as [[|]|] eqn:E2; cbn [bind] in E; try discriminate. eauto.
Qed.

Lemma update_keeps_nonneg env cs K s m m' s' : cp_coherent K s -> cs_rank cs = K ->
  (m < length (shape (cp_X s)))%nat -> nnls_contract (env_nnls env) -> penalties_ok cs ->
  flag (cp_nn s) m' true ->
  cp_update_factor env cs s m = (s', None) ->
  m' = m \/ nonneg_factor K s m' -> nonneg_factor K s' m'.
Proof.
  intros H HK Hm HN HP HF E Hor.
  destruct (update_coherent H Hm E) as [H' HSP].
  destruct (Nat.eq_dec m' m) as [->|Hne].
  - pose proof E as E0. unfold cp_update_factor in E0.
    destruct (get_rightsolve env cs (cp_nn s) (cp_orth s) m) as [solve|e] eqn:ES.
    2:{ destruct (als_lhs _ _ _); cbn [bind] in E0; [|discriminate].
        destruct (als_rhs _ _ _ _); cbn [bind] in E0; discriminate. }
    destruct (penalty_of_ok ES) as (lam & Hlam). pose proof (flag_of_ok ES HF) as HO.
    destruct (update_nonneg H HK Hm HF HO Hlam (HP _ _ Hlam) HN) as (s1 & Z & E1 & HZ & Hfm & _ & _ & Hnn & _).
    rewrite E in E1. injection E1 as <-. unfold nonneg_factor. rewrite Hfm, (sp_X HSP).
    unfold with_factor. rewrite nth_replace_at_eq; auto. now rewrite (coherent_len H).
  - destruct Hor as [|Hnn]; [contradiction|]. unfold nonneg_factor in *. rewrite (sp_X HSP).
    assert (Efm : nth m' (kt_fms (cp_dec s')) m0 = nth m' (kt_fms (cp_dec s)) m0).
    { unfold cp_update_factor in E. destruct (do lhs <- als_lhs _ _ _ ; _) as [[[V P] solve]|]; [|discriminate].
      destruct (do Z <- solve V P ; _) as [U'|]; [|discriminate]. injection E as <-.
      cbn [cp_with_dec cp_dec kt_with_factor kt_fms cp_with_cache]. apply nth_replace_at_neq. auto. }
    now rewrite Efm.
Qed.

Lemma modes_keep_nonneg env cs K l : cs_rank cs = K -> nnls_contract (env_nnls env) -> penalties_ok cs ->
  forall s s' m', cp_coherent K s -> Forall (fun m => (m < length (shape (cp_X s)))%nat) l ->
  flag (cp_nn s) m' true -> cp_update_modes env cs l s = (s', None) ->
  In m' l \/ nonneg_factor K s m' -> nonneg_factor K s' m'.
Proof.
  intros HK HN HP. induction l as [|m l IH]; intros s s' m' H Hl HF E Hor; cbn [cp_update_modes] in E.
  - injection E as <-. destruct Hor as [[]|]; auto.
  - inversion Hl as [|? ? Hm Hl']; subst.
    destruct (cp_update_factor env cs s m) as [s1 [e1|]] eqn:E1; [discriminate|].
    destruct (update_coherent H Hm E1) as [H1 HS1].
    apply (IH s1 s' m'); auto.
    + now rewrite (sp_X HS1).
    + now rewrite (sp_nn HS1).
    + destruct (in_dec Nat.eq_dec m' l) as [Hi|Hi]; [now left|right].
      apply (update_keeps_nonneg H eq_refl Hm HN HP HF E1). destruct Hor as [[->|]|]; auto. contradiction.
Qed.
