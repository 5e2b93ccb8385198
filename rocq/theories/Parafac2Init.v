(** Initialisation of Parafac2_ALS and the convenience entry points. *)
From Verif Require Export Parafac2Run CPRandom.
Set Implicit Arguments.
Unset Strict Implicit.
Local Open Scope R_scope.

Section Init.
Variables (env : p2_env) (ps : p2_settings).
Let cenv := pe_cp env.
Let md := p2_model env ps.

(** *** New objects *)
Lemma adopt_separate d s : separate (p2_adopt d s).
Proof.
  unfold separate, addresses, p2_adopt, halloc. cbn [p2_with_ref p2_ref pr_A pr_B pr_C pr_P p2_heap p2_with_heap].
  set (h := p2_heap s). set (l := ([ev_A (pf_ev d); pf_blueprint d; ev_C (pf_ev d)] ++ pf_P d)%list).
  assert (Hl : length l = (3 + length (pf_P d))%nat) by reflexivity. rewrite Hl.
  change (length h :: S (length h) :: S (S (length h)) :: skipn 3 (seq (length h) (3 + length (pf_P d))))
    with (seq (length h) (3 + length (pf_P d))).
  split; [apply seq_NoDup|]. apply Forall_forall. intros a Ha. apply in_seq in Ha. rewrite app_length, Hl. lia.
Qed.
Lemma adopt_reads d s : p2_A (p2_adopt d s) = ev_A (pf_ev d) /\ p2_B (p2_adopt d s) = pf_blueprint d /\
  p2_C (p2_adopt d s) = ev_C (pf_ev d) /\ p2_Ps (p2_adopt d s) = pf_P d.
Proof.
  unfold p2_A, p2_B, p2_C, p2_Ps, p2_adopt, halloc. cbn [p2_with_ref p2_ref pr_A pr_B pr_C pr_P p2_heap p2_with_heap].
  set (h := p2_heap s). set (l := ([ev_A (pf_ev d); pf_blueprint d; ev_C (pf_ev d)] ++ pf_P d)%list).
  split. { rewrite <- (Nat.add_0_r (length h)) at 1. now rewrite hread_app_new. }
  split. { replace (S (length h)) with (length h + 1)%nat by lia. now rewrite hread_app_new. }
  split. { replace (S (S (length h))) with (length h + 2)%nat by lia. now rewrite hread_app_new. }
  assert (Hl : length l = (3 + length (pf_P d))%nat) by reflexivity. rewrite Hl.
  change (skipn 3 (seq (length h) (3 + length (pf_P d)))) with (seq (S (S (S (length h)))) (length (pf_P d))).
  apply (nth_ext _ _ m0 m0); [now rewrite map_length, seq_length|].
  rewrite map_length, seq_length. intros k Hk. rewrite nth_map_read by (now rewrite seq_length).
  rewrite seq_nth by auto. replace (S (S (S (length h))) + k)%nat with (length h + (3 + k))%nat by lia.
  rewrite hread_app_new. cbn [l app nth Nat.add]. now apply nth_indep.
Qed.

(** *** Random initialisation *)
Lemma projections_drawn K Ns Xs : length Ns = length Xs ->
  (forall k, (k < length Xs)%nat -> (K <= width Xs k)%nat /\ qr_works_on (width Xs k) K (env_qr cenv) /\ is_mat (width Xs k) K (nth k Ns m0)) ->
  exists Ps, mapM (fun N => do Q <- env_qr cenv N ; first_columns Q K) Ns = Ok Ps /\ length Ps = length Xs /\
    forall k, (k < length Xs)%nat -> is_mat (width Xs k) K (nth k Ps m0) /\ orth_cols (width Xs k) K (mget (nth k Ps m0)).
Proof.
  revert Xs. induction Ns as [|N Ns IH]; intros [|X Xs] Hl H; cbn in Hl; try lia.
  { exists []. split; [reflexivity|]. split; [reflexivity|]. cbn. lia. }
  destruct (IH Xs) as (Ps & E & El & HP); [lia| |].
  { intros k Hk. apply (H (S k)). cbn. lia. }
  destruct (H 0%nat) as (HK & Hqr & HN); [cbn; lia|]. cbn [nth] in HN. set (w := width (X :: Xs) 0) in *.
  destruct (Hqr N HN) as (Q & EQ & HQ & HO). rewrite Nat.min_r in HQ, HO by auto.
  assert (EF : exists Q', first_columns Q K = Ok Q' /\ is_mat w K Q' /\ forall i r, (i < w)%nat -> (r < K)%nat -> mget Q' i r = mget Q i r).
  { unfold first_columns. assert (Hc : ncols Q = K) by (unfold ncols; now rewrite (proj2 HQ)). rewrite Hc, Nat.min_id.
    unfold take_cols. rewrite (proj2 HQ). rewrite (proj2 (forallb_forall _ _)).
    2:{ intros x Hx. apply in_seq in Hx. apply Nat.ltb_lt. lia. }
    rewrite seq_length. eexists. split; [reflexivity|]. split; [apply is_mat_tab2|].
    intros i r Hi Hr. rewrite mget_tab2 by auto. now rewrite seq_nth. }
  destruct EF as (Q' & EF & HQ' & Hent).
  exists (Q' :: Ps). cbn [mapM]. rewrite EQ. cbn [bind]. rewrite EF. cbn [bind]. rewrite E. cbn [bind].
  split; [reflexivity|]. split; [cbn; lia|]. intros [|k] Hk; cbn [nth].
  - split; auto. intros a b Ha Hb. rewrite <- (HO a b Ha Hb). apply sum_ext. intros i Hi. now rewrite !Hent.
  - apply HP. cbn in Hk. lia.
Qed.

Lemma list_sum_map (f : nat -> nat) Ps n : length Ps = n -> (forall k, (k < n)%nat -> nrows (nth k Ps m0) = f k) ->
  rows Ps = map f (seq 0 n).
Proof.
  intros Hl H. apply (nth_ext _ _ 0%nat 0%nat); unfold rows; rewrite !map_length, ?seq_length; auto.
  intros k Hk. rewrite (nth_indep _ 0%nat (nrows m0)) by (now rewrite map_length). rewrite map_nth, H by lia.
  rewrite (nth_indep _ 0%nat (f 0%nat)) by (rewrite map_length, seq_length; lia). rewrite map_nth, seq_nth by lia. reflexivity.
Qed.

Lemma random_ok K nI s draws : ps_rank ps = K -> (0 < K)%nat -> slices_ok nI (p2_X s) -> draws_ok K nI (p2_X s) draws ->
  (forall k, (k < length (p2_X s))%nat -> (K <= width (p2_X s) k)%nat /\ qr_works_on (width (p2_X s) k) K (env_qr cenv)) ->
  exists s', p2_init_random env ps draws s = Ok s' /\ p2_ok K nI s' /\ orth_projections K (p2_X s') (p2_Ps s') /\
    p2_X s' = p2_X s /\ p2_norm s' = p2_norm s /\ Some (p2_A s') = nth_error draws 0 /\
    pr_num (p2_ref s') = list_sum (map (width (p2_X s)) (seq 0 (length (p2_X s)))) /\
    p2_B s' = np_identity K /\ Some (p2_C s') = option_map (np_map (fun x => x + / 10)) (nth_error draws 1).
Proof.
  intros HK HK0 [Hne HX] (A & C & Ns & -> & HA & HC & HNl & HN) Hqr.
  destruct (@projections_drawn K Ns (p2_X s) HNl) as (Ps & EP & HPl & HP).
  { intros k Hk. destruct (Hqr k Hk). auto. }
  unfold p2_init_random. rewrite HK. fold cenv. rewrite EP. cbn [bind].
  assert (HM : mats K Ps).
  { apply Forall_forall. intros P Hin. apply (In_nth _ _ m0) in Hin as (k & Hk & <-). rewrite HPl in Hk.
    destruct (HP k Hk) as [HPk _]. now rewrite (is_mat_nrows HPk). }
  assert (HPne : Ps <> []) by (intros ->; destruct (p2_X s); [congruence|discriminate]).
  destruct (@pf_init_ok nI K A (np_identity K) (np_map (fun x => x + / 10) C) Ps false K HA (is_mat_tab2 K K _) HM HPne)
    as (b & Ed & _).
  rewrite Ed. cbn [bind]. set (d := {| pf_blueprint := np_identity K; pf_P := Ps; pf_ev := _ |}).
  eexists. split; [reflexivity|]. destruct (adopt_reads d s) as (RA & RB & RC & RP).
  destruct (adopt_separate d s) as [HNd HRg].
  assert (EXs : p2_X (p2_adopt d s) = p2_X s) by reflexivity.
  assert (EPl : length (pr_P (p2_ref (p2_adopt d s))) = length (p2_X s)).
  { rewrite <- HPl. transitivity (length (p2_Ps (p2_adopt d s))); [unfold p2_Ps; now rewrite map_length|now rewrite RP]. }
  split; [constructor|split; [|split; [|split; [|split; [|split; [|split]]]]]].
  - exact HRg.
  - exact HNd.
  - rewrite RA. exact HA.
  - rewrite RB. apply is_mat_tab2.
  - rewrite RC. cbn. now apply is_mat_map.
  - exact EPl.
  - intros k Hk. rewrite RP, EXs. now apply HP.
  - intros k Hk. rewrite EXs. now apply HX.
  - cbn. rewrite map_length. exact HPl.
  - intros k Hk. rewrite RP, EXs. now apply HP.
  - reflexivity.
  - reflexivity.
  - rewrite RA. reflexivity.
  - cbn. f_equal. apply list_sum_map; auto. intros k Hk. destruct (HP k Hk) as [HPk _]. apply (is_mat_nrows HPk).
  - exact RB.
  - rewrite RC. reflexivity.
Qed.

(** *** Fits from a random start *)
Lemma init_fit_random disk draws X max_its arg ds ds1 : lower (ps_init ps) = "random"%string ->
  p2_init_fit env ps disk draws X max_its arg ds = (ds1, None) ->
  exists s, p2_set_target X (ds_num ds) = Ok s /\ p2_init_random env ps draws s = Ok (ds_num ds1).
Proof.
  intros Hi E. unfold p2_init_fit in E. cbn [ds_num with_it] in E.
  destruct (p2_set_target X (ds_num ds)) as [s|]; [|discriminate].
  unfold p2_init_components in E. rewrite Hi in E. cbn [ds_num with_num String.eqb Ascii.eqb Bool.eqb] in E.
  destruct (p2_init_random env ps draws s) as [s1|] eqn:E1; [|discriminate].
  destruct (p2_loss _ _) as [l|]; [|discriminate]. injection E as <-. exists s. split; auto. rewrite E1.
  now destruct max_its.
Qed.

Lemma set_target_X Xs s s' : p2_set_target (Slices Xs) s = Ok s' -> p2_X s' = Xs.
Proof. unfold p2_set_target. cbn [bind]. destruct (p2_X_shape Xs); [|discriminate]. cbn [bind]. intros E. now injection E as <-. Qed.

Lemma random_fit_decreases K nI cf disk draws Xs max_its arg ds ds1 ds' e :
  lower (ps_init ps) = "random"%string -> unconstrained ps -> ps_rank ps = K -> ps_ridge ps = None ->
  (0 < nI)%nat -> (0 < K)%nat -> slices_ok nI Xs -> draws_ok K nI Xs draws ->
  (forall k, (k < length Xs)%nat -> (K <= width Xs k)%nat /\ qr_works_on (width Xs k) K (env_qr cenv)) ->
  svd_works_on K K (env_svd cenv) ->
  p2_init_fit env ps disk draws (Slices Xs) max_its arg ds = (ds1, None) ->
  (forall k, (k < Z.to_nat (ds_max ds1 - ds_it ds1))%nat -> solvable env K nI (state_after md (fst (p2_prepare env ps (ds_num ds1))) k)) ->
  p2_fit env ps cf disk draws (Slices Xs) max_its arg ds = (ds', e) ->
  p2_ok K nI (ds_num ds') /\ orth_projections K Xs (p2_Ps (ds_num ds')) /\ p2_X (ds_num ds') = Xs /\
  p2_SSE (ds_num ds') = Ok (total_err K nI (ds_num ds')) /\ ds_prev ds1 = Fin (total_err K nI (ds_num ds1)) /\
  total_err K nI (ds_num ds') <= total_err K nI (ds_num ds1).
Proof.
  intros Hi HU HK HR HnI HK0 HX HD Hqr Hsvd E1 Hsol E.
  destruct (init_fit_random Hi E1) as (s & ET & ER). pose proof (set_target_X ET) as EX.
  destruct (@random_ok K nI s draws HK HK0) as (s1 & Es1 & Hok & HO & EXs & _); rewrite ?EX; auto.
  rewrite Es1 in ER. injection ER as ER. rewrite <- ER in *.
  unfold p2_fit in E. rewrite E1 in E.
  destruct (@fit_decreases env ps K nI cf ds1 ds' e) as (H1 & H2 & H3 & H4); rewrite <- ?ER; auto.
  { rewrite EXs, EX. destruct HX as [Hne _]. destruct Xs; [congruence|cbn; lia]. }
  rewrite <- ER in *. rewrite EXs, EX in *.
  split; auto. split; auto. split; auto. split; [now apply p2_SSE_ok|]. split; auto.
  unfold p2_init_fit in E1. cbn [ds_num with_it] in E1. rewrite ET in E1.
  destruct (p2_init_components env ps disk draws arg (with_num s (with_it 0%Z ds))) as [d2 [x|]]; [discriminate|].
  destruct (p2_loss ps _) as [l|] eqn:EL; [|discriminate]. injection E1 as E1.
  assert (En : ds_num (match max_its with Some m => with_max m d2 | None => d2 end) = s1)
    by (rewrite <- E1 in ER; rewrite ER; reflexivity).
  rewrite En in EL. unfold p2_loss in EL. rewrite (p2_SSE_ok Hok), HR in EL. cbn [bind] in EL. injection EL as <-.
  now rewrite <- E1.
Qed.

(** The factor of an orthonormal mode is the random draw, whatever happens. *)
Lemma fit_state cf ds ds' e : pf_fit_loop md cf ds = (ds', e) ->
  (exists x, p2_prepare env ps (ds_num ds) = (ds_num ds', Some x)) \/
  exists s0 n, p2_prepare env ps (ds_num ds) = (s0, None) /\ ds_num ds' = state_after md s0 n.
Proof.
  intros E. destruct (p2_prepare env ps (ds_num ds)) as [s0 [x|]] eqn:EP.
  - left. exists x. unfold pf_fit_loop in E. change (md_prepare md) with (p2_prepare env ps) in E. rewrite EP in E. injection E as <- _. reflexivity.
  - right. destruct (@pf_fit_lemma _ _ md cf ds ds' e s0 EP E) as (n & _ & En & _). eauto.
Qed.
Lemma prepare_fails s s' x : p2_prepare env ps s = (s', Some x) -> s' = s.
Proof.
  unfold p2_prepare. destruct (do k <- _ ; _) as [c|]; [|intros E; now injection E].
  destruct (rebind _ _). discriminate.
Qed.
Lemma orth_fit cf ds ds' e : separate (ds_num ds) -> pf_fit_loop md cf ds = (ds', e) ->
  (nth 0 (orth_flags ps) false = true -> p2_A (ds_num ds') = p2_A (ds_num ds)) /\
  (nth 2 (orth_flags ps) false = true -> p2_C (ds_num ds') = p2_C (ds_num ds)).
Proof.
  intros HS E. destruct (fit_state E) as [[x Ex]|(s0 & n & E0 & ->)].
  - rewrite (prepare_fails Ex). auto.
  - split; intros Hf; [eapply orth_A_frozen|eapply orth_C_frozen]; eauto.
Qed.
Lemma random_parts draws s s' : p2_init_random env ps draws s = Ok s' ->
  exists A C Ns, draws = A :: C :: Ns /\ separate s' /\ p2_A s' = A /\ p2_C s' = np_map (fun x => x + / 10) C.
Proof.
  unfold p2_init_random. destruct draws as [|A [|C Ns]]; try discriminate.
  destruct (mapM _ _) as [Ps|]; [|discriminate]. cbn [bind]. destruct (pf_init _ _ _ _ _) as [d|] eqn:Ed; [|discriminate].
  cbn [bind]. intros E. injection E as <-. exists A, C, Ns. split; auto. split; [apply adopt_separate|].
  destruct (adopt_reads d s) as (-> & _ & -> & _). unfold pf_init in Ed.
  destruct (shape_at A 1); [|discriminate]. cbn [bind] in Ed. destruct (check_all_same_size Ps); [|discriminate]. cbn [bind] in Ed.
  destruct (shape_at A 0); [|discriminate]. cbn [bind] in Ed. destruct (projected_factor _ _); [|discriminate]. cbn [bind] in Ed.
  destruct (mapM _ _); [|discriminate]. injection Ed as <-. auto.
Qed.
Lemma random_orth_fit cf disk A C Ns X max_its arg ds ds1 ds' e : lower (ps_init ps) = "random"%string ->
  p2_init_fit env ps disk (A :: C :: Ns) X max_its arg ds = (ds1, None) ->
  p2_fit env ps cf disk (A :: C :: Ns) X max_its arg ds = (ds', e) ->
  (nth 0 (orth_flags ps) false = true -> p2_A (ds_num ds') = A) /\
  (nth 2 (orth_flags ps) false = true -> p2_C (ds_num ds') = np_map (fun x => x + / 10) C).
Proof.
  intros Hi E1 E. destruct (init_fit_random Hi E1) as (s & _ & ER).
  destruct (random_parts ER) as (A' & C' & Ns' & Ed & HS & EA & EC). injection Ed as <- <- <-.
  unfold p2_fit in E. rewrite E1 in E. destruct (orth_fit HS E) as [H1 H2]. rewrite EA in H1. rewrite EC in H2. auto.
Qed.

(** A random start exists. *)
Lemma random_init_fit_ok K nI disk draws Xs max_its arg ds : lower (ps_init ps) = "random"%string ->
  ps_rank ps = K -> (0 < K)%nat -> ps_ridge ps = None -> slices_ok nI Xs -> draws_ok K nI Xs draws ->
  (forall k, (k < length Xs)%nat -> (K <= width Xs k)%nat /\ qr_works_on (width Xs k) K (env_qr cenv)) ->
  exists ds1, p2_init_fit env ps disk draws (Slices Xs) max_its arg ds = (ds1, None) /\
    p2_ok K nI (ds_num ds1) /\ orth_projections K Xs (p2_Ps (ds_num ds1)) /\ p2_X (ds_num ds1) = Xs /\
    pr_num (p2_ref (ds_num ds1)) = list_sum (map (width Xs) (seq 0 (length Xs))) /\
    Some (p2_A (ds_num ds1)) = nth_error draws 0 /\ p2_B (ds_num ds1) = np_identity K /\
    Some (p2_C (ds_num ds1)) = option_map (np_map (fun x => x + / 10)) (nth_error draws 1) /\ ds_it ds1 = 0%Z /\
    ds_max ds1 = match max_its with Some m => m | None => ds_max ds end.
Proof.
  intros Hi HK HK0 HR HX HD Hqr.
  assert (ET : exists s, p2_set_target (Slices Xs) (ds_num ds) = Ok s /\ p2_X s = Xs).
  { unfold p2_set_target, p2_X_shape. cbn [bind]. destruct HX as [Hne HX].
    assert (H0 : (0 < length Xs)%nat) by (destruct Xs; [congruence|cbn; lia]).
    rewrite (@list_get_ok _ Xs 0%nat m0 H0). cbn [bind]. pose proof (HX 0%nat H0) as HX0.
    unfold np_len. rewrite (proj2 HX0). cbn [bind].
    rewrite (@mapM_ok nd nat (fun Xk => shape_at Xk 1) ncols).
    - cbn [bind]. eexists. split; reflexivity.
    - intros X Hin. apply (In_nth _ _ m0) in Hin as (k & Hk & <-). unfold shape_at, ncols. now rewrite (proj2 (HX k Hk)). }
  destruct ET as (s & ET & EX).
  destruct (@random_ok K nI s draws HK HK0) as (s1 & Es1 & Hok & HO & EXs & _ & EA & En & EB & EC); rewrite ?EX; auto.
  unfold p2_init_fit. cbn [ds_num with_it]. rewrite ET. unfold p2_init_components. rewrite Hi.
  cbn [ds_num with_num String.eqb Ascii.eqb Bool.eqb]. rewrite Es1.
  assert (EL : forall d, ds_num d = s1 -> p2_loss ps (ds_num d) = Ok (total_err K nI s1)).
  { intros d ->. unfold p2_loss. rewrite (p2_SSE_ok Hok), HR. reflexivity. }
  set (d := match max_its with Some m => with_max m _ | None => _ end).
  assert (Ed : ds_num d = s1) by (unfold d; destruct max_its; reflexivity).
  rewrite (EL d Ed). eexists. split; [reflexivity|]. cbn [with_conv ds_num ds_it ds_max]. rewrite Ed. rewrite EXs, EX in *.
  repeat (split; [auto; fail|]). unfold d. now destruct max_its.
Qed.

(** *** CP initialisation *)
Definition qr_full_works_on (n m : nat) (qr : nd -> res (nd * nd)) : Prop :=
  forall A, is_mat n m A -> exists Q R0, qr A = Ok (Q, R0) /\ is_mat n (Nat.min n m) Q /\ is_mat (Nat.min n m) m R0.

Lemma stack_ok nI w Xs : Xs <> [] -> (forall k, (k < length Xs)%nat -> is_mat nI w (nth k Xs m0)) ->
  (0 < nI)%nat -> (0 < w)%nat -> exists X, stack Xs = Ok X /\ shape X = [length Xs; nI; w] /\ data_ok X.
Proof.
  intros Hne HX HnI Hw. assert (H0 : (0 < length Xs)%nat) by (destruct Xs; [congruence|cbn; lia]).
  unfold stack. rewrite (@list_get_ok _ Xs 0%nat m0 H0). cbn [bind]. unfold shape2. rewrite (proj2 (HX 0%nat H0)). cbn [bind].
  rewrite (proj2 (forallb_forall _ _)).
  2:{ intros X Hin. apply (In_nth _ _ m0) in Hin as (k & Hk & <-). rewrite (proj2 (HX k Hk)).
      now destruct (list_eq_dec Nat.eq_dec [nI; w] [nI; w]). }
  eexists. split; [reflexivity|]. split; [apply shape_tab|]. split; [apply wf_tab|]. rewrite shape_tab.
  split; [cbn; lia|]. repeat constructor; lia.
Qed.

Lemma init_cp_ok K nI w s draws C A B : ps_rank ps = K -> (0 < K <= w)%nat -> (0 < nI)%nat -> p2_X s <> [] ->
  (forall k, (k < length (p2_X s))%nat -> is_mat nI w (nth k (p2_X s) m0)) ->
  draws = [C; A; B] -> is_mat (length (p2_X s)) K C -> is_mat nI K A -> is_mat w K B ->
  svd_works_on K K (env_svd cenv) -> qr_full_works_on w K (pe_qr env) ->
  exists s' a, p2_init_cp env ps draws s = Ok s' /\ p2_shaped K nI s' /\ p2_X s' = p2_X s /\
    pr_P (p2_ref s') = repeat a (length (p2_X s)) /\ ~ In a [pr_A (p2_ref s'); pr_B (p2_ref s'); pr_C (p2_ref s')].
Proof.
  intros HK [HK0 HKw] HnI Hne HX Hd HC HA HB Hsvd Hqr.
  assert (H0 : (0 < length (p2_X s))%nat) by (destruct (p2_X s); [congruence|cbn; lia]).
  destruct (stack_ok Hne HX HnI) as (X & EX & HXs & HXd); [lia|].
  assert (HF : factors_ok K X draws).
  { subst draws. destruct (rows3 HC HA HB) as [HM Hr]. split; [exact HM|]. now rewrite HXs. }
  set (cs := {| cs_rank := ps_rank ps; cs_init := "random"; cs_ridge := None |}).
  destruct (@random_cp_fit cenv cs K cp20_cf (fun _ => None) draws X None cp20_start) as (ds & Ef & Hco & EXd & _);
    auto; try (cbn; lia).
  unfold p2_init_cp. rewrite EX. cbn [bind]. fold cs cenv. rewrite Ef.
  destruct (co_fac Hco) as [HMf Hrf]. rewrite EXd, HXs in Hrf.
  destruct (kt_fms (cp_dec (ds_num ds))) as [|C' [|A' [|B' [|]]]]; try discriminate.
  unfold rows in Hrf. cbn [map] in Hrf. injection Hrf as R1 R2 R3.
  pose proof (Forall_inv HMf) as M1. pose proof (Forall_inv (Forall_inv_tail HMf)) as M2.
  pose proof (Forall_inv (Forall_inv_tail (Forall_inv_tail HMf))) as M3. cbv beta in M1, M2, M3.
  rewrite R1 in M1. rewrite R2 in M2. rewrite R3 in M3.
  destruct (Hqr B' M3) as (Q & R0 & EQ & HQ & HR0). rewrite Nat.min_r in HQ, HR0 by auto. rewrite EQ. cbn [bind].
  set (n := length (p2_X s)) in *.
  assert (HM : mats K (repeat Q n)).
  { apply Forall_forall. intros P Hin. apply repeat_spec in Hin. subst P. now rewrite (is_mat_nrows HQ). }
  assert (HPne : repeat Q n <> []) by (destruct n; [lia|discriminate]).
  destruct (@pf_init_ok nI K A' R0 C' (repeat Q n) true K M2 HR0 HM HPne) as (b & Ed & _).
  rewrite Ed. cbn [bind halloc]. set (h := p2_heap s). set (l := [A'; R0; C'; Q]).
  assert (RA : hread (h ++ l)%list (length h) = A') by (rewrite <- (Nat.add_0_r (length h)) at 1; now rewrite hread_app_new).
  assert (RB : hread (h ++ l)%list (S (length h)) = R0)
    by (replace (S (length h)) with (length h + 1)%nat by lia; now rewrite hread_app_new).
  assert (RC : hread (h ++ l)%list (S (S (length h))) = C')
    by (replace (S (S (length h))) with (length h + 2)%nat by lia; now rewrite hread_app_new).
  assert (RQ : hread (h ++ l)%list (S (S (S (length h)))) = Q)
    by (replace (S (S (S (length h)))) with (length h + 3)%nat by lia; now rewrite hread_app_new).
  eexists. exists (S (S (S (length h)))). split; [reflexivity|].
  cbn [p2_with_ref p2_with_heap p2_X p2_ref pr_A pr_B pr_C pr_P p2_heap].
  split; [|split; [reflexivity|split; [reflexivity|cbn [In]; lia]]].
  assert (Hw : forall k, (k < n)%nat -> width (p2_X s) k = w).
  { intros k Hk. unfold width, ncols. now rewrite (proj2 (HX k Hk)). }
  constructor; unfold p2_A, p2_B, p2_C, p2_Ps;
    cbn [p2_with_ref p2_with_heap p2_X p2_ref pr_A pr_B pr_C pr_P p2_heap pr_shapes ev_slice_shapes pf_ev];
    rewrite ?RA, ?RB, ?RC; auto.
  - rewrite app_length. cbn [length l]. repeat constructor; try lia. apply Forall_forall. intros x Hx. apply repeat_spec in Hx. lia.
  - now rewrite repeat_length.
  - fold n. intros k Hk. rewrite map_repeat', nth_repeat' by auto. rewrite RQ. now rewrite Hw.
  - fold n. intros k Hk. rewrite Hw by auto. now apply HX.
  - now rewrite map_length, repeat_length.
Qed.

Lemma init_fit_cp disk draws X max_its arg ds ds1 : lower (ps_init ps) = "cp"%string ->
  p2_init_fit env ps disk draws X max_its arg ds = (ds1, None) ->
  exists s, p2_set_target X (ds_num ds) = Ok s /\ p2_init_cp env ps draws s = Ok (ds_num ds1).
Proof.
  intros Hi E. unfold p2_init_fit in E. cbn [ds_num with_it] in E.
  destruct (p2_set_target X (ds_num ds)) as [s|]; [|discriminate].
  unfold p2_init_components in E. rewrite Hi in E. cbn [ds_num with_num String.eqb Ascii.eqb Bool.eqb] in E.
  destruct (p2_init_cp env ps draws s) as [s1|] eqn:E1; [|discriminate].
  destruct (p2_loss _ _) as [l|]; [|discriminate]. injection E as <-. exists s. split; auto. rewrite E1.
  now destruct max_its.
Qed.
Lemma fit_ref cf ds ds' e : pf_fit_loop md cf ds = (ds', e) ->
  p2_ref (ds_num ds') = p2_ref (ds_num ds) /\ p2_X (ds_num ds') = p2_X (ds_num ds).
Proof.
  intros E. destruct (fit_state E) as [[x Ex]|(s0 & n & E0 & ->)].
  - now rewrite (prepare_fails Ex).
  - destruct (prepare_links E0) as (Er & EX & _).
    unfold md. pose proof (after_frame env ps s0 n) as HF. now rewrite (fr_ref HF), (fr_X HF), Er, EX.
Qed.
Lemma cp_fit_shares cf disk draws X max_its arg ds ds1 ds' e : lower (ps_init ps) = "cp"%string ->
  p2_init_fit env ps disk draws X max_its arg ds = (ds1, None) ->
  p2_fit env ps cf disk draws X max_its arg ds = (ds', e) ->
  exists P, p2_Ps (ds_num ds') = repeat P (length (p2_X (ds_num ds'))).
Proof.
  intros Hi E1 E. destruct (init_fit_cp Hi E1) as (s & _ & Es). destruct (init_cp_shares Es) as (EX & a & EP & _).
  unfold p2_fit in E. rewrite E1 in E. destruct (fit_ref E) as [Er EX'].
  exists (hread (p2_heap (ds_num ds')) a). unfold p2_Ps. rewrite Er, EP, EX', EX. apply map_repeat'.
Qed.

(** *** Entry points *)
Lemma fit_transform_precomputed cf disk draws X max_its arg ds : lower (ps_init ps) = "precomputed"%string ->
  exists ds' e, p2_fit_transform env ps cf disk draws X max_its arg ds = (ds', Err e) /\
    ((exists s, p2_set_target X (ds_num ds) = Ok s) -> e = AttributeError).
Proof.
  intros Hi. unfold p2_fit_transform, p2_fit, p2_init_fit. cbn [ds_num with_it].
  destruct (p2_set_target X (ds_num ds)) as [s|x].
  - unfold p2_init_components. rewrite Hi. cbn [String.eqb Ascii.eqb Bool.eqb]. eauto.
  - do 2 eexists. split; [reflexivity|]. intros [s E]. discriminate.
Qed.
Lemma svd_raises cf disk draws X max_its arg ds : lower (ps_init ps) = "svd"%string ->
  exists ds' e, p2_fit env ps cf disk draws X max_its arg ds = (ds', Some e) /\
    ((exists s, p2_set_target X (ds_num ds) = Ok s) -> e = TypeError).
Proof.
  intros Hi. unfold p2_fit, p2_init_fit. cbn [ds_num with_it].
  destruct (p2_set_target X (ds_num ds)) as [s|x] eqn:E.
  2:{ do 2 eexists. split; [reflexivity|]. intros [s E1]. discriminate. }
  unfold p2_init_components. rewrite Hi. cbn [String.eqb Ascii.eqb Bool.eqb ds_num with_num].
  assert (EX : exists sh, p2_X_shape (p2_X s) = Ok sh).
  { unfold p2_set_target in E. destruct (match X with Slices Xs => Ok Xs | Tensor X => frontal_slices X end) as [Xs|]; [|discriminate].
    cbn [bind] in E. destruct (p2_X_shape Xs) eqn:Es; [|discriminate]. injection E as <-. eauto. }
  destruct EX as [sh EX]. unfold p2_init_svd. rewrite EX. unfold p2_X_shape in EX.
  destruct (list_get (p2_X s) 0); [|discriminate]. cbn [bind] in EX. destruct (np_len _); [|discriminate]. cbn [bind] in EX.
  destruct (mapM _ _) as [js|]; [|discriminate]. injection EX as <-. cbn. eauto.
Qed.

Lemma sum_width_num nI Xs : INR nI * INR (list_sum (map (width Xs) (seq 0 (length Xs)))) =
  INR (list_sum (map (fun k => nI * width Xs k)%nat (seq 0 (length Xs)))).
Proof.
  rewrite <- mult_INR. f_equal. induction (seq 0 (length Xs)) as [|k l IH]; cbn [map list_sum fold_right]; [lia|].
  fold (list_sum (map (width Xs) l)). fold (list_sum (map (fun k => nI * width Xs k)%nat l)). rewrite <- IH. lia.
Qed.
Lemma mse_ok K nI s : p2_ok K nI s -> pr_num (p2_ref s) = list_sum (map (width (p2_X s)) (seq 0 (length (p2_X s)))) ->
  p2_MSE s = Ok (xdivR (total_err K nI s) (INR (list_sum (map (width (p2_X s)) (seq 0 (length (p2_X s))))))).
Proof. intros H E. unfold p2_MSE. rewrite (p2_SSE_ok H), E. reflexivity. Qed.
(** Number of entries of the data *)
Definition entries (nI : nat) (Xs : list nd) : nat := list_sum (map (fun k => nI * width Xs k)%nat (seq 0 (length Xs))).
Lemma random_mse K nI cf disk draws Xs max_its arg ds ds' e : lower (ps_init ps) = "random"%string ->
  ps_rank ps = K -> (0 < K)%nat -> (0 < nI)%nat -> ps_ridge ps = None -> slices_ok nI Xs -> draws_ok K nI Xs draws ->
  (forall k, (k < length Xs)%nat -> (K <= width Xs k)%nat /\ qr_works_on (width Xs k) K (env_qr cenv)) ->
  p2_fit env ps cf disk draws (Slices Xs) max_its arg ds = (ds', e) ->
  forall l, p2_SSE (ds_num ds') = Ok l -> p2_MSE (ds_num ds') = Ok (Fin (INR nI * (l / INR (entries nI Xs)))).
Proof.
  intros Hi HK HK0 HnI HR HX HD Hqr E l El.
  destruct (@random_init_fit_ok K nI disk draws Xs max_its arg ds) as (ds1 & E1 & _ & _ & _ & En & _); auto.
  unfold p2_fit in E. rewrite E1 in E. destruct (fit_ref E) as [Er _].
  unfold p2_MSE. rewrite El, Er, En. cbn [bind]. unfold entries. rewrite <- sum_width_num. f_equal.
  set (d := INR (list_sum (map (width Xs) (seq 0 (length Xs))))).
  assert (Hd : d <> 0).
  { apply not_0_INR. destruct HX as [Hne _]. destruct (length Xs) as [|n] eqn:El'; [destruct Xs; [congruence|discriminate]|].
    destruct (Hqr 0%nat ltac:(lia)) as [Hw _]. cbn [seq map list_sum fold_right]. lia. }
  assert (Hn : INR nI <> 0) by (apply not_0_INR; lia).
  unfold xdivR. destruct (Req_EM_T d 0); [contradiction|]. f_equal. field. auto.
Qed.
End Init.
