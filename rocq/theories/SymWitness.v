(** Concrete runs for C79. *)
From Verif Require Import SymFacts BestFacts CMTFWitness Parafac2Examples Props_Quality Props_Best.
Local Open Scope R_scope.

(** A start given by the user and no loggers; a tolerance of 1/2 *)
Definition y_cs : cp_settings := {| cs_rank := 1; cs_init := "precomputed"; cs_ridge := None |}.
Definition y_cf : config := {| cf_freq := -1; cf_tol := / 2; cf_rel_tol := 0; cf_print := -1 |}.
Definition y_ds : dstate cp_state :=
  {| ds_num := fresh_cp None None; ds_it := 0; ds_max := 100; ds_rel := PInf; ds_prev := PInf; ds_logs := []; ds_file := None |}.
Definition y_arg (Us : list nd) : init_arg := DecArg {| kt_rank := 1; kt_fms := Us; kt_w := np_ones [1%nat] |}.

Lemma y_call X Us : data_ok X -> factors_ok 1 X Us -> plain_call q_env y_cs 1 y_cf [] X 5 (y_arg Us) y_ds.
Proof.
  intros HX HU. split; [reflexivity|]. split; [reflexivity|]. split; [apply svd_row_works; lia|]. split; [exact HX|].
  split. { right. right. split; [reflexivity|]. eexists. split; [reflexivity|]. split; [exact HU|]. split; [apply is_vec_ones|reflexivity]. }
  split; [reflexivity|]. split; [now left|]. split; [now left|]. split; [lia|]. split; [intros lg []|]. left. cbn. lia.
Qed.
Lemma y_start env disk X Us : data_ok X -> factors_ok 1 X Us ->
  exists ds1, cp_init_fit env y_cs disk [] X (Some 5%Z) (y_arg Us) y_ds = (ds1, None) /\
    kt_fms (cp_dec (ds_num ds1)) = Us.
Proof.
  intros HX HU. set (k := {| kt_rank := 1; kt_fms := Us; kt_w := np_ones [1%nat] |}).
  assert (E : cp_init_components env y_cs disk [] (DecArg k) (targeted X y_ds) = (begun X y_ds k 0, None)).
  { destruct (@init_precomputed env y_cs disk [] (targeted X y_ds) k eq_refl) as [H _]. apply H. now apply factors_fit. }
  destruct (@start_ok env y_cs 1 disk [] X (Some 5%Z) (DecArg k) y_ds k 0%Z E HX HU (is_vec_ones 1) I eq_refl) as (F & _).
  eexists. split; [exact F|reflexivity].
Qed.

(** The same start for a matrix with singular values 3 and 1 and for ten times the matrix *)
Definition y_Us : list nd := [mk [2; 1]%nat [3; 0]; mk [2; 1]%nat [1; 0]].
Definition y_X : nd := mk [2; 2]%nat [30; 0; 0; 10].
Lemma y_data : data_ok y_X.
Proof. split; [reflexivity|]. split; [cbn; lia|]. repeat constructor; discriminate. Qed.
Lemma y_same : same_data 10 (fun _ i => i) b_X y_X.
Proof.
  split; [reflexivity|]. split; [intros; apply permutes_id|]. intros idx Hv. rewrite moved_id.
  inversion Hv as [|i n' l l' Hi Hl]; subst. inversion Hl as [|j n'' l1 l1' Hj Hl1]; subst. inversion Hl1; subst.
  destruct i as [|[|i]]; [| |lia]; (destruct j as [|[|j]]; [| |lia]); ev; lra.
Qed.
Lemma y_Us_ok X : shape X = [2; 2]%nat -> factors_ok 1 X y_Us.
Proof. intros E. split; [repeat constructor|now rewrite E]. Qed.

Lemma y_stops s p k : cp_coherent 1 s -> unit_w 1 s ->
  cp_stops (cp_model q_env y_cs) y_cf p PInf s k =
  do r <- rel_at (cp_model q_env y_cs) p PInf s k ; Ok (xltb (xabs r) (Fin (/ 2))).
Proof.
  intros HC HU. unfold cp_stops. rewrite (@loss_is_sse q_env y_cs 1 s k HC HU). cbn [bind].
  destruct (rel_at _ _ _ _ _) as [r|]; [|reflexivity]. cbn [bind]. f_equal.
  match goal with |- _ || ?b = _ => assert (Eb : b = false) end.
  { set (e := sse _ _ _ _). assert (He : 0 <= e) by apply sse_nonneg. clearbody e.
    cbn [md_norm2 cp_model]. set (q := cp_norm _ ^ 2). assert (Hq : 0 <= q) by apply pow2_ge_0. clearbody q.
    unfold xdiv, xdivR. cbn [y_cf cf_rel_tol]. destruct (Req_EM_T q 0) as [->|Hq0].
    - destruct (Rlt_dec e 0); [lra|]. destruct (Rlt_dec 0 e); reflexivity.
    - cbn. destruct (Rlt_dec (e / q) 0) as [Hlt|]; [|reflexivity].
      assert (0 <= e / q) by (apply Rmult_le_pos; [exact He|left; apply Rinv_0_lt_compat; lra]). lra. }
  rewrite Eb. now rewrite Bool.orb_false_r.
Qed.

Lemma units_matter : exists d d',
  cp_fit q_env y_cs y_cf no_disk [] b_X (Some 5%Z) (y_arg y_Us) y_ds = (d, None) /\
  cp_fit q_env y_cs y_cf no_disk [] y_X (Some 5%Z) (y_arg y_Us) y_ds = (d', None) /\
  ds_it d = 1%Z /\ (2 <= ds_it d')%Z.
Proof.
  pose proof (y_call b_X y_Us b_data (y_Us_ok b_X eq_refl)) as (A1 & A2 & A3 & A4 & A5 & A6 & A7 & A8 & A9 & A10 & A11).
  pose proof (y_call y_X y_Us y_data (y_Us_ok y_X eq_refl)) as (B1 & B2 & B3 & B4 & B5 & B6 & B7 & B8 & B9 & B10 & B11).
  destruct (@complete_fit q_env y_cs 1 y_cf no_disk [] b_X (Some 5%Z) _ y_ds A1 A2 A3 A4 A5 A6 A7 A8 A9 A10 A11)
    as (s1 & d & F1 & F & FL & HC & HU & HF & EX & Eit & Emax & _ & Eprev & Erel).
  destruct (@complete_fit q_env y_cs 1 y_cf no_disk [] y_X (Some 5%Z) _ y_ds B1 B2 B3 B4 B5 B6 B7 B8 B9 B10 B11)
    as (s2 & d' & F1' & F' & FL' & HC' & HU' & HF' & EX' & Eit' & Emax' & _ & Eprev' & Erel').
  destruct (y_start q_env no_disk b_X y_Us b_data (y_Us_ok b_X eq_refl)) as (z1 & G1 & Ez1). rewrite F1 in G1. injection G1 as <-.
  destruct (y_start q_env no_disk y_X y_Us y_data (y_Us_ok y_X eq_refl)) as (z2 & G2 & Ez2). rewrite F1' in G2. injection G2 as <-.
  exists d, d'. split; [exact F|]. split; [exact F'|].
  assert (L0 : sse b_X y_Us unit_weights 1 = 1) by (ev; lra).
  assert (M0 : sse y_X y_Us unit_weights 1 = 829) by (ev; lra).
  assert (HL : forall k, sse b_X (kt_fms (cp_dec (state_after (cp_model q_env y_cs) (ds_num s1) k))) unit_weights 1 = 1).
  { intros k. apply Rle_antisym.
    - rewrite <- L0, <- Ez1. pose proof (@sse_antitone q_env y_cs 1 (ds_num s1) A3 A1 HC HF 0 k ltac:(lia)) as H. now rewrite EX in H.
    - destruct (@after_coherent q_env y_cs 1 (ds_num s1) k HC) as [H1 H2]. pose proof (proj2 (co_fac H1)) as Hr.
      rewrite (sp_X H2), EX in Hr. assert (HO : left_out 2 1 (mk [2]%nat [3; 1]) = 1) by (ev; lra). rewrite <- HO.
      assert (Hn : (0 < length (shape b_X))%nat) by (cbn; lia). exact (C78_no_model_beats b_X _ _ 1 0 _ _ _ Hr Hn b_X_thin). }
  assert (HM : forall k, sse y_X (kt_fms (cp_dec (state_after (cp_model q_env y_cs) (ds_num s2) (S k)))) unit_weights 1 = 100).
  { intros k.
    destruct (@runs_same q_env q_env y_cs y_cs 1 10 (fun _ i => i) (fun r => r) (fun _ => 1) (ds_num s1) (ds_num s2))
      as (b & _ & _ & H); auto; try lra.
    - apply permutes_id.
    - rewrite EX, EX'. apply y_same.
    - rewrite Ez1, Ez2. split; [reflexivity|]. intros; ring.
    - destruct (H k) as [_ H1]. rewrite EX, EX' in H1. rewrite H1, HL. lra. }
  destruct (cp_fit_lemma FL) as (n & Hn & _ & Hb & He). destruct (He eq_refl) as [Hs Hi]. clear He.
  destruct (cp_fit_lemma FL') as (n' & Hn' & _ & Hb' & He'). destruct (He' eq_refl) as [Hs' Hi']. clear He'.
  rewrite Eprev, Erel, Ez1, L0 in Hb, Hs. rewrite Eprev', Erel', Ez2, M0 in Hb', Hs'. rewrite Emax, Eit in Hn, Hs. rewrite Emax', Eit' in Hn', Hs'.
  rewrite Eit in Hi. rewrite Eit' in Hi'. cbn in Hn, Hs, Hn', Hs'.
  assert (Z1 : cp_stops (cp_model q_env y_cs) y_cf (Fin 1) PInf (ds_num s1) 0 = Ok false) by (now rewrite y_stops).
  assert (Z2 : cp_stops (cp_model q_env y_cs) y_cf (Fin 829) PInf (ds_num s2) 0 = Ok false) by (now rewrite y_stops).
  assert (O1 : cp_stops (cp_model q_env y_cs) y_cf (Fin 1) PInf (ds_num s1) 1 = Ok true).
  { rewrite y_stops by assumption. cbn [rel_at prev_at bind]. rewrite (@loss_is_sse q_env y_cs 1 (ds_num s1) 1 HC HU), EX, HL.
    cbn [bind xsub xdiv]. unfold xdivR. destruct (Req_EM_T 1 0); [lra|]. cbn [xabs xltb].
    replace ((1 - 1) / 1) with 0 by lra. rewrite Rabs_R0. destruct (Rlt_dec 0 (/ 2)); [reflexivity|lra]. }
  assert (O2 : cp_stops (cp_model q_env y_cs) y_cf (Fin 829) PInf (ds_num s2) 1 = Ok false).
  { rewrite y_stops by assumption. cbn [rel_at prev_at bind]. rewrite (@loss_is_sse q_env y_cs 1 (ds_num s2) 1 HC' HU'), EX', HM.
    cbn [bind xsub xdiv]. unfold xdivR. destruct (Req_EM_T 829 0); [lra|]. cbn [xabs xltb].
    rewrite Rabs_right by lra. destruct (Rlt_dec ((829 - 100) / 829) (/ 2)); [lra|reflexivity]. }
  assert (N1 : n = 1%nat).
  { destruct n as [|[|n]]; auto.
    - destruct Hs as [Hs|Hs]; [discriminate|congruence].
    - specialize (Hb 1%nat ltac:(lia)). congruence. }
  assert (N2 : (2 <= n')%nat).
  { destruct n' as [|[|n']]; [| |lia].
    - destruct Hs' as [Hs'|Hs']; [discriminate|congruence].
    - destruct Hs' as [Hs'|Hs']; [discriminate|congruence]. }
  subst n. rewrite Hi, Hi'. split; [reflexivity|lia].
Qed.

(** Another svd routine: all signs the other way round *)
Definition svd_neg (A : nd) : res (nd * nd * nd) :=
  do (U, Sv, Vh) <- svd_row A ;
  Ok (tab2 1 1 (fun i r => - mget U i r), Sv, tab2 1 (ncols A) (fun r j => - mget Vh r j)).
Definition neg_env : cp_env :=
  {| env_svd := svd_neg; env_svd_u := env_svd_u q_env; env_qr := fun A => Ok A; env_nnls := fun A b => Ok b; env_junk := fun _ _ => 7 |}.
Lemma svd_neg_works : svd_works_on 1 1 svd_neg.
Proof.
  intros A HA. destruct (@svd_row_works 1 ltac:(lia) A HA) as (U & Sv & Vh & E & HS).
  unfold svd_neg. rewrite E. cbn [bind]. assert (Ec : ncols A = 1%nat) by (unfold ncols; now rewrite (proj2 HA)). rewrite Ec.
  do 3 eexists. split; [reflexivity|]. destruct HS as [s1 s2 s3 s4 s5 s6 s7 s8]. change (Nat.min 1 1) with 1%nat in *.
  constructor; change (Nat.min 1 1) with 1%nat; auto; try apply is_mat_tab2.
  - intros a b Ha Hb. rewrite <- (s4 a b Ha Hb). apply sum_ext. intros i Hi. rewrite !mget_tab2 by lia. ring.
  - intros a b Ha Hb. rewrite <- (s5 a b Ha Hb). apply sum_ext. intros i Hi. rewrite !mget_tab2 by lia. ring.
  - intros i j Hi Hj. rewrite (s8 i j Hi Hj). apply sum_ext. intros r Hr. rewrite !mget_tab2 by lia. ring.
Qed.
Lemma y_call_neg X Us : data_ok X -> factors_ok 1 X Us -> plain_call neg_env y_cs 1 y_cf [] X 5 (y_arg Us) y_ds.
Proof.
  intros HX HU. destruct (y_call X Us HX HU) as (A1 & A2 & A3 & A4 & A5 & A6 & A7 & A8 & A9 & A10 & A11).
  split; [exact A1|]. split; [exact A2|]. split; [exact svd_neg_works|]. split; [exact A4|]. split; [exact A5|].
  split; [exact A6|]. split; [exact A7|]. split; [exact A8|]. split; [exact A9|]. split; [intros lg []|exact A11].
Qed.

(** The data of the other examples times 6, rows exchanged; the start times 2 and 3, first matrix upside down *)
Definition y_flip (n i : nat) : nat := match n with O => (1 - i)%nat | _ => i end.
Definition y_X6 : nd := mk [2; 2]%nat [18; 24; 6; 12].
Definition y_start1 : list nd := [mk [2; 1]%nat [1; 5]; mk [2; 1]%nat [1; 2]].
Definition y_start6 : list nd := [mk [2; 1]%nat [10; 2]; mk [2; 1]%nat [3; 6]].
Definition y_a (n : nat) : R := match n with O => 2 | _ => 3 end.
Lemma y_flip_ok n : permutes 2 (y_flip n).
Proof.
  destruct n; [|apply permutes_id]. split; [intros; unfold y_flip; lia|]. intros i j Hi Hj E. unfold y_flip in E. lia.
Qed.
Lemma y_flipped : same_data 6 y_flip q_X y_X6.
Proof.
  split; [reflexivity|]. split.
  - intros n Hn. cbn in Hn. destruct n as [|[|n]]; [apply (y_flip_ok 0)|apply (y_flip_ok 1)|lia].
  - intros idx Hv. inversion Hv as [|i n' l l' Hi Hl]; subst. inversion Hl as [|j n'' l1 l1' Hj Hl1]; subst. inversion Hl1; subst.
    destruct i as [|[|i]]; [| |lia]; (destruct j as [|[|j]]; [| |lia]); ev; lra.
Qed.
Lemma y_starts : same_factors 1 y_a y_flip (fun r => r) y_start1 y_start6.
Proof.
  split; [reflexivity|]. intros [|[|n]] [|[|i]] [|r] Hn Hi Hr; cbn in Hn, Hi; try lia; ev; lra.
Qed.
Lemma y_start1_ok : factors_ok 1 q_X y_start1.
Proof. split; [repeat constructor|reflexivity]. Qed.
Lemma y_start6_ok : factors_ok 1 y_X6 y_start6.
Proof. split; [repeat constructor|reflexivity]. Qed.
Lemma y_X6_data : data_ok y_X6.
Proof. split; [reflexivity|]. split; [cbn; lia|]. repeat constructor; discriminate. Qed.
