(** Evolving and PARAFAC2 tensors (decompositions.py). *)
From Verif Require Export FlipFacts.
Set Implicit Arguments.
Unset Strict Implicit.
Local Open Scope R_scope.

Lemma list_get_ok {A} (l : list A) k d : (k < length l)%nat -> list_get l k = Ok (nth k l d).
Proof. intros H. unfold list_get. now rewrite (nth_error_nth' l d H). Qed.

Lemma mats_nth K Us k : mats K Us -> (k < length Us)%nat -> is_mat (nrows (nth k Us m0)) K (nth k Us m0).
Proof. intros H Hk. eapply mats_in; eauto. now apply nth_In. Qed.

Lemma construct_slice_ok nI nK R0 A C Bs k :
  is_mat nI R0 A -> is_mat nK R0 C -> mats R0 Bs -> (k < nK)%nat -> (k < length Bs)%nat ->
  exists s, construct_slice_of A C Bs k = Ok s /\ is_mat nI (nrows (nth k Bs m0)) s /\
    forall i j, (i < nI)%nat -> (j < nrows (nth k Bs m0))%nat -> mget s i j = slice_entry R0 A C Bs i j k.
Proof.
  intros HA HC HB Hk Hl. unfold construct_slice_of, np_len. assert (HC' := HC). destruct HC' as [_ ->]. cbn [bind].
  destruct (Nat.ltb_spec k nK); [|lia]. cbn [bind]. rewrite (list_get_ok m0 Hl). cbn [bind].
  pose proof (mats_nth HB Hl) as HBk. pose proof (is_vec_row HC Hk) as HCk.
  unfold np_mul. rewrite (broadcast_vec_mat Rmult HCk HBk). cbn [bind].
  set (sc := tab2 _ _ _). assert (Hsc : is_mat (nrows (nth k Bs m0)) R0 sc) by (unfold sc; auto).
  rewrite (matmul_ok HA (is_mat_transp Hsc)). eexists. split; [reflexivity|]. split; auto.
  intros i j Hi Hj. rewrite mget_tab2 by auto. apply sum_ext. intros r Hr.
  rewrite (mget_transp Hsc) by auto. unfold sc. rewrite mget_tab2 by auto.
  rewrite (vget_row HC) by auto. ring.
Qed.

Lemma construct_slice_out A C Bs nK R0 k : is_mat nK R0 C -> (nK <= k)%nat ->
  construct_slice_of A C Bs k = Err IndexError.
Proof.
  intros [_ HC] Hk. unfold construct_slice_of, np_len. rewrite HC. cbn [bind].
  destruct (Nat.ltb_spec k nK); [lia|reflexivity].
Qed.

(** *** Initialisation *)
Lemma check_all_same_size_ok R0 Bs : mats R0 Bs -> Bs <> [] ->
  exists b, check_all_same_size Bs = Ok b /\ (b = true <-> same_rows Bs).
Proof.
  intros HB Hne. destruct Bs as [|B0 Bs]; [congruence|].
  unfold check_all_same_size, list_get. cbn [nth_error bind].
  rewrite (shape_at_0 (proj1 (proj1 (@mats_cons R0 B0 Bs) HB))). cbn [bind].
  rewrite (mats_shapes HB). cbn [bind]. eexists. split; [reflexivity|].
  rewrite forallb_forall. unfold same_rows, rows. cbn [hd]. split.
  - intros H B HIn. symmetry. apply Nat.eqb_eq. apply H. now apply in_map.
  - intros H x Hx. apply in_map_iff in Hx as (B & <- & HIn). apply Nat.eqb_eq. symmetry. auto.
Qed.

Lemma slice_shapes_ok R0 (nI : nat) Bs : mats R0 Bs ->
  mapM (fun B => do j <- shape_at B 0 ; Ok (nI, j)) Bs = Ok (map (fun B => (nI, nrows B)) Bs).
Proof.
  intros HB. apply mapM_ok. intros B HIn. rewrite (shape_at_0 (mats_in HB HIn)). reflexivity.
Qed.

Lemma ev_init_ok nI R0 A Bs C warn : is_mat nI R0 A -> mats R0 Bs -> Bs <> [] ->
  exists b, ev_init A Bs C warn = Ok {| ev_rank := R0; ev_A := A; ev_B := Bs; ev_C := C; ev_warning := warn;
      ev_same := b; ev_slice_shapes := map (fun B => (nI, nrows B)) Bs;
      ev_num_elements := list_sum (rows Bs) |} /\ (b = true <-> same_rows Bs).
Proof.
  intros HA HB Hne. destruct (check_all_same_size_ok HB Hne) as (b & E & Hb). exists b. split; auto.
  unfold ev_init. rewrite (shape_at_1 HA). cbn [bind]. rewrite E. cbn [bind].
  rewrite (shape_at_0 HA). cbn [bind]. rewrite (slice_shapes_ok nI HB). cbn [bind].
  rewrite map_map. reflexivity.
Qed.

(** *** set_frontal *)
Lemma set_frontal_ok nI nJ nK a k s m : wf a -> shape a = [nI; nJ; nK] -> is_mat nI m s ->
  (k < nK)%nat -> (m <= nJ)%nat ->
  exists a', set_frontal a k s = Ok a' /\ wf a' /\ shape a' = [nI; nJ; nK] /\
    forall i j l, (i < nI)%nat -> (j < nJ)%nat -> (l < nK)%nat ->
      get a' [i; j; l] = if (Nat.eqb l k && Nat.ltb j m)%bool then mget s i j else get a [i; j; l].
Proof.
  intros Ha Hs [Hsw Hss] Hk Hm. unfold set_frontal. rewrite Hs, Hss.
  destruct (Nat.ltb_spec k nK); [|lia]. rewrite Nat.eqb_refl. destruct (Nat.leb_spec m nJ); [|lia]. cbn [andb].
  eexists. split; [reflexivity|]. split; [apply wf_tab|]. split; [reflexivity|].
  intros i j l Hi Hj Hl. rewrite get_tab; [reflexivity|]. now repeat apply valid_cons; auto using valid_nil.
Qed.

(** *** Construction *)
Lemma fold_max l j : fold_left Nat.max l j = Nat.max j (list_max l).
Proof. revert j; induction l; intros j; cbn; [lia|]. rewrite IHl. unfold list_max. lia. Qed.

Lemma list_max_in l x : In x l -> (x <= list_max l)%nat.
Proof. intros H. pose proof (proj1 (list_max_le l (list_max l)) (le_n _)) as HF. rewrite Forall_forall in HF. auto. Qed.

Lemma ev_shape_ok nI nK R0 e : is_mat nI R0 (ev_A e) -> is_mat nK R0 (ev_C e) -> mats R0 (ev_B e) -> ev_B e <> [] ->
  ev_shape e = Ok [nI; list_max (rows (ev_B e)); nK].
Proof.
  intros HA HC HB Hne. unfold ev_shape. rewrite (mats_shapes HB). cbn [bind].
  destruct (rows (ev_B e)) as [|j js] eqn:E.
  { exfalso. apply Hne. unfold rows in E. now apply map_eq_nil in E. }
  cbn [bind]. rewrite (shape_at_0 HA), (shape_at_0 HC). cbn [bind]. now rewrite fold_max.
Qed.

Lemma ev_construct_ok nI nK R0 e :
  is_mat nI R0 (ev_A e) -> is_mat nK R0 (ev_C e) -> mats R0 (ev_B e) -> ev_B e <> [] ->
  (length (ev_B e) <= nK)%nat -> length (ev_slice_shapes e) = length (ev_B e) ->
  (ev_warning e = false \/ ev_same e = true) ->
  exists T, ev_construct e = Ok T /\ wf T /\ shape T = [nI; list_max (rows (ev_B e)); nK] /\
    forall i j k, (i < nI)%nat -> (j < list_max (rows (ev_B e)))%nat -> (k < nK)%nat ->
      get T [i; j; k] = if (Nat.ltb k (length (ev_B e)) && Nat.ltb j (nrows (nth k (ev_B e) m0)))%bool
                        then slice_entry R0 (ev_A e) (ev_C e) (ev_B e) i j k else 0.
Proof.
  intros HA HC HB Hne Hl Hsl Hw. unfold ev_construct.
  assert (E : (ev_warning e && negb (ev_same e))%bool = false).
  { destruct Hw as [-> | ->]; auto. now destruct (ev_warning e). }
  rewrite E, (ev_shape_ok HA HC HB Hne). cbn [bind]. rewrite Hsl.
  set (W := list_max (rows (ev_B e))).
  destruct (@foldM_seq_inv nd (fun T k => do s <- ev_construct_slice e k ; set_frontal T k s)
    (fun q T => wf T /\ shape T = [nI; W; nK] /\
       forall i j k, (i < nI)%nat -> (j < W)%nat -> (k < nK)%nat ->
         get T [i; j; k] = if (Nat.ltb k q && Nat.ltb j (nrows (nth k (ev_B e) m0)))%bool
                           then slice_entry R0 (ev_A e) (ev_C e) (ev_B e) i j k else 0)
    0%nat (length (ev_B e)) (np_zeros [nI; W; nK])) as (T & ET & H1 & H2 & H3).
  - split; [apply wf_tab|]. split; [reflexivity|]. intros i j k Hi Hj Hk. cbn [Nat.ltb Nat.leb andb].
    unfold np_zeros. rewrite get_tab; auto. now repeat apply valid_cons; auto using valid_nil.
  - intros q T Hq (H1 & H2 & H3).
    destruct (@construct_slice_ok nI nK R0 (ev_A e) (ev_C e) (ev_B e) q) as (s & Es & Hs & Hse); auto; try lia.
    unfold ev_construct_slice. rewrite Es. cbn [bind].
    destruct (@set_frontal_ok nI W nK T q s (nrows (nth q (ev_B e) m0))) as (T' & ET & HT1 & HT2 & HT3); auto; try lia.
    { apply list_max_in. apply in_map. apply nth_In. lia. }
    exists T'. split; auto. split; auto. split; auto.
    intros i j k Hi Hj Hk. rewrite HT3 by auto.
    destruct (Nat.eqb_spec k q) as [->|Hkq].
    + destruct (Nat.ltb_spec q (S q)); [|lia]. cbn [andb].
      destruct (Nat.ltb_spec j (nrows (nth q (ev_B e) m0))); [now rewrite Hse|].
      rewrite H3 by auto. destruct (Nat.ltb_spec q q); [lia|]. reflexivity.
    + cbn [andb]. rewrite H3 by auto.
      replace (Nat.ltb k (S q)) with (Nat.ltb k q); auto.
      destruct (Nat.ltb_spec k q), (Nat.ltb_spec k (S q)); auto; lia.
  - exists T. split; auto.
Qed.

Lemma ev_construct_warns e : ev_warning e = true -> ev_same e = false -> ev_construct e = Err WarningExc.
Proof. intros H1 H2. unfold ev_construct. now rewrite H1, H2. Qed.

(** A slice number past the rows of C makes the construction fail. *)
Lemma ev_construct_too_many nI nK R0 e :
  is_mat nI R0 (ev_A e) -> is_mat nK R0 (ev_C e) -> mats R0 (ev_B e) ->
  (nK < length (ev_B e))%nat -> length (ev_slice_shapes e) = length (ev_B e) ->
  (ev_warning e = false \/ ev_same e = true) -> ev_construct e = Err IndexError.
Proof.
  intros HA HC HB Hl Hsl Hw. unfold ev_construct.
  assert (E : (ev_warning e && negb (ev_same e))%bool = false).
  { destruct Hw as [-> | ->]; auto. now destruct (ev_warning e). }
  assert (Hne : ev_B e <> []) by (intros E'; rewrite E' in Hl; cbn in Hl; lia).
  rewrite E, (ev_shape_ok HA HC HB Hne). cbn [bind]. rewrite Hsl.
  set (W := list_max (rows (ev_B e))). set (f := fun T k => do s <- ev_construct_slice e k; set_frontal T k s).
  replace (length (ev_B e)) with (nK + S (length (ev_B e) - nK - 1))%nat by lia.
  rewrite seq_app. cbn [seq Nat.add].
  assert (Hf : exists T, foldM f (seq 0 nK) (np_zeros [nI; W; nK]) = Ok T).
  { destruct (@foldM_seq_inv nd f (fun q T => wf T /\ shape T = [nI; W; nK]) 0%nat nK (np_zeros [nI; W; nK])) as (T & ET & _).
    - split; [apply wf_tab|reflexivity].
    - intros q T Hq (H1 & H2).
      destruct (@construct_slice_ok nI nK R0 (ev_A e) (ev_C e) (ev_B e) q) as (s & Es & Hs & Hse); auto; try lia.
      destruct (@set_frontal_ok nI W nK T q s (nrows (nth q (ev_B e) m0))) as (T' & ET & HT1 & HT2 & HT3); auto; try lia.
      { apply list_max_in. apply in_map. apply nth_In. lia. }
      exists T'. unfold f, ev_construct_slice. rewrite Es. cbn [bind]. auto.
    - eauto. }
  destruct Hf as (T & ET).
  assert (Happ : forall l1 l2 (b : nd), foldM f (l1 ++ l2) b = do b' <- foldM f l1 b; foldM f l2 b').
  { induction l1; intros l2 b; cbn; auto. destruct (f b a); cbn; auto. }
  rewrite Happ, ET. cbn [bind foldM]. unfold f at 1, ev_construct_slice.
  now rewrite (@construct_slice_out (ev_A e) (ev_C e) (ev_B e) nK R0 nK HC (le_n _)).
Qed.

(** *** PARAFAC2 *)
Definition projected (Rb Rr : nat) (F P : nd) : nd :=
  tab2 (nrows P) Rr (fun j r => sum Rb (fun s => mget P j s * mget F s r)).

Lemma projected_factor_ok Rb R0 F Ps : is_mat Rb R0 F -> mats Rb Ps ->
  projected_factor F Ps = Ok (map (projected Rb R0 F) Ps).
Proof.
  intros HF HP. apply mapM_ok. intros P HIn. now rewrite (matmul_ok (mats_in HP HIn) HF).
Qed.

Lemma mats_projected Rb R0 F Ps : mats R0 (map (projected Rb R0 F) Ps).
Proof.
  unfold mats. rewrite Forall_map. apply Forall_forall. intros P _.
  assert (H : is_mat (nrows P) R0 (projected Rb R0 F P)) by (unfold projected; auto).
  now rewrite (is_mat_nrows H).
Qed.
Lemma rows_projected Rb R0 F Ps : rows (map (projected Rb R0 F) Ps) = rows Ps.
Proof. unfold rows. rewrite map_map. apply map_ext. reflexivity. Qed.

Lemma pf_init_ok nI R0 A F C Ps warn Rb : is_mat nI R0 A -> is_mat Rb R0 F -> mats Rb Ps -> Ps <> [] ->
  exists b, pf_init A F C Ps warn = Ok {| pf_blueprint := F; pf_P := Ps;
      pf_ev := {| ev_rank := R0; ev_A := A; ev_B := map (projected Rb R0 F) Ps; ev_C := C; ev_warning := warn;
        ev_same := b; ev_slice_shapes := map (fun P => (nI, nrows P)) Ps;
        ev_num_elements := list_sum (rows Ps) |} |} /\ (b = true <-> same_rows Ps).
Proof.
  intros HA HF HP Hne. destruct (check_all_same_size_ok HP Hne) as (b & E & Hb). exists b. split; auto.
  unfold pf_init. rewrite (shape_at_1 HA). cbn [bind]. rewrite E. cbn [bind].
  rewrite (shape_at_0 HA). cbn [bind]. rewrite (projected_factor_ok HF HP). cbn [bind].
  rewrite (slice_shapes_ok nI (mats_projected Rb R0 F Ps)). cbn [bind].
  rewrite !map_map. reflexivity.
Qed.

Lemma projected_gram Rb R0 F P a b : orth_cols (nrows P) Rb (mget P) -> (a < R0)%nat -> (b < R0)%nat ->
  sum (nrows P) (fun j => mget (projected Rb R0 F P) j a * mget (projected Rb R0 F P) j b) =
  sum Rb (fun s => mget F s a * mget F s b).
Proof.
  intros HO Ha Hb.
  rewrite (@sum_ext (nrows P) _ (fun j => sum Rb (fun s => sum Rb (fun t => (mget F s a * mget F t b) * (mget P j s * mget P j t))))).
  2:{ intros j Hj. unfold projected. rewrite !mget_tab2 by auto. rewrite sum_mul. apply sum_ext. intros s Hs.
      apply sum_ext. intros t Ht. ring. }
  rewrite sum_swap. apply sum_ext. intros s Hs. rewrite sum_swap.
  rewrite (@sum_ext Rb _ (fun t => delta s t * (mget F s a * mget F t b))).
  2:{ intros t Ht. rewrite sum_scal_l, HO by auto. ring. }
  now rewrite sum_delta_l.
Qed.

(** *** From Kruskal to evolving *)
Lemma np_map_id_mul B : wf B -> np_map (fun x => 1 * x) B = B.
Proof.
  intros H. destruct B as [sh d]. unfold np_map. cbn. f_equal.
  rewrite <- (map_id d) at 2. apply map_ext. intros. ring.
Qed.

Lemma ev_from_kruskal_ok nI nJ nK K A B C w : is_mat nI K A -> is_mat nJ K B -> is_mat nK K C -> (0 < nK)%nat ->
  ev_from_kruskal {| kt_rank := K; kt_fms := [A; B; C]; kt_w := w |} =
  Ok {| ev_rank := K; ev_A := A; ev_B := repeat B nK; ev_C := C; ev_warning := true; ev_same := true;
        ev_slice_shapes := map (fun B => (nI, nrows B)) (repeat B nK);
        ev_num_elements := list_sum (rows (repeat B nK)) |}.
Proof.
  intros HA HB HC HK. unfold ev_from_kruskal. cbn [kt_fms]. unfold np_len. destruct HC as [_ ->]. cbn [bind].
  rewrite np_map_id_mul by apply HB.
  assert (HBs : mats K (repeat B nK)).
  { apply Forall_forall. intros b Hb. apply repeat_spec in Hb. subst. now rewrite (is_mat_nrows HB). }
  destruct (@ev_init_ok nI K A (repeat B nK) C true HA HBs) as (b & E & Hb).
  { destruct nK; [lia|discriminate]. }
  rewrite E. do 2 f_equal. apply Hb. intros x Hx. apply repeat_spec in Hx. subst.
  destruct nK; [lia|reflexivity].
Qed.

Lemma nth_repeat_lt {A} (x d : A) n k : (k < n)%nat -> nth k (repeat x n) d = x.
Proof. revert k; induction n; intros [|k] H; cbn; auto; try lia. apply IHn. lia. Qed.

Lemma ev_from_kruskal_entries nI nJ nK K A B C : is_mat nI K A -> is_mat nJ K B -> is_mat nK K C -> (0 < nK)%nat ->
  forall w, exists e T, ev_from_kruskal {| kt_rank := K; kt_fms := [A; B; C]; kt_w := w |} = Ok e /\
    ev_construct e = Ok T /\ wf T /\ shape T = [nI; nJ; nK] /\
    forall idx, valid idx [nI; nJ; nK] -> get T idx = cp_entry [A; B; C] (fun _ => 1) K idx.
Proof.
  intros HA HB HC HK w.
  pose proof (ev_from_kruskal_ok w HA HB HC HK) as E. eexists. set (e := Build_evolving _ _ _ _ _ _ _ _) in E.
  assert (HBs : mats K (repeat B nK)).
  { apply Forall_forall. intros b Hb. apply repeat_spec in Hb. subst. now rewrite (is_mat_nrows HB). }
  destruct (@ev_construct_ok nI nK K e) as (T & ET & HT & HS & He); cbn [e ev_A ev_B ev_C]; auto.
  { destruct nK; [lia|discriminate]. }
  { rewrite repeat_length. auto. }
  { cbn. now rewrite map_length. }
  assert (Hmax : list_max (rows (repeat B nK)) = nJ).
  { destruct nK; [lia|]. change (Nat.max (nrows B) (list_max (rows (repeat B nK))) = nJ).
    rewrite (is_mat_nrows HB).
    assert (Hm : (list_max (rows (repeat B nK)) <= nJ)%nat); [|lia].
    apply list_max_le, Forall_forall. intros x Hx. apply in_map_iff in Hx as (b & <- & Hb).
    apply repeat_spec in Hb. subst. now rewrite (is_mat_nrows HB). }
  cbn [e ev_B] in HS, He. rewrite Hmax in *.
  exists T. split; [exact E|]. split; auto. split; auto. split; auto.
  intros idx Hv. apply valid_cons_inv in Hv as (i & t & -> & Hi & Hv).
  apply valid_cons_inv in Hv as (j & t' & -> & Hj & Hv). apply valid_cons_inv in Hv as (k & t'' & -> & Hk & Hv).
  apply valid_nil_inv in Hv; subst t''. rewrite He by auto. rewrite repeat_length.
  destruct (Nat.ltb_spec k nK); [|lia]. cbn [andb].
  rewrite nth_repeat_lt by auto. rewrite (is_mat_nrows HB). destruct (Nat.ltb_spec j nJ); [|lia].
  unfold slice_entry, cp_entry. apply sum_ext. intros r Hr. cbn [ev_A ev_C e colprod].
  rewrite nth_repeat_lt by auto. ring.
Qed.
