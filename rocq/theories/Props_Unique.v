(** Property C93: when a tensor determines its components. *)
From Verif Require Import Metrics CP CMTF CPFacts CMTFSpec CMTFFacts UniqueSpec Unique UniqueCoupled NumPyFacts CPExamples CoreValue.
From Verif Require Import Prelude Lin.
Local Open Scope R_scope.

(** *** C93.  Two modes with independent columns, any two components different in some other mode: every decomposition of
    the tensor with as many components has the same components. *)
Theorem C93_components_determined : forall K Ts w Es v, mats K Ts -> mats K Es -> rows Ts = rows Es -> identifiable K Ts ->
  (forall c, (c < K)%nat -> w c <> 0) ->
  (forall idx, valid idx (rows Ts) -> cp_entry Ts w K idx = cp_entry Es v K idx) ->
  exists q, same_components K w Ts v Es q /\
    (forall m c, (m < length Ts)%nat -> (c < K)%nat -> multiple_columns (nth m Ts m0) (nth m Es m0) c (nth c q 0%nat)) /\
    forall E d, In E Es -> (d < K)%nat -> clen E d <> 0.
Proof.
  intros K Ts w Es v HT HE Hr HI Hw Heq. destruct (components_unique HT HE Hr HI Hw Heq) as (q & Hq).
  exists q. split; [exact Hq|]. exact (unique_columns HT HE Hr HI Hw Hq).
Qed.
Print Assumptions C93_components_determined.

(** factor_match_score then returns 1 up to its regularisation. *)
Theorem C93_score : forall red K Ts Es l, mats K Ts -> mats K Es -> rows Ts = rows Es -> identifiable K Ts -> (0 < K)%nat ->
  (forall idx, valid idx (rows Ts) -> cp_entry Ts unit_weights K idx = cp_entry Es unit_weights K idx) ->
  0 < l -> (forall T c, In T Ts -> (c < K)%nat -> l <= clen T c) -> (forall E d, In E Es -> (d < K)%nat -> l <= clen E d) ->
  exists s p, factor_match_score Ts Es true (reduction_name red) = Ok (Fin s, Some p) /\ kept_share l (length Ts) <= s.
Proof. exact unique_score. Qed.
Print Assumptions C93_score.

(** A Kruskal tensor explaining another one completely has its components. *)
Theorem C93_all_explained : forall junk junk' K Ts w Es v k k' X Y,
  mats K Ts -> mats K Es -> rows Ts = rows Es -> identifiable K Ts ->
  is_vec K w -> is_vec K v -> (forall c, (c < K)%nat -> vget w c <> 0) ->
  kt_init Ts (Some w) = Ok k -> kt_init Es (Some v) = Ok k' ->
  kt_construct junk k = Ok X -> kt_construct junk' k' = Ok Y -> percent_explained X Y = Ok (Fin 1) ->
  exists q, same_components K (vget w) Ts (vget v) Es q.
Proof. exact perfect_reconstruction. Qed.
Print Assumptions C93_all_explained.

(** A CP_ALS model with loss 0 has found the components of its data. *)
Theorem C93_exact_fit : forall env junk K Ts w s, cp_coherent K s -> mats K Ts -> identifiable K Ts -> is_vec K w ->
  (forall c, (c < K)%nat -> vget w c <> 0) ->
  kt_construct junk {| kt_rank := K; kt_fms := Ts; kt_w := w |} = Ok (cp_X s) -> cp_SSE env s = Ok 0 ->
  exists q, same_components K (vget w) Ts (vget (kt_w (cp_dec s))) (kt_fms (cp_dec s)) q.
Proof. exact exact_fit. Qed.
Print Assumptions C93_exact_fit.

(** A CMTF_ALS model with loss 0 has found them too, and the parts of the coupled matrices that go with them wherever the
    columns of the coupled mode are independent. *)
Theorem C93_exact_coupled_fit : forall env junk K ms Ts w s, cm_ok K ms s -> mats K Ts -> identifiable K Ts -> is_vec K w ->
  (forall c, (c < K)%nat -> vget w c <> 0) ->
  kt_construct junk {| kt_rank := K; kt_fms := Ts; kt_w := w |} = Ok (cp_X (cm_cp s)) -> cmtf_SSE env s = Ok 0 ->
  exists q, same_components K (vget w) Ts (vget (kt_w (cm_dec s))) (cm_fms s) q /\
    forall i A, (i < length ms)%nat ->
      let T := nth (nth i ms 0%nat) Ts m0 in
      let E := nth (nth i ms 0%nat) (cm_fms s) m0 in
      independent_columns (nrows T) K T ->
      (forall a b, (a < nrows T)%nat -> (b < ncols (nth i (cm_Y s) m0))%nat ->
         mget (nth i (cm_Y s) m0) a b = sum K (fun r => mget T a r * mget A b r)) ->
      forall c a b, (c < K)%nat -> (a < nrows T)%nat -> (b < ncols (nth i (cm_Y s) m0))%nat ->
        mget T a c * mget A b c = mget E a (nth c q 0%nat) * mget (nth i (cm_V s) m0) b (nth c q 0%nat).
Proof. exact coupled_exact_fit. Qed.
Print Assumptions C93_exact_coupled_fit.

(** Components that agree in all other modes are not determined. *)
Theorem C93_parallel_components_refuted : exists Ts Es, mats 2 Ts /\ mats 2 Es /\ rows Ts = rows Es /\
  independent_columns 2 2 (nth 0 Ts m0) /\ independent_columns 2 2 (nth 1 Ts m0) /\
  (forall T c, In T Ts -> (c < 2)%nat -> clen T c <> 0) /\
  (forall idx, valid idx (rows Ts) -> cp_entry Ts unit_weights 2 idx = cp_entry Es unit_weights 2 idx) /\
  forall q, ~ same_components 2 unit_weights Ts unit_weights Es q.
Proof.
  exists [mk [2; 2]%nat [1; 0; 0; 1]; mk [2; 2]%nat [1; 0; 0; 1]; mk [1; 2]%nat [1; 1]],
         [mk [2; 2]%nat [1; 0; 1; 1]; mk [2; 2]%nat [1; -1; 0; 1]; mk [1; 2]%nat [1; 1]].
  split; [repeat constructor|]. split; [repeat constructor|]. split; [reflexivity|].
  split; [apply two_by_two; lra|]. split; [apply two_by_two; lra|]. split; [|split].
  - intros T c [<-|[<-|[<-|[]]]] Hc E; destruct c as [|[|c]]; try lia; unfold clen in E; apply sqrt_eq_0 in E;
      try (ev_in E; lra); ev; lra.
  - intros idx Hv. apply valid_cons_inv in Hv as (i & idx1 & -> & Hi & Hv).
    apply valid_cons_inv in Hv as (j & idx2 & -> & Hj & Hv). apply valid_cons_inv in Hv as (k & idx3 & -> & Hk & Hv).
    apply valid_nil_inv in Hv; subst. cbn in Hi, Hj, Hk.
    destruct i as [|[|i]]; [| |lia]; (destruct j as [|[|j]]; [| |lia]); (destruct k as [|k]; [|lia]); ev; ring.
  - intros q (Hq & H). destruct (assignment_onto Hq (ltac:(lia) : (0 < 2)%nat)) as (c & Hc & E).
    specialize (H c [1; 0; 0]%nat Hc). rewrite E in H.
    assert (Hv : valid [1; 0; 0]%nat [2; 2; 1]%nat) by (repeat constructor; lia). specialize (H Hv).
    destruct c as [|[|c]]; [| |lia]; ev_in H; lra.
Qed.
Print Assumptions C93_parallel_components_refuted.

(** Two components and the same ones in the other order with other scales *)
Definition uq_T : list nd := [mk [2; 2]%nat [1; 0; 0; 1]; mk [2; 2]%nat [1; 1; 0; 1]; mk [2; 2]%nat [1; 1; 1; -1]].
Definition uq_E : list nd := [mk [2; 2]%nat [0; 2; 1; 0]; mk [2; 2]%nat [3; 1; 3; 0]; mk [2; 2]%nat [1 / 3; 1 / 2; - (1 / 3); 1 / 2]].
Example C93_example : identifiable 2 uq_T /\
  (forall idx, valid idx (rows uq_T) -> cp_entry uq_T unit_weights 2 idx = cp_entry uq_E unit_weights 2 idx) /\
  same_components 2 unit_weights uq_T unit_weights uq_E [1; 0]%nat.
Proof.
  assert (Hidx : forall (P : list nat -> Prop), (forall i j k, (i < 2)%nat -> (j < 2)%nat -> (k < 2)%nat -> P [i; j; k]) ->
            forall idx, valid idx [2; 2; 2]%nat -> P idx).
  { intros P H idx Hv. apply valid_cons_inv in Hv as (i & idx1 & -> & Hi & Hv).
    apply valid_cons_inv in Hv as (j & idx2 & -> & Hj & Hv). apply valid_cons_inv in Hv as (k & idx3 & -> & Hk & Hv).
    apply valid_nil_inv in Hv; subst. auto. }
  split; [|split].
  - split.
    + intros T c [<-|[<-|[<-|[]]]] Hc E; destruct c as [|[|c]]; try lia; unfold clen in E; apply sqrt_eq_0 in E;
        try (ev_in E; lra); ev; lra.
    + exists 0%nat, 1%nat. split; [cbn; lia|]. split; [apply two_by_two; lra|]. split; [apply two_by_two; lra|].
      intros c d Hcd. exists 2%nat. split; [cbn; lia|]. split; [lia|]. split; [lia|]. intros x y H.
      replace c with 0%nat in H by lia. replace d with 1%nat in H by lia.
      pose proof (H 0%nat ltac:(cbn; lia)) as E1. pose proof (H 1%nat ltac:(cbn; lia)) as E2. ev_in E1. ev_in E2. lra.
  - apply Hidx. intros i j k Hi Hj Hk.
    destruct i as [|[|i]]; [| |lia]; (destruct j as [|[|j]]; [| |lia]); (destruct k as [|[|k]]; [| |lia]); ev; field.
  - split; [split; [reflexivity|split; [repeat constructor; cbn; intuition lia|repeat constructor; lia]]|].
    intros c idx Hc. revert idx. apply Hidx. intros i j k Hi Hj Hk.
    destruct c as [|[|c]]; [| |lia]; (destruct i as [|[|i]]; [| |lia]); (destruct j as [|[|j]]; [| |lia]);
      (destruct k as [|[|k]]; [| |lia]); ev; field.
Qed.

(** The second model, coupled to a matrix with three columns, fits exactly. *)
Definition uq_X : nd := mk [2; 2; 2]%nat [1; 1; 0; 0; 1; -1; 1; -1].
Definition uq_A : nd := mk [3; 2]%nat [1; 2; 3; 4; 5; 6].
Definition uq_cm : cmtf_state :=
  {| cm_cp := start 2 uq_X uq_E [false; false; false] [false; false; false];
     cm_Y := [mk [2; 3]%nat [1; 3; 5; 2; 4; 6]]; cm_modes := [0%Z];
     cm_V := [mk [3; 2]%nat [2; 1 / 2; 4; 3 / 2; 6; 5 / 2]] |}.
Example C93_coupled_example : forall env, cm_ok 2 [0%nat] uq_cm /\ cmtf_SSE env uq_cm = Ok 0 /\
  kt_construct (fun _ _ => 0) {| kt_rank := 2; kt_fms := uq_T; kt_w := np_ones [2%nat] |} = Ok uq_X /\
  forall a b, (a < 2)%nat -> (b < 3)%nat ->
    mget (nth 0 (cm_Y uq_cm) m0) a b = sum 2 (fun r => mget (nth 0 uq_T m0) a r * mget uq_A b r).
Proof.
  intros env.
  assert (Hidx : forall (P : list nat -> Prop), (forall i j k, (i < 2)%nat -> (j < 2)%nat -> (k < 2)%nat -> P [i; j; k]) ->
            forall idx, valid idx [2; 2; 2]%nat -> P idx).
  { intros P H idx Hv. apply valid_cons_inv in Hv as (i & idx1 & -> & Hi & Hv).
    apply valid_cons_inv in Hv as (j & idx2 & -> & Hj & Hv). apply valid_cons_inv in Hv as (k & idx3 & -> & Hk & Hv).
    apply valid_nil_inv in Hv; subst. auto. }
  assert (HOK : cm_ok 2 [0%nat] uq_cm).
  { constructor; try reflexivity.
    - repeat split; cbn; try lia; repeat constructor; lia.
    - split; [repeat constructor|reflexivity].
    - split; reflexivity.
    - split; [reflexivity|]. split; [reflexivity|]. intros [|i] Hi; cbn in Hi; [|lia]. cbn. split; [lia|]. split; split; reflexivity. }
  split; [exact HOK|]. split; [|split].
  - rewrite (cmtf_SSE_ok env HOK). f_equal. ev. field.
  - destruct (@KruskalFacts.kt_construct_ok (fun _ _ => 0) 2 uq_T (np_ones [2%nat]))
      as (X & EX & HXw & HXs & HXe); [repeat constructor|split; reflexivity|cbn; lia|].
    rewrite EX. f_equal. apply nd_ext; [exact HXw|reflexivity|exact HXs|]. rewrite HXs. intros idx Hv. rewrite HXe by exact Hv.
    revert idx Hv. apply Hidx.
    intros i j k Hi Hj Hk.
    destruct i as [|[|i]]; [| |lia]; (destruct j as [|[|j]]; [| |lia]); (destruct k as [|[|k]]; [| |lia]); ev; field.
  - intros a b Ha Hb. destruct a as [|[|a]]; [| |lia]; (destruct b as [|[|[|b]]]; [| | |lia]); ev; ring.
Qed.
