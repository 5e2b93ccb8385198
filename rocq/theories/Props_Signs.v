(** Property C65: data-driven signs (utils.get_signs, KruskalTensor.get_signs). *)
From Verif Require Import SignScores.
Local Open Scope R_scope.

(** *** C65.  The score of a column is the signed sum of squares of its loadings on the data. *)
Theorem C65_scores : forall lstsq n k m U X,
  lstsq_contract lstsq -> is_mat n k U -> is_mat n m X ->
  exists D g w, is_lstsq n k m U X D /\ get_signs lstsq U (Some X) = Ok (g, w) /\ is_vec k g /\ is_vec k w /\
    forall r, (r < k)%nat -> vget w r = signed_sum m (mget D r) /\ vget g r = sgn (vget w r).
Proof.
  intros lstsq n k m U X HL HU HX. destruct (HL n k m U X HU HX) as (D & E & HD).
  destruct (get_signs_data HU HX E HD) as (g & w & H). exists D, g, w. split; [exact HD|exact H].
Qed.
Print Assumptions C65_scores.

(** Changing the signs of some columns changes the signs of exactly these scores. *)
Theorem C65_scores_follow_signs : forall lstsq n k m U V X s,
  lstsq_contract lstsq -> is_mat n k U -> is_mat n k V -> is_mat n m X -> column_signs n k s U V ->
  exists g w g' w', get_signs lstsq U (Some X) = Ok (g, w) /\ get_signs lstsq V (Some X) = Ok (g', w') /\
    is_vec k w /\ is_vec k w' /\
    forall r, (r < k)%nat -> vget w' r = s r * vget w r /\ vget g' r = s r * vget g r.
Proof. exact scores_follow_signs. Qed.
Print Assumptions C65_scores_follow_signs.

(** Where the data are U D0 and the columns of U independent, the scores are those of the rows of D0; a non-negative,
    non-zero row gives the sign +1. *)
Theorem C65_scores_of_exact_data : forall lstsq n k m U X D0,
  lstsq_contract lstsq -> is_mat n k U -> is_mat n m X -> independent_columns n k U ->
  (forall i j, (i < n)%nat -> (j < m)%nat -> mget X i j = mprod k (mget U) D0 i j) ->
  exists g w, get_signs lstsq U (Some X) = Ok (g, w) /\
    forall r, (r < k)%nat -> vget w r = signed_sum m (D0 r) /\
      ((forall j, (j < m)%nat -> 0 <= D0 r j) -> (exists j, (j < m)%nat /\ D0 r j <> 0) -> vget g r = 1).
Proof.
  intros lstsq n k m U X D0 HL HU HX HI HE. destruct (exact_scores HL HU HX HI HE) as (g & w & E & _ & _ & H).
  exists g, w. split; [exact E|]. intros r Hr. destruct (H r Hr) as (H1 & H2). split; [exact H1|]. intros Hp Hn.
  rewrite H2, H1. apply sgn_pos. now apply signed_sum_pos.
Qed.
Print Assumptions C65_scores_of_exact_data.

(** Without data the sign is that of the sum of the column, and +1 when the sum is 0. *)
Theorem C65_without_data : forall lstsq n k U, is_mat n k U ->
  exists g w, get_signs lstsq U None = Ok (g, w) /\
    forall r, (r < k)%nat -> (vget g r = 1 \/ vget g r = -1) /\ 0 <= sum n (fun i => mget U i r * vget g r) /\
      (sum n (fun i => mget U i r) = 0 -> vget g r = 1).
Proof.
  intros lstsq n k U HU. destruct (get_signs_alone lstsq HU) as (g & w & E & _ & _ & H). exists g, w. split; [exact E|].
  intros r Hr. destruct (H r Hr) as (H1 & H2). cbv zeta in H1. rewrite sum_scal_r, H2, H1.
  destruct (Req_EM_T _ 0) as [E0|E0].
  - rewrite sgn_pos by lra. rewrite E0. repeat split; auto; lra.
  - destruct (sgn_cases (sum n (fun i => mget U i r))) as [[A ->]|[[A _]|[A ->]]]; [|contradiction|]; repeat split; auto; lra.
Qed.
Print Assumptions C65_without_data.

(** A Kruskal tensor whose signs have been resolved keeps its signs: resolving again gives only +1. *)
Theorem C65_resolving_twice : forall lstsq K k kv X,
  lstsq_contract lstsq -> data_ok X -> factors_ok K X (kt_fms k) -> kt_rank k = K ->
  exists scores signs, kt_get_sign_scores lstsq k X = Ok scores /\ kt_get_signs lstsq k X = Ok signs /\
    length scores = length (kt_fms k) /\ Forall (is_vec K) scores /\
    ((forall m r, (m < length (kt_fms k))%nat -> (r < K)%nat -> vget (nth m scores m0) r <> 0) ->
     columns_times K (fun m r => vget (nth m signs m0) r) (kt_fms k) (kt_fms kv) -> kt_rank kv = K ->
     exists signs', kt_get_signs lstsq kv X = Ok signs' /\
       forall m r, (m < length (kt_fms k))%nat -> (r < K)%nat -> vget (nth m signs' m0) r = 1).
Proof. exact resolved_signs. Qed.
Print Assumptions C65_resolving_twice.

(** The contract can be met, and there are independent columns describing data with loadings of both signs. *)
Example C65_contract_can_be_met : exists lstsq, lstsq_contract lstsq.
Proof. destruct svd_contract_satisfiable as (svd & H). exists (lstsq_by_svd svd). now apply lstsq_by_svd_works. Qed.

Example C65_example : forall lstsq, lstsq_contract lstsq ->
  let U := mk [2; 2]%nat [1; 0; 1; 1] in
  let X := mk [2; 2]%nat [2; 1; -1; 2] in
  exists g w, get_signs lstsq U (Some X) = Ok (g, w) /\ vget w 0 = 5 /\ vget g 0 = 1 /\ vget w 1 = -8.
Proof.
  intros lstsq HL U X.
  destruct (@C65_scores_of_exact_data lstsq 2 2 2 U X (mget (mk [2; 2]%nat [2; 1; -3; 1]))) as (g & w & E & H); auto; try (split; reflexivity).
  - intros c Hc r Hr. pose proof (Hc 0%nat ltac:(lia)) as A. pose proof (Hc 1%nat ltac:(lia)) as B. cbn in A, B.
    destruct r as [|[|r]]; [lra|lra|lia].
  - intros [|[|i]] [|[|j]] Hi Hj; try lia; cbn; ring.
  - exists g, w. split; [exact E|]. destruct (H 0%nat ltac:(lia)) as (H0 & H1). destruct (H 1%nat ltac:(lia)) as (H2 & _).
    unfold signed_sum in *. cbn in H0, H2. rewrite !Rabs_right in H0 by lra. rewrite Rabs_left, Rabs_right in H2 by lra.
    split; [lra|]. split; [|lra]. apply H1; [intros [|[|j]] Hj; cbn; try lia; lra|]. exists 0%nat. cbn. split; [lia|lra].
Qed.
