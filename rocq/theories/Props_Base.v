(** Properties C01-C10: the array algebra and the linear solvers of base.py. *)
From Verif Require Import Solves Exists.
Local Open Scope R_scope.

(** *** C01 *)
Theorem C01_fold_unfold_roundtrip : forall T n k,
  wf T -> names_axis (ndim T) n k -> nth k (shape T) 0%nat <> 0%nat ->
  exists M, unfold T n = Ok M /\ fold M n (shape T) = Ok T.
Proof.
  intros T n k HT Hn Hz. apply names_axis_py in Hn.
  destruct (unfold_ok HT Hn Hz) as (M & E & _). exists M. split; auto.
  exact (fold_unfold HT E).
Qed.
Print Assumptions C01_fold_unfold_roundtrip.

Theorem C01_unfold_fold_roundtrip : forall M n k sh,
  names_axis (length sh) n k -> nth k sh 0%nat <> 0%nat ->
  is_mat (nth k sh 0%nat) (prodl (remove_at k sh)) M ->
  exists T, fold M n sh = Ok T /\ wf T /\ shape T = sh /\ unfold T n = Ok M.
Proof.
  intros M n k sh Hn Hz HM. apply names_axis_py in Hn.
  destruct (unfold_fold Hn Hz HM) as (T & E & E').
  destruct (@fold_ok M n k sh) as (T' & E2 & HT & HS & _); auto; try apply HM.
  rewrite E in E2. injection E2 as <-. eauto.
Qed.
Print Assumptions C01_unfold_fold_roundtrip.

Definition exT : nd := mk [2; 3; 2]%nat [1; 2; 3; 4; 5; 6; 7; 8; 9; 10; 11; 12].
Example C01_example :
  wf exT /\ names_axis (ndim exT) (-2) 1 /\
  unfold exT (-2) = Ok (mk [3; 4]%nat [1; 2; 7; 8; 3; 4; 9; 10; 5; 6; 11; 12]) /\
  fold (mk [3; 4]%nat [1; 2; 7; 8; 3; 4; 9; 10; 5; 6; 11; 12]) (-2) [2; 3; 2]%nat = Ok exT.
Proof. repeat split; try reflexivity; cbn; try lia. Qed.

(** *** C02 *)
Theorem C02_unfold_entries : forall T n k,
  wf T -> names_axis (ndim T) n k -> nth k (shape T) 0%nat <> 0%nat ->
  exists M, unfold T n = Ok M /\
    is_mat (nth k (shape T) 0%nat) (prodl (remove_at k (shape T))) M /\
    forall idx, valid idx (shape T) ->
      mget M (nth k idx 0%nat) (position (remove_at k (shape T)) (remove_at k idx)) = get T idx.
Proof.
  intros T n k HT Hn Hz. apply names_axis_py in Hn.
  destruct (unfold_ok HT Hn Hz) as (M & E & HM & Hent). exists M. split; auto. split; auto.
  intros idx Hv. rewrite position_ravel by (apply valid_length; now apply valid_remove_at). auto.
Qed.
Print Assumptions C02_unfold_entries.

Theorem C02_unfold_rejects : forall T n,
  (n < - Z.of_nat (ndim T) \/ Z.of_nat (ndim T) <= n)%Z \/
  (exists k, names_axis (ndim T) n k /\ nth k (shape T) 0%nat = 0%nat) ->
  unfold T n = Err ValueError.
Proof.
  intros T n [H|(k & H & Hz)].
  - apply unfold_err_axis. now apply py_index_None.
  - apply names_axis_py in H. exact (unfold_err_zero H Hz).
Qed.
Print Assumptions C02_unfold_rejects.

Example C02_example :
  valid [1; 2; 0]%nat (shape exT) /\ get exT [1; 2; 0]%nat = 11 /\
  position [2; 2]%nat [1; 0]%nat = 2%nat /\
  (exists M, unfold exT 1 = Ok M /\ mget M 2 2 = 11) /\
  unfold exT 3 = Err ValueError /\ unfold (mk [2; 0]%nat []) 1 = Err ValueError.
Proof.
  split; [repeat constructor|]. split; [reflexivity|]. split; [reflexivity|].
  split; [eexists; split; reflexivity|]. split; reflexivity.
Qed.

(** *** C03 *)
Theorem C03_khatri_rao_entries : forall junk K Us,
  mats K Us -> Us <> [] ->
  exists P, khatri_rao junk Us None = Ok P /\ is_mat (prodl (rows Us)) K P /\
    forall idx r, valid idx (rows Us) -> (r < K)%nat ->
      mget P (position (rows Us) idx) r = colprod Us idx r.
Proof.
  intros junk K Us HU Hne. destruct (khatri_rao_none_ok junk HU Hne) as (P & E & HP & Hent).
  exists P. split; auto. split; auto. intros idx r Hv Hr.
  rewrite position_ravel by now apply valid_length. auto.
Qed.
Print Assumptions C03_khatri_rao_entries.

Theorem C03_khatri_rao_skip_entries : forall junk K Us z k,
  mats K Us -> names_axis (length Us) z k -> (2 <= length Us)%nat ->
  exists P, khatri_rao junk Us (Some z) = Ok P /\ is_mat (prodl (remove_at k (rows Us))) K P /\
    forall idx r, valid idx (remove_at k (rows Us)) -> (r < K)%nat ->
      mget P (position (remove_at k (rows Us)) idx) r = colprod (remove_at k Us) idx r.
Proof.
  intros junk K Us z k HU Hz Hl. apply names_axis_py in Hz.
  destruct (khatri_rao_skip_ok junk HU Hz Hl) as (P & E & HP & Hent).
  exists P. split; auto. split; auto. intros idx r Hv Hr.
  rewrite position_ravel by now apply valid_length. auto.
Qed.
Print Assumptions C03_khatri_rao_skip_entries.

Theorem C03_khatri_rao_rejects : forall junk Us,
  khatri_rao junk [] None = Err IndexError /\
  (length Us = 1%nat -> khatri_rao junk Us (Some 0%Z) = Err IndexError) /\
  (forall z, (z < - Z.of_nat (length Us) \/ Z.of_nat (length Us) <= z)%Z ->
     khatri_rao junk Us (Some z) = Err IndexError).
Proof.
  intros junk Us. split; [reflexivity|]. split.
  - destruct Us as [|U [|]]; cbn; intros; try lia. reflexivity.
  - intros z H. apply khatri_rao_bad_skip. now apply py_index_None.
Qed.
Print Assumptions C03_khatri_rao_rejects.

Definition exU1 : nd := mk [2; 2]%nat [1; 2; 3; 4].
Definition exU2 : nd := mk [3; 2]%nat [1; 0; 5; 7; 2; 2].
Definition exU3 : nd := mk [2; 2]%nat [1; 1; 0; 3].
Lemma exU_mats : mats 2 [exU1; exU2; exU3].
Proof. repeat constructor. Qed.
Example C03_example :
  mats 2 [exU1; exU2; exU3] /\ names_axis 3 (-2) 1 /\
  (exists P, khatri_rao (fun _ _ => 42) [exU1; exU2; exU3] (Some (-2)%Z) = Ok P /\
     mget P (position [2; 2]%nat [1; 1]%nat) 1 = 4 * (3 * 1)).
Proof.
  split; [exact exU_mats|]. split; [cbn; split; [lia|right; reflexivity]|].
  destruct (@C03_khatri_rao_skip_entries (fun _ _ => 42) 2%nat [exU1; exU2; exU3] (-2)%Z 1%nat)
    as (P & E & _ & H); [exact exU_mats|split; [cbn; lia|right; reflexivity]|cbn; lia|].
  exists P. split; [exact E|]. change (4 * (3 * 1)) with (colprod (remove_at 1 [exU1; exU2; exU3]) [1; 1]%nat 1).
  apply (H [1; 1]%nat 1%nat); [|lia]. repeat constructor.
Qed.

(** *** C04 *)
Theorem C04_kron_entries : forall As,
  any_mats As -> As <> [] ->
  exists P, kron As = Ok P /\ is_mat (prodl (map nrows As)) (prodl (map ncols As)) P /\
    forall is js, valid is (map nrows As) -> valid js (map ncols As) ->
      mget P (position (map nrows As) is) (position (map ncols As) js) = entprod As is js.
Proof.
  intros As HA Hne. destruct (kron_ok HA Hne) as (P & E & HP & Hent).
  exists P. split; auto. split; auto. intros is js Hi Hj.
  rewrite !position_ravel by now apply valid_length. auto.
Qed.
Print Assumptions C04_kron_entries.

Theorem C04_kron_vectors_entries : forall n m u v,
  is_vec n u -> is_vec m v ->
  exists w, kron_binary_vectors u v = Ok w /\ is_vec (n * m) w /\
    forall i j, (i < n)%nat -> (j < m)%nat -> vget w (position [n; m] [i; j]) = vget u i * vget v j.
Proof.
  intros n m u v Hu Hv. destruct (kron_binary_vectors_ok Hu Hv) as (w & E & Hw & Hent).
  exists w. split; auto.
Qed.
Print Assumptions C04_kron_vectors_entries.

Example C04_example :
  any_mats [exU1; exU2; exU3] /\
  (exists P, kron [exU1; exU2] = Ok P /\ mget P 4 3 = 4 * 7).
Proof.
  split; [repeat constructor|].
  destruct (@C04_kron_entries [exU1; exU2]) as (P & E & _ & H); [repeat constructor|discriminate|].
  exists P. split; [exact E|].
  specialize (H [1; 1]%nat [1; 1]%nat). cbn in H. rewrite H; [ring| |]; repeat constructor.
Qed.

(** *** C05 *)
Theorem C05_mttkrp_entries : forall junk X Us K z k,
  wf X -> mats K Us -> rows Us = shape X -> (2 <= length Us)%nat ->
  names_axis (length Us) z k -> nth k (shape X) 0%nat <> 0%nat ->
  ~ (length Us = 3%nat /\ (z = -2 \/ z = -3)%Z) ->
  exists P, matrix_khatri_rao_product junk X Us z = Ok (Some P) /\ is_mat (nth k (shape X) 0%nat) K P /\
    forall i r, (i < nth k (shape X) 0)%nat -> (r < K)%nat -> mget P i r = mttkrp_entry X Us k i r.
Proof.
  intros junk X Us K z k HX HU Hr Hl Hz. apply names_axis_py in Hz.
  exact (mttkrp_ok junk HX HU Hr Hl Hz).
Qed.
Print Assumptions C05_mttkrp_entries.

(** The specialised third-order code agrees with unfold-times-Khatri-Rao. *)
Theorem C05_specialised_agrees : forall junk X Us K z,
  wf X -> mats K Us -> rows Us = shape X -> length Us = 3%nat ->
  In z [0; 1; 2; -1]%Z -> (forall s, In s (shape X) -> s <> 0%nat) ->
  matrix_khatri_rao_product junk X Us z =
  (do M <- unfold X z; do P <- khatri_rao junk Us (Some z); do Q <- matmul M P; Ok (Some Q)).
Proof.
  intros junk X Us K z HX HU Hr Hl Hz Hs.
  assert (H3 : length (shape X) = 3%nat) by (rewrite <- Hr; unfold rows; now rewrite map_length).
  assert (Hk : exists k, py_index 3 z = Some k /\ (k < 3)%nat).
  { destruct Hz as [<-|[<-|[<-|[<-|[]]]]]; [exists 0%nat|exists 1%nat|exists 2%nat|exists 2%nat]; split; auto. }
  destruct Hk as (k & Hk & Hk3).
  assert (Hn : nth k (shape X) 0%nat <> 0%nat) by (apply Hs, nth_In; lia).
  destruct (@mttkrp_ok junk X Us K z k) as (P & E & HP & HPe); auto; [lia|rewrite Hl; auto| |].
  { intros [_ [-> | ->]]; cbn in Hz; intuition discriminate. }
  destruct (@general_mttkrp_ok junk X Us K z k) as (Q & E' & HQ & HQe); auto; [lia|rewrite Hl; auto|].
  rewrite E. change (Ok (Some P) = general_mttkrp junk X Us z). rewrite E'. do 2 f_equal.
  eapply mat_ext; eauto. intros. rewrite HPe, HQe; auto.
Qed.
Print Assumptions C05_specialised_agrees.

Theorem C05_third_order_other_modes_give_none : forall junk X Us z,
  ndim X = 3%nat -> length Us = 3%nat -> (z = -2 \/ z = -3)%Z ->
  matrix_khatri_rao_product junk X Us z = Ok None.
Proof. exact mttkrp3_none. Qed.
Print Assumptions C05_third_order_other_modes_give_none.

Example C05_example :
  wf exT /\ rows [exU1; exU2; exU3] = shape exT /\
  (exists P, matrix_khatri_rao_product (fun _ _ => 5) exT [exU1; exU2; exU3] 1 = Ok (Some P) /\
     mget P 0 1 = 1 * (2 * (1 * 1)) + 2 * (2 * (3 * 1)) + 7 * (4 * (1 * 1)) + 8 * (4 * (3 * 1))).
Proof.
  split; [reflexivity|]. split; [reflexivity|].
  destruct (@C05_mttkrp_entries (fun _ _ => 5) exT [exU1; exU2; exU3] 2%nat 1%Z 1%nat) as (P & E & _ & H);
    [reflexivity|exact exU_mats|reflexivity|cbn; lia|split; [cbn; lia|left; reflexivity]|cbn; lia| |].
  { intros [_ [H|H]]; discriminate. }
  exists P. split; [exact E|]. rewrite H by (cbn; lia). cbv [mttkrp_entry sumf indices shape exT flat_map map seq app nth Nat.eqb].
  cbn. ring.
Qed.

(** *** C06 *)
Theorem C06_unflatten_flatten : forall junk rank sizes Us,
  Forall2 (fun U s => is_mat s rank U) Us sizes ->
  exists v, flatten_factors junk Us = Ok v /\ is_vec (list_sum sizes * rank) v /\
    unflatten_factors v rank sizes = Ok Us.
Proof. exact unflatten_flatten. Qed.
Print Assumptions C06_unflatten_flatten.

Theorem C06_flatten_unflatten : forall junk rank sizes v,
  is_vec (list_sum sizes * rank) v ->
  exists Us, unflatten_factors v rank sizes = Ok Us /\
    Forall2 (fun U s => is_mat s rank U) Us sizes /\ flatten_factors junk Us = Ok v.
Proof. exact flatten_unflatten. Qed.
Print Assumptions C06_flatten_unflatten.

Example C06_example :
  Forall2 (fun U s => is_mat s 2 U) [exU1; exU2] [2; 3]%nat /\
  flatten_factors (fun _ => 99) [exU1; exU2] = Ok (mk [10]%nat [1; 2; 3; 4; 1; 0; 5; 7; 2; 2]).
Proof. split; [repeat constructor|reflexivity]. Qed.

(** *** C07 *)
Theorem C07_rightsolve_least_squares : forall svd n m p A B U Sv Vh,
  is_mat n m A -> is_mat p m B -> svd A = Ok (U, Sv, Vh) -> is_svd n m A U Sv Vh ->
  exists X, rightsolve svd A B = Ok X /\ is_mat p n X /\
    (forall Y, dist2 p m (mprod n (mget X) (mget A)) (mget B) <= dist2 p m (mprod n Y (mget A)) (mget B)) /\
    (forall Y, dist2 p m (mprod n Y (mget A)) (mget B) <= dist2 p m (mprod n (mget X) (mget A)) (mget B) ->
       frob2 p n (mget X) <= frob2 p n Y) /\
    (forall Y, (forall i j, (i < p)%nat -> (j < m)%nat -> mprod n Y (mget A) i j = mget B i j) ->
       forall i j, (i < p)%nat -> (j < m)%nat -> mprod n (mget X) (mget A) i j = mget B i j).
Proof.
  intros svd n m p A B U Sv Vh HA HB E HS.
  destruct (rightsolve_ok HA HB E HS) as (X & EX & HX & _ & H1 & H2).
  exists X. repeat (split; auto). intros Y. now apply rightsolve_exact.
Qed.
Print Assumptions C07_rightsolve_least_squares.

(** A rank-deficient system with its singular value decomposition. *)
Definition exA7 : nd := mk [2; 2]%nat [2; 0; 0; 0].
Definition exI2 : nd := mk [2; 2]%nat [1; 0; 0; 1].
Definition exS7 : nd := mk [2]%nat [2; 0].
Ltac idx2 i := destruct i as [|[|i]]; [| |exfalso; lia].
Lemma exA7_svd : is_svd 2 2 exA7 exI2 exS7 exI2.
Proof.
  constructor; cbn [Nat.min]; try (split; reflexivity).
  - intros a b Ha Hb. idx2 a; idx2 b; cbn; lra.
  - intros a b Ha Hb. idx2 a; idx2 b; cbn; lra.
  - intros r Hr. idx2 r; cbn; lra.
  - intros r s Hr. idx2 s; idx2 r; try lia; cbn; lra.
  - intros i j Hi Hj. idx2 i; idx2 j; cbn; lra.
Qed.
Example C07_example :
  let svd := fun _ => Ok (exI2, exS7, exI2) in
  is_mat 2 2 exA7 /\ is_svd 2 2 exA7 exI2 exS7 exI2 /\
  exists X, rightsolve svd exA7 (mk [1; 2]%nat [6; 5]) = Ok X /\
    mget X 0 0 = 3 /\ mget X 0 1 = 0.
Proof.
  cbn zeta. split; [split; reflexivity|]. split; [exact exA7_svd|].
  eexists. split; [reflexivity|].
  unfold exS7, np_map, inv_nonzero. cbn.
  destruct (Req_EM_T 2 0); [lra|]. destruct (Req_EM_T 0 0); [|lra]. split; lra.
Qed.

(** *** C08 *)
Theorem C08_nonneg_rightsolve_optimal : forall nnls n m p A B,
  is_mat n m A -> is_mat p m B ->
  (forall i, (i < p)%nat ->
     exists x, nnls (transp A) (row B i) = Ok x /\ is_nnls m n (transp A) (row B i) x) ->
  exists X, non_negative_rightsolve nnls A B = Ok X /\ is_mat p n X /\
    (forall i a, (i < p)%nat -> (a < n)%nat -> 0 <= mget X i a) /\
    (forall Y, (forall i a, (i < p)%nat -> (a < n)%nat -> 0 <= Y i a) ->
       dist2 p m (mprod n (mget X) (mget A)) (mget B) <= dist2 p m (mprod n Y (mget A)) (mget B)).
Proof.
  intros nnls n m p A B HA HB Hx. exact (nonneg_rightsolve_total HA HB Hx).
Qed.
Print Assumptions C08_nonneg_rightsolve_optimal.

Theorem C08_nonneg_rightsolve_1d_raises : forall nnls A B,
  ndim B = 1%nat -> non_negative_rightsolve nnls A B = Err IndexError.
Proof. intros nnls A B H. unfold non_negative_rightsolve. now rewrite H. Qed.
Print Assumptions C08_nonneg_rightsolve_1d_raises.

Example C08_example :
  let nnls := fun _ _ => Ok (mk [2]%nat [3; 0]) in
  is_mat 2 2 exI2 /\ is_nnls 2 2 (transp exI2) (row (mk [1; 2]%nat [3; -4]) 0) (mk [2]%nat [3; 0]) /\
  non_negative_rightsolve nnls exI2 (mk [1; 2]%nat [3; -4]) = Ok (mk [1; 2]%nat [3; 0]).
Proof.
  cbn zeta. split; [split; reflexivity|]. split; [|reflexivity].
  split; [split; reflexivity|]. split.
  - intros j Hj. idx2 j; cbn; lra.
  - intros y Hy. assert (H0 := Hy 0%nat ltac:(lia)). assert (H1 := Hy 1%nat ltac:(lia)).
    replace (sum 2 (fun i => (sum 2 (fun j => mget (transp exI2) i j * y j) -
      vget (row (mk [1; 2]%nat [3; -4]) 0) i) ^ 2)) with ((y 0%nat - 3) ^ 2 + (y 1%nat + 4) ^ 2)
      by (cbn; ring).
    replace (sum 2 _) with 16 by (cbn; ring).
    assert (16 <= (y 1%nat + 4) ^ 2) by (cbn; nra). assert (0 <= (y 0%nat - 3) ^ 2) by apply pow2_ge_0. lra.
Qed.

(** *** C09 *)
(** [BA] is the matrix B^T A whose singular value decomposition the code takes; the last
    hypothesis says that the tolerance truncates no singular value. *)
Theorem C09_orthogonal_solve_procrustes : forall svd p n m A B BA U Sv Vh,
  is_mat p n A -> is_mat p m B -> (0 < n <= m)%nat ->
  matmul (transp B) A = Ok BA ->
  svd BA = Ok (U, Sv, Vh) -> is_svd m n BA U Sv Vh ->
  (forall r, (r < n)%nat -> INR m * vget Sv 0 * / 10 ^ 16 < vget Sv r) ->
  exists X, orthogonal_solve svd A B = Ok X /\ is_mat n m X /\ orth_rows n m (mget X) /\
    (forall Y, orth_rows n m Y ->
      dist2 p m (mprod n (mget A) (mget X)) (mget B) <= dist2 p m (mprod n (mget A) Y) (mget B)).
Proof.
  intros svd p n m A B BA U Sv Vh HA HB Hnm E. rewrite (matmul_ok (is_mat_transp HB) HA) in E.
  injection E as <-. exact (orthogonal_solve_ok HA HB Hnm).
Qed.
Print Assumptions C09_orthogonal_solve_procrustes.

(** The same for X A = B with orthonormal columns. *)
Theorem C09_orthogonal_rightsolve_procrustes : forall svd p n m A B BA U Sv Vh,
  is_mat n p A -> is_mat m p B -> (0 < n <= m)%nat ->
  matmul B (transp A) = Ok BA ->
  svd BA = Ok (U, Sv, Vh) -> is_svd m n BA U Sv Vh ->
  (forall r, (r < n)%nat -> INR m * vget Sv 0 * / 10 ^ 16 < vget Sv r) ->
  exists X, orthogonal_rightsolve svd A B = Ok X /\ is_mat m n X /\ orth_cols m n (mget X) /\
    (forall Y, orth_cols m n Y ->
      dist2 m p (mprod n (mget X) (mget A)) (mget B) <= dist2 m p (mprod n Y (mget A)) (mget B)).
Proof. exact orthogonal_rightsolve_ok. Qed.
Print Assumptions C09_orthogonal_rightsolve_procrustes.

Theorem C09_truncation_breaks_orthonormality : forall svd p n m A B BA U Sv Vh r,
  is_mat p n A -> is_mat p m B -> (0 < n <= m)%nat ->
  matmul (transp B) A = Ok BA ->
  svd BA = Ok (U, Sv, Vh) -> is_svd m n BA U Sv Vh ->
  (r < n)%nat -> vget Sv r <= INR m * vget Sv 0 * / 10 ^ 16 ->
  exists X, orthogonal_solve svd A B = Ok X /\ is_mat n m X /\ not (orth_rows n m (mget X)).
Proof.
  intros svd p n m A B BA U Sv Vh r HA HB Hnm E. rewrite (matmul_ok (is_mat_transp HB) HA) in E.
  injection E as <-. exact (@orthogonal_solve_truncated svd p n m A B U Sv Vh r HA HB Hnm).
Qed.
Print Assumptions C09_truncation_breaks_orthonormality.

Theorem C09_zero_gives_zero : forall svd p n m A B BA U Sv Vh,
  is_mat p n A -> is_mat p m B -> (0 < Nat.min m n)%nat ->
  matmul (transp B) A = Ok BA ->
  svd BA = Ok (U, Sv, Vh) -> is_svd m n BA U Sv Vh ->
  (forall j a, (j < m)%nat -> (a < n)%nat -> mget BA j a = 0) ->
  orthogonal_solve svd A B = Ok (np_zeros [n; m]).
Proof. exact orthogonal_solve_zero'. Qed.
Print Assumptions C09_zero_gives_zero.

Definition exA9 : nd := mk [2; 2]%nat [2; 0; 0; 3].
Definition exB9 : nd := mk [2; 2]%nat [0; 1; 1; 0].
Definition exS9 : nd := mk [2]%nat [3; 2].
(** B^T A = [[0,3],[2,0]] = I diag(3,2) [[0,1],[1,0]] *)
Example C09_example :
  exists BA, matmul (transp exB9) exA9 = Ok BA /\ is_svd 2 2 BA exI2 exS9 exB9 /\
    (forall r, (r < 2)%nat -> INR 2 * vget exS9 0 * / 10 ^ 16 < vget exS9 r).
Proof.
  eexists. split; [reflexivity|]. split.
  - constructor; cbn [Nat.min]; try (split; reflexivity).
    + intros a b Ha Hb. idx2 a; idx2 b; cbn; lra.
    + intros a b Ha Hb. idx2 a; idx2 b; cbn; lra.
    + intros r Hr. idx2 r; cbn; lra.
    + intros r s Hr. idx2 s; idx2 r; try lia; cbn; lra.
    + intros i j Hi Hj. idx2 i; idx2 j; cbn; lra.
  - intros r Hr. assert (H : / 10 ^ 16 < 1 / 6).
    { unfold Rdiv. rewrite Rmult_1_l. apply Rinv_lt_contravar; cbn; lra. }
    idx2 r; cbn -[pow]; cbn [INR]; nra.
Qed.

(** *** C10 *)
Theorem C10_ridge_minimises_penalised : forall solve lam n m p A B (feasible : (nat -> nat -> R) -> Prop),
  is_mat n m A -> is_mat p m B -> 0 <= lam ->
  (** the wrapped solver minimises over the feasible matrices *)
  (forall q A' B', is_mat n q A' -> is_mat p q B' -> exists X, solve A' B' = Ok X /\ is_mat p n X /\
     feasible (mget X) /\
     forall Y, feasible Y -> dist2 p q (mprod n (mget X) (mget A')) (mget B') <= dist2 p q (mprod n Y (mget A')) (mget B')) ->
  exists X, add_rightsolve_ridge solve lam A B = Ok X /\ is_mat p n X /\ feasible (mget X) /\
    forall Y, feasible Y ->
      dist2 p m (mprod n (mget X) (mget A)) (mget B) + lam * frob2 p n (mget X) <=
      dist2 p m (mprod n Y (mget A)) (mget B) + lam * frob2 p n Y.
Proof. exact ridge_minimises. Qed.
Print Assumptions C10_ridge_minimises_penalised.

Theorem C10_ridge_rightsolve : forall svd lam n m p A B,
  svd_contract svd -> is_mat n m A -> is_mat p m B -> 0 <= lam ->
  exists X, add_rightsolve_ridge (rightsolve svd) lam A B = Ok X /\ is_mat p n X /\
    forall Y, dist2 p m (mprod n (mget X) (mget A)) (mget B) + lam * frob2 p n (mget X) <=
              dist2 p m (mprod n Y (mget A)) (mget B) + lam * frob2 p n Y.
Proof. exact ridge_rightsolve_ok. Qed.
Print Assumptions C10_ridge_rightsolve.

Theorem C10_ridge_nonneg : forall nnls lam n m p A B,
  nnls_contract nnls -> is_mat n m A -> is_mat p m B -> 0 <= lam ->
  exists X, add_rightsolve_ridge (non_negative_rightsolve nnls) lam A B = Ok X /\ is_mat p n X /\
    (forall i a, (i < p)%nat -> (a < n)%nat -> 0 <= mget X i a) /\
    forall Y, (forall i a, (i < p)%nat -> (a < n)%nat -> 0 <= Y i a) ->
      dist2 p m (mprod n (mget X) (mget A)) (mget B) + lam * frob2 p n (mget X) <=
      dist2 p m (mprod n Y (mget A)) (mget B) + lam * frob2 p n Y.
Proof. exact ridge_nonneg_ok. Qed.
Print Assumptions C10_ridge_nonneg.

Theorem C10_ridge_orthogonal_is_noop : forall svd lam n m p A B,
  is_mat n m A -> is_mat p m B -> 0 <= lam ->
  add_rightsolve_ridge (orthogonal_rightsolve svd) lam A B = orthogonal_rightsolve svd A B.
Proof. exact ridge_orthogonal. Qed.
Print Assumptions C10_ridge_orthogonal_is_noop.

(** The contracts assumed in C07-C10 can be met: every matrix has a singular value decomposition, every
    non-negative least-squares problem has a solution, and (choosing one for each input) there are functions that
    return them. *)
Example C07_svd_always_exists : forall n m A, is_mat n m A -> exists U S Vh, is_svd n m A U S Vh.
Proof. exact svd_exists. Qed.
Example C08_nnls_always_exists : forall n m A b, is_mat n m A -> is_vec n b -> exists x, is_nnls n m A b x.
Proof. exact nnls_exists. Qed.
Example C10_contracts_can_be_met : (exists svd, svd_contract svd) /\ (exists nnls, nnls_contract nnls).
Proof. split; [exact svd_contract_satisfiable|exact nnls_contract_satisfiable]. Qed.
