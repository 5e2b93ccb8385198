(** Property C86: constraints and penalties on the coupled modes of CMTF_ALS. *)
From Verif Require Import Parafac2Examples CoupledPenalty CPConstrained CMTFLoss.
From Verif Require Import Prelude Lin.
Local Open Scope R_scope.

(** *** C86.  Update of a coupled mode asked to be orthonormal, when no singular value of X_(m) (Khatri-Rao) + Y V is cut
    off: the best orthonormal matrix for tensor and matrix together.  (For CP_ALS it is not, C48.) *)
Theorem C86_orthonormal_update_is_optimal : forall env cs K ms s i lam U Sv Vh,
  cm_ok K ms s -> NoDup ms -> (i < length ms)%nat ->
  let X := cp_X (cm_cp s) in let m := nth i ms 0%nat in let n := nth m (shape X) 0%nat in
  let T := tab2 n K (coupled_rhs X (cm_fms s) m (nth i (cm_V s) m0) (nth i (cm_Y s) m0)) in
  (m < length (shape X))%nat ->
  flag (cp_nn (cm_cp s)) m false -> flag (cp_orth (cm_cp s)) m true -> penalty cs m lam -> 0 <= lam -> (0 < K <= n)%nat ->
  env_svd env T = Ok (U, Sv, Vh) -> is_svd n K T U Sv Vh ->
  (forall r, (r < K)%nat -> INR n * vget Sv 0 * / 10 ^ 16 < vget Sv r) ->
  exists s' Z, cmtf_update_factor env cs s m = (s', None) /\ cm_ok K ms s' /\
    cm_fms s' = with_factor m Z (cm_fms s) /\ cm_V s' = cm_V s /\ orth_cols n K (mget Z) /\
    forall Z', orth_cols n K (mget Z') ->
      coupled_loss K X (with_factor m Z (cm_fms s)) unit_weights ms (cm_V s) (cm_Y s) <=
      coupled_loss K X (with_factor m Z' (cm_fms s)) unit_weights ms (cm_V s) (cm_Y s).
Proof.
  intros env cs K ms s i lam U Sv Vh H HN Hi X m n T Hm F1 F2 Hp Hl Hk ES HS Htr.
  destruct (@coupled_orth env cs K ms s m H HN Hm lam i U Sv Vh Hi eq_refl F1 F2 Hp Hl Hk ES HS Htr)
    as (s' & Z & A1 & _ & A2 & A3 & _ & A4 & A5 & A6).
  exists s', Z. repeat (split; [assumption|]). exact A6.
Qed.
Print Assumptions C86_orthonormal_update_is_optimal.

(** Update of a coupled mode with a penalty: the best matrix for coupled loss plus penalty.  (For CP_ALS it is not, C47.) *)
Theorem C86_penalised_update_is_optimal : forall env cs K ms s m lam,
  cm_ok K ms s -> NoDup ms -> In m ms -> let X := cp_X (cm_cp s) in let n := nth m (shape X) 0%nat in
  (m < length (shape X))%nat ->
  flag (cp_nn (cm_cp s)) m false -> flag (cp_orth (cm_cp s)) m false -> penalty cs m lam -> 0 <= lam ->
  svd_works_rows K (env_svd env) ->
  exists s' Z, cmtf_update_factor env cs s m = (s', None) /\ cm_ok K ms s' /\
    cm_fms s' = with_factor m Z (cm_fms s) /\ cm_V s' = cm_V s /\
    forall Z',
      coupled_loss K X (with_factor m Z (cm_fms s)) unit_weights ms (cm_V s) (cm_Y s) + lam * frob2 n K (mget Z) <=
      coupled_loss K X (with_factor m Z' (cm_fms s)) unit_weights ms (cm_V s) (cm_Y s) + lam * frob2 n K (mget Z').
Proof.
  intros env cs K ms s m lam H HN Hin X n Hm F1 F2 Hp Hl Hs.
  destruct (@coupled_ridge env cs K ms s m H HN Hm lam Hin F1 F2 Hp Hl Hs) as (s' & Z & A1 & _ & A2 & A3 & _ & A4 & A5).
  exists s', Z. repeat (split; [assumption|]). exact A5.
Qed.
Print Assumptions C86_penalised_update_is_optimal.

(** With penalties on coupled modes only, no iteration raises and coupled loss plus penalties never goes up. *)
Theorem C86_penalised_loss_never_increases : forall env cs K ms lam s n,
  svd_works_rows K (env_svd env) -> cs_rank cs = K -> (1 <= K)%nat -> NoDup ms -> cm_ok K ms s ->
  let X := cp_X (cm_cp s) in let Ys := cm_Y s in
  unconstrained X (cp_nn (cm_cp s)) (cp_orth (cm_cp s)) -> penalties (cs_ridge cs) X ms lam ->
  let s1 := state_after (cmtf_model env cs) s n in let s2 := state_after (cmtf_model env cs) s (S n) in
  snd (cmtf_update_factors env cs s1) = None /\
  penalised_loss lam K X (cm_fms s2) ms (cm_V s2) Ys <= penalised_loss lam K X (cm_fms s1) ms (cm_V s1) Ys.
Proof.
  intros env cs K ms lam s n Hs HK HK1 HN H X Ys Hu Hp s1 s2.
  destruct (@penalised_iterations env cs K ms lam Hs HK HK1 HN s H Hu Hp n) as (A1 & _ & A2 & A3).
  destruct (@penalised_iterations env cs K ms lam Hs HK HK1 HN s H Hu Hp (S n)) as (_ & _ & A4 & _).
  fold s1 s2 in A2, A3, A4. split; [exact A1|]. unfold pl in A3.
  rewrite (sp_X (sc_cp A2)), (sp_X (sc_cp A4)), (sc_Y A2), (sc_Y A4) in A3. exact A3.
Qed.
Print Assumptions C86_penalised_loss_never_increases.

(** The loss the code reports leaves the penalty out: from an exact model of [[1]] and [[1]], the second mode coupled and
    with penalty 1, one iteration takes it from 0 to at least 1/9. *)
Theorem C86_reported_loss_can_rise : exists cs ms lam s,
  cm_ok 1 ms s /\ NoDup ms /\ unconstrained (cp_X (cm_cp s)) (cp_nn (cm_cp s)) (cp_orth (cm_cp s)) /\
  penalties (cs_ridge cs) (cp_X (cm_cp s)) ms lam /\ (forall r, (r < 1)%nat -> vget (kt_w (cm_dec s)) r = 1) /\
  forall env, svd_works_rows 1 (env_svd env) ->
    cmtf_SSE env s = Ok 0 /\
    exists l, cmtf_SSE env (state_after (cmtf_model env cs) s 1) = Ok l /\ 1 / 9 <= l.
Proof.
  exists pen_cs, [1%nat], pen_lam, pen_state.
  split; [exact pen_ok|]. split; [exact pen_nodup|]. split; [exact pen_unconstrained|]. split; [exact pen_penalties|].
  split; [|exact pen_rises]. intros r Hr. assert (r = 0%nat) as -> by lia. reflexivity.
Qed.
Print Assumptions C86_reported_loss_can_rise.

(** The hypotheses of the orthonormal update hold for a 2x1 tensor (3, 4) whose first mode is coupled to the matrix (3, 4). *)
Example C86_orthonormal_example :
  let X := mk [2; 1]%nat [3; 4] in
  let s := {| cm_cp := start 1 X [mk [2; 1]%nat [1; 0]; mk [1; 1]%nat [1]] [false; false] [true; false];
              cm_Y := [mk [2; 1]%nat [3; 4]]; cm_modes := [0%Z]; cm_V := [mk [1; 1]%nat [1]] |} in
  let T := tab2 2 1 (coupled_rhs X (cm_fms s) 0 (nth 0 (cm_V s) m0) (nth 0 (cm_Y s) m0)) in
  cm_ok 1 [0%nat] s /\ mget T 0 0 = 6 /\ mget T 1 0 = 8 /\
  flag (cp_nn (cm_cp s)) 0 false /\ flag (cp_orth (cm_cp s)) 0 true /\
  exists U Sv Vh, svd_col T = Ok (U, Sv, Vh) /\ is_svd 2 1 T U Sv Vh /\
    (forall r, (r < 1)%nat -> INR 2 * vget Sv 0 * / 10 ^ 16 < vget Sv r).
Proof.
  intros X s T. split; [|split; [ev; ring|split; [ev; ring|split; [now exists [false; false]|split; [now exists [true; false]|]]]]].
  - constructor; try reflexivity.
    + split; [reflexivity|]. split; [cbn; lia|]. repeat constructor; discriminate.
    + split; [repeat constructor|reflexivity].
    + apply is_vec_ones.
    + split; [reflexivity|]. split; [reflexivity|]. intros [|i] Hi; cbn in Hi; [|lia]. cbn.
      split; [lia|]. split; split; reflexivity.
  - assert (HT : is_mat 2 1 T) by apply is_mat_tab2.
    destruct (@svd_col_works 2 ltac:(lia) T HT) as (U & Sv & Vh & E & HS). exists U, Sv, Vh. split; [exact E|]. split; [exact HS|].
    refine (@untruncated_col 2 (mget T) ltac:(lia) _ _ T U Sv Vh HT (fun _ _ _ _ => eq_refl) E).
    + cbn. lra.
    + exists 0%nat. split; [lia|]. replace (mget T 0 0) with 6 by (ev; ring). lra.
Qed.
(** The hypotheses of the other theorems hold for [pen_state], with the svd of matrices of one row. *)
Example C86_example : svd_works_rows 1 svd_row /\ cm_ok 1 [1%nat] pen_state /\ In 1%nat [1%nat] /\
  unconstrained (cp_X (cm_cp pen_state)) (cp_nn (cm_cp pen_state)) (cp_orth (cm_cp pen_state)) /\
  penalties (cs_ridge pen_cs) (cp_X (cm_cp pen_state)) [1%nat] pen_lam /\ penalty pen_cs 1 1 /\
  penalised_loss pen_lam 1 (cp_X (cm_cp pen_state)) (cm_fms pen_state) [1%nat] (cm_V pen_state) (cm_Y pen_state) = 1.
Proof.
  split; [intros m Hm; now apply svd_row_works|]. split; [exact pen_ok|]. split; [now left|].
  split; [exact pen_unconstrained|]. split; [exact pen_penalties|]. split; [reflexivity|].
  ev. ring.
Qed.
