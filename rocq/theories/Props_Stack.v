(** Property C103: PARAFAC2 with CP initialisation starts at a CP model and never leaves the CP models. *)
From Verif Require Import StackFacts SafeExamples Exists Decomposer CPExamples Parafac2Examples CoreValue Props_Relocate.
From Verif Require Import Prelude Lin.
Local Open Scope R_scope.

(** *** C103.  The start is what CP_ALS makes of the stacked slices in n <= 20 iterations from the given draws (with normalised
    columns): L k is the error of its factors after k of them.  It does fewer than 20 only if the error has fallen below 1e-10 of
    the size of the data, or the last iteration gained less than the 1e-6th part.  The third factor B' is split into Q R, all
    projections are Q, and the loss of the start is that of the CP model. *)
Theorem C103_start : forall env ps K nI w disk Xs C A B max_its arg ds,
  lower (ps_init ps) = "cp"%string -> ps_rank ps = K -> ps_ridge ps = None -> (0 < K <= w)%nat -> (0 < nI)%nat ->
  svd_works_on K K (env_svd (pe_cp env)) -> qr_contract (pe_qr env) -> one_shape nI w Xs ->
  is_mat (length Xs) K C -> is_mat nI K A -> is_mat w K B ->
  let cs := {| cs_rank := K; cs_init := "random"; cs_ridge := None |} in
  exists ds1 X c0 n B' Q, p2_init_fit env ps disk [C; A; B] (Slices Xs) max_its arg ds = (ds1, None) /\ stacked nI w Xs X /\
    cp_X c0 = X /\ kt_fms (cp_dec c0) = normalised K [C; A; B] /\ unit_w K c0 /\ free_fit cs c0 /\
    let s := ds_num ds1 in
    let U k := kt_fms (cp_dec (state_after (cp_model (pe_cp env) cs) c0 k)) in
    let L k := sse X (U k) unit_weights K in
    p2_X s = Xs /\ (n <= 20)%nat /\ U n = [p2_C s; p2_A s; B'] /\ is_qr w K B' Q (p2_B s) /\ p2_Ps s = repeat Q (length Xs) /\
    p2_loss ps s = Ok (L n) /\ ds_prev ds1 = Fin (L n) /\ ds_it ds1 = 0%Z /\ L n <= L 0%nat /\
    (energy X <> 0 ->
      (forall k, (k < n)%nat -> / 10 ^ 10 * energy X <= L k) /\ (forall k, (S k < n)%nat -> / 10 ^ 6 * L k <= L k - L (S k)) /\
      (n = 20%nat \/ L n < / 10 ^ 10 * energy X \/ exists k, n = S k /\ L k - L n < / 10 ^ 6 * L k)).
Proof. intros env ps K nI w disk Xs C A B max_its arg ds Hi HK HR HKw HnI HS HQ HX HC HA HB. exact (cp_init_run HK HKw HnI HS HQ disk max_its arg ds Hi HR HX HC HA HB). Qed.
Print Assumptions C103_start.

(** *** Slices of different shapes cannot be used, although they are what PARAFAC2 is for.  (With NumPy before
    1.24 the list becomes an array of objects and another exception follows.) *)
Theorem C103_uneven_slices : forall env ps disk draws Xs k max_its arg ds, lower (ps_init ps) = "cp"%string ->
  (forall X, In X Xs -> ndim X = 2%nat) -> (k < length Xs)%nat -> shape (nth k Xs m0) <> shape (nth 0 Xs m0) ->
  snd (p2_init_fit env ps disk draws (Slices Xs) max_its arg ds) = Some ValueError.
Proof. exact uneven_fit. Qed.
Print Assumptions C103_uneven_slices.

(** *** However the fit ends — also when it raises, and with every constraint and penalty — all projections are one matrix P, and
    the model is the CP model with the factors C, A and P B of the stacked slices; its error is not below the best CP error. *)
Theorem C103_result : forall env ps K nI w cf disk draws Xs X max_its arg ds ds1 ds' e,
  lower (ps_init ps) = "cp"%string -> one_shape nI w Xs -> stacked nI w Xs X ->
  p2_init_fit env ps disk draws (Slices Xs) max_its arg ds = (ds1, None) ->
  p2_fit env ps cf disk draws (Slices Xs) max_its arg ds = (ds', e) ->
  let s := ds_num ds' in
  p2_X s = Xs /\
  (exists P, p2_Ps s = repeat P (length Xs) /\ factors_ok K X (as_cp K nI w (length Xs) (p2_A s) (p2_B s) (p2_C s) P) /\
     pf_sse K nI (p2_A s) (p2_B s) (p2_C s) Xs (p2_Ps s) = sse X (as_cp K nI w (length Xs) (p2_A s) (p2_B s) (p2_C s) P) unit_weights K) /\
  (forall b, (forall Us, factors_ok K X Us -> b <= sse X Us unit_weights K) -> b <= pf_sse K nI (p2_A s) (p2_B s) (p2_C s) Xs (p2_Ps s)).
Proof.
  intros env ps K nI w cf disk draws Xs X max_its arg ds ds1 ds' e Hi HX HS E1 E s.
  destruct (cp_fit_ends K Hi HX HS E1 E) as (EX & P & EP & HF & EE). split; [exact EX|]. split; [exists P; auto|]. intros b Hb. fold s in EE. rewrite EE. now apply Hb.
Qed.
Print Assumptions C103_result.

(** *** Example: the slices (10, 0) and (0, 1) have an exact PARAFAC2 model with one component, but every fit with CP
    initialisation ends with an error of at least 1. *)
Definition cq_draws : list nd := [mk [2; 1]%nat [1; 1]; mk [1; 1]%nat [1]; mk [2; 1]%nat [1; 1]].
Definition cq_X : nd := mk [2; 1; 2]%nat [10; 0; 0; 1].
Lemma cq_shape : one_shape 1 2 sh_Xs.
Proof. split; [discriminate|]. change (length sh_Xs) with 2%nat. slices; split; reflexivity. Qed.
Lemma cq_stacked : stacked 1 2 sh_Xs cq_X.
Proof.
  split; [reflexivity|]. split; [reflexivity|]. change (length sh_Xs) with 2%nat. intros k i j Hk Hi Hj.
  destruct k as [|[|]]; [| |lia]; (destruct i; [|lia]); (destruct j as [|[|]]; [| |lia]); reflexivity.
Qed.
Lemma row_bound x y p q : (x * q - y * p) ^ 2 <= (x ^ 2 + y ^ 2) * (p ^ 2 + q ^ 2).
Proof. pose proof (pow2_ge_0 (x * p + y * q)). replace ((x ^ 2 + y ^ 2) * (p ^ 2 + q ^ 2)) with ((x * q - y * p) ^ 2 + (x * p + y * q) ^ 2) by ring. lra. Qed.
Lemma cq_bound Us : factors_ok 1 cq_X Us -> 1 <= sse cq_X Us unit_weights 1.
Proof.
  intros [HM Hr]. destruct Us as [|C [|A [|B [|]]]]; try discriminate. clear.
  set (u := mget C 0 0 * mget A 0 0). set (v := mget C 1 0 * mget A 0 0). set (p := mget B 0 0). set (q := mget B 1 0).
  assert (E : sse cq_X [C; A; B] unit_weights 1 = (10 - u * p) ^ 2 + (0 - u * q) ^ 2 + ((0 - v * p) ^ 2 + (1 - v * q) ^ 2)).
  { unfold sse, u, v, p, q. change (indices (shape cq_X)) with [[0; 0; 0]; [0; 0; 1]; [1; 0; 0]; [1; 0; 1]]%nat. cbn [sumf].
    change (get cq_X [0; 0; 0]%nat) with 10. change (get cq_X [0; 0; 1]%nat) with 0. change (get cq_X [1; 0; 0]%nat) with 0. change (get cq_X [1; 0; 1]%nat) with 1.
    unfold cp_entry. cbn [seq sumf colprod]. unfold unit_weights. ring. }
  rewrite E. clearbody u v p q. clear E. set (e1 := (10 - u * p) ^ 2 + (0 - u * q) ^ 2). set (e2 := (0 - v * p) ^ 2 + (1 - v * q) ^ 2).
  pose proof (row_bound (10 - u * p) (0 - u * q) p q) as H1. pose proof (row_bound (0 - v * p) (1 - v * q) p q) as H2. fold e1 in H1. fold e2 in H2.
  replace ((10 - u * p) * q - (0 - u * q) * p) with (10 * q) in H1 by ring. replace ((0 - v * p) * q - (1 - v * q) * p) with (- p) in H2 by ring.
  destruct (Req_dec (p ^ 2 + q ^ 2) 0) as [Z|Z].
  - pose proof (pow2_ge_0 p). pose proof (pow2_ge_0 q). assert (p = 0) by (apply Rsqr_0_uniq; unfold Rsqr; lra). assert (q = 0) by (apply Rsqr_0_uniq; unfold Rsqr; lra).
    unfold e1, e2. subst p q. lra.
  - pose proof (pow2_ge_0 p). pose proof (pow2_ge_0 q). assert (0 < p ^ 2 + q ^ 2) by lra. apply (Rmult_le_reg_r (p ^ 2 + q ^ 2)); [lra|]. rewrite Rmult_plus_distr_r.
    replace ((10 * q) ^ 2) with (100 * q ^ 2) in H1 by ring. replace ((- p) ^ 2) with (p ^ 2) in H2 by ring. lra.
Qed.
Example C103_example : exists env ds1,
  p2_init_fit env cp_ps no_disk cq_draws (Slices sh_Xs) (Some 50%Z) P2None ex_ds = (ds1, None) /\
  (forall cf ds' e, p2_fit env cp_ps cf no_disk cq_draws (Slices sh_Xs) (Some 50%Z) P2None ex_ds = (ds', e) ->
     let s := ds_num ds' in 1 <= pf_sse 1 1 (p2_A s) (p2_B s) (p2_C s) sh_Xs (p2_Ps s)) /\
  (let Ps := [mk [2; 1]%nat [1; 0]; mk [2; 1]%nat [0; 1]] in orth_projections 1 sh_Xs Ps /\
   pf_sse 1 1 (mk [1; 1]%nat [1]) (mk [1; 1]%nat [1]) (mk [2; 1]%nat [10; 1]) sh_Xs Ps = 0).
Proof.
  destruct svd_contract_satisfiable as (svd & Hs). destruct nnls_contract_satisfiable as (nnls & Hn). destruct qr_contract_satisfiable as (qr & Hq).
  exists {| pe_cp := pe_cp (mv_env svd nnls); pe_qr := qr |}. set (env := {| pe_cp := _; pe_qr := qr |}).
  destruct (C103_start env cp_ps 1 1 2 no_disk sh_Xs (mk [2; 1]%nat [1; 1]) (mk [1; 1]%nat [1]) (mk [2; 1]%nat [1; 1]) (Some 50%Z) P2None ex_ds)
    as (ds1 & X & c0 & n & B' & Q & E & _);
    [reflexivity|reflexivity|reflexivity|lia|lia|exact (Hs 1%nat 1%nat)|exact Hq|apply cq_shape|split; reflexivity|split; reflexivity|split; reflexivity|].
  exists ds1. split; [exact E|]. split.
  - intros cf ds' e Ef s. destruct (C103_result env cp_ps 1 1 2 cf no_disk cq_draws sh_Xs cq_X (Some 50%Z) P2None ex_ds ds1 ds' e eq_refl cq_shape cq_stacked E Ef)
      as (_ & _ & H). apply H. exact cq_bound.
  - cbv zeta. split.
    + change (length sh_Xs) with 2%nat. intros k Hk. destruct k as [|[|]]; [| |cbn in Hk; lia]; intros a b Ha Hb; replace a with 0%nat by lia; replace b with 0%nat by lia; cbn; lra.
    + unfold pf_sse, slice_err, dist2, pf_entry, mprod. change (length sh_Xs) with 2%nat. cbn [seq sumf]. change (width sh_Xs 0) with 2%nat. change (width sh_Xs 1) with 2%nat. cbn. lra.
Qed.
(** Slices of widths 2 and 1 *)
Example C103_uneven_example : forall env, snd (p2_init_fit env cp_ps no_disk cq_draws (Slices [mk [1; 2]%nat [3; 4]; mk [1; 1]%nat [2]]) None P2None ex_ds) = Some ValueError.
Proof.
  intros env. apply C103_uneven_slices with (k := 1%nat); [reflexivity| |cbn; lia|discriminate]. intros X [<-|[<-|[]]]; reflexivity.
Qed.
