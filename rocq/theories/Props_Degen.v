(** Property C113: data for which no model of rank two is best. *)
From Verif Require Import DegenFacts SymWitness Exists CPExamples SymFacts Parafac2Examples CMTFWitness CPUpdate CPFacts.
Local Open Scope R_scope.

(** *** C113.  W3 is the 2 x 2 x 2 tensor e0 e0 e1 + e0 e1 e0 + e1 e0 e0. *)
(** Every model with two components, whatever its weights, has a positive error, and another one has a smaller error; the errors come
    as close to zero as one likes. *)
Theorem C113_no_best : forall Us w, rows Us = shape W3 ->
  0 < sse W3 Us w 2 /\ (exists Vs, factors_ok 2 W3 Vs /\ sse W3 Vs unit_weights 2 < sse W3 Us w 2) /\
  forall eps, 0 < eps -> exists Vs, factors_ok 2 W3 Vs /\ sse W3 Vs unit_weights 2 < eps.
Proof.
  intros Us w HR. split; [exact (never_exact w HR)|]. split; [exact (no_best w HR)|].
  intros eps He. destruct (near_below He) as (n & _ & H). exact (ex_intro _ (near_W3 n) (conj (near_ok n) H)).
Qed.
Print Assumptions C113_no_best.

(** [comp_length Us w r]: length of component r as a tensor; [too_good L e]: (1472 L^4)^2 e < 1.
    A small error needs a long component. *)
Theorem C113_lengths : forall Us w L, rows Us = shape W3 -> 1 <= L -> too_good L (sse W3 Us w 2) ->
  exists r, (r < 2)%nat /\ L < comp_length Us w r.
Proof. exact long_component. Qed.
Print Assumptions C113_lengths.

(** Then both components are long, they nearly cancel, and the degeneracy score of the decomposition is close to -1. *)
Theorem C113_scores : forall Us w k L, factors_ok 2 W3 Us -> is_vec 2 w -> kt_init Us (Some w) = Ok k ->
  3 < L -> too_good L (sse W3 Us unit_weights 2) ->
  exists D, kt_degeneracy k = Ok D /\ -1 <= mget D 0 1 <= -1 + 4 / (L * (L - 3)).
Proof. exact opposite_scores. Qed.
Print Assumptions C113_scores.

(** In a sequence of models whose errors tend to zero, the lengths tend to infinity and the cosines to -1. *)
Theorem C113_sequences : forall Us, (forall k, rows (Us k) = shape W3) -> Un_cv (fun k => sse W3 (Us k) unit_weights 2) 0 ->
  (forall r, (r < 2)%nat -> cv_infty (fun k => comp_length (Us k) unit_weights r)) /\ Un_cv (fun k => comp_cosine (Us k) 0 1) (-1).
Proof. exact lengths_explode. Qed.
Print Assumptions C113_sequences.

(** Iterations of CP_ALS never leave such a region: once the error rules out components of length L, all later iterations have
    a longer one and components that nearly cancel. *)
Theorem C113_iterations : forall env cs s L j k, cs_rank cs = 2%nat -> svd_works_on 2 2 (env_svd env) -> cp_coherent 2 s -> free_fit cs s ->
  cp_X s = W3 ->
  let Us k := kt_fms (cp_dec (state_after (cp_model env cs) s k)) in
  3 < L -> too_good L (sse W3 (Us j) unit_weights 2) -> (j <= k)%nat ->
  (exists r, (r < 2)%nat /\ L < comp_length (Us k) unit_weights r) /\
  (forall r, (r < 2)%nat -> L - 3 < comp_length (Us k) unit_weights r) /\ -1 <= comp_cosine (Us k) 0 1 <= -1 + 4 / (L * (L - 3)).
Proof. intros env cs s L j k HK HS HC HF HX. exact (@stays_long env cs s HK HS HC HF HX L j k). Qed.
Print Assumptions C113_iterations.

(** Complete fits: the error is positive, a better model exists, and a small error comes with long components that nearly cancel. *)
Theorem C113_fits : forall env cs cf disk draws max_its arg ds,
  let budget := match max_its with Some m => m | None => ds_max ds end in
  plain_call env cs 2 cf draws W3 budget arg ds ->
  exists d e, cp_fit env cs cf disk draws W3 max_its arg ds = (d, None) /\ cp_SSE env (ds_num d) = Ok e /\ 0 < e /\
    (exists Vs, factors_ok 2 W3 Vs /\ sse W3 Vs unit_weights 2 < e) /\
    forall L, 3 < L -> too_good L e ->
      (exists r, (r < 2)%nat /\ L < comp_length (kt_fms (cp_dec (ds_num d))) unit_weights r) /\
      -1 <= comp_cosine (kt_fms (cp_dec (ds_num d))) 0 1 <= -1 + 4 / (L * (L - 3)).
Proof. exact W3_fits. Qed.
Print Assumptions C113_fits.

(** The models with components n (1,1/n) (1,1/n) (1,1/n) and -n e0 e0 e0 have error 3/n^2 + 1/n^4, so their lengths tend to infinity. *)
Example C113_example : sse W3 (near_W3 10) unit_weights 2 = 301 / 10000 /\
  Un_cv (fun k => sse W3 (near_W3 (INR (S k))) unit_weights 2) 0 /\
  cv_infty (fun k => comp_length (near_W3 (INR (S k))) unit_weights 1) /\
  Un_cv (fun k => comp_cosine (near_W3 (INR (S k))) 0 1) (-1).
Proof.
  split; [rewrite near_sse by lra; lra|]. split; [exact near_tends|].
  destruct (C113_sequences (fun k => near_W3 (INR (S k))) (fun k => eq_refl) near_tends) as [H1 H2].
  split; [apply H1; lia|exact H2].
Qed.

(** Started at the model with n = 2000000, CP_ALS has a component longer than 5 and a cosine of at most -0.6 after every iteration. *)
Definition W3_cs : cp_settings := {| cs_rank := 2; cs_init := "precomputed"; cs_ridge := None |}.
Definition W3_start : cp_state := CPExamples.start 2 W3 (near_W3 2000000) [false; false; false] [false; false; false].
Example C113_iterations_example : exists env, svd_works_on 2 2 (env_svd env) /\ cp_coherent 2 W3_start /\ free_fit W3_cs W3_start /\
  too_good 5 (sse W3 (near_W3 2000000) unit_weights 2) /\
  forall k, let Us := kt_fms (cp_dec (state_after (cp_model env W3_cs) W3_start k)) in
    (exists r, (r < 2)%nat /\ 5 < comp_length Us unit_weights r) /\ comp_cosine Us 0 1 <= - (6 / 10).
Proof.
  destruct svd_contract_satisfiable as (svd & H).
  exists {| env_svd := svd; env_svd_u := fun A => Ok A; env_qr := fun A => Ok A; env_nnls := fun A b => Ok b; env_junk := fun _ _ => 0 |}.
  set (env := {| env_svd := svd |}).
  assert (HS : svd_works_on 2 2 (env_svd env)) by (intros A HA; exact (H 2%nat 2%nat A HA)).
  assert (HC : cp_coherent 2 W3_start).
  { apply CPExamples.start_coherent; [|apply near_ok]. split; [reflexivity|]. split; [cbn; lia|]. repeat constructor; discriminate. }
  assert (HF : free_fit W3_cs W3_start).
  { intros m Hm. cbn in Hm. split; [reflexivity|]. cbn. split; exists [false; false; false]; (split; [reflexivity|]).
    all: destruct m as [|[|[|m]]]; [reflexivity|reflexivity|reflexivity|lia]. }
  assert (HG : too_good 5 (sse W3 (near_W3 2000000) unit_weights 2)) by (unfold too_good; rewrite near_sse by lra; lra).
  split; [exact HS|]. split; [exact HC|]. split; [exact HF|]. split; [exact HG|]. intros k.
  destruct (C113_iterations env W3_cs W3_start 5 0 k eq_refl HS HC HF eq_refl ltac:(lra) HG (Nat.le_0_l k)) as (H1 & _ & H2).
  split; [exact H1|]. lra.
Qed.

(** A fit from that start with a budget of 5 ends with an error above zero that other models undercut. *)
Example C113_fits_example : exists env d e,
  cp_fit env W3_cs y_cf no_disk [] W3 (Some 5%Z) (DecArg {| kt_rank := 2; kt_fms := near_W3 2000000; kt_w := np_ones [2%nat] |}) y_ds = (d, None) /\
  cp_SSE env (ds_num d) = Ok e /\ 0 < e /\ exists Vs, factors_ok 2 W3 Vs /\ sse W3 Vs unit_weights 2 < e.
Proof.
  destruct C113_iterations_example as (env & HS & HC & _). exists env.
  destruct (C113_fits env W3_cs y_cf no_disk [] (Some 5%Z) (DecArg {| kt_rank := 2; kt_fms := near_W3 2000000; kt_w := np_ones [2%nat] |}) y_ds)
    as (d & e & F & E & He & HV & _).
  { split; [reflexivity|]. split; [reflexivity|]. split; [exact HS|]. split; [exact (co_data HC)|].
    split. { right. right. split; [reflexivity|]. eexists. split; [reflexivity|]. split; [apply near_ok|]. split; [apply is_vec_ones|reflexivity]. }
    split; [reflexivity|]. split; [now left|]. split; [now left|]. split; [lia|]. split; [intros lg []|]. left. cbn. lia. }
  exists d, e. auto.
Qed.
