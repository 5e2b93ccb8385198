(** Concrete starts for C110. *)
From Verif Require Import PowerFacts FixWitness SymWitness CMTFWitness Parafac2Examples Props_Quality Props_Best.
Local Open Scope R_scope.

Definition w_Us : list nd := [mk [2; 1]%nat [0; 0]; mk [2; 1]%nat [1; 1]].
Definition w_S : nd := mk [2]%nat [3; 1].
Lemma w_ok : factors_ok 1 b_X w_Us.
Proof. split; [repeat constructor|reflexivity]. Qed.
Lemma w_svd : is_svd 2 2 b_X (np_identity 2) w_S (np_identity 2).
Proof. exact b_X_thin. Qed.
