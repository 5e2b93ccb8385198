(** Vocabulary for C119. *)
From Verif Require Import Spec Parafac2Spec.
From Verif Require Import Prelude Lin.

(** Sum of the squared entries of A diag(C[k]) B^T P_k^T over all slices, for Fs = [A; B; C] *)
Definition model_energy (K nI : nat) (Xs Ps Fs : list nd) : R :=
  sum (length Xs) (fun k => frob2 nI (width Xs k) (pf_entry K (nth 0 Fs m0) (nth 1 Fs m0) (nth 2 Fs m0) k (mget (nth k Ps m0)))).
