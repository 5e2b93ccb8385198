(** Vocabulary for C118: the three-way problem inside Parafac2_ALS. *)
From Verif Require Import NumPy Parafac2Spec.
From Verif Require Import Prelude Lin.

(** The tensor with the slices X_k P_k *)
Definition projected_tensor (K nI : nat) (Xs Ps : list nd) : nd :=
  tab [nI; K; length Xs] (fun idx => projected_entry Xs Ps (nth 0 idx 0) (nth 1 idx 0) (nth 2 idx 0)).
(** The new factors up to mode m, the old ones after it *)
Definition mixed (old new : list nd) (m : nat) : list nd := firstn (S m) new ++ skipn (S m) old.
