(** Model of /repo/src/tenkit/utils.py (numeric part). *)
From Verif Require Export Base.
Local Open Scope R_scope.

(** utils.py:127-136: the loop stops at the first element after [sign] became non-zero. *)
Fixpoint first_nonzero_sign_from (sign : R) (l : list R) : R :=
  match l with
  | [] => sign
  | el :: l' => if Req_EM_T sign 0 then first_nonzero_sign_from (sgn el) l' else sign
  end.
Definition find_first_nonzero_sign (v : nd) : R := first_nonzero_sign_from 0 (data v).

(** utils.py:10-15 and 149-154: [np.sign(np.mean(np.sign(factor), axis=0))], zero signs
    replaced.  The mean over no rows is NaN. *)
Definition column_sign (U : nd) (k : nat) : R :=
  let s := sgn (sum (nrows U) (fun i => sgn (mget U i k)) / INR (nrows U)) in
  if Req_EM_T s 0 then find_first_nonzero_sign (col U k) else s.
Definition signs_of (U : nd) : res nd :=
  do nm <- shape2 U ;
  let '(n, m) := nm in
  if Nat.eqb n 0 then Err NonFinite else Ok (tab1 m (column_sign U)).

(** The loops utils.py:9-18 and 148-156: [factors[i] *= sign]; returns factors and signs. *)
Definition flip_list (Us : list nd) : res (list nd * list nd) :=
  do ps <- mapM (fun U => do s <- signs_of U ; do V <- broadcast_into Rmult U s ; Ok (V, s)) Us ;
  Ok (map fst ps, map snd ps).

(** utils.py:6-19.  The deepcopy makes the result independent of the argument; in this
    functional model the argument is untouched by construction. *)
Definition flip_factors (Us : list nd) : res (list nd * list nd) := flip_list Us.

(** utils.py:22-27: full SVD; [(Vh.T @ np.diag(S))[:, :rank]]. *)
Definition get_pca_loadings (svd_full : nd -> res (nd * nd * nd)) (Y : nd) (rank : nat) : res nd :=
  do usv <- svd_full Y ;
  let '(_, Sv, Vh) := usv in
  do k <- shape1 Sv ;
  do A <- matmul (transp Vh) (tab2 k k (fun i j => if Nat.eqb i j then vget Sv i else 0)) ;
  do nm <- shape2 A ;
  Ok (tab2 (fst nm) (Nat.min rank (snd nm)) (mget A)).

(** utils.py:68-69: [factor[:, permutation]] for a tuple of component numbers.
    (Negative component numbers are not modelled.) *)
Definition permute_factors (perm : list nat) (Us : list nd) : res (list nd) :=
  mapM (fun U => take_cols U perm) Us.

(** [weights[list(permutation)]] *)
Definition take_vec (w : nd) (perm : list nat) : res nd :=
  match shape w with
  | [n] => if forallb (fun p => Nat.ltb p n) perm
           then Ok (tab1 (length perm) (fun j => vget w (nth j perm 0%nat)))
           else Err IndexError
  | _ => Err IndexError
  end.

(** utils.py:72-75 *)
Definition permute_factors_and_weights (perm : list nat) (Us : list nd) (w : nd) : res (list nd * nd) :=
  do Vs <- mapM (fun U => take_cols U perm) Us ;
  do w' <- take_vec w perm ;
  Ok (Vs, w').

(** utils.py:78-96, for matrices: returns the scaled matrix and the (1, R) norms. *)
Definition normalize_factor (eps : R) (U : nd) : res (nd * nd) :=
  let norms := norm_axis0_keep U in
  do V <- np_div U (np_map (fun x => x + eps) norms) ;
  Ok (V, norms).

(** The default [eps=1e-15] *)
Definition eps15 : R := / 10 ^ 15.

(** utils.py:99-124 *)
Definition normalize_factors (Us : list nd) : res (list nd * list nd) :=
  do ps <- mapM (normalize_factor eps15) Us ;
  Ok (map fst ps, map snd ps).

(** utils.py:139-157 *)
Definition prepare_for_comparison (Us : list nd) : res (list nd * list nd * list nd) :=
  do p <- normalize_factors Us ;
  let '(Vs, norms) := p in
  do q <- flip_list Vs ;
  let '(Ws, signs) := q in
  Ok (Ws, signs, norms).

(** utils.py:160-189; numpy.linalg.lstsq is an oracle returning the solution. *)
Definition lstsq_fun := nd -> nd -> res nd.
Definition get_signs (lstsq : lstsq_fun) (U : nd) (X : option nd) : res (nd * nd) :=
  match X with
  | None =>
      let sw := np_map (fun x => if Req_EM_T x 0 then 1 else x) (sum_axis0 U) in
      Ok (np_map sgn sw, sw)
  | Some X =>
      do D <- lstsq U X ;
      do nm <- shape2 D ;
      let sw := tab1 (fst nm) (fun r => sum (snd nm) (fun j => sgn (mget D r j) * mget D r j ^ 2)) in
      Ok (np_map sgn sw, sw)
  end.
