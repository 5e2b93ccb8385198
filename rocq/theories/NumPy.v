(** A model of the part of NumPy that TensorKit uses.

    This file models an external library, not /repo: each definition says which
    NumPy operation it stands for.  Arrays hold real numbers (exact arithmetic;
    dtypes and rounding are not modelled). *)
From Verif Require Export Prelude.
From Coq Require Import R_sqrt Rbasic_fun.

(** An array: shape and row-major (C-ordered) data. *)
Record nd : Type := mk { shape : list nat; data : list R }.

(** Every array NumPy hands out satisfies this. *)
Definition wf (a : nd) : Prop := length (data a) = prodl (shape a).

(** Row-major position of an index tuple. *)
Fixpoint ravel (sh idx : list nat) : nat :=
  match sh, idx with
  | _ :: sh', i :: idx' => i * prodl sh' + ravel sh' idx'
  | _, _ => 0
  end.

(** Index tuples that lie inside a shape. *)
Definition valid (idx sh : list nat) : Prop := Forall2 lt idx sh.

(** All index tuples of a shape in row-major order. *)
Fixpoint indices (sh : list nat) : list (list nat) :=
  match sh with
  | [] => [[]]
  | n :: sh' => flat_map (fun i => map (cons i) (indices sh')) (seq 0 n)
  end.

(** [a[i1, ..., iN]] *)
Definition get (a : nd) (idx : list nat) : R := nth (ravel (shape a) idx) (data a) 0%R.
(** [M[i, j]] and [v[i]] *)
Definition mget (a : nd) (i j : nat) : R := get a [i; j].
Definition vget (a : nd) (i : nat) : R := get a [i].

(** Build an array from a function of the index tuple. *)
Definition tab (sh : list nat) (f : list nat -> R) : nd := mk sh (map f (indices sh)).
Definition tab2 (n m : nat) (f : nat -> nat -> R) : nd :=
  tab [n; m] (fun idx => f (nth 0 idx 0) (nth 1 idx 0)).
Definition tab1 (n : nat) (f : nat -> R) : nd :=
  tab [n] (fun idx => f (nth 0 idx 0)).

Definition nrows (a : nd) : nat := nth 0 (shape a) 0.
Definition ncols (a : nd) : nat := nth 1 (shape a) 0.
Definition ndim (a : nd) : nat := length (shape a).

(** A well-formed matrix of the given shape (used in statements). *)
Definition is_mat (n m : nat) (a : nd) : Prop := wf a /\ shape a = [n; m].
Definition is_vec (n : nat) (a : nd) : Prop := wf a /\ shape a = [n].

(** [n, m = a.shape]: unpacking fails with ValueError unless 2-dimensional. *)
Definition shape2 (a : nd) : res (nat * nat) :=
  match shape a with [n; m] => Ok (n, m) | _ => Err ValueError end.
(** [n, = a.shape] *)
Definition shape1 (a : nd) : res nat :=
  match shape a with [n] => Ok n | _ => Err ValueError end.
(** [a.shape[k]] for a literal k >= 0 *)
Definition shape_at (a : nd) (k : nat) : res nat :=
  match nth_error (shape a) k with Some n => Ok n | None => Err IndexError end.
(** [l[i]] for a Python list and a literal position *)
Definition list_get {A : Type} (l : list A) (i : nat) : res A :=
  match nth_error l i with Some x => Ok x | None => Err IndexError end.

(** [np.reshape(a, sh)] (C order; no -1). *)
Definition reshape (a : nd) (sh : list nat) : res nd :=
  if prodl sh =? prodl (shape a) then Ok (mk sh (data a)) else Err ValueError.

(** [a.reshape(n, -1)]: the second length is inferred; NumPy refuses n = 0
    (the length cannot be inferred) and sizes not divisible by n. *)
Definition reshape_auto (a : nd) (n : nat) : res nd :=
  let sz := prodl (shape a) in
  if (n =? 0) || negb (sz mod n =? 0) then Err ValueError
  else Ok (mk [n; sz / n] (data a)).

(** [np.moveaxis(a, src, dst)]; out-of-range axes raise AxisError, which is both a
    ValueError and an IndexError. *)
Definition moveaxis (a : nd) (src dst : Z) : res nd :=
  match py_index (ndim a) src, py_index (ndim a) dst with
  | Some s, Some d =>
      Ok (tab (insert_at d (nth s (shape a) 0) (remove_at s (shape a)))
              (fun idx => get a (insert_at s (nth d idx 0) (remove_at d idx))))
  | _, _ => Err ValueError
  end.

(** [a.T]: reverse the axes. *)
Definition transp (a : nd) : nd := tab (rev (shape a)) (fun idx => get a (rev idx)).

(** [A @ B] for matrices. *)
Definition matmul (a b : nd) : res nd :=
  match shape a, shape b with
  | [n; p], [q; m] =>
      if p =? q then Ok (tab2 n m (fun i j => sum p (fun k => (mget a i k * mget b k j)%R)))
      else Err ValueError
  | _, _ => Err ValueError
  end.

(** Broadcasting of shapes, on reversed shapes: trailing axes are aligned and must be
    equal or 1. *)
Fixpoint bshape_rev (s t : list nat) : option (list nat) :=
  match s, t with
  | [], t => Some t
  | s, [] => Some s
  | x :: s', y :: t' =>
      match bshape_rev s' t' with
      | Some u =>
          if x =? y then Some (x :: u)
          else if x =? 1 then Some (y :: u)
          else if y =? 1 then Some (x :: u)
          else None
      | None => None
      end
  end.
Definition bshape (s t : list nat) : option (list nat) :=
  option_map (@rev nat) (bshape_rev (rev s) (rev t)).

(** Index into an operand of shape [sh] for result index [idx]. *)
Fixpoint clip (sh idx : list nat) : list nat :=
  match sh, idx with
  | s :: sh', i :: idx' => (if s =? 1 then 0 else i) :: clip sh' idx'
  | _, _ => []
  end.
Definition bidx (sh idx : list nat) : list nat := clip sh (skipn (length idx - length sh) idx).

(** Element-wise binary operation with broadcasting ([a*b], [a-b], [a/b], ...). *)
Definition broadcast (op : R -> R -> R) (a b : nd) : res nd :=
  match bshape (shape a) (shape b) with
  | Some sh => Ok (tab sh (fun idx => op (get a (bidx (shape a) idx)) (get b (bidx (shape b) idx))))
  | None => Err ValueError
  end.

(** [a *= b] and friends: the result must keep a's shape. *)
Definition broadcast_into (op : R -> R -> R) (a b : nd) : res nd :=
  match bshape (shape a) (shape b) with
  | Some sh => if list_eq_dec Nat.eq_dec sh (shape a) then broadcast op a b else Err ValueError
  | None => Err ValueError
  end.

(** [a[...] = b] *)
Definition assign_full (a b : nd) : res nd := broadcast_into (fun _ y => y) a b.

(** [a + b], [a - b] where broadcasting is not needed are instances of [broadcast]. *)
Definition np_mul := broadcast Rmult.
Definition np_sub := broadcast Rminus.
Definition np_add := broadcast Rplus.

(** [a / b] element-wise with broadcasting.  If some denominator is 0 NumPy's result
    contains NaN or an infinity: [NonFinite]. *)
Definition has_zero (a : nd) : bool :=
  existsb (fun x => if Req_EM_T x 0 then true else false) (data a).
Definition np_div (a b : nd) : res nd :=
  if has_zero b then Err NonFinite else broadcast Rdiv a b.

(** [s * a], [a ** 2], [np.abs(a)], [np.sign(a)] ... *)
Definition np_map (f : R -> R) (a : nd) : nd := mk (shape a) (map f (data a)).

(** [a[np.newaxis]] *)
Definition newaxis0 (a : nd) : nd := mk (1 :: shape a) (data a).

(** [np.empty(sh)]: arbitrary contents, given by [junk]. *)
Definition np_empty (junk : nat -> R) (sh : list nat) : nd := mk sh (map junk (seq 0 (prodl sh))).
Definition np_zeros (sh : list nat) : nd := tab sh (fun _ => 0%R).
Definition np_ones (sh : list nat) : nd := tab sh (fun _ => 1%R).
Definition np_identity (n : nat) : nd := tab2 n n (fun i j => if i =? j then 1%R else 0%R).

(** Overwrite a stretch of flat data starting at [off] (no bounds check). *)
Definition set_slice (l : list R) (off : nat) (new : list R) : list R :=
  firstn off l ++ new ++ skipn (off + length new) l.

(** [a[i]] along the first axis (i in range). *)
Definition row (a : nd) (i : nat) : nd :=
  let sh := tl (shape a) in
  mk sh (firstn (prodl sh) (skipn (i * prodl sh) (data a))).
(** [a[lo:hi]] along the first axis; Python slices clip to the length. *)
Definition slice0 (a : nd) (lo hi : nat) : nd :=
  let n := nth 0 (shape a) 0 in
  let sh := tl (shape a) in
  let lo' := Nat.min lo n in
  let hi' := Nat.min hi n in
  mk ((hi' - lo') :: sh) (firstn ((hi' - lo') * prodl sh) (skipn (lo' * prodl sh) (data a))).
(** [a[lo:hi] = b] for b of exactly the shape of the slice. *)
Definition set_slice0 (a : nd) (lo hi : nat) (b : nd) : res nd :=
  if list_eq_dec Nat.eq_dec (shape b) (shape (slice0 a lo hi))
  then Ok (mk (shape a) (set_slice (data a) (Nat.min lo (nth 0 (shape a) 0) * prodl (tl (shape a))) (data b)))
  else Err ValueError.

(** [M[:, perm]] *)
Definition take_cols (a : nd) (perm : list nat) : res nd :=
  match shape a with
  | [n; m] => if forallb (fun p => p <? m) perm
              then Ok (tab2 n (length perm) (fun i j => mget a i (nth j perm 0)))
              else Err IndexError
  | _ => Err IndexError
  end.

(** [M[:, r]] as a vector *)
Definition col (a : nd) (r : nat) : nd := tab1 (nrows a) (fun i => mget a i r).

(** [np.concatenate([A, B], axis=0)] / [axis=1] for matrices. *)
Definition concat0 (a b : nd) : res nd :=
  match shape a, shape b with
  | [n; m], [p; q] => if m =? q then Ok (mk [n + p; m] (data a ++ data b)) else Err ValueError
  | _, _ => Err ValueError
  end.
Definition concat1 (a b : nd) : res nd :=
  match shape a, shape b with
  | [n; m], [p; q] =>
      if n =? p then Ok (tab2 n (m + q) (fun i j => if j <? m then mget a i j else mget b i (j - m)))
      else Err ValueError
  | _, _ => Err ValueError
  end.

(** [np.sum(a)], [np.linalg.norm(a)], column norms [np.linalg.norm(M, axis=0)],
    [M.sum(0)]. *)
Definition np_sum (a : nd) : R := sumf (data a) (fun x => x).
Definition norm2 (a : nd) : R := sumf (data a) (fun x => (x * x)%R).
Definition norm (a : nd) : R := sqrt (norm2 a).
Definition colnorm2 (a : nd) (r : nat) : R := sum (nrows a) (fun i => (mget a i r * mget a i r)%R).
Definition colnorm (a : nd) (r : nat) : R := sqrt (colnorm2 a r).
Definition norm_axis0 (a : nd) : nd := tab1 (ncols a) (colnorm a).
Definition sum_axis0 (a : nd) : nd := tab1 (ncols a) (fun r => sum (nrows a) (fun i => mget a i r)).

(** [np.linalg.norm(M, axis=0, keepdims=True)] *)
Definition norm_axis0_keep (a : nd) : nd := newaxis0 (norm_axis0 a).

(** [np.sign(x)] *)
Definition sgn (x : R) : R :=
  if Rlt_dec x 0 then (-1)%R else if Rlt_dec 0 x then 1%R else 0%R.

(** Numbers with IEEE specials, for results of divisions that may hit 0. *)
Inductive xr : Type := Fin (r : R) | PInf | NInf | NaN.

(** [x / y] for finite float64 operands (NumPy scalars: a warning, not an exception,
    on division by zero; the sign of a zero denominator is not modelled, it is +0). *)
Definition xdivR (x y : R) : xr :=
  if Req_EM_T y 0 then
    if Rlt_dec x 0 then NInf else if Rlt_dec 0 x then PInf else NaN
  else Fin (x / y).

Definition xltb (x y : xr) : bool :=
  match x, y with
  | NaN, _ | _, NaN => false
  | Fin a, Fin b => if Rlt_dec a b then true else false
  | NInf, NInf => false
  | NInf, _ => true
  | _, NInf => false
  | PInf, _ => false
  | _, PInf => true
  end.

Definition xabs (x : xr) : xr :=
  match x with Fin r => Fin (Rabs r) | PInf | NInf => PInf | NaN => NaN end.

(** [x - y] and [x / y] on extended numbers. *)
Definition xsub (x y : xr) : xr :=
  match x, y with
  | NaN, _ | _, NaN => NaN
  | Fin a, Fin b => Fin (a - b)
  | PInf, PInf | NInf, NInf => NaN
  | PInf, _ => PInf
  | NInf, _ => NInf
  | Fin _, PInf => NInf
  | Fin _, NInf => PInf
  end.
Definition xdiv (x y : xr) : xr :=
  match x, y with
  | NaN, _ | _, NaN => NaN
  | Fin a, Fin b => xdivR a b
  | Fin _, _ => Fin 0
  | PInf, Fin b => if Rlt_dec b 0 then NInf else PInf
  | NInf, Fin b => if Rlt_dec b 0 then PInf else NInf
  | _, _ => NaN
  end.
