(** * Model of blmath/numerics/matlab.py. *)
From Coq Require Import ZArith List Bool Arith.
From Verif Require Import Num Vec NpList MLinalg MNormals.
Import ListNotations.

Section Bsxfun.
Context {F : Type}.
(** numpy's binary operators on two-dimensional arrays: an axis of length one is stretched
    to the length of the other; other unequal lengths are a ValueError *)
Definition bcast_dim (x y : nat) : res nat :=
  if Nat.eqb x y then Ok x else if Nat.eqb x 1 then Ok y else if Nat.eqb y 1 then Ok x else Err ValueError.
Definition pick (d i : nat) : nat := if Nat.eqb d 1 then 0 else i.
Definition bcast (op : F -> F -> F) (a b : mat F) : res (mat F) :=
  let* r := bcast_dim (m_rows a) (m_rows b) in
  let* c := bcast_dim (m_cols a) (m_cols b) in
  Ok (mkmat r c (fun i j => op (m_at a (pick (m_rows a) i) (pick (m_cols a) j))
                               (m_at b (pick (m_rows b) i) (pick (m_cols b) j)))).
(** [np.tile(a, (k, 1))] *)
Definition tile_rows (a : mat F) (k : nat) : mat F :=
  mkmat (k * m_rows a) (m_cols a) (fun i j => m_at a (i mod m_rows a) j).
(** matlab.py:1-11 [bsxfun], for two-dimensional arrays.  [oper] is a numpy operator acting
    elementwise as [op].  Line 9 closes its parenthesis after [b]: the array is given to
    [np.tile] as a repeat count, which [np.tile] compares with 1 and tests for truth, a
    ValueError for two or more entries (and a TypeError on reshaping to it otherwise). *)
Definition bsxfun (op : F -> F -> F) (a b : mat F) : res (mat F) :=
  if Nat.eqb (m_rows a) (m_rows b) || Nat.eqb (m_cols a) (m_cols b) then bcast op a b
  else if Nat.eqb (Nat.min (m_rows a) (m_cols a)) 1 && Nat.eqb (Nat.min (m_rows b) (m_cols b)) 1 then
    if Nat.eqb (m_rows a) 1 then bcast op (tile_rows a (m_rows b)) b
    else if Nat.ltb 0 (m_rows a) && Nat.leb 2 (m_cols b) then Err ValueError else Err TypeError
  else Err OtherException.
End Bsxfun.

Section RowCol.
Context {A : Type}.
(** An array of any shape by its shape and its entries in row-major order. *)
Record nd := mknd { nd_shape : list nat; nd_entries : list A }.
(** matlab.py:13-14 [row]: [A.reshape((1, -1))] *)
Definition row (a : nd) : nd := mknd [1; length (nd_entries a)] (nd_entries a).
(** matlab.py:16-17 [col]: [A.reshape((-1, 1))] *)
Definition col (a : nd) : nd := mknd [length (nd_entries a); 1] (nd_entries a).
End RowCol.
Arguments nd A : clear implicits.

Section Sparse.
Context {F : Type} {N : Num F}.
(** scipy's [csc_matrix((data, (i, j)), shape)] for flat arrays: the three lengths agree,
    without a shape it is one more than the largest index (ValueError if there is none), and
    every index is inside it *)
Definition extent (i : list Z) : option nat :=
  match i with [] => None | z :: l => Some (Z.to_nat (fold_left Z.max l z + 1)) end.
Definition csc_coo (data : list F) (i j : list Z) (shape : option (nat * nat)) : res (sparse F) :=
  let* s := match shape with
            | Some s => Ok s
            | None => match extent i, extent j with Some m, Some n => Ok (m, n) | _, _ => Err ValueError end
            end in
  if Nat.eqb (length i) (length data) && Nat.eqb (length j) (length data) then coo data i j (fst s) (snd s)
  else Err ValueError.
(** matlab.py:19-27 [sparse]; [i] and [j] are flattened (line 22), and [np.vstack] needs them
    equally long.  [data] is one-dimensional, as scipy demands.  A shape [(m, None)] is a
    TypeError; [n] without [m] is ignored. *)
Definition matlab_sparse (i j : nd Z) (data : list F) (m n : option nat) : res (sparse F) :=
  let i := nd_entries i in let j := nd_entries j in
  if Nat.eqb (length i) (length j) then
    match m, n with
    | None, _ => csc_coo data i j None
    | Some m, Some n => csc_coo data i j (Some (m, n))
    | Some _, None => Err TypeError
    end
  else Err ValueError.
(** [m[r, c]] and [m.shape]: repeated positions add up *)
Definition sp_at (m : sparse F) (r c : nat) : F :=
  nsum (map snd (filter (fun e => Nat.eqb (fst (fst e)) r && Nat.eqb (snd (fst e)) c) (sp_entries m))).
End Sparse.
