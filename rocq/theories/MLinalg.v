(** * Model of blmath/numerics/linalg: isomorphism.py,
    static_block_sparse_matrix.py and lchol.py.

    A matrix is its shape and its entry function.  SIMPLIFICATION: sparse
    storage formats (coo, csr, csc), explicit zeros and dtypes are not
    distinguished, only the matrix they denote. *)
From Coq Require Import ZArith List Bool Permutation.
From Verif Require Import Num Vec NpList.
Import ListNotations.
Local Open Scope num_scope.

Section Linalg.
Context {F : Type} {N : Num F}.

Record mat := mkmat { m_rows : nat; m_cols : nat; m_at : nat -> nat -> F }.
(** [m.T] *)
Definition mat_T (m : mat) : mat := mkmat (m_cols m) (m_rows m) (fun i j => m_at m j i).
(** [sum(f(k) for k < n)] *)
Definition sum_to (n : nat) (f : nat -> F) : F := nsum (map f (seq 0 n)).
(** [a.dot(b)]; ValueError when the inner dimensions differ *)
Definition mat_dot (a b : mat) : res mat :=
  if Nat.eqb (m_cols a) (m_rows b) then
    Ok (mkmat (m_rows a) (m_cols b) (fun i j => sum_to (m_cols a) (fun k => m_at a i k * m_at b k j)))
  else Err ValueError.

(** ** isomorphism.py *)
(** [np.linalg.det] and [.I] raise LinAlgError for matrices that are not square. *)
Definition checked_det (det : mat -> F) (m : mat) : res F :=
  if Nat.eqb (m_rows m) (m_cols m) then Ok (det m) else Err LinAlgError.
Definition checked_inv (inv : mat -> mat) (m : mat) : res mat :=
  if Nat.eqb (m_rows m) (m_cols m) then Ok (inv m) else Err LinAlgError.
(** isomorphism.py:25-44 [_validate_frames]; frames are 2-d arrays with one
    vector per row ([len(shape) != 2] cannot happen for np.matrix). *)
Definition validate_frames (det : mat -> F) (frame1 frame2 : mat) : res unit :=
  if negb (Nat.eqb (m_rows frame1) (m_rows frame2)) then Err DimensionalityError
  else
    let l1 := mat_T frame1 in
    let l2 := mat_T frame2 in
    if negb (Nat.eqb (m_cols l1) (m_cols l2)) then Err DimensionalityError
    else
      let* d1 := checked_det det l1 in
      if d1 =? n0 then Err LinearDependenceError
      else
        let* d2 := checked_det det l2 in
        if d2 =? n0 then Err LinearDependenceError else Ok tt.
(** isomorphism.py:12-54 [isomorphism]; [det], [inv] stand for
    [np.linalg.det] and [np.matrix.I]. *)
Definition isomorphism (det : mat -> F) (inv : mat -> mat) (frame1 frame2 : mat) : res mat :=
  let* _ := validate_frames det frame1 frame2 in
  let* i1 := checked_inv inv (mat_T frame1) in
  mat_dot i1 (mat_T frame2).

(** ** static_block_sparse_matrix.py *)
Definition masked (mask : list bool) (i : nat) : bool := nth i mask false.
(** [np.sum(mask)] as a truth value *)
Definition any_true (mask : list bool) : bool := existsb (fun b => b) mask.
Definition zero_like (m : mat) : mat := mkmat (m_rows m) (m_cols m) (fun _ _ => n0).
(** static_block_sparse_matrix.py:4-10 *)
Definition mask_by_rows (m : mat) (mask : list bool) : mat :=
  if any_true mask then mkmat (m_rows m) (m_cols m) (fun i j => if masked mask i then m_at m i j else n0)
  else zero_like m.
(** static_block_sparse_matrix.py:12-18 *)
Definition mask_by_columns (m : mat) (mask : list bool) : mat :=
  if any_true mask then mkmat (m_rows m) (m_cols m) (fun i j => if masked mask j then m_at m i j else n0)
  else zero_like m.
(** static_block_sparse_matrix.py:20-27 *)
Definition mask_matrix (m : mat) (row_mask column_mask : list bool) : mat :=
  if negb (any_true column_mask) then mask_by_rows m row_mask
  else if negb (any_true row_mask) then mask_by_columns m column_mask
  else mkmat (m_rows m) (m_cols m) (fun i j => if masked column_mask j && masked row_mask i then m_at m i j else n0).

(** [m[indices, :]] and [m[:, indices]] *)
Definition take_rows (m : mat) (idx : list nat) : mat := mkmat (length idx) (m_cols m) (fun i j => m_at m (nth i idx 0%nat) j).
Definition take_columns (m : mat) (idx : list nat) : mat := mkmat (m_rows m) (length idx) (fun i j => m_at m i (nth j idx 0%nat)).

(** static_block_sparse_matrix.py:31-73 [__init__] (its attributes are read back by the
    properties static_block_sparse_matrix.py:75-115), with the masks given:
    length(mask) must be the number of rows / columns, an empty mask means
    all sparse (lines 48, 53).  The default masks of lines 38-46 are in [new_sbsm]. *)
Record sbsm := mksb {
  sb_M : mat; r_s : list bool; c_s : list bool;
  block_s : mat; block_ss : mat; block_sd : mat; block_d : mat; block_ds : mat; block_dd : mat; sparse_block : mat }.
Definition complement (mask : list bool) : list bool := map negb mask.
Definition sparse_mask (counts : list nat) (threshold : F) : list bool :=
  map (fun n => nofZ (Z.of_nat n) <? threshold) counts.
Definition or_all_true (n : nat) (mask : list bool) : list bool := match mask with [] => repeat true n | _ => mask end.
Definition mk_sbsm (m : mat) (row_sparsity column_sparsity : list bool) : sbsm :=
  let rs := or_all_true (m_rows m) row_sparsity in
  let rd := complement rs in
  let cs := or_all_true (m_cols m) column_sparsity in
  let cd := complement cs in
  let ri_s := flatnonzero 0 rs in
  let ri_d := flatnonzero 0 rd in
  let ci_s := flatnonzero 0 cs in
  let ci_d := flatnonzero 0 cd in
  let bs := mask_by_rows m rs in
  let bss := mask_by_columns bs cs in
  let bsd := if Nat.eqb (length ci_d) 0 then mkmat (length ri_s) 0 (fun _ _ => n0)
             else take_columns (mask_by_columns bs cd) ci_d in
  let bd := take_rows (mask_by_rows m rd) ri_d in
  mksb m rs cs bs bss bsd bd (take_columns bd ci_s) (take_columns bd ci_d) (take_rows (take_columns bss ci_s) ri_s).
(** static_block_sparse_matrix.py:31-46 [__init__] without masks: [stored i j] tells whether
    the sparse format keeps an entry at (i, j).  The threshold is [0.05] times the larger
    dimension unless another factor is given. *)
Definition new_sbsm (m : mat) (stored : nat -> nat -> bool) (sparsity_threshold : F) : sbsm :=
  let threshold := sparsity_threshold * nofZ (Z.of_nat (Nat.max (m_rows m) (m_cols m))) in
  let elements_per_row := map (fun i => length (filter (fun j => stored i j) (seq 0 (m_cols m)))) (seq 0 (m_rows m)) in
  let elements_per_column := map (fun j => length (filter (fun i => stored i j) (seq 0 (m_rows m)))) (seq 0 (m_cols m)) in
  mk_sbsm m (sparse_mask elements_per_row threshold) (sparse_mask elements_per_column threshold).
(** static_block_sparse_matrix.py:117-133 [MMT].  Summing coo triplets at (i, j): entries of [ans],
    plus the rows of [ans_d] and the columns of [ans_sd] placed at the dense row
    numbers. *)
Definition placed (idx : list nat) (i : nat) (f : nat -> F) : F :=
  sum_to (length idx) (fun k => if Nat.eqb (nth k idx 0%nat) i then f k else n0).
Definition MMT (s : sbsm) : res mat :=
  let ri_d := flatnonzero 0 (complement (r_s s)) in
  let ci_d := flatnonzero 0 (complement (c_s s)) in
  if negb (Nat.eqb (length ri_d) 0) && Nat.eqb (length ci_d) 0 then
    let* ans := mat_dot (block_s s) (mat_T (block_s s)) in
    let* ans_sd := mat_dot (block_s s) (mat_T (block_d s)) in
    let* dd := mat_dot (block_d s) (mat_T (block_d s)) in
    (* ans_d = ans_sd.T.copy(); ans_d[:, dense_row_indices] = dd *)
    let ans_d i j := match find (fun k => Nat.eqb (nth k ri_d 0%nat) j) (rev (seq 0 (length ri_d))) with
                     | Some k => m_at dd i k
                     | None => m_at ans_sd j i
                     end in
    Ok (mkmat (m_rows ans) (m_cols ans)
          (fun i j => m_at ans i j + placed ri_d i (fun k => ans_d k j) + placed ri_d j (fun k => m_at ans_sd i k)))
  else mat_dot (sb_M s) (mat_T (sb_M s)).
(** static_block_sparse_matrix.py:135-136 [MTM], static_block_sparse_matrix.py:144-145 [matmat] *)
Definition MTM (s : sbsm) : res mat := mat_dot (mat_T (sb_M s)) (sb_M s).
Definition matmat (s : sbsm) (m : mat) : res mat := mat_dot (sb_M s) m.
(** numpy arrays with one or two axes *)
Inductive arr := A1 (l : list F) | A2 (m : mat).
Definition as_column (l : list F) : mat := mkmat (length l) 1 (fun i _ => nth i l n0).
Definition column_list (m : mat) : list F := map (fun i => m_at m i 0%nat) (seq 0 (m_rows m)).
(** [m.dot(v)]: a 1-d [v] gives a 1-d result, except that an np.matrix
    ([matrix] = true) forces it into shape (1, k). *)
Definition arr_dot (matrix : bool) (m : mat) (v : arr) : res arr :=
  match v with
  | A1 l => let* x := mat_dot m (as_column l) in
            Ok (if matrix then A2 (mat_T x) else A1 (column_list x))
  | A2 w => let* x := mat_dot m w in Ok (A2 x)
  end.
(** [v[mask]] *)
Definition arr_mask (v : arr) (mask : list bool) : arr :=
  match v with A1 l => A1 (compress mask l) | A2 m => A2 (take_rows m (flatnonzero 0 mask)) end.
(** number of selected rows before row [i] *)
Definition pos (mask : list bool) (i : nat) : nat := length (filter (fun b => b) (firstn i mask)).
(** two-axis [b[mask] = f(old, x)], [x] broadcast along its rows if it has one *)
Definition set2 (f : F -> F -> F) (b : mat) (mask : list bool) (x : mat) : res mat :=
  let k := length (flatnonzero 0 mask) in
  if (Nat.eqb (m_rows x) k || Nat.eqb (m_rows x) 1) && (Nat.eqb (m_cols x) (m_cols b) || Nat.eqb (m_cols x) 1) then
    Ok (mkmat (m_rows b) (m_cols b) (fun i j =>
      if masked mask i then f (m_at b i j) (m_at x (if Nat.eqb (m_rows x) k then pos mask i else 0%nat)
                                                   (if Nat.eqb (m_cols x) (m_cols b) then j else 0%nat))
      else m_at b i j))
  else Err ValueError.
(** one-axis [b[mask] = vals] *)
Definition set1 (f : F -> F -> F) (b : list F) (mask : list bool) (x : list F) : res (list F) :=
  let k := length (flatnonzero 0 mask) in
  if Nat.eqb (length x) k then Ok (mask_set mask b (map2 f (compress mask b) x))
  else match x with [y] => Ok (mask_set mask b (map (fun o => f o y) (compress mask b))) | _ => Err ValueError end.
(** [b[mask] += x] and [b[mask] = x]: a two-axis value fits neither into a
    one-axis selection in place, nor into a boolean-mask assignment. *)
Definition arr_set (f : F -> F -> F) (b : arr) (mask : list bool) (x : arr) : res arr :=
  match b, x with
  | A1 b, A1 x => let* r := set1 f b mask x in Ok (A1 r)
  | A1 _, A2 _ => Err ValueError
  | A2 b, A2 x => let* r := set2 f b mask x in Ok (A2 r)
  | A2 b, A1 x => let* r := set2 f b mask (mkmat 1 (length x) (fun _ j => nth j x n0)) in Ok (A2 r)
  end.
Definition arr_add (x y : arr) : res arr :=
  match x, y with
  | A2 x, A2 y => if Nat.eqb (m_rows x) (m_rows y) && Nat.eqb (m_cols x) (m_cols y)
                  then Ok (A2 (mkmat (m_rows x) (m_cols x) (fun i j => m_at x i j + m_at y i j))) else Err ValueError
  | A1 x, A1 y => if Nat.eqb (length x) (length y) then Ok (A1 (map2 nadd x y)) else Err ValueError
  | _, _ => Err ValueError   (* not reached: both are products of np.matrix *)
  end.
(** static_block_sparse_matrix.py:138-142 [matvec].  [block_sd] is an np.matrix when there are dense
    columns and an array otherwise (line 64); [block_ds], [block_dd] are
    np.matrix (lines 69-71). *)
Definition matvec (s : sbsm) (v : arr) : res arr :=
  let cs := c_s s in
  let cd := complement (c_s s) in
  let dense_columns := negb (Nat.eqb (length (flatnonzero 0 cd)) 0) in
  let* b := arr_dot false (block_ss s) v in
  let* x := arr_dot dense_columns (block_sd s) (arr_mask v cd) in
  let* b := arr_set nadd b (r_s s) x in
  let* y1 := arr_dot true (block_ds s) (arr_mask v cs) in
  let* y2 := arr_dot true (block_dd s) (arr_mask v cd) in
  let* y := arr_add y1 y2 in
  arr_set (fun _ y => y) b (complement (r_s s)) y.

(** ** lchol.py *)
(** A scipy sparse matrix object: attributes referring to arrays. *)
Record sparse_obj := mkobj { o_data : nat; o_indices : nat; o_indptr : nat; o_shape : nat * nat }.
Record heap := mkheap { h_arrays : list (list Z * bool); h_objs : list sparse_obj }.
(** [arr.astype(np.int64)]: a new array with the same content *)
Definition astype_int64 (h : heap) (a : nat) : heap * nat :=
  (mkheap (h_arrays h ++ [(fst (nth a (h_arrays h) ([], false)), true)]) (h_objs h), length (h_arrays h)).
(** lchol.py:8-10: a shallow copy with fresh index arrays; returns the new object *)
Definition copy64 (h : heap) (a : nat) : heap * nat :=
  let o := nth a (h_objs h) (mkobj 0 0 0 (0, 0))%nat in
  let (h, i) := astype_int64 h (o_indices o) in
  let (h, p) := astype_int64 h (o_indptr o) in
  (mkheap (h_arrays h) (h_objs h ++ [mkobj (o_data o) i p (o_shape o)]), length (h_objs h)).
(** lchol.py:15: [csc_matrix((ones, (q, range(len(q)))), shape=(max(q)+1, len(q)))];
    repeated positions add up *)
Definition selection (q : list nat) : res mat :=
  match q with
  | [] => Err ValueError
  | q0 :: q' => Ok (mkmat (S (fold_left Nat.max q' q0)) (length q)
                      (fun i j => if Nat.eqb (nth j q 0%nat) i then nofZ 1 else n0))
  end.
(** lchol.py:1-17 [lchol]; [lchol_c] stands for the C routine: the factor, the
    number of columns of it that were computed, and the ordering.
    csc_matrix refuses (ValueError) index pointers of fewer columns. *)
Definition lchol (lchol_c : mat -> mat * nat * list nat) (a : mat) : res (mat * nat * mat) :=
  let '(l, minor, q) := lchol_c a in
  let nonpsd := if Nat.eqb minor (m_cols a) then 0%nat else S minor in
  if negb (Nat.eqb minor (m_cols a)) then Err ValueError
  else
    let* s := selection q in
    Ok (mkmat (m_rows a) (m_cols a) (m_at l), nonpsd, s).
End Linalg.
Arguments mat F : clear implicits.
Arguments arr F : clear implicits.
Arguments sbsm F : clear implicits.
