(** * Model of array memory: blmath/numerics/numpy_ext.py, and what a Polyline shares.

    An ndarray object refers to a buffer; two objects can refer to the same cells of the
    same buffer (views).  Objects are named by their number, so that assigning to
    [a.shape] or [a.flags] changes what every holder of that object sees. *)
From Coq Require Import ZArith List Bool Arith.
From Verif Require Import Num Vec.
Import ListNotations.

Section Memory.
Context {A : Type}.
(** buffer, shape, the buffer positions of its entries in row-major order, [flags.writeable] *)
Record ndarray := mkarr { a_buf : nat; a_shape : list nat; a_cells : list nat; a_writeable : bool }.
Record memory := mkmem { bufs : list (list A); objs : list ndarray }.
Definition ref := nat.
Definition obj (m : memory) (r : ref) : option ndarray := nth_error (objs m) r.
Fixpoint upd {B} (l : list B) (k : nat) (x : B) : list B :=
  match l, k with [], _ => [] | _ :: l', O => x :: l' | y :: l', S k' => y :: upd l' k' x end.
Definition set_obj (m : memory) (r : ref) (a : ndarray) : memory := mkmem (bufs m) (upd (objs m) r a).
Definition new_obj (m : memory) (a : ndarray) : memory * ref := (mkmem (bufs m) (objs m ++ [a]), length (objs m)).
(** [r.flat[k]] *)
Definition read (m : memory) (r : ref) (k : nat) : res A :=
  match obj m r with
  | None => Err OtherException
  | Some a => match nth_error (a_cells a) k with
              | None => Err IndexError
              | Some c => match nth_error (nth (a_buf a) (bufs m) []) c with Some x => Ok x | None => Err OtherException end
              end
  end.
(** [r.flat[k] = x] *)
Definition write (m : memory) (r : ref) (k : nat) (x : A) : memory * res unit :=
  match obj m r with
  | None => (m, Err OtherException)
  | Some a => if a_writeable a then
                match nth_error (a_cells a) k with
                | None => (m, Err IndexError)
                | Some c => (mkmem (upd (bufs m) (a_buf a) (upd (nth (a_buf a) (bufs m) []) c x)) (objs m), Ok tt)
                end
              else (m, Err ValueError)
  end.
Definition all_entries (m : memory) (a : ndarray) : res (list A) :=
  traverse (fun c => match nth_error (nth (a_buf a) (bufs m) []) c with Some x => Ok x | None => Err OtherException end) (a_cells a).
(** a new array with these entries, in a new buffer *)
Definition fresh (m : memory) (xs : list A) (shape : list nat) : memory * ref :=
  new_obj (mkmem (bufs m ++ [xs]) (objs m)) (mkarr (length (bufs m)) shape (seq 0 (length xs)) true).
(** [r.view()] *)
Definition view (m : memory) (r : ref) : memory * res ref :=
  match obj m r with None => (m, Err OtherException) | Some a => let (m', r') := new_obj m a in (m', Ok r') end.
(** [np.copy(r)] *)
Definition np_copy (m : memory) (r : ref) : memory * res ref :=
  match obj m r with
  | None => (m, Err OtherException)
  | Some a => match all_entries m a with
              | Ok xs => let (m', r') := fresh m xs (a_shape a) in (m', Ok r')
              | Err e => (m, Err e)
              end
  end.

(** A requested shape for [size] entries: at most one negative length, which is computed. *)
Definition nprod (l : list nat) : nat := fold_right Nat.mul 1 l.
Definition fix_shape (size : nat) (shape : list Z) : res (list nat) :=
  let known := nprod (map Z.to_nat (filter (fun z => Z.leb 0 z) shape)) in
  match length (filter (fun z => Z.ltb z 0) shape) with
  | O => if Nat.eqb known size then Ok (map Z.to_nat shape) else Err ValueError
  | 1%nat => if Nat.eqb known 0 then Err ValueError
             else if Nat.eqb (size mod known) 0 then Ok (map (fun z => if Z.ltb z 0 then size / known else Z.to_nat z) shape)
             else Err ValueError
  | _ => Err ValueError
  end.
(** [nocopy a s] tells whether numpy can give [a] the shape [s] by choosing strides.  It is
    arbitrary in the theorems. *)
Context (nocopy : ndarray -> list nat -> bool).
(** [r.shape = shape] *)
Definition set_shape (m : memory) (r : ref) (shape : list Z) : memory * res unit :=
  match obj m r with
  | None => (m, Err OtherException)
  | Some a =>
      match fix_shape (length (a_cells a)) shape with
      | Err e => (m, Err e)
      | Ok s => if nocopy a s then (set_obj m r (mkarr (a_buf a) s (a_cells a) (a_writeable a)), Ok tt) else (m, Err AttributeError)
      end
  end.
(** [r.reshape(shape)]: a view where possible, otherwise a copy *)
Definition reshape (m : memory) (r : ref) (shape : list Z) : memory * res ref :=
  match obj m r with
  | None => (m, Err OtherException)
  | Some a =>
      match fix_shape (length (a_cells a)) shape with
      | Err e => (m, Err e)
      | Ok s => if nocopy a s then let (m', r') := new_obj m (mkarr (a_buf a) s (a_cells a) (a_writeable a)) in (m', Ok r')
                else match all_entries m a with
                     | Ok xs => let (m', r') := fresh m xs s in (m', Ok r')
                     | Err e => (m, Err e)
                     end
      end
  end.
(** numpy_ext.py:1-16 [np_reshape_safe]; the outcome tells whether a warning was issued *)
Definition np_reshape_safe (m : memory) (r : ref) (shape : list Z) (just_warn : bool) : memory * res (ref * bool) :=
  match view m r with
  | (m, Err e) => (m, Err e)
  | (m, Ok v) =>
      match set_shape m v shape with
      | (m, Ok _) => (m, Ok (v, false))
      | (m, Err e) =>
          if just_warn then
            match e with
            | AttributeError => match reshape m r shape with
                                | (m, Ok c) => (m, Ok (c, true))
                                | (m, Err e) => (m, Err e)
                                end
            | _ => (m, Err e)
            end
          else (m, Err e)
      end
  end.

(** what a Python loop can meet here *)
Inductive pyobj := Arr (r : ref) | Scalar | Seq (items : list pyobj).
(** [for a in x]: the items of a sequence, the numbers of a one-dimensional array, or the
    new views [x[0], x[1], ...] of an array with more dimensions *)
Definition subarray (a : ndarray) (rest : list nat) (i : nat) : ndarray :=
  mkarr (a_buf a) rest (firstn (nprod rest) (skipn (i * nprod rest) (a_cells a))) (a_writeable a).
Definition iterate (m : memory) (x : pyobj) : memory * res (list pyobj) :=
  match x with
  | Scalar => (m, Err TypeError)
  | Seq items => (m, Ok items)
  | Arr r =>
      match obj m r with
      | None => (m, Err OtherException)
      | Some a =>
          match a_shape a with
          | [] => (m, Err TypeError)
          | [n] => (m, Ok (repeat Scalar n))
          | n :: rest => (mkmem (bufs m) (objs m ++ map (subarray a rest) (seq 0 n)), Ok (map (fun i => Arr (length (objs m) + i)%nat) (seq 0 n)))
          end
      end
  end.
Definition read_only (a : ndarray) : ndarray := mkarr (a_buf a) (a_shape a) (a_cells a) false.
Definition set_read_only (m : memory) (r : ref) : memory :=
  match obj m r with None => m | Some a => set_obj m r (read_only a) end.
(** numpy_ext.py:18-23 [np_make_readonly].  SIMPLIFICATION: all items are produced before
    the first flag is set. *)
Definition np_make_readonly (m : memory) (x : pyobj) : memory * res unit :=
  match iterate m x with
  | (m, Err e) => (m, Err e)
  | (m, Ok items) => (fold_left (fun m a => match a with Arr r => set_read_only m r | _ => m end) items m, Ok tt)
  end.
End Memory.
Arguments memory A : clear implicits.

(** ** What a Polyline shares: polyline.py:22-32, 46-52, 68-104, with arrays as objects *)
Section Shared.
Context {F : Type} {N : Num F}.
(** floating-point arrays, index arrays *)
Record store := mkstore { fm : memory F; im : memory nat }.
Record pobj := mkpobj { o_v : option ref; o_closed : bool; o_e : option ref }.
(** What is assigned to [v]: None, a float64 array, or points in another form (a list, or an
    array of another type), which numpy copies.  SIMPLIFICATION: other inputs are refused
    before anything is stored (see [MPolyline.set_v]) and are not repeated here. *)
Inductive assigned := ANone | AArr (r : ref) | AList (l : list (V3 F)).
(** [a.T] of a two-dimensional array, a view *)
Definition transposed (a : ndarray) (rows cols : nat) : ndarray :=
  mkarr (a_buf a) [cols; rows] (flat_map (fun j => map (fun i => nth (i * cols + j) (a_cells a) 0%nat) (seq 0 rows)) (seq 0 cols)) (a_writeable a).
(** numerics/coercion.py:1-46 with dtype float64, shape (-1, 3), allow_none: [np.asarray]
    returns a float64 array itself *)
Definition coerce (s : store) (a : assigned) : store * res (option ref) :=
  match a with
  | ANone => (s, Ok None)
  | AList l => let (m, r) := fresh (fm s) (flat_map (fun v => [c0 v; c1 v; c2 v]) l) [length l; 3%nat] in
               if forallb (fun v => all3 (map3 nfinite v)) l then (mkstore m (im s), Ok (Some r)) else (s, Err ValueError)
  | AArr r =>
      match obj (fm s) r with
      | None => (s, Err OtherException)
      | Some arr =>
          match all_entries (fm s) arr with
          | Err e => (s, Err e)
          | Ok xs =>
              if forallb nfinite xs then
                match a_shape arr with
                | [_; 3%nat] => (s, Ok (Some r))
                | [3%nat; n] => let (m, r') := new_obj (fm s) (transposed arr 3 n) in (mkstore m (im s), Ok (Some r'))
                | _ => (s, Err ValueError)
                end
              else (s, Err ValueError)
          end
      end
  end.
(** polyline.py:68-83 [_update_edges]: the index array is new, and read-only (line 81).  A
    closed polyline without vertices is an IndexError (line 79). *)
Definition edge_list (n : nat) (closed : bool) : list nat :=
  if closed then flat_map (fun i => [i; if Nat.eqb (S i) n then 0%nat else S i]) (seq 0 n)
  else flat_map (fun i => [i; S i]) (seq 0 (n - 1)).
Definition update_edges (s : store) (p : pobj) : store * pobj * res unit :=
  match o_v p with
  | None => (s, mkpobj None (o_closed p) None, Ok tt)
  | Some r =>
      match obj (fm s) r with
      | Some a =>
          let n := nth 0 (a_shape a) 0%nat in
          if o_closed p && Nat.eqb n 0 then (s, p, Err IndexError)
          else let es := edge_list n (o_closed p) in
               let (m, re) := fresh (im s) es [length es / 2; 2]%nat in
               (mkstore (fm s) (set_read_only m re), mkpobj (Some r) (o_closed p) (Some re), Ok tt)
      | None => (s, p, Err OtherException)
      end
  end.
(** polyline.py:85-94, setting [v]; 96-103, setting [closed]; 22-32 [__init__]; 46-52 [copy] *)
Definition set_v (s : store) (p : pobj) (a : assigned) : store * pobj * res unit :=
  match coerce s a with
  | (s, Err e) => (s, p, Err e)
  | (s, Ok v) => update_edges s (mkpobj v (o_closed p) (o_e p))
  end.
Definition set_closed (s : store) (p : pobj) (c : bool) : store * pobj * res unit :=
  update_edges s (mkpobj (o_v p) c (o_e p)).
Definition new_polyline (s : store) (a : assigned) (closed : bool) : store * pobj * res unit :=
  set_v s (mkpobj None closed None) a.
Definition copy_polyline (s : store) (p : pobj) : store * pobj * res unit :=
  match o_v p with
  | None => new_polyline s ANone (o_closed p)
  | Some r => match np_copy (fm s) r with
              | (m, Ok r') => new_polyline (mkstore m (im s)) (AArr r') (o_closed p)
              | (m, Err e) => (s, p, Err e)
              end
  end.
End Shared.
