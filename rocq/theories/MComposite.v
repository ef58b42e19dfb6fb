(** * Model of blmath/geometry/transform/composite.py. *)
From Coq Require Import String ZArith List Bool.
From Verif Require Import Num Vec NpList MVx MUnits MRotation.
Import ListNotations.
Local Open Scope num_scope.

(** Python's [l[start:stop]], each bound an integer (negative: from the end) or None. *)
Definition slice_bound (n : nat) (default : nat) (z : option Z) : nat :=
  match z with
  | None => default
  | Some z => if (z <? 0)%Z then Z.to_nat (z + Z.of_nat n) else Nat.min (Z.to_nat z) n
  end.
Definition slice {A} (l : list A) (start stop : option Z) : list A :=
  let i := slice_bound (length l) 0 start in
  let j := slice_bound (length l) (length l) stop in
  firstn (j - i) (skipn i l).

Section Composite.
Context {F : Type} {N : Num F}.

(** a matrix argument by shape: (3, 3), or another shape of [ndim] dimensions *)
Inductive mat_arg := Mat33 (m : M3 F) | MatOther (ndim : nat).
(** composite.py:4-21 [convert_33_to_44].  Formatting the shape with ["%s" % shape]
    fails with TypeError unless the shape tuple has exactly one entry. *)
Definition convert_33_to_44 (m : mat_arg) : res (M4 F) :=
  match m with
  | Mat33 m =>
      let row r := mk4 (c0 r) (c1 r) (c2 r) n0 in
      Ok (mk4 (row (c0 m)) (row (c1 m)) (row (c2 m)) (mk4 n0 n0 n0 (nofZ 1)))
  | MatOther 1 => Err ValueError
  | MatOther _ => Err TypeError
  end.
(** composite.py:23-38 [convert_44_to_33] of a (4, 4) array *)
Definition convert_44_to_33 (m : M4 F) : M3 F :=
  let row r := mk3 (d0 r) (d1 r) (d2 r) in mk3 (row (d0 m)) (row (d1 m)) (row (d2 m)).

(** composite.py:72-74: [self.transforms], a list of (forward, reverse) pairs *)
Definition transforms := list (M4 F * M4 F).
(** composite.py:90-121 [matrix_for(from_range, reverse)]; [from_range] is None
    or a pair of slice bounds. *)
Definition matrix_for (ts : transforms) (from_range : option (option Z * option Z)) (reverse : bool) : M4 F :=
  let selected := match from_range with Some (start, stop) => slice ts start stop | None => ts end in
  let matrices := map (fun t => if reverse then snd t else m4trans (fst t)) selected in
  match matrices with
  | [] => m4eye
  | m :: ms => let matrix := fold_left m4mul ms m in if reverse then matrix else m4trans matrix
  end.
(** composite.py:76-88 [__call__(points, from_range, reverse)] of an (n, 3) array *)
Definition call (ts : transforms) (points : list (V3 F)) (from_range : option (option Z * option Z)) (reverse : bool)
  : res (list (V3 F)) :=
  apply_homogeneous points (matrix_for ts from_range reverse).

(** [np.linalg.inv] of a (4, 4) array: may raise LinAlgError *)
Definition inv_t := M4 F -> res (M4 F).
(** composite.py:123-138 [append_transform4(forward, reverse)]: the new list and
    the returned index.  SIMPLIFICATION: (4, 4) arrays only; the code does not
    check the shape. *)
Definition append_transform4 (inv : inv_t) (ts : transforms) (forward : M4 F) (reverse : option (M4 F)) : res (transforms * nat) :=
  let* reverse := match reverse with Some r => Ok r | None => inv forward end in
  let new_index := length ts in
  Ok (ts ++ [(forward, reverse)], new_index).
(** composite.py:140-149 [append_transform3(forward, reverse)] *)
Definition append_transform3 (inv : inv_t) (ts : transforms) (forward : mat_arg) (reverse : option mat_arg) : res (transforms * nat) :=
  match reverse with
  | None => let* f := convert_33_to_44 forward in append_transform4 inv ts f None
  | Some reverse =>
      let* f := convert_33_to_44 forward in
      let* r := convert_33_to_44 reverse in
      append_transform4 inv ts f (Some r)
  end.
(** [np.diag(np.repeat(x, 3))] *)
Definition diag_repeat (x : F) : M3 F := mk3 (mk3 x n0 n0) (mk3 n0 x n0) (mk3 n0 n0 x).
(** composite.py:151-176 [scale(factor)] *)
Definition scale (inv : inv_t) (ts : transforms) (factor : F) : res (transforms * nat) :=
  if factor <=? n0 then Err ValueError
  else append_transform3 inv ts (Mat33 (diag_repeat factor)) (Some (Mat33 (diag_repeat (nofZ 1 / factor)))).
(** composite.py:178-194 [convert_units(from_units, to_units)] (returns None) *)
Definition convert_units (inv : inv_t) (ts : transforms) (from_units to_units : ustr) : res transforms :=
  let* k := factor from_units to_units (Some "length"%string) in
  mapr fst (scale inv ts k).
(** composite.py:196-223 [translate(vector)] of a vector of shape (3,) *)
Definition translation_matrix (v : V3 F) : M4 F :=
  let o := nofZ 1 in
  mk4 (mk4 o n0 n0 (c0 v)) (mk4 n0 o n0 (c1 v)) (mk4 n0 n0 o (c2 v)) (mk4 n0 n0 n0 o).
Definition translate (inv : inv_t) (ts : transforms) (v : V3 F) : res (transforms * nat) :=
  append_transform4 inv ts (translation_matrix v) (Some (translation_matrix (vopp v))).
(** composite.py:225-233 [reorient(up, look)] *)
Definition reorient (inv : inv_t) (ts : transforms) (up look : V3 F) : res (transforms * nat) :=
  let* m := rotation_from_up_and_look up look in
  append_transform3 inv ts (Mat33 m) (Some (Mat33 (mtrans m))).
(** composite.py:235-243 [rotate(rot)]; [as_rot] stands for
    [rodrigues.as_rotation_matrix] (MRotation.v models it in exact arithmetic). *)
Definition rotate (inv : inv_t) (as_rot : rot_arg F -> res (M3 F)) (ts : transforms) (rot : rot_arg F) : res (transforms * nat) :=
  let* m := as_rot rot in
  append_transform3 inv ts (Mat33 m) (Some (Mat33 (mtrans m))).

(** One public method call that adds a part. *)
Inductive op :=
  | Scale (factor : F)
  | ConvertUnits (from_units to_units : ustr)
  | Translate (v : V3 F)
  | Reorient (up look : V3 F)
  | Rotate (rot : rot_arg F)
  | Append3 (forward : mat_arg) (reverse : option mat_arg)
  | Append4 (forward : M4 F) (reverse : option (M4 F)).
(** The effect of a call and its return value (convert_units returns None). *)
Definition apply_op (inv : inv_t) (as_rot : rot_arg F -> res (M3 F)) (ts : transforms) (o : op) : res (transforms * option nat) :=
  let some r := mapr (fun x => (fst x, Some (snd x))) r in
  match o with
  | Scale k => some (scale inv ts k)
  | ConvertUnits f t => mapr (fun x => (x, None)) (convert_units inv ts f t)
  | Translate v => some (translate inv ts v)
  | Reorient u l => some (reorient inv ts u l)
  | Rotate r => some (rotate inv as_rot ts r)
  | Append3 f r => some (append_transform3 inv ts f r)
  | Append4 f r => some (append_transform4 inv ts f r)
  end.
(** A sequence of calls; a call that raises changes nothing. *)
Definition after (inv : inv_t) (as_rot : rot_arg F -> res (M3 F)) (ts : transforms) (os : list op) : transforms :=
  fold_left (fun ts o => match apply_op inv as_rot ts o with Ok (ts', _) => ts' | Err _ => ts end) os ts.
End Composite.
Arguments mat_arg F : clear implicits.
Arguments transforms F : clear implicits.
Arguments op F : clear implicits.
