(** * Model of blmath/numerics/vector_shortcuts.py ([vx]).

    A vector argument is a numpy array of shape (3,), a stack of them of shape
    (n,3), or an array with another number of dimensions.  SIMPLIFICATION: rows
    always have length 3 (shapes (k,) and (n,k) with k <> 3 are not modelled). *)
From Coq Require Import ZArith List Bool.
From Verif Require Import Num Vec.
Import ListNotations.
Local Open Scope num_scope.

Inductive vecs (F : Type) := One (v : V3 F) | Many (l : list (V3 F)) | OtherNdim.
Arguments One {F} v. Arguments Many {F} l. Arguments OtherNdim {F}.

Section Vx.
Context {F : Type} {N : Num F}.

(** vector_shortcuts.py:46: the 1-d branch of [normalize]. *)
Definition normalize1 (v : V3 F) : V3 F := vdivs v (vnorm v).
(** vector_shortcuts.py:38-50 [normalize]. *)
Definition normalize (a : vecs F) : res (vecs F) :=
  match a with
  | One v => Ok (One (normalize1 v))
  | Many l => Ok (Many (map normalize1 l))
  | OtherNdim => Err ValueError
  end.

(** vector_shortcuts.py:52-59 [sproj(vector, onto)], one row. *)
Definition sproj1 (v onto : V3 F) : F := vdot v (normalize1 onto).
(** vector_shortcuts.py:61-73 [proj(vector, onto)]. *)
Definition proj1 (v onto : V3 F) : V3 F := vscale (sproj1 v onto) (normalize1 onto).
Definition proj (a : vecs F) (onto : V3 F) : res (vecs F) :=
  match a with
  | One v => Ok (One (proj1 v onto))
  | Many l => Ok (Many (map (fun v => proj1 v onto) l))
  | OtherNdim => Err ValueError
  end.
(** vector_shortcuts.py:75-83 [reject(vector, from_v)]. *)
Definition reject1 (v from_v : V3 F) : V3 F := vsub v (proj1 v from_v).
Definition reject (a : vecs F) (from_v : V3 F) : res (vecs F) :=
  match a with
  | One v => Ok (One (reject1 v from_v))
  | Many l => Ok (Many (map (fun v => reject1 v from_v) l))
  | OtherNdim => Err ValueError
  end.

(** Item assignment [v[axis] = x] with numpy's negative indices. *)
Definition set_axis (axis : Z) (x : F) (v : V3 F) : res (V3 F) :=
  let i := if (axis <? 0)%Z then (axis + 3)%Z else axis in
  match i with
  | 0%Z => Ok (mk3 x (c1 v) (c2 v))
  | 1%Z => Ok (mk3 (c0 v) x (c2 v))
  | 2%Z => Ok (mk3 (c0 v) (c1 v) x)
  | _ => Err IndexError
  end.
Definition zero_axis (axis : Z) (v : V3 F) : res (V3 F) := set_axis axis n0 v.
(** vector_shortcuts.py:112-120: [reject_axis(vector, axis, squash=False)]. *)
Definition reject_axis (a : vecs F) (axis : Z) : res (vecs F) :=
  match a with
  | One v => mapr One (zero_axis axis v)
  | Many l => match zero_axis axis vzero with   (* the index is checked even without rows *)
              | Err e => Err e
              | Ok _ => mapr Many (traverse (zero_axis axis) l)
              end
  | OtherNdim => Err ValueError
  end.
(** vector_shortcuts.py:99-111: [squash=True]. *)
Definition squash1 (axis : Z) (v : V3 F) : F * F :=
  match axis with
  | 0%Z => (c1 v, c2 v)
  | 1%Z => (c0 v, c2 v)
  | _ => (c0 v, c1 v)
  end.
Definition axis_ok (axis : Z) : bool := ((axis =? 0) || (axis =? 1) || (axis =? 2))%Z.
Inductive vecs2 := One2 (p : F * F) | Many2 (l : list (F * F)).
Definition reject_axis_squash (a : vecs F) (axis : Z) : res vecs2 :=
  if negb (axis_ok axis) then Err ValueError
  else match a with
       | One v => Ok (One2 (squash1 axis v))
       | Many l => Ok (Many2 (map (squash1 axis) l))
       | OtherNdim => Err ValueError
       end.

(** vector_shortcuts.py:122-134 [magnitude]. *)
Inductive nums := One1 (x : F) | Many1 (l : list F).
Definition magnitude (a : vecs F) : res nums :=
  match a with
  | One v => Ok (One1 (vnorm v))
  | Many l => Ok (Many1 (map vnorm l))
  | OtherNdim => Err ValueError
  end.

(** vector_shortcuts.py:153-156: the number handed to [math.acos]. *)
Definition acos_argument (v1 v2 : V3 F) : F :=
  let dot := vdot (normalize1 v1) (normalize1 v2) in
  pymax (pymin dot (nofZ 1)) (nofZ (-1)).

(** vector_shortcuts.py:136-158 [angle(v1, v2, look)] ([look] is unused);
    [math.degrees x = x * (180 / pi)]. *)
Definition angle {T : Trans F} (v1 v2 look : V3 F) : res F :=
  let* a := nacos (acos_argument v1 v2) in Ok (a * (nofZ 180 / npi)).

(** vector_shortcuts.py:160-176 [signed_angle]. *)
Definition signed_angle {T : Trans F} (v1 v2 look : V3 F) : res F :=
  let s := nsign (vdot (vcross v1 v2) look) in
  let s := if s =? n0 then nofZ 1 else s in
  let* a := angle v1 v2 look in Ok (s * a).

(** vector_shortcuts.py:178-183 [almost_zero(v, atol)]. *)
Definition almost_zero (v : V3 F) (atol : F) : bool :=
  all3 (map3 (fun x => isclose n0 atol x n0) v).
(** the default [atol=1e-08] *)
Definition default_atol : F := nlit 1 100000000.
(** vector_shortcuts.py:185-196 [almost_collinear(v1, v2, atol)]. *)
Definition almost_collinear (v1 v2 : V3 F) (atol : F) : bool :=
  isclose n0 atol (vnorm (vcross v1 v2)) n0.

(** vector_shortcuts.py:198-212 [pad_with_ones] of an (n,3) array.
    SIMPLIFICATION: the shape check cannot fail on this type. *)
Definition pad1 (v : V3 F) : V4 F := mk4 (c0 v) (c1 v) (c2 v) (nofZ 1).
Definition pad_with_ones (m : list (V3 F)) : list (V4 F) := map pad1 m.
(** vector_shortcuts.py:214-230 [unpad] of an (n,4) array. *)
Definition unpad1 (v : V4 F) : V3 F := mk3 (d0 v) (d1 v) (d2 v).
Definition unpad (m : list (V4 F)) : res (list (V3 F)) :=
  if forallb (fun r => d3 r =? nofZ 1) m then Ok (map unpad1 m) else Err ValueError.
(** vector_shortcuts.py:232-242 [apply_homogeneous(vertices, transform)]. *)
Definition apply_homogeneous (vertices : list (V3 F)) (transform : M4 F) : res (list (V3 F)) :=
  unpad (map (m4apply transform) (pad_with_ones vertices)).

(** vector_shortcuts.py:244-269 [basis]. *)
Definition basis_x : V3 F := mk3 (nofZ 1) n0 n0.
Definition basis_y : V3 F := mk3 n0 (nofZ 1) n0.
Definition basis_z : V3 F := mk3 n0 n0 (nofZ 1).
Definition basis_neg_x : V3 F := mk3 (nofZ (-1)) n0 n0.
Definition basis_neg_y : V3 F := mk3 n0 (nofZ (-1)) n0.
Definition basis_neg_z : V3 F := mk3 n0 n0 (nofZ (-1)).
End Vx.
Arguments vecs2 : clear implicits.
Arguments nums : clear implicits.
