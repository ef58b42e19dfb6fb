(** * numpy vectors and matrices of fixed shape, over any [Num F].

    A numpy array of shape (3,) is a [V3], of shape (4,) a [V4], of shape (n,3)
    a [list V3] (one entry per row).  [np.dot] sums from the left. *)
From Coq Require Import Reals ZArith List Bool.
From Flocq Require Import Core.Raux.
From Verif Require Import Num.
Import ListNotations.
Local Open Scope num_scope.

Record V3 (A : Type) := mk3 { c0 : A; c1 : A; c2 : A }.
Arguments mk3 {A} c0 c1 c2.
Arguments c0 {A} v. Arguments c1 {A} v. Arguments c2 {A} v.
Record V4 (A : Type) := mk4 { d0 : A; d1 : A; d2 : A; d3 : A }.
Arguments mk4 {A} d0 d1 d2 d3.
Arguments d0 {A} v. Arguments d1 {A} v. Arguments d2 {A} v. Arguments d3 {A} v.

(** Matrices as vectors of rows. *)
Definition M3 (A : Type) := V3 (V3 A).
Definition M4 (A : Type) := V4 (V4 A).

Definition map3 {A B} (f : A -> B) (v : V3 A) : V3 B := mk3 (f (c0 v)) (f (c1 v)) (f (c2 v)).
Definition zip3 {A B C} (f : A -> B -> C) (v : V3 A) (w : V3 B) : V3 C :=
  mk3 (f (c0 v) (c0 w)) (f (c1 v) (c1 w)) (f (c2 v) (c2 w)).
Definition map4 {A B} (f : A -> B) (v : V4 A) : V4 B := mk4 (f (d0 v)) (f (d1 v)) (f (d2 v)) (f (d3 v)).
Definition all3 (v : V3 bool) : bool := c0 v && c1 v && c2 v.
Definition any3 (v : V3 bool) : bool := c0 v || c1 v || c2 v.

Section Vec.
Context {F : Type} {N : Num F}.

Definition n0 : F := nofZ 0.

Definition vadd : V3 F -> V3 F -> V3 F := zip3 nadd.
Definition vsub : V3 F -> V3 F -> V3 F := zip3 nsub.
Definition vmul : V3 F -> V3 F -> V3 F := zip3 nmul.
Definition vopp : V3 F -> V3 F := map3 nopp.
(** [s * v] *)
Definition vscale (s : F) (v : V3 F) : V3 F := map3 (nmul s) v.
(** [v / s] (numpy: never raises) *)
Definition vdivs (v : V3 F) (s : F) : V3 F := map3 (fun x => x / s) v.
Definition vdot (v w : V3 F) : F := c0 v * c0 w + c1 v * c1 w + c2 v * c2 w.
(** [np.cross] *)
Definition vcross (v w : V3 F) : V3 F :=
  mk3 (c1 v * c2 w - c2 v * c1 w) (c2 v * c0 w - c0 v * c2 w) (c0 v * c1 w - c1 v * c0 w).
(** [np.linalg.norm] *)
Definition vnorm (v : V3 F) : F := nsqrt (vdot v v).
Definition vzero : V3 F := mk3 n0 n0 n0.
(** [all(v == w)] *)
Definition veqb (v w : V3 F) : bool := all3 (zip3 neqb v w).

(** [np.sign]: a NaN is returned unchanged. *)
Definition nsign (x : F) : F :=
  if x <? n0 then nofZ (-1) else if n0 <? x then nofZ 1 else if x =? n0 then n0 else x.
(** Python's [min(a, b)], [max(a, b)]: the first argument unless the second is
    strictly better. *)
Definition pymin (a b : F) : F := if b <? a then b else a.
Definition pymax (a b : F) : F := if a <? b then b else a.

(** [np.isclose] of two scalars: tolerance test for finite numbers, equality
    otherwise. *)
Definition isclose (rtol atol x y : F) : bool :=
  if nfinite x && nfinite y then nle (nabs (x - y)) (atol + rtol * nabs y) else x =? y.

(** Matrices. *)
Definition mcol0 {A} (m : M3 A) : V3 A := map3 c0 m.
Definition mcol1 {A} (m : M3 A) : V3 A := map3 c1 m.
Definition mcol2 {A} (m : M3 A) : V3 A := map3 c2 m.
Definition mtrans {A} (m : M3 A) : M3 A := mk3 (mcol0 m) (mcol1 m) (mcol2 m).
(** [np.dot(m, v)] *)
Definition mapply (m : M3 F) (v : V3 F) : V3 F := map3 (fun r => vdot r v) m.
(** [np.dot(m, k)] *)
Definition mmul (m k : M3 F) : M3 F := map3 (fun r => map3 (vdot r) (mtrans k)) m.
Definition madd (m k : M3 F) : M3 F := zip3 vadd m k.
Definition msub (m k : M3 F) : M3 F := zip3 vsub m k.
Definition mscale (s : F) (m : M3 F) : M3 F := map3 (vscale s) m.
Definition meye : M3 F :=
  mk3 (mk3 (nofZ 1) n0 n0) (mk3 n0 (nofZ 1) n0) (mk3 n0 n0 (nofZ 1)).
(** [np.outer(v, w)] *)
Definition mouter (v w : V3 F) : M3 F := map3 (fun x => vscale x w) v.
(** determinant, by cofactors of the first row *)
Definition mdet (m : M3 F) : F := vdot (c0 m) (vcross (c1 m) (c2 m)).
Definition mtrace (m : M3 F) : F := c0 (c0 m) + c1 (c1 m) + c2 (c2 m).

Definition vdot4 (v w : V4 F) : F := d0 v * d0 w + d1 v * d1 w + d2 v * d2 w + d3 v * d3 w.
Definition m4trans {A} (m : M4 A) : M4 A := mk4 (map4 d0 m) (map4 d1 m) (map4 d2 m) (map4 d3 m).
Definition m4apply (m : M4 F) (v : V4 F) : V4 F := map4 (fun r => vdot4 r v) m.
Definition m4mul (m k : M4 F) : M4 F := map4 (fun r => map4 (vdot4 r) (m4trans k)) m.
Definition m4eye : M4 F :=
  mk4 (mk4 (nofZ 1) n0 n0 n0) (mk4 n0 (nofZ 1) n0 n0) (mk4 n0 n0 (nofZ 1) n0) (mk4 n0 n0 n0 (nofZ 1)).

(** [xs.sum()] of a 1-d array, left to right. *)
Definition nsum (xs : list F) : F := fold_left nadd xs n0.
(** column sums [points.sum(axis=0)] *)
Definition vsum (ps : list (V3 F)) : V3 F := fold_left vadd ps vzero.
(** [points.mean(axis=0)] *)
Definition vmean (ps : list (V3 F)) : V3 F := vdivs (vsum ps) (nofZ (Z.of_nat (length ps))).
End Vec.

(** Real vectors as exact vectors. *)
Definition fin3 (v : V3 R) : V3 xr := map3 Fin v.
Definition fin4 (v : V4 R) : V4 xr := map4 Fin v.
Definition finm (m : M3 R) : M3 xr := map3 fin3 m.
Definition finm4 (m : M4 R) : M4 xr := map4 fin4 m.

(** Transcendental functions, as a separate record (only the exact instance is
    given: libm's sin/cos/acos are not modelled in double precision). *)
Class Trans (F : Type) := {
  npi : F;
  nsin : F -> F;
  ncos : F -> F;
  nacos : F -> res F   (* math.acos: ValueError outside [-1,1] *)
}.
#[global] Instance xr_trans : Trans xr := {
  npi := Fin PI;
  nsin := x1 sin;
  ncos := x1 cos;
  nacos := fun x => match x with
                    | Fin a => if Rle_bool (-1) a && Rle_bool a 1 then Ok (Fin (acos a)) else Err ValueError
                    | NaN => Ok NaN
                    end
}.
