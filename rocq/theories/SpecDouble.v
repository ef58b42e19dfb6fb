(** * Specification vocabulary for points of doubles: real values, bounds, exact distance. *)
From Coq Require Import Reals Bool.
From Flocq Require Import Core.
From Verif Require Import Num B64 BLemmas Vec RVec MPlane.
Local Open Scope R_scope.

(** [Bval x] (BLemmas) is the real number a finite double stands for, [bfin x]: [x] is finite *)
Definition Rval3 (v : V3 b64) : V3 R := map3 Bval v.
Definition fin3b (v : V3 b64) : bool := bfin (c0 v) && bfin (c1 v) && bfin (c2 v).
(** all the coordinates are finite and at most [X] in size *)
Definition within (X : R) (v : V3 b64) : Prop :=
  fin3b v = true /\ Rabs (Bval (c0 v)) <= X /\ Rabs (Bval (c1 v)) <= X /\ Rabs (Bval (c2 v)) <= X.
(** in the box spanned by [a] and [b] *)
Definition between (a b x : R) : Prop := Rmin a b <= x <= Rmax a b.
Definition between3 (a b x : V3 R) : Prop := between (c0 a) (c0 b) (c0 x) /\ between (c1 a) (c1 b) (c1 x) /\ between (c2 a) (c2 b) (c2 x).
(** the exact signed distance of a point, for the reference point and normal as they are stored *)
Definition exact_distance (p : plane b64) (x : V3 b64) : R := rdot (rsub (Rval3 x) (Rval3 (pl_r0 p))) (Rval3 (pl_n p)).

(** the unit vector along [v] *)
Definition unit_of (v : V3 R) : V3 R := rscale (/ rnorm v) v.
(** the exact signed distance of [x] from the plane through [p] perpendicular to [n] *)
Definition plane_distance (p n x : V3 b64) : R := rdot (rsub (Rval3 x) (Rval3 p)) (unit_of (Rval3 n)).
(** the coordinates of [x] are finite and differ from those of [y] by at most [e] *)
Definition close3 (e : R) (x : V3 b64) (y : V3 R) : Prop :=
  fin3b x = true /\ Rabs (Bval (c0 x) - c0 y) <= e /\ Rabs (Bval (c1 x) - c1 y) <= e /\ Rabs (Bval (c2 x) - c2 y) <= e.
