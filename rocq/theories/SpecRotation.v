(** * Specification vocabulary for rotations (independent of the model). *)
From Coq Require Import Reals ZArith List Ascii.
From Verif Require Import Num Vec RVec.
Import ListNotations.
Local Open Scope R_scope.

(** trace of a matrix *)
Definition trace (m : M3 R) : R := c0 (c0 m) + c1 (c1 m) + c2 (c2 m).
(** [m] turns space about the unit vector [k] by the angle [t], right-handedly:
    it fixes the axis and acts as the plane rotation on the perpendicular plane. *)
Definition turns_about (k : V3 R) (t : R) (m : M3 R) : Prop :=
  rapply m k = k /\
  forall u, rdot k u = 0 -> rapply m u = radd (rscale (cos t) u) (rscale (sin t) (rcross k u)).
(** right-handed turns about the coordinate axes *)
Definition ex : V3 R := mk3 1 0 0.
Definition ey : V3 R := mk3 0 1 0.
Definition ez : V3 R := mk3 0 0 1.
Definition axis_of (a : ascii) : option (V3 R) :=
  if Ascii.eqb a "x" then Some ex else if Ascii.eqb a "y" then Some ey else if Ascii.eqb a "z" then Some ez else None.
(** apply, one after the other, the turns by the given angles about the named
    axes; letters other than x, y, z do nothing *)
Inductive turned : list (R * ascii) -> V3 R -> V3 R -> Prop :=
  | turned_nil v : turned [] v v
  | turned_skip t a l v w : axis_of a = None -> turned l v w -> turned ((t, a) :: l) v w
  | turned_step t a k m l v w : axis_of a = Some k -> turns_about k t m ->
      turned l (rapply m v) w -> turned ((t, a) :: l) v w.
(** entrywise distance at most [e] *)
Definition mat_within (e : R) (a b : M3 R) : Prop :=
  forall i j : Z, Rabs (coord j (coord i a) - coord j (coord i b)) <= e.
(** [(u, s, v)] is a singular value decomposition of [m], as numpy returns it:
    [m = u diag(s) v], [u] and [v] orthogonal, [s] decreasing and non-negative *)
Definition rdiag (s : V3 R) : M3 R := mk3 (mk3 (c0 s) 0 0) (mk3 0 (c1 s) 0) (mk3 0 0 (c2 s)).
Definition svd_of (m u : M3 R) (s : V3 R) (v : M3 R) : Prop :=
  orthogonal u /\ orthogonal v /\ c0 s >= c1 s /\ c1 s >= c2 s /\ c2 s >= 0 /\
  m = rmmul (rmmul u (rdiag s)) v.
(** What is assumed of [cv2.Rodrigues] of a real vector: it is a rotation matrix,
    and it is the right-handed turn about the vector by its length when the length
    is 0 or in [1e-5, pi]. *)
Definition cv2_rodrigues_ok (cv2 : V3 xr -> M3 xr) : Prop :=
  (forall v, exists m, cv2 (fin3 v) = finm m /\ rotation m) /\
  (forall k t, rdot k k = 1 -> 1/100000 <= t <= PI \/ t = 0 ->
     exists m, cv2 (fin3 (rscale t k)) = finm m /\ turns_about k t m).
