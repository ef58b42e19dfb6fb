(** * Specification vocabulary for boxes, triangles and closed triangulated surfaces. *)
From Coq Require Import Reals List Permutation.
From Verif Require Import Num Vec RVec SpecGeom.
Import ListNotations.
Local Open Scope R_scope.

(** the axis-aligned box with lowest corner [o] and extents [s] *)
Definition in_box (o s x : V3 R) : Prop :=
  c0 o <= c0 x <= c0 o + c0 s /\ c1 o <= c1 x <= c1 o + c1 s /\ c2 o <= c2 x <= c2 o + c2 s.
Definition corner (o s x : V3 R) : Prop :=
  (c0 x = c0 o \/ c0 x = c0 o + c0 s) /\ (c1 x = c1 o \/ c1 x = c1 o + c1 s) /\ (c2 x = c2 o \/ c2 x = c2 o + c2 s).

(** directed edges of a triangle given by three vertex numbers *)
Definition tri_edges (f : nat * nat * nat) : list (nat * nat) :=
  let '(i, j, k) := f in [(i, j); (j, k); (k, i)].
(** every directed edge occurs once, and so does its reverse *)
Definition closed_surface (fs : list (nat * nat * nat)) : Prop :=
  let es := flat_map tri_edges fs in
  NoDup es /\ forall i j, In (i, j) es -> In (j, i) es.
(** [x] is on the inner side of the (counterclockwise) triangle [abc], or on its plane *)
Definition behind (x : V3 R) (t : V3 R * V3 R * V3 R) : Prop :=
  let '(a, b, c) := t in rdot (rcross (rsub b a) (rsub c a)) (rsub x a) <= 0.
(** volume enclosed by a closed surface, by the divergence theorem *)
Definition signed_volume (ts : list (V3 R * V3 R * V3 R)) : R :=
  rsum (map (fun t => let '(a, b, c) := t in rdot a (rcross b c) / 6) ts).
(** the area of triangle [abc] by Heron's
    squared form, 16 A^2 = 4 |ab|^2 |ac|^2 - (|ab|^2 + |ac|^2 - |bc|^2)^2 *)
Definition triangle_area (a b c : V3 R) : R :=
  sqrt (4 * (rdist a b)^2 * (rdist a c)^2 - ((rdist a b)^2 + (rdist a c)^2 - (rdist b c)^2)^2) / 4.

(** a quadrilateral cut into two triangles along a diagonal, orientation kept *)
Inductive quad_split : nat * nat * nat * nat -> list (nat * nat * nat) -> Prop :=
  | split_ac a b c d : quad_split (a, b, c, d) [(a, b, c); (a, c, d)]
  | split_bd a b c d : quad_split (a, b, c, d) [(a, b, d); (b, c, d)].
(** what is assumed of lace.topology.quads_to_tris *)
Definition splits_quads (q2t : list (nat * nat * nat * nat) -> list (nat * nat * nat)) : Prop :=
  forall qs, exists tss, Forall2 quad_split qs tss /\ Permutation (q2t qs) (concat tss).

(** the solid prism over the triangle [p1 p2 p3], extending by [h] against the unit vector [u] *)
Definition in_prism (p1 p2 p3 u : V3 R) (h : R) (x : V3 R) : Prop :=
  exists a b c t, 0 <= a /\ 0 <= b /\ 0 <= c /\ a + b + c = 1 /\ 0 <= t <= 1 /\
    x = rsub (radd (radd (rscale a p1) (rscale b p2)) (rscale c p3)) (rscale (t * h) u).
(** a real triangle as the model's exact triangle *)
Definition fin_tri (t : V3 R * V3 R * V3 R) : V3 xr * V3 xr * V3 xr := let '(a, b, c) := t in (fin3 a, fin3 b, fin3 c).
