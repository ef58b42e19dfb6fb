(** * Specification vocabulary for slicing in any number system: which edges meet the
    plane according to [line_segment_xsection]. *)
From Coq Require Import List Arith.
From Verif Require Import Num Vec MPlane.
Import ListNotations.

(** the sides of a face, in the direction in which the face passes through them *)
Definition sides (f : nat * nat * nat) : list (nat * nat) := let '(a, b, c) := f in [(a, b); (b, c); (c, a)].
Section Slice.
Context {F : Type} {N : Num F}.
(** [line_segment_xsection] from vertex [a] to vertex [b] gives the point [x] *)
Definition meets_at (p : plane F) (vs : list (V3 F)) (a b : nat) (x : V3 F) : Prop :=
  exists A B, nth_error vs a = Some A /\ nth_error vs b = Some B /\ line_segment_xsection p A B = Some x.
(** a point is found on the edge of [a] and [b], in the direction of one of the faces *)
Definition found (p : plane F) (vs : list (V3 F)) (fs : list (nat * nat * nat)) (a b : nat) : Prop :=
  exists f u v x, In f fs /\ In (u, v) (sides f) /\ ((u, v) = (a, b) \/ (v, u) = (a, b)) /\ meets_at p vs u v x.
(** points are found on at least two edges of the face *)
Definition two_found (p : plane F) (vs : list (V3 F)) (fs : list (nat * nat * nat)) (f : nat * nat * nat) : Prop :=
  let '(a, b, c) := f in
  (found p vs fs a b /\ found p vs fs b c) \/ (found p vs fs b c /\ found p vs fs a c) \/ (found p vs fs a b /\ found p vs fs a c).
(** a point found on the edge of [u] and [v] is, up to the signs of zeros, on the list *)
Definition met_on (p : plane F) (vs : list (V3 F)) (u v : nat) (ws : list (V3 F)) : Prop :=
  exists x, (meets_at p vs u v x \/ meets_at p vs v u x) /\ (In x ws \/ exists y, In y ws /\ veqb x y = true).
End Slice.
