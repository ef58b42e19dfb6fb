(** * Specification vocabulary for polygonal chains. *)
From Coq Require Import Reals List Lra.
From Verif Require Import Vec RVec SpecGeom.
Import ListNotations.
Local Open Scope R_scope.

(** the vertices in the order walked: a closed chain returns to its start *)
Definition walk {A} (closed : bool) (vs : list A) : list A := if closed then vs ++ firstn 1 vs else vs.
(** consecutive pairs of the walk *)
Definition segs {A} (closed : bool) (vs : list A) : list (A * A) := combine (walk closed vs) (tl (walk closed vs)).
(** the edges of a chain of [n] vertices: 0-1, 1-2, ..., and (n-1)-0 if closed *)
Definition chain_edges (n : nat) (closed : bool) : list (nat * nat) := segs closed (seq 0 n).
Definition seglen (ab : V3 R * V3 R) : R := rdist (fst ab) (snd ab).
Definition chain_length (closed : bool) (vs : list (V3 R)) : R := rsum (map seglen (segs closed vs)).
(** the points of the curve *)
Definition on_chain (closed : bool) (vs : list (V3 R)) (x : V3 R) : Prop :=
  exists ab, In ab (segs closed vs) /\ on_segment (fst ab) (snd ab) x.
(** an edge that is not strictly on one side of the plane through p, normal n *)
Definition meets (p n : V3 R) (ab : V3 R * V3 R) : Prop :=
  ~ (0 < sdist p n (fst ab) /\ 0 < sdist p n (snd ab)) /\ ~ (sdist p n (fst ab) < 0 /\ sdist p n (snd ab) < 0).
(** an edge inside the plane *)
Definition lies_in (p n : V3 R) (ab : V3 R * V3 R) : Prop := on_plane p n (fst ab) /\ on_plane p n (snd ab).
(** [meets] as a test, and the number of edges that meet the plane *)
Definition meetsb (p n : V3 R) (ab : V3 R * V3 R) : bool :=
  if Rlt_dec 0 (sdist p n (fst ab)) then if Rlt_dec 0 (sdist p n (snd ab)) then false else true
  else if Rlt_dec (sdist p n (fst ab)) 0 then if Rlt_dec (sdist p n (snd ab)) 0 then false else true
  else true.
Definition crossings (p n : V3 R) (closed : bool) (vs : list (V3 R)) : nat := length (filter (meetsb p n) (segs closed vs)).
