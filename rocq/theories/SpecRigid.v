(** * Specification vocabulary for rigid fits (independent of the model). *)
From Coq Require Import Reals List.
From Verif Require Import Num Vec RVec SpecGeom.
Import ListNotations.
Local Open Scope R_scope.

(** sum of squared distances between [f p] and [q] over corresponding points *)
Definition residual (f : V3 R -> V3 R) (ps qs : list (V3 R)) : R :=
  rsum (map (fun pq => rdist (f (fst pq)) (snd pq) * rdist (f (fst pq)) (snd pq)) (combine ps qs)).
(** the rigid motion with rotation [Q] and offset [t] *)
Definition rigid (Q : M3 R) (t : V3 R) (p : V3 R) : V3 R := radd (rapply Q p) t.
(** the matrix of sums of products of coordinates, [sum p q^T] *)
Definition cross_gram (ps qs : list (V3 R)) : M3 R :=
  let e (f g : V3 R -> R) := rsum (map (fun pq => f (fst pq) * g (snd pq)) (combine ps qs)) in
  mk3 (mk3 (e c0 c0) (e c0 c1) (e c0 c2)) (mk3 (e c1 c0) (e c1 c1) (e c1 c2)) (mk3 (e c2 c0) (e c2 c1) (e c2 c2)).
(** the points relative to their centroid *)
Definition centred (ps : list (V3 R)) : list (V3 R) := map (fun p => rsub p (centroid ps)) ps.
(** for a single pair, the pair together with its cross product *)
Definition with_cross (ps qs : list (V3 R)) : list (V3 R) * list (V3 R) :=
  match ps, qs with [p], [q] => ([p; rcross p q], [q; rcross p q]) | _, _ => (ps, qs) end.
