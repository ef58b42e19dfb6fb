(** * Specification vocabulary for planes, lines and segments of real 3-space. *)
From Coq Require Import Reals List Lra.
From Verif Require Import Vec RVec.
Import ListNotations.
Local Open Scope R_scope.

(** the plane through [p] with normal [n] *)
Definition on_plane (p n x : V3 R) : Prop := rdot (rsub x p) n = 0.
(** signed distance of [x] from that plane, positive on the side of [n] *)
Definition sdist (p n x : V3 R) : R := rdot (rsub x p) n / rnorm n.
(** [x] on the line through [a] and [b] / on the segment from [a] to [b] *)
Definition on_line (a b x : V3 R) : Prop := exists t, x = lerp t a b.
Definition on_segment (a b x : V3 R) : Prop := exists t, 0 <= t <= 1 /\ x = lerp t a b.
(** decidable comparison as a test *)
Definition geb0 (r : R) : bool := if Rle_dec 0 r then true else false.
Definition leb0 (r : R) : bool := if Rle_dec r 0 then true else false.
Fixpoint rsum (l : list R) : R := match l with [] => 0 | x :: l' => x + rsum l' end.
(** centroid and (unbiased) covariance matrix of a point set *)
Definition centroid (ps : list (V3 R)) : V3 R :=
  mk3 (rsum (map c0 ps) / INR (length ps)) (rsum (map c1 ps) / INR (length ps)) (rsum (map c2 ps) / INR (length ps)).
Definition scatter (f g : V3 R -> R) (ps : list (V3 R)) : R :=
  rsum (map (fun p => f (rsub p (centroid ps)) * g (rsub p (centroid ps))) ps) / (INR (length ps) - 1).
Definition rcov (ps : list (V3 R)) : M3 R :=
  mk3 (mk3 (scatter c0 c0 ps) (scatter c0 c1 ps) (scatter c0 c2 ps))
      (mk3 (scatter c1 c0 ps) (scatter c1 c1 ps) (scatter c1 c2 ps))
      (mk3 (scatter c2 c0 ps) (scatter c2 c1 ps) (scatter c2 c2 ps)).
(** sum of squared distances of the points from a plane *)
Definition plane_error (p n : V3 R) (ps : list (V3 R)) : R := rsum (map (fun x => sdist p n x * sdist p n x) ps).
(** [q] is an eigenvector of [m] with eigenvalue [w] *)
Definition eigenpair (m : M3 R) (w : R) (q : V3 R) : Prop := rapply m q = rscale w q.
(** a triangle whose vertices are not all strictly on one side *)
Definition straddles (p n : V3 R) (a b c : V3 R) : Prop :=
  ~ (0 < sdist p n a /\ 0 < sdist p n b /\ 0 < sdist p n c) /\
  ~ (sdist p n a < 0 /\ sdist p n b < 0 /\ sdist p n c < 0).
(** every component within 1e-8 of zero *)
Definition tiny (n : V3 R) : Prop :=
  Rabs (c0 n) <= 1 / 100000000 /\ Rabs (c1 n) <= 1 / 100000000 /\ Rabs (c2 n) <= 1 / 100000000.
(** plane geometry: lines of the real plane *)
Definition on_line2 (p q x : R * R) : Prop :=
  exists t, fst x = fst p + t * (fst q - fst p) /\ snd x = snd p + t * (snd q - snd p).
(** zero exactly when the lines pq and rs are parallel or degenerate *)
Definition cross2 (p q r s : R * R) : R :=
  (fst q - fst p) * (snd s - snd r) - (snd q - snd p) * (fst s - fst r).
