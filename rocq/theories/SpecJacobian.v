(** * Specification vocabulary for derivatives of vectors and matrices (independent of the model). *)
From Coq Require Import Reals ZArith List.
From Verif Require Import Num Vec RVec.
Import ListNotations.
Local Open Scope R_scope.

(** [d] is the derivative at [t] of a curve of vectors, of matrices: entry by entry *)
Definition vec_derivative (f : R -> V3 R) (t : R) (d : V3 R) : Prop :=
  forall i, derivable_pt_lim (fun x => coord i (f x)) t (coord i d).
Definition mat_derivative (f : R -> M3 R) (t : R) (d : M3 R) : Prop :=
  forall i j, derivable_pt_lim (fun x => coord j (coord i (f x))) t (coord j (coord i d)).
(** A Jacobian of three rows of nine entries, each row read as a matrix.  Applied to a
    velocity of the three inputs, it gives the velocity of the nine outputs *)
Definition along (J : V3 (M3 R)) (d : V3 R) (m : M3 R) : Prop :=
  forall i j, coord j (coord i m) =
    c0 d * coord j (coord i (c0 J)) + c1 d * coord j (coord i (c1 J)) + c2 d * coord j (coord i (c2 J)).
(** the sum of the products of the entries of two matrices *)
Definition pairing (a b : M3 R) : R := rdot (c0 a) (c0 b) + rdot (c1 a) (c1 b) + rdot (c2 a) (c2 b).
(** the other way: from the velocity of nine inputs to that of three outputs *)
Definition across (J : V3 (M3 R)) (m : M3 R) : V3 R := mk3 (pairing (c0 J) m) (pairing (c1 J) m) (pairing (c2 J) m).
