(** * Real 3-vectors: the specification vocabulary, independent of the model. *)
From Coq Require Import Reals ZArith List Lra.
From Verif Require Import Vec.
Import ListNotations.
Local Open Scope R_scope.

Definition rdot (v w : V3 R) : R := c0 v * c0 w + c1 v * c1 w + c2 v * c2 w.
Definition radd (v w : V3 R) : V3 R := mk3 (c0 v + c0 w) (c1 v + c1 w) (c2 v + c2 w).
Definition rsub (v w : V3 R) : V3 R := mk3 (c0 v - c0 w) (c1 v - c1 w) (c2 v - c2 w).
Definition rscale (s : R) (v : V3 R) : V3 R := mk3 (s * c0 v) (s * c1 v) (s * c2 v).
Definition rcross (v w : V3 R) : V3 R :=
  mk3 (c1 v * c2 w - c2 v * c1 w) (c2 v * c0 w - c0 v * c2 w) (c0 v * c1 w - c1 v * c0 w).
Definition rzero : V3 R := mk3 0 0 0.
(** Euclidean length and distance *)
Definition rnorm (v : V3 R) : R := sqrt (rdot v v).
Definition rdist (v w : V3 R) : R := rnorm (rsub v w).
(** the point [a + t (b - a)] *)
Definition lerp (t : R) (a b : V3 R) : V3 R := radd a (rscale t (rsub b a)).

(** Matrices, as rows. *)
Definition rcol0 (m : M3 R) : V3 R := mk3 (c0 (c0 m)) (c0 (c1 m)) (c0 (c2 m)).
Definition rcol1 (m : M3 R) : V3 R := mk3 (c1 (c0 m)) (c1 (c1 m)) (c1 (c2 m)).
Definition rcol2 (m : M3 R) : V3 R := mk3 (c2 (c0 m)) (c2 (c1 m)) (c2 (c2 m)).
Definition rtrans (m : M3 R) : M3 R := mk3 (rcol0 m) (rcol1 m) (rcol2 m).
Definition rapply (m : M3 R) (v : V3 R) : V3 R := mk3 (rdot (c0 m) v) (rdot (c1 m) v) (rdot (c2 m) v).
Definition rmmul (m k : M3 R) : M3 R :=
  mk3 (mk3 (rdot (c0 m) (rcol0 k)) (rdot (c0 m) (rcol1 k)) (rdot (c0 m) (rcol2 k)))
      (mk3 (rdot (c1 m) (rcol0 k)) (rdot (c1 m) (rcol1 k)) (rdot (c1 m) (rcol2 k)))
      (mk3 (rdot (c2 m) (rcol0 k)) (rdot (c2 m) (rcol1 k)) (rdot (c2 m) (rcol2 k))).
Definition reye : M3 R := mk3 (mk3 1 0 0) (mk3 0 1 0) (mk3 0 0 1).
Definition rdet (m : M3 R) : R := rdot (c0 m) (rcross (c1 m) (c2 m)).
Definition orthogonal (m : M3 R) : Prop := rmmul m (rtrans m) = reye /\ rmmul (rtrans m) m = reye.
(** a rotation matrix *)
Definition rotation (m : M3 R) : Prop := orthogonal m /\ rdet m = 1.
(** The affine matrix with linear part [A] and offset [t]. *)
Definition affine (A : M3 R) (t : V3 R) : M4 R :=
  mk4 (mk4 (c0 (c0 A)) (c1 (c0 A)) (c2 (c0 A)) (c0 t))
      (mk4 (c0 (c1 A)) (c1 (c1 A)) (c2 (c1 A)) (c1 t))
      (mk4 (c0 (c2 A)) (c1 (c2 A)) (c2 (c2 A)) (c2 t))
      (mk4 0 0 0 1).
(** component number [i] *)
Definition coord {A} (i : Z) (v : V3 A) : A := match i with 0%Z => c0 v | 1%Z => c1 v | _ => c2 v end.
