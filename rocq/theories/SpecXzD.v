(** * What is asked of [cv2.Rodrigues] in doubles. *)
From Coq Require Import Reals ZArith List.
From Flocq Require Import Core.
From Verif Require Import Num B64 BLemmas Vec RVec SpecGeom SpecDouble SpecTransD SpecTrigD SpecRotation.
Local Open Scope R_scope.

(** for a finite vector [t k] with [k] of length 1 and [t] at most 4, the matrix is within [d] of the
    one that turns about [k] by [t] *)
Definition accurate_rodrigues (d : R) (cv2 : V3 b64 -> M3 b64) : Prop :=
  forall r k m0, fin3b r = true -> rnorm (Rval3 r) <= 4 -> rdot k k = 1 -> Rval3 r = rscale (rnorm (Rval3 r)) k -> turns_about k (rnorm (Rval3 r)) m0 -> close33 d (cv2 r) m0.
(** a vector of doubles of length 1 up to rounding, as dividing by the computed length leaves it *)
Definition nearly_unit (n : V3 b64) : Prop := fin3b n = true /\ Rabs (rnorm (Rval3 n) - 1) <= 25 * ulp_1.
