(** * What is asked of the sine, cosine and pi of the platform's library. *)
From Coq Require Import Reals Bool.
From Flocq Require Import Core.
From Verif Require Import Num B64 BLemmas Vec RVec SpecDouble SpecTransD.
Local Open Scope R_scope.

(** [np.sin] and [np.cos] of a finite double are finite and off by at most 2^-52 (one unit in the
    last place of numbers in [1/2, 1]); [np.pi] is the double nearest to pi. *)
Definition accurate_trig (T : Trans b64) : Prop :=
  (forall x, bfin x = true -> bfin (nsin x) = true /\ Rabs (Bval (nsin x) - sin (Bval x)) <= ulp_1) /\
  (forall x, bfin x = true -> bfin (ncos x) = true /\ Rabs (Bval (ncos x) - cos (Bval x)) <= ulp_1) /\
  bfin npi = true /\ Rabs (Bval npi - PI) <= ulp_1.
(** entrywise distance of a matrix of doubles from a real matrix *)
Definition close33 (e : R) (m : M3 b64) (m0 : M3 R) : Prop := close3 e (c0 m) (c0 m0) /\ close3 e (c1 m) (c1 m0) /\ close3 e (c2 m) (c2 m0).
(** [math.acos] of a finite double in [-1, 1] is finite, not negative and off by at most 2^-51 (one
    unit in the last place of numbers in [2, 4)). *)
Definition accurate_acos (T : Trans b64) : Prop :=
  forall x, bfin x = true -> -1 <= Bval x <= 1 -> exists y, nacos x = Ok y /\ bfin y = true /\ 0 <= Bval y /\ Rabs (Bval y - acos (Bval x)) <= 2 * ulp_1.
(** the angle between two vectors, in degrees *)
Definition angle_between (a : R) (v w : V3 R) : Prop := 0 <= a <= 180 /\ cos (a * (PI / 180)) * (rnorm v * rnorm w) = rdot v w.
