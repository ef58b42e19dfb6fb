(** * Adding up doubles in any order, and segments of ordinary length. *)
From Coq Require Import Reals List Permutation.
From Flocq Require Import Core.
From Verif Require Import Num B64 BLemmas Vec RVec SpecDouble SpecPoly.
Import ListNotations.
Local Open Scope R_scope.

(** [summed l s]: [s] is what rounded additions can give for the numbers [l], taken in any order and
    grouped in any way.  (np.sum adds short arrays from left to right and longer ones pairwise.) *)
Inductive summed : list b64 -> b64 -> Prop :=
  | sum_one x : summed [x] x
  | sum_add l k s t : summed l s -> summed k t -> summed (l ++ k) (nadd s t)
  | sum_perm l k s : Permutation l k -> summed l s -> summed k s.

(** the end points of a segment have the same values, or a distance whose square neither overflows
    nor underflows *)
Definition ordinary_segment (ab : V3 b64 * V3 b64) : Prop :=
  fin3b (fst ab) = true /\ fin3b (snd ab) = true /\
  (Rval3 (fst ab) = Rval3 (snd ab) \/ bpow radix2 (-390) <= rdist (Rval3 (fst ab)) (Rval3 (snd ab)) <= bpow radix2 390).
Definition Rvals (ab : V3 b64 * V3 b64) : V3 R * V3 R := (Rval3 (fst ab), Rval3 (snd ab)).
