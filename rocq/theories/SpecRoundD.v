(** * Rounding to a step, on doubles. *)
From Coq Require Import Reals ZArith String List.
From Flocq Require Import Core.
From Verif Require Import Num B64 BLemmas SpecUnits.
Import ListNotations.
Local Open Scope R_scope.

(** the spacing of the doubles above 1 *)
Definition ulp_of_1 : R := bpow radix2 (-52).
(** no finite double is nearer to [z] than [y] *)
Definition nearest_double_to (y : b64) (z : R) : Prop :=
  bfin y = true /\ forall w : b64, bfin w = true -> Rabs (Bval y - z) <= Rabs (Bval w - z).
(** precisions for which the answer is the double nearest to the decimal *)
Definition clean (p : option Z) : Prop :=
  match p with None => True | Some q => In q [0; 1; 2; 3; 4; 6; 7; 8; 10; 11; 12; 13; 14]%Z end.
(** [a] is what the system [s] shows for a quantity of [q] base units of kind [k]: in the
    display unit of the system, a whole number [j] of display steps [t], where [j * t] is
    within half a step of the true quantity (up to the error of the arithmetic) *)
Definition displays (s : unit_system) (k : kind) (p : option Z) (q : R) (a : b64 * option string) : Prop :=
  exists m j, unit_size (display_unit s k) = Some (k, m) /\ snd a = Some (display_unit s k) /\ bfin (fst a) = true /\
    let t := step_of (display_unit s k) p in
    Rabs (q / m - IZR j * t) <= t / 2 + 8 * ulp_of_1 * (Rabs (q / m) + t) /\
    Rabs (Bval (fst a) - IZR j * t) <= 4 * ulp_of_1 * Rabs (IZR j * t) /\
    (clean p -> nearest_double_to (fst a) (IZR j * t)).
