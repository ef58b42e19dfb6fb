(** * What a Value of doubles denotes. *)
From Coq Require Import Reals String.
From Flocq Require Import Core.
From Verif Require Import Num B64 BLemmas SpecUnits MValue.
Local Open Scope R_scope.

(** zero, or of size 2^-900 to 2^900 *)
Definition ordinary_number (x : b64) : Prop :=
  bfin x = true /\ (Bval x = 0 \/ bpow radix2 (-900) <= Rabs (Bval x) <= bpow radix2 900).
(** [v] is read as [q] times the base unit of [k] (metre, kilogram, degree, second, hour per
    week); the size of the unit is its true one, not the one in the program's table *)
Definition denotes (v : value b64) (k : kind) (q : R) : Prop :=
  exists u m, v_units v = Some u /\ unit_size u = Some (k, m) /\ bfin (v_val v) = true /\ q = Bval (v_val v) * m.
(** the same for a number of ordinary size *)
Definition reads (v : value b64) (k : kind) (q : R) : Prop := ordinary_number (v_val v) /\ denotes v k q.
