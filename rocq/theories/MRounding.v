(** * Model of blmath/numerics/rounding.py (Python 3). *)
From Coq Require Import ZArith List.
From Verif Require Import Num.
Import ListNotations.
Local Open Scope num_scope.

Section Rounding.
Context {F : Type} {N : Num F}.

(** The literal [1.0]. *)
Definition n1 : F := nofZ 1.

(** Python 3 [round(x)] of a float: an [int]; NaN is a ValueError and an
    infinity an OverflowError.  SIMPLIFICATION: both are reported as
    ValueError here (the [Num] record does not separate NaN from infinity). *)
Definition py_round (x : F) : res Z :=
  match nround x with Some z => Ok z | None => Err ValueError end.

(** numerics/rounding.py:1-26 [round_to(value, nearest)]:
    [reciprocal = 1.0 / nearest] (line 25, Python float division, raises on
    zero), then [round(value / nearest) / reciprocal] (line 26). *)
Definition round_to (value nearest : F) : res F :=
  let* reciprocal := pydiv n1 nearest in
  let* q := pydiv value nearest in
  let* k := py_round q in
  pydiv (nofZ k) reciprocal.

(** numerics/rounding.py:28-29 [rounded_list(iterable, precision)].
    SIMPLIFICATION: [round(x, precision)] is modelled as rounding half to even
    at [10^-precision] for [precision >= 0], which is its exact-arithmetic
    meaning; CPython's correctly rounded decimal conversion is not modelled. *)
Definition round_places (x : F) (precision : nat) : res F :=
  let p := nofZ (10 ^ Z.of_nat precision)%Z in
  let* k := py_round (x * p) in Ok (nofZ k / p).

Definition rounded_list (xs : list (option F)) (precision : nat) : res (list (option F)) :=
  traverse (fun ox => match ox with
                      | None => Ok None
                      | Some x => mapr Some (round_places x precision)
                      end) xs.
End Rounding.
