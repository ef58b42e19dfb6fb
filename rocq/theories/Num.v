(** * Numbers, exceptions and outcomes shared by every model file.

    blmath computes with numpy/Python numbers.  Every model function is
    written ONCE, over an abstract record of number operations [Num F], and is
    then read at two instances:

    - [xr_num : Num xr]   : exact real arithmetic extended with one
      "not a finite number" value [NaN].  Division by zero and the square root
      of a negative number produce [NaN]; every operation on [NaN] produces
      [NaN]; every comparison with [NaN] is [false] (as in IEEE 754).
      SIMPLIFICATION: rounding is ignored, and the infinities and signed zeros
      of IEEE 754 are merged into [NaN] and [0].
    - [b64_num : Num binary64] (file [B64.v]) : IEEE 754 double precision with
      round-to-nearest-even, i.e. what CPython and numpy execute.

    The record only contains operations, no laws: a theorem never rests on an
    assumption hidden in a field. *)
From Coq Require Import Reals ZArith List Bool Lia Lra.
From Flocq Require Import Core.Raux Core.Generic_fmt Core.Round_NE.
Import ListNotations.
Set Implicit Arguments.

Class Num (F : Type) := {
  nadd : F -> F -> F;
  nsub : F -> F -> F;
  nmul : F -> F -> F;
  ndiv : F -> F -> F;          (* numpy's true_divide: never raises *)
  nopp : F -> F;
  nabs : F -> F;
  nsqrt : F -> F;
  nofZ : Z -> F;               (* integer literal / int -> float *)
  nlit : Z -> positive -> F;   (* decimal literal  num / den *)
  nlt : F -> F -> bool;
  nle : F -> F -> bool;
  neqb : F -> F -> bool;
  nfinite : F -> bool;         (* neither nan nor +-inf *)
  nceil : F -> option Z;       (* None when not finite *)
  nround : F -> option Z       (* round half to even; None when not finite *)
}.

Declare Scope num_scope.
Delimit Scope num_scope with num.
Infix "+" := nadd : num_scope.
Infix "-" := nsub : num_scope.
Infix "*" := nmul : num_scope.
Infix "/" := ndiv : num_scope.
Notation "- x" := (nopp x) : num_scope.
Infix "<?" := nlt : num_scope.
Infix "<=?" := nle : num_scope.
Infix "=?" := neqb : num_scope.

(** ** The exact instance *)
Inductive xr := Fin (r : R) | NaN.

Definition x1 (f : R -> R) (x : xr) : xr :=
  match x with Fin a => Fin (f a) | NaN => NaN end.
Definition x2 (f : R -> R -> R) (x y : xr) : xr :=
  match x, y with Fin a, Fin b => Fin (f a b) | _, _ => NaN end.
Definition xcmp (f : R -> R -> bool) (x y : xr) : bool :=
  match x, y with Fin a, Fin b => f a b | _, _ => false end.

Definition xdiv (x y : xr) : xr :=
  match x, y with
  | Fin a, Fin b => if Req_bool b 0 then NaN else Fin (a / b)
  | _, _ => NaN
  end.
Definition xsqrt (x : xr) : xr :=
  match x with
  | Fin a => if Rlt_bool a 0 then NaN else Fin (sqrt a)
  | NaN => NaN
  end.

#[global] Instance xr_num : Num xr := {
  nadd := x2 Rplus;
  nsub := x2 Rminus;
  nmul := x2 Rmult;
  ndiv := xdiv;
  nopp := x1 Ropp;
  nabs := x1 Rabs;
  nsqrt := xsqrt;
  nofZ := fun z => Fin (IZR z);
  nlit := fun n d => Fin (IZR n / IZR (Zpos d));
  nlt := xcmp Rlt_bool;
  nle := xcmp Rle_bool;
  neqb := xcmp Req_bool;
  nfinite := fun x => match x with Fin _ => true | NaN => false end;
  nceil := fun x => match x with Fin a => Some (Zceil a) | NaN => None end;
  nround := fun x => match x with Fin a => Some (ZnearestE a) | NaN => None end
}.

(** ** Outcomes: a Python call either returns a value or raises. *)
Inductive exc :=
| ValueError | KeyError | TypeError | IndexError | AttributeError
| ZeroDivisionError | OverflowError | AssertionError | LinAlgError
| DimensionalityError | LinearDependenceError | OtherException.

Inductive res (A : Type) := Ok (a : A) | Err (e : exc).
Arguments Ok {A} a.
Arguments Err {A} e.

Definition bindr {A B} (r : res A) (k : A -> res B) : res B :=
  match r with Ok a => k a | Err e => Err e end.
Notation "'let*' x ':=' e 'in' k" := (bindr e (fun x => k))
  (at level 200, x pattern, e at level 100, k at level 200, right associativity).

Definition mapr {A B} (f : A -> B) (r : res A) : res B :=
  match r with Ok a => Ok (f a) | Err e => Err e end.

Definition is_ok {A} (r : res A) : bool := match r with Ok _ => true | Err _ => false end.

(** [traverse f l]: the Python list comprehension [[f(x) for x in l]], where
    the first exception aborts the comprehension. *)
Section Traverse.
Context {A B : Type} (f : A -> res B).
Fixpoint traverse (l : list A) : res (list B) :=
  match l with
  | [] => Ok []
  | x :: xs => let* y := f x in let* ys := traverse xs in Ok (y :: ys)
  end.
End Traverse.

(** CPython's float true division: raises on a zero divisor (unlike numpy). *)
Definition pydiv {F} {N : Num F} (x y : F) : res F :=
  if neqb y (nofZ 0) then Err ZeroDivisionError else Ok (ndiv x y).
