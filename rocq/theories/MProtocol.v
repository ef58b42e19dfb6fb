(** * Model of the Python 3 protocols of blmath/value.py (indexing, iteration, truth,
    hashing, int) and of the unit listings of blmath/units.py. *)
From Coq Require Import ZArith List String Bool.
From Verif Require Import Num MRounding MUnits MValue.
Import ListNotations.
Local Open Scope string_scope.
Local Open Scope num_scope.

(** value.py:3-188: the special methods defined in the class body (line 57 [__round__] is
    modelled in MValue.v). *)
Definition value_methods : list string :=
  ["__init__"; "__float__"; "__int__"; "__round__"; "__getattr__"; "__getitem__";
   "__mul__"; "__rmul__"; "__add__"; "__radd__"; "__sub__"; "__rsub__";
   "__div__"; "__truediv__"; "__rdiv__"; "__rtruediv__"; "__floordiv__"; "__rfloordiv__";
   "__mod__"; "__pow__"; "__pos__"; "__neg__"; "__abs__"; "__str__"; "__unicode__"; "__repr__";
   "__nonzero__"; "__cmp__"; "__eq__"; "__ne__"; "__lt__"; "__gt__"; "__le__"; "__ge__"].
Definition defines (m : string) : bool := existsb (String.eqb m) value_methods.

Section Protocol.
Context {F : Type} {N : Num F}.

(** what [v[key]] can be: a float, or a unit name or None *)
Inductive item := Number (x : F) | Units (u : ustr).

(** [key == k] for an int literal: a Value compares by its own [__eq__], a list is unequal *)
Definition key_is (key : pyobj F) (k : Z) : res bool :=
  match key with
  | PNum x => Ok (x =? nofZ k)
  | PVal w => v_eq w (PNum (nofZ k))
  | PList _ => Ok false
  end.
(** value.py:66-72 [__getitem__(key)] *)
Definition v_getitem (self : value F) (key : pyobj F) : res item :=
  let* zero := key_is key 0 in
  if zero then Ok (Number (v_val self))
  else let* one := key_is key 1 in
       if one then Ok (Units (v_units self)) else Err KeyError.

(** Iterating over an object whose class has [__getitem__] but no [__iter__]: its items at
    0, 1, 2, ... until IndexError, which ends the iteration; any other exception
    propagates.  [None]: not finished after [steps] items. *)
Fixpoint sequence_items (get : Z -> res item) (k : Z) (steps : nat) : option (res (list item)) :=
  match steps with
  | O => None
  | S steps =>
      match get k with
      | Ok a => match sequence_items get (k + 1) steps with
                | Some r => Some (let* l := r in Ok (a :: l))
                | None => None
                end
      | Err IndexError => Some (Ok [])
      | Err e => Some (Err e)
      end
  end.
(** [list(v)], [a, b = v], [for x in v]: TypeError when the class has neither method.
    SIMPLIFICATION: [a, b = v] stops after a third item; the class has no more than two. *)
Definition v_items (self : value F) (steps : nat) : option (res (list item)) :=
  if defines "__iter__" then None
  else if defines "__getitem__" then sequence_items (fun k => v_getitem self (PNum (nofZ k))) 0 steps
  else Some (Err TypeError).

(** Python 3's [bool(v)]: [__bool__], else [__len__], else True.  value.py:146-147
    [__nonzero__] is the Python 2 name. *)
Definition nonzero (self : value F) : bool := negb (v_val self =? nofZ 0).
Definition v_bool (py : python) (self : value F) : bool :=
  match py with
  | Python2 => if defines "__nonzero__" then nonzero self else true
  | Python3 => if defines "__bool__" then nonzero self else true
  end.

(** Python 3's [hash(v)]: a class that defines [__eq__] and not [__hash__] is unhashable;
    otherwise the hash is that of the object's identity [id]. *)
Definition v_hash (id : Z) (self : value F) : res Z :=
  if defines "__eq__" && negb (defines "__hash__") then Err TypeError else Ok id.

(** value.py:55-56 [__int__]: [int] of a float truncates; an infinity is an OverflowError
    and NaN a ValueError *)
Definition v_int (self : value F) : res Z :=
  let x := v_val self in
  let up := if x <? nofZ 0 then nceil x else option_map Z.opp (nceil (- x)) in
  match up with
  | Some z => Ok z
  | None => if x =? x then Err OverflowError else Err ValueError
  end.

(** units.py:48-55 [all_units_classes]: [list(set(...))].  The set lists its elements, each
    once, in an arbitrary order: [arrange] permutes them. *)
Definition all_units_classes (arrange : list string -> list string) : list string :=
  arrange (nodup string_dec (map (fun t => fst (snd t)) (unit_table (F := F)))).
(** units.py:76-109 *)
Definition lengths : list string := units_in_class (F := F) "length".
Definition weights : list string := units_in_class (F := F) "weight".
Definition angles : list string := units_in_class (F := F) "angle".
Definition times : list string := units_in_class (F := F) "time".
Definition time_rates : list string := units_in_class (F := F) "time_rate".
End Protocol.
Arguments item : clear implicits.
