(** * Model of blmath/value.py (class Value), Python 3. *)
From Coq Require Import ZArith List String Bool.
From Verif Require Import Num MRounding MUnits.
Import ListNotations.
Local Open Scope string_scope.
Local Open Scope num_scope.

Section Value.
Context {F : Type} {N : Num F}.

(** value.py:7-33: an instance holds [_val] (a float) and [_units]. *)
Record value := mkv { v_val : F; v_units : ustr }.

(** What the operators accept: numbers, Values, and lists of operands
    ([hasattr(x, '__iter__')]).  Strings, dicts and arbitrary objects are not
    modelled. *)
Inductive pyobj :=
| PNum (x : F)
| PVal (v : value)
| PList (l : list pyobj).

(** [float(x)]; value.py:53-54 [Value.__float__]. *)
Definition pyfloat (o : pyobj) : res F :=
  match o with
  | PNum x => Ok x
  | PVal v => Ok (v_val v)
  | PList _ => Err TypeError
  end.

(** value.py:28-33: the [value] setter; the argument None is [None]. *)
Definition set_value (val : option pyobj) : res F :=
  match val with None => Err ValueError | Some o => pyfloat o end.

(** value.py:7-16 [Value.__init__]. *)
Definition mk_value (val : option pyobj) (units : ustr) : res value :=
  let* x := set_value val in
  match units with
  | None => Ok (mkv x None)
  | Some s => if existsb (String.eqb s) (all_units (F := F)) then Ok (mkv x (Some s))
              else Err ValueError
  end.
Definition mk_num (x : F) (units : ustr) : res value := mk_value (Some (PNum x)) units.

(** value.py:35-41 [convert]. *)
Definition v_convert (self : value) (to_units : ustr) : res value :=
  if ustr_eqb to_units (v_units self) then Ok self
  else match v_units self with
       | None => Err ValueError
       | Some _ =>
           let* r := convert (Some (v_val self)) (v_units self) to_units None in
           mk_value (option_map PNum (fst r)) (snd r)
       end.

(** value.py:43-47 [convert_to_system_default]; [d[None]] is a KeyError. *)
Definition v_convert_to_system_default (self : value) (system : string) : res value :=
  let* c := units_class (F := F) (v_units self) in
  let* d := default_units system [] in
  match c with
  | None => Err KeyError
  | Some c => let* t := dict_get c d in v_convert self (Some t)
  end.

(** value.py:57-58 [__round__(places)], i.e. [round(v, places)]. *)
Definition v_round_places (self : value) (places : nat) : res value :=
  let* x := round_places (v_val self) places in mk_num x (v_units self).

(** value.py:60-64 [__getattr__(name)]. *)
Definition v_getattr (self : value) (name : string) : res value :=
  if existsb (String.eqb name) (all_units (F := F)) then v_convert self (Some name)
  else Err AttributeError.

(** value.py:149-153 [_comparable(other)]. *)
Definition comparable (self : value) (other : pyobj) : res pyobj :=
  match other with
  | PVal w => mapr PVal (v_convert w (v_units self))
  | _ => Ok other
  end.

(** value.py:74-83 [__mul__], [__rmul__]. *)
Fixpoint v_mul (self : value) (other : pyobj) : res pyobj :=
  match other with
  | PVal _ => Err ValueError
  | PList l => mapr PList (traverse (v_mul self) l)
  | PNum x => mapr PVal (mk_num (v_val self * x) (v_units self))
  end.
Definition v_rmul := v_mul.

(** The shared tail of lines 88, 95, 99: [Value(op(self.value,
    float(self._comparable(other))), self.units)]. *)
Definition combine (op : F -> F -> F) (self : value) (other : pyobj) : res pyobj :=
  let* o := comparable self other in
  let* y := pyfloat o in
  mapr PVal (mk_num (op (v_val self) y) (v_units self)).

(** value.py:85-90 [__add__], [__radd__]. *)
Fixpoint v_add (self : value) (other : pyobj) : res pyobj :=
  match other with
  | PList l => mapr PList (traverse (v_add self) l)
  | _ => combine nadd self other
  end.
Definition v_radd := v_add.

(** value.py:92-95 [__sub__]. *)
Fixpoint v_sub (self : value) (other : pyobj) : res pyobj :=
  match other with
  | PList l => mapr PList (traverse (v_sub self) l)
  | _ => combine nsub self other
  end.
(** value.py:96-99 [__rsub__]: [x - self] for a list element [x] dispatches to
    [x.__sub__] when [x] is a Value and back to [self.__rsub__] otherwise. *)
Fixpoint v_rsub (self : value) (other : pyobj) : res pyobj :=
  match other with
  | PList l => mapr PList (traverse (fun x => match x with
                                              | PVal w => v_sub w (PVal self)
                                              | _ => v_rsub self x
                                              end) l)
  | _ => combine (fun a b => b - a) self other
  end.

(** The common shape of [__truediv__] (value.py:103-110) and [__floordiv__]
    (116-123): [dv] is the number division.  Only a ValueError of
    [_comparable] is caught (and re-raised as ValueError). *)
Definition divide (dv : F -> F -> res F) (self : value) (other : pyobj) : res pyobj :=
  match other with
  | PVal w =>
      match comparable self other with
      | Err ValueError => Err ValueError
      | Err e => Err e
      | Ok o =>
          let* y := pyfloat o in
          let* q := dv (v_val self) y in mapr PVal (mk_num q None)
      end
  | PNum x => let* q := dv (v_val self) x in mapr PVal (mk_num q (v_units self))
  | PList _ => Err TypeError
  end.
Definition v_truediv := divide pydiv.
(** [a // b] of floats.  SIMPLIFICATION: floor of the quotient, which is its
    exact-arithmetic meaning (CPython computes it through fmod); only read at
    exact numbers in the theorems. *)
Definition pyfloordiv (a b : F) : res F :=
  let* q := pydiv a b in
  match nceil (- q) with Some z => Ok (nofZ (- z)%Z) | None => Err ValueError end.
Definition v_floordiv := divide pyfloordiv.
(** value.py:113-114 and 124-125. *)
Definition v_rtruediv (self : value) (other : pyobj) : res pyobj := Err ValueError.
Definition v_rfloordiv (self : value) (other : pyobj) : res pyobj := Err ValueError.
(** value.py:127-130. *)
Definition v_mod (self : value) (other : pyobj) : res pyobj := Err AttributeError.
Definition v_pow (self : value) (other : pyobj) : res pyobj := Err AttributeError.
(** value.py:132-137. *)
Definition v_pos (self : value) : value := self.
Definition v_neg (self : value) : res value := mk_num (- v_val self) (v_units self).
Definition v_abs (self : value) : res value := mk_num (nabs (v_val self)) (v_units self).

(** value.py:157-168: the six comparisons. *)
Definition v_cmp (c : F -> F -> bool) (self : value) (other : pyobj) : res bool :=
  let* o := comparable self other in
  let* y := pyfloat o in
  Ok (c (v_val self) y).
Definition v_eq := v_cmp neqb.
Definition v_ne := v_cmp (fun a b => negb (neqb a b)).
Definition v_lt := v_cmp nlt.
Definition v_gt := v_cmp (fun a b => nlt b a).
Definition v_le := v_cmp nle.
Definition v_ge := v_cmp (fun a b => nle b a).

(** ** Python's operator dispatch, for two operands of which at least one is a
    Value: [a.__op__(b)] when [a] is a Value, else the reflected method of
    [b] (numbers return NotImplemented, lists have no numeric slots).
    Neither being a Value is outside the model ([OtherException]). *)
Definition dispatch {A} (op rop : value -> pyobj -> res A) (a b : pyobj) : res A :=
  match a, b with
  | PVal v, _ => op v b
  | _, PVal w => rop w a
  | _, _ => Err OtherException
  end.
(** A missing reflected method is a TypeError. *)
Definition unsupported {A} (self : value) (other : pyobj) : res A := Err TypeError.

Definition py_add := dispatch v_add v_radd.
Definition py_sub := dispatch v_sub v_rsub.
Definition py_mul := dispatch v_mul v_rmul.
Definition py_truediv := dispatch v_truediv v_rtruediv.
Definition py_floordiv := dispatch v_floordiv v_rfloordiv.
Definition py_mod := dispatch v_mod unsupported.
Definition py_pow := dispatch v_pow unsupported.
Definition py_eq := dispatch v_eq v_eq.
Definition py_ne := dispatch v_ne v_ne.
Definition py_lt := dispatch v_lt v_gt.
Definition py_gt := dispatch v_gt v_lt.
Definition py_le := dispatch v_le v_ge.
Definition py_ge := dispatch v_ge v_le.

(** ** [round] and [prettified]. *)
Inductive python := Python2 | Python3.

(** The built-in [round(v)] with one argument, of a Value.  Python 3 calls
    [v.__round__()], whose parameter [places] (value.py:57) is then missing:
    TypeError.  Python 2 rounds [float(v)] and returns a float.
    SIMPLIFICATION: Python 2 rounds halves away from zero, which is not
    separated from half-to-even here. *)
Definition builtin_round (py : python) (v : value) : res F :=
  match py with
  | Python3 => Err TypeError
  | Python2 => let* k := py_round (v_val v) in Ok (nofZ k)
  end.

(** numerics/rounding.py:25-26 [round_to(value, nearest)] with a Value:
    [value / nearest] is [Value.__truediv__]. *)
Definition round_to_v (py : python) (v : value) (nearest : F) : res pyobj :=
  let* reciprocal := pydiv n1 nearest in
  let* q := v_truediv v (PNum nearest) in
  match q with
  | PVal w => let* k := builtin_round py w in mapr PNum (pydiv k reciprocal)
  | _ => Err TypeError
  end.

(** value.py:49-51 [round(nearest)]. *)
Definition v_round (py : python) (self : value) (nearest : F) : res pyobj := round_to_v py self nearest.

(** units.py:152-173, 188-220 with a Value as [value]: [value * factor] is
    [Value.__mul__], which keeps the Value's own units. *)
Definition convert_to_system_default_v (v : value) (from_units : ustr) (system : string)
  : res (pyobj * ustr) :=
  let* d := default_units system [] in
  let* c := units_class (F := F) from_units in
  match c with
  | Some c =>
      let* t := dict_get c d in
      let* k := factor from_units (Some t) None in
      let* w := v_mul v (PNum k) in Ok (w, Some t)
  | None => Ok (PVal v, from_units)
  end.
(** units.py:238-245 [round_value] with a Value. *)
Definition round_value_v (py : python) (precision : option Z) (vu : pyobj * ustr) : res (pyobj * ustr) :=
  let* nearest := display_step (snd vu) precision in
  match fst vu with
  | PVal w => let* r := round_to_v py w nearest in Ok (r, snd vu)
  | _ => Err TypeError
  end.
(** value.py:170-173 [prettified] = units.py:222-247 [prettify(self, self.units)].
    SIMPLIFICATION: the [cached_property] cache is not modelled. *)
Definition v_prettified (py : python) (self : value) : res ((pyobj * ustr) * (pyobj * ustr)) :=
  let* m := convert_to_system_default_v self (v_units self) "metric" in
  let* a := round_value_v py None m in
  let* us := convert_to_system_default_v self (v_units self) "united_states" in
  let* b := round_value_v py None us in
  Ok (a, b).

(** value.py:18-23: the [units] setter stores its argument unchecked. *)
Definition assign_units (self : value) (u : ustr) : value := mkv (v_val self) u.
(** value.py:28-33: the [value] setter. *)
Definition assign_value (self : value) (x : option pyobj) : res value :=
  let* y := set_value x in Ok (mkv y (v_units self)).

(** ** Programs: a history of operations over the objects created so far.
    Operands are named by their position in the store.  SIMPLIFICATION:
    [convert] to the same units and unary [+] return the receiver itself in
    Python; the store holds copies, so the aliasing is not modelled. *)
Inductive vop :=
| ONum (x : F)                      (* a number literal *)
| OMkList (ix : list nat)           (* a list display *)
| ONew (val : option nat) (units : ustr)
| OConvert (i : nat) (units : ustr)
| OSystem (i : nat) (system : string)
| OAttr (i : nat) (name : string)
| ORound (i : nat) (places : nat)
| ONeg (i : nat) | OAbs (i : nat) | OPos (i : nat)
| OAdd (i j : nat) | OSub (i j : nat) | OMul (i j : nat)
| OTrueDiv (i j : nat) | OFloorDiv (i j : nat)
| OAssignValue (i j : nat).

Definition store := list pyobj.
Definition lookup (s : store) (i : nat) : res pyobj :=
  match nth_error s i with Some o => Ok o | None => Err OtherException end.
Definition lookup_v (s : store) (i : nat) : res value :=
  let* o := lookup s i in match o with PVal v => Ok v | _ => Err OtherException end.
Definition un (s : store) (i : nat) (f : value -> res value) : res pyobj :=
  let* v := lookup_v s i in mapr PVal (f v).
Definition bin (s : store) (i j : nat) (f : pyobj -> pyobj -> res pyobj) : res pyobj :=
  let* a := lookup s i in let* b := lookup s j in f a b.

(** The object an operation produces. *)
Definition vrun1 (s : store) (o : vop) : res pyobj :=
  match o with
  | ONum x => Ok (PNum x)
  | OMkList ix => mapr PList (traverse (lookup s) ix)
  | ONew None u => mapr PVal (mk_value None u)
  | ONew (Some i) u => let* x := lookup s i in mapr PVal (mk_value (Some x) u)
  | OConvert i u => un s i (fun v => v_convert v u)
  | OSystem i y => un s i (fun v => v_convert_to_system_default v y)
  | OAttr i n => un s i (fun v => v_getattr v n)
  | ORound i p => un s i (fun v => v_round_places v p)
  | ONeg i => un s i v_neg
  | OAbs i => un s i v_abs
  | OPos i => un s i (fun v => Ok (v_pos v))
  | OAdd i j => bin s i j py_add
  | OSub i j => bin s i j py_sub
  | OMul i j => bin s i j py_mul
  | OTrueDiv i j => bin s i j py_truediv
  | OFloorDiv i j => bin s i j py_floordiv
  | OAssignValue i j => let* v := lookup_v s i in let* x := lookup s j in
                        mapr PVal (assign_value v (Some x))
  end.
Fixpoint replace {A} (i : nat) (x : A) (l : list A) : list A :=
  match l, i with
  | [], _ => []
  | _ :: t, O => x :: t
  | h :: t, S i => h :: replace i x t
  end.
(** A raising operation leaves the store unchanged; an assignment replaces its
    target; any other operation adds a new object. *)
Definition vstep (s : store) (o : vop) : store :=
  match vrun1 s o, o with
  | Err _, _ => s
  | Ok r, OAssignValue i _ => replace i r s
  | Ok r, _ => (s ++ [r])%list
  end.
Definition vrun (ops : list vop) : store := fold_left vstep ops [].
End Value.
Arguments value : clear implicits.
Arguments pyobj : clear implicits.
Arguments vop : clear implicits.
