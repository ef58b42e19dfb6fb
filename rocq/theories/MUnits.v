(** * Model of blmath/units.py (class Units, module-level singleton). *)
From Coq Require Import ZArith List String Bool.
From Verif Require Import Num MRounding.
Import ListNotations.
Local Open Scope string_scope.
Local Open Scope num_scope.

(** Python dict with string keys, in insertion order. *)
Definition dict (A : Type) := list (string * A).

Fixpoint dict_find {A} (k : string) (d : dict A) : option A :=
  match d with
  | [] => None
  | (k', a) :: d' => if String.eqb k k' then Some a else dict_find k d'
  end.
(** [d[k]]: KeyError when absent. *)
Definition dict_get {A} (k : string) (d : dict A) : res A :=
  match dict_find k d with Some a => Ok a | None => Err KeyError end.
(** [d[k] = a]: replace in place, or append. *)
Fixpoint dict_set {A} (k : string) (a : A) (d : dict A) : dict A :=
  match d with
  | [] => [(k, a)]
  | (k', b) :: d' => if String.eqb k k' then (k', a) :: d' else (k', b) :: dict_set k a d'
  end.
(** [d.update(e)] *)
Definition dict_update {A} (d e : dict A) : dict A :=
  fold_left (fun acc ka => dict_set (fst ka) (snd ka) acc) e d.

(** An optional string argument.  [None] is Python's [None]. *)
Definition ustr := option string.
(** [x is None or not len(x)] *)
Definition blank (u : ustr) : bool :=
  match u with None => true | Some s => String.eqb s "" end.
Definition ustr_eqb (a b : ustr) : bool :=
  match a, b with
  | None, None => true
  | Some x, Some y => String.eqb x y
  | _, _ => false
  end.

Section Units.
Context {F : Type} {N : Num F}.

Definition nZ (z : Z) : F := nofZ z.
(** [np.pi], the double 884279719003555 / 2^48. *)
Definition np_pi : F := nlit 884279719003555 281474976710656.

(** units.py:7-33 [Units.__init__]: the raw factors, in the order of the
    source, each with the expression that computes it. *)
Definition u_m : F := nZ 1.                       (* line 8 *)
Definition u_mm : F := u_m / nZ 1000.             (* line 9 *)
Definition u_cm : F := u_m / nZ 100.              (* line 10 *)
Definition u_in : F := nlit 254 10000.            (* line 11 *)
Definition u_ft : F := nlit 3048 10000.           (* line 12 *)
Definition u_fathoms : F := nlit 18288 10000.     (* line 13 *)
Definition u_cubits : F := nlit 4572 10000.       (* line 14 *)
Definition u_kg : F := nZ 1.                      (* line 17 *)
Definition u_g : F := u_kg / nZ 1000.             (* line 18 *)
Definition u_lbs : F := u_kg / nlit 220462 100000. (* line 19 *)
Definition u_stone : F := u_kg / nlit 157473 1000000. (* line 20 *)
Definition u_deg : F := nZ 1.                     (* line 23 *)
Definition u_rad : F := u_deg * nZ 180 / np_pi.   (* line 24 *)
Definition u_sec : F := nZ 1.                     (* line 27 *)
Definition u_min : F := u_sec * nZ 60.            (* line 28 *)
Definition u_hr : F := nZ 60 * u_min.             (* line 29 *)
Definition u_day : F := u_hr * nZ 24.             (* line 30 *)
Definition u_yr : F := u_day * nlit 365242 1000.  (* line 31 *)
Definition u_hpw : F := nZ 1.                     (* line 33 *)

Definition unit_table : dict (string * F) := [
  ("m", ("length", u_m)); ("meter", ("length", u_m)); ("meters", ("length", u_m));
  ("mm", ("length", u_mm)); ("millimeter", ("length", u_mm)); ("millimeters", ("length", u_mm));
  ("cm", ("length", u_cm)); ("centimeter", ("length", u_cm)); ("centimeters", ("length", u_cm));
  ("in", ("length", u_in)); ("inch", ("length", u_in)); ("inches", ("length", u_in));
  ("ft", ("length", u_ft)); ("foot", ("length", u_ft)); ("feet", ("length", u_ft));
  ("fathoms", ("length", u_fathoms));
  ("cubits", ("length", u_cubits));
  ("kg", ("weight", u_kg)); ("kilograms", ("weight", u_kg));
  ("g", ("weight", u_g)); ("grams", ("weight", u_g));
  ("lbs", ("weight", u_lbs)); ("pounds", ("weight", u_lbs)); ("lb", ("weight", u_lbs));
  ("stone", ("weight", u_stone));
  ("deg", ("angle", u_deg)); ("degrees", ("angle", u_deg));
  ("rad", ("angle", u_rad)); ("radians", ("angle", u_rad));
  ("sec", ("time", u_sec)); ("second", ("time", u_sec)); ("seconds", ("time", u_sec));
  ("min", ("time", u_min)); ("minute", ("time", u_min)); ("minutes", ("time", u_min));
  ("hr", ("time", u_hr)); ("hour", ("time", u_hr)); ("hours", ("time", u_hr));
  ("day", ("time", u_day)); ("days", ("time", u_day));
  ("yr", ("time", u_yr)); ("year", ("time", u_yr)); ("years", ("time", u_yr));
  ("hours_per_week", ("time_rate", u_hpw)) ].

(** units.py:35-38 [self._default_units]. *)
Definition default_table : dict (dict string) := [
  ("metric", [("length", "cm"); ("weight", "kg"); ("angle", "deg");
              ("time", "yr"); ("time_rate", "hours_per_week")]);
  ("united_states", [("length", "in"); ("weight", "lb"); ("angle", "deg");
                     ("time", "yr"); ("time_rate", "hours_per_week")]) ].

(** units.py:40-46 [all_units]. *)
Definition all_units : list string := map fst unit_table.

(** [self._units[u]]; the key [None] is never present. *)
Definition units_get (u : ustr) : res (string * F) :=
  match u with None => Err KeyError | Some s => dict_get s unit_table end.

(** units.py:57-67 [units_class(units)]. *)
Definition units_class (u : ustr) : res (option string) :=
  if blank u then Ok None else mapr (fun e => Some (fst e)) (units_get u).

(** units.py:69-74 [units_in_class(uclass)]. *)
Definition units_in_class (c : string) : list string :=
  map fst (filter (fun e => String.eqb (fst (snd e)) c) unit_table).

(** units.py:111-121 [default_units(unit_system, exceptions)]. *)
Definition default_units (system : string) (exceptions : dict string) : res (dict string) :=
  let* d := dict_get system default_table in
  Ok (dict_update (dict_update [] d) exceptions).

(** units.py:123-129 [raw(units)]. *)
Definition raw (u : ustr) : res F := mapr snd (units_get u).

(** Python truthiness of [units_class] in line 148: None and '' are false. *)
Definition class_mismatch (uclass : ustr) (c : string) : bool :=
  negb (blank uclass) && negb (ustr_eqb uclass (Some c)).

(** units.py:131-150 [factor(from_units, to_units, units_class)]. *)
Definition factor (from_units to_units uclass : ustr) : res F :=
  if blank from_units && blank to_units then Ok n1                 (* 142-143 *)
  else if ustr_eqb from_units to_units then Ok n1                  (* 144-145 *)
  else
    let* f := units_get from_units in
    let* t := units_get to_units in
    if negb (String.eqb (fst f) (fst t)) then Err ValueError       (* 146-147 *)
    else if class_mismatch uclass (fst f) then Err ValueError      (* 148-149 *)
    else pydiv (snd f) (snd t).                                    (* 150 *)

(** units.py:152-173 [convert(value, from_units, to_units, units_class)];
    [value] is a float or None. *)
Definition convert (value : option F) (from_units to_units uclass : ustr)
  : res (option F * ustr) :=
  let* k := factor from_units to_units uclass in
  match value with
  | None => Ok (None, None)
  | Some x => Ok (Some (x * k), to_units)
  end.

(** units.py:175-186 [convert_list]. *)
Definition convert_list (xs : list F) (from_units to_units : ustr) : res (list F) :=
  let* k := factor from_units to_units None in Ok (map (fun x => k * x) xs).

(** units.py:188-205 [convert_to_default]. *)
Definition convert_to_default (value : option F) (from_units : ustr) (defaults : dict string)
  : res (option F * ustr) :=
  let* c := units_class from_units in
  match c with
  | Some c => let* t := dict_get c defaults in convert value from_units (Some t) None
  | None => Ok (value, from_units)
  end.

(** units.py:208-220 [convert_to_system_default]. *)
Definition convert_to_system_default (value : option F) (from_units : ustr) (system : string)
  : res (option F * ustr) :=
  let* d := default_units system [] in convert_to_default value from_units d.

(** units.py:241: the per-unit display step. *)
Definition nearest_table : dict F :=
  [("cm", nlit 1 2); ("in", nlit 1 4); ("kg", nlit 1 2); ("lb", nofZ 1); ("yr", nofZ 1)].

(** units.py:238-245 [round_value(value, units)].  [precision] is None or an
    int; [10 ** precision] for a negative int is the float 1/10^-precision.
    A None value makes [None / nearest] a TypeError. *)
Definition display_step (units : ustr) (precision : option Z) : res F :=
  match precision with
  | None => Ok match units with
               | Some u => match dict_find u nearest_table with
                           | Some n => n | None => nlit 1 10 end
               | None => nlit 1 10
               end
  | Some p => if (0 <=? p)%Z then pydiv n1 (nofZ (10 ^ p))
              else pydiv n1 (nlit 1 (Z.to_pos (10 ^ (- p))))
  end.
Definition round_value (precision : option Z) (vu : option F * ustr) : res (F * ustr) :=
  let* nearest := display_step (snd vu) precision in
  match fst vu with
  | None => Err TypeError
  | Some v => let* r := round_to v nearest in Ok (r, snd vu)
  end.

(** units.py:222-247 [prettify(value, units, precision)]; the returned
    4-tuple is a pair of pairs here. *)
Definition prettify (value : option F) (units : ustr) (precision : option Z)
  : res ((F * ustr) * (F * ustr)) :=
  let* m := convert_to_system_default value units "metric" in
  let* a := round_value precision m in
  let* us := convert_to_system_default value units "united_states" in
  let* b := round_value precision us in
  Ok (a, b).
End Units.
