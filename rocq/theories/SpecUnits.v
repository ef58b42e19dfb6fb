(** * What the unit names mean (independent of the model).

    [unit_size u = Some (k, m)]: the name [u] denotes a quantity of kind [k]
    that is [m] times the base quantity of that kind (metre, kilogram, degree,
    second, hour per week). *)
From Coq Require Import Reals String List ZArith.
Import ListNotations.
Local Open Scope string_scope.
Local Open Scope R_scope.

Inductive kind := Length | Weight | Angle | Time | TimeRate.

Definition kind_name (k : kind) : string :=
  match k with
  | Length => "length" | Weight => "weight" | Angle => "angle"
  | Time => "time" | TimeRate => "time_rate"
  end.

(** pi as the machine knows it (the double nearest to pi). *)
Definition machine_pi : R := 884279719003555 / 281474976710656.

Definition one_of (names : list string) (u : string) : bool := existsb (String.eqb u) names.

Definition unit_size (u : string) : option (kind * R) :=
  if one_of ["m"; "meter"; "meters"] u then Some (Length, 1)
  else if one_of ["mm"; "millimeter"; "millimeters"] u then Some (Length, 1 / 1000)
  else if one_of ["cm"; "centimeter"; "centimeters"] u then Some (Length, 1 / 100)
  else if one_of ["in"; "inch"; "inches"] u then Some (Length, 254 / 10000)
  else if one_of ["ft"; "foot"; "feet"] u then Some (Length, 3048 / 10000)
  else if one_of ["fathoms"] u then Some (Length, 18288 / 10000)
  else if one_of ["cubits"] u then Some (Length, 4572 / 10000)
  else if one_of ["kg"; "kilograms"] u then Some (Weight, 1)
  else if one_of ["g"; "grams"] u then Some (Weight, 1 / 1000)
  else if one_of ["lbs"; "pounds"; "lb"] u then Some (Weight, 100000 / 220462)
  else if one_of ["stone"] u then Some (Weight, 1000000 / 157473)
  else if one_of ["deg"; "degrees"] u then Some (Angle, 1)
  else if one_of ["rad"; "radians"] u then Some (Angle, 180 / machine_pi)
  else if one_of ["sec"; "second"; "seconds"] u then Some (Time, 1)
  else if one_of ["min"; "minute"; "minutes"] u then Some (Time, 60)
  else if one_of ["hr"; "hour"; "hours"] u then Some (Time, 3600)
  else if one_of ["day"; "days"] u then Some (Time, 86400)
  else if one_of ["yr"; "year"; "years"] u then Some (Time, 86400 * 365242 / 1000)
  else if one_of ["hours_per_week"] u then Some (TimeRate, 1)
  else None.

(** [u] names a unit of kind [k]. *)
Definition unit_of_kind (u : string) (k : kind) : Prop := exists m, unit_size u = Some (k, m).
Definition recognised (u : string) : Prop := exists k, unit_of_kind u k.

(** The unit each system displays a kind of quantity in. *)
Inductive unit_system := Metric | UnitedStates.
Definition system_name (s : unit_system) : string :=
  match s with Metric => "metric" | UnitedStates => "united_states" end.
Definition display_unit (s : unit_system) (k : kind) : string :=
  match s, k with
  | Metric, Length => "cm" | Metric, Weight => "kg"
  | UnitedStates, Length => "in" | UnitedStates, Weight => "lb"
  | _, Angle => "deg" | _, Time => "yr" | _, TimeRate => "hours_per_week"
  end.

(** Documented display steps. *)
Definition display_increment (u : string) : R :=
  if String.eqb u "cm" then 1/2 else if String.eqb u "in" then 1/4
  else if String.eqb u "kg" then 1/2 else if String.eqb u "lb" then 1
  else if String.eqb u "yr" then 1 else 1/10.

(** The step a displayed number is rounded to: per unit, or 10^-precision. *)
Definition step_of (u : string) (precision : option Z) : R :=
  match precision with
  | None => display_increment u
  | Some p => powerRZ 10 (- p)
  end.

(** Optional string arguments. *)
Definition unspecified (u : option string) : Prop := u = None \/ u = Some "".
(** [u] is None or not a recognised name. *)
Definition missing (u : option string) : Prop := forall s, u = Some s -> ~ recognised s.
(** The units_class argument [uc] allows quantities of kind [k]. *)
Definition accepts (uc : option string) (k : kind) : Prop :=
  unspecified uc \/ uc = Some (kind_name k).
(** When a conversion from [a] to [b] is meaningful under the restriction [uc]. *)
Definition convertible (a b uc : option string) : Prop :=
  (unspecified a /\ unspecified b) \/ a = b \/
  exists sa sb k, a = Some sa /\ b = Some sb /\ unit_of_kind sa k /\ unit_of_kind sb k /\ accepts uc k.
