(** * Properties C01 - C08: unit conversion and rounding. *)
From Coq Require Import Reals ZArith List String Bool Lra.
From Flocq Require Import Core.
From Verif Require Import Num B64 BLemmas MRounding MUnits SpecUnits PUnits PUnits2 PUnitsB.
Import ListNotations.
Local Open Scope string_scope.
Local Open Scope R_scope.

(** C01.  [factor a b] is the ratio of the sizes of the units. *)
Theorem C01_factor_is_ratio_of_sizes : forall a b k ma mb,
  unit_size a = Some (k, ma) -> unit_size b = Some (k, mb) ->
  factor (Some a) (Some b) None = Ok (Fin (ma / mb)).
Proof. intros a b k ma mb Ha Hb. exact (factor_value Ha Hb (or_introl eq_refl)). Qed.
Print Assumptions C01_factor_is_ratio_of_sizes.
Example C01_ratio_example : unit_size "in" = Some (Length, 254/10000) /\ unit_size "centimeters" = Some (Length, 1/100).
Proof. split; reflexivity. Qed.

Theorem C01_factor_laws : forall a b c k,
  unit_of_kind a k -> unit_of_kind b k -> unit_of_kind c k ->
  exists fab fba fbc fac,
    factor (Some a) (Some b) None = Ok (Fin fab) /\
    factor (Some b) (Some a) None = Ok (Fin fba) /\
    factor (Some b) (Some c) None = Ok (Fin fbc) /\
    factor (Some a) (Some c) None = Ok (Fin fac) /\
    factor (Some a) (Some a) None = Ok (Fin 1) /\
    0 < fab /\ fab * fba = 1 /\ fab * fbc = fac.
Proof. exact factor_laws. Qed.
Print Assumptions C01_factor_laws.
Example C01_laws_example : unit_of_kind "stone" Weight /\ unit_of_kind "lb" Weight /\ unit_of_kind "g" Weight.
Proof. repeat split; eexists; reflexivity. Qed.

(** C02.  [convertible], [missing] and [accepts] (SpecUnits.v) are stated on the
    arguments and the specification table only:
    - [missing u]: [u] is None or not a recognised name;
    - [accepts uc k]: the units_class argument is None, empty or the name of [k];
    - [convertible a b uc]: both blank, or equal, or recognised units of one
      kind accepted by [uc]. *)
Theorem C02_factor_decision_exact : forall a b uc,
  (convertible a b uc /\ exists x, factor (F := xr) a b uc = Ok x) \/
  (~ convertible a b uc /\
   ((~ missing a /\ ~ missing b /\ factor (F := xr) a b uc = Err ValueError) \/
    ((missing a \/ missing b) /\ factor (F := xr) a b uc = Err KeyError))).
Proof. exact (factor_decision table_nonzero_xr). Qed.
Print Assumptions C02_factor_decision_exact.

Theorem C02_factor_decision_double : forall a b uc,
  (convertible a b uc /\ exists x, factor (F := b64) a b uc = Ok x) \/
  (~ convertible a b uc /\
   ((~ missing a /\ ~ missing b /\ factor (F := b64) a b uc = Err ValueError) \/
    ((missing a \/ missing b) /\ factor (F := b64) a b uc = Err KeyError))).
Proof. exact (factor_decision table_nonzero_b64). Qed.
Print Assumptions C02_factor_decision_double.

Theorem C02_convert_raises_like_factor : forall (a b uc : ustr) (v : option b64) e,
  convert v a b uc = Err e <-> factor (F := b64) a b uc = Err e.
Proof. exact (@convert_raises b64 b64_num). Qed.
Print Assumptions C02_convert_raises_like_factor.
Example C02_examples :
  factor (F := b64) (Some "kg") (Some "cm") None = Err ValueError /\
  factor (F := b64) (Some "cm") (Some "parsec") None = Err KeyError /\
  factor (F := b64) (Some "cm") None None = Err KeyError /\
  factor (F := b64) (Some "cm") (Some "m") (Some "weight") = Err ValueError.
Proof. repeat split. Qed.

(** C128.  As documented ("the class of the units must match the class
    provided") the claim is false: equal names skip the check. *)
Theorem C128_equal_names_refuted :
  ~ (forall a b k x, factor (F := b64) (Some a) (Some b) (Some (kind_name k)) = Ok x ->
       unit_of_kind a k /\ unit_of_kind b k).
Proof.
  intros H. destruct (H "kg" "kg" Length _ eq_refl) as [[m Hm] _]. discriminate.
Qed.
Print Assumptions C128_equal_names_refuted.

(** C03: enforced for different names. *)
Theorem C03_units_class_enforced : forall a b uc, a <> b -> uc <> "" ->
  (forall x, factor (F := xr) (Some a) (Some b) (Some uc) = Ok x -> exists k, uc = kind_name k /\ unit_of_kind a k /\ unit_of_kind b k) /\
  (forall x, factor (F := b64) (Some a) (Some b) (Some uc) = Ok x -> exists k, uc = kind_name k /\ unit_of_kind a k /\ unit_of_kind b k).
Proof.
  intros a b uc D U.
  assert (C : convertible (Some a) (Some b) (Some uc) -> exists k, uc = kind_name k /\ unit_of_kind a k /\ unit_of_kind b k).
  { intros [[A B]|[E|(sa & sb & k & [= <-] & [= <-] & Ka & Kb & [[X|X]|[= ->]])]]; try congruence.
    - destruct A, B; congruence.
    - eauto. }
  split; intros x E.
  - destruct (C02_factor_decision_exact (Some a) (Some b) (Some uc)) as [[H _]|[_ [(_ & _ & H)|(_ & H)]]]; [auto|congruence|congruence].
  - destruct (C02_factor_decision_double (Some a) (Some b) (Some uc)) as [[H _]|[_ [(_ & _ & H)|(_ & H)]]]; [auto|congruence|congruence].
Qed.
Print Assumptions C03_units_class_enforced.
Example C03_example : exists x,
  "ft" <> "cm" /\ unit_of_kind "ft" Length /\
  factor (F := xr) (Some "ft") (Some "cm") (Some "length") = Ok x.
Proof.
  eexists. split; [discriminate|]. split; [eexists; reflexivity|].
  apply (@factor_value "ft" "cm" Length (3048/10000) (1/100)); auto.
Qed.

(** C04. *)
Theorem C04_convert_preserves_quantity : forall a b k ma mb x,
  unit_size a = Some (k, ma) -> unit_size b = Some (k, mb) ->
  exists y, convert (Some (Fin x)) (Some a) (Some b) None = Ok (Some (Fin y), Some b) /\
            y * mb = x * ma.
Proof. exact convert_same_quantity. Qed.
Print Assumptions C04_convert_preserves_quantity.

Theorem C04_convert_round_trip : forall a b k x, unit_of_kind a k -> unit_of_kind b k ->
  exists y, convert (Some (Fin x)) (Some a) (Some b) None = Ok (Some (Fin y), Some b) /\
            convert (Some (Fin y)) (Some b) (Some a) None = Ok (Some (Fin x), Some a).
Proof. exact convert_round_trip. Qed.
Print Assumptions C04_convert_round_trip.

Theorem C04_convert_via_third_unit : forall a b c k x,
  unit_of_kind a k -> unit_of_kind b k -> unit_of_kind c k ->
  exists y z, convert (Some (Fin x)) (Some a) (Some b) None = Ok (Some (Fin y), Some b) /\
            convert (Some (Fin y)) (Some b) (Some c) None = Ok (Some (Fin z), Some c) /\
            convert (Some (Fin x)) (Some a) (Some c) None = Ok (Some (Fin z), Some c).
Proof. exact convert_chain. Qed.
Print Assumptions C04_convert_via_third_unit.

Theorem C04_convert_order_and_zero : forall a b k x x', unit_of_kind a k -> unit_of_kind b k ->
  exists y y', convert (Some (Fin x)) (Some a) (Some b) None = Ok (Some (Fin y), Some b) /\
               convert (Some (Fin x')) (Some a) (Some b) None = Ok (Some (Fin y'), Some b) /\
               (x < x' <-> y < y') /\ (x = 0 <-> y = 0).
Proof. exact convert_order. Qed.
Print Assumptions C04_convert_order_and_zero.

Theorem C04_convert_list_elementwise : forall a b k ma mb xs,
  unit_size a = Some (k, ma) -> unit_size b = Some (k, mb) ->
  exists ys, convert_list (map Fin xs) (Some a) (Some b) = Ok (map Fin ys) /\
             Forall2 (fun x y => y * mb = x * ma) xs ys.
Proof. exact convert_list_spec. Qed.
Print Assumptions C04_convert_list_elementwise.

Theorem C04_convert_none : forall (a b uc : ustr), (exists x, factor (F := xr) a b uc = Ok x) ->
  convert (F := xr) None a b uc = Ok (None, None).
Proof. intros a b uc [x E]. unfold convert. rewrite E. reflexivity. Qed.
Print Assumptions C04_convert_none.
Example C04_example : unit_size "ft" = Some (Length, 3048/10000) /\ unit_of_kind "fathoms" Length.
Proof. split; [reflexivity|eexists; reflexivity]. Qed.

(** C05. *)
Theorem C05_system_default : forall x u k m s, unit_size u = Some (k, m) ->
  exists y m', convert_to_system_default (Some (Fin x)) (Some u) (system_name s)
                 = Ok (Some (Fin y), Some (display_unit s k)) /\
               unit_size (display_unit s k) = Some (k, m') /\ y * m' = x * m.
Proof. exact system_default_same. Qed.
Print Assumptions C05_system_default.

Theorem C05_system_default_unitless : forall x u s, (u = None \/ u = Some "") ->
  convert_to_system_default (F := xr) x u (system_name s) = Ok (x, u).
Proof. intros x u s H. exact (system_default_blank x s (proj2 (blank_unspecified u) H)). Qed.
Print Assumptions C05_system_default_unitless.

Theorem C05_default_units_exceptions : forall s ex, NoDup (map fst ex) ->
  exists d, default_units (system_name s) ex = Ok d /\
    (forall c u, dict_find c ex = Some u -> dict_find c d = Some u) /\
    (forall k, dict_find (kind_name k) ex = None -> dict_find (kind_name k) d = Some (display_unit s k)) /\
    (forall c, dict_find c ex = None -> (forall k, c <> kind_name k) -> dict_find c d = None).
Proof. exact default_units_spec. Qed.
Print Assumptions C05_default_units_exceptions.
Example C05_example : unit_size "stone" = Some (Weight, 1000000/157473) /\
  default_units "metric" [("length", "ft")] =
    Ok [("length", "ft"); ("weight", "kg"); ("angle", "deg"); ("time", "yr"); ("time_rate", "hours_per_week")].
Proof. split; reflexivity. Qed.

(** C06: doubles. *)
Theorem C06_double_round_trip_error : forall a b k x y,
  unit_of_kind a k -> unit_of_kind b k -> bfin x = true ->
  bpow radix2 (-900) <= Rabs (Bval x) <= bpow radix2 900 ->
  convert (F := b64) (Some x) (Some a) (Some b) None = Ok (Some y, Some b) ->
  exists z, convert (F := b64) (Some y) (Some b) (Some a) None = Ok (Some z, Some a) /\
    bfin z = true /\ Rabs (Bval z - Bval x) <= 8 * bpow radix2 (-53) * Rabs (Bval x).
Proof. exact convert_round_trip_b64. Qed.
Print Assumptions C06_double_round_trip_error.
Example C06_example :
  let x := bofZ 3 in
  bfin x = true /\ Bval x = 3 /\
  exists y, convert (F := b64) (Some x) (Some "in") (Some "cm") None = Ok (Some y, Some "cm").
Proof.
  split; [reflexivity|]. split; [|eexists; reflexivity].
  rewrite (@Bval_me (bofZ 3) 6755399441055744 (-51)); [simpl; lra|vm_compute; reflexivity].
Qed.

(** C07.  [step_of u precision] is the documented step of the display unit, or
    10^-precision. *)
Theorem C07_prettify_nearest_step : forall x u k m precision, unit_size u = Some (k, m) ->
  exists xm xu mm mu,
    prettify (Some (Fin x)) (Some u) precision =
      Ok ((Fin xm, Some (display_unit Metric k)), (Fin xu, Some (display_unit UnitedStates k))) /\
    unit_size (display_unit Metric k) = Some (k, mm) /\
    unit_size (display_unit UnitedStates k) = Some (k, mu) /\
    let sm := step_of (display_unit Metric k) precision in
    let su := step_of (display_unit UnitedStates k) precision in
    (exists j, xm = IZR j * sm) /\ Rabs (x * m / mm - xm) <= sm / 2 /\
    (exists j, xu = IZR j * su) /\ Rabs (x * m / mu - xu) <= su / 2.
Proof. exact prettify_spec. Qed.
Print Assumptions C07_prettify_nearest_step.
Example C07_example : unit_size "cm" = Some (Length, 1/100) /\ step_of "in" None = 1/4 /\ step_of "in" (Some 2%Z) = /(10*(10*1)).
Proof. repeat split; cbn; lra. Qed.

(** C08. *)
Theorem C08_round_to_nearest_multiple : forall x n, n <> 0 ->
  exists k, round_to (Fin x) (Fin n) = Ok (Fin (IZR k * n)) /\
    (forall j, Rabs (x - IZR k * n) <= Rabs (x - IZR j * n)) /\
    (forall j, j <> k -> Rabs (x - IZR j * n) = Rabs (x - IZR k * n) -> Z.Even k).
Proof. exact round_to_spec. Qed.
Print Assumptions C08_round_to_nearest_multiple.

Theorem C08_round_to_monotone : forall x x' n y y', 0 < n -> x <= x' ->
  round_to (Fin x) (Fin n) = Ok (Fin y) -> round_to (Fin x') (Fin n) = Ok (Fin y') -> y <= y'.
Proof. exact round_to_mono. Qed.
Print Assumptions C08_round_to_monotone.

Theorem C08_round_to_idempotent : forall x n y, n <> 0 -> round_to (Fin x) (Fin n) = Ok (Fin y) ->
  round_to (Fin y) (Fin n) = Ok (Fin y).
Proof. exact round_to_idem. Qed.
Print Assumptions C08_round_to_idempotent.

Theorem C08_round_to_zero_raises : forall x, round_to (Fin x) (Fin 0) = Err ZeroDivisionError.
Proof. exact round_to_zero. Qed.
Print Assumptions C08_round_to_zero_raises.

Theorem C08_rounded_list_elementwise : forall xs p,
  exists ys, rounded_list (map (option_map Fin) xs) p = Ok (map (option_map Fin) ys) /\
    Forall2 (fun x y => match x, y with
      | None, None => True
      | Some x, Some y => exists k, y = IZR k / 10 ^ p /\ forall j, Rabs (x - y) <= Rabs (x - IZR j / 10 ^ p)
      | _, _ => False end) xs ys.
Proof. exact rounded_list_spec. Qed.
Print Assumptions C08_rounded_list_elementwise.
(** In doubles, 3.8721 to the nearest 0.1 is the double 3.9. *)
Example C08_example :
  mapr b64_me (round_to (F := b64) (blit 38721 10000) (blit 1 10)) = Ok (b64_me (blit 39 10)).
Proof. vm_compute. reflexivity. Qed.
