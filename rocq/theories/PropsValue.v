(** * Properties C09 - C15, C73: Values and JSON. *)
From Coq Require Import Reals ZArith List String Bool Lra.
From Flocq Require Import Core.
From Verif Require Import Num B64 BLemmas MRounding MUnits SpecUnits MValue MJson SpecValue
  PUnits PUnitsB PValue PValueB PJson.
Import ListNotations.
Local Open Scope string_scope.
Local Open Scope R_scope.

(** C09 *)
Theorem C09_comparisons_compare_quantities : forall v w k p q,
  quantity v k p -> quantity w k q ->
  answers (py_lt (PVal v) (PVal w)) (p < q) /\
  answers (py_le (PVal v) (PVal w)) (p <= q) /\
  answers (py_eq (PVal v) (PVal w)) (p = q) /\
  answers (py_ne (PVal v) (PVal w)) (p <> q) /\
  answers (py_gt (PVal v) (PVal w)) (p > q) /\
  answers (py_ge (PVal v) (PVal w)) (p >= q).
Proof. exact cmp_exact. Qed.
Print Assumptions C09_comparisons_compare_quantities.
(** 100 cm and 1 m are one quantity, so [==] holds between them. *)
Example C09_example : quantity (mkv (Fin 100) (Some "cm")) Length 1 /\ quantity (mkv (Fin 1) (Some "m")) Length 1.
Proof.
  split; [exists 100, "cm", (1/100)|exists 1, "m", 1]; repeat split; try reflexivity; lra.
Qed.

Theorem C09_order_laws : forall u v w k p q r,
  quantity u k p -> quantity v k q -> quantity w k r ->
  let U := PVal u in let V := PVal v in let W := PVal w in
  (py_eq U V = Ok true <-> py_eq V U = Ok true) /\
  (py_eq U V = Ok true -> py_eq V W = Ok true -> py_eq U W = Ok true) /\
  (py_lt U V = Ok true -> py_lt V W = Ok true -> py_lt U W = Ok true) /\
  ((py_lt U V = Ok true /\ py_eq U V <> Ok true /\ py_gt U V <> Ok true) \/
   (py_lt U V <> Ok true /\ py_eq U V = Ok true /\ py_gt U V <> Ok true) \/
   (py_lt U V <> Ok true /\ py_eq U V <> Ok true /\ py_gt U V = Ok true)).
Proof. exact order_laws. Qed.
Print Assumptions C09_order_laws.

(** A plain number is compared in the Value's own units, on either side. *)
Theorem C09_plain_numbers : forall x u y,
  let v := PVal (mkv (Fin x) u) in let n := PNum (Fin y) in
  (answers (py_lt v n) (x < y) /\ answers (py_le v n) (x <= y) /\ answers (py_eq v n) (x = y) /\
   answers (py_ne v n) (x <> y) /\ answers (py_gt v n) (x > y) /\ answers (py_ge v n) (x >= y)) /\
  (answers (py_lt n v) (y < x) /\ answers (py_le n v) (y <= x) /\ answers (py_eq n v) (y = x) /\
   answers (py_ne n v) (y <> x) /\ answers (py_gt n v) (y > x) /\ answers (py_ge n v) (y >= x)).
Proof. exact cmp_number. Qed.
Print Assumptions C09_plain_numbers.

(** Two Values in the same units, including two unitless ones. *)
Theorem C09_same_units : forall x y u,
  let v := PVal (mkv (Fin x) u) in let w := PVal (mkv (Fin y) u) in
  answers (py_lt v w) (x < y) /\ answers (py_le v w) (x <= y) /\ answers (py_eq v w) (x = y) /\
  answers (py_ne v w) (x <> y) /\ answers (py_gt v w) (x > y) /\ answers (py_ge v w) (x >= y).
Proof. exact cmp_same_units. Qed.
Print Assumptions C09_same_units.

(** C129: false in double precision; 12 in != 1 ft but 1 ft == 12 in. *)
Theorem C129_different_units_refuted :
  exists v w : value b64,
    mk_value (Some (PNum (nofZ 12))) (Some "in") = Ok v /\
    mk_value (Some (PNum (nofZ 1))) (Some "ft") = Ok w /\
    py_eq (PVal v) (PVal w) = Ok false /\ py_eq (PVal w) (PVal v) = Ok true.
Proof.
  exists (mkv (nofZ 12) (Some "in")), (mkv (nofZ 1) (Some "ft")).
  split; [reflexivity|]. split; [reflexivity|]. split; vm_compute; reflexivity.
Qed.
Print Assumptions C129_different_units_refuted.

(** C10: Values in the same units; for quantities farther apart than rounding, C10_apart. *)
Theorem C10_same_units : forall (x y : b64) u,
  py_eq (PVal (mkv x u)) (PVal (mkv y u)) = py_eq (PVal (mkv y u)) (PVal (mkv x u)).
Proof. exact eq_sym_same_units. Qed.
Print Assumptions C10_same_units.

(** C11 *)
Theorem C11_sum_and_difference : forall v w k p q,
  quantity v k p -> quantity w k q ->
  (exists r, py_add (PVal v) (PVal w) = Ok (PVal r) /\ v_units r = v_units v /\ quantity r k (p + q)) /\
  (exists r, py_sub (PVal v) (PVal w) = Ok (PVal r) /\ v_units r = v_units v /\ quantity r k (p - q)).
Proof. exact addsub_exact. Qed.
Print Assumptions C11_sum_and_difference.

Theorem C11_plain_numbers : forall x u n, unit_ok u ->
  let v := PVal (mkv (Fin x) u) in let N := PNum (Fin n) in
  py_add v N = Ok (PVal (mkv (Fin (x + n)) u)) /\ py_add N v = Ok (PVal (mkv (Fin (n + x)) u)) /\
  py_sub v N = Ok (PVal (mkv (Fin (x - n)) u)) /\ py_sub N v = Ok (PVal (mkv (Fin (n - x)) u)) /\
  py_mul v N = Ok (PVal (mkv (Fin (x * n)) u)) /\ py_mul N v = Ok (PVal (mkv (Fin (n * x)) u)) /\
  (n <> 0 -> py_truediv v N = Ok (PVal (mkv (Fin (x / n)) u))) /\
  (n = 0 -> py_truediv v N = Err ZeroDivisionError /\ py_floordiv v N = Err ZeroDivisionError).
Proof. exact number_exact. Qed.
Print Assumptions C11_plain_numbers.
Example C11_unit_ok_example : unit_ok (Some "stone") /\ unit_ok None.
Proof. split; [right; exists "stone"; split; auto; exists Weight; eexists; reflexivity|now left]. Qed.

Theorem C11_plain_floor_division : forall x u n, unit_ok u -> n <> 0 ->
  exists z, py_floordiv (PVal (mkv (Fin x) u)) (PNum (Fin n)) = Ok (PVal (mkv (Fin (IZR z)) u)) /\
    IZR z <= x / n < IZR z + 1.
Proof. exact floordiv_number. Qed.
Print Assumptions C11_plain_floor_division.

Theorem C11_ratios : forall v w k p q,
  quantity v k p -> quantity w k q ->
  (q <> 0 -> py_truediv (PVal v) (PVal w) = Ok (PVal (mkv (Fin (p / q)) None)) /\
     exists z, py_floordiv (PVal v) (PVal w) = Ok (PVal (mkv (Fin (IZR z)) None)) /\ IZR z <= p / q < IZR z + 1) /\
  (q = 0 -> py_truediv (PVal v) (PVal w) = Err ZeroDivisionError /\
            py_floordiv (PVal v) (PVal w) = Err ZeroDivisionError).
Proof. exact div_exact. Qed.
Print Assumptions C11_ratios.

Theorem C11_unitless : forall x y,
  let v := PVal (mkv (Fin x) None) in let w := PVal (mkv (Fin y) None) in
  py_add v w = Ok (PVal (mkv (Fin (x + y)) None)) /\ py_sub v w = Ok (PVal (mkv (Fin (x - y)) None)) /\
  (y <> 0 -> py_truediv v w = Ok (PVal (mkv (Fin (x / y)) None))).
Proof. exact unitless_exact. Qed.
Print Assumptions C11_unitless.

Theorem C11_unary : forall x u, unit_ok u ->
  v_neg (mkv (Fin x) u) = Ok (mkv (Fin (- x)) u) /\ v_abs (mkv (Fin x) u) = Ok (mkv (Fin (Rabs x)) u) /\
  v_pos (mkv (Fin x) u) = mkv (Fin x) u.
Proof. exact unary_exact. Qed.
Print Assumptions C11_unary.

Theorem C11_unsupported_operations_raise : forall (v w : value b64) (n : b64),
  raises (py_mul (PVal v) (PVal w)) /\
  raises (py_truediv (PNum n) (PVal v)) /\ raises (py_floordiv (PNum n) (PVal v)) /\
  raises (py_mod (PVal v) (PNum n)) /\ raises (py_mod (PNum n) (PVal v)) /\ raises (py_mod (PVal v) (PVal w)) /\
  raises (py_pow (PVal v) (PNum n)) /\ raises (py_pow (PNum n) (PVal v)) /\ raises (py_pow (PVal v) (PVal w)).
Proof. intros v w n. repeat split; eexists; reflexivity. Qed.
Print Assumptions C11_unsupported_operations_raise.

(** A list operand is mapped over; the first raising element raises. *)
Theorem C11_lists : forall (v : value xr) l r,
  (py_add (PVal v) (PList l) = Ok r <-> exists rs, r = PList rs /\ Forall2 (fun x y => py_add (PVal v) x = Ok y) l rs) /\
  (py_sub (PVal v) (PList l) = Ok r <-> exists rs, r = PList rs /\ Forall2 (fun x y => py_sub (PVal v) x = Ok y) l rs) /\
  (py_sub (PList l) (PVal v) = Ok r <-> exists rs, r = PList rs /\ Forall2 (fun x y => py_sub x (PVal v) = Ok y) l rs) /\
  (py_mul (PVal v) (PList l) = Ok r <-> exists rs, r = PList rs /\ Forall2 (fun x y => py_mul (PVal v) x = Ok y) l rs) /\
  (py_mul (PList l) (PVal v) = py_mul (PVal v) (PList l)) /\
  (py_add (PList l) (PVal v) = py_add (PVal v) (PList l)).
Proof. exact lists_exact. Qed.
Print Assumptions C11_lists.
Example C11_list_example :
  mapr (map b64_me) (mapr (map (@v_val b64)) (mapr values_in
    (py_sub (PList [PNum (nofZ 5); PVal (mkv (nofZ 7) (Some "kg"))]) (PVal (mkv (nofZ 3) (Some "kg"))))))
  = Ok [b64_me (nofZ 2); b64_me (nofZ 4)].
Proof. vm_compute. reflexivity. Qed.

(** C12.  In double precision and in exact arithmetic. *)
Theorem C12_incompatible_never_combine : forall v w : value b64,
  incompatible (v_units v) (v_units w) ->
  let V := PVal v in let W := PVal w in
  raises (py_lt V W) /\ raises (py_le V W) /\ raises (py_eq V W) /\ raises (py_ne V W) /\
  raises (py_gt V W) /\ raises (py_ge V W) /\ raises (py_add V W) /\ raises (py_sub V W) /\
  raises (py_mul V W) /\
  (v_units v <> None -> py_truediv V W = Err ValueError /\ py_floordiv V W = Err ValueError) /\
  (v_units v = None -> py_truediv V W = Err KeyError /\ py_floordiv V W = Err KeyError).
Proof. exact incompatible_double. Qed.
Print Assumptions C12_incompatible_never_combine.
Example C12_incompatible_example :
  incompatible (Some "cm") (Some "kg") /\ incompatible None (Some "deg") /\ incompatible (Some "deg") None.
Proof.
  split; [left; exists "cm", "kg", Length, Weight; repeat split; try (eexists; reflexivity); discriminate|].
  split; [right; left|right; right]; (split; [reflexivity|]); exists "deg"; (split; [reflexivity|]);
    exists Angle; eexists; reflexivity.
Qed.

(** C113, refuted: "Dividing incompatible Values raises ValueError".  A unitless Value divided by
    a Value with units raises KeyError. *)
Theorem C113_division_reports_ValueError_refuted :
  exists v w : value b64, incompatible (v_units v) (v_units w) /\
    mk_value (Some (PNum (nofZ 1))) None = Ok v /\ mk_value (Some (PNum (nofZ 1))) (Some "cm") = Ok w /\
    py_truediv (PVal v) (PVal w) = Err KeyError.
Proof.
  exists (mkv (nofZ 1) None), (mkv (nofZ 1) (Some "cm")).
  split. { right; left. split; [reflexivity|]. exists "cm". split; auto. exists Length. eexists. reflexivity. }
  repeat split; reflexivity.
Qed.
Print Assumptions C113_division_reports_ValueError_refuted.

(** C13.  [vrun ops] is the store of all objects after the history [ops]. *)
Theorem C13_values_carry_recognised_units : forall (ops : list (vop b64)) o v,
  In o (vrun ops) -> In v (values_in o) -> unit_ok (v_units v).
Proof. exact (@vrun_units b64 b64_num). Qed.
Print Assumptions C13_values_carry_recognised_units.
Example C13_example :
  map (@v_units b64) (flat_map values_in
    (vrun [ONum (nofZ 3); ONew (Some 0%nat) (Some "m"); OConvert 1 (Some "cm"); ONew (Some 0%nat) (Some "bogus");
           OTrueDiv 1 2; OAdd 2 1; OAttr 1 "feet"]))
  = [Some "m"; Some "cm"; None; Some "cm"; Some "feet"].
Proof. vm_compute. reflexivity. Qed.

Theorem C13_decoded_values_carry_recognised_units : forall (j : json b64) t v,
  decode j = Ok t -> In v (doc_values t) -> unit_ok (v_units v).
Proof. exact (@decode_units b64 b64_num). Qed.
Print Assumptions C13_decoded_values_carry_recognised_units.

(** The constructor accepts exactly None and the recognised units. *)
Theorem C13_constructor : forall (x : b64) u,
  (unit_ok u -> mk_value (Some (PNum x)) u = Ok (mkv x u)) /\
  (~ unit_ok u -> mk_value (Some (PNum x)) u = Err ValueError) /\
  mk_value (F := b64) None u = Err ValueError.
Proof. exact constructor_spec. Qed.
Print Assumptions C13_constructor.

(** C14 *)
Theorem C14_json_round_trip : forall t : doc b64, plain t ->
  exists j, encode t = Ok j /\ decode j = Ok t.
Proof. exact (@round_trip b64 b64_num). Qed.
Print Assumptions C14_json_round_trip.
Example C14_plain_example : forall x : b64,
  plain (DObj [("sizes", DList [DVal (mkv x (Some "cm")); DNull; DObj [("w", DVal (mkv x None))]]); ("n", DNum x)]).
Proof.
  intros x. assert (unit_ok (Some "cm")). { right. exists "cm". split; auto. exists Length. eexists. reflexivity. }
  repeat (constructor; cbn; auto); try (intros k [<-|[]]; cbn; intuition discriminate);
    try (intros [E|[]]; discriminate); try (intuition discriminate).
  intros k [<-|[<-|[]]]; cbn; intuition discriminate.
Qed.

(** C130.  Under Python 3 neither method ever returns. *)
Theorem C130_value_round_refuted : forall (v : value b64) n,
  raises (v_round Python3 v n) /\ raises (v_prettified Python3 v).
Proof. intros v n. split; [exact (@round_py3 b64 b64_num v n)|exact (@prettified_py3 b64 b64_num v)]. Qed.
Print Assumptions C130_value_round_refuted.

(** C15.  Python 2 returns the rounded number (a bare float, not a
    Value), and the two-argument built-in [round(v, places)] returns a Value. *)
Theorem C15_value_round : forall x u n, unit_ok u -> n <> 0 ->
  (exists z, v_round Python2 (mkv (Fin x) u) (Fin n) = Ok (PNum (Fin (IZR z * n))) /\
     forall j : Z, Rabs (x - IZR z * n) <= Rabs (x - IZR j * n)) /\
  (forall places, exists z, v_round_places (mkv (Fin x) u) places = Ok (mkv (Fin (IZR z / 10 ^ places)) u) /\
     Rabs (x - IZR z / 10 ^ places) <= / 2 / 10 ^ places).
Proof. exact round_partial. Qed.
Print Assumptions C15_value_round.

(** C73: assignment to [.units] is not validated, and breaks the Value. *)
Theorem C73_units_assignment_refuted :
  exists v : value b64, mk_value (Some (PNum (nofZ 1))) (Some "cm") = Ok v /\
    ~ unit_ok (v_units (assign_units v (Some "parsec"))) /\
    raises (v_convert (assign_units v (Some "parsec")) (Some "cm")).
Proof.
  exists (mkv (nofZ 1) (Some "cm")). split; [reflexivity|]. split.
  - intros [H|(s&[= <-]&k&m&H)]; [discriminate|]. vm_compute in H. discriminate.
  - eexists. reflexivity.
Qed.
Print Assumptions C73_units_assignment_refuted.
