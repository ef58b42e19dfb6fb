(** * Properties C127 and C10: Values of doubles. *)
From Coq Require Import Reals ZArith List String Bool Lra Lia.
From Flocq Require Import Core IEEE754.BinarySingleNaN.
From Verif Require Import Num B64 BLemmas MUnits SpecUnits MValue SpecValue SpecValueD PErr PValueD.
Import ListNotations.
Local Open Scope string_scope.
Local Open Scope R_scope.

(** the spacing of the doubles above 1 *)
Definition ulp1 : R := bpow radix2 (-52).

(** ** C127.  [reads v k p]: the number of [v] is zero or of size 2^-900 to 2^900, and [v]
    stands for [p] base units of kind [k] (SpecValueD.v), with the true sizes of the units. *)
Theorem C127_convert : forall (v : value b64) k q b, reads v k q -> unit_of_kind b k ->
  exists w s, v_convert v (Some b) = Ok w /\ v_units w = Some b /\ denotes w k s /\ Rabs (s - q) <= 4 * ulp1 * Rabs q.
Proof. intros v k q b R (m & S). exact (convert_true R S). Qed.
Print Assumptions C127_convert.
(** every comparison is right when the quantities differ by more than four units in the last
    place of the second *)
Theorem C127_compare : forall (v w : value b64) k p q, reads v k p -> reads w k q -> 4 * ulp1 * Rabs q < Rabs (p - q) ->
  answers (py_lt (PVal v) (PVal w)) (p < q) /\ answers (py_le (PVal v) (PVal w)) (p <= q) /\
  answers (py_gt (PVal v) (PVal w)) (p > q) /\ answers (py_ge (PVal v) (PVal w)) (p >= q) /\
  answers (py_eq (PVal v) (PVal w)) (p = q) /\ answers (py_ne (PVal v) (PVal w)) (p <> q).
Proof.
  intros v w k p q Rv Rw L. apply compare_true with k; auto. rewrite u64_eps. change eps with ulp1. lra.
Qed.
Print Assumptions C127_compare.
Theorem C127_sum_and_difference : forall (v w : value b64) k p q, reads v k p -> reads w k q ->
  (exists r s, py_add (PVal v) (PVal w) = Ok (PVal r) /\ v_units r = v_units v /\ denotes r k s /\ Rabs (s - (p + q)) <= 6 * ulp1 * (Rabs p + Rabs q)) /\
  (exists r s, py_sub (PVal v) (PVal w) = Ok (PVal r) /\ v_units r = v_units v /\ denotes r k s /\ Rabs (s - (p - q)) <= 6 * ulp1 * (Rabs p + Rabs q)).
Proof. exact add_true. Qed.
Print Assumptions C127_sum_and_difference.
Theorem C127_ratio : forall (v w : value b64) k p q, reads v k p -> reads w k q -> q <> 0 ->
  p = 0 \/ bpow radix2 (-1000) <= Rabs (p / q) <= bpow radix2 990 ->
  exists z, py_truediv (PVal v) (PVal w) = Ok (PVal (mkv z None)) /\ bfin z = true /\ Rabs (Bval z - p / q) <= 6 * ulp1 * Rabs (p / q).
Proof. exact ratio_true. Qed.
Print Assumptions C127_ratio.
(** ** C10.  Equality is symmetric for quantities farther apart than that. *)
Theorem C10_apart : forall (v w : value b64) k p q, reads v k p -> reads w k q -> 4 * ulp1 * Rmax (Rabs p) (Rabs q) < Rabs (p - q) ->
  py_eq (PVal v) (PVal w) = Ok false /\ py_eq (PVal w) (PVal v) = Ok false.
Proof.
  intros v w k p q Rv Rw L. assert (U : 0 < ulp1) by apply bpow_gt_0.
  assert (A : forall v w p q, reads v k p -> reads w k q -> 4 * ulp1 * Rabs q < Rabs (p - q) -> py_eq (PVal v) (PVal w) = Ok false).
  { clear. intros v w p q Rv Rw L. destruct (C127_compare _ _ _ _ _ Rv Rw L) as (_ & _ & _ & _ & ([] & E & H) & _); [|exact E].
    assert (U : 0 < ulp1) by apply bpow_gt_0. pose proof (Rabs_pos q). assert (p = q) by now apply H.
    subst p. unfold Rminus in L. rewrite Rplus_opp_r, Rabs_R0 in L. pose proof (Rmult_le_pos (4 * ulp1) (Rabs q) ltac:(lra) (Rabs_pos q)). lra. }
  split; [apply (A _ _ _ _ Rv Rw)|apply (A _ _ _ _ Rw Rv); rewrite Rabs_minus_sym]; eapply Rle_lt_trans; try exact L; apply Rmult_le_compat_l; try lra; [apply Rmax_r|apply Rmax_l].
Qed.
Print Assumptions C10_apart.
(** three feet are less than forty inches *)
Example C127_example : exists p q, reads (mkv (nofZ 3) (Some "ft")) Length p /\ reads (mkv (nofZ 40) (Some "in")) Length q /\
  4 * ulp1 * Rabs q < Rabs (p - q) /\ p < q /\ py_lt (PVal (mkv (nofZ 3 : b64) (Some "ft"))) (PVal (mkv (nofZ 40) (Some "in"))) = Ok true.
Proof.
  assert (V3 : Bval (nofZ 3) = 3) by (rewrite (@Bval_me _ 6755399441055744 (-51)); [change (bpow radix2 (-51)) with (/ 2251799813685248); lra|vm_compute; reflexivity]).
  assert (V40 : Bval (nofZ 40) = 40) by (rewrite (@Bval_me _ 5629499534213120 (-47)); [change (bpow radix2 (-47)) with (/ 140737488355328); lra|vm_compute; reflexivity]).
  assert (O : forall z : b64, bfin z = true -> 1 <= Bval z <= 64 -> ordinary_number z).
  { intros z Fz Hz. split; [exact Fz|]. right. rewrite Rabs_pos_eq by lra. split.
    - apply Rle_trans with (bpow radix2 0); [apply bpow_le; lia|exact (Logic.proj1 Hz)].
    - apply Rle_trans with (bpow radix2 6); [exact (Logic.proj2 Hz)|apply bpow_le; lia]. }
  exists (3 * (3048 / 10000)), (40 * (254 / 10000)).
  assert (R1 : reads (mkv (nofZ 3) (Some "ft")) Length (3 * (3048 / 10000))).
  { split; [apply O; [reflexivity|cbn [v_val]; lra]|]. exists "ft", (3048 / 10000). cbn [v_val v_units]. rewrite V3. repeat split. }
  assert (R2 : reads (mkv (nofZ 40) (Some "in")) Length (40 * (254 / 10000))).
  { split; [apply O; [reflexivity|cbn [v_val]; lra]|]. exists "in", (254 / 10000). cbn [v_val v_units]. rewrite V40. repeat split. }
  assert (D : 4 * ulp1 * Rabs (40 * (254 / 10000)) < Rabs (3 * (3048 / 10000) - 40 * (254 / 10000))).
  { rewrite (Rabs_pos_eq (40 * (254 / 10000))) by lra. rewrite Rabs_left by lra. change ulp1 with (/ 4503599627370496). lra. }
  split; [exact R1|]. split; [exact R2|]. split; [exact D|]. split; [lra|].
  destruct (C127_compare _ _ _ _ _ R1 R2 D) as ((b & E & H) & _). rewrite E. f_equal. apply H. lra.
Qed.
