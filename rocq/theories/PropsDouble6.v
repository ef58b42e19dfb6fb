(** * Property C140: composite transforms of doubles. *)
From Coq Require Import String Reals ZArith List Bool Lra Lia.
From Flocq Require Import Core IEEE754.BinarySingleNaN.
From Verif Require Import Num B64 BLemmas Vec RVec NpList MVx SpecUnits MUnits MRotation MComposite PCompositeB SpecDouble SpecTransD PErr PTransD PTransD2.
Import ListNotations.
Local Open Scope R_scope.

(** ** C140.  [part o f g] (SpecTransD.v): the call [o] adds a part whose exact maps are [f]
    forward and [g] in reverse.  [reach bs l s]: maps of the sizes [bs] take coordinates from at
    most [M] to at most [l * M + s]. *)
Theorem C140_forward : forall inv as_rot os fg M xs bs l s, Forall2 (fun o p => part inv as_rot o (fst p) (snd p)) os fg ->
  (Z.of_nat (length os) <= 2 ^ 30)%Z -> ordinary M -> Forall (within M) xs -> Forall2 size_of (map fst fg) bs -> reach bs l s ->
  exists ys, call (after inv as_rot [] os) xs None false = Ok ys /\
    Forall2 (fun x y => close3 (30 * INR (length os) * ulp_1 * (l * M + s)) y (moves (map fst fg) (Rval3 x))) xs ys.
Proof. intros inv as_rot os fg M xs bs l s H N OM W Sb Rb. exact (forward_true H N OM W Sb Rb). Qed.
Print Assumptions C140_forward.
(** with [reverse=True]: the reverse maps, the last part first *)
Theorem C140_reverse : forall inv as_rot os fg M xs bs l s, Forall2 (fun o p => part inv as_rot o (fst p) (snd p)) os fg ->
  (Z.of_nat (length os) <= 2 ^ 30)%Z -> ordinary M -> Forall (within M) xs -> Forall2 size_of (map snd fg) bs -> reach_back bs l s ->
  exists ys, call (after inv as_rot [] os) xs None true = Ok ys /\
    Forall2 (fun x y => close3 (30 * INR (length os) * ulp_1 * (l * M + s)) y (moves (rev (map snd fg)) (Rval3 x))) xs ys.
Proof. intros inv as_rot os fg M xs bs l s H N OM W Sb Rb. exact (reverse_true H N OM W Sb Rb). Qed.
Print Assumptions C140_reverse.
(** parts that undo each other exactly (scalings, unit conversions and translations do): there and
    back is close to where it began *)
Theorem C140_round_trip : forall inv as_rot os fg M xs bs l s bs' l' s', Forall2 (fun o p => part inv as_rot o (fst p) (snd p)) os fg ->
  (Z.of_nat (length os) <= 2 ^ 30)%Z -> ordinary M -> Forall (within M) xs ->
  Forall2 size_of (map fst fg) bs -> reach bs l s -> Forall2 size_of (map snd fg) bs' -> reach_back bs' l' s' ->
  Forall (fun p => forall x, move (snd p) (move (fst p) x) = x) fg -> ordinary (2 * (l * M + s)) ->
  exists ys zs, call (after inv as_rot [] os) xs None false = Ok ys /\ call (after inv as_rot [] os) ys None true = Ok zs /\
    Forall2 (fun x z => close3 (30 * INR (length os) * ulp_1 * (3 * l' * (l * M + s) + s')) z (Rval3 x)) xs zs.
Proof. intros inv as_rot os fg M xs bs l s bs' l' s' H N OM W Sf Rf Sb Rb U O2. exact (round_trip H N OM W Sf Rf Sb Rb U O2). Qed.
Print Assumptions C140_round_trip.

Definition no_inverse : M4 b64 -> res (M4 b64) := fun _ => Err LinAlgError.
Definition no_rotation : rot_arg b64 -> res (M3 b64) := fun _ => Err ValueError.
Definition int3d (x y z : Z) : V3 b64 := mk3 (nofZ x) (nofZ y) (nofZ z).
(** scale by 2, translate by (1, 2, 3), convert from centimetres to metres; points up to 4 *)
Definition three_parts : list (op b64) := [Scale (nofZ 2); Translate (int3d 1 2 3); ConvertUnits (Some "cm"%string) (Some "m"%string)].
Definition three_maps : list (rigid * rigid) :=
  [(times 2, times (/ 2)); (shift (mk3 1 2 3), shift (rscale (-1) (mk3 1 2 3))); (times (1 / 100 / 1), times (1 / (1 / 100)))].
Lemma ordinary_near x : / 1024 <= x <= 1024 -> ordinary x.
Proof.
  intros [A B]. split; [apply Rle_trans with (bpow radix2 (-10)); [apply bpow_le; lia|exact A]|apply Rle_trans with (bpow radix2 10); [exact B|apply bpow_le; lia]].
Qed.
Example C140_example : Forall2 (fun o p => part no_inverse no_rotation o (fst p) (snd p)) three_parts three_maps /\
  Forall (within 4) [int3d 1 2 3; int3d (-4) 0 1] /\
  Forall2 size_of (map fst three_maps) [(2, 0); (1, 3); (/ 100, 0)] /\ reach [(2, 0); (1, 3); (/ 100, 0)] (/ 100 * (1 * 2)) (/ 100 * (1 * 0 + 3) + 0) /\
  Forall2 size_of (map snd three_maps) [(/ 2, 0); (1, 3); (100, 0)] /\ reach_back [(/ 2, 0); (1, 3); (100, 0)] (/ 2 * 1 * 100) (/ 2 * 1 * 0 + (/ 2 * 3 + 0)) /\
  Forall (fun p => forall x, move (snd p) (move (fst p) x) = x) three_maps /\
  ordinary 4 /\ ordinary (2 * (/ 100 * (1 * 2) * 4 + (/ 100 * (1 * 0 + 3) + 0))).
Proof.
  assert (V : forall z, (-4 <= z <= 4)%Z -> Bval (nofZ z) = IZR z).
  { intros z Hz. assert (D : (z = -4 \/ z = -3 \/ z = -2 \/ z = -1 \/ z = 0 \/ z = 1 \/ z = 2 \/ z = 3 \/ z = 4)%Z) by lia.
    destruct D as [->|[->|[->|[->|[->|[->|[->|[->| ->]]]]]]]].
    - rewrite (@Bval_me _ (-4503599627370496) (-50)) by (vm_compute; reflexivity). change (bpow radix2 (-50)) with (/ 1125899906842624). lra.
    - rewrite (@Bval_me _ (-6755399441055744) (-51)) by (vm_compute; reflexivity). change (bpow radix2 (-51)) with (/ 2251799813685248). lra.
    - rewrite (@Bval_me _ (-4503599627370496) (-51)) by (vm_compute; reflexivity). change (bpow radix2 (-51)) with (/ 2251799813685248). lra.
    - rewrite (@Bval_me _ (-4503599627370496) (-52)) by (vm_compute; reflexivity). change (bpow radix2 (-52)) with (/ 4503599627370496). lra.
    - reflexivity.
    - rewrite (@Bval_me _ 4503599627370496 (-52)) by (vm_compute; reflexivity). change (bpow radix2 (-52)) with (/ 4503599627370496). lra.
    - rewrite (@Bval_me _ 4503599627370496 (-51)) by (vm_compute; reflexivity). change (bpow radix2 (-51)) with (/ 2251799813685248). lra.
    - rewrite (@Bval_me _ 6755399441055744 (-51)) by (vm_compute; reflexivity). change (bpow radix2 (-51)) with (/ 2251799813685248). lra.
    - rewrite (@Bval_me _ 4503599627370496 (-50)) by (vm_compute; reflexivity). change (bpow radix2 (-50)) with (/ 1125899906842624). lra. }
  assert (A2 : Rabs 2 = 2) by (apply Rabs_pos_eq; lra).
  split; [|split; [|split; [|split; [|split; [|split; [|split; [|split]]]]]]].
  - unfold three_parts, three_maps. repeat apply Forall2_cons; [| | |constructor]; cbn [fst snd].
    + rewrite <- (V 2%Z) by lia. constructor; [reflexivity|]. rewrite V by lia. apply ordinary_near. lra.
    + replace (mk3 1 2 3) with (Rval3 (int3d 1 2 3)) by (unfold Rval3, int3d, map3; cbn [c0 c1 c2]; now rewrite !V by lia). constructor. reflexivity.
    + constructor; reflexivity.
  - constructor; [|constructor; [|constructor]]; (split; [reflexivity|]; cbn [int3d c0 c1 c2]; rewrite !V by lia; split; [|split]; apply Rabs_le; lra).
  - unfold three_maps; cbn [map fst snd]; apply Forall2_cons; [|apply Forall2_cons; [|apply Forall2_cons; [|apply Forall2_nil]]]; unfold size_of, rows_le, coords_le, abs_sum, times, shift, reye, rzero, rscale; cbn [fst snd c0 c1 c2]; repeat split; unfold Rabs; repeat destruct (Rcase_abs _); lra.
  - change [(2, 0); (1, 3); (/ 100, 0)] with (([(2, 0)] ++ [(1, 3)]) ++ [(/ 100, 0)]).
    apply reach_more; [apply reach_more; [apply reach_one| | | |]| | | |]; try (apply ordinary_near; lra); try (left; lra); right; apply ordinary_near; lra.
  - unfold three_maps; cbn [map fst snd]; apply Forall2_cons; [|apply Forall2_cons; [|apply Forall2_cons; [|apply Forall2_nil]]]; unfold size_of, rows_le, coords_le, abs_sum, times, shift, reye, rzero, rscale; cbn [fst snd c0 c1 c2]; repeat split; unfold Rabs; repeat destruct (Rcase_abs _); lra.
  - change [(/ 2, 0); (1, 3); (100, 0)] with (([(/ 2, 0)] ++ [(1, 3)]) ++ [(100, 0)]).
    apply back_more; [apply back_more; [apply back_one| | | |]| | | |]; try (apply ordinary_near; lra); try (left; lra); right; apply ordinary_near; lra.
  - repeat constructor; intros [x y z]; unfold move, times, shift, rapply, radd, rdot, rscale, reye, rzero; cbn [fst snd c0 c1 c2]; f_equal; field.
  - apply ordinary_near. lra.
  - apply ordinary_near. lra.
Qed.
