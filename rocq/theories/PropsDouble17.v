(** * Property C163: scale_to_range keeps the order of doubles. *)
From Coq Require Import Reals ZArith List Bool Lra Lia.
From Flocq Require Import Core IEEE754.BinarySingleNaN.
From Verif Require Import Num B64 BLemmas NpList MNumerics PNormD PMonoD PropsDouble.
Import ListNotations.
Local Open Scope R_scope.

(** ** C163.  No bound on the sizes: it is enough that no number returned is nan or infinite.
    [Bval lo] and [Bval hi] are the ends of the range asked for. *)
Theorem C163_order : forall (a : list b64) (lo hi : b64) out,
  Forall (fun x => bfin x = true) a -> scale_to_range a lo hi = Ok out -> Forall (fun y => bfin y = true) out ->
  length out = length a /\
  (forall i j xi xj yi yj, nth_error a i = Some xi -> nth_error a j = Some xj -> nth_error out i = Some yi -> nth_error out j = Some yj -> Bval xi <= Bval xj ->
    (Bval lo <= Bval hi -> Bval yi <= Bval yj) /\ (Bval hi <= Bval lo -> Bval yj <= Bval yi)) /\
  (forall i xi yi, nth_error a i = Some xi -> nth_error out i = Some yi -> Forall (fun x => Bval xi <= Bval x) a -> Bval yi = Bval lo) /\
  (forall y, In y out -> (Bval lo <= Bval hi -> Bval lo <= Bval y) /\ (Bval hi <= Bval lo -> Bval y <= Bval lo)).
Proof. intros a lo hi out FA HO FO. exact (scale_order FA HO FO). Qed.
Print Assumptions C163_order.
(** Elements 10^17, -7 and 3, a range from 1/10 to 10^200. *)
Example C163_example : exists a lo hi out, List.length a = 3%nat /\ Forall (fun x => bfin x = true) a /\ scale_to_range a lo hi = Ok out /\ Forall (fun y : b64 => bfin y = true) out /\ Bval lo <= Bval hi.
Proof.
  set (a := [nofZ (10 ^ 17); nofZ (-7); nofZ 3] : list b64). set (lo := nlit 1 10 : b64). set (hi := nofZ (10 ^ 200) : b64).
  assert (E : match scale_to_range a lo hi with Ok out => forallb bfin out | Err _ => false end = true) by (vm_compute; reflexivity).
  destruct (scale_to_range a lo hi) as [out|] eqn:R; [|discriminate E]. exists a, lo, hi, out. split; [reflexivity|]. split; [apply Forall_forall, forallb_forall; vm_compute; reflexivity|]. split; [exact R|]. split; [apply Forall_forall, forallb_forall; exact E|].
  assert (L : nle lo hi = true) by (vm_compute; reflexivity). rewrite ble_spec in L by (vm_compute; reflexivity). destruct (Rle_bool_spec (Bval lo) (Bval hi)); [assumption|discriminate L].
Qed.
