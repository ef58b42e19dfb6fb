(** * Specification vocabulary for discrete derivatives (independent of the model). *)
From Coq Require Import Reals List.
Import ListNotations.
Local Open Scope R_scope.

Definition at_ (l : list R) (i : nat) : R := nth i l 0.
(** [g] lists the derivatives of [f] over the coordinates [x]: inside, the derivative of
    the parabola through an entry and its two neighbours; at the ends, the slope of the
    line through the entry and its neighbour *)
Definition parabola_slope (x f : list R) (i : nat) (s : R) : Prop :=
  exists a b c, (forall j, In j [i - 1; i; i + 1]%nat -> at_ f j = a + b * at_ x j + c * (at_ x j * at_ x j)) /\ s = b + 2 * c * at_ x i.
Definition line_slope (x f : list R) (i j : nat) (s : R) : Prop := s * (at_ x j - at_ x i) = at_ f j - at_ f i.
Definition derivative (x f g : list R) : Prop :=
  length g = length f /\
  line_slope x f 0 1 (at_ g 0) /\ line_slope x f (length f - 2) (length f - 1) (at_ g (length f - 1)) /\
  forall i, (0 < i)%nat -> (i + 1 < length f)%nat -> parabola_slope x f i (at_ g i).
(** no coordinate equals the next or the one after *)
Definition spread (x : list R) : Prop :=
  forall i, ((i + 1 < length x)%nat -> at_ x i <> at_ x (i + 1)) /\ ((i + 2 < length x)%nat -> at_ x i <> at_ x (i + 2)).
Definition positions (n : nat) : list R := map INR (seq 0 n).
(** an entry and the next do not have the same sign (zero has none) *)
Definition sign_change (g : list R) (i : nat) : bool := if Rle_dec (at_ g i * at_ g (i + 1)) 0 then true else false.
