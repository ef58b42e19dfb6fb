(** * Specification vocabulary for blmath/numerics. *)
From Coq Require Import Reals ZArith QArith List Bool.
From Verif Require Import Num NpList MNumerics RList.
Import ListNotations.

(** shape [dims] meets pattern [p], -1 standing for any extent *)
Definition fits (p : list Z) (dims : list nat) : Prop := Forall2 (fun e n => e = (-1)%Z \/ e = Z.of_nat n) p dims.
(** index tuple within a shape *)
Definition in_bounds (i s : list nat) : Prop := Forall2 lt i s.
Definition all_finite {F} {N : Num F} (a : nd F) : Prop := forall i, in_bounds i (nd_shape a) -> nfinite (nd_at a i) = true.
(** [b] is the transpose of [a] *)
Definition transposed {F} (a b : nd F) : Prop :=
  nd_shape b = rev (nd_shape a) /\ forall i, nd_at b i = nd_at a (rev i).

(** scalars that denote a real number *)
Definition real_number {F} {N : Num F} (s : pyscalar F) : Prop :=
  match s with
  | PInt _ | PFrac _ | PDec (DFinite _) => True
  | PFloat x => nfinite x = true
  | _ => False
  end.
(** rectangular nesting of lists *)
Inductive has_shape {F} : pyval F -> list nat -> Prop :=
  | hs_scalar s : has_shape (PS s) []
  | hs_empty : has_shape (PL []) [0%nat]
  | hs_list x l sh : has_shape x sh -> Forall (fun y => has_shape y sh) l -> has_shape (PL (x :: l)) (S (length l) :: sh).
(** the scalars inside a value *)
Inductive leaf {F} : pyscalar F -> pyval F -> Prop :=
  | leaf_scalar s : leaf s (PS s)
  | leaf_in s x l : In x l -> leaf s x -> leaf s (PL l).
(** scalars numpy stores natively (neither a Decimal nor a Fraction, None or an int outside 64 bits) and
    not a bool *)
Definition native {F} (s : pyscalar F) : Prop :=
  match s with
  | PInt z => (- 2 ^ 63 <= z < 2 ^ 63)%Z
  | PFloat _ | PComplex _ _ | PStr => True
  | _ => False
  end.
(** ints, fractions and finite floats *)
Definition plain_number {F} {N : Num F} (s : pyscalar F) : Prop :=
  match s with PInt _ | PFrac _ => True | PFloat x => nfinite x = true | _ => False end.

Definition finl (l : list R) : list xr := map Fin l.
Definition pairwise_orthogonal (os : list (list R)) : Prop :=
  forall i j u v, nth_error os i = Some u -> nth_error os j = Some v -> i <> j -> ldot u v = 0%R.
