(** * Specification of broadcasting and of sparse matrices given by index lists. *)
From Coq Require Import Reals ZArith List Bool.
From Verif Require Import Num SpecLinalg.
Import ListNotations.
Local Open Scope nat_scope.

(** two lengths of an axis that can be stretched to a common one *)
Definition fits (x y : nat) : Prop := x = y \/ x = 1 \/ y = 1.
(** the common length, and the index used along an axis of length [d] *)
Definition stretched (x y : nat) : nat := match x with 1 => y | _ => x end.
Definition along (d i : nat) : nat := match d with 1 => 0 | _ => i end.
(** the sum of all [data[k]] with [i[k] = r] and [j[k] = c] *)
Definition accumulated (i j : list Z) (data : list R) (r c : Z) : R :=
  big (length data) (fun k => if (Z.eqb (nth k i 0%Z) r && Z.eqb (nth k j 0%Z) c)%bool then nth k data 0%R else 0%R).
