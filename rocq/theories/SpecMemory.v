(** * Specification: memories whose views stay inside their buffers, requested shapes. *)
From Coq Require Import ZArith List.
From Verif Require Import Num MMemory.
Import ListNotations.

(** Every array refers to cells that exist, as many as its shape says. *)
Definition sound {A} (m : memory A) : Prop := forall r a, obj m r = Some a ->
  a_buf a < length (bufs m) /\ (forall c, In c (a_cells a) -> c < length (nth (a_buf a) (bufs m) [])) /\
  fold_right Nat.mul 1 (a_shape a) = length (a_cells a).
(** [s] answers the request: the lengths asked for, and the right number of entries *)
Definition answers (shape : list Z) (s : list nat) (size : nat) : Prop :=
  Forall2 (fun z n => (z < 0)%Z \/ z = Z.of_nat n) shape s /\ fold_right Nat.mul 1 s = size.
(** writes through any arrays, in any order *)
Fixpoint writes {A} (m : memory A) (ops : list (nat * nat * A)) : memory A :=
  match ops with [] => m | (r, k, x) :: ops' => writes (fst (write m r k x)) ops' end.
