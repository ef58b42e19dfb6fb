(** * Specification vocabulary for matrices of any size. *)
From Coq Require Import Reals List Bool.
From Verif Require Import Num SpecGeom MLinalg.
Import ListNotations.
Local Open Scope R_scope.

(** [f 0 + ... + f (n-1)] *)
Definition big (n : nat) (f : nat -> R) : R := rsum (map f (seq 0 n)).
Definition kron (i j : nat) : R := if Nat.eqb i j then 1 else 0.
(** the exact matrix of the given shape with real entries [A] *)
Definition rmat (r c : nat) (A : nat -> nat -> R) : mat xr := mkmat r c (fun i j => Fin (A i j)).
(** [m] has shape (r, c) and real entries [A] *)
Definition is_mat (m : mat xr) (r c : nat) (A : nat -> nat -> R) : Prop :=
  m_rows m = r /\ m_cols m = c /\ forall i j, (i < r)%nat -> (j < c)%nat -> m_at m i j = Fin (A i j).
(** the first [n] rows of [A], vectors of dimension [d], satisfy a non-trivial linear relation *)
Definition rows_dependent (n d : nat) (A : nat -> nat -> R) : Prop :=
  exists x, (exists i, (i < n)%nat /\ x i <> 0) /\ forall j, (j < d)%nat -> big n (fun i => x i * A i j) = 0.
