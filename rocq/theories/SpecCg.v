(** * Specification of the block preconditioner and of positive semidefinite matrices. *)
From Coq Require Import Reals List Bool.
From Verif Require Import Num SpecGeom MLinalg SpecLinalg.
Import ListNotations.
Local Open Scope R_scope.

Definition entry (v : list R) (i : nat) : R := nth i v 0.
Definition dot_n (n : nat) (u v : list R) : R := big n (fun i => entry u i * entry v i).
(** row [i] of [A v] *)
Definition row_times (n : nat) (A : nat -> nat -> R) (v : list R) (i : nat) : R := big n (fun j => A i j * entry v j).
Definition symmetric (n : nat) (A : nat -> nat -> R) : Prop := forall i j, (i < n)%nat -> (j < n)%nat -> A i j = A j i.
Definition psd (n : nat) (A : nat -> nat -> R) : Prop :=
  symmetric n A /\ forall v, 0 <= big n (fun i => entry v i * row_times n A v i).
(** a column is sparse if it stores at least one and fewer than 1000 entries *)
Definition sparse_column (counts : list nat) (i : nat) : bool :=
  let c := nth i counts 0%nat in negb (Nat.eqb c 0) && Nat.ltb c 1000.
(** [A] without the entries that join a sparse and another index *)
Definition block_diagonal (counts : list nat) (A : nat -> nat -> R) (i j : nat) : R :=
  if Bool.eqb (sparse_column counts i) (sparse_column counts j) then A i j else 0.
(** the other columns are used if they meet another such column *)
Definition used (n : nat) (counts : list nat) (A : nat -> nat -> R) (i : nat) : Prop :=
  sparse_column counts i = true \/ exists j, (j < n)%nat /\ sparse_column counts j = false /\ A j i <> 0.

(** [scipy.linalg.inv], where it returns, returns a right inverse *)
Definition inv_ok (inv : mat xr -> res (mat xr)) : Prop := forall m k B w, is_mat m k k B -> inv m = Ok w ->
  exists C, is_mat w k k C /\ forall i j, (i < k)%nat -> (j < k)%nat -> big k (fun l => B i l * C l j) = kron i j.
(** [scipy.sparse.linalg.factorized], where it returns, returns a solver *)
Definition factorized_ok (factorized : mat xr -> res (list xr -> list xr)) : Prop := forall m k B f, is_mat m k k B -> factorized m = Ok f ->
  forall v, length v = k -> exists y, f (map Fin v) = map Fin y /\ length y = k /\ forall i, (i < k)%nat -> row_times k B y i = entry v i.
