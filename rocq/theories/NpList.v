(** * numpy indexing on 1-d data, as list functions. *)
From Coq Require Import ZArith List Bool Lia.
From Verif Require Import Num.
Import ListNotations.
Set Implicit Arguments.

(** [a[mask]] for a boolean mask. *)
Fixpoint compress {A} (m : list bool) (l : list A) : list A :=
  match m, l with
  | b :: m', x :: l' => if b then x :: compress m' l' else compress m' l'
  | _, _ => []
  end.
(** [a[mask] = vals] for a boolean mask, [vals] of the selected length. *)
Fixpoint mask_set {A} (m : list bool) (l vals : list A) : list A :=
  match m, l with
  | b :: m', x :: l' =>
      if b then match vals with
                | v :: vs => v :: mask_set m' l' vs
                | [] => x :: mask_set m' l' []
                end
      else x :: mask_set m' l' vals
  | _, _ => l
  end.
(** [a[mask] = c] for a boolean mask and a scalar. *)
Definition mask_fill {A} (m : list bool) (l : list A) (c : A) : list A :=
  map (fun bx : bool * A => if fst bx then c else snd bx) (combine m l).
(** [np.flatnonzero(mask)], counting from [k]. *)
Fixpoint flatnonzero (k : nat) (m : list bool) : list nat :=
  match m with
  | [] => []
  | b :: m' => if b then k :: flatnonzero (S k) m' else flatnonzero (S k) m'
  end.
(** [a[i]] for a non-negative index. *)
Definition getitem {A} (l : list A) (i : nat) : res A :=
  match nth_error l i with Some x => Ok x | None => Err IndexError end.
(** [a[indices]] for an array of indices. *)
Definition take {A} (l : list A) (is : list nat) : res (list A) := traverse (getitem l) is.
(** [f] applied to corresponding entries of two arrays of one length. *)
Definition map2 {A B C} (f : A -> B -> C) (l : list A) (k : list B) : list C :=
  map (fun xy => f (fst xy) (snd xy)) (combine l k).
(** position of the first maximum ([np.argmax]) / minimum ([np.argmin]). *)
Fixpoint argbest_from {A} (better : A -> A -> bool) (best : A) (bi k : nat) (l : list A) : nat :=
  match l with
  | [] => bi
  | x :: l' => if better x best then argbest_from better x k (S k) l' else argbest_from better best bi (S k) l'
  end.
Definition argbest {A} (better : A -> A -> bool) (l : list A) : res nat :=
  match l with
  | [] => Err ValueError
  | x :: l' => Ok (argbest_from better x 0 1 l')
  end.
