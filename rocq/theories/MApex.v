(** * Model of blmath/geometry/apex.py:14-44 ([apex] and [farthest] are in MSegment.v). *)
From Coq Require Import ZArith List Bool.
From Verif Require Import Num Vec NpList.
Import ListNotations.
Local Open Scope num_scope.

Section Apex.
Context {F : Type} {N : Num F}.
(** [np.diff] *)
Definition diff (l : list F) : list F := map2 (fun x y => y - x) l (tl l).
(** the inner entries of numpy's gradient (edge_order 1) for constant spacing [h] *)
Fixpoint inner_uniform (h : F) (f : list F) : list F :=
  match f with
  | [] => []
  | p :: f' => match f' with
               | _ :: n :: _ => (n - p) / (nofZ 2 * h) :: inner_uniform h f'
               | _ => []
               end
  end.
(** and for spacings [d] *)
Fixpoint inner (d f : list F) : list F :=
  match d, f with
  | dx1 :: d', p :: f' =>
      match d', f' with
      | dx2 :: _, m :: n :: _ =>
          let a := - dx2 / (dx1 * (dx1 + dx2)) in
          let b := (dx2 - dx1) / (dx1 * dx2) in
          let c := dx1 / (dx2 * (dx1 + dx2)) in
          (a * p + b * m + c * n) :: inner d' f'
      | _, _ => []
      end
  | _, _ => []
  end.
(** one-sided differences at the ends: [h0] the first, [hn] the last spacing *)
Definition with_ends (h0 hn : F) (f mid : list F) : res (list F) :=
  match f, rev f with
  | x0 :: x1 :: _, y1 :: y0 :: _ => Ok ((x1 - x0) / h0 :: mid ++ [(y1 - y0) / hn])
  | _, _ => Err ValueError     (* too few entries *)
  end.
(** [np.gradient(f)]: spacing 1 *)
Definition gradient_unit (f : list F) : res (list F) :=
  with_ends (nofZ 1) (nofZ 1) f (inner_uniform (nofZ 1) f).
(** [np.gradient(f, x)] for an array [x]: numpy (1.13 and later) takes [x] as the
    coordinates of the entries. *)
Definition gradient (f x : list F) : res (list F) :=
  if negb (Nat.eqb (length x) (length f)) then Err ValueError
  else let diffx := diff x in
  match diffx with
  | [] => Err IndexError
  | h :: _ =>
      if forallb (fun d => d =? h) diffx then with_ends h h f (inner_uniform h f)
      else with_ends h (last diffx h) f (inner diffx f)
  end.
(** apex.py:14-44 [inflection_points]; indexing with the list of positions of True *)
Definition inflection_points (points : list (V3 F)) (axis span : V3 F) : res (list (V3 F)) :=
  let coords_on_span := map (fun p => vdot p span) points in
  let* dx := gradient_unit coords_on_span in
  let coords_on_axis := map (fun p => vdot p axis) points in
  let* first := gradient coords_on_axis dx in
  let* finite_difference_2 := gradient first dx in
  let is_inflection_point := map2 (fun a b => a * b <=? n0) finite_difference_2 (tl finite_difference_2) in
  take points (flatnonzero 0 is_inflection_point).
End Apex.
