(** * Composite transforms of doubles: the exact map of each part, and how large it makes points. *)
From Coq Require Import Reals ZArith List String.
From Flocq Require Import Core.
From Verif Require Import Num B64 BLemmas Vec RVec SpecDouble SpecUnits MUnits MRotation MComposite.
Import ListNotations.
Local Open Scope R_scope.

(** the spacing of the doubles above 1 *)
Definition ulp_1 : R := bpow radix2 (-52).
(** a map [p |-> A p + t], its linear part and offset *)
Definition rigid := (M3 R * V3 R)%type.
Definition move (f : rigid) (p : V3 R) : V3 R := radd (rapply (fst f) p) (snd f).
(** one after the other, the first in the list first *)
Definition moves (fs : list rigid) (p : V3 R) : V3 R := fold_left (fun q f => move f q) fs p.

(** the rows of [A] have absolute values that add up to at most [a]; the entries of [t] are at most [s] *)
Definition abs_sum (v : V3 R) : R := Rabs (c0 v) + Rabs (c1 v) + Rabs (c2 v).
Definition rows_le (a : R) (A : M3 R) : Prop := abs_sum (c0 A) <= a /\ abs_sum (c1 A) <= a /\ abs_sum (c2 A) <= a.
Definition coords_le (s : R) (t : V3 R) : Prop := Rabs (c0 t) <= s /\ Rabs (c1 t) <= s /\ Rabs (c2 t) <= s.
Definition size_of (f : rigid) (b : R * R) : Prop := rows_le (fst b) (fst f) /\ coords_le (snd b) (snd f).

(** no overflow, and no underflow that matters *)
Definition ordinary (x : R) : Prop := bpow radix2 (-400) <= x <= bpow radix2 400.
(** [reach bs l s]: maps of the sizes [bs], one after the other, take the coordinates of a point
    from at most [M] to at most [l * M + s]; the sizes stay ordinary on the way *)
Inductive reach : list (R * R) -> R -> R -> Prop :=
  | reach_one a s : ordinary a -> s = 0 \/ ordinary s -> reach [(a, s)] a s
  | reach_more bs a s l t : reach bs l t -> ordinary a -> s = 0 \/ ordinary s -> ordinary (a * l) -> (a * t + s = 0 \/ ordinary (a * t + s)) ->
      reach (bs ++ [(a, s)]) (a * l) (a * t + s).
(** the same for maps multiplied the other way round, as the reverse direction does: the first in
    the list is applied last *)
Inductive reach_back : list (R * R) -> R -> R -> Prop :=
  | back_one a s : ordinary a -> s = 0 \/ ordinary s -> reach_back [(a, s)] a s
  | back_more bs a s l t : reach_back bs l t -> ordinary a -> s = 0 \/ ordinary s -> ordinary (l * a) -> (l * s + t = 0 \/ ordinary (l * s + t)) ->
      reach_back (bs ++ [(a, s)]) (l * a) (l * s + t).

(** [part o f g]: the call [o] adds a part with the exact map [f] in the forward and [g] in the
    reverse direction.  Scaling and unit conversion: the true factor and its reciprocal.
    Rotation: the matrix of doubles, as it is, and its transpose. *)
Definition Rvalm (m : M3 b64) : M3 R := map3 Rval3 m.
Definition finmb (m : M3 b64) : Prop := fin3b (c0 m) = true /\ fin3b (c1 m) = true /\ fin3b (c2 m) = true.
Definition times (k : R) : rigid := (mk3 (mk3 k 0 0) (mk3 0 k 0) (mk3 0 0 k), rzero).
Definition shift (v : V3 R) : rigid := (reye, v).
Definition linear (m : M3 R) : rigid := (m, rzero).
Definition row_of (v : V4 b64) (x y z t : R) : Prop :=
  (bfin (d0 v) = true /\ Bval (d0 v) = x) /\ (bfin (d1 v) = true /\ Bval (d1 v) = y) /\ (bfin (d2 v) = true /\ Bval (d2 v) = z) /\ (bfin (d3 v) = true /\ Bval (d3 v) = t).
Definition matrix_of (m : M4 b64) (f : rigid) : Prop :=
  row_of (d0 m) (c0 (c0 (fst f))) (c1 (c0 (fst f))) (c2 (c0 (fst f))) (c0 (snd f)) /\
  row_of (d1 m) (c0 (c1 (fst f))) (c1 (c1 (fst f))) (c2 (c1 (fst f))) (c1 (snd f)) /\
  row_of (d2 m) (c0 (c2 (fst f))) (c1 (c2 (fst f))) (c2 (c2 (fst f))) (c2 (snd f)) /\
  row_of (d3 m) 0 0 0 1.
Section Parts.
Variables (inv : M4 b64 -> res (M4 b64)) (as_rot : rot_arg b64 -> res (M3 b64)).
Inductive part : op b64 -> rigid -> rigid -> Prop :=
  | part_scale k : bfin k = true -> ordinary (Bval k) -> part (Scale k) (times (Bval k)) (times (/ Bval k))
  | part_convert f t a b : unit_size f = Some (Length, a) -> unit_size t = Some (Length, b) ->
      part (ConvertUnits (Some f) (Some t)) (times (a / b)) (times (b / a))
  | part_translate v : fin3b v = true -> part (Translate v) (shift (Rval3 v)) (shift (rscale (-1) (Rval3 v)))
  | part_reorient up look m : rotation_from_up_and_look up look = Ok m -> finmb m -> part (Reorient up look) (linear (Rvalm m)) (linear (rtrans (Rvalm m)))
  | part_rotate r m : as_rot r = Ok m -> finmb m -> part (Rotate r) (linear (Rvalm m)) (linear (rtrans (Rvalm m)))
  | part_append3 m r : finmb m -> finmb r -> part (Append3 (Mat33 m) (Some (Mat33 r))) (linear (Rvalm m)) (linear (Rvalm r))
  | part_append4 m r f g : matrix_of m f -> matrix_of r g -> part (Append4 m (Some r)) f g
  | part_append4_inv m r f g : inv m = Ok r -> matrix_of m f -> matrix_of r g -> part (Append4 m None) f g.
End Parts.
