(** * Model of [np.linalg.solve] for two unknowns as different LAPACK builds compute it: a quotient [a / p] by one division, or as
    [a * (1 / p)].  In exact arithmetic, and in MSegment.v, there is only one. *)
From Coq Require Import ZArith List Bool.
From Verif Require Import Num Vec MPlane MSegment.
Local Open Scope num_scope.

Section SegmentD.
Context {F : Type} {N : Num F}.
(** The two ways to form a quotient: dgetrf scales the column below the pivot by its reciprocal, and OpenBLAS does so in the triangular solves as well. *)
Definition reciprocal_quotient (a p : F) : F := a * (nofZ 1 / p).
(** segment.py:123 [np.linalg.solve(a, b)], 2x2: [q1] forms the multiplier, [q2] the quotients of the back substitution. *)
Definition solve2_with (q1 q2 : F -> F -> F) (a00 a01 a10 a11 b0 b1 : F) : res (F * F) :=
  let elim (p00 p01 p10 p11 r0 r1 : F) : res (F * F) :=
    let l := q1 p10 p00 in
    let u11 := p11 - l * p01 in
    if (p00 =? n0) || (u11 =? n0) then Err LinAlgError
    else let x1 := q2 (r1 - l * r0) u11 in
         Ok (q2 (r0 - p01 * x1) p00, x1) in
  if nabs a00 <? nabs a10 then elim a10 a11 a00 a01 b1 b0 else elim a00 a01 a10 a11 b0 b1.
(** segment.py:99-126 [line_intersect(p0, q0, p1, q1)] with such a solver. *)
Definition line_intersect_with (q1 q2 : F -> F -> F) (p0 q0 p1 q1' : F * F) : F * F :=
  let dy0 := snd q0 - snd p0 in
  let dx0 := fst q0 - fst p0 in
  let rhs0 := snd p0 * dx0 - dy0 * fst p0 in
  let dy1 := snd q1' - snd p1 in
  let dx1 := fst q1' - fst p1 in
  let rhs1 := snd p1 * dx1 - dy1 * fst p1 in
  match solve2_with q1 q2 (- dy0) dx0 (- dy1) dx1 rhs0 rhs1 with
  | Ok x => x
  | Err _ => (nnan, nnan)
  end.
End SegmentD.
