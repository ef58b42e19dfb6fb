(** * Model of blmath/geometry/segment.py, barycentric.py and apex.py. *)
From Coq Require Import ZArith List Bool.
From Verif Require Import Num Vec NpList MVx MPlane.
Import ListNotations.
Local Open Scope num_scope.

Section Segment.
Context {F : Type} {N : Num F}.

(** [np.arange(a, b)] for natural bounds, as floats. *)
Definition narange (a b : nat) : list F := map (fun k => nofZ (Z.of_nat k)) (seq a (b - a)).

(** segment.py:3-37 [partition(v, partition_size)]; SIMPLIFICATION: 3-space,
    a natural [partition_size]. *)
Definition partition (v : list (V3 F)) (partition_size : nat) : res (list (V3 F)) :=
  let diffs := map2 (fun b a => vsub b a) (tl v) v in
  let dists := map (fun d => nsqrt (vdot d d)) diffs in
  let unitds := map2 vdivs diffs dists in
  let widths := map (fun d => d / nofZ (Z.of_nat partition_size)) dists in
  let domain := flat_map (fun w => map (fun k => w * k) (narange 0 partition_size)) widths in
  let points := flat_map (fun p => repeat p partition_size) (removelast v) in
  let unitds := flat_map (fun u => repeat u partition_size) unitds in
  let filled := map2 vadd points (map2 (fun u d => map3 (fun x => x * d) u) unitds domain) in
  match v with
  | [] => Err IndexError
  | x :: _ => Ok (filled ++ [last v x])
  end.

(** [np.linspace(0, 1, num, endpoint)] for [num >= 2]: multiples of the step;
    the end point is stored exactly. *)
Definition linspace01 (num : nat) (endpoint : bool) : list F :=
  let div := if endpoint then (Z.of_nat num - 1)%Z else Z.of_nat num in
  let step := nofZ 1 / nofZ div in
  let y := map (fun k => k * step) (narange 0 num) in
  if endpoint then removelast y ++ [nofZ 1] else y.

(** An argument expected to be an int: an int or something else. *)
Inductive intarg := IntArg (z : Z) | NotInt.
(** segment.py:39-64 [partition_segment(p1, p2, n_samples, endpoint)]. *)
Definition partition_segment (p1 p2 : V3 F) (n_samples : intarg) (endpoint : bool) : res (list (V3 F)) :=
  match n_samples with
  | NotInt => Err TypeError
  | IntArg n =>
      if (n <? 2)%Z then Err ValueError
      else Ok (map (fun t => vadd (map3 (fun x => x * t) (vsub p2 p1)) p1) (linspace01 (Z.to_nat n) endpoint))
  end.
(** segment.py:66-97 [partition_segment_old(p1, p2, partition_size)]. *)
Definition partition_segment_old (p1 p2 : V3 F) (partition_size : intarg) : res (list (V3 F)) :=
  match partition_size with
  | NotInt => Err TypeError
  | IntArg n =>
      if (n <? 2)%Z then Err ValueError
      else
        let dist := vnorm (vsub p1 p2) in
        let unit_direction := vdivs (vsub p2 p1) dist in
        let partition_width := dist / nofZ n in
        let domain := map (fun k => partition_width * k) (narange 1 (Z.to_nat n)) in
        Ok (map (fun d => vadd p1 (map3 (fun x => x * d) unit_direction)) domain)
  end.

(** [np.linalg.solve] for a 2x2 system: LU with partial pivoting (LAPACK gesv);
    a zero pivot raises LinAlgError. *)
Definition solve2 (a00 a01 a10 a11 b0 b1 : F) : res (F * F) :=
  let elim (p00 p01 p10 p11 q0 q1 : F) : res (F * F) :=
    let l := p10 / p00 in
    let u11 := p11 - l * p01 in
    if (p00 =? n0) || (u11 =? n0) then Err LinAlgError
    else let x1 := (q1 - l * q0) / u11 in
         Ok ((q0 - p01 * x1) / p00, x1) in
  if nabs a00 <? nabs a10 then elim a10 a11 a00 a01 b1 b0 else elim a00 a01 a10 a11 b0 b1.

(** segment.py:99-126 [line_intersect(p0, q0, p1, q1)]; points are pairs. *)
Definition line_intersect (p0 q0 p1 q1 : F * F) : F * F :=
  let dy0 := snd q0 - snd p0 in
  let dx0 := fst q0 - fst p0 in
  let rhs0 := snd p0 * dx0 - dy0 * fst p0 in
  let dy1 := snd q1 - snd p1 in
  let dx1 := fst q1 - fst p1 in
  let rhs1 := snd p1 * dx1 - dy1 * fst p1 in
  match solve2 (- dy0) dx0 (- dy1) dx1 rhs0 rhs1 with
  | Ok x => x
  | Err _ => (nnan, nnan)
  end.

(** segment.py:128-153 [line_intersect3(p0, q0, p1, q1)]. *)
Definition line_intersect3 (p0 q0 p1 q1 : V3 F) : option (V3 F) :=
  let e := vsub p0 q0 in
  let f := vsub p1 q1 in
  if veqb p0 p1 || veqb p0 q1 then Some p0
  else if veqb q0 p1 || veqb p0 q1 then Some q0
  else
    let g := vsub p0 p1 in
    let h := vcross f g in
    let k := vcross f e in
    let h_ := vnorm h in
    let k_ := vnorm k in
    if (h_ =? n0) || (k_ =? n0) then None
    else
      let l := vscale (h_ / k_) e in
      let sign : F := if veqb (vdivs h h_) (vdivs k k_) then nofZ (-1) else nofZ 1 in
      Some (vadd p0 (vscale sign l)).

(** barycentric.py:3-43 [barycentric_coordinates_of_projection], one row, and
    its array form (four arrays of the same number of rows). *)
Definition barycentric1 (p q u v : V3 F) : V3 F :=
  let n := vcross u v in
  let s := vdot n n in
  let s := if s =? n0 then nlit 1 4503599627370496 else s in
  let oneOver4ASquared := nofZ 1 / s in
  let w := vsub p q in
  let b2 := vdot (vcross u w) n * oneOver4ASquared in
  let b1 := vdot (vcross w v) n * oneOver4ASquared in
  mk3 (nofZ 1 - b1 - b2) b1 b2.
Definition barycentric (p q u v : list (V3 F)) : list (V3 F) :=
  map (fun pq => barycentric1 (fst (fst pq)) (snd (fst pq)) (fst (snd pq)) (snd (snd pq)))
    (combine (combine p q) (combine u v)).

(** [np.argmax]: the first maximum; a NaN counts as larger than any number. *)
Definition argmax (l : list F) : res nat :=
  argbest (fun x best => if best =? best then (best <? x) || negb (x =? x) else false) l.
(** apex.py:4-12 [apex(points, axis)]. *)
Definition apex (points : list (V3 F)) (axis : V3 F) : res (V3 F) :=
  let coords := map (fun p => vdot p axis) points in
  let* i := argmax coords in getitem points i.
(** apex.py:46-57 [farthest(from_point, to_points)]. *)
Definition farthest (from_point : V3 F) (to_points : list (V3 F)) : res (V3 F * nat) :=
  let distances := map (fun p => vnorm (vsub p from_point)) to_points in
  let* i := argmax distances in
  let* p := getitem to_points i in
  Ok (p, i).
End Segment.
