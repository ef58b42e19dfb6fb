(** * Model of blmath/geometry/primitives/plane.py, except the mesh slicing
    functions (MMesh.v). *)
From Coq Require Import ZArith List Bool.
From Verif Require Import Num Vec NpList MVx.
Import ListNotations.
Local Open Scope num_scope.

(** plane.py:21-22: the two attributes. *)
Record plane (F : Type) := mkpl { pl_r0 : V3 F; pl_n : V3 F }.
Arguments mkpl {F} pl_r0 pl_n. Arguments pl_r0 {F} p. Arguments pl_n {F} p.

Section Plane.
Context {F : Type} {N : Num F}.

(** plane.py:15-22 [Plane.__init__(point_on_plane, unit_normal)]. *)
Definition mk_plane (point normal : V3 F) : res (plane F) :=
  if almost_zero normal default_atol then Err ValueError
  else Ok (mkpl point (normalize1 normal)).
(** plane.py:27-44 [Plane.from_points]. *)
Definition from_points (p1 p2 p3 : V3 F) : res (plane F) :=
  mk_plane p1 (vcross (vsub p2 p1) (vsub p3 p1)).
(** plane.py:46-71 [Plane.from_points_and_vector]. *)
Definition from_points_and_vector (p1 p2 v : V3 F) : res (plane F) :=
  mk_plane p1 (vcross (vsub p2 p1) v).

(** [np.cov(points.T)]: the unbiased covariance matrix of the columns. *)
Definition covariance (ps : list (V3 F)) : M3 F :=
  let m := vmean ps in
  let cs := map (fun p => vsub p m) ps in
  let entry f g := nsum (map (fun c => f c * g c) cs) / nofZ (Z.of_nat (length ps) - 1) in
  mk3 (mk3 (entry c0 c0) (entry c0 c1) (entry c0 c2))
      (mk3 (entry c1 c0) (entry c1 c1) (entry c1 c2))
      (mk3 (entry c2 c0) (entry c2 c1) (entry c2 c2)).
(** [np.argsort] of three numbers (insertion sort, stable). *)
Fixpoint ins_idx (k : F * nat) (l : list (F * nat)) : list (F * nat) :=
  match l with
  | [] => [k]
  | x :: l' => if fst k <? fst x then k :: l else x :: ins_idx k l'
  end.
Definition argsort3 (w : V3 F) : list nat :=
  map snd (fold_left (fun acc k => ins_idx k acc) [(c0 w, 0%nat); (c1 w, 1%nat); (c2 w, 2%nat)] []).
Definition column (m : M3 F) (i : nat) : V3 F :=
  match i with 0%nat => mcol0 m | 1%nat => mcol1 m | _ => mcol2 m end.
(** plane.py:73-82 [Plane.fit_from_points]; [eig] stands for [np.linalg.eig]
    (eigenvalues, matrix of column eigenvectors). *)
Definition fit_from_points (eig : M3 F -> V3 F * M3 F) (ps : list (V3 F)) : res (plane F) :=
  let (eigval, eigvec) := eig (covariance ps) in
  let ordering := rev (argsort3 eigval) in
  let normal := vcross (column eigvec (nth 0 ordering 0%nat)) (column eigvec (nth 1 ordering 0%nat)) in
  mk_plane (vmean ps) normal.

(** plane.py:84-101 [equation]. *)
Definition equation (p : plane F) : V4 F :=
  mk4 (c0 (pl_n p)) (c1 (pl_n p)) (c2 (pl_n p)) (- (vdot (pl_r0 p) (pl_n p))).
(** plane.py:103-109 [reference_point], 126-132 [normal]. *)
Definition reference_point (p : plane F) : V3 F := pl_r0 p.
Definition normal (p : plane F) : V3 F := pl_n p.
(** plane.py:111-124 [canonical_point]. *)
Definition canonical_point (p : plane F) : V3 F := vscale (vdot (pl_r0 p) (pl_n p)) (pl_n p).
(** plane.py:134-139 [flipped]. *)
Definition flipped (p : plane F) : res (plane F) := mk_plane (pl_r0 p) (map3 (fun x => x * nofZ (-1)) (pl_n p)).

(** plane.py:174-182 [signed_distance], one row and the array form. *)
Definition signed_distance1 (p : plane F) (x : V3 F) : F :=
  let e := equation p in vdot x (mk3 (d0 e) (d1 e) (d2 e)) + d3 e.
Definition signed_distance (p : plane F) (xs : list (V3 F)) : list F := map (signed_distance1 p) xs.
(** plane.py:184-185 [distance]. *)
Definition distance (p : plane F) (xs : list (V3 F)) : list F := map nabs (signed_distance p xs).
(** plane.py:141-148 [sign]. *)
Definition sign (p : plane F) (xs : list (V3 F)) : list F := map nsign (signed_distance p xs).
(** plane.py:150-172 [points_in_front]. *)
Definition front_mask (p : plane F) (xs : list (V3 F)) (inverted : bool) : list bool :=
  let s := sign p xs in
  if inverted then map (fun x => x <=? n0) s else map (fun x => n0 <=? x) s.
Definition front_indices (p : plane F) (xs : list (V3 F)) (inverted : bool) : list nat :=
  flatnonzero 0 (front_mask p xs inverted).
Definition points_in_front (p : plane F) (xs : list (V3 F)) (inverted : bool) : res (list (V3 F)) :=
  take xs (front_indices p xs inverted).
(** plane.py:187-194 [project_point]. *)
Definition project_point (p : plane F) (x : V3 F) : V3 F :=
  vsub x (vscale (signed_distance1 p x) (pl_n p)).

(** plane.py:202-210 [line_xsection]. *)
Definition line_xsection (p : plane F) (pt ray : V3 F) : option (V3 F) :=
  let denom := vdot ray (pl_n p) in
  if denom =? n0 then None
  else let s := vdot (vsub (pl_r0 p) pt) (pl_n p) / denom in
       Some (vadd (vscale s ray) pt).
(** plane.py:218: some coordinate beyond both end points. *)
Definition out_of_bounds (pt a b : V3 F) : bool :=
  any3 (zip3 andb (zip3 (fun x y => y <? x) pt a) (zip3 (fun x y => y <? x) pt b)) ||
  any3 (zip3 andb (zip3 nlt pt a) (zip3 nlt pt b)).
(** plane.py:212-220 [line_segment_xsection]. *)
Definition line_segment_xsection (p : plane F) (a b : V3 F) : option (V3 F) :=
  match line_xsection p a (vsub b a) with
  | Some pt => if out_of_bounds pt a b then None else Some pt
  | None => None
  end.

Definition nnan : F := nofZ 0 / nofZ 0.
Definition vnan : V3 F := mk3 nnan nnan nnan.
(** plane.py:222-227 [line_xsections]; the two arrays have the same length
    (SIMPLIFICATION: no broadcasting). *)
Definition line_xsections (p : plane F) (pts rays : list (V3 F)) : list (V3 F) * list bool :=
  let denoms := map (fun r => vdot r (pl_n p)) rays in
  let denom_is_zero := map (fun d => d =? n0) denoms in
  let denoms := mask_fill denom_is_zero denoms nnan in
  let ps := map2 ndiv (map (fun q => vdot (vsub (pl_r0 p) q) (pl_n p)) pts) denoms in
  (map2 vadd (map2 vscale ps rays) pts, map negb denom_is_zero).
(** plane.py:229-235 [line_segment_xsections]. *)
Definition line_segment_xsections (p : plane F) (a b : list (V3 F)) : list (V3 F) * list bool :=
  let (pts, valid) := line_xsections p a (map2 vsub b a) in
  let cp := compress valid pts in let ca := compress valid a in let cb := compress valid b in
  let oob := map2 (fun pt ab => out_of_bounds pt (fst ab) (snd ab)) cp (combine ca cb) in
  let valid := mask_set valid valid (map negb oob) in
  (mask_fill (map negb valid) pts vnan, valid).

(** A mesh as the slicing code sees it: [m.v], [m.f]. SIMPLIFICATION: face
    indices are naturals (lace stores unsigned integers). *)
Definition face := (nat * nat * nat)%type.
Record mesh := mkmesh { m_v : list (V3 F); m_f : list face }.
(** plane.py:251-254 [mesh_intersecting_faces]. *)
Definition face_sign_sum (s : list F) (f : face) : res F :=
  let '(i, j, k) := f in
  let* a := getitem s i in let* b := getitem s j in let* c := getitem s k in
  Ok (a + b + c).
Definition mesh_intersecting_faces (p : plane F) (m : mesh) : res (list face) :=
  let s := map nsign (signed_distance p (m_v m)) in
  let* sums := traverse (face_sign_sum s) (m_f m) in
  Ok (compress (map (fun x => negb (nabs x =? nofZ 3)) sums) (m_f m)).
End Plane.
Arguments mesh F : clear implicits.
