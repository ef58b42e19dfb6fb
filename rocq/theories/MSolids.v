(** * Model of blmath/geometry/primitives/box.py, surface_normals.py and
    shapes.py. *)
From Coq Require Import ZArith List Bool.
From Verif Require Import Num Vec NpList MVx MPlane.
Import ListNotations.
Local Open Scope num_scope.

Section Solids.
Context {F : Type} {N : Num F}.

(** What is passed where a triple is expected: three numbers, or something
    that [as_numeric_array(x, shape=(3,))] refuses with ValueError. *)
Inductive triple_in := Triple (v : V3 F) | NotTriple.
(** numerics/coercion.py:1-46 for shape (3,): entries must be finite. *)
Definition as_triple (a : triple_in) : res (V3 F) :=
  match a with
  | Triple v => if all3 (map3 nfinite v) then Ok v else Err ValueError
  | NotTriple => Err ValueError
  end.

(** box.py:16-17: the two attributes. *)
Record box := mkbox { b_origin : V3 F; b_shape : V3 F }.
(** box.py:8-19 [Box.__init__(origin, shape)]. *)
Definition mk_box (origin shape : triple_in) : res box :=
  let* o := as_triple origin in
  let* s := as_triple shape in
  if any3 (map3 (fun x => x <? n0) s) then Err ValueError else Ok (mkbox o s).
(** [np.min], [np.max] of two numbers that are not NaN *)
Definition nmin2 (a b : F) : F := if b <? a then b else a.
Definition nmax2 (a b : F) : F := if a <? b then b else a.
(** box.py:21-30 [ranges]: for each axis, (lowest, highest). *)
Definition ranges (b : box) : V3 (F * F) :=
  let lo := b_origin b in
  let hi := vadd (b_origin b) (b_shape b) in
  zip3 (fun x y => (nmin2 x y, nmax2 x y)) lo hi.
(** box.py:32-42 [min_x], [min_y], [min_z]. *)
Definition box_min (b : box) : V3 F := mk3 (c0 (b_origin b)) (c1 (b_origin b)) (c2 (b_origin b)).
(** box.py:44-54 [max_x], [max_y], [max_z]. *)
Definition box_max (b : box) : V3 F :=
  mk3 (c0 (b_origin b) + c0 (b_shape b)) (c1 (b_origin b) + c1 (b_shape b)) (c2 (b_origin b) + c2 (b_shape b)).
(** box.py:56-66 [mid_x], [mid_y], [mid_z]. *)
Definition box_mid (b : box) : V3 F :=
  mk3 (c0 (b_origin b) + c0 (b_shape b) / nofZ 2) (c1 (b_origin b) + c1 (b_shape b) / nofZ 2)
      (c2 (b_origin b) + c2 (b_shape b) / nofZ 2).
(** box.py:68-78 [width], [height], [depth]. *)
Definition box_dims (b : box) : V3 F := mk3 (c0 (b_shape b)) (c1 (b_shape b)) (c2 (b_shape b)).
(** box.py:80-82 [center_point]. *)
Definition center_point (b : box) : V3 F := vadd (b_origin b) (vscale (nlit 1 2) (b_shape b)).
(** box.py:84-86 [floor_point]. *)
Definition floor_point (b : box) : V3 F := vadd (b_origin b) (vmul (mk3 (nlit 1 2) n0 (nlit 1 2)) (b_shape b)).
(** box.py:88-90 [volume]. *)
Definition volume (b : box) : F := c0 (b_shape b) * c1 (b_shape b) * c2 (b_shape b).
(** box.py:92-95 [surface_area]: [l, h, w = shape]. *)
Definition surface_area (b : box) : F :=
  let l := c0 (b_shape b) in let h := c1 (b_shape b) in let w := c2 (b_shape b) in
  nofZ 2 * (w * l + h * l + h * w).

(** A triangle: three points. *)
Definition triangle := (V3 F * V3 F * V3 F)%type.
(** surface_normals.py:1-13 [surface_normal] of one triangle, and of a stack. *)
Definition surface_normal1 (t : triangle) (normalize : bool) : V3 F :=
  let '(p1, p2, p3) := t in
  let normal := vcross (vsub p2 p1) (vsub p3 p1) in
  if normalize then normalize1 normal else normal.
Definition surface_normals (ts : list triangle) (normalize : bool) : list (V3 F) :=
  map (fun t => surface_normal1 t normalize) ts.

Definition quad := (nat * nat * nat * nat)%type.
(** shapes.py:4-8 [_maybe_flatten(..., False)]: [vertices[faces]]. *)
Definition flatten (vertices : list (V3 F)) (faces : list face) : res (list triangle) :=
  traverse (fun f : face => let '(i, j, k) := f in
    let* a := getitem vertices i in let* b := getitem vertices j in let* c := getitem vertices k in
    Ok (a, b, c)) faces.
(** shapes.py:22-31: the eight corners. *)
Definition prism_vertices (origin size : V3 F) : list (V3 F) :=
  let lower := [ origin;
                 vadd origin (mk3 (c0 size) n0 n0);
                 vadd origin (mk3 (c0 size) n0 (c2 size));
                 vadd origin (mk3 n0 n0 (c2 size)) ] in
  lower ++ map (fun v => vadd v (mk3 n0 (c1 size) n0)) lower.
(** shapes.py:33-40 *)
Definition prism_quads : list quad :=
  [ (0, 1, 2, 3); (7, 6, 5, 4); (4, 5, 1, 0); (5, 6, 2, 1); (6, 7, 3, 2); (3, 7, 4, 0) ]%nat.
(** shapes.py:11-42 [create_rectangular_prism]; [quads_to_tris] is
    lace.topology's, which is not part of this repository. *)
Definition rectangular_prism (quads_to_tris : list quad -> list face) (origin size : V3 F) : list (V3 F) * list face :=
  (prism_vertices origin size, quads_to_tris prism_quads).
(** shapes.py:45-57 [create_cube]. *)
Definition cube (quads_to_tris : list quad -> list face) (origin : V3 F) (size : F) : list (V3 F) * list face :=
  rectangular_prism quads_to_tris origin (mk3 size size size).
(** shapes.py:74-80 *)
Definition triangular_faces : list face :=
  [ (0, 1, 2); (0, 3, 4); (0, 4, 1); (1, 4, 5); (1, 5, 2); (2, 5, 3); (2, 3, 0); (5, 4, 3) ]%nat.
(** shapes.py:60-82 [create_triangular_prism]. *)
Definition triangular_prism (p1 p2 p3 : V3 F) (height : F) : res (list (V3 F) * list face) :=
  let* base_plane := from_points p1 p2 p3 in
  let up := vscale height (vopp (normal base_plane)) in
  Ok ([p1; p2; p3] ++ map (fun p => vadd p up) [p1; p2; p3], triangular_faces).
(** shapes.py:85-96 [create_horizontal_plane]. *)
Definition horizontal_plane : list (V3 F) * list face :=
  ([ mk3 (nofZ 1) n0 n0; mk3 (nofZ (-1)) n0 n0; mk3 n0 n0 (nofZ 1); mk3 n0 n0 (nofZ (-1)) ],
   [ (0, 1, 2); (3, 1, 0) ]%nat).
End Solids.
Arguments triple_in F : clear implicits.
Arguments box F : clear implicits.
Arguments triangle F : clear implicits.
