(** * Model of the Jacobians of blmath/geometry/transform/rodrigues.py.

    The (3, 9) array returned for a vector is a triple: its row [i] as the (3, 3) matrix
    of its nine entries.  The (9, 3) array returned for a matrix is a triple: its column
    [i] as the (3, 3) matrix of its nine entries. *)
From Coq Require Import ZArith List Bool.
From Verif Require Import Num Vec NpList MRotation.
Import ListNotations.
Local Open Scope num_scope.

Section Jacobian.
Context {F : Type} {N : Num F} {T : Trans F}.
Definition jacobian := V3 (M3 F).

(** rodrigues.py:52-56 and 28-30: [d_r_x_], and the Jacobian next to zero *)
Definition d_cross : jacobian :=
  let o := nofZ 1 in let m := nofZ (-1) in
  mk3 (mk3 (mk3 n0 n0 n0) (mk3 n0 n0 m) (mk3 n0 o n0))
      (mk3 (mk3 n0 n0 o) (mk3 n0 n0 n0) (mk3 m n0 n0))
      (mk3 (mk3 n0 m n0) (mk3 o n0 n0) (mk3 n0 n0 n0)).
(** rodrigues.py:47-51 [drrt] *)
Definition d_rrt (r : V3 F) : jacobian :=
  mk3 (mk3 (mk3 (c0 r + c0 r) (c1 r) (c2 r)) (mk3 (c1 r) n0 n0) (mk3 (c2 r) n0 n0))
      (mk3 (mk3 n0 (c0 r) n0) (mk3 (c0 r) (c1 r + c1 r) (c2 r)) (mk3 n0 (c2 r) n0))
      (mk3 (mk3 n0 n0 (c0 r)) (mk3 n0 n0 (c1 r)) (mk3 (c0 r) (c1 r) (c2 r + c2 r))).
(** rodrigues.py:18-64, 126-127 [rodrigues(r, calculate_jacobian=True)[1]] of a vector *)
Definition rodrigues_vec_jac (r : V3 F) : jacobian :=
  let theta := vnorm r in
  if theta <? eps then d_cross
  else
    let c := ncos theta in
    let s := nsin theta in
    let cc := nofZ 1 - c in
    let itheta := if theta =? n0 then nofZ 1 else nofZ 1 / theta in
    let r := map3 (fun x => x * itheta) r in
    let row ri drrt_i d_r_x_i :=
      let a0 := - s * ri in
      let a1 := (s - nofZ 2 * cc * itheta) * ri in
      let a2 := nofZ 1 * cc * itheta in
      let a3 := (c - s * itheta) * ri in
      let a4 := nofZ 1 * s * itheta in
      madd (madd (madd (madd (mscale a0 meye) (mscale a1 (rrt r))) (mscale a2 drrt_i)) (mscale a3 (cross_matrix r)))
           (mscale a4 d_r_x_i) in
    mk3 (row (c0 r) (c0 (d_rrt r)) (c0 d_cross)) (row (c1 r) (c1 (d_rrt r)) (c1 d_cross)) (row (c2 r) (c2 (d_rrt r)) (c2 d_cross)).

(** [np.dot] of two matrices given by their rows; [width] is the number of columns of
    the second one. *)
Definition dot_rows (width : nat) (a b : list (list F)) : list (list F) :=
  map (fun row => map (fun k => nsum (map2 (fun x brow => x * nth k brow n0) row b)) (seq 0 width)) a.
(** [row.reshape((3, 3))] of nine entries *)
Definition reshape33 (l : list F) : M3 F :=
  let x k := nth k l n0 in
  mk3 (mk3 (x 0%nat) (x 1%nat) (x 2%nat)) (mk3 (x 3%nat) (x 4%nat) (x 5%nat)) (mk3 (x 6%nat) (x 7%nat) (x 8%nat)).
(** rodrigues.py:65-74, 89-122, 126-127 [rodrigues(m, calculate_jacobian=True)[1]] of a matrix *)
Definition rodrigues_mat_jac (svd : svd_t) (m : M3 F) : res jacobian :=
  let* (u, _, v) := svd m in
  let r := mmul u v in
  let rx := c1 (c2 r) - c2 (c1 r) in
  let ry := c2 (c0 r) - c0 (c2 r) in
  let rz := c0 (c1 r) - c1 (c0 r) in
  let s := vnorm (mk3 rx ry rz) * nsqrt (nlit 1 4) in
  let c := clip (nofZ (-1)) (nofZ 1) ((mtrace r - nofZ 1) * nlit 1 2) in
  let theta := arccos c in
  let o := nofZ 1 in let mo := nofZ (-1) in
  if s <? nlit 1 100000 then
    if n0 <? c then
      let h := nlit 1 2 in let mh := nlit (-1) 2 in
      Ok (mk3 (mk3 (mk3 n0 n0 n0) (mk3 n0 n0 mh) (mk3 n0 h n0))
              (mk3 (mk3 n0 n0 h) (mk3 n0 n0 n0) (mk3 mh n0 n0))
              (mk3 (mk3 n0 mh n0) (mk3 h n0 n0) (mk3 n0 n0 n0)))
    else Ok (mk3 (mk3 vzero vzero vzero) (mk3 vzero vzero vzero) (mk3 vzero vzero vzero))
  else
    let vth := o / (nofZ 2 * s) in
    let dtheta_dtr := mo / s in
    let dvth_dtheta := - vth * c / s in
    let d1 := nlit 1 2 * dvth_dtheta * dtheta_dtr in
    let d2 := nlit 1 2 * dtheta_dtr in
    let dvardR := [[n0; n0; n0; n0; n0; o; n0; mo; n0];
                   [n0; n0; mo; n0; n0; n0; o; n0; n0];
                   [n0; o; n0; mo; n0; n0; n0; n0; n0];
                   [d1; n0; n0; n0; d1; n0; n0; n0; d1];
                   [d2; n0; n0; n0; d2; n0; n0; n0; d2]] in
    let dvar2dvar := [[vth; n0; n0; rx; n0];
                      [n0; vth; n0; ry; n0];
                      [n0; n0; vth; rz; n0];
                      [n0; n0; n0; n0; o]] in
    let domegadvar2 := [[theta; n0; n0; rx * vth];
                        [n0; theta; n0; ry * vth];
                        [n0; n0; theta; rz * vth]] in
    let jac := dot_rows 9 (dot_rows 5 domegadvar2 dvar2dvar) dvardR in
    let row k := mtrans (reshape33 (nth k jac [])) in
    Ok (mk3 (row 0%nat) (row 1%nat) (row 2%nat)).

(** entry number [k] of a flattened (3, 3) matrix *)
Definition coordinate (k : nat) (m : M3 F) : F :=
  nth k [c0 (c0 m); c1 (c0 m); c2 (c0 m); c0 (c1 m); c1 (c1 m); c2 (c1 m); c0 (c2 m); c1 (c2 m); c2 (c2 m)] n0.
(** rodrigues.py:5-15 the chumpy node [Rodrigues]: value and Jacobian with respect to an
    object ([wrt_rt]: it is [self.rt]).  [cv2_rodrigues] stands for [cv2.Rodrigues] of a
    vector, its second result of shape (3, 9) as above; [.T] makes (9, 3) of it, read here
    as a matrix with one column per coordinate of the vector. *)
Definition node_r (cv2_rodrigues : V3 F -> M3 F * jacobian) (rt : V3 F) : M3 F := fst (cv2_rodrigues rt).
Definition node_dr (cv2_rodrigues : V3 F -> M3 F * jacobian) (rt : V3 F) (wrt_rt : bool) : option (list (V3 F)) :=
  if wrt_rt then
    let j := snd (cv2_rodrigues rt) in
    let column k := mk3 (coordinate k (c0 j)) (coordinate k (c1 j)) (coordinate k (c2 j)) in
    Some (map column (seq 0 9))
  else None.
End Jacobian.
Arguments jacobian F : clear implicits.
