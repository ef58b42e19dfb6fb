(** * Model of blmath/geometry/transform/rigid_transform.py. *)
From Coq Require Import ZArith List Bool.
From Verif Require Import Num Vec NpList MRotation.
Import ListNotations.
Local Open Scope num_scope.

Section Rigid.
Context {F : Type} {N : Num F}.

(** A 2-d array argument: shape (3, n) by its columns, shape (n, 3) by its rows,
    or a shape with no 3 in it. *)
Inductive points_arg := P3N (columns : list (V3 F)) | PN3 (rows : list (V3 F)) | PBad.
(** rigid_transform.py:16-23: the columns of the (3, n) array.  An (n, 3) array is
    transposed unless [n = 3] (it is then read by columns). *)
Definition as_columns (a : points_arg) : res (list (V3 F)) :=
  match a with
  | P3N l => Ok l
  | PN3 [r0; r1; r2] => let t := mtrans (mk3 r0 r1 r2) in Ok [c0 t; c1 t; c2 t]
  | PN3 l => Ok l
  | PBad => Err AssertionError
  end.
(** [a.dot(b.T)] for two (3, n) arrays *)
Definition gram (a b : list (V3 F)) : res (M3 F) :=
  if Nat.eqb (length a) (length b) then
    let e f g := nsum (map2 (fun x y => f x * g y) a b) in
    let row f := mk3 (e f c0) (e f c1) (e f c2) in
    Ok (mk3 (row c0) (row c1) (row c2))
  else Err ValueError.
(** lines 37, 85: [v[:, 2] = -v[:, 2]] *)
Definition flip_third_column (v : M3 F) : M3 F := map3 (fun r => mk3 (c0 r) (c1 r) (- c2 r)) v.

(** rigid_transform.py:1-55 [find_rigid_transform(a, b)]: (R, T).  [svd] stands for
    [np.linalg.svd].  SIMPLIFICATION: [scipy.linalg.det] is the cofactor formula;
    [visualize] is not modelled. *)
Definition find_rigid_transform (svd : svd_t) (a b : points_arg) : res (M3 F * V3 F) :=
  let* a := as_columns a in
  let* b := as_columns b in
  let a_mean := vmean a in
  let b_mean := vmean b in
  let a_centered := map (fun p => vsub p a_mean) a in
  let b_centered := map (fun p => vsub p b_mean) b in
  let* c := gram a_centered b_centered in
  let* (u, s, v) := svd c in
  let v := mtrans v in
  let R := mmul v (mtrans u) in
  let* R := if mdet R <? n0 then
              if (c0 s =? n0) || (c1 s =? n0) || (c2 s =? n0)
              then Ok (mmul (flip_third_column v) (mtrans u))
              else Err ValueError
            else Ok R in
  Ok (R, vsub b_mean (mapply R a_mean)).

(** rigid_transform.py:57-92 [find_rigid_rotation(a, b, allow_scaling)] of (3, n)
    arrays. *)
Definition frobenius (a : list (V3 F)) : F := nsqrt (nsum (map (fun p => vdot p p) a)).
Definition find_rigid_rotation (svd : svd_t) (a b : points_arg) (allow_scaling : bool) : res (M3 F) :=
  match a, b with
  | P3N a, P3N b =>
      let* (a, b) := match a, b with
                     | [p], [q] => let cx := vcross p q in Ok ([p; cx], [q; cx])
                     | [_], _ => Err ValueError
                     | _, _ => Ok (a, b)
                     end in
      let* c := gram a b in
      let* (u, _, v) := svd c in
      let v := mtrans v in
      let R := mmul v (mtrans u) in
      let R := if mdet R <? n0 then mmul (flip_third_column v) (mtrans u) else R in
      if allow_scaling then Ok (mscale (frobenius b / frobenius a) R) else Ok R
  | _, _ => Err AssertionError
  end.
End Rigid.
Arguments points_arg F : clear implicits.
