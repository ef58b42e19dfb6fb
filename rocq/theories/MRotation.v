(** * Model of blmath/geometry/transform: rodrigues.py, rotation.py and
    translation.py. *)
From Coq Require Import ZArith List Bool Ascii.
From Verif Require Import Num Vec NpList.
Import ListNotations.
Local Open Scope num_scope.

Section Rotation.
Context {F : Type} {N : Num F} {T : Trans F}.

(** ** rodrigues.py *)
(** [np.finfo(np.double).eps] *)
Definition eps : F := nlit 1 4503599627370496.
(** [np.clip(x, lo, hi)]: a NaN stays *)
Definition clip (lo hi x : F) : F := if x <? lo then lo else if hi <? x then hi else x.
(** [np.arccos]: NaN outside [-1, 1] *)
Definition arccos (x : F) : F := match nacos x with Ok y => y | Err _ => n0 / n0 end.
(** rodrigues.py:39 [rrt] and 40-44 [_r_x_] *)
Definition rrt (r : V3 F) : M3 F :=
  mk3 (map3 (fun x => x * c0 r) r) (map3 (fun x => x * c1 r) r) (map3 (fun x => x * c2 r) r).
Definition cross_matrix (r : V3 F) : M3 F :=
  mk3 (mk3 n0 (- c2 r) (c1 r)) (mk3 (c2 r) n0 (- c0 r)) (mk3 (- c1 r) (c0 r) n0).
(** rodrigues.py:22-45 [rodrigues] of a vector (shapes (3,), (1,3), (3,1)),
    without the jacobian. *)
Definition rodrigues_vec (r : V3 F) : M3 F :=
  let theta := vnorm r in
  if theta <? eps then meye
  else
    let c := ncos theta in
    let s := nsin theta in
    let c1 := nofZ 1 - c in
    let itheta := if theta =? n0 then nofZ 1 else nofZ 1 / theta in
    let r := map3 (fun x => x * itheta) r in
    madd (madd (mscale c meye) (mscale c1 (rrt r))) (mscale s (cross_matrix r)).

(** [u, s, v = np.linalg.svd(m)]; may raise LinAlgError *)
Definition svd_t := M3 F -> res (M3 F * V3 F * M3 F).
(** rodrigues.py:65-88, 94-95, 123-124 [rodrigues] of a (3, 3) matrix,
    without the jacobian. *)
Definition rodrigues_mat (svd : svd_t) (m : M3 F) : res (V3 F) :=
  let* (u, _, v) := svd m in
  let r := mmul u v in
  let rx := c1 (c2 r) - c2 (c1 r) in
  let ry := c2 (c0 r) - c0 (c2 r) in
  let rz := c0 (c1 r) - c1 (c0 r) in
  let s := vnorm (mk3 rx ry rz) * nsqrt (nlit 1 4) in
  let c := clip (nofZ (-1)) (nofZ 1) ((mtrace r - nofZ 1) * nlit 1 2) in
  let theta := arccos c in
  if s <? nlit 1 100000 then
    if n0 <? c then Ok vzero
    else
      let half d := nsqrt ((d + nofZ 1) * nlit 1 2) in
      let pos x := if x <? n0 then n0 else x in
      let rx := pos (half (c0 (c0 r))) in
      let ry := pos (half (c1 (c1 r))) in
      let rz := pos (half (c2 (c2 r))) in
      let ry := if c1 (c0 r) <? n0 then - ry else ry in
      let rz := if c2 (c0 r) <? n0 then - rz else rz in
      let rz := if (nabs rx <? nabs ry) && (nabs rx <? nabs rz) &&
                   negb (Bool.eqb (n0 <? c2 (c1 r)) (n0 <? ry * rz)) then - rz else rz in
      let out := mk3 rx ry rz in
      let theta := theta / vnorm out in
      Ok (map3 (fun x => x * theta) out)
  else
    let vth := nofZ 1 / (nofZ 2 * s) * theta in
    Ok (map3 (fun x => x * vth) (mk3 rx ry rz)).

(** argument of [as_rotation_matrix] / [rotate] by shape *)
Inductive rot_arg := RVector (v : V3 F) | RMatrix (m : M3 F) | ROther.
(** rodrigues.py:133-139 [as_rotation_matrix] *)
Definition as_rotation_matrix (svd : svd_t) (r : rot_arg) : res (M3 F) :=
  match r with
  | RVector v => Ok (rodrigues_vec v)
  | RMatrix m => mapr rodrigues_vec (rodrigues_mat svd m)
  | ROther => Err OtherException
  end.

(** ** translation.py:3-25 [translation(points, translation_factor)] *)
Definition translation (points : list (V3 F)) (factor : option (V3 F)) : list (V3 F) * V3 F :=
  let f := match factor with Some f => f | None => vopp (vmean points) end in
  (map (fun p => vadd p f) points, f).

(** ** rotation.py *)
(** rotation.py:3-9 [estimate_normal]; [last_component] stands for
    [PCA(n_components=3).fit(points).components_[-1]]. *)
Definition estimate_normal (last_component : list (V3 F) -> V3 F) (points : list (V3 F)) : V3 F :=
  let n := last_component points in vdivs n (vnorm n).
(** the [normal] argument: None, a non-empty list or tuple, or an ndarray (whose
    truth value is ambiguous: ValueError at line 37) *)
Inductive normal_arg := NNone | NList (v : V3 F) | NArray (v : V3 F).
(** rotation.py:11-55 [rotate_to_xz_plane]; [cv2_rodrigues] stands for
    [cv2.Rodrigues(v)[0]].  [points] is None or an (n, 3) array. *)
Definition rotate_to_xz_plane (pca : list (V3 F) -> V3 F) (cv2_rodrigues : V3 F -> M3 F)
    (points : option (list (V3 F))) (normal : normal_arg) : res (list (V3 F) * M3 F * option (V3 F)) :=
  match points with
  | None | Some [] => Err ValueError
  | Some points =>
      let center := vmean points in
      let '(translated, p0) :=
        if nlit 1 100000 <? vnorm center then let (t, p) := translation points None in (t, Some p)
        else (points, None) in
      let* n := match normal with
                | NNone => Ok (estimate_normal pca points)
                | NList v => Ok v
                | NArray _ => Err ValueError
                end in
      let e_2 := mk3 n0 (nofZ 1) n0 in
      let theta := arccos (vdot e_2 n) in
      let a := nabs (theta - npi) in
      let b := nabs theta in
      let r_axis := if (if b <? a then b else a) <? nlit 1 100000 then mk3 (nofZ 1) n0 n0 else vcross n e_2 in
      let r_axis := vdivs r_axis (vnorm r_axis) in
      let R := cv2_rodrigues (vscale theta r_axis) in
      Ok (map (mapply R) translated, R, p0)
  end.

(** rotation.py:57-81 [rotation_from_up_and_look] *)
Definition rotation_from_up_and_look (up look : V3 F) : res (M3 F) :=
  if vnorm up =? n0 then Err ValueError
  else if vnorm look =? n0 then Err ValueError
  else
    let y := vdivs up (vnorm up) in
    let z := vsub look (vscale (vdot look y) y) in
    if vnorm z =? n0 then Err ValueError
    else
      let z := vdivs z (vnorm z) in
      let x := vcross y z in
      Ok (mk3 x y z).

(** rotation.py:88-98: one step of the loop *)
Definition euler_step (r : M3 F) (theta : F) (axis : ascii) : M3 F :=
  let c := ncos theta in
  let s := nsin theta in
  let r := if Ascii.eqb axis "x" then mmul (mk3 (mk3 (nofZ 1) n0 n0) (mk3 n0 c (- s)) (mk3 n0 s c)) r else r in
  let r := if Ascii.eqb axis "y" then mmul (mk3 (mk3 c n0 s) (mk3 n0 (nofZ 1) n0) (mk3 (- s) n0 c)) r else r in
  if Ascii.eqb axis "z" then mmul (mk3 (mk3 c (- s) n0) (mk3 s c n0) (mk3 n0 n0 (nofZ 1))) r else r.
(** rotation.py:83-98 [euler(xyz, order, units)]; [deg] is [units == 'deg'].
    A single number is a one-element list (line 84-85). *)
Definition euler (xyz : list F) (order : list ascii) (deg : bool) : M3 F :=
  let xyz := if deg then map (fun x => x * (npi / nofZ 180)) xyz else xyz in
  fold_left (fun r ta => euler_step r (fst ta) (snd ta)) (combine xyz order) meye.
End Rotation.
Arguments rot_arg F : clear implicits.
Arguments normal_arg F : clear implicits.
