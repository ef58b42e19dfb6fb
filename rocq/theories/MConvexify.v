(** * Model of blmath/geometry/convexify.py.

    External numerics as arguments: [pca], [cv2_rodrigues] as in MRotation.v;
    [hull points] stands for [ConvexHull(points).vertices] of an (n, 2) array (or the
    exception it raises); [inv3] for [np.mat(m).I] of a (3, 3) array. *)
From Coq Require Import ZArith List Bool.
From Verif Require Import Num Vec NpList MPlane MSegment MPolyline MRotation.
Import ListNotations.
Local Open Scope num_scope.

Section Convexify.
Context {F : Type} {N : Num F} {T : Trans F}.
Definition hull_t := list (F * F) -> res (list nat).
Definition pca_t := list (V3 F) -> V3 F.

(** convexify.py:36-37: [v[:, dims_to_keep]] *)
Definition keep (dim_to_drop : nat) (p : V3 F) : F * F :=
  match dim_to_drop with
  | 0%nat => (c1 p, c2 p)
  | 1%nat => (c0 p, c2 p)
  | _ => (c0 p, c1 p)
  end.
(** the result: a polyline, or with [want_vertices] a polyline and the indices *)
Definition result := (@polyline F * option (list nat))%type.
Definition returned (p : @polyline F) (want_vertices : bool) (hull_vertices : list nat) : result :=
  (p, if want_vertices then Some hull_vertices else None).
(** convexify.py:7-46 [convexify_planar_curve] with [flatten=False] *)
Definition convexify (pca : pca_t) (hull : hull_t) (p : @polyline F) (want_vertices : bool) (normal : normal_arg F) : res result :=
  match p_v p with
  | None => Err TypeError
  | Some v =>
      if Nat.leb (length v) 1 then Ok (p, None)
      else
        let n := match normal with NNone => estimate_normal pca v | NList n => n | NArray n => n end in
        let* dim_to_drop := argmax [nabs (c0 n); nabs (c1 n); nabs (c2 n)] in
        let* hull_vertices := hull (map (keep dim_to_drop) v) in
        let* hv := take v hull_vertices in
        let* r := init_points (Some hv) (p_closed p) in
        Ok (returned r want_vertices hull_vertices)
  end.
(** convexify.py:48-86 [convexify_and_flatten_planar_curve], reached with [flatten=True] *)
Definition convexify_and_flatten (pca : pca_t) (cv2_rodrigues : V3 F -> M3 F) (inv3 : M3 F -> res (M3 F)) (hull : hull_t)
    (p : @polyline F) (want_vertices : bool) (normal : normal_arg F) : res result :=
  match p_v p with
  | None => Err TypeError
  | Some v =>
      if Nat.leb (length v) 1 then Ok (p, None)
      else
        let* (rRp : list (V3 F) * M3 F * option (V3 F)) := rotate_to_xz_plane pca cv2_rodrigues (Some v) normal in
        let '(rotated, R, p0) := rRp in
        let height := nsum (map c1 rotated) / nofZ (Z.of_nat (length rotated)) in
        let rotated := map (fun q => mk3 (c0 q) height (c2 q)) rotated in
        let projected := map (fun q => (c0 q, c2 q)) rotated in
        let* hull_vertices := hull projected in
        let* rotated_hull := take rotated hull_vertices in
        let* R_inv := inv3 (mtrans R) in
        let inv_rotated := map (fun q => mapply (mtrans R_inv) q) rotated_hull in
        let curve_hull := match p0 with
                          | Some p0 => fst (translation inv_rotated (Some (vopp p0)))
                          | None => inv_rotated
                          end in
        let* r := init_points (Some curve_hull) (p_closed p) in
        Ok (returned r want_vertices hull_vertices)
  end.
(** convexify.py:7,22-23 the entry point *)
Definition convexify_planar_curve (pca : pca_t) (cv2_rodrigues : V3 F -> M3 F) (inv3 : M3 F -> res (M3 F)) (hull : hull_t)
    (p : @polyline F) (flatten want_vertices : bool) (normal : normal_arg F) : res result :=
  if flatten then convexify_and_flatten pca cv2_rodrigues inv3 hull p want_vertices normal
  else convexify pca hull p want_vertices normal.
End Convexify.
