(** * Properties C21 - C27: Plane. *)
From Coq Require Import Reals ZArith List Bool Lra Lia Sorted.
From Verif Require Import Num B64 Vec RVec SpecGeom MVx MPlane VLemmas PVx PPlane PPlane2 PPlaneNan.
Import ListNotations.
Local Open Scope R_scope.

(** C21 *)
Theorem C21_constructor_rejects : forall p n,
  (mk_plane (fin3 p) (fin3 n) = Err ValueError <-> tiny n) /\
  (~ tiny n -> exists pl, mk_plane (fin3 p) (fin3 n) = Ok pl).
Proof. exact construct_rejects. Qed.
Print Assumptions C21_constructor_rejects.
Theorem C21_normal_and_reference : forall p n pl, mk_plane (fin3 p) (fin3 n) = Ok pl ->
  reference_point pl = fin3 p /\ exists u, normal pl = fin3 u /\ rnorm u = 1 /\ n = rscale (rnorm n) u.
Proof. exact construct_spec. Qed.
Print Assumptions C21_normal_and_reference.
Theorem C21_equation : forall p n pl, mk_plane (fin3 p) (fin3 n) = Ok pl ->
  exists A B C D, equation pl = fin4 (mk4 A B C D) /\
    forall x, A * c0 x + B * c1 x + C * c2 x + D = 0 <-> on_plane p n x.
Proof. exact equation_spec. Qed.
Print Assumptions C21_equation.
Theorem C21_from_points : forall p1 p2 p3,
  let c := rcross (rsub p2 p1) (rsub p3 p1) in
  (tiny c -> from_points (fin3 p1) (fin3 p2) (fin3 p3) = Err ValueError) /\
  (~ tiny c -> exists pl u, from_points (fin3 p1) (fin3 p2) (fin3 p3) = Ok pl /\
     mk_plane (fin3 p1) (fin3 c) = Ok pl /\
     on_plane p1 c p1 /\ on_plane p1 c p2 /\ on_plane p1 c p3 /\
     normal pl = fin3 u /\ rnorm u = 1 /\ exists t, 0 < t /\ u = rscale t c).
Proof. exact from_points_spec. Qed.
Print Assumptions C21_from_points.
Theorem C21_from_points_and_vector : forall p1 p2 v,
  let c := rcross (rsub p2 p1) v in
  (tiny c -> from_points_and_vector (fin3 p1) (fin3 p2) (fin3 v) = Err ValueError) /\
  (~ tiny c -> exists pl, from_points_and_vector (fin3 p1) (fin3 p2) (fin3 v) = Ok pl /\
     mk_plane (fin3 p1) (fin3 c) = Ok pl /\ reference_point pl = fin3 p1 /\
     on_plane p1 c p1 /\ on_plane p1 c p2 /\ forall t, on_plane p1 c (radd p2 (rscale t v))).
Proof. exact from_points_and_vector_spec. Qed.
Print Assumptions C21_from_points_and_vector.
Example C21_example : ~ tiny (mk3 0 0 2) /\ tiny (mk3 0 (1 / 1000000000) 0).
Proof.
  unfold tiny. cbn. split.
  - rewrite (Rabs_pos_eq 2); lra.
  - rewrite !Rabs_pos_eq; lra.
Qed.

(** C22 *)
Theorem C22_signed_distance : forall p n pl xs, mk_plane (fin3 p) (fin3 n) = Ok pl ->
  signed_distance pl (map fin3 xs) = map (fun x => Fin (sdist p n x)) xs /\
  distance pl (map fin3 xs) = map (fun x => Fin (Rabs (sdist p n x))) xs.
Proof. exact signed_distance_spec. Qed.
Print Assumptions C22_signed_distance.
(** [sdist] is the Euclidean distance to the plane, positive in front. *)
Theorem C22_is_euclidean_distance : forall p n x, n <> rzero ->
  (exists y, on_plane p n y /\ rdist x y = Rabs (sdist p n x)) /\
  (forall y, on_plane p n y -> Rabs (sdist p n x) <= rdist x y) /\
  (forall t, 0 < t -> on_plane p n x -> 0 < sdist p n (radd x (rscale t n)) /\ sdist p n (rsub x (rscale t n)) < 0).
Proof. exact sdist_is_distance. Qed.
Print Assumptions C22_is_euclidean_distance.
Theorem C22_sign : forall p n pl xs, mk_plane (fin3 p) (fin3 n) = Ok pl ->
  exists ss, sign pl (map fin3 xs) = map Fin ss /\
    Forall2 (fun x s => (0 < sdist p n x /\ s = 1) \/ (sdist p n x = 0 /\ s = 0) \/ (sdist p n x < 0 /\ s = -1)) xs ss.
Proof. exact sign_spec. Qed.
Print Assumptions C22_sign.
Theorem C22_points_in_front : forall p n pl xs, mk_plane (fin3 p) (fin3 n) = Ok pl ->
  points_in_front pl (map fin3 xs) false = Ok (map fin3 (filter (fun x => geb0 (sdist p n x)) xs)) /\
  points_in_front pl (map fin3 xs) true = Ok (map fin3 (filter (fun x => leb0 (sdist p n x)) xs)).
Proof. intros p n pl xs H. split; exact (points_in_front_spec xs _ H). Qed.
Print Assumptions C22_points_in_front.
Theorem C22_cover_and_overlap : forall p n x,
  (geb0 (sdist p n x) || leb0 (sdist p n x) = true) /\
  (n <> rzero -> geb0 (sdist p n x) && leb0 (sdist p n x) = true <-> on_plane p n x).
Proof.
  intros p n x. unfold geb0, leb0. destruct (Rle_dec 0 (sdist p n x)), (Rle_dec (sdist p n x) 0); cbn; split; auto; try lra;
    intros H; rewrite (on_plane_sdist p x H); split; intros; try discriminate; try lra; auto.
Qed.
Print Assumptions C22_cover_and_overlap.
Theorem C22_ret_indices : forall p n pl xs inverted, mk_plane (fin3 p) (fin3 n) = Ok pl ->
  StronglySorted lt (front_indices pl (map fin3 xs) inverted) /\
  forall i, In i (front_indices pl (map fin3 xs) inverted) <->
    exists x, nth_error xs i = Some x /\ if inverted then sdist p n x <= 0 else 0 <= sdist p n x.
Proof. exact front_indices_spec. Qed.
Print Assumptions C22_ret_indices.
Theorem C22_flipped : forall p n pl, mk_plane (fin3 p) (fin3 n) = Ok pl ->
  exists fl u, flipped pl = Ok fl /\ normal pl = fin3 u /\ normal fl = fin3 (rscale (-1) u) /\
    reference_point fl = fin3 p /\
    (forall xs, signed_distance fl (map fin3 xs) = map (fun x => Fin (- sdist p n x)) xs) /\
    (forall xs inv, points_in_front fl (map fin3 xs) inv = points_in_front pl (map fin3 xs) (negb inv)).
Proof. exact flipped_normal. Qed.
Print Assumptions C22_flipped.
Example C22_example : mk_plane (fin3 (mk3 0 0 1)) (fin3 (mk3 0 0 1)) = Ok (mkpl (fin3 (mk3 0 0 1)) (fin3 (mk3 0 0 1))) /\
  sdist (mk3 0 0 1) (mk3 0 0 1) (mk3 5 6 7) = 6.
Proof.
  assert (E : rnorm (mk3 0 0 1) = 1).
  { unfold rnorm, rdot. cbn. transitivity (sqrt 1); [f_equal; ring|apply sqrt_1]. }
  split; [now apply mk_plane_unit|]. unfold sdist. rewrite E. unfold rdot, rsub. cbn. field.
Qed.

(** C23 *)
Theorem C23_project_point : forall p n pl x, mk_plane (fin3 p) (fin3 n) = Ok pl ->
  exists y, project_point pl (fin3 x) = fin3 y /\ on_plane p n y /\ (exists t, rsub x y = rscale t n) /\
    (forall z, on_plane p n z -> rdist x y <= rdist x z) /\
    (forall z, on_plane p n z -> rdist x z <= rdist x y -> z = y) /\
    project_point pl (fin3 y) = fin3 y.
Proof. exact project_spec. Qed.
Print Assumptions C23_project_point.

(** C24: the same for every reference point and orientation. *)
Theorem C24_canonical_point : forall p n pl, mk_plane (fin3 p) (fin3 n) = Ok pl ->
  exists c, canonical_point pl = fin3 c /\ on_plane p n c /\
    (forall z, on_plane p n z -> rdist rzero c <= rdist rzero z) /\
    (forall q m pl', mk_plane (fin3 q) (fin3 m) = Ok pl' ->
       (forall x, on_plane q m x <-> on_plane p n x) -> canonical_point pl' = canonical_point pl).
Proof. exact canonical_spec. Qed.
Print Assumptions C24_canonical_point.

(** C25 *)
Theorem C25_line_xsection : forall p n pl pt ray, mk_plane (fin3 p) (fin3 n) = Ok pl ->
  (line_xsection pl (fin3 pt) (fin3 ray) = None <-> rdot ray n = 0) /\
  (rdot ray n <> 0 -> exists y, line_xsection pl (fin3 pt) (fin3 ray) = Some (fin3 y) /\ on_plane p n y /\
     (exists t, y = radd pt (rscale t ray)) /\
     forall z, on_plane p n z -> (exists t, z = radd pt (rscale t ray)) -> z = y).
Proof. exact line_xsection_spec. Qed.
Print Assumptions C25_line_xsection.
Theorem C25_line_segment_xsection : forall p n pl a b, mk_plane (fin3 p) (fin3 n) = Ok pl ->
  ((exists w, line_segment_xsection pl (fin3 a) (fin3 b) = Some w) <->
     sdist p n a <> sdist p n b /\ ~ (0 < sdist p n a /\ 0 < sdist p n b) /\ ~ (sdist p n a < 0 /\ sdist p n b < 0)) /\
  (forall w, line_segment_xsection pl (fin3 a) (fin3 b) = Some w ->
     exists y, w = fin3 y /\ on_plane p n y /\ on_segment a b y /\
       forall z, on_plane p n z -> on_segment a b z -> z = y).
Proof. exact segment_spec. Qed.
Print Assumptions C25_line_segment_xsection.
(** The array forms, in double precision: every row is what the scalar form
    returns; rows without intersection are marked false (and, for segments,
    filled with NaN). *)
Theorem C25_line_xsections_rows : forall (p : plane b64) pts rays, length pts = length rays ->
  length (fst (line_xsections p pts rays)) = length pts /\ length (snd (line_xsections p pts rays)) = length pts /\
  forall k q r, nth_error pts k = Some q -> nth_error rays k = Some r ->
    match line_xsection p q r with
    | Some y => nth_error (fst (line_xsections p pts rays)) k = Some y /\ nth_error (snd (line_xsections p pts rays)) k = Some true
    | None => nth_error (snd (line_xsections p pts rays)) k = Some false
    end.
Proof. exact (@lxs_rows b64 b64_num). Qed.
Print Assumptions C25_line_xsections_rows.
Theorem C25_line_segment_xsections_rows : forall (p : plane b64) a b, length a = length b ->
  line_segment_xsections p a b =
  (map (fun xy => match line_segment_xsection p (fst xy) (snd xy) with Some w => w | None => vnan end) (combine a b),
   map (fun xy => match line_segment_xsection p (fst xy) (snd xy) with Some w => true | None => false end) (combine a b)).
Proof. exact (@lsxs_rows b64 b64_num). Qed.
Print Assumptions C25_line_segment_xsections_rows.
(** a row without intersection holds NaN in every coordinate, in both array forms, and no
    other value of the operands changes that *)
Theorem C25_missing_rows_are_nan : forall (p : plane b64) pts rays, length pts = length rays ->
  (forall k q r, nth_error pts k = Some q -> nth_error rays k = Some r -> line_xsection p q r = None ->
     exists w, nth_error (fst (line_xsections p pts rays)) k = Some w /\ all_nan w) /\
  (forall k q r, nth_error pts k = Some q -> nth_error rays k = Some r -> line_segment_xsection p q r = None ->
     exists w, nth_error (fst (line_segment_xsections p pts rays)) k = Some w /\ all_nan w).
Proof. exact missing_nan. Qed.
Print Assumptions C25_missing_rows_are_nan.
Example C25_example : sdist (mk3 0 0 0) (mk3 0 0 1) (mk3 1 1 (-1)) = -1 /\ sdist (mk3 0 0 0) (mk3 0 0 1) (mk3 1 1 3) = 3.
Proof.
  assert (E : rnorm (mk3 0 0 1) = 1).
  { unfold rnorm, rdot. cbn. transitivity (sqrt 1); [f_equal; ring|apply sqrt_1]. }
  unfold sdist. rewrite E. unfold rdot, rsub. cbn. split; field.
Qed.

(** C26: [eig] is numpy's eigenvalue routine; its result on the covariance
    matrix is assumed to consist of eigenpairs with independent eigenvectors. *)
Theorem C26_fit_is_least_squares : forall eig ps w Q,
  (2 <= length ps)%nat ->
  eig (covariance (map fin3 ps)) = (fin3 w, finm Q) ->
  eigenpair (rcov ps) (c0 w) (rcol0 Q) -> eigenpair (rcov ps) (c1 w) (rcol1 Q) -> eigenpair (rcov ps) (c2 w) (rcol2 Q) ->
  rdet Q <> 0 ->
  (forall pl, fit_from_points eig (map fin3 ps) = Ok pl ->
     reference_point pl = fin3 (centroid ps) /\ exists u, normal pl = fin3 u /\ rnorm u = 1 /\
       forall p n, n <> rzero -> plane_error (centroid ps) u ps <= plane_error p n ps) /\
  (orthogonal Q -> exists pl, fit_from_points eig (map fin3 ps) = Ok pl).
Proof. exact fit_spec. Qed.
Print Assumptions C26_fit_is_least_squares.
(** The matrix handed to [eig] is the covariance matrix. *)
Theorem C26_covariance : forall ps, (2 <= length ps)%nat -> covariance (map fin3 ps) = finm (rcov ps).
Proof. exact cov_fin. Qed.
Print Assumptions C26_covariance.
(** Non-vacuity: for the four points (+-1,0,0), (0,+-2,0) the identity matrix
    is an orthonormal eigenbasis. *)
Example C26_example : let ps := [mk3 1 0 0; mk3 (-1) 0 0; mk3 0 2 0; mk3 0 (-2) 0] in
  (2 <= length ps)%nat /\ rdet reye <> 0 /\ orthogonal reye /\ eigenpair (rcov ps) (2/3) (rcol0 reye) /\
  eigenpair (rcov ps) (8/3) (rcol1 reye) /\ eigenpair (rcov ps) 0 (rcol2 reye).
Proof.
  cbn. split; [lia|]. split; [vring; lra|]. split; [split; unfold rmmul, reye, rtrans; vunf; cbn [c0 c1 c2]; repeat f_equal; ring|].
  unfold eigenpair, rcov, scatter, centroid, rapply, rscale, rdot, rsub, reye, rcol0, rcol1, rcol2. cbn.
  split; [f_equal; field|]. split; f_equal; field.
Qed.

(** C27 *)
Theorem C27_selected_faces : forall p n pl xs fs, mk_plane (fin3 p) (fin3 n) = Ok pl ->
  Forall (in_range xs) fs ->
  exists keep, mesh_intersecting_faces pl (mkmesh (map fin3 xs) fs) = Ok (filter keep fs) /\
    forall i j k, keep (i, j, k) = true <-> straddles p n (nth i xs rzero) (nth j xs rzero) (nth k xs rzero).
Proof. intros p n pl xs fs H HR. exists (keep_face p n xs). split; [now apply faces_fin|apply keep_face_spec]. Qed.
Print Assumptions C27_selected_faces.
(** An index outside the vertex array raises, whatever the numbers. *)
Theorem C27_bad_index : forall (pl : plane b64) v fs,
  ~ Forall (in_range v) fs -> mesh_intersecting_faces pl (mkmesh v fs) = Err IndexError.
Proof. exact (@faces_bad b64 b64_num). Qed.
Print Assumptions C27_bad_index.
