(** * Properties of rotations (C50-C53, C56) and of translation (C72). *)
From Coq Require Import Reals ZArith List Bool Lra Lia Psatz Ascii.
From Verif Require Import Num XLemmas Vec NpList RVec SpecGeom VLemmas PPlane2 PMat3 MRotation SpecRotation PRotation PRotation2.
Import ListNotations.
Local Open Scope R_scope.

(** ** C50 *)
Theorem C50_rotation_from_up_and_look : forall up look, rcross up look <> rzero ->
  exists m, rotation_from_up_and_look (fin3 up) (fin3 look) = Ok (finm m) /\ rotation m /\
    (exists l, 0 < l /\ rapply m up = rscale l ey) /\
    c0 (rapply m look) = 0 /\ 0 < c2 (rapply m look).
Proof. exact up_look_spec. Qed.
Print Assumptions C50_rotation_from_up_and_look.
(** zero vectors are collinear with everything *)
Theorem C50_refused : forall up look, rcross up look = rzero ->
  rotation_from_up_and_look (fin3 up) (fin3 look) = Err ValueError.
Proof. exact up_look_refused. Qed.
Print Assumptions C50_refused.
Example C50_example : rcross (mk3 0 2 0) (mk3 3 1 (-4)) <> rzero /\ rcross (mk3 1 2 3) (mk3 (-2) (-4) (-6)) = rzero.
Proof. split; [intros E; injection E; intros; lra|unfold rcross, rzero; cbn; f_equal; ring]. Qed.

(** ** C51 *)
(** machine epsilon is 2^-52 *)
Theorem C51_rodrigues_vector : forall r, / 2 ^ 52 <= rnorm r ->
  exists m, rodrigues_vec (fin3 r) = finm m /\ rotation m /\ rapply m r = r /\
    trace m = 1 + 2 * cos (rnorm r) /\ turns_about (rscale (/ rnorm r) r) (rnorm r) m.
Proof.
  intros r H. assert (E : reps = / 2 ^ 52) by (unfold reps; cbn [pow]; field). rewrite <- E in H.
  assert (P : 0 < reps) by (unfold reps; lra).
  assert (NZ : r <> rzero). { intros ->. assert (rnorm rzero = 0) by now apply rnorm_0. lra. }
  pose proof (unit_of NZ) as U. set (k := rscale (/ rnorm r) r) in *.
  assert (ER : r = rscale (rnorm r) k) by (unfold k; rewrite rscale_scale, Rinv_r, rscale_1 by lra; reflexivity).
  exists (axis_rot (rnorm r) k). rewrite ER at 1. rewrite frodrigues_axis by auto. split; [reflexivity|].
  split; [now apply axis_rot_rotation|]. destruct (axis_rot_turns (rnorm r) U) as [T1 T2]. split.
  - rewrite ER at 2. rewrite rapply_scale, T1. now symmetry.
  - split; [now apply axis_rot_trace|]. split; auto.
Qed.
Print Assumptions C51_rodrigues_vector.
Theorem C51_tiny : forall r, rnorm r < / 2 ^ 52 -> rodrigues_vec (fin3 r) = finm reye.
Proof.
  intros r H. assert (E : reps = / 2 ^ 52) by (unfold reps; cbn [pow]; field). rewrite frodrigues_vec.
  destruct (Rlt_dec (rnorm r) reps); [reflexivity|lra].
Qed.
Print Assumptions C51_tiny.
(** the turn about an axis by an angle is unique, so the theorem above pins the matrix *)
Theorem C51_turn_unique : forall k t m m', rdot k k = 1 -> turns_about k t m -> turns_about k t m' -> m = m'.
Proof. intros k t m m'. apply turns_unique. Qed.
Print Assumptions C51_turn_unique.
Example C51_example : / 2 ^ 52 <= rnorm (mk3 1 2 2) /\ turns_about ez (PI / 2) (mk3 (mk3 0 (-1) 0) (mk3 1 0 0) (mk3 0 0 1)).
Proof.
  split.
  - replace (rnorm (mk3 1 2 2)) with 3; [cbn [pow]; lra|]. unfold rnorm, rdot. cbn. symmetry. apply sqrt_lem_1; lra.
  - split; [|intros [x y z] K]; rewrite ?cos_PI2, ?sin_PI2; unfold ez in *; vunf; cbn [c0 c1 c2] in *; f_equal; try ring. assert (z = 0) by lra. subst. ring.
Qed.

(** ** C52: [svd_ok svd R] says that [svd] decomposed this one matrix correctly *)
Theorem C52_rotation_is_turn : forall R0, rotation R0 -> exists k t, rdot k k = 1 /\ 0 <= t <= PI /\ turns_about k t R0.
Proof. intros m M. destruct (rotation_turns M) as (k & t & K & B & T & _). eauto 6. Qed.
Print Assumptions C52_rotation_is_turn.
Theorem C52_as_rotation_matrix : forall svd k t R0, rdot k k = 1 -> 0 <= t <= PI -> turns_about k t R0 -> svd_ok svd R0 ->
  1/100000 <= sin t \/ t = 0 \/ t = PI ->
  as_rotation_matrix svd (RMatrix (finm R0)) = Ok (finm R0).
Proof.
  intros svd k t m K B T S H. pose proof (turns_rotation K T) as M. pose proof (turns_axis_rot K T) as E.
  assert (TR : trace m = 1 + 2 * cos t) by (rewrite E; now apply axis_rot_trace). destruct H as [H|[H|H]].
  - apply as_rotation_far; auto. rewrite TR. replace ((1 + 2 * cos t - 1) / 2) with (cos t) by field. now rewrite acos_cos.
  - apply as_rotation_eye; auto. rewrite TR, H, cos_0. ring.
  - apply as_rotation_half; auto. rewrite TR, H, cos_PI. ring.
Qed.
Print Assumptions C52_as_rotation_matrix.
(** inside the excluded band around the identity the result is the identity, which is close *)
Theorem C52_near_identity : forall svd k t R0, rdot k k = 1 -> 0 <= t < PI / 2 -> turns_about k t R0 -> svd_ok svd R0 ->
  sin t < 1/100000 ->
  as_rotation_matrix svd (RMatrix (finm R0)) = Ok (finm reye) /\ mat_within (2/100000) R0 reye.
Proof.
  intros svd k t m K B T S H. pose proof (turns_rotation K T) as M. pose proof (turns_axis_rot K T) as E.
  assert (TR : trace m = 1 + 2 * cos t) by (rewrite E; now apply axis_rot_trace).
  assert (0 < cos t) by (apply cos_gt_0; lra). apply as_rotation_near; auto; [|lra].
  rewrite TR. replace ((1 + 2 * cos t - 1) / 2) with (cos t) by field. rewrite acos_cos; auto. lra.
Qed.
Print Assumptions C52_near_identity.
(** in every case a rotation comes out *)
Theorem C52_always_rotation : forall svd R0, rotation R0 -> svd_ok svd R0 ->
  exists m, as_rotation_matrix svd (RMatrix (finm R0)) = Ok (finm m) /\ rotation m.
Proof.
  intros svd m M S. unfold as_rotation_matrix. rewrite (rodrigues_mat_rot M S). cbn [mapr].
  destruct (rodrigues_vec_rotation (rlog m)) as (m' & E & M'). exists m'. now rewrite E.
Qed.
Print Assumptions C52_always_rotation.
Theorem C52_vector_rotation : forall svd v, exists m, as_rotation_matrix svd (RVector (fin3 v)) = Ok (finm m) /\ rotation m.
Proof. intros svd v. destruct (rodrigues_vec_rotation v) as (m & E & M). exists m. cbn. now rewrite E. Qed.
Print Assumptions C52_vector_rotation.
Theorem C52_rodrigues_inverse : forall svd r m, rnorm r < PI -> 1/100000 <= sin (rnorm r) ->
  rodrigues_vec (fin3 r) = finm m -> svd_ok svd m -> rodrigues_mat svd (rodrigues_vec (fin3 r)) = Ok (fin3 r).
Proof.
  intros svd r m H S E O. assert (NZ : r <> rzero). { intros ->. assert (Z : rnorm rzero = 0) by now apply rnorm_0. rewrite Z, sin_0 in S. lra. }
  pose proof (rnorm_gt0 r NZ) as P. pose proof (unit_of NZ) as U. set (k := rscale (/ rnorm r) r) in *.
  assert (ER : r = rscale (rnorm r) k) by (unfold k; rewrite rscale_scale, Rinv_r, rscale_1 by lra; reflexivity).
  assert (L : rnorm r >= 1/100000) by (pose proof (sin_le_self (x := rnorm r)); lra).
  assert (F : rodrigues_vec (fin3 r) = finm (axis_rot (rnorm r) k)) by (rewrite ER at 1; apply frodrigues_axis; auto; unfold reps; lra).
  rewrite F in E. apply finm_inj in E. rewrite F, E. rewrite (@rlog_inverse svd (rnorm r) k m); auto; [now rewrite <- ER|lra].
Qed.
Print Assumptions C52_rodrigues_inverse.
(** a matrix that is no rotation can turn into NaN: minus the identity *)
Theorem C52_minus_identity : forall svd u s v, let m := mk3 (mk3 (-1) 0 0) (mk3 0 (-1) 0) (mk3 0 0 (-1)) in
  svd (finm m) = Ok (finm u, fin3 s, finm v) -> svd_of m u s v ->
  as_rotation_matrix svd (RMatrix (finm m)) = Ok (mk3 (mk3 NaN NaN NaN) (mk3 NaN NaN NaN) (mk3 NaN NaN NaN)).
Proof.
  intros svd u s v m E D.
  assert (O : orthogonal m) by (unfold m; split; vunf; cbn [c0 c1 c2]; f_equal; f_equal; ring).
  pose proof (svd_orthogonal O D) as U. rewrite <- U in E |- * . apply as_rotation_minus_eye with s; auto.
Qed.
Print Assumptions C52_minus_identity.
Theorem C52_bad_shape : forall svd, @as_rotation_matrix xr _ _ svd ROther = Err OtherException.
Proof. reflexivity. Qed.
Example C52_example : exists svd : @svd_t xr, forall m, orthogonal m -> svd_ok svd m.
Proof. eexists. apply trivial_svd. Qed.
Example C52_example2 : rdot ez ez = 1 /\ turns_about ez PI (mk3 (mk3 (-1) 0 0) (mk3 0 (-1) 0) (mk3 0 0 1)) /\ 1/100000 <= sin (rnorm (mk3 0 (PI/2) 0)).
Proof.
  split; [unfold rdot, ez; cbn; ring|split].
  - split; [|intros [x y z] K]; rewrite ?cos_PI, ?sin_PI; unfold ez in *; vunf; cbn [c0 c1 c2] in *; f_equal; try ring. assert (z = 0) by lra. subst. ring.
  - replace (rnorm (mk3 0 (PI/2) 0)) with (PI/2); [rewrite sin_PI2; lra|]. unfold rnorm, rdot. cbn [c0 c1 c2]. symmetry. pose proof PI_RGT_0.
    replace (0*0 + PI/2*(PI/2) + 0*0) with (PI/2*(PI/2)) by ring. apply sqrt_square. lra.
Qed.

(** ** C53 *)
Theorem C53_euler : forall xyz order, exists m, euler (map Fin xyz) order false = finm m /\ rotation m /\
  forall v w, turned (combine xyz order) v w <-> w = rapply m v.
Proof.
  intros xyz order. destruct (euler_spec xyz order) as (m & E & M & T). exists m. split; [auto|]. split; [auto|].
  intros v w. split; [|intros ->; auto]. intros H. exact (turned_fun H (T v)).
Qed.
Print Assumptions C53_euler.
Theorem C53_degrees : forall xyz order,
  euler (map Fin xyz) order true = euler (map Fin (map (fun x => x * (PI / 180)) xyz)) order false.
Proof. intros xyz order. rewrite euler_degrees, map_map. reflexivity. Qed.
Print Assumptions C53_degrees.
Example C53_example : turned [(PI / 2, "z"%char); (5, "?"%char); (PI / 2, "x"%char)] (mk3 1 0 0) (mk3 0 0 1).
Proof.
  eapply turned_step; [reflexivity|apply turn_z|]. apply turned_skip; [reflexivity|]. eapply turned_step; [reflexivity|apply turn_x|].
  rewrite cos_PI2, sin_PI2. match goal with |- turned [] ?a _ => assert (E : a = mk3 0 0 1) by (vunf; cbn; f_equal; ring); rewrite E end. constructor.
Qed.

(** ** C56 *)
(** [normal] given as a list, or estimated (the estimate then is the unit vector [n]) *)
Theorem C56_rotate_to_xz_plane : forall cv2 pca ps n arg, cv2_rodrigues_ok cv2 -> rdot n n = 1 -> ps <> [] ->
  arg = NList (fin3 n) \/ arg = NNone /\ estimate_normal pca (map fin3 ps) = fin3 n ->
  exists qs m p0, rotate_to_xz_plane pca cv2 (Some (map fin3 ps)) arg = Ok (map fin3 qs, finm m, option_map fin3 p0) /\
    rotation m /\
    (* the normal goes to +y, unless it is within 1e-5 of the y axis and not on it *)
    (1/100000 <= acos (c1 n) <= PI - 1/100000 \/ n = ey \/ n = rscale (-1) ey -> rapply m n = ey) /\
    (* centring happens exactly when the centroid is more than 1e-5 from the origin *)
    p0 = (if Rlt_dec (1/100000) (rnorm (centroid ps)) then Some (rscale (-1) (centroid ps)) else None) /\
    let off := match p0 with Some p => p | None => rzero end in
    qs = map (fun p => rapply m (radd p off)) ps /\
    (* undoing *)
    map (fun q => rsub (rapply (rtrans m) q) off) qs = ps.
Proof.
  intros cv2 pca ps n arg C U P A. destruct (xz_spec C U P A) as (m & p0 & E & M & H & HP).
  exists (map (fun p => rapply m (radd p (offset p0))) ps), m, p0. split; [exact E|]. split; [exact M|]. split; [|split; [exact HP|split]].
  - intros [Q|[Q|Q]]; apply H; [left; auto| |]; right; rewrite Q; cbn; [left|right]; ring.
  - reflexivity.
  - rewrite map_map. rewrite <- (map_id ps) at 2. apply map_ext. intros p. rewrite rotation_inv_l by apply M. change (match p0 with Some p1 => p1 | None => rzero end) with (offset p0).
    destruct p as [x y z], (offset p0) as [ox oy oz]. unfold radd, rsub. cbn. f_equal; ring.
Qed.
Print Assumptions C56_rotate_to_xz_plane.
Theorem C56_refused : forall pca (cv2 : V3 xr -> M3 xr) arg p ps v,
  rotate_to_xz_plane pca cv2 None arg = Err ValueError /\ rotate_to_xz_plane pca cv2 (Some []) arg = Err ValueError /\
  (* an array given as the normal is refused as well *)
  rotate_to_xz_plane pca cv2 (Some (p :: ps)) (NArray v) = Err ValueError.
Proof.
  intros. split; [reflexivity|]. split; [reflexivity|]. unfold rotate_to_xz_plane. now destruct (nlt _ _).
Qed.
Print Assumptions C56_refused.
(** cv2's formula is blmath's own (C51), which meets the assumption *)
Example C56_example : cv2_rodrigues_ok rodrigues_vec /\ rdot (mk3 (3/5) 0 (4/5)) (mk3 (3/5) 0 (4/5)) = 1 /\ 1/100000 <= acos (c1 (mk3 (3/5) 0 (4/5))) <= PI - 1/100000.
Proof.
  split; [exact rodrigues_vec_ok|]. split; [unfold rdot; cbn; field|]. cbn [c1]. rewrite acos_0. pose proof PI2_3_2. lra.
Qed.

(** ** C72 *)
Theorem C72_translation : forall ps, ps <> [] -> exists qs f, translation (map fin3 ps) None = (map fin3 qs, fin3 f) /\
  centroid qs = rzero /\ f = rscale (-1) (centroid ps) /\ qs = map (fun p => radd p f) ps /\
  translation (map fin3 qs) (Some (fin3 (rscale (-1) f))) = (map fin3 ps, fin3 (rscale (-1) f)).
Proof.
  intros ps H. exists (map (fun p => radd p (rscale (-1) (centroid ps))) ps), (rscale (-1) (centroid ps)).
  split; [now apply translation_none|]. split.
  - rewrite centroid_shift by auto. destruct (centroid ps) as [x y z]. vunf. cbn. f_equal; ring.
  - split; [reflexivity|]. split; [reflexivity|]. rewrite translation_fin. f_equal. f_equal. rewrite map_map.
    transitivity (map (fun p => p) ps); [|apply map_id]. apply map_ext. intros p. destruct p as [x y z], (centroid ps) as [cx cy cz]. vunf. cbn. f_equal; ring.
Qed.
Print Assumptions C72_translation.
Theorem C72_explicit : forall ps f, translation (map fin3 ps) (Some (fin3 f)) = (map fin3 (map (fun p => radd p f) ps), fin3 f).
Proof. exact translation_fin. Qed.
Print Assumptions C72_explicit.
