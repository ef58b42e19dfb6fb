(** * Properties C16 - C20: vector shortcuts. *)
From Coq Require Import Reals ZArith List Bool Lra Lia.
From Flocq Require Import BinarySingleNaN.
From Verif Require Import Num B64 Vec RVec MVx VLemmas PVx.
Import ListNotations.
Local Open Scope R_scope.

(** C16 *)
Theorem C16_normalize : forall v, v <> rzero ->
  exists u, normalize (One (fin3 v)) = Ok (One (fin3 u)) /\ rnorm u = 1 /\ v = rscale (rnorm v) u.
Proof.
  intros v H. exists (runit v). cbn [normalize]. rewrite normalize1_fin by auto.
  split; [reflexivity|]. split; [now apply runit_norm|now apply runit_scale].
Qed.
Print Assumptions C16_normalize.
Theorem C16_normalize_stack : forall vs, Forall (fun v => v <> rzero) vs ->
  exists us, normalize (Many (map fin3 vs)) = Ok (Many (map fin3 us)) /\
    Forall2 (fun v u => rnorm u = 1 /\ v = rscale (rnorm v) u) vs us.
Proof. exact normalize_stack_spec. Qed.
Print Assumptions C16_normalize_stack.
Example C16_example : mk3 3 4 0 <> rzero /\ rnorm (mk3 3 4 0) = 5.
Proof.
  split; [intros [= H]; lra|]. unfold rnorm, rdot. cbn.
  replace (3 * 3 + 4 * 4 + 0 * 0) with (5 * 5) by ring. apply sqrt_square. lra.
Qed.
(** The zero vector has no direction: numpy returns NaNs. *)
Theorem C16_normalize_zero : normalize (One (fin3 rzero)) = Ok (One (mk3 NaN NaN NaN)).
Proof. cbn [normalize]. rewrite normalize1_zero. reflexivity. Qed.
Print Assumptions C16_normalize_zero.

Theorem C16_proj_reject_decompose : forall v onto, onto <> rzero ->
  exists p r, proj (One (fin3 v)) (fin3 onto) = Ok (One (fin3 p)) /\
    reject (One (fin3 v)) (fin3 onto) = Ok (One (fin3 r)) /\
    radd p r = v /\ (exists t, p = rscale t onto) /\ rdot r onto = 0.
Proof.
  intros v o H. destruct (decompose v H) as (p&r&E1&E2&H1). exists p, r. cbn [proj reject].
  rewrite E1, E2. auto.
Qed.
Print Assumptions C16_proj_reject_decompose.
Theorem C16_proj_reject_scale_invariant : forall v onto s, onto <> rzero -> s <> 0 ->
  proj (One (fin3 v)) (fin3 (rscale s onto)) = proj (One (fin3 v)) (fin3 onto) /\
  reject (One (fin3 v)) (fin3 (rscale s onto)) = reject (One (fin3 v)) (fin3 onto).
Proof. intros v o s H Hs. destruct (decompose_scale v H Hs) as [E1 E2]. cbn [proj reject]. rewrite E1, E2. auto. Qed.
Print Assumptions C16_proj_reject_scale_invariant.
(** Stacks are processed row by row, at any precision. *)
Theorem C16_stacks_row_by_row : forall (vs : list (V3 b64)) onto,
  (exists ws, proj (Many vs) onto = Ok (Many ws) /\ Forall2 (fun v w => proj (One v) onto = Ok (One w)) vs ws) /\
  (exists ws, reject (Many vs) onto = Ok (Many ws) /\ Forall2 (fun v w => reject (One v) onto = Ok (One w)) vs ws) /\
  (exists ws, normalize (Many vs) = Ok (Many ws) /\ Forall2 (fun v w => normalize (One v) = Ok (One w)) vs ws) /\
  (exists ws, magnitude (Many vs) = Ok (Many1 ws) /\ Forall2 (fun v w => magnitude (One v) = Ok (One1 w)) vs ws).
Proof. exact (@stacks_row_by_row b64 b64_num). Qed.
Print Assumptions C16_stacks_row_by_row.
Theorem C16_sproj_and_magnitude : forall v onto, onto <> rzero ->
  (exists x, sproj1 (fin3 v) (fin3 onto) = Fin x /\ x * rnorm onto = rdot v onto) /\
  magnitude (One (fin3 v)) = Ok (One1 (Fin (rnorm v))).
Proof. intros v o H. split; [now apply sproj_spec|]. cbn [magnitude]. rewrite fnorm. reflexivity. Qed.
Print Assumptions C16_sproj_and_magnitude.

(** C17 *)
Theorem C17_angle : forall v w look, v <> rzero -> w <> rzero ->
  exists a, angle (fin3 v) (fin3 w) look = Ok (Fin a) /\ 0 <= a <= 180 /\
    cos (a * (PI / 180)) * (rnorm v * rnorm w) = rdot v w /\
    angle (fin3 w) (fin3 v) look = Ok (Fin a) /\
    (forall s, 0 < s -> angle (fin3 (rscale s v)) (fin3 w) look = Ok (Fin a)).
Proof. exact angle_spec. Qed.
Print Assumptions C17_angle.
Theorem C17_signed_angle : forall v w look, v <> rzero -> w <> rzero ->
  exists a s t, angle (fin3 v) (fin3 w) (fin3 look) = Ok (Fin a) /\
    signed_angle (fin3 v) (fin3 w) (fin3 look) = Ok (Fin s) /\
    signed_angle (fin3 w) (fin3 v) (fin3 look) = Ok (Fin t) /\
    Rabs s = a /\ -180 <= s <= 180 /\
    (rdot (rcross v w) look > 0 -> s = a /\ t = - s) /\
    (rdot (rcross v w) look < 0 -> s = - a /\ t = - s) /\
    (rdot (rcross v w) look = 0 -> s = a /\ t = a).
Proof. exact signed_angle_spec. Qed.
Print Assumptions C17_signed_angle.
Example C17_example : mk3 1 0 0 <> rzero /\ rdot (rcross (mk3 1 0 0) (mk3 0 1 0)) (mk3 0 0 1) > 0.
Proof. split; [intros [= H]; lra|]. unfold rdot, rcross. cbn. lra. Qed.

(** C18: all doubles, whatever the rounding errors. *)
Theorem C18_acos_argument_in_range : forall v1 v2 : V3 b64,
  is_nan (vdot (normalize1 v1) (normalize1 v2)) = false ->
  nle (nofZ (-1)) (acos_argument v1 v2) = true /\ nle (acos_argument v1 v2) (nofZ 1) = true.
Proof. exact acos_argument_double. Qed.
Print Assumptions C18_acos_argument_in_range.
(** The clamp is needed: for (1,1,1) and itself the unclamped dot product of
    the normalized doubles is not NaN and exceeds one. *)
Example C18_example :
  let v := mk3 (nofZ 1) (nofZ 1) (nofZ 1) : V3 b64 in
  is_nan (vdot (normalize1 v) (normalize1 v)) = false /\ nlt (nofZ 1) (vdot (normalize1 v) (normalize1 v)) = true.
Proof. vm_compute. split; reflexivity. Qed.

(** C19 *)
Theorem C19_pad_unpad_round_trip : forall m : list (V3 b64), unpad (pad_with_ones m) = Ok m.
Proof. exact (@unpad_pad b64 b64_num one_refl_b64). Qed.
Print Assumptions C19_pad_unpad_round_trip.
Theorem C19_pad_appends_ones : forall m : list (V3 b64),
  Forall2 (fun v w => d0 w = c0 v /\ d1 w = c1 v /\ d2 w = c2 v /\ d3 w = nofZ 1) m (pad_with_ones m).
Proof. exact (@pad_appends b64 b64_num). Qed.
Print Assumptions C19_pad_appends_ones.
Theorem C19_unpad_rejects : forall m : list (V4 b64),
  (exists r, In r m /\ neqb (d3 r) (nofZ 1) = false) <-> unpad m = Err ValueError.
Proof. exact (@unpad_reject b64 b64_num). Qed.
Print Assumptions C19_unpad_rejects.
Theorem C19_apply_homogeneous_affine : forall A t ps,
  apply_homogeneous (map fin3 ps) (finm4 (affine A t)) = Ok (map fin3 (map (fun p => radd (rapply A p) t) ps)).
Proof. exact apply_affine. Qed.
Print Assumptions C19_apply_homogeneous_affine.

(** C20 *)
Theorem C20_reject_axis : forall (v : V3 b64) i, (0 <= i < 3)%Z ->
  exists w, reject_axis (One v) i = Ok (One w) /\ reject_axis (One v) (i - 3) = Ok (One w) /\
    coord i w = nofZ 0 /\ forall j, (0 <= j < 3)%Z -> j <> i -> coord j w = coord j v.
Proof. exact (@reject_axis_one b64 b64_num). Qed.
Print Assumptions C20_reject_axis.
Theorem C20_reject_axis_stack : forall (l : list (V3 b64)) i, (0 <= i < 3)%Z ->
  exists ws, reject_axis (Many l) i = Ok (Many ws) /\ Forall2 (fun v w => reject_axis (One v) i = Ok (One w)) l ws.
Proof. intros l i. exact (reject_axis_stack b64_num l). Qed.
Print Assumptions C20_reject_axis_stack.
Theorem C20_reject_axis_range : forall (a : vecs b64) i,
  (~ (-3 <= i < 3)%Z -> exists e, reject_axis a i = Err e) /\
  (~ (0 <= i < 3)%Z -> reject_axis_squash a i = Err ValueError).
Proof. intros a i. split; [exact (@reject_axis_bad b64 b64_num i a)|exact (@squash_bad b64 i a)]. Qed.
Print Assumptions C20_reject_axis_range.
Theorem C20_reject_axis_squash : forall v : V3 b64,
  reject_axis_squash (One v) 0 = Ok (One2 (c1 v, c2 v)) /\
  reject_axis_squash (One v) 1 = Ok (One2 (c0 v, c2 v)) /\
  reject_axis_squash (One v) 2 = Ok (One2 (c0 v, c1 v)) /\
  forall (l : list (V3 b64)) i, (0 <= i < 3)%Z ->
    exists ps, reject_axis_squash (Many l) i = Ok (Many2 ps) /\
      Forall2 (fun v p => reject_axis_squash (One v) i = Ok (One2 p)) l ps.
Proof. exact (@squash_all b64). Qed.
Print Assumptions C20_reject_axis_squash.
Theorem C20_almost_zero : forall v atol,
  almost_zero (fin3 v) (Fin atol) = true <-> Rabs (c0 v) <= atol /\ Rabs (c1 v) <= atol /\ Rabs (c2 v) <= atol.
Proof. exact almost_zero_fin. Qed.
Print Assumptions C20_almost_zero.
Theorem C20_almost_collinear : forall v w atol,
  almost_collinear (fin3 v) (fin3 w) (Fin atol) = true <-> rnorm (rcross v w) <= atol.
Proof. exact almost_collinear_fin. Qed.
Print Assumptions C20_almost_collinear.
(** At tolerance zero this is collinearity. *)
Theorem C20_exactly_collinear : forall v w,
  almost_collinear (fin3 v) (fin3 w) (Fin 0) = true <-> v = rzero \/ exists t, w = rscale t v.
Proof. exact collinear_zero_tol. Qed.
Print Assumptions C20_exactly_collinear.
