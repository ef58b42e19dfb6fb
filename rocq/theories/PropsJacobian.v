(** * Properties C80, C81: the Jacobians of rodrigues.

    A (3, 9) or (9, 3) Jacobian is given by three (3, 3) matrices, one for each coordinate
    of the rotation vector (SpecJacobian.v). *)
From Coq Require Import Reals ZArith List Bool Lra Lia Psatz.
From Flocq Require Import Core.
From Verif Require Import Num Vec RVec NpList XLemmas VLemmas SpecRotation SpecJacobian MRotation MJacobian PMat3 PRotation PRotation2 PJacobian.
Import ListNotations.
Local Open Scope R_scope.

(** ** C80.  Along every differentiable curve of rotation vectors, the reported Jacobian
    turns the velocity of the vector into the velocity of the returned matrix. *)
Theorem C80_vector_jacobian : forall (r : R -> V3 R) t d, vec_derivative r t d -> / 2 ^ 52 < rnorm (r t) ->
  exists rot J v, (forall x, rodrigues_vec (fin3 (r x)) = finm (rot x)) /\ rodrigues_vec_jac (fin3 (r t)) = map3 finm J /\
    along J d v /\ mat_derivative rot t v.
Proof.
  intros r t d D H. assert (E : reps = / 2 ^ 52) by (unfold reps; cbn [pow]; field). rewrite <- E in H.
  assert (P : 0 < reps) by (unfold reps; lra).
  eexists. exists (rjac (rnorm (r t)) (rscale (/ rnorm (r t)) (r t))), (rvel (rjac (rnorm (r t)) (rscale (/ rnorm (r t)) (r t))) d).
  split; [intros x; apply frodrigues_vec|]. split; [|split; [apply rvel_along|]].
  - rewrite frodrigues_vec_jac. destruct (Rlt_dec _ _); [lra|reflexivity].
  - assert (P' : 0 < rnorm (r t)) by lra. pose proof (deriv_axis_rot D P') as A.
    destruct (deriv_continuous (deriv_norm D P') (e := rnorm (r t) - reps)) as (e & He & NEAR); [lra|].
    intros i j. refine (deriv_local (e := e) He _ (A i j)). intros x Hx. specialize (NEAR x Hx). apply Rabs_def2 in NEAR.
    destruct (Rlt_dec (rnorm (r x)) reps); [lra|reflexivity].
Qed.
Print Assumptions C80_vector_jacobian.
(** below machine epsilon it is the derivative of the turns at zero: the velocity of the
    turn about the unit vector [k] *)
Theorem C80_at_zero : forall r, rnorm r < / 2 ^ 52 -> exists J, rodrigues_vec_jac (fin3 r) = map3 finm J /\
  forall k rot v, rdot k k = 1 -> (forall x, turns_about k x (rot x)) -> along J k v -> mat_derivative rot 0 v.
Proof.
  intros r H. assert (E : reps = / 2 ^ 52) by (unfold reps; cbn [pow]; field). rewrite <- E in H. exists rd_cross. split.
  - rewrite frodrigues_vec_jac. destruct (Rlt_dec _ _); [reflexivity|lra].
  - intros k rot v K T A. apply along_unique in A. subst v.
    assert (EV : rvel rd_cross k = rcrossm k).
    { destruct k as [x y z]. unfold rvel, rd_cross, rcrossm, rmadd, rmscale, zip3, map3, radd, rscale. cbn [c0 c1 c2]. repeat apply mk3_eq; ring. }
    rewrite EV. intros i j. refine (deriv_ext _ (deriv_axis_turn K i j)). intros x. now rewrite (turns_axis_rot K (T x)).
Qed.
Print Assumptions C80_at_zero.
(** the chumpy node, if [cv2.Rodrigues] computes the same two results: row [3 i + j] of the
    (9, 3) Jacobian belongs to entry (i, j) of the matrix *)
Theorem C80_node : forall cv2, (forall v, cv2 v = (rodrigues_vec v, rodrigues_vec_jac v)) ->
  forall (r : R -> V3 R) t d, vec_derivative r t d -> / 2 ^ 52 < rnorm (r t) ->
  exists rot rows, (forall x, node_r cv2 (fin3 (r x)) = finm (rot x)) /\ node_dr cv2 (fin3 (r t)) true = Some (map fin3 rows) /\
    length rows = 9%nat /\ forall i j, (i < 3)%nat -> (j < 3)%nat ->
      derivable_pt_lim (fun x => coord (Z.of_nat j) (coord (Z.of_nat i) (rot x))) t (rdot (nth (3 * i + j) rows rzero) d).
Proof.
  intros cv2 C r t d D H. destruct (C80_vector_jacobian r t d D H) as (rot & J & v & E1 & E2 & A & M).
  exists rot.
  destruct J as [J0 J1 J2].
  exists (map (fun k => let c (m : M3 R) := nth k [c0 (c0 m); c1 (c0 m); c2 (c0 m); c0 (c1 m); c1 (c1 m); c2 (c1 m); c0 (c2 m); c1 (c2 m); c2 (c2 m)] 0 in mk3 (c J0) (c J1) (c J2)) (seq 0 9)).
  unfold node_r, node_dr. split; [intros x; rewrite C; apply E1|]. split; [|split; [reflexivity|]].
  - rewrite C, E2. reflexivity.
  - intros i j Hi Hj. specialize (M (Z.of_nat i) (Z.of_nat j)). rewrite (A (Z.of_nat i) (Z.of_nat j)) in M.
    refine (deriv_eq _ M). cbn [map3 c0 c1 c2]. unfold rdot.
    assert (I : i = 0%nat \/ i = 1%nat \/ i = 2%nat) by lia. assert (K : j = 0%nat \/ j = 1%nat \/ j = 2%nat) by lia.
    destruct I as [-> |[-> | ->]], K as [-> |[-> | ->]]; cbn [seq map nth Nat.mul Nat.add c0 c1 c2 coord Z.of_nat Pos.of_succ_nat Pos.succ]; ring.
Qed.
Print Assumptions C80_node.
Theorem C80_node_other : forall (cv2 : V3 xr -> M3 xr * jacobian xr) rt, node_dr cv2 rt false = None.
Proof. reflexivity. Qed.
Print Assumptions C80_node_other.
(** the unit-speed spin about the x axis, at a quarter turn *)
Example C80_example : vec_derivative (fun x => mk3 x 0 0) (PI/2) (mk3 1 0 0) /\ / 2 ^ 52 < rnorm (mk3 (PI/2) 0 0).
Proof.
  split.
  - apply vec_deriv3. intros q [<-|[<-|[<-|[]]]]; cbn [c0 c1 c2]; [exact (derivable_pt_lim_id (PI/2))|apply deriv_const|apply deriv_const].
  - pose proof PI_RGT_0. pose proof PI2_3_2. replace (rnorm (mk3 (PI/2) 0 0)) with (PI/2); [cbn [pow]; lra|]. unfold rnorm, rdot. cbn [c0 c1 c2]. symmetry.
    replace (PI/2*(PI/2) + 0*0 + 0*0) with (PI/2*(PI/2)) by ring. apply sqrt_square. lra.
Qed.

(** ** C81.  Along every differentiable curve of rotation matrices, the Jacobian reported at
    a rotation by the angle [a] turns the velocity of the matrix into that of the vector. *)
Theorem C81_matrix_jacobian : forall svd (Q : R -> M3 R) t D, (forall x, rotation (Q x) /\ svd_ok svd (Q x)) -> mat_derivative Q t D ->
  forall k a, rdot k k = 1 -> 0 <= a <= PI -> turns_about k a (Q t) -> 1/100000 < sin a ->
  exists w J, (forall x, rodrigues_mat svd (finm (Q x)) = Ok (fin3 (w x))) /\ rodrigues_mat_jac svd (finm (Q t)) = Ok (map3 finm J) /\
    vec_derivative w t (across J D).
Proof.
  intros svd Q t D RT MD k a K B T S. exists (fun x => rlog (Q x)), (rlog_jac (Q t)).
  split; [intros x; apply rodrigues_mat_rot; apply RT|]. split; [apply rodrigues_mat_jac_rot; apply RT|].
  apply deriv_rlog; auto; [intros x; apply RT|]. rewrite (turns_axis_rot K T), (axis_rot_trace _ K).
  replace ((1 + 2 * cos a - 1) / 2) with (cos a) by field. rewrite acos_cos; auto.
Qed.
Print Assumptions C81_matrix_jacobian.
(** where the two Jacobians meet they are inverse to each other *)
Theorem C81_inverse : forall svd r, (forall m, rotation m -> svd_ok svd m) -> rnorm r < PI -> 1/100000 < sin (rnorm r) ->
  exists J K, rodrigues_vec_jac (fin3 r) = map3 finm J /\ rodrigues_mat_jac svd (rodrigues_vec (fin3 r)) = Ok (map3 finm K) /\
    forall d v, along J d v -> across K v = d.
Proof.
  intros svd r S B H. assert (NZ : r <> rzero). { intros ->. assert (Z : rnorm rzero = 0) by now apply rnorm_0. rewrite Z, sin_0 in H. lra. }
  pose proof (rnorm_gt0 r NZ) as P. assert (LE : 1/100000 < rnorm r) by (pose proof (sin_le_self (x := rnorm r)); lra).
  set (n := rnorm r) in *. set (m := axis_rot n (rscale (/ n) r)).
  assert (RM : forall x, rodrigues_vec (fin3 x) = finm (if Rlt_dec (rnorm x) reps then reye else axis_rot (rnorm x) (rscale (/ rnorm x) x))) by (intros; apply frodrigues_vec).
  assert (REPS : 0 < reps < 1/100000) by (unfold reps; lra).
  assert (M : rodrigues_vec (fin3 r) = finm m). { rewrite RM. fold n. destruct (Rlt_dec n reps); [lra|reflexivity]. }
  assert (RT : rotation m) by (apply axis_rot_rotation, unit_of, NZ).
  exists (rjac n (rscale (/ n) r)), (rlog_jac m). split.
  { rewrite frodrigues_vec_jac. fold n. destruct (Rlt_dec n reps); [lra|reflexivity]. }
  split; [rewrite M; apply rodrigues_mat_jac_rot; auto|]. intros d v A. apply along_unique in A. subst v.
  set (c := fun x : R => radd r (rscale x d)).
  assert (DC : vec_derivative c 0 d).
  { assert (DX := derivable_pt_lim_id 0). change (derivable_pt_lim (fun x => x) 0 1) in DX.
    apply vec_deriv3. intros q [<-|[<-|[<-|[]]]]; unfold c, radd, rscale; cbn [c0 c1 c2];
    (eapply deriv_eq; [|exact (deriv_plus (deriv_const _ 0) (deriv_mult DX (deriv_const _ 0)))]); cbv beta; ring. }
  assert (C0 : c 0 = r) by (unfold c, radd, rscale; destruct r as [x y z]; cbn [c0 c1 c2]; f_equal; ring).
  assert (N0 : rnorm (c 0) = n) by now rewrite C0.
  set (Q := fun x => if Rlt_dec (rnorm (c x)) reps then reye else axis_rot (rnorm (c x)) (rscale (/ rnorm (c x)) (c x))).
  assert (QR : forall x, rotation (Q x)).
  { intros x. destruct (rodrigues_vec_rotation (c x)) as (m' & E & R'). rewrite RM in E. apply finm_inj in E. unfold Q. now rewrite E. }
  assert (Q0 : Q 0 = m). { unfold Q. rewrite N0, C0. destruct (Rlt_dec n reps); [lra|reflexivity]. }
  assert (DN := deriv_norm DC (ltac:(rewrite N0; exact P))).
  destruct (deriv_continuous DN (e := Rmin (n - reps) (PI - n))) as (e1 & H1 & NEAR1); [apply Rmin_pos; lra|].
  assert (DSN := deriv_sin DN). destruct (deriv_continuous DSN (e := sin n - 1/100000)) as (e2 & H2 & NEAR2); [lra|]. cbv beta in NEAR2.
  rewrite N0 in NEAR1, NEAR2.
  assert (MQ : mat_derivative Q 0 (rvel (rjac n (rscale (/ n) r)) d)).
  { assert (A := deriv_axis_rot DC (ltac:(rewrite N0; exact P))). rewrite N0, C0 in A.
    intros i j. refine (deriv_local (e := e1) H1 _ (A i j)). intros x Hx. specialize (NEAR1 x Hx). apply Rabs_def2 in NEAR1.
    pose proof (Rmin_l (n - reps) (PI - n)). unfold Q. destruct (Rlt_dec (rnorm (c x)) reps); [lra|reflexivity]. }
  assert (L := deriv_rlog QR MQ). rewrite Q0 in L.
  assert (TR : (trace m - 1) / 2 = cos n). { unfold m. rewrite (axis_rot_trace _ (unit_of NZ)). field. }
  rewrite TR in L. rewrite acos_cos in L by lra. specialize (L H).
  assert (W : vec_derivative (fun x => rlog (Q x)) 0 d).
  { intros i. assert (HE : 0 < Rmin e1 e2) by now apply Rmin_pos. refine (deriv_local (e := Rmin e1 e2) HE _ (DC i)). intros x Hx.
    pose proof (Rmin_l e1 e2). pose proof (Rmin_r e1 e2). specialize (NEAR1 x ltac:(lra)). specialize (NEAR2 x ltac:(lra)).
    apply Rabs_def2 in NEAR1, NEAR2. pose proof (Rmin_l (n - reps) (PI - n)). pose proof (Rmin_r (n - reps) (PI - n)). f_equal.
    assert (NX : c x <> rzero). { intros Z. rewrite Z in NEAR1. assert (Z' : rnorm rzero = 0) by now apply rnorm_0. lra. }
    pose proof (unit_of NX) as U. assert (EQ : Q x = axis_rot (rnorm (c x)) (rscale (/ rnorm (c x)) (c x))) by (unfold Q; destruct (Rlt_dec _ _); [lra|reflexivity]).
    pose proof (rlog_inverse (svd := svd) (th := rnorm (c x)) U (ltac:(lra)) (ltac:(lra)) EQ (S _ (QR x))) as V.
    rewrite (rodrigues_mat_rot (QR x) (S _ (QR x))) in V. 
    assert (X : rscale (rnorm (c x)) (rscale (/ rnorm (c x)) (c x)) = c x) by (rewrite rscale_scale, Rinv_r, rscale_1; [reflexivity|lra]).
    rewrite X in V. assert (V' := f_equal (fun o => match o with Ok w => w | Err _ => fin3 rzero end) V). symmetry. now apply fin3_inj. }
  destruct (across (rlog_jac m) _) as [a0 a1 a2] eqn:EA. destruct d as [d0 d1 d2].
  f_equal; [exact (uniqueness_limite _ _ _ _ (L 0%Z) (W 0%Z))|exact (uniqueness_limite _ _ _ _ (L 1%Z) (W 1%Z))|exact (uniqueness_limite _ _ _ _ (L 2%Z) (W 2%Z))].
Qed.
Print Assumptions C81_inverse.
(** near the identity it is the derivative at the identity: turning about the unit vector
    [k] has the rotation vector [x k], whose velocity is [k] *)
Theorem C81_near_identity : forall svd m k a, rdot k k = 1 -> 0 <= a < PI / 2 -> turns_about k a m -> sin a < 1/100000 -> svd_ok svd m ->
  exists J, rodrigues_mat_jac svd (finm m) = Ok (map3 finm J) /\
  forall k' rot v, rdot k' k' = 1 -> (forall x, turns_about k' x (rot x)) -> mat_derivative rot 0 v -> across J v = k'.
Proof.
  intros svd m k a K B T S O. pose proof (turns_rotation K T) as M. exists (rlog_jac m). split; [now apply rodrigues_mat_jac_rot|].
  assert (EJ : rlog_jac m = map3 (rmscale (1/2)) rd_cross).
  { unfold rlog_jac. rewrite (turns_axis_rot K T), (axis_rot_trace _ K). replace ((1 + 2 * cos a - 1) / 2) with (cos a) by field.
    rewrite acos_cos by lra. destruct (Rlt_dec _ _); [|lra]. assert (0 < cos a) by (apply cos_gt_0; lra). destruct (Rlt_dec _ _); [reflexivity|lra]. }
  intros k' rot v K' T' D. assert (E : v = rcrossm k').
  { assert (D' : mat_derivative rot 0 (rcrossm k')).
    { intros i j. refine (deriv_ext _ (deriv_axis_turn K' i j)). intros x. now rewrite (turns_axis_rot K' (T' x)). }
    destruct v as [[a0 a1 a2] [b0 b1 b2] [e0 e1 e2]]. pose proof (fun i j => uniqueness_limite _ _ _ _ (D i j) (D' i j)) as U.
    unfold rcrossm in *. repeat apply mk3_eq; [exact (U 0 0)%Z|exact (U 0 1)%Z|exact (U 0 2)%Z|exact (U 1 0)%Z|exact (U 1 1)%Z|exact (U 1 2)%Z|exact (U 2 0)%Z|exact (U 2 1)%Z|exact (U 2 2)%Z]. }
  subst v. rewrite EJ. destruct k' as [x y z]. unfold across, pairing, rmscale, rd_cross, rcrossm, rscale, rdot, map3. cbn [c0 c1 c2]. f_equal; field.
Qed.
Print Assumptions C81_near_identity.
(** next to a half turn, where the rotation vector jumps, the Jacobian is all zeros *)
Theorem C81_half_turn : forall svd m k a, rdot k k = 1 -> PI / 2 <= a <= PI -> turns_about k a m -> sin a < 1/100000 -> svd_ok svd m ->
  exists J, rodrigues_mat_jac svd (finm m) = Ok (map3 finm J) /\ forall v, across J v = rzero.
Proof.
  intros svd m k a K B T S O. pose proof (turns_rotation K T) as M. exists (rlog_jac m). split; [now apply rodrigues_mat_jac_rot|].
  assert (EJ : rlog_jac m = map3 (rmscale 0) rd_cross).
  { pose proof PI_RGT_0. unfold rlog_jac. rewrite (turns_axis_rot K T), (axis_rot_trace _ K). replace ((1 + 2 * cos a - 1) / 2) with (cos a) by field.
    rewrite acos_cos by lra. destruct (Rlt_dec _ _); [|lra]. assert (cos a <= 0) by (apply cos_le_0; lra). destruct (Rlt_dec _ _); [lra|reflexivity]. }
  intros [[a0 a1 a2] [b0 b1 b2] [e0 e1 e2]]. rewrite EJ. unfold across, pairing, rmscale, rd_cross, rzero, rscale, rdot, map3. cbn [c0 c1 c2]. f_equal; field.
Qed.
Print Assumptions C81_half_turn.
(** the turns about the z axis, at a quarter turn *)
Example C81_example : exists svd : @svd_t xr, (forall x, rotation (axis_rot x ez) /\ svd_ok svd (axis_rot x ez)) /\
  turns_about ez (PI/2) (axis_rot (PI/2) ez) /\ 1/100000 < sin (PI/2).
Proof.
  assert (K : rdot ez ez = 1) by (unfold rdot, ez; cbn; ring). destruct (ex_intro (fun s => forall m, orthogonal m -> svd_ok s m) _ trivial_svd) as [svd S].
  exists svd. split; [|split].
  - intros x. split; [now apply axis_rot_rotation|]. apply S. now apply axis_rot_rotation.
  - now apply axis_rot_turns.
  - rewrite sin_PI2. lra.
Qed.
