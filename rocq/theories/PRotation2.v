(** * More proofs about rotations: Euler's theorem, up/look, Euler angles, the
    xz plane, centring. *)
From Coq Require Import Reals ZArith List Bool Lra Lia Psatz Nsatz Ascii.
From Flocq Require Import Core.
From Verif Require Import Num XLemmas Vec NpList RVec SpecGeom VLemmas PPlane2 PMat3 MRotation SpecRotation PRotation.
Import ListNotations.
Local Open Scope R_scope.
Set Implicit Arguments.
Unset Strict Implicit.

(** every rotation is a turn about an axis *)
Lemma rotation_turns m : rotation m ->
  exists k t, rdot k k = 1 /\ 0 <= t <= PI /\ turns_about k t m /\ t = acos ((trace m - 1) / 2).
Proof.
  intros M. set (t := acos ((trace m - 1) / 2)). pose proof (sin_acos_trace M) as [B NS]. fold t in NS.
  assert (BT : 0 <= t <= PI) by apply acos_bound. destruct (Req_dec (sin t) 0) as [Z|Z].
  - assert (C : cos t = (trace m - 1) / 2) by (apply cos_acos; lra).
    assert (CC : cos t = 1 \/ cos t = -1).
    { pose proof (sin2_cos2 t) as E. unfold Rsqr in E. rewrite Z in E. destruct (Rle_dec 0 (cos t)); [left|right]; nra. }
    destruct CC as [C1|C1].
    + exists ex, t. assert (K : rdot ex ex = 1) by (unfold rdot, ex; cbn; ring). split; [auto|]. split; [auto|]. split; [|auto].
      assert (E : m = reye).
      { pose proof (rotation_near_eye M) as E. cbv zeta in E. assert (T : 3 - trace m = 0) by lra. rewrite T in E.
        assert (W : forall i j, coord j (coord i m) = coord j (coord i reye)) by (intros i j; specialize (E i j); nra).
        pose proof (W 0%Z 0%Z). pose proof (W 0%Z 1%Z). pose proof (W 0%Z 2%Z). pose proof (W 1%Z 0%Z). pose proof (W 1%Z 1%Z). pose proof (W 1%Z 2%Z).
        pose proof (W 2%Z 0%Z). pose proof (W 2%Z 1%Z). pose proof (W 2%Z 2%Z). cbn [coord] in *. apply M3_eq; apply V3_eq; auto. }
      rewrite E. split; [apply rapply_eye|]. intros u _. rewrite rapply_eye, C1, Z. destruct u as [x y z]. unfold ex. vunf. cbn [c0 c1 c2]. f_equal; ring.
    + exists (half_axis m), t. assert (T : trace m = -1) by lra.
      assert (H1 : rdot (half_axis m) (half_axis m) = 1) by (rewrite (half_axis_norm M), T; field).
      split; [auto|]. split; [auto|]. split; [|auto].
      assert (E : axis_rot t (half_axis m) = m) by (unfold axis_rot; now apply half_axis_outer).
      rewrite <- E at 2. now apply axis_rot_turns.
  - exists (rscale (/ (2 * sin t)) (raxis m)), t.
    assert (K : rdot (rscale (/ (2 * sin t)) (raxis m)) (rscale (/ (2 * sin t)) (raxis m)) = 1).
    { autorewrite with rdot. rewrite <- rnorm_sq, NS. field. auto. }
    split; [auto|]. split; [auto|]. split; [|auto].
    pose proof (axis_rot_recover M) as E. cbv zeta in E. fold t in E. rewrite <- (E Z) at 2. now apply axis_rot_turns.
Qed.
Lemma turns_axis_rot k t m : rdot k k = 1 -> turns_about k t m -> m = axis_rot t k.
Proof. intros K H. eapply turns_unique; eauto. now apply axis_rot_turns. Qed.

(** ** up and look *)
Lemma up_look_spec up look : rcross up look <> rzero ->
  exists m, rotation_from_up_and_look (fin3 up) (fin3 look) = Ok (finm m) /\ rotation m /\
    (exists l, 0 < l /\ rapply m up = rscale l ey) /\
    c0 (rapply m look) = 0 /\ 0 < c2 (rapply m look).
Proof.
  intros H.
  assert (U : up <> rzero) by (intros ->; apply H; destruct look; vunf; cbn; f_equal; ring).
  assert (L : look <> rzero) by (intros ->; apply H; destruct up; vunf; cbn; f_equal; ring).
  pose proof (rnorm_gt0 up U) as PU. pose proof (rnorm_gt0 look L) as PL.
  set (y := rscale (/ rnorm up) up). assert (Y : rdot y y = 1) by now apply unit_of.
  set (z := rsub look (rscale (rdot look y) y)).
  assert (YZ : rdot y z = 0) by (unfold z; autorewrite with rdot; rewrite Y, (rdot_sym y look); ring).
  assert (EU : up = rscale (rnorm up) y) by (unfold y; rewrite rscale_scale, Rinv_r, rscale_1 by lra; reflexivity).
  assert (ZN : z <> rzero).
  { intros Z. apply H. assert (EL : look = rscale (rdot look y) y).
    { apply rsub_self_0. fold z. now rewrite Z, rdot_zero. }
    rewrite EU, EL. generalize (rnorm up), (rdot (rscale (rdot look y) y) y). clear. intros a b. destruct y as [y0 y1 y2]. vunf. cbn. f_equal; ring. }
  pose proof (rnorm_gt0 z ZN) as PZ. set (z' := rscale (/ rnorm z) z). assert (Z : rdot z' z' = 1) by now apply unit_of.
  assert (YZ' : rdot y z' = 0) by (unfold z'; autorewrite with rdot; rewrite YZ; ring).
  exists (mk3 (rcross y z') y z').
  assert (M : rotation (mk3 (rcross y z') y z')).
  { apply rotation_intro; auto.
    - rewrite lagrange, Y, Z, YZ'. ring.
    - clear. destruct y, z'. vunf. cbn. ring.
    - clear. destruct y, z'. vunf. cbn. ring.
    - rewrite lagrange, Y, Z, YZ'. ring. }
  split; [|split; [exact M|split]].
  - unfold rotation_from_up_and_look. rewrite !fnorm. change (n0 : xr) with (Fin 0). xs. rewrite !Req_bool_false by lra.
    rewrite fdivs by lra. fold y. rewrite fdot, fscale, fsub. fold z. rewrite fnorm. xs. rewrite Req_bool_false by lra.
    rewrite fdivs by lra. fold z'. now rewrite fcross.
  - exists (rnorm up). split; auto. rewrite EU at 1. rewrite rapply_scale. f_equal. unfold rapply. cbn [c0 c1 c2]. unfold ey.
    rewrite Y, (rdot_sym z' y), YZ'. f_equal. clear. destruct y, z'. vunf. cbn. ring.
  - assert (EL : look = radd (rscale (rdot look y) y) (rscale (rnorm z) z')).
    { unfold z'. rewrite rscale_scale, Rinv_r, rscale_1 by lra. unfold z. generalize (rdot look y). clear. intros a. destruct look, y. vunf. cbn. f_equal; ring. }
    split.
    + unfold rapply. cbn [c0]. rewrite EL. autorewrite with rdot.
      replace (rdot (rcross y z') y) with 0 by (clear; destruct y, z'; vunf; cbn; ring).
      replace (rdot (rcross y z') z') with 0 by (clear; destruct y, z'; vunf; cbn; ring). ring.
    + unfold rapply. cbn [c2]. rewrite EL. autorewrite with rdot. rewrite (rdot_sym z' y), YZ', Z. lra.
Qed.
Lemma up_look_refused up look : rcross up look = rzero -> rotation_from_up_and_look (fin3 up) (fin3 look) = Err ValueError.
Proof.
  intros H. unfold rotation_from_up_and_look. rewrite !fnorm. change (n0 : xr) with (Fin 0). xs.
  destruct (Req_bool_spec (rnorm up) 0) as [|U]; [reflexivity|]. destruct (Req_bool_spec (rnorm look) 0) as [|L]; [reflexivity|].
  rewrite fdivs by lra. set (y := rscale (/ rnorm up) up). rewrite fdot, fscale, fsub, fnorm. xs.
  assert (Y : rdot y y = 1). { apply unit_of. intros ->. apply U. now apply rnorm_0. }
  assert (C : rcross y look = rzero).
  { unfold y. generalize (/ rnorm up). clear -H. intros a. destruct up as [u0 u1 u2], look as [l0 l1 l2]. vunf. cbn [c0 c1 c2] in *. injection H as H1 H2 H3. f_equal; nsatz. }
  assert (Z : rsub look (rscale (rdot look y) y) = rzero).
  { apply rdot_self_0. autorewrite with rdot. rewrite Y. pose proof (lagrange y look) as E. rewrite C, rdot_zero, Y in E.
    rewrite (rdot_sym y look) in *. lra. }
  rewrite Z. replace (rnorm rzero) with 0 by (symmetry; now apply rnorm_0). now rewrite Req_bool_true.
Qed.

(** ** Euler angles *)
Lemma turn_x t : turns_about ex t (mk3 (mk3 1 0 0) (mk3 0 (cos t) (- sin t)) (mk3 0 (sin t) (cos t))).
Proof. split; [|intros [x y z] K]; unfold ex in *; vunf; cbn [c0 c1 c2] in *; f_equal; try ring. assert (x = 0) by lra. subst. ring. Qed.
Lemma turn_y t : turns_about ey t (mk3 (mk3 (cos t) 0 (sin t)) (mk3 0 1 0) (mk3 (- sin t) 0 (cos t))).
Proof. split; [|intros [x y z] K]; unfold ey in *; vunf; cbn [c0 c1 c2] in *; f_equal; try ring. assert (y = 0) by lra. subst. ring. Qed.
Lemma turn_z t : turns_about ez t (mk3 (mk3 (cos t) (- sin t) 0) (mk3 (sin t) (cos t) 0) (mk3 0 0 1)).
Proof. split; [|intros [x y z] K]; unfold ez in *; vunf; cbn [c0 c1 c2] in *; f_equal; try ring. assert (z = 0) by lra. subst. ring. Qed.
Lemma turns_rotation k t m : rdot k k = 1 -> turns_about k t m -> rotation m.
Proof. intros K H. rewrite (turns_axis_rot K H). now apply axis_rot_rotation. Qed.
Lemma axis_of_unit a k : axis_of a = Some k -> rdot k k = 1.
Proof.
  unfold axis_of. destruct (Ascii.eqb a "x"); [intros E; injection E as <-; unfold rdot, ex; cbn; ring|].
  destruct (Ascii.eqb a "y"); [intros E; injection E as <-; unfold rdot, ey; cbn; ring|].
  destruct (Ascii.eqb a "z"); [intros E; injection E as <-; unfold rdot, ez; cbn; ring|discriminate].
Qed.
Lemma euler_step_spec r t a :
  match axis_of a with
  | None => euler_step (finm r) (Fin t) a = finm r
  | Some k => exists m, turns_about k t m /\ euler_step (finm r) (Fin t) a = finm (rmmul m r)
  end.
Proof.
  unfold axis_of, euler_step. destruct (Ascii.eqb_spec a "x") as [->|X].
  { exists (mk3 (mk3 1 0 0) (mk3 0 (cos t) (- sin t)) (mk3 0 (sin t) (cos t))). split; [apply turn_x|]. cbn -[mmul finm rmmul]. rewrite <- fmmul. reflexivity. }
  destruct (Ascii.eqb_spec a "y") as [->|Y].
  { exists (mk3 (mk3 (cos t) 0 (sin t)) (mk3 0 1 0) (mk3 (- sin t) 0 (cos t))). split; [apply turn_y|]. cbn -[mmul finm rmmul]. rewrite <- fmmul. reflexivity. }
  destruct (Ascii.eqb_spec a "z") as [->|Z].
  { exists (mk3 (mk3 (cos t) (- sin t) 0) (mk3 (sin t) (cos t) 0) (mk3 0 0 1)). split; [apply turn_z|]. cbn -[mmul finm rmmul]. rewrite <- fmmul. reflexivity. }
  reflexivity.
Qed.
Lemma euler_fold l : forall r0, rotation r0 ->
  exists m, fold_left (fun r ta => euler_step r (fst ta) (snd ta)) (map (fun ta => (Fin (fst ta), snd ta)) l) (finm r0) = finm (rmmul m r0)
    /\ rotation m /\ forall v, turned l v (rapply m v).
Proof.
  induction l as [|[t a] l IH]; intros r0 R0; cbn [map fold_left fst snd].
  - exists reye. rewrite rmmul_eye_l. split; [auto|]. split; [apply rotation_eye|]. intros v. rewrite rapply_eye. constructor.
  - pose proof (euler_step_spec r0 t a) as E. destruct (axis_of a) as [k|] eqn:A.
    + destruct E as (m & M & E). rewrite E. pose proof (turns_rotation (axis_of_unit A) M) as RM.
      destruct (IH (rmmul m r0)) as (m' & E' & R' & T'); [now apply rotation_mul|].
      exists (rmmul m' m). rewrite E', rmmul_assoc. split; [auto|]. split; [now apply rotation_mul|].
      intros v. rewrite rapply_mul. eapply turned_step; eauto.
    + rewrite E. destruct (IH r0 R0) as (m' & E' & R' & T'). exists m'. split; [auto|]. split; [auto|]. intros v. now apply turned_skip.
Qed.
Lemma combine_fin xs (order : list ascii) : combine (map Fin xs) order = map (fun ta => (Fin (fst ta), snd ta)) (combine xs order).
Proof. revert order. induction xs as [|x xs IH]; intros [|o os]; cbn; auto. now rewrite IH. Qed.
Lemma euler_spec xs order : exists m, euler (map Fin xs) order false = finm m /\ rotation m /\
  forall v, turned (combine xs order) v (rapply m v).
Proof.
  unfold euler. rewrite combine_fin. change meye with (finm reye).
  destruct (euler_fold (combine xs order) rotation_eye) as (m & E & M & T). exists m. rewrite E, rmmul_eye_r. auto.
Qed.
Lemma turned_fun l v w w' : turned l v w -> turned l v w' -> w = w'.
Proof.
  intros T. revert w'. induction T as [v|t a l v w A T IH|t a k m l v w A M T IH]; intros w' T'; inversion T'; subst; try congruence; auto.
  match goal with H : axis_of a = Some ?k' |- _ => assert (k' = k) by congruence; subst k' end.
  match goal with H : turns_about k t ?m' |- _ => apply IH; now rewrite (turns_unique (axis_of_unit A) M H) end.
Qed.
Lemma euler_degrees xs order : euler (map Fin xs) order true = euler (map (fun x => Fin (x * (PI / 180))) xs) order false.
Proof.
  unfold euler. f_equal. f_equal. rewrite map_map. apply map_ext. intros x. cbn [npi xr_trans]. xs. rewrite xdivE by lra. now xs.
Qed.

(** ** translation *)
Lemma rsum_shift f (a : R) (ps : list (V3 R)) : rsum (map (fun p => f p + a) ps) = rsum (map f ps) + INR (length ps) * a.
Proof. induction ps as [|p ps IH]; [cbn; ring|]. cbn [map rsum length]. rewrite IH, S_INR. ring. Qed.
Lemma centroid_shift ps t : ps <> [] -> centroid (map (fun p => radd p t) ps) = radd (centroid ps) t.
Proof.
  intros H. pose proof (INR_pos_len H). unfold centroid. rewrite !map_map, map_length. unfold radd at 4. cbn [c0 c1 c2 radd].
  rewrite !rsum_shift. unfold radd. cbn [c0 c1 c2]. f_equal; field; lra.
Qed.
Lemma translation_fin ps f : translation (map fin3 ps) (Some (fin3 f)) = (map fin3 (map (fun p => radd p f) ps), fin3 f).
Proof. unfold translation. rewrite !map_map. reflexivity. Qed.
Lemma translation_none ps : ps <> [] -> translation (map fin3 ps) None =
  (map fin3 (map (fun p => radd p (rscale (-1) (centroid ps))) ps), fin3 (rscale (-1) (centroid ps))).
Proof. intros H. unfold translation. rewrite vmean_fin, fopp by auto. rewrite !map_map. reflexivity. Qed.

(** ** rotate_to_xz_plane *)
Lemma rodrigues_vec_ok : cv2_rodrigues_ok rodrigues_vec.
Proof.
  split.
  - intros v. destruct (rodrigues_vec_rotation v) as (m & E & M). eauto.
  - intros k t K [B|B].
    + exists (axis_rot t k). rewrite frodrigues_axis; auto; [|unfold reps; lra]. split; auto. now apply axis_rot_turns.
    + subst t. exists reye. rewrite rscale_0, frodrigues_vec. replace (rnorm rzero) with 0 by (symmetry; now apply rnorm_0).
      destruct (Rlt_dec 0 reps) as [_|L]; [|unfold reps in L; lra]. split; auto. split; [apply rapply_eye|].
      intros u _. rewrite rapply_eye, cos_0, sin_0. destruct k as [x y z], u as [u0 u1 u2]. vunf. cbn [c0 c1 c2]. f_equal; ring.
Qed.
Definition offset (p0 : option (V3 R)) : V3 R := match p0 with Some p => p | None => rzero end.
Lemma xz_core cv2 n : cv2_rodrigues_ok cv2 -> rdot n n = 1 ->
  let theta := arccos (vdot (mk3 n0 (nofZ 1) n0) (fin3 n)) in
  let a := nabs (nsub theta npi) in
  let b := nabs theta in
  let r_axis := if nlt (if nlt b a then b else a) (nlit 1 100000) then mk3 (nofZ 1) n0 n0 else vcross (fin3 n) (mk3 n0 (nofZ 1) n0) in
  let r_axis := vdivs r_axis (vnorm r_axis) in
  exists m, cv2 (vscale theta r_axis) = finm m /\ rotation m /\
    (1/100000 <= acos (c1 n) <= PI - 1/100000 \/ c1 n = 1 \/ c1 n = -1 -> rapply m n = ey).
Proof.
  intros [C1 C2] U. cbv zeta. change (mk3 n0 (nofZ 1) n0) with (fin3 ey). change (mk3 (nofZ 1) n0 n0) with (fin3 ex).
  rewrite fdot. assert (D : rdot ey n = c1 n) by (destruct n; unfold rdot, ey; cbn; ring). rewrite D.
  assert (B : -1 <= c1 n <= 1) by (destruct n as [x y z]; unfold rdot in U; cbn in *; split; nra).
  assert (AC : arccos (Fin (c1 n)) = Fin (acos (c1 n))).
  { unfold arccos. cbn [nacos xr_trans]. rewrite !Rle_bool_true by lra. reflexivity. }
  rewrite AC. set (t := acos (c1 n)) in *. cbn [npi xr_trans]. xs. assert (BT : 0 <= t <= PI) by apply acos_bound.
  rewrite (Rabs_pos_eq t), (Rabs_left1 (t - PI)) by lra.
  assert (CT : cos t = c1 n) by (apply cos_acos; lra).
  set (near := nlt (if Rlt_bool t (- (t - PI)) then Fin t else Fin (- (t - PI))) (Fin (1 / 100000))).
  assert (NEAR : near = if Rlt_bool t (1/100000) then true else Rlt_bool (PI - t) (1/100000)).
  { unfold near. destruct (Rlt_bool_spec t (- (t - PI))) as [X|X]; xs; destruct (Rlt_bool_spec t (1/100000)) as [Y|Y].
    - reflexivity.
    - symmetry. apply Rlt_bool_false. lra.
    - apply Rlt_bool_true. lra.
    - f_equal. ring. }
  destruct near.
  - assert (N1 : rnorm ex = 1) by (unfold rnorm; replace (rdot ex ex) with 1 by (unfold rdot, ex; cbn; ring); apply sqrt_1).
    rewrite fnorm, N1, fdivs, Rinv_1, rscale_1, fscale by lra.
    destruct (C1 (rscale t ex)) as (m & E & M). exists m. split; [auto|]. split; [auto|]. intros [H|[H|H]].
    + exfalso. destruct (Rlt_bool_spec t (1/100000)); [lra|]. destruct (Rlt_bool_spec (PI - t) (1/100000)); [lra|discriminate].
    + assert (T0 : t = 0) by (unfold t; rewrite H; rewrite <- cos_0; apply acos_cos; lra).
      destruct (C2 ex t) as (m' & E' & _ & M'); [unfold rdot, ex; cbn; ring|auto|]. rewrite E in E'.
      apply finm_inj in E'. subst m'.
      assert (EN : n = ey). { clear -U H. destruct n as [x y z]. unfold rdot in U. cbn in *. subst y. assert (x = 0) by nra. assert (z = 0) by nra. now subst. }
      rewrite EN. rewrite M'; [|unfold rdot, ex, ey; cbn; ring]. rewrite T0, cos_0, sin_0. unfold ex, ey. vunf. cbn. f_equal; ring.
    + assert (T0 : t = PI) by (unfold t; rewrite H; rewrite <- cos_PI; apply acos_cos; lra). pose proof PI2_3_2.
      destruct (C2 ex t) as (m' & E' & _ & M'); [unfold rdot, ex; cbn; ring|left; lra|]. rewrite E in E'.
      apply finm_inj in E'. subst m'.
      assert (EN : n = rscale (-1) ey). { clear -U H. destruct n as [x y z]. unfold rdot in U. cbn in *. subst y. assert (x = 0) by nra. assert (z = 0) by nra. subst. unfold rscale, ey. cbn. f_equal; ring. }
      rewrite EN. rewrite M'; [|unfold rdot, ex, ey, rscale; cbn; ring]. rewrite T0, cos_PI, sin_PI. unfold ex, ey. vunf. cbn. f_equal; ring.
  - assert (FAR : 1/100000 <= t <= PI - 1/100000) by (destruct (Rlt_bool_spec t (1/100000)); [discriminate|]; destruct (Rlt_bool_spec (PI - t) (1/100000)); [discriminate|lra]).
    rewrite fnorm. set (k := rcross n ey).
    assert (KK : rdot k k = sin t * sin t).
    { unfold k. rewrite lagrange, U, (rdot_sym n ey), D, <- CT. replace (rdot ey ey) with 1 by (unfold rdot, ey; cbn; ring). pose proof (sin2_cos2 t) as Q. unfold Rsqr in Q. lra. }
    assert (SP : 0 < sin t) by (apply sin_gt_0; lra).
    assert (NK : rnorm k = sin t) by (unfold rnorm; rewrite KK; apply sqrt_square; lra).
    rewrite NK, fdivs, fscale by lra. set (k' := rscale (/ sin t) k).
    assert (K' : rdot k' k' = 1) by (unfold k'; autorewrite with rdot; rewrite KK; field; lra).
    destruct (C2 k' t K') as (m & E & TA); [left; lra|]. exists m. split; [auto|]. split; [exact (turns_rotation K' TA)|]. intros _.
    destruct TA as [_ TA]. rewrite TA.
    + unfold k', k. rewrite CT. assert (SN : sin t <> 0) by lra. set (s := sin t) in *. clear -U SN. destruct n as [x y z]. unfold ey. vunf. cbn [c0 c1 c2] in *.
      f_equal; field_simplify; auto; lra.
    + unfold k', k. autorewrite with rdot. replace (rdot (rcross n ey) n) with 0 by (clear; destruct n; vunf; cbn; ring). ring.
Qed.
Lemma xz_spec cv2 pca ps n arg : cv2_rodrigues_ok cv2 -> rdot n n = 1 -> ps <> [] ->
  arg = NList (fin3 n) \/ arg = NNone /\ estimate_normal pca (map fin3 ps) = fin3 n ->
  exists m p0, rotate_to_xz_plane pca cv2 (Some (map fin3 ps)) arg =
      Ok (map fin3 (map (fun p => rapply m (radd p (offset p0))) ps), finm m, option_map fin3 p0) /\
    rotation m /\
    (1/100000 <= acos (c1 n) <= PI - 1/100000 \/ c1 n = 1 \/ c1 n = -1 -> rapply m n = ey) /\
    p0 = (if Rlt_dec (1/100000) (rnorm (centroid ps)) then Some (rscale (-1) (centroid ps)) else None).
Proof.
  intros C U P A. destruct (@xz_core cv2 n C U) as (m & E & M & H). cbv zeta in E.
  set (p0 := if Rlt_dec (1/100000) (rnorm (centroid ps)) then Some (rscale (-1) (centroid ps)) else None).
  exists m, p0. split; [|auto]. unfold rotate_to_xz_plane.
  destruct (map fin3 ps) as [|q qs] eqn:Q; [destruct ps; [congruence|discriminate]|]. rewrite <- Q in *.
  assert (TR : (let (translated, p0) := if nlt (nlit 1 100000) (vnorm (vmean (map fin3 ps))) then let (t, p) := translation (map fin3 ps) None in (t, Some p) else (map fin3 ps, None) in (translated, p0))
    = (map fin3 (map (fun p => radd p (offset p0)) ps), option_map fin3 p0)).
  { rewrite vmean_fin, fnorm by auto. xs. unfold p0. destruct (Rlt_dec (1/100000) (rnorm (centroid ps))) as [L|L].
    - rewrite Rlt_bool_true by auto. rewrite translation_none by auto. reflexivity.
    - rewrite Rlt_bool_false by lra. cbn [offset option_map]. f_equal. rewrite map_map. apply map_ext. intros p. f_equal. destruct p as [x y z]. unfold radd, rzero. cbn. f_equal; ring. }
  destruct (if nlt (nlit 1 100000) (vnorm (vmean (map fin3 ps))) then let (t, p) := translation (map fin3 ps) None in (t, Some p) else (map fin3 ps, None)) as [tr pp].
  injection TR as -> ->.
  replace (match arg with NNone => Ok (estimate_normal pca (map fin3 ps)) | NList v => Ok v | NArray _ => Err ValueError end) with (@Ok (V3 xr) (fin3 n)) by (destruct A as [->|[-> ->]]; reflexivity).
  cbn [bindr]. rewrite E. rewrite !map_map. reflexivity.
Qed.

(** ** the matrix -1 *)
Lemma clip_low x : x < -1 -> clip (Fin (-1)) (Fin 1) (Fin x) = Fin (-1).
Proof. intros H. unfold clip. xs. now rewrite Rlt_bool_true. Qed.
Lemma as_rotation_minus_eye svd u s v : svd (finm (rmmul u v)) = Ok (finm u, fin3 s, finm v) ->
  rmmul u v = mk3 (mk3 (-1) 0 0) (mk3 0 (-1) 0) (mk3 0 0 (-1)) ->
  as_rotation_matrix svd (RMatrix (finm (rmmul u v))) = Ok (mk3 (mk3 NaN NaN NaN) (mk3 NaN NaN NaN) (mk3 NaN NaN NaN)).
Proof.
  intros E U. unfold as_rotation_matrix, rodrigues_mat. rewrite E. cbn [bindr]. rewrite fmmul, U.
  unfold mtrace. cbn [c0 c1 c2 finm fin3 map3]. xs.
  change (mk3 (Fin (0 - 0)) (Fin (0 - 0)) (Fin (0 - 0))) with (fin3 (mk3 (0 - 0) (0 - 0) (0 - 0))). rewrite fnorm.
  replace (mk3 (0 - 0) (0 - 0) (0 - 0)) with rzero by (unfold rzero; f_equal; ring). replace (rnorm rzero) with 0 by (symmetry; now apply rnorm_0).
  rewrite (@xsqrtE (1/4)) by lra. xs. rewrite Rmult_0_l. rewrite Rlt_bool_true by lra. cbv zeta.
  rewrite clip_low by lra.
  assert (AC : arccos (Fin (-1)) = Fin (acos (-1))) by (unfold arccos; cbn [nacos xr_trans]; rewrite !Rle_bool_true by lra; reflexivity).
  rewrite AC. change (n0 : xr) with (Fin 0). xs. rewrite (Rlt_bool_false 0 (-1)) by lra.
  replace ((-1 + 1) * (1/2)) with 0 by ring. rewrite !(@xsqrtE 0), sqrt_0 by lra. xs.
  rewrite !(Rlt_bool_false 0 0) by lra. xs. rewrite Rabs_R0, !(Rlt_bool_false 0 0) by lra. cbn [andb].
  change (mk3 (Fin 0) (Fin 0) (Fin 0)) with (fin3 rzero). rewrite fnorm. replace (rnorm rzero) with 0 by (symmetry; now apply rnorm_0).
  rewrite xdiv0. reflexivity.
Qed.
Lemma trivial_svd m : orthogonal m -> svd_ok (fun x => Ok (x, mk3 (Fin 1) (Fin 1) (Fin 1), meye)) m.
Proof.
  intros O. exists m, (mk3 1 1 1), reye. split; [reflexivity|]. split; [auto|]. split; [apply orthogonal_eye|]. cbn [c0 c1 c2]. repeat (split; [lra|]).
  change (rdiag (mk3 1 1 1)) with reye. now rewrite !rmmul_eye_r.
Qed.
