(** * Properties C144-C147: intersection of lines in space, barycentric coordinates and boxes in double precision. *)
From Coq Require Import Reals ZArith List Bool Lra Lia Psatz.
From Flocq Require Import Core.
From Verif Require Import Num B64 BLemmas Vec RVec VLemmas SpecGeom MVx MPlane MSolids MSegment SpecDouble SpecTransD PErr PNormD PCrossD PLineD PBaryD PBoxD PSolids PropsDouble PropsDouble7.
Import ListNotations.
Local Open Scope R_scope.

(** ** C144.  line_intersect3 decides on which side of p0 the intersection lies by comparing two computed unit vectors
    for equality.  For doubles they can differ in the last place although they point the same way, and the result is the
    mirror image of the intersection: the lines through (0, -1, -1), (-1, -1, 0) and (-1, 1, 0), (0, 2, -1) meet in
    (-3, -1, 2); line_intersect3 returns a point with x > 2. *)
Theorem C144_mirrored_refuted : let p0 := int3 0 (-1) (-1) in let q0 := int3 (-1) (-1) 0 in let p1 := int3 (-1) 1 0 in let q1 := int3 0 2 (-1) in
  let x := mk3 (-3) (-1) 2 in
  on_line (Rval3 p0) (Rval3 q0) x /\ on_line (Rval3 p1) (Rval3 q1) x /\ rcross (rsub (Rval3 p1) (Rval3 q1)) (rsub (Rval3 p0) (Rval3 q0)) <> rzero /\
  ~ on_line (Rval3 p1) (Rval3 q1) (Rval3 p0) /\
  exists r, line_intersect3 p0 q0 p1 q1 = Some r /\ bfin (c0 r) = true /\ 5 <= rdist (Rval3 r) x.
Proof.
  intros p0 q0 p1 q1 x. destruct (@int3_val 0 (-1) (-1)) as [_ V1]; try lia. destruct (@int3_val (-1) (-1) 0) as [_ V2]; try lia. destruct (@int3_val (-1) 1 0) as [_ V3]; try lia. destruct (@int3_val 0 2 (-1)) as [_ V4]; try lia.
  change (Rval3 p0) with (Rval3 (int3 0 (-1) (-1))). change (Rval3 q0) with (Rval3 (int3 (-1) (-1) 0)). change (Rval3 p1) with (Rval3 (int3 (-1) 1 0)). change (Rval3 q1) with (Rval3 (int3 0 2 (-1))).
  rewrite V1, V2, V3, V4. unfold x. split; [exists 3; unfold lerp, radd, rscale, rsub; cbn; f_equal; lra|]. split; [exists (-2); unfold lerp, radd, rscale, rsub; cbn; f_equal; lra|].
  split; [unfold rcross, rsub, rzero; cbn; intros [=]; lra|]. split; [intros [t H]; unfold lerp, radd, rscale, rsub in H; cbn in H; injection H; intros; lra|].
  assert (E : match line_intersect3 p0 q0 p1 q1 with Some r => bfin (c0 r) && nlt (nofZ 2) (c0 r) | None => false end = true) by (vm_compute; reflexivity).
  destruct (line_intersect3 p0 q0 p1 q1) as [r|]; [|discriminate E]. exists r. split; [reflexivity|]. apply andb_prop in E. destruct E as [F L]. split; [exact F|].
  destruct (int_val (z := 2)) as [F2 V]; [lia|]. rewrite blt_spec in L by auto. rewrite V in L. revert L. case Rlt_bool_spec; [|discriminate]. intros L _.
  destruct (comp_le (rsub (Rval3 r) (mk3 (-3) (-1) 2))) as (C & _). unfold rdist. apply Rle_trans with (2 := C). unfold rsub, Rval3, map3. cbn [c0 c1 c2]. rewrite Rabs_pos_eq; lra.
Qed.
Print Assumptions C144_mirrored_refuted.

(** ** C145.  What line_intersect3 does return for two lines of doubles that meet in [x], away from parallel and from
    [p0] lying on the second line: [x] or its mirror image in [p0], to within a bound that grows with the condition of the pair
    of lines; and [x] itself wherever [p0] lies between [q0] and [x]. *)
Definition skew_enough (E M : R) (p0 q0 p1 q1 : V3 b64) : Prop :=
  let e := rsub (Rval3 p0) (Rval3 q0) in let f := rsub (Rval3 p1) (Rval3 q1) in let g := rsub (Rval3 p0) (Rval3 p1) in
  ordinary_edge E /\ ordinary_edge M /\ within M p0 /\ fin3b q0 = true /\ fin3b p1 = true /\ fin3b q1 = true /\
  coords_le E e /\ coords_le E f /\ coords_le E g /\
  bpow radix2 (-20) * (E * E) <= rnorm (rcross f g) /\ bpow radix2 (-20) * (E * E) <= rnorm (rcross f e).
Definition line3_error (E M : R) (p0 q0 p1 q1 : V3 b64) : R :=
  let e := rsub (Rval3 p0) (Rval3 q0) in let f := rsub (Rval3 p1) (Rval3 q1) in let g := rsub (Rval3 p0) (Rval3 p1) in
  68 * u * (E * E / rnorm (rcross f e)) * (1 + rnorm (rcross f g) / rnorm (rcross f e)) * E + 2 * u * M.
Lemma line3_all E M p0 q0 p1 q1 x a : skew_enough E M p0 q0 p1 q1 -> x = lerp a (Rval3 p0) (Rval3 q0) -> on_line (Rval3 p1) (Rval3 q1) x ->
  exists r, line_intersect3 p0 q0 p1 q1 = Some r /\
    (close3 (line3_error E M p0 q0 p1 q1) r x \/ 0 < a /\ close3 (line3_error E M p0 q0 p1 q1) r (rsub (rscale 2 (Rval3 p0)) x)).
Proof.
  intros (HE & HM & W & F1 & F2 & F3 & He & Hf & Hg & LH & LK) Hx Hs.
  replace (line3_error E M p0 q0 p1 q1) with (let e := rsub (Rval3 p0) (Rval3 q0) in let f := rsub (Rval3 p1) (Rval3 q1) in let g := rsub (Rval3 p0) (Rval3 p1) in
    68 * (eps * (E * E) / rnorm (rcross f e)) * (1 + rnorm (rcross f g) / rnorm (rcross f e)) * E + 2 * (eps * M)) by (unfold line3_error, Rdiv; cbn zeta; change u with eps; ring).
  exact (@line3_ap E M p0 q0 p1 q1 x HE HM W F1 F2 F3 He Hf Hg LH LK a Hx Hs).
Qed.
Theorem C145_up_to_mirror : forall E M (p0 q0 p1 q1 : V3 b64) x, skew_enough E M p0 q0 p1 q1 ->
  on_line (Rval3 p0) (Rval3 q0) x -> on_line (Rval3 p1) (Rval3 q1) x ->
  exists r, line_intersect3 p0 q0 p1 q1 = Some r /\
    (close3 (line3_error E M p0 q0 p1 q1) r x \/ close3 (line3_error E M p0 q0 p1 q1) r (rsub (rscale 2 (Rval3 p0)) x)).
Proof. intros E M p0 q0 p1 q1 x H [a Hx] Hs. destruct (line3_all E M p0 q0 p1 q1 x a H Hx Hs) as (r & R & [C|[_ C]]); exists r; auto. Qed.
Print Assumptions C145_up_to_mirror.
Theorem C145_beyond_first_point : forall E M (p0 q0 p1 q1 : V3 b64) x t, skew_enough E M p0 q0 p1 q1 ->
  0 <= t -> x = radd (Rval3 p0) (rscale t (rsub (Rval3 p0) (Rval3 q0))) -> on_line (Rval3 p1) (Rval3 q1) x ->
  exists r, line_intersect3 p0 q0 p1 q1 = Some r /\ close3 (line3_error E M p0 q0 p1 q1) r x.
Proof.
  intros E M p0 q0 p1 q1 x t H Ht Hx Hs. assert (Hx' : x = lerp (- t) (Rval3 p0) (Rval3 q0)) by (rewrite Hx; unfold lerp, radd, rscale, rsub; cbn [c0 c1 c2]; f_equal; ring).
  destruct (line3_all E M p0 q0 p1 q1 x (- t) H Hx' Hs) as (r & R & [C|[N _]]); [exists r; auto|lra].
Qed.
Print Assumptions C145_beyond_first_point.
Lemma edge16 : ordinary_edge 16.
Proof. unfold ordinary_edge. change 16 with (bpow radix2 4). split; apply bpow_le; lia. Qed.
(** both cases occur: the pair of lines of C144, where the mirror image is returned, and the same pair with other points on the first line. *)
Example C145_example : let p0 := int3 0 (-1) (-1) in let q0 := int3 (-1) (-1) 0 in let p1 := int3 (-1) 1 0 in let q1 := int3 0 2 (-1) in let x := mk3 (-3) (-1) 2 in
  skew_enough 4 16 p0 q0 p1 q1 /\ on_line (Rval3 p0) (Rval3 q0) x /\ on_line (Rval3 p1) (Rval3 q1) x /\ line3_error 4 16 p0 q0 p1 q1 <= 20000 * u /\
  let p0' := int3 (-2) (-1) 1 in let q0' := int3 (-1) (-1) 0 in skew_enough 4 16 p0' q0' p1 q1 /\ x = radd (Rval3 p0') (rscale 1 (rsub (Rval3 p0') (Rval3 q0'))).
Proof.
  cbn zeta. unfold skew_enough, line3_error. cbn zeta. destruct (@int3_val 0 (-1) (-1)) as [W1 V1]; try lia. destruct (@int3_val (-1) (-1) 0) as [[F2 _] V2]; try lia. destruct (@int3_val (-1) 1 0) as [[F3 _] V3]; try lia. destruct (@int3_val 0 2 (-1)) as [[F4 _] V4]; try lia.
  destruct (@int3_val (-2) (-1) 1) as [W5 V5]; try lia. rewrite V1, V2, V3, V4, V5.
  assert (SU : forall a b c a' b' c', rsub (mk3 a b c) (mk3 a' b' c') = mk3 (a - a') (b - b') (c - c')) by reflexivity. rewrite !SU.
  replace (0 - (-1)) with 1 by lra. replace (-1 - (-1)) with 0 by lra. replace (-1 - 0) with (-1) by lra. replace (1 - 2) with (-1) by lra. replace (-1 - 1) with (-2) by lra. replace (-2 - (-1)) with (-1) by lra. replace (1 - 0) with 1 by lra.
  assert (C1 : rcross (mk3 (-1) (-1) 1) (mk3 1 0 (-1)) = mk3 1 0 1) by (unfold rcross; cbn; f_equal; lra). assert (C2 : rcross (mk3 (-1) (-1) 1) (mk3 1 (-2) (-1)) = mk3 3 0 3) by (unfold rcross; cbn; f_equal; lra).
  assert (C3 : rcross (mk3 (-1) (-1) 1) (mk3 (-1) (-2) 1) = mk3 1 0 1) by (unfold rcross; cbn; f_equal; lra). assert (C4 : rcross (mk3 (-1) (-1) 1) (mk3 (-1) 0 1) = mk3 (-1) 0 (-1)) by (unfold rcross; cbn; f_equal; lra).
  rewrite C1, C2, C3, C4.
  assert (K1 : 1 <= rnorm (mk3 1 0 1)) by (unfold rnorm, rdot; cbn [c0 c1 c2]; rewrite <- sqrt_1 at 1; apply sqrt_le_1_alt; lra). assert (K2 : rnorm (mk3 3 0 3) = 3 * rnorm (mk3 1 0 1)).
  { replace (mk3 3 0 3) with (rscale 3 (mk3 1 0 1)) by (unfold rscale; cbn; f_equal; lra). rewrite rnorm_scale, Rabs_pos_eq; lra. }
  assert (K3 : rnorm (mk3 (-1) 0 (-1)) = rnorm (mk3 1 0 1)) by (unfold rnorm, rdot; cbn [c0 c1 c2]; f_equal; lra). rewrite K2, K3. set (K := rnorm (mk3 1 0 1)) in *.
  assert (B : bpow radix2 (-20) * (4 * 4) <= K) by (change (bpow radix2 (-20)) with (/ 1048576); lra). pose proof edge4 as E4. pose proof edge16 as E16.
  assert (CO : forall a b c, - 4 <= a <= 4 -> - 4 <= b <= 4 -> -4 <= c <= 4 -> coords_le 4 (mk3 a b c)) by (intros; repeat split; cbn [c0 c1 c2]; apply Rabs_le; lra).
  split; [repeat (split; [first [assumption|apply CO; lra|lra]|]); assumption|].
  split; [exists 3; unfold lerp, radd, rscale, rsub; cbn; f_equal; lra|]. split; [exists (-2); unfold lerp, radd, rscale, rsub; cbn; f_equal; lra|]. split.
  - replace (3 * K / K) with 3 by (field; lra). assert (4 * 4 / K <= 16) by (apply div_le; lra). assert (0 < u) by apply eps_pos. assert (68 * u * (4 * 4 / K) <= 68 * u * 16) by (apply Rmult_le_compat_l; lra). lra.
  - split; [repeat (split; [first [assumption|apply CO; lra|lra]|]); assumption|]. unfold radd, rscale. cbn. f_equal; lra.
Qed.

(** ** C146.  barycentric_coordinates_of_projection for doubles: triangle [q, q + e, q + f], [y = q + b1 e + b2 f] the foot of the
    perpendicular from [p].  With [k = u (E^2 / area)^2], [area] that of the parallelogram of [e] and [f]: the last two coordinates within
    [500 k] of [b1], [b2], the first within [1050 k] of [1 - b1 - b2], their sum within [50 k] of 1, and the vertices weighted with them
    within [1000 k E + 50 k |q|] of [y]. *)
Theorem C146_barycentric : forall E (p q e f : V3 b64) b1 b2, ordinary_edge E -> fin3b p = true -> fin3b q = true -> fin3b e = true -> fin3b f = true ->
  coords_le E (Rval3 e) -> coords_le E (Rval3 f) -> coords_le E (rsub (Rval3 p) (Rval3 q)) ->
  let area := rnorm (rcross (Rval3 e) (Rval3 f)) in bpow radix2 (-20) * (E * E) <= area ->
  let y := radd (Rval3 q) (radd (rscale b1 (Rval3 e)) (rscale b2 (Rval3 f))) in
  rdot (rsub (Rval3 p) y) (Rval3 e) = 0 -> rdot (rsub (Rval3 p) y) (Rval3 f) = 0 ->
  let k := u * (E * E / area * (E * E / area)) in
  let b := barycentric1 p q e f in
  fin3b b = true /\ Rabs (Bval (c0 b) - (1 - b1 - b2)) <= 1050 * k /\ Rabs (Bval (c1 b) - b1) <= 500 * k /\ Rabs (Bval (c2 b) - b2) <= 500 * k /\
  Rabs (Bval (c0 b) + Bval (c1 b) + Bval (c2 b) - 1) <= 50 * k /\
  let y' := radd (radd (rscale (Bval (c0 b)) (Rval3 q)) (rscale (Bval (c1 b)) (radd (Rval3 q) (Rval3 e)))) (rscale (Bval (c2 b)) (radd (Rval3 q) (Rval3 f))) in
  Rabs (c0 y' - c0 y) <= 1000 * k * E + 50 * k * Rabs (c0 (Rval3 q)) /\ Rabs (c1 y' - c1 y) <= 1000 * k * E + 50 * k * Rabs (c1 (Rval3 q)) /\ Rabs (c2 y' - c2 y) <= 1000 * k * E + 50 * k * Rabs (c2 (Rval3 q)).
Proof.
  intros E p q e f b1 b2 HE Fp Fq Fe Ff He Hf Hw area LA y Ye Yf k b.
  assert (CY : rsub (Rval3 p) y = rsub (rsub (Rval3 p) (Rval3 q)) (radd (rscale b1 (Rval3 e)) (rscale b2 (Rval3 f)))) by (unfold y, rsub, radd, rscale; cbn [c0 c1 c2]; f_equal; ring).
  rewrite CY in Ye, Yf. destruct (@bary_ap E p q e f b1 b2 HE Fp Fq Fe Ff He Hf Hw LA Ye Yf) as (F & E1 & E2 & E0). fold area in E1, E2, E0. change eps with u in E1, E2, E0. fold k in E1, E2, E0. fold b in F, E1, E2, E0.
  assert (Pk : 0 <= k) by (pose proof (Rabs_pos (Bval (c1 b) - b1)); lra). pose proof (edge_pos HE) as PE.
  assert (S : Rabs (Bval (c0 b) + Bval (c1 b) + Bval (c2 b) - 1) <= 50 * k) by (apply abs_le in E0; apply abs_le; lra).
  split; [exact F|]. split; [apply abs_le in E0, E1, E2; apply abs_le; lra|]. split; [exact E1|]. split; [exact E2|]. split; [exact S|]. cbn zeta.
  assert (D : forall q0 e0 f0, Rabs e0 <= E -> Rabs f0 <= E -> Rabs (Bval (c0 b) * q0 + Bval (c1 b) * (q0 + e0) + Bval (c2 b) * (q0 + f0) - (q0 + (b1 * e0 + b2 * f0))) <= 1000 * k * E + 50 * k * Rabs q0).
  { intros q0 e0 f0 H0 H1. replace (_ - _) with ((Bval (c0 b) + Bval (c1 b) + Bval (c2 b) - 1) * q0 + (Bval (c1 b) - b1) * e0 + (Bval (c2 b) - b2) * f0) by ring.
    assert (Q0 : Rabs ((Bval (c0 b) + Bval (c1 b) + Bval (c2 b) - 1) * q0) <= 50 * k * Rabs q0) by (rewrite Rabs_mult; apply Rmult_le_compat_r; [apply Rabs_pos|exact S]).
    assert (Q1 : Rabs ((Bval (c1 b) - b1) * e0) <= 500 * k * E) by (apply mul_bound; lra). assert (Q2 : Rabs ((Bval (c2 b) - b2) * f0) <= 500 * k * E) by (apply mul_bound; lra). apply abs_le in Q0, Q1, Q2. apply abs_le. lra. }
  destruct He as (e0 & e1 & e2), Hf as (f0 & f1 & f2). split; [exact (D _ _ _ e0 f0)|]. split; [exact (D _ _ _ e1 f1)|exact (D _ _ _ e2 f2)].
Qed.
Print Assumptions C146_barycentric.
(** triangle (1,2,3), (3,2,3), (1,5,3); the point (2,3,5) above (2,3,3) = q + 1/2 e + 1/3 f *)
Example C146_example : let p := int3 2 3 5 in let q := int3 1 2 3 in let e := int3 2 0 0 in let f := int3 0 3 0 in
  let area := rnorm (rcross (Rval3 e) (Rval3 f)) in let y := radd (Rval3 q) (radd (rscale (1 / 2) (Rval3 e)) (rscale (1 / 3) (Rval3 f))) in
  ordinary_edge 4 /\ fin3b p = true /\ fin3b q = true /\ fin3b e = true /\ fin3b f = true /\ coords_le 4 (Rval3 e) /\ coords_le 4 (Rval3 f) /\ coords_le 4 (rsub (Rval3 p) (Rval3 q)) /\
  bpow radix2 (-20) * (4 * 4) <= area /\ rdot (rsub (Rval3 p) y) (Rval3 e) = 0 /\ rdot (rsub (Rval3 p) y) (Rval3 f) = 0 /\ area = 6.
Proof.
  cbn zeta. destruct (@int3_val 2 3 5) as [[F1 _] V1]; try lia. destruct (@int3_val 1 2 3) as [[F2 _] V2]; try lia. destruct (@int3_val 2 0 0) as [[F3 _] V3]; try lia. destruct (@int3_val 0 3 0) as [[F4 _] V4]; try lia. rewrite V1, V2, V3, V4.
  assert (AR : rnorm (rcross (mk3 2 0 0) (mk3 0 3 0)) = 6) by (unfold rnorm, rdot, rcross; cbn [c0 c1 c2]; replace (_ + _ + _) with (6 * 6) by lra; apply sqrt_square; lra). rewrite AR.
  split; [exact edge4|]. do 4 (split; [assumption|]). do 3 (split; [repeat split; unfold rsub; cbn [c0 c1 c2]; apply Rabs_le; lra|]). split; [change (bpow radix2 (-20)) with (/ 1048576); lra|].
  unfold rdot, rsub, radd, rscale. cbn [c0 c1 c2]. repeat split; lra.
Qed.

(** ** C147.  Boxes of doubles.  center_point is (mid_x, mid_y, mid_z), bit for bit; floor_point has their x and z and the y of the origin. *)
Lemma box_of (o s : V3 b64) bx : mk_box (Triple o) (Triple s) = Ok bx -> bx = mkbox o s /\ fin3b o = true /\ fin3b s = true.
Proof.
  intros H. unfold mk_box, as_triple in H. destruct (all3 (map3 nfinite o)) eqn:Fo; [|discriminate]. cbn [bindr] in H. destruct (all3 (map3 nfinite s)) eqn:Fs; [|discriminate]. cbn [bindr] in H.
  destruct (any3 _); [discriminate|]. split; [congruence|]. split; assumption.
Qed.
Lemma fin3_parts (v : V3 b64) : fin3b v = true -> bfin (c0 v) = true /\ bfin (c1 v) = true /\ bfin (c2 v) = true.
Proof. intros H. unfold fin3b in H. apply andb_prop in H. destruct H as [H ?]. apply andb_prop in H. tauto. Qed.
Theorem C147_centre : forall (o s : V3 b64) bx, mk_box (Triple o) (Triple s) = Ok bx ->
  center_point bx = box_mid bx /\ c0 (floor_point bx) = c0 (box_mid bx) /\ c2 (floor_point bx) = c2 (box_mid bx) /\ neqb (c1 (floor_point bx)) (c1 (box_min bx)) = true.
Proof.
  intros o s bx H. destruct (box_of _ _ _ H) as (-> & Fo & Fs). apply fin3_parts in Fo, Fs. destruct Fo as (O0 & O1 & O2), Fs as (S0 & S1 & S2).
  unfold center_point, box_mid, floor_point, box_min, vadd, vscale, vmul, zip3, map3. cbn [c0 c1 c2 b_origin b_shape]. rewrite !half_same by assumption. do 3 (split; [reflexivity|]).
  destruct (bzero_mul S1) as [F Z]. assert (L : Rabs (Bval (c1 o) + Bval (nmul n0 (c1 s))) < bpow radix2 1024) by (rewrite Z, Rplus_0_r; exact (Bval_lt _)).
  pose proof (@Flocq.IEEE754.BinarySingleNaN.Bplus_correct 53 1024 prec_gt_0_53 prec_lt_emax_53 Flocq.IEEE754.BinarySingleNaN.mode_NE (c1 o) (nmul n0 (c1 s)) O1 F) as C. rewrite round_eq in C.
  change (Flocq.IEEE754.BinarySingleNaN.B2R (c1 o)) with (Bval (c1 o)) in C. change (Flocq.IEEE754.BinarySingleNaN.B2R (nmul n0 (c1 s))) with (Bval (nmul n0 (c1 s))) in C.
  rewrite Z, Rplus_0_r, rnd64_B in C. rewrite Rlt_bool_true in C by exact (Bval_lt _). destruct C as (C1 & C2 & _).
  change (Bval (nadd (c1 o) (nmul n0 (c1 s))) = Bval (c1 o)) in C1. change (bfin (nadd (c1 o) (nmul n0 (c1 s))) = true) in C2. rewrite beq_spec by auto. rewrite C1. now apply Req_bool_true.
Qed.
Print Assumptions C147_centre.
(** The far corner and the middle are each within one unit of the last place; a side is 0 or not tiny. *)
Theorem C147_corners : forall (o s : V3 b64) bx, mk_box (Triple o) (Triple s) = Ok bx -> coords_le (bpow radix2 900) (Rval3 o) -> coords_le (bpow radix2 900) (Rval3 s) ->
  (forall c, In c [@c0; @c1; @c2] -> let a := Bval (c _ o) in let d := Bval (c _ s) in
    bfin (c _ (box_max bx)) = true /\ Rabs (Bval (c _ (box_max bx)) - (a + d)) <= u * Rabs (a + d) /\
    (d = 0 \/ bpow radix2 (-1000) <= d -> bfin (c _ (box_mid bx)) = true /\ Rabs (Bval (c _ (box_mid bx)) - (a + d / 2)) <= u * Rabs (a + d / 2))).
Proof.
  intros o s bx H Ho Hs. destruct (box_of _ _ _ H) as (-> & Fo & Fs). apply fin3_parts in Fo, Fs. destruct Fo as (O0 & O1 & O2), Fs as (S0 & S1 & S2). destruct Ho as (o0 & o1 & o2), Hs as (s0 & s1 & s2).
  assert (G : forall x y : b64, bfin x = true -> bfin y = true -> Rabs (Bval x) <= bpow radix2 900 -> Rabs (Bval y) <= bpow radix2 900 ->
    bfin (nadd x y) = true /\ Rabs (Bval (nadd x y) - (Bval x + Bval y)) <= u * Rabs (Bval x + Bval y) /\
    (Bval y = 0 \/ bpow radix2 (-1000) <= Bval y -> bfin (nadd x (ndiv y (nofZ 2))) = true /\ Rabs (Bval (nadd x (ndiv y (nofZ 2))) - (Bval x + Bval y / 2)) <= u * Rabs (Bval x + Bval y / 2))).
  { intros x y Fx Fy Hx Hy. destruct (max_ap Fx Fy Hx Hy) as [F E]. split; [exact F|]. split; [exact E|]. intros Hd.
    destruct (half_exact Fy Hd) as [F2 V2]; [apply abs_le in Hy; lra|]. rewrite <- V2. apply max_ap; auto. rewrite V2. apply abs_le in Hy. apply abs_le. lra. }
  intros c [<-|[<-|[<-|[]]]]; cbn zeta; unfold box_max, box_mid; cbn [c0 c1 c2 b_origin b_shape]; apply G; auto.
Qed.
Print Assumptions C147_corners.
(** Volume and surface area, sides 0 or between [2^-300] and [2^300]. *)
Definition ordinary_side (z : R) : Prop := z = 0 \/ bpow radix2 (-300) <= z <= bpow radix2 300.
Theorem C147_volume_and_area : forall (o s : V3 b64) bx, mk_box (Triple o) (Triple s) = Ok bx ->
  let l := Bval (c0 s) in let h := Bval (c1 s) in let w := Bval (c2 s) in ordinary_side l -> ordinary_side h -> ordinary_side w ->
  (bfin (volume bx) = true /\ Rabs (Bval (volume bx) - l * h * w) <= 3 * u * (l * h * w)) /\
  (let A := 2 * (l * h + h * w + w * l) in bfin (surface_area bx) = true /\ Rabs (Bval (surface_area bx) - A) <= 5 * u * A).
Proof.
  intros o s bx H l h w Hl Hh Hw. destruct (box_of _ _ _ H) as (-> & Fo & Fs). apply fin3_parts in Fs. destruct Fs as (S0 & S1 & S2). split.
  - exact (volume_ap S0 S1 S2 Hl Hh Hw).
  - cbn zeta. destruct (area_ap S0 S1 S2 Hl Hh Hw) as [F E]. split; [exact F|]. replace (2 * (l * h + h * w + w * l)) with (2 * (w * l + h * l + h * w)) by ring. exact E.
Qed.
Print Assumptions C147_volume_and_area.
Example C147_example : exists bx, mk_box (Triple (int3 1 (-2) 0)) (Triple (int3 2 0 3)) = Ok bx /\ coords_le (bpow radix2 900) (Rval3 (int3 1 (-2) 0)) /\ coords_le (bpow radix2 900) (Rval3 (int3 2 0 3)) /\
  ordinary_side (Bval (c0 (int3 2 0 3))) /\ ordinary_side (Bval (c1 (int3 2 0 3))) /\ ordinary_side (Bval (c2 (int3 2 0 3))).
Proof.
  destruct (@int3_val 1 (-2) 0) as [_ V1]; try lia. destruct (@int3_val 2 0 3) as [_ V2]; try lia. rewrite V1, V2. change (Bval (c0 (int3 2 0 3))) with (c0 (Rval3 (int3 2 0 3))). change (Bval (c1 (int3 2 0 3))) with (c1 (Rval3 (int3 2 0 3))). change (Bval (c2 (int3 2 0 3))) with (c2 (Rval3 (int3 2 0 3))). rewrite V2.
  exists (mkbox (int3 1 (-2) 0) (int3 2 0 3)). split.
  { unfold mk_box, as_triple. assert (F1 : all3 (map3 nfinite (int3 1 (-2) 0)) = true) by (vm_compute; reflexivity). assert (F2 : all3 (map3 nfinite (int3 2 0 3)) = true) by (vm_compute; reflexivity).
    rewrite F1, F2. cbn [bindr]. assert (F3 : any3 (map3 (fun x => nlt x n0) (int3 2 0 3)) = false) by (vm_compute; reflexivity). now rewrite F3. }
  assert (B : 4 <= bpow radix2 900 /\ 4 <= bpow radix2 300) by (change 4 with (bpow radix2 2); split; apply bpow_le; lia). assert (B1 : bpow radix2 (-300) <= 1) by (change 1 with (bpow radix2 0); apply bpow_le; lia).
  do 2 (split; [repeat split; cbn [c0 c1 c2]; apply Rabs_le; lra|]). cbn [c0 c1 c2]. split; [right; lra|]. split; [left; reflexivity|right; lra].
Qed.
