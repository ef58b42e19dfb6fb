(** * Properties C148-C151: the intersection of a line or a segment with a plane, and of two lines in the plane, in double precision. *)
From Coq Require Import Reals ZArith List Bool Lra Lia Psatz.
From Flocq Require Import Core IEEE754.BinarySingleNaN.
From Verif Require Import Num B64 BLemmas Vec RVec VLemmas SpecGeom MVx MPlane MSolids MSegment MSegmentD SpecDouble SpecTransD PErr PNormD PPlaneD PCrossD PLineD PXsecD PXsegD PLine2D PropsDouble PropsDouble7 PropsDouble8.
Import ListNotations.
Local Open Scope R_scope.

(** ** C148.  line_xsection and line_segment_xsection.  The plane through [r] perpendicular to [n], the line through [pt] along
    [ray]; how steeply the line meets the plane is the quotient of [|ray . N|], [N] the unit normal, by the bound [E] on the
    coordinates of [ray]. *)
Definition ordinary_plane (M : R) (r n : V3 b64) (pl : plane b64) : Prop :=
  ordinary_edge M /\ within M r /\ fin3b n = true /\ rnorm (Rval3 n) <= bpow radix2 400 /\ mk_plane r n = Ok pl.
(** the size of the part of [v] along the unit normal, relative to [E] *)
Definition steepness (E : R) (n : V3 b64) (v : V3 R) : R := Rabs (rdot v (unit_of (Rval3 n))) / E.
(** [x] is in the plane through [r] perpendicular to [n] *)
Definition in_plane (r n : V3 b64) (x : V3 R) : Prop := rdot (rsub x (Rval3 r)) (Rval3 n) = 0.
Lemma steep_abs E n v k : 0 < E -> k <= steepness E n v -> k * E <= Rabs (rdot v (unit_of (Rval3 n))).
Proof. intros P H. unfold steepness in H. apply Rmult_le_compat_r with (r := E) in H; [|lra]. apply Rle_trans with (1 := H). right. field. lra. Qed.
Lemma edge_pos' E : ordinary_edge E -> 0 < E.
Proof. intros [H _]. pose proof (bpow_gt_0 radix2 (-150)). lra. Qed.
(** the parameter of the point of the line that is in the plane *)
Lemma in_plane_t r n pl x q v s : fin3b n = true -> rnorm (Rval3 n) <= bpow radix2 400 -> mk_plane r n = Ok pl -> rdot v (unit_of (Rval3 n)) <> 0 ->
  x = radd (Rval3 q) (rscale s v) -> in_plane r n x -> s = - plane_distance r n q / rdot v (unit_of (Rval3 n)).
Proof.
  intros Fn Un HP ND -> IP. assert (Z : plane_distance r n q + s * rdot v (unit_of (Rval3 n)) = 0).
  { unfold in_plane in IP. transitivity (/ rnorm (Rval3 n) * rdot (rsub (radd (Rval3 q) (rscale s v)) (Rval3 r)) (Rval3 n)); [|rewrite IP; ring]. unfold plane_distance, unit_of, rdot, rscale, radd, rsub. cbn [c0 c1 c2]. ring. }
  apply Rmult_eq_reg_r with (rdot v (unit_of (Rval3 n))); [|exact ND]. unfold Rdiv. rewrite Rmult_assoc, Rinv_l by exact ND. lra.
Qed.
Theorem C148_line : forall M E r n pl pt ray x s, ordinary_plane M r n pl -> ordinary_edge E -> within M pt -> within E ray ->
  bpow radix2 (-20) <= steepness E n (Rval3 ray) ->
  x = radd (Rval3 pt) (rscale s (Rval3 ray)) -> in_plane r n x ->
  exists y, line_xsection pl pt ray = Some y /\ close3 (570 * u * M / (steepness E n (Rval3 ray)) ^ 2) y x.
Proof.
  intros M E r n pl pt ray x s (HM & Wr & Fn & Un & HP) HE Wp We LS Hx IP. pose proof (edge_pos' E HE) as PE. pose proof (steep_abs E n (Rval3 ray) _ PE LS) as LD. pose proof (bpow_gt_0 radix2 (-20)) as PB.
  assert (ND : rdot (Rval3 ray) (unit_of (Rval3 n)) <> 0) by (intros Z; unfold steepness in LS; rewrite Z, Rabs_R0 in LS; unfold Rdiv in LS; lra).
  pose proof (in_plane_t r n pl x pt (Rval3 ray) s Fn Un HP ND Hx IP) as Hs. destruct (xsec_ap HM HE Wr Fn Un HP Wp We LD) as (y & Hy & C). exists y. split; [exact Hy|]. rewrite Hx, Hs.
  replace (570 * u * M / (steepness E n (Rval3 ray)) ^ 2) with (570 * (eps * (M / (Rabs (rdot (Rval3 ray) (unit_of (Rval3 n))) / E * (Rabs (rdot (Rval3 ray) (unit_of (Rval3 n))) / E))))); [exact C|].
  change u with eps. unfold steepness. pose proof (Rabs_pos_lt _ ND). field. split; [lra|]. intros Z. lra.
Qed.
Print Assumptions C148_line.
(** Between the end points: the result, if there is one, is the intersection; there is one if the exact intersection keeps clear of the end
    points in every coordinate in which they differ; there is none if it is clearly beyond both in some coordinate. *)
Definition clear_inside (e ai bi xi : R) : Prop := ai = bi \/ Rmin ai bi + e <= xi <= Rmax ai bi - e.
Definition clear_outside (e ai bi xi : R) : Prop := Rmax ai bi + e < xi \/ xi < Rmin ai bi - e.
Definition ordinary_segment3 (M E : R) (a b : V3 b64) : Prop := bpow radix2 (-149) <= E <= bpow radix2 149 /\ within M a /\ fin3b b = true /\ coords_le E (rsub (Rval3 b) (Rval3 a)).
Theorem C148_segment : forall M E r n pl a b x s, ordinary_plane M r n pl -> ordinary_segment3 M E a b ->
  let v := rsub (Rval3 b) (Rval3 a) in let e := 600 * u * M / (steepness E n v) ^ 2 in
  bpow radix2 (-19) <= steepness E n v -> x = radd (Rval3 a) (rscale s v) -> in_plane r n x ->
  (forall y, line_segment_xsection pl a b = Some y -> close3 e y x) /\
  (clear_inside e (Bval (c0 a)) (Bval (c0 b)) (c0 x) /\ clear_inside e (Bval (c1 a)) (Bval (c1 b)) (c1 x) /\ clear_inside e (Bval (c2 a)) (Bval (c2 b)) (c2 x) ->
   exists y, line_segment_xsection pl a b = Some y) /\
  (clear_outside e (Bval (c0 a)) (Bval (c0 b)) (c0 x) \/ clear_outside e (Bval (c1 a)) (Bval (c1 b)) (c1 x) \/ clear_outside e (Bval (c2 a)) (Bval (c2 b)) (c2 x) ->
   line_segment_xsection pl a b = None).
Proof.
  intros M E r n pl a b x s (HM & Wr & Fn & Un & HP) (HE & Wa & Fb & Hv) v e LS Hx IP. assert (PE : 0 < E) by (pose proof (bpow_gt_0 radix2 (-149)); lra). pose proof (steep_abs E n v _ PE LS) as LD. pose proof (bpow_gt_0 radix2 (-19)) as PB.
  assert (ND : rdot v (unit_of (Rval3 n)) <> 0) by (intros Z; unfold steepness in LS; rewrite Z, Rabs_R0 in LS; unfold Rdiv in LS; lra).
  pose proof (in_plane_t r n pl x a v s Fn Un HP ND Hx IP) as Hs. pose proof (@xseg_ap M E HM HE r n Wr Fn Un pl HP a b Wa Fb Hv LD) as G. cbn zeta in G. fold v in G. rewrite <- Hs, <- Hx in G.
  replace (600 * (eps * (M / (Rabs (rdot v (unit_of (Rval3 n))) / E * (Rabs (rdot v (unit_of (Rval3 n))) / E))))) with e in G by (unfold e; change u with eps; unfold steepness; pose proof (Rabs_pos_lt _ ND); field; split; [|intros Z]; lra).
  destruct G as (G1 & G2 & G3). split; [exact G1|]. split; [|exact G3]. intros (C0 & C1 & C2). specialize (G2 C0 C1 C2). destruct (line_segment_xsection pl a b) as [y|]; [exists y; reflexivity|contradiction].
Qed.
Print Assumptions C148_segment.
Lemma norm122 : rnorm (mk3 1 2 2) = 3.
Proof. unfold rnorm, rdot. cbn [c0 c1 c2]. replace (1 * 1 + 2 * 2 + 2 * 2) with (3 * 3) by ring. apply sqrt_square. lra. Qed.
Lemma u_small : 0 < u < / 1000000000000.
Proof. split; [exact eps_pos|change u with eps; rewrite eps_val; lra]. Qed.
Lemma edge_scale k : (-149 <= k <= 149)%Z -> bpow radix2 (-149) <= bpow radix2 k <= bpow radix2 149.
Proof. intros H. split; apply bpow_le; lia. Qed.
(** the plane through (1, 2, 3) with normal (1, 2, 2) and the segment from (2, 4, 5) to (1, 1, 1), which meet in (7/5, 11/5, 13/5) *)
Example C148_example : exists pl, ordinary_plane 16 (int3 1 2 3) (int3 1 2 2) pl /\ ordinary_segment3 16 4 (int3 2 4 5) (int3 1 1 1) /\
  let v := rsub (Rval3 (int3 1 1 1)) (Rval3 (int3 2 4 5)) in let x := mk3 (7/5) (11/5) (13/5) in let e := 600 * u * 16 / (steepness 4 (int3 1 2 2) v) ^ 2 in
  steepness 4 (int3 1 2 2) v = 5/4 /\ x = radd (Rval3 (int3 2 4 5)) (rscale (3/5) v) /\ in_plane (int3 1 2 3) (int3 1 2 2) x /\
  clear_inside e 2 1 (c0 x) /\ clear_inside e 4 1 (c1 x) /\ clear_inside e 5 1 (c2 x).
Proof.
  destruct plane122 as [P _]. eexists. destruct (@int3_val 1 2 3) as [W1 V1]; try lia. destruct (@int3_val 1 2 2) as [W2 V2]; try lia. destruct (@int3_val 2 4 5) as [W3 V3]; try lia. destruct (@int3_val 1 1 1) as [[F4 _] V4]; try lia.
  split; [split; [exact edge16|]; split; [exact W1|]; split; [apply W2|]; split; [|apply P]|].
  { rewrite V2, norm122. apply Rle_trans with (bpow radix2 2); [change (bpow radix2 2) with 4; lra|apply bpow_le; lia]. }
  assert (VV : rsub (Rval3 (int3 1 1 1)) (Rval3 (int3 2 4 5)) = mk3 (-1) (-3) (-4)) by (rewrite V3, V4; unfold rsub; cbn [c0 c1 c2]; f_equal; lra).
  split. { split; [change 4 with (bpow radix2 2); apply edge_scale; lia|]. split; [exact W3|]. split; [exact F4|]. rewrite VV. unfold coords_le. cbn [c0 c1 c2]. repeat split; apply abs_le; lra. }
  cbn zeta. rewrite VV. assert (ST : steepness 4 (int3 1 2 2) (mk3 (-1) (-3) (-4)) = 5/4).
  { unfold steepness, unit_of. rewrite V2, norm122. unfold rdot, rscale. cbn [c0 c1 c2]. replace (-1 * (/ 3 * 1) + -3 * (/ 3 * 2) + -4 * (/ 3 * 2)) with (-5) by lra. rewrite Rabs_left; lra. }
  rewrite ST. split; [reflexivity|]. split; [rewrite V3; unfold radd, rscale; cbn [c0 c1 c2]; f_equal; lra|]. split; [unfold in_plane; rewrite V1, V2; unfold rdot, rsub; cbn [c0 c1 c2]; lra|].
  pose proof u_small as US. unfold clear_inside. cbn [c0 c1 c2]. assert (EE : 600 * u * 16 / (5 / 4) ^ 2 <= / 10) by (replace (600 * u * 16 / (5 / 4) ^ 2) with (6144 * u) by field; lra).
  rewrite !Rmin_right, !Rmax_left by lra. repeat split; right; lra.
Qed.

(** ** C151.  A segment of doubles that strictly crosses the plane need not have an intersection: from -1 to 3 * 2^-54 along the
    first axis, the plane at 5 * 2^-55.  Nor one whose end point is in the plane: from (2, 0, -1) to the origin, which is in the plane through
    (-1, -1, 0) perpendicular to (-1, 1, -1). *)
Definition scaled (k e : Z) : b64 := ndiv (nofZ k) (nofZ (2 ^ e)).
Lemma scaled_val : bfin (scaled 3 54) = true /\ Bval (scaled 3 54) = 3 / 2 ^ 54 /\ bfin (scaled 5 55) = true /\ Bval (scaled 5 55) = 5 / 2 ^ 55.
Proof.
  assert (A : b64_me (scaled 3 54) = Some ((3 * 2 ^ 51)%Z, (-105)%Z)) by (vm_compute; reflexivity). assert (B : b64_me (scaled 5 55) = Some ((5 * 2 ^ 50)%Z, (-105)%Z)) by (vm_compute; reflexivity).
  split; [exact (bfin_me A)|]. split; [rewrite (Bval_me A)|split; [exact (bfin_me B)|rewrite (Bval_me B)]].
  - change (3 * 2 ^ 51)%Z with 6755399441055744%Z. change (bpow radix2 (-105)) with (/ IZR (2 ^ 105)). change (2 ^ 105)%Z with 40564819207303340847894502572032%Z. lra.
  - change (5 * 2 ^ 50)%Z with 5629499534213120%Z. change (bpow radix2 (-105)) with (/ IZR (2 ^ 105)). change (2 ^ 105)%Z with 40564819207303340847894502572032%Z. lra.
Qed.
Theorem C151_crossing_segment_refuted : exists r n pl a b, fin3b r = true /\ fin3b n = true /\ fin3b a = true /\ fin3b b = true /\ mk_plane r n = Ok pl /\
  plane_distance r n a < 0 < plane_distance r n b /\ line_segment_xsection pl a b = None.
Proof.
  set (r := mk3 (scaled 5 55) (nofZ 0) (nofZ 0)). set (n := int3 1 0 0). set (a := int3 (-1) 0 0). set (b := mk3 (scaled 3 54) (nofZ 0) (nofZ 0)).
  assert (HP : mk_plane r n = Ok (mkpl r (normalize1 n))) by (unfold mk_plane; replace (almost_zero n default_atol) with false by (vm_compute; reflexivity); reflexivity).
  exists r, n, (mkpl r (normalize1 n)), a, b. split; [vm_compute; reflexivity|]. split; [vm_compute; reflexivity|]. split; [vm_compute; reflexivity|]. split; [vm_compute; reflexivity|]. split; [exact HP|]. split.
  - destruct scaled_val as (_ & V3 & _ & V5). destruct (int_val (z := 0)) as [_ Z0]; [lia|]. destruct (@int3_val 1 0 0) as [_ VN]; try lia. destruct (@int3_val (-1) 0 0) as [_ VA]; try lia.
    assert (NN : rnorm (mk3 1 0 0) = 1) by (unfold rnorm, rdot; cbn [c0 c1 c2]; replace (1 * 1 + 0 * 0 + 0 * 0) with 1 by ring; apply sqrt_1).
    unfold plane_distance, unit_of. change (Rval3 n) with (Rval3 (int3 1 0 0)). change (Rval3 a) with (Rval3 (int3 (-1) 0 0)). rewrite VN, VA, NN. unfold Rval3, map3, r, b. cbn [c0 c1 c2]. rewrite V3, V5, Z0. unfold rdot, rsub, rscale. cbn [c0 c1 c2]. lra.
  - assert (E : match line_segment_xsection (mkpl r (normalize1 n)) a b with None => true | Some _ => false end = true) by (vm_compute; reflexivity). destruct (line_segment_xsection (mkpl r (normalize1 n)) a b); [discriminate E|reflexivity].
Qed.
Print Assumptions C151_crossing_segment_refuted.
Theorem C151_end_point_in_plane_refuted : let r := int3 (-1) (-1) 0 in let n := int3 (-1) 1 (-1) in let a := int3 2 0 (-1) in let b := int3 0 0 0 in
  in_plane r n (Rval3 b) /\ exists pl, mk_plane r n = Ok pl /\ line_segment_xsection pl a b = None.
Proof.
  cbn zeta. split.
  - destruct (@int3_val (-1) (-1) 0) as [_ V1]; try lia. destruct (@int3_val (-1) 1 (-1)) as [_ V2]; try lia. destruct (@int3_val 0 0 0) as [_ V3]; try lia. unfold in_plane. rewrite V1, V2, V3. unfold rdot, rsub. cbn [c0 c1 c2]. lra.
  - set (n := int3 (-1) 1 (-1)). exists (mkpl (int3 (-1) (-1) 0) (normalize1 n)). split; [unfold mk_plane; replace (almost_zero n default_atol) with false by (vm_compute; reflexivity); reflexivity|].
    match goal with |- ?l = None => assert (E : match l with None => true | Some _ => false end = true) by (vm_compute; reflexivity); destruct l; [discriminate E|reflexivity] end.
Qed.
Print Assumptions C151_end_point_in_plane_refuted.

(** ** C149.  line_intersect: two lines in the plane, through [p0], [q0] and [p1], [q1].  The solver forms its quotients by a division or by
    multiplication with a reciprocal; the bound holds either way. *)
Definition val2 (p : b64 * b64) : R * R := (Bval (fst p), Bval (snd p)).
Definition fin2 (p : b64 * b64) : Prop := bfin (fst p) = true /\ bfin (snd p) = true.
Definition sub2 (a b : R * R) : R * R := (fst a - fst b, snd a - snd b).
Definition cross2 (a b : R * R) : R := fst a * snd b - snd a * fst b.
Definition size2 (X : R) (a : R * R) : Prop := Rabs (fst a) <= X /\ Rabs (snd a) <= X.
(** [x] is on the line through [p] and [q] *)
Definition on_line2 (p q x : R * R) : Prop := cross2 (sub2 q p) (sub2 x p) = 0.
Definition a_quotient (q : b64 -> b64 -> b64) : Prop := q = ndiv \/ q = reciprocal_quotient.
Lemma quotient_ok q : a_quotient q -> quot_ok q.
Proof. intros [-> | ->]; [exact div_quot|exact recip_quot]. Qed.
Theorem C149_line_intersect : forall quo1 quo2 E M X (p0 q0 p1 q1 : b64 * b64) x, a_quotient quo1 -> a_quotient quo2 ->
  ordinary_edge E -> ordinary_edge M -> 0 <= X <= bpow radix2 200 -> fin2 p0 -> fin2 q0 -> fin2 p1 -> fin2 q1 -> size2 M (val2 p0) -> size2 M (val2 p1) ->
  let d0 := sub2 (val2 q0) (val2 p0) in let d1 := sub2 (val2 q1) (val2 p1) in
  size2 E d0 -> size2 E d1 -> bpow radix2 (-20) * (E * E) <= Rabs (cross2 d0 d1) ->
  size2 X x -> on_line2 (val2 p0) (val2 q0) x -> on_line2 (val2 p1) (val2 q1) x ->
  let y := line_intersect_with quo1 quo2 p0 q0 p1 q1 in
  fin2 y /\ size2 (170 * u * (E * E / Rabs (cross2 d0 d1)) ^ 2 * (M + X)) (sub2 (val2 y) x).
Proof.
  intros quo1 quo2 E M X [px py] [qx qy] [sx sy] [tx ty] [x0 x1] H1 H2 HE HM HX [Fpx Fpy] [Fqx Fqy] [Fsx Fsy] [Ftx Fty] [Mx My] [Nx Ny]. unfold on_line2, cross2, val2, sub2, size2, fin2 in *. cbn [fst snd] in *. intros [Ex Ey] [Gx Gy] LD [X0 X1] O1 O2.
  destruct (@line2_ap E M X HE HM HX quo1 quo2 (quotient_ok quo1 H1) (quotient_ok quo2 H2) px py qx qy sx sy tx ty Fpx Fpy Fqx Fqy Fsx Fsy Ftx Fty Mx My Nx Ny Ex Ey Gx Gy LD x0 x1 X0 X1) as (y0 & y1 & Hy & F0 & F1 & C0 & C1); [unfold sub2 in O1; cbn [fst snd] in O1; lra|unfold sub2 in O2; cbn [fst snd] in O2; lra|].
  rewrite Hy. cbn [fst snd]. split; [auto|]. set (K := E * E / _) in *. replace (170 * u * K ^ 2 * (M + X)) with (170 * (eps * (K * K * (M + X)))) by (change u with eps; ring). auto.
Qed.
Print Assumptions C149_line_intersect.
Theorem C149_one_division : forall p0 q0 p1 q1 : b64 * b64, line_intersect p0 q0 p1 q1 = line_intersect_with ndiv ndiv p0 q0 p1 q1.
Proof. reflexivity. Qed.
Print Assumptions C149_one_division.
(** Two vertical or two horizontal lines are recognised exactly. *)
Definition nan2 (p : b64 * b64) : Prop := neqb (fst p) (fst p) = false /\ neqb (snd p) (snd p) = false.
Theorem C149_along_an_axis : forall p0 q0 p1 q1 : b64 * b64, Forall (fun p => fin2 p /\ size2 (bpow radix2 900) (val2 p)) [p0; q0; p1; q1] ->
  (fst (val2 q0) = fst (val2 p0) /\ fst (val2 q1) = fst (val2 p1) \/ snd (val2 q0) = snd (val2 p0) /\ snd (val2 q1) = snd (val2 p1)) -> nan2 (line_intersect p0 q0 p1 q1).
Proof.
  intros [px py] [qx qy] [sx sy] [tx ty] H HA. apply Forall_inv_tail in H as H2. apply Forall_inv_tail in H2 as H3. apply Forall_inv_tail in H3 as H4. apply Forall_inv in H, H2, H3, H4.
  unfold fin2, size2, val2 in *. cbn [fst snd] in *. rewrite axis_parallel; try tauto. split; vm_compute; reflexivity.
Qed.
Print Assumptions C149_along_an_axis.
Example C149_along_example : Forall (fun p => fin2 p /\ size2 (bpow radix2 900) (val2 p)) [(nofZ 1, nofZ 2); (nofZ 1, nofZ 5); (nofZ 3, nofZ 7); (nofZ 3, nofZ 1)].
Proof.
  assert (G : forall a b, (Z.abs a <= 16)%Z -> (Z.abs b <= 16)%Z -> fin2 (nofZ a, nofZ b) /\ size2 (bpow radix2 900) (val2 (nofZ a, nofZ b))).
  { intros a b A B. destruct (int_val (z := a)) as [F0 V0]; [lia|]. destruct (int_val (z := b)) as [F1 V1]; [lia|]. unfold fin2, size2, val2. cbn [fst snd]. rewrite F0, F1, V0, V1, <- !abs_IZR. split; [auto|].
    assert (K : IZR 16 <= bpow radix2 900) by (change (IZR 16) with (bpow radix2 4); apply bpow_le; lia). split; apply Rle_trans with (2 := K); apply IZR_le; assumption. }
  apply Forall_cons; [apply G; lia|]. apply Forall_cons; [apply G; lia|]. apply Forall_cons; [apply G; lia|]. apply Forall_cons; [apply G; lia|]. apply Forall_nil.
Qed.
Definition int2 (a b : Z) : b64 * b64 := (nofZ a, nofZ b).
Lemma int2_val a b : (Z.abs a <= 16)%Z -> (Z.abs b <= 16)%Z -> fin2 (int2 a b) /\ val2 (int2 a b) = (IZR a, IZR b).
Proof. intros A B. destruct (int_val (z := a)) as [F0 V0]; [lia|]. destruct (int_val (z := b)) as [F1 V1]; [lia|]. unfold fin2, val2, int2. cbn [fst snd]. rewrite F0, F1, V0, V1. auto. Qed.
(** the lines through (0, 0), (3, 1) and (1, 0), (0, 2) meet in (6/7, 2/7) *)
Example C149_example : let p0 := int2 0 0 in let q0 := int2 3 1 in let p1 := int2 1 0 in let q1 := int2 0 2 in let x := (6/7, 2/7) in
  ordinary_edge 4 /\ fin2 p0 /\ fin2 q0 /\ fin2 p1 /\ fin2 q1 /\ size2 4 (val2 p0) /\ size2 4 (val2 p1) /\ size2 4 (sub2 (val2 q0) (val2 p0)) /\ size2 4 (sub2 (val2 q1) (val2 p1)) /\
  cross2 (sub2 (val2 q0) (val2 p0)) (sub2 (val2 q1) (val2 p1)) = 7 /\ bpow radix2 (-20) * (4 * 4) <= 7 /\ size2 1 x /\ on_line2 (val2 p0) (val2 q0) x /\ on_line2 (val2 p1) (val2 q1) x /\ 0 <= 1 <= bpow radix2 200.
Proof.
  cbn zeta. destruct (@int2_val 0 0) as [F1 V1]; try lia. destruct (@int2_val 3 1) as [F2 V2]; try lia. destruct (@int2_val 1 0) as [F3 V3]; try lia. destruct (@int2_val 0 2) as [F4 V4]; try lia. rewrite V1, V2, V3, V4.
  split; [unfold ordinary_edge; change 4 with (bpow radix2 2); split; apply bpow_le; lia|]. do 4 (split; [assumption|]). unfold on_line2, cross2, size2, sub2. cbn [fst snd].
  assert (A : forall k, -4 <= k <= 4 -> Rabs k <= 4) by (intros; apply abs_le; lra). change (bpow radix2 (-20)) with (/ 1048576).
  repeat split; try (apply A; lra); try (apply abs_le; lra); try lra. change 1 with (bpow radix2 0). apply bpow_le. lia.
Qed.

(** ** C150.  Parallel lines of doubles are not always recognised: the lines through (0, 0), (1, 1) and (0, 1), (49, 50) have no point in common,
    and line_intersect returns finite coordinates, whichever way the solver forms its quotients. *)
Theorem C150_parallel_refuted : let p0 := int2 0 0 in let q0 := int2 1 1 in let p1 := int2 0 1 in let q1 := (nofZ 49, nofZ 50) in
  val2 q1 = (49, 50) /\ cross2 (sub2 (val2 q0) (val2 p0)) (sub2 (val2 q1) (val2 p1)) = 0 /\ (forall x, ~ (on_line2 (val2 p0) (val2 q0) x /\ on_line2 (val2 p1) (val2 q1) x)) /\
  forall quo1 quo2, a_quotient quo1 -> a_quotient quo2 -> fin2 (line_intersect_with quo1 quo2 p0 q0 p1 q1).
Proof.
  cbn zeta. destruct (@int2_val 0 0) as [_ V1]; try lia. destruct (@int2_val 1 1) as [_ V2]; try lia. destruct (@int2_val 0 1) as [_ V3]; try lia. destruct (int_val (z := 49)) as [_ A]; [lia|]. destruct (int_val (z := 50)) as [_ B]; [lia|].
  assert (V4 : val2 (nofZ 49, nofZ 50) = (49, 50)) by (unfold val2; cbn [fst snd]; now rewrite A, B). split; [exact V4|]. rewrite V1, V2, V3, V4. unfold on_line2, cross2, sub2. cbn [fst snd]. split; [lra|]. split; [intros [x y]; cbn [fst snd]; intros [? ?]; lra|].
  intros quo1 quo2 [-> | ->] [-> | ->]; split; vm_compute; reflexivity.
Qed.
Print Assumptions C150_parallel_refuted.
