(** * Properties C141-C143: lengths of a polyline, normals of triangles and canonical points in double precision. *)
From Coq Require Import Reals ZArith List Bool Lra Lia Psatz Permutation.
From Flocq Require Import Core.
From Verif Require Import Num B64 BLemmas Vec RVec VLemmas SpecGeom SpecPoly MVx MPlane MSolids MPolyline PPolyline SpecDouble SpecTransD PErr SpecSumD PSumD PNormD PCrossD PPlaneD PCanonD PropsDouble.
Import ListNotations.
Local Open Scope R_scope.

Lemma poly_of c (vs : list (V3 b64)) P : init_points (Some vs) c = Ok P -> P = poly c vs.
Proof.
  intros HP. assert (Hn : numeric vs = true) by (unfold init_points, set_points in HP; destruct (numeric vs); [reflexivity|discriminate HP]).
  rewrite init_points_some in HP by auto. destruct (c && _); [discriminate HP|now injection HP].
Qed.
Lemma lengths_of c (vs : list (V3 b64)) : segment_lengths (poly c vs) = Ok (map seg_d (segs c vs)).
Proof. unfold segment_lengths. cbn [poly p_e]. fold (poly c vs). rewrite segments_poly. reflexivity. Qed.
Lemma chain_vals c (vs : list (V3 b64)) : segs c (map Rval3 vs) = map Rvals (segs c vs).
Proof. now rewrite segs_map. Qed.

(** ** C141.  segment_lengths and total_length of a polyline of doubles: each length within 12 units of the last
    place of the distance of its end points, 0 where they coincide; the total, in whatever order it is added up,
    within [n + 13] units of the exact length of the chain, [n] the number of segments. *)
Theorem C141_segment_lengths : forall c (vs : list (V3 b64)) P, init_points (Some vs) c = Ok P -> Forall ordinary_segment (segs c vs) ->
  exists ls, segment_lengths P = Ok ls /\
    Forall2 (fun l ab => bfin l = true /\ Rabs (Bval l - seglen ab) <= 12 * u * seglen ab) ls (segs c (map Rval3 vs)).
Proof.
  intros c vs P HP H. rewrite (poly_of _ _ _ HP), lengths_of, chain_vals. eexists. split; [reflexivity|].
  induction H as [|ab l H _ IH]; [constructor|]. cbn [map]. constructor; [|exact IH]. destruct (@seg_ap ab H) as (F & E & _). auto.
Qed.
Print Assumptions C141_segment_lengths.
Theorem C141_total_length : forall c (vs : list (V3 b64)) P, init_points (Some vs) c = Ok P -> Forall ordinary_segment (segs c vs) ->
  (Z.of_nat (length (segs c vs)) < 2 ^ 30)%Z ->
  let good T := bfin T = true /\ Rabs (Bval T - chain_length c (map Rval3 vs)) <= (INR (length (segs c vs)) + 13) * u * chain_length c (map Rval3 vs) in
  (exists T, total_length P = Ok T /\ good T) /\
  (forall ls T, segment_lengths P = Ok ls -> summed ls T \/ summed (nofZ 0 :: ls) T -> good T).
Proof.
  intros c vs P HP H HL good. rewrite (poly_of _ _ _ HP).
  assert (G : forall T, summed (map seg_d (segs c vs)) T \/ summed (nofZ 0 :: map seg_d (segs c vs)) T -> good T) by (intros T HT; unfold good, chain_length; rewrite chain_vals; exact (total_ap H HL HT)).
  split.
  - unfold total_length. rewrite lengths_of. cbn [bindr]. eexists. split; [reflexivity|]. apply G. right. apply nsum_summed.
  - intros ls T E HT. rewrite lengths_of in E. injection E as <-. auto.
Qed.
Print Assumptions C141_total_length.
Lemma ordinary_pair a b : fin3b a = true -> fin3b b = true -> 1 <= rdot (rsub (Rval3 a) (Rval3 b)) (rsub (Rval3 a) (Rval3 b)) <= 1024 -> ordinary_segment (a, b).
Proof.
  intros Fa Fb [L U]. split; [exact Fa|]. split; [exact Fb|]. right. cbn [fst snd]. unfold rdist, rnorm.
  split; [apply Rle_trans with (bpow radix2 0); [apply bpow_le; lia|]; change (bpow radix2 0) with 1; rewrite <- sqrt_1; now apply sqrt_le_1_alt|].
  apply Rle_trans with (bpow radix2 5); [|apply bpow_le; lia]. change (bpow radix2 5) with 32. rewrite <- (sqrt_square 32) by lra. apply sqrt_le_1_alt. lra.
Qed.
Example C141_example : let vs : list (V3 b64) := [int3 1 2 3; int3 4 5 6; int3 4 5 6; int3 7 8 0] in
  (exists P, init_points (Some vs) true = Ok P) /\ Forall ordinary_segment (segs true vs) /\ (Z.of_nat (length (segs true vs)) < 2 ^ 30)%Z /\
  (forall a b c d : b64, summed [a; b; c; d] (nadd (nadd a b) (nadd c d)) /\ summed [a; b; c; d] (nadd (nadd a c) (nadd b d))).
Proof.
  cbn zeta. destruct (@int3_val 1 2 3) as [W1 V1]; try lia. destruct (@int3_val 4 5 6) as [W2 V2]; try lia. destruct (@int3_val 7 8 0) as [W3 V3]; try lia.
  destruct W1 as [F1 _], W2 as [F2 _], W3 as [F3 _].
  split; [eexists; rewrite init_points_some by (vm_compute; reflexivity); reflexivity|]. split; [|split; [reflexivity|]].
  - unfold segs, walk. cbn [app firstn combine tl].
    apply Forall_cons; [apply ordinary_pair; auto; rewrite V1, V2; unfold rdot, rsub; cbn [c0 c1 c2]; lra|].
    apply Forall_cons; [split; [exact F2|]; split; [exact F2|left; reflexivity]|].
    apply Forall_cons; [apply ordinary_pair; auto; rewrite V2, V3; unfold rdot, rsub; cbn [c0 c1 c2]; lra|].
    apply Forall_cons; [apply ordinary_pair; auto; rewrite V1, V3; unfold rdot, rsub; cbn [c0 c1 c2]; lra|constructor].
  - intros a b c d. split.
    + apply (sum_add [a; b] [c; d]); apply (sum_add [_] [_]); constructor.
    + apply sum_perm with ([a; c] ++ [b; d]); [apply perm_skip, perm_swap|]. apply sum_add; apply (sum_add [_] [_]); constructor.
Qed.

(** ** C142.  surface_normal, Plane.from_points and from_points_and_vector for doubles.  [E] bounds the coordinates of
    the edges, not of the points: a small triangle far from the origin is as good as one near it.  The error of the
    unit normal grows as the triangle gets thin: [E^2] over the length of the exact cross product. *)
Definition ordinary_edge (E : R) : Prop := bpow radix2 (-150) <= E <= bpow radix2 150.
Theorem C142_surface_normal : forall E (a b c : V3 b64), ordinary_edge E -> fin3b a = true -> fin3b b = true -> fin3b c = true ->
  let e := rsub (Rval3 b) (Rval3 a) in let f := rsub (Rval3 c) (Rval3 a) in coords_le E e -> coords_le E f ->
  close3 (9 * (u * (E * E))) (surface_normal1 (a, b, c) false) (rcross e f) /\
  (bpow radix2 (-30) * (E * E) <= rnorm (rcross e f) ->
    close3 (64 * (u * (E * E) / rnorm (rcross e f))) (surface_normal1 (a, b, c) true) (unit_of (rcross e f))).
Proof.
  intros E a b c HE Fa Fb Fc e f He Hf. pose proof (cross_ap HE (edge_ap HE Fa Fb He) (edge_ap HE Fa Fc Hf) He Hf) as C. split; [exact C|].
  intros HN. destruct (unit_cross HE C) as [_ U]; [split; [exact HN|exact (cross_size HE He Hf)]|exact U].
Qed.
Print Assumptions C142_surface_normal.
Theorem C142_from_points : forall E (a b c : V3 b64), ordinary_edge E -> fin3b a = true -> fin3b b = true -> fin3b c = true ->
  let e := rsub (Rval3 b) (Rval3 a) in let f := rsub (Rval3 c) (Rval3 a) in coords_le E e -> coords_le E f ->
  let A := rnorm (rcross e f) in bpow radix2 (-30) * (E * E) <= A ->
  (3 / 100000000 <= A -> exists p, from_points a b c = Ok p) /\
  forall p, from_points a b c = Ok p -> reference_point p = a /\ close3 (64 * (u * (E * E) / A)) (normal p) (unit_of (rcross e f)) /\
    Rabs (rdot (Rval3 (normal p)) e) <= 192 * (u * (E * E) / A) * E /\ Rabs (rdot (Rval3 (normal p)) f) <= 192 * (u * (E * E) / A) * E.
Proof.
  intros E a b c HE Fa Fb Fc e f He Hf A HA. pose proof (cross_ap HE (edge_ap HE Fa Fb He) (edge_ap HE Fa Fc Hf) He Hf) as C.
  destruct (@plane_cross E HE a _ _ C) as [X Y]; [split; [exact HA|exact (cross_size HE He Hf)]|]. split; [exact X|]. intros p HP. destruct (Y p HP) as [R N]. split; [exact R|]. split; [exact N|].
  pose proof (edge_pos HE) as PE. assert (PA : 0 < A) by (apply Rlt_le_trans with (2 := HA); apply Rmult_lt_0_compat; [apply bpow_gt_0|nra]). pose proof eps_pos as P0.
  assert (PD : 0 <= 64 * (u * (E * E) / A)) by (apply Rmult_le_pos; [lra|]; apply Rmult_le_pos; [change u with eps; nra|apply Rlt_le, Rinv_0_lt_compat; exact PA]).
  assert (Z : forall w, rdot (rcross e f) w = 0 -> rdot (unit_of (rcross e f)) w = 0) by (intros w W; unfold unit_of; rewrite rdot_scale_l, W; ring).
  replace (192 * (u * (E * E) / A) * E) with (3 * (64 * (u * (E * E) / A)) * E) by ring.
  split; apply (nearly_perp HE N PD); auto; apply Z; unfold rdot, rcross; cbn [c0 c1 c2]; ring.
Qed.
Print Assumptions C142_from_points.
Theorem C142_from_points_and_vector : forall E (a b v : V3 b64), ordinary_edge E -> fin3b a = true -> fin3b b = true -> fin3b v = true ->
  let e := rsub (Rval3 b) (Rval3 a) in coords_le E e -> coords_le E (Rval3 v) ->
  let A := rnorm (rcross e (Rval3 v)) in bpow radix2 (-30) * (E * E) <= A ->
  (3 / 100000000 <= A -> exists p, from_points_and_vector a b v = Ok p) /\
  forall p, from_points_and_vector a b v = Ok p -> reference_point p = a /\ close3 (64 * (u * (E * E) / A)) (normal p) (unit_of (rcross e (Rval3 v))) /\
    Rabs (rdot (Rval3 (normal p)) e) <= 192 * (u * (E * E) / A) * E /\ Rabs (rdot (Rval3 (normal p)) (Rval3 v)) <= 192 * (u * (E * E) / A) * E.
Proof.
  intros E a b v HE Fa Fb Fv e He Hv A HA. pose proof (edge_pos HE) as PE. pose proof eps_pos as P0.
  assert (CV : close3 (eps * E) v (Rval3 v)) by (split; [exact Fv|]; unfold Rval3, map3; cbn [c0 c1 c2]; rewrite !Rminus_eq_0, Rabs_R0; repeat split; nra).
  pose proof (cross_ap HE (edge_ap HE Fa Fb He) CV He Hv) as C.
  destruct (@plane_cross E HE a _ _ C) as [X Y]; [split; [exact HA|exact (cross_size HE He Hv)]|]. split; [exact X|]. intros p HP. destruct (Y p HP) as [R N]. split; [exact R|]. split; [exact N|].
  assert (PA : 0 < A) by (apply Rlt_le_trans with (2 := HA); apply Rmult_lt_0_compat; [apply bpow_gt_0|nra]).
  assert (PD : 0 <= 64 * (u * (E * E) / A)) by (apply Rmult_le_pos; [lra|]; apply Rmult_le_pos; [change u with eps; nra|apply Rlt_le, Rinv_0_lt_compat; exact PA]).
  assert (Z : forall w, rdot (rcross e (Rval3 v)) w = 0 -> rdot (unit_of (rcross e (Rval3 v))) w = 0) by (intros w W; unfold unit_of; rewrite rdot_scale_l, W; ring).
  replace (192 * (u * (E * E) / A) * E) with (3 * (64 * (u * (E * E) / A)) * E) by ring.
  split; apply (nearly_perp HE N PD); auto; apply Z; unfold rdot, rcross; cbn [c0 c1 c2]; ring.
Qed.
Print Assumptions C142_from_points_and_vector.
Lemma edge4 : ordinary_edge 4.
Proof. change 4 with (bpow radix2 2). split; apply bpow_le; lia. Qed.
(** (1, 2, 3), (2, 4, 3), (4, 2, 5): edges (1, 2, 0) and (3, 0, 2), cross product (4, -2, -6) of length sqrt 56 *)
Example C142_example : let a := int3 1 2 3 in let b := int3 2 4 3 in let c := int3 4 2 5 in
  let e := rsub (Rval3 b) (Rval3 a) in let f := rsub (Rval3 c) (Rval3 a) in
  ordinary_edge 4 /\ fin3b a = true /\ fin3b b = true /\ fin3b c = true /\ coords_le 4 e /\ coords_le 4 f /\
  bpow radix2 (-30) * (4 * 4) <= rnorm (rcross e f) /\ 3 / 100000000 <= rnorm (rcross e f) /\ rdot (rcross e f) (rcross e f) = 56.
Proof.
  cbn zeta. destruct (@int3_val 1 2 3) as [[F1 _] V1]; try lia. destruct (@int3_val 2 4 3) as [[F2 _] V2]; try lia. destruct (@int3_val 4 2 5) as [[F3 _] V3]; try lia. rewrite V1, V2, V3.
  assert (D : rdot (rcross (rsub (mk3 2 4 3) (mk3 1 2 3)) (rsub (mk3 4 2 5) (mk3 1 2 3))) (rcross (rsub (mk3 2 4 3) (mk3 1 2 3)) (rsub (mk3 4 2 5) (mk3 1 2 3))) = 56) by (unfold rdot, rcross, rsub; cbn [c0 c1 c2]; lra).
  assert (N : 1 <= rnorm (rcross (rsub (mk3 2 4 3) (mk3 1 2 3)) (rsub (mk3 4 2 5) (mk3 1 2 3)))) by (unfold rnorm; rewrite D; rewrite <- sqrt_1; apply sqrt_le_1_alt; lra).
  split; [exact edge4|]. do 3 (split; [assumption|]). split; [repeat split; unfold rsub; cbn [c0 c1 c2]; apply Rabs_le; lra|]. split; [repeat split; unfold rsub; cbn [c0 c1 c2]; apply Rabs_le; lra|].
  split; [change (bpow radix2 (-30)) with (/ 1073741824); lra|]. split; [lra|exact D].
Qed.

(** ** C143.  canonical_point and equation for doubles *)
Theorem C143_canonical_point : forall M r n p, plane_of M r n p ->
  let N := unit_of (Rval3 n) in
  close3 (86 * (u * M)) (canonical_point p) (rscale (rdot (Rval3 r) N) N) /\
  Rabs (plane_distance r n (canonical_point p)) <= 172 * (u * M).
Proof. intros M r n p (HM & Wr & Fn & Un & HP) N. split; [exact (canon_ap HM Wr Fn Un HP)|exact (canon_dist HM Wr Fn Un HP)]. Qed.
Print Assumptions C143_canonical_point.
(** Whatever reference point and normal describe the plane, the canonical point is the same, up to rounding. *)
Theorem C143_canonical : forall M r n p r' n' p', plane_of M r n p -> plane_of M r' n' p' ->
  (unit_of (Rval3 n') = unit_of (Rval3 n) \/ unit_of (Rval3 n') = rscale (-1) (unit_of (Rval3 n))) -> plane_distance r n r' = 0 ->
  forall x y, canonical_point p = x -> canonical_point p' = y ->
    Rabs (Bval (c0 x) - Bval (c0 y)) <= 172 * (u * M) /\ Rabs (Bval (c1 x) - Bval (c1 y)) <= 172 * (u * M) /\ Rabs (Bval (c2 x) - Bval (c2 y)) <= 172 * (u * M).
Proof.
  intros M r n p r' n' p' H H' HN HD x y <- <-. apply C143_canonical_point in H. apply C143_canonical_point in H'. destruct H as [(_ & A0 & A1 & A2) _], H' as [(_ & B0 & B1 & B2) _].
  assert (Q : rscale (rdot (Rval3 r') (unit_of (Rval3 n'))) (unit_of (Rval3 n')) = rscale (rdot (Rval3 r) (unit_of (Rval3 n))) (unit_of (Rval3 n))).
  { unfold plane_distance in HD. rewrite rdot_sub_l in HD. assert (E : rdot (Rval3 r') (unit_of (Rval3 n)) = rdot (Rval3 r) (unit_of (Rval3 n))) by lra.
    destruct HN as [-> | ->]; [now rewrite E|]. rewrite <- E. unfold rscale, rdot. cbn [c0 c1 c2]. f_equal; ring. }
  rewrite Q in B0, B1, B2. apply abs_le in A0, A1, A2, B0, B1, B2. repeat split; apply abs_le; lra.
Qed.
Print Assumptions C143_canonical.
(** equation returns A, B, C, D with [A x + B y + C z + D] the distance of (x, y, z) *)
Theorem C143_equation : forall M r n p, plane_of M r n p ->
  exists A B C D, equation p = mk4 A B C D /\ close3 (12 * u) (mk3 A B C) (unit_of (Rval3 n)) /\ bfin D = true /\
    Rabs (Bval D + rdot (Rval3 r) (unit_of (Rval3 n))) <= 58 * (u * M) /\
    forall x, within M x -> Rabs (Bval A * Bval (c0 x) + Bval B * Bval (c1 x) + Bval C * Bval (c2 x) + Bval D - plane_distance r n x) <= 94 * (u * M).
Proof.
  intros M r n p (HM & Wr & Fn & Un & HP). pose proof (equation_ap HM Wr Fn Un HP) as Q. destruct (equation p) as [A B C D]. destruct Q as (E & F & G). destruct (plane_fields Fn Un HP) as [_ K]. rewrite <- E in K.
  exists A, B, C, D. split; [reflexivity|]. split; [exact K|]. split; [exact F|]. split; [exact G|]. intros x (_ & X0 & X1 & X2). destruct K as (_ & K0 & K1 & K2). cbn [c0 c1 c2] in K0, K1, K2.
  set (N := unit_of (Rval3 n)) in *. pose proof eps_pos as PE. assert (PM : 0 <= M) by (apply Rle_trans with (2 := X0); apply Rabs_pos).
  assert (Q : forall k y z, Rabs (k - z) <= 12 * eps -> Rabs y <= M -> Rabs ((k - z) * y) <= 12 * eps * M) by (intros; apply mul_bound; auto; lra).
  pose proof (Q _ _ _ K0 X0) as Q0. pose proof (Q _ _ _ K1 X1) as Q1. pose proof (Q _ _ _ K2 X2) as Q2. apply abs_le in G, Q0, Q1, Q2. change u with eps in *.
  unfold plane_distance. fold N. rewrite rdot_sub_l. apply abs_le. unfold rdot, Rval3, map3 in *. cbn [c0 c1 c2] in *. lra.
Qed.
Print Assumptions C143_equation.
(** The plane of C104's example, twice: described by another point of it and the opposite normal. *)
Example C143_example : exists p p', plane_of 16 (int3 1 2 3) (int3 1 2 2) p /\ plane_of 16 (int3 3 2 2) (int3 (-1) (-2) (-2)) p' /\
  unit_of (Rval3 (int3 (-1) (-2) (-2))) = rscale (-1) (unit_of (Rval3 (int3 1 2 2))) /\ plane_distance (int3 1 2 3) (int3 1 2 2) (int3 3 2 2) = 0.
Proof.
  destruct plane122 as [P N]. destruct (@int3_val 1 2 3) as [W1 V1]; try lia. destruct (@int3_val 1 2 2) as [W2 V2]; try lia. destruct (@int3_val 3 2 2) as [W3 V3]; try lia. destruct (@int3_val (-1) (-2) (-2)) as [W4 V4]; try lia.
  assert (N' : rnorm (Rval3 (int3 (-1) (-2) (-2))) = 3) by (rewrite V4; unfold rnorm, rdot; cbn [c0 c1 c2]; replace (-1 * -1 + -2 * -2 + -2 * -2) with (3 * 3) by ring; apply sqrt_square; lra).
  eexists. exists (mkpl (int3 3 2 2) (normalize1 (int3 (-1) (-2) (-2)))). split; [exact P|]. split.
  { split; [exact ok16|]. split; [exact W3|]. split; [apply W4|]. split; [rewrite N'; apply Rle_trans with (bpow radix2 2); [change (bpow radix2 2) with 4; lra|apply bpow_le; lia]|].
    unfold mk_plane. replace (almost_zero (int3 (-1) (-2) (-2)) default_atol) with false by (vm_compute; reflexivity). reflexivity. }
  unfold plane_distance, unit_of. rewrite N, N', V1, V2, V3, V4. unfold rdot, rsub, rscale. cbn [c0 c1 c2]. split; [f_equal; lra|lra].
Qed.
