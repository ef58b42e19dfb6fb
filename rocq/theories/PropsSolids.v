(** * Properties C42 - C44: Box, surface_normal, generated solids. *)
From Coq Require Import Reals ZArith List Bool Lra Lia Permutation.
From Verif Require Import Num B64 XLemmas BLemmas Vec RVec VLemmas SpecGeom SpecSolid NpList MVx MPlane PVx PPlane MSolids PSolids.
Import ListNotations.
Local Open Scope R_scope.
Set Implicit Arguments.
Unset Strict Implicit.

(** C42 *)
Theorem C42_constructor : forall a b : triple_in xr,
  (exists o s, a = Triple (fin3 o) /\ b = Triple (fin3 s) /\ (0 <= c0 s /\ 0 <= c1 s /\ 0 <= c2 s) /\
     mk_box a b = Ok (mkbox (fin3 o) (fin3 s))) \/
  ((forall o s, a = Triple (fin3 o) -> b = Triple (fin3 s) -> ~ (0 <= c0 s /\ 0 <= c1 s /\ 0 <= c2 s)) /\
   mk_box a b = Err ValueError).
Proof. exact box_accepts. Qed.
Print Assumptions C42_constructor.
Theorem C42_exact : forall o s bx, mk_box (Triple (fin3 o)) (Triple (fin3 s)) = Ok bx ->
  exists mid center floor,
    box_min bx = fin3 o /\ box_mid bx = fin3 mid /\ box_max bx = fin3 (radd o s) /\ box_dims bx = fin3 s /\
    ranges bx = mk3 (Fin (c0 o), Fin (c0 o + c0 s)) (Fin (c1 o), Fin (c1 o + c1 s)) (Fin (c2 o), Fin (c2 o + c2 s)) /\
    radd o s = rsub (rscale 2 mid) o /\ in_box o s mid /\
    center_point bx = fin3 center /\ center = mid /\
    floor_point bx = fin3 floor /\ floor = mk3 (c0 mid) (c1 o) (c2 mid) /\ in_box o s floor /\
    volume bx = Fin (c0 s * c1 s * c2 s) /\ 0 <= c0 s * c1 s * c2 s /\
    surface_area bx = Fin (2 * (c0 s * c1 s) + 2 * (c1 s * c2 s) + 2 * (c0 s * c2 s)) /\
    0 <= 2 * (c0 s * c1 s) + 2 * (c1 s * c2 s) + 2 * (c0 s * c2 s).
Proof.
  intros o s bx H. destruct (box_accepts (Triple (fin3 o)) (Triple (fin3 s))) as [(o'&s'&E1&E2&N&E)|[_ E]]; [|congruence].
  assert (o = o') as <- by (apply fin3_inj; congruence). assert (s = s') as <- by (apply fin3_inj; congruence).
  assert (bx = mkbox (fin3 o) (fin3 s)) as -> by congruence. now apply box_exact.
Qed.
Print Assumptions C42_exact.
(** IEEE doubles: the orderings survive rounding and overflow. *)
Theorem C42_orderings_double : forall (a b : triple_in b64) bx, mk_box a b = Ok bx ->
  let ordered x y z := zip3 (fun p q => nle p q) x y = mk3 true true true /\ zip3 (fun p q => nle p q) y z = mk3 true true true in
  ordered (box_min bx) (box_mid bx) (box_max bx) /\
  ordered (box_min bx) (center_point bx) (box_max bx) /\
  ordered (box_min bx) (floor_point bx) (box_max bx) /\
  zip3 (fun r x => neqb (fst r) x) (ranges bx) (box_min bx) = mk3 true true true /\
  zip3 (fun r x => neqb (snd r) x) (ranges bx) (box_max bx) = mk3 true true true.
Proof.
  intros a b bx H. unfold mk_box in H.
  destruct a as [[ox oy oz]|]; [|discriminate]. unfold as_triple at 1 in H. unfold all3, map3 in H. cbn [c0 c1 c2] in H.
  destruct (nfinite ox && nfinite oy && nfinite oz)%bool eqn:Fo; [|discriminate].
  destruct b as [[sx sy sz]|]; [|discriminate]. cbn [bindr] in H. unfold as_triple, all3, map3 in H. cbn [c0 c1 c2] in H.
  destruct (nfinite sx && nfinite sy && nfinite sz)%bool eqn:Fs; [|discriminate]. cbn [bindr] in H.
  unfold any3 in H. cbn [c0 c1 c2] in H.
  destruct ((sx <? n0)%num || (sy <? n0)%num || (sz <? n0)%num)%bool eqn:Ns; [discriminate|].
  assert (bx = mkbox (mk3 ox oy oz) (mk3 sx sy sz)) as -> by congruence. clear H.
  apply andb_true_iff in Fo as [Fo Fo3]. apply andb_true_iff in Fo as [Fo1 Fo2].
  apply andb_true_iff in Fs as [Fs Fs3]. apply andb_true_iff in Fs as [Fs1 Fs2].
  apply orb_false_iff in Ns as [Ns Ns3]. apply orb_false_iff in Ns as [Ns1 Ns2].
  destruct (axis_double Fo1 Fs1 Ns1) as (A1&A2&A3&A4&A5&A6&A7&A8&A9).
  destruct (axis_double Fo2 Fs2 Ns2) as (B1&B2&B3&B4&B5&B6&B7&B8&B9).
  destruct (axis_double Fo3 Fs3 Ns3) as (D1&D2&D3&D4&D5&D6&D7&D8&D9).
  unfold box_min, box_mid, box_max, center_point, floor_point, ranges, vadd, vscale, vmul, zip3, map3.
  cbn [c0 c1 c2 b_origin b_shape fst snd].
  rewrite A1, A2, A3, A4, A8, A9, B1, B2, B3, B4, B5, B6, B8, B9, D1, D2, D3, D4, D8, D9. repeat split; reflexivity.
Qed.
Print Assumptions C42_orderings_double.
Example C42_example :
  (exists bx, mk_box (Triple (fin3 (mk3 1 (-2) 0))) (Triple (fin3 (mk3 2 0 3))) = Ok bx) /\
  (let big := nmul (nofZ (2 ^ 1000)) (nofZ (2 ^ 23)) in
   mapr (fun bx => map3 nfinite (box_max bx)) (@mk_box b64 _ (Triple (mk3 big n0 n0)) (Triple (mk3 big n0 n0)))
     = Ok (mk3 false true true)).
Proof.
  split; [|vm_compute; reflexivity].
  eexists. apply mk_box_fin. unfold nonneg; cbn; lra.
Qed.

(** C43 *)
Theorem C43_normal : forall a b c : V3 R,
  exists n, surface_normal1 (fin3 a, fin3 b, fin3 c) false = fin3 n /\
    rdot n (rsub b a) = 0 /\ rdot n (rsub c a) = 0 /\ rdot n (rsub c b) = 0 /\
    rnorm n = 2 * triangle_area a b c /\
    (forall d : V3 R, rdot n d = rdet (mk3 (rsub b a) (rsub c a) d)) /\
    (n <> rzero -> exists u, surface_normal1 (fin3 a, fin3 b, fin3 c) true = fin3 u /\ rnorm u = 1 /\ n = rscale (rnorm n) u) /\
    (n = rzero -> surface_normal1 (fin3 a, fin3 b, fin3 c) true = mk3 NaN NaN NaN).
Proof.
  intros a b c. exists (rcross (rsub b a) (rsub c a)).
  split; [exact (surface_raw (a, b, c))|]. destruct (normal_perp a b c) as (P1&P2&P3). do 3 (split; [assumption|]).
  split; [apply normal_area|]. split; [clear; vring|]. split.
  - intros N. exists (runit (rcross (rsub b a) (rsub c a))). split; [exact (@surface_unit (a, b, c) N)|].
    split; [now apply runit_norm|now apply runit_scale].
  - intros N. unfold surface_normal1. rewrite !fsub, fcross, N. apply normalize1_zero.
Qed.
Print Assumptions C43_normal.
Theorem C43_swap_and_cycle : forall a b c : V3 R, rcross (rsub b a) (rsub c a) <> rzero -> forall nz,
  let sn x y z := surface_normal1 (fin3 x, fin3 y, fin3 z) nz in
  exists n, sn a b c = fin3 n /\
    sn b c a = fin3 n /\ sn c a b = fin3 n /\
    sn a c b = fin3 (rscale (-1) n) /\ sn b a c = fin3 (rscale (-1) n) /\ sn c b a = fin3 (rscale (-1) n).
Proof.
  intros a b c N nz sn.
  assert (C1 : rcross (rsub c b) (rsub a b) = rcross (rsub b a) (rsub c a)) by apply normal_cycle.
  assert (C2 : rcross (rsub a c) (rsub b c) = rcross (rsub b a) (rsub c a)) by (clear; vring).
  assert (S1 : rcross (rsub c a) (rsub b a) = rscale (-1) (rcross (rsub b a) (rsub c a))) by apply normal_swap.
  assert (S2 : rcross (rsub a b) (rsub c b) = rscale (-1) (rcross (rsub b a) (rsub c a))) by apply normal_swap'.
  assert (S3 : rcross (rsub b c) (rsub a c) = rscale (-1) (rcross (rsub b a) (rsub c a))) by (clear; vring).
  set (m := rcross (rsub b a) (rsub c a)) in *.
  assert (Nm : rscale (-1) m <> rzero).
  { intros E. apply N. replace m with (rscale (-1) (rscale (-1) m)) by (rewrite rscale_scale; replace (-1 * -1) with 1 by ring; apply rscale_1).
    rewrite E. unfold rzero, rscale. cbn. f_equal; ring. }
  unfold sn, surface_normal1. rewrite !fsub, !fcross, C1, C2, S1, S2, S3. fold m. destruct nz.
  - exists (runit m). rewrite !normalize1_fin by auto.
    assert (U : runit (rscale (-1) m) = rscale (-1) (runit m)).
    { unfold runit. rewrite rnorm_scale, Rabs_left by lra. rewrite !rscale_scale. f_equal.
      apply rnorm_gt0 in N. field. lra. }
    rewrite U. repeat split.
  - exists m. repeat split.
Qed.
Print Assumptions C43_swap_and_cycle.
Theorem C43_rows_independent : forall F (N : Num F) (ts : list (triangle F)) nz,
  length (surface_normals ts nz) = length ts /\
  forall i, nth_error (surface_normals ts nz) i = option_map (fun t => surface_normal1 t nz) (nth_error ts i).
Proof. intros. unfold surface_normals. split; [apply map_length|intros i; apply nth_error_map]. Qed.
Print Assumptions C43_rows_independent.
Example C43_example : rcross (rsub (mk3 1 0 0) (mk3 0 0 0)) (rsub (mk3 0 1 0) (mk3 0 0 0)) <> rzero.
Proof. unfold rcross, rsub, rzero. cbn. intros [= E1 E2]. lra. Qed.

(** C44 *)
Theorem C44_rectangular_prism : forall q2t o s, splits_quads q2t ->
  exists vs fs tris, rectangular_prism q2t (fin3 o) (fin3 s) = (map fin3 vs, fs) /\
    closed_surface fs /\ flatten (map fin3 vs) fs = Ok (map fin_tri tris) /\
    nth 0 vs rzero = o /\ nth 6 vs rzero = radd o s /\ length vs = 8%nat /\
    (forall x, In x vs <-> corner o s x) /\
    signed_volume tris = c0 s * c1 s * c2 s /\
    (0 <= c0 s /\ 0 <= c1 s /\ 0 <= c2 s -> forall x, in_box o s x -> Forall (behind x) tris) /\
    (0 < c0 s -> 0 < c1 s -> 0 < c2 s -> forall x, in_box o s x <-> Forall (behind x) tris).
Proof. exact rectangular_prism_spec. Qed.
Print Assumptions C44_rectangular_prism.
Theorem C44_cube : forall q2t o d, splits_quads q2t ->
  exists vs fs tris, cube q2t (fin3 o) (Fin d) = (map fin3 vs, fs) /\
    closed_surface fs /\ flatten (map fin3 vs) fs = Ok (map fin_tri tris) /\
    signed_volume tris = d * d * d /\
    (forall x, In x vs <-> corner o (mk3 d d d) x) /\
    (0 < d -> forall x, in_box o (mk3 d d d) x <-> Forall (behind x) tris).
Proof.
  intros q2t o d Q. destruct (rectangular_prism_spec o (mk3 d d d) Q) as (vs&fs&tris&E&C&FL&_&_&_&I&V&_&B).
  exists vs, fs, tris. rewrite cube_is_prism. do 3 (split; [assumption|]). split; [exact V|]. split; [assumption|].
  intros D. apply B; exact D.
Qed.
Print Assumptions C44_cube.
Theorem C44_triangular_prism : forall p1 p2 p3 h, let c := rcross (rsub p2 p1) (rsub p3 p1) in
  (tiny c -> triangular_prism (fin3 p1) (fin3 p2) (fin3 p3) (Fin h) = Err ValueError) /\
  (~ tiny c -> exists u q1 q2 q3 fs tris, rnorm u = 1 /\ (exists t, 0 < t /\ u = rscale t c) /\
    let vs := [p1; p2; p3; q1; q2; q3] in
    triangular_prism (fin3 p1) (fin3 p2) (fin3 p3) (Fin h) = Ok (map fin3 vs, fs) /\
    closed_surface fs /\ flatten (map fin3 vs) fs = Ok (map fin_tri tris) /\
    q1 = rsub p1 (rscale h u) /\ q2 = rsub p2 (rscale h u) /\ q3 = rsub p3 (rscale h u) /\
    Forall (fun q => sdist p1 c q = - h) [q1; q2; q3] /\
    signed_volume tris = h * triangle_area p1 p2 p3 /\
    (0 < h -> forall x, in_prism p1 p2 p3 u h x <-> Forall (behind x) tris)).
Proof. exact triangular_prism_spec. Qed.
Print Assumptions C44_triangular_prism.
Theorem C44_horizontal_plane : exists vs tris, horizontal_plane = (map fin3 vs, [(0, 1, 2); (3, 1, 0)]%nat) /\
  flatten (map fin3 vs) [(0, 1, 2); (3, 1, 0)]%nat = Ok (map fin_tri tris) /\
  Forall (fun v => c1 v = 0) vs /\
  Forall (fun t => let '(a, b, c) := t in rcross (rsub b a) (rsub c a) = mk3 0 2 0) tris.
Proof.
  destruct horizontal_spec as (vs&tris&E1&E2&E3&E4). exists vs, tris. do 3 (split; [assumption|]).
  eapply Forall_impl; [|exact E4]. now intros [[a b] c].
Qed.
Print Assumptions C44_horizontal_plane.
Example C44_example : splits_quads (flat_map (fun q => let '(a, b, c, d) := q in [(a, b, c); (a, c, d)])).
Proof. exact simple_splitter. Qed.
