(** * Cutting triangles by a plane. *)
From Coq Require Import Reals ZArith List Bool Lra Lia Psatz.
From Verif Require Import Num XLemmas Vec RVec VLemmas SpecGeom SpecHull SpecMesh PPlane PPlane2 MPlane.
Import ListNotations.
Local Open Scope R_scope.
Set Implicit Arguments.
Unset Strict Implicit.

Lemma in_hull3 A B C z : in_hull [A; B; C] z <->
  exists a b c, 0 <= a /\ 0 <= b /\ 0 <= c /\ a + b + c = 1 /\ z = radd (radd (rscale a A) (rscale b B)) (rscale c C).
Proof.
  split.
  - intros (ws & (L & P & S) & E0 & E1 & E2). destruct ws as [|a [|b [|c [|d ws]]]]; try discriminate L. unfold mix in *. cbn [map combine rsum fst snd] in *.
    rewrite !Forall_cons_iff in P. destruct P as (Pa & Pb & Pc & _). exists a, b, c. repeat split; try lra. destruct z as [x y w]. unfold radd, rscale. cbn [c0 c1 c2] in *. f_equal; lra.
  - intros (a & b & c & Pa & Pb & Pc & S & ->). exists [a; b; c]. unfold weights, mix, radd, rscale. cbn [length map combine rsum fst snd c0 c1 c2]. repeat split; auto; lra.
Qed.
Lemma hull3_perm A B C z : in_hull [A; B; C] z <-> in_hull [B; C; A] z.
Proof.
  rewrite !in_hull3. split; intros (a & b & c & Pa & Pb & Pc & S & ->).
  - exists b, c, a. repeat split; try lra. unfold radd, rscale. cbn [c0 c1 c2]. f_equal; ring.
  - exists c, a, b. repeat split; try lra. unfold radd, rscale. cbn [c0 c1 c2]. f_equal; ring.
Qed.
Lemma hull3_swap A B C z : in_hull [A; B; C] z <-> in_hull [A; C; B] z.
Proof.
  rewrite !in_hull3. split; intros (a & b & c & Pa & Pb & Pc & S & ->); exists a, c, b; (repeat split; try lra); unfold radd, rscale; cbn [c0 c1 c2]; f_equal; ring.
Qed.
Lemma sdist_comb p n A B C a b c : a + b + c = 1 -> sdist p n (radd (radd (rscale a A) (rscale b B)) (rscale c C)) = a * sdist p n A + b * sdist p n B + c * sdist p n C.
Proof.
  intros S. assert (E : a = 1 - b - c) by lra. subst a. unfold sdist, Rdiv. set (k := / rnorm n). clearbody k. unfold rdot, rsub, radd, rscale. cbn [c0 c1 c2]. ring.
Qed.
(** the point where an edge with end points on different sides crosses *)
Definition cut (p n A B : V3 R) : V3 R := lerp (sdist p n A / (sdist p n A - sdist p n B)) A B.
Lemma lerp_sym t A B : lerp t A B = lerp (1 - t) B A.
Proof. unfold lerp, radd, rscale, rsub. cbn [c0 c1 c2]. f_equal; ring. Qed.
Lemma cut_sym p n A B : sdist p n A <> sdist p n B -> cut p n A B = cut p n B A.
Proof. intros H. unfold cut. rewrite lerp_sym. f_equal. field. lra. Qed.
Lemma sdist_lerp p n t A B : sdist p n (lerp t A B) = (1 - t) * sdist p n A + t * sdist p n B.
Proof. unfold sdist, Rdiv. set (k := / rnorm n). clearbody k. unfold lerp, rdot, rsub, radd, rscale. cbn [c0 c1 c2]. ring. Qed.
Lemma cut_sdist p n A B : sdist p n A <> sdist p n B -> sdist p n (cut p n A B) = 0.
Proof. intros H. unfold cut. rewrite sdist_lerp. field. lra. Qed.
(** [a] is alone on its side *)
Lemma section_lone p n A B C : n <> rzero -> sdist p n A * sdist p n B < 0 -> sdist p n A * sdist p n C < 0 ->
  is_section p n [A; B; C] (cut p n A B, cut p n A C).
Proof.
  intros NZ HB HC z. cbn [fst snd]. set (x := sdist p n A) in *. set (y := sdist p n B) in *. set (w := sdist p n C) in *.
  assert (Nx : x <> 0) by nra. assert (Ny : x <> y) by nra. assert (Nw : x <> w) by nra.
  assert (Py : 0 < (x - y) / x). { replace ((x - y) / x) with (x * x * (/ x * / x) - x * y * (/ x * / x)) by (field; auto). assert (0 < / x * / x) by (rewrite <- Rinv_mult; apply Rinv_0_lt_compat; nra). nra. }
  assert (Pw : 0 < (x - w) / x). { replace ((x - w) / x) with (x * x * (/ x * / x) - x * w * (/ x * / x)) by (field; auto). assert (0 < / x * / x) by (rewrite <- Rinv_mult; apply Rinv_0_lt_compat; nra). nra. }
  rewrite in_hull3, (on_plane_sdist _ _ NZ). split.
  - intros [(a & b & c & Pa & Pb & Pc & S & ->) Z]. rewrite (sdist_comb p n A B C S) in Z. fold x y w in Z.
    exists (c * ((x - w) / x)). assert (Q : b * ((x - y) / x) + c * ((x - w) / x) = 1). { replace (b * ((x - y) / x) + c * ((x - w) / x)) with (b + c - (b * y + c * w) / x) by (field; auto). replace (b * y + c * w) with (- (a * x)) by lra. replace (- (a * x) / x) with (- a) by (field; auto). lra. }
    split; [nra|]. unfold cut. fold x y w. 
    assert (Eb : b = (1 - c * ((x - w) / x)) * (x / (x - y))). { replace (1 - c * ((x - w) / x)) with (b * ((x - y) / x)) by lra. field. lra. }
    assert (Ec : c = c * ((x - w) / x) * (x / (x - w))) by (field; lra).
    set (t := c * ((x - w) / x)) in *. assert (Ea : a = 1 - b - c) by lra. rewrite Ea, Ec, Eb. clearbody t. clear. unfold lerp, radd, rscale, rsub. cbn [c0 c1 c2]. f_equal; ring.
  - intros (t & Ht & ->).
    assert (By : 0 <= x / (x - y) <= 1). { assert (E : x / (x - y) = / ((x - y) / x)) by (field; lra). assert (H1 : 1 <= (x - y) / x). { replace ((x - y) / x) with (1 - x * y * (/ x * / x)) by (field; auto). assert (0 < / x * / x) by (rewrite <- Rinv_mult; apply Rinv_0_lt_compat; nra). nra. } rewrite E. split; [left; apply Rinv_0_lt_compat; lra|]. rewrite <- Rinv_1. apply Rinv_le_contravar; lra. }
    assert (Bw : 0 <= x / (x - w) <= 1). { assert (E : x / (x - w) = / ((x - w) / x)) by (field; lra). assert (H1 : 1 <= (x - w) / x). { replace ((x - w) / x) with (1 - x * w * (/ x * / x)) by (field; auto). assert (0 < / x * / x) by (rewrite <- Rinv_mult; apply Rinv_0_lt_compat; nra). nra. } rewrite E. split; [left; apply Rinv_0_lt_compat; lra|]. rewrite <- Rinv_1. apply Rinv_le_contravar; lra. }
    split.
    + exists (1 - (1 - t) * (x / (x - y)) - t * (x / (x - w))), ((1 - t) * (x / (x - y))), (t * (x / (x - w))). repeat split; try nra.
      unfold cut. fold x y w. set (u := x / (x - y)). set (v := x / (x - w)). clearbody u v. clear. unfold lerp, radd, rscale, rsub. cbn [c0 c1 c2]. f_equal; ring.
    + rewrite sdist_lerp, !cut_sdist by auto. ring.
Qed.
Lemma section_flip p n tri x y : is_section p n tri (x, y) -> is_section p n tri (y, x).
Proof.
  intros H z. rewrite (H z). cbn [fst snd]. unfold on_segment. split; intros (t & Ht & ->); exists (1 - t); (split; [lra|]); rewrite (lerp_sym t); f_equal; ring.
Qed.
Lemma section_perm p n A B C s : is_section p n [A; B; C] s <-> is_section p n [B; C; A] s.
Proof. unfold is_section. split; intros H z; [rewrite <- hull3_perm|rewrite hull3_perm]; apply H. Qed.
Lemma misses_side p n A B C : n <> rzero -> (0 < sdist p n A /\ 0 < sdist p n B /\ 0 < sdist p n C) \/ (sdist p n A < 0 /\ sdist p n B < 0 /\ sdist p n C < 0) -> misses p n [A; B; C].
Proof.
  intros NZ H z Hz. rewrite (on_plane_sdist _ _ NZ). apply in_hull3 in Hz. destruct Hz as (a & b & c & Pa & Pb & Pc & S & ->). rewrite (sdist_comb p n A B C S). intros E.
  assert (K : forall r w, 0 <= r -> 0 < w -> 0 <= r * w /\ (r * w = 0 -> r = 0)) by (intros r w Hr Hw; split; [nra|intros Q; apply Rmult_integral in Q; lra]).
  destruct H as [(HA & HB & HC)|(HA & HB & HC)].
  - destruct (K a _ Pa HA), (K b _ Pb HB), (K c _ Pc HC). assert (a = 0) by (apply H0; lra). assert (b = 0) by (apply H2; lra). assert (c = 0) by (apply H4; lra). lra.
  - destruct (K a (- sdist p n A) Pa ltac:(lra)), (K b (- sdist p n B) Pb ltac:(lra)), (K c (- sdist p n C) Pc ltac:(lra)). assert (a = 0) by (apply H0; lra). assert (b = 0) by (apply H2; lra). assert (c = 0) by (apply H4; lra). lra.
Qed.
