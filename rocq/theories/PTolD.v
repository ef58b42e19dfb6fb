(** * Tolerance predicates on doubles: proofs for property C160. *)
From Coq Require Import Reals ZArith List Bool Lra Lia Psatz.
From Flocq Require Import Core IEEE754.BinarySingleNaN.
From Verif Require Import Num B64 BLemmas Vec RVec VLemmas MVx MPlane SpecDouble PErr PNormD PSumD PPlaneD PScaleD PLine2D PRodD PAngleD.
Import ListNotations.
Local Open Scope R_scope.
Set Implicit Arguments.
Unset Strict Implicit.
Local Notation eps := PErr.eps.

Lemma sub0 (x : b64) : bfin x = true -> nabs (nsub x n0) = nabs x.
Proof. destruct x as [s|s| |s m e H]; try discriminate; intros _; [destruct s; reflexivity|reflexivity]. Qed.
Lemma tol_val (t : b64) : nadd t (nmul n0 (nabs n0)) = t \/ (Bval t = 0 /\ bfin t = true /\ Bval (nadd t (nmul n0 (nabs n0))) = 0 /\ bfin (nadd t (nmul n0 (nabs n0))) = true).
Proof. destruct t as [s|s| |s m e H]; [right; destruct s; repeat split|left; reflexivity|left; reflexivity|left; reflexivity]. Qed.
Lemma isclose_0 (x t : b64) : bfin t = true -> isclose n0 t x n0 = true <-> bfin x = true /\ Rabs (Bval x) <= Bval t.
Proof.
  intros Ft. unfold isclose. change (nfinite x) with (bfin x). change (nfinite n0) with true. destruct (bfin x) eqn:Fx.
  - cbn [andb]. rewrite (sub0 Fx). destruct (abs_val Fx) as [Fa Va]. assert (E : bfin (nadd t (nmul n0 (nabs n0))) = true /\ Bval (nadd t (nmul n0 (nabs n0))) = Bval t) by (destruct (tol_val t) as [->|(Z & _ & Z2 & F2)]; [auto|rewrite Z; auto]).
    destruct E as [Fe Ve]. rewrite (ble_spec Fa Fe), Va, Ve. destruct (Rle_bool_spec (Rabs (Bval x)) (Bval t)) as [L|L]; split; auto; intros [_ K] || intros K; try discriminate; lra.
  - cbn [andb]. split; [|intros [K _]; discriminate]. destruct x as [s|s| |s m e H]; try discriminate Fx; intros K; exfalso; [destruct s; discriminate K|discriminate K].
Qed.
Lemma all_zero (v : V3 b64) t : bfin t = true -> almost_zero v t = true <-> fin3b v = true /\ Rabs (Bval (c0 v)) <= Bval t /\ Rabs (Bval (c1 v)) <= Bval t /\ Rabs (Bval (c2 v)) <= Bval t.
Proof.
  intros Ft. destruct v as [x y z]. unfold almost_zero, all3, map3, fin3b. cbn [c0 c1 c2]. rewrite !andb_true_iff, !(isclose_0 _ Ft). tauto.
Qed.

(** exactly collinear: the two products of each minor are the same real number, so their difference is exactly zero *)
Lemma minor_0 (a b c d : b64) : bfin a = true -> bfin b = true -> bfin c = true -> bfin d = true -> Bval a * Bval b = Bval c * Bval d -> Rabs (Bval a * Bval b) <= bpow radix2 1000 ->
  bfin (nsub (nmul a b) (nmul c d)) = true /\ Bval (nsub (nmul a b) (nmul c d)) = 0.
Proof.
  intros Fa Fb Fc Fd E B. change (nmul a b) with (bmul a b). change (nmul c d) with (bmul c d). destruct (bmul_val Fa Fb B) as [V1 G1]. rewrite E in B. destruct (bmul_val Fc Fd B) as [V2 G2].
  assert (D : Bval (bmul a b) - Bval (bmul c d) = 0) by (rewrite V1, V2, E; ring). change (nsub (bmul a b) (bmul c d)) with (bsub (bmul a b) (bmul c d)).
  destruct (@bsub_val (bmul a b) (bmul c d) G1 G2) as [V G]; [rewrite D, Rabs_R0; apply bpow_ge_0|]. rewrite V, D. split; [exact G|apply rnd64_0].
Qed.
Lemma cross_0 X Y v w : within X v -> within Y w -> 0 <= X -> 0 <= Y -> X * Y <= bpow radix2 1000 -> rcross (Rval3 v) (Rval3 w) = rzero -> fin3b (vcross v w) = true /\ Rval3 (vcross v w) = rzero.
Proof.
  intros Wv Ww PX PY B Z. destruct (within_fin Wv) as (F0 & F1 & F2). destruct (within_fin Ww) as (G0 & G1 & G2). destruct Wv as (_ & A0 & A1 & A2). destruct Ww as (_ & B0 & B1 & B2).
  destruct v as [x y z], w as [a b c]. unfold rcross, Rval3, map3, rzero in Z. cbn [c0 c1 c2] in *. injection Z as Z0 Z1 Z2.
  assert (M : forall p q, Rabs p <= X -> Rabs q <= Y -> Rabs (p * q) <= bpow radix2 1000) by (intros p q Hp Hq; apply Rle_trans with (X * Y); [now apply mul_bound|exact B]).
  destruct (@minor_0 y c z b) as [H0 K0]; auto; [lra|]. destruct (@minor_0 z a x c) as [H1 K1]; auto; [lra|]. destruct (@minor_0 x b y a) as [H2 K2]; auto; [lra|].
  unfold fin3b, vcross, Rval3, map3, rzero. cbn [c0 c1 c2]. rewrite H0, H1, H2, K0, K1, K2. auto.
Qed.
Lemma coll_exact X Y v w t : within X v -> within Y w -> 0 <= X -> 0 <= Y -> X * Y <= bpow radix2 1000 -> rcross (Rval3 v) (Rval3 w) = rzero -> bfin t = true -> 0 <= Bval t -> almost_collinear v w t = true.
Proof.
  intros Wv Ww PX PY B Z Ft Pt. destruct (cross_0 Wv Ww PX PY B Z) as [F V]. destruct (norm_zero F V) as [Fn Vn]. unfold almost_collinear. apply isclose_0; [exact Ft|]. rewrite Vn, Rabs_R0. auto.
Qed.
Lemma cross_near X Y v w : bpow radix2 (-190) <= X <= bpow radix2 190 -> bpow radix2 (-190) <= Y <= bpow radix2 190 -> within X v -> within Y w ->
  close3 (41 / 10 * (eps * (X * Y))) (vcross v w) (rcross (Rval3 v) (Rval3 w)) /\ rnorm (rcross (Rval3 v) (Rval3 w)) <= 4 * (X * Y).
Proof.
  intros HX HY Wv Ww. assert (U : forall Q, bpow radix2 (-190) <= Q <= bpow radix2 190 -> bpow radix2 (-200) <= Q <= bpow radix2 200) by (intros Q [Q1 Q2]; split; [eapply Rle_trans; [|exact Q1]|eapply Rle_trans; [exact Q2|]]; apply bpow_le; lia).
  apply U in HX, HY. destruct (within_fin Wv) as (F0 & F1 & F2). destruct (within_fin Ww) as (G0 & G1 & G2). destruct Wv as (_ & A0 & A1 & A2). destruct Ww as (_ & B0 & B1 & B2).
  destruct (t_minor HX HY HX F1 G2 F2 G1 A1 B2 A2 B1) as [[H0 K0] L0]. destruct (t_minor HX HY HX F2 G0 F0 G2 A2 B0 A0 B2) as [[H1 K1] L1]. destruct (t_minor HX HY HX F0 G1 F1 G0 A0 B1 A1 B0) as [[H2 K2] L2].
  destruct (t_pos HX HY HX) as (PX & PY & _ & PXY & _).
  split.
  - unfold close3, fin3b, vcross, rcross, Rval3, map3. cbn [c0 c1 c2]. rewrite H0, H1, H2. auto.
  - replace (4 * (X * Y)) with (2 * (2 * (X * Y))) by ring. apply rnorm_small; [lra|..]; unfold rcross, Rval3, map3; cbn [c0 c1 c2]; assumption.
Qed.
Lemma coll_near X Y v w t : bpow radix2 (-190) <= X <= bpow radix2 190 -> bpow radix2 (-190) <= Y <= bpow radix2 190 -> within X v -> within Y w -> bfin t = true -> bpow radix2 (-300) <= Bval t ->
  let N := rnorm (rcross (Rval3 v) (Rval3 w)) in let m := 10 * (eps * (X * Y)) in
  (N + m <= Bval t * (1 - 20 * eps) -> almost_collinear v w t = true) /\ (Bval t * (1 + 20 * eps) < N - m -> almost_collinear v w t = false).
Proof.
  intros HX HY Wv Ww Ft Pt N m. destruct (cross_near HX HY Wv Ww) as [C BN]. fold N in BN. pose proof eps_pos as PE. pose proof eps_small as SE. pose proof (bpow_gt_0 radix2 (-300)) as P3. pose proof (bpow_gt_0 radix2 (-190)) as P19.
  assert (PXY : 0 < X * Y) by (apply Rmult_lt_0_compat; lra). assert (PEX : 0 < eps * (X * Y)) by (apply Rmult_lt_0_compat; lra).
  pose proof (@close_norm (41 / 10 * (eps * (X * Y))) _ _ ltac:(lra) C) as L. fold N in L. set (c := vcross v w) in *. set (l := rnorm (Rval3 c)) in *. apply abs_le in L. destruct C as (Fc & _).
  assert (LU : l <= bpow radix2 400). { assert (UXY : X * Y <= bpow radix2 380) by (change 380%Z with (190 + 190)%Z; rewrite bpow_plus; apply Rmult_le_compat; lra). apply Rle_trans with (bpow radix2 4 * bpow radix2 380); [|rewrite <- bpow_plus; apply bpow_le; lia]. change (bpow radix2 4) with 16. assert (eps * (X * Y) <= X * Y) by nra. lra. }
  assert (B4 : bpow radix2 (-400) < bpow radix2 (-300)) by (apply bpow_lt; lia). assert (B39 : bpow radix2 (-399) <= bpow radix2 (-300)) by (apply bpow_le; lia).
  assert (Pl : 0 <= l) by apply sqrt_pos. unfold almost_collinear. fold c. split.
  - intros H. apply isclose_0; [exact Ft|]. assert (Pn : bfin (vnorm c) = true -> 0 <= Bval (vnorm c)).
    { intros _. change (vnorm c) with (bsqrt (vdot c c)). unfold bsqrt, Bval. destruct (Bsqrt_correct 53 1024 prec_gt_0_53 prec_lt_emax_53 mode_NE (vdot c c)) as [E _]. rewrite E. rewrite round_eq. rewrite <- rnd64_0. apply rnd64_le, sqrt_pos. }
    destruct (Rle_dec (bpow radix2 (-400)) l) as [Q|Q].
    + destruct (norm_ap Fc) as [Fn En]; [split; assumption|]. fold l in En. split; [exact Fn|]. rewrite Rabs_pos_eq by (apply Pn, Fn). apply abs_le in En. unfold m in H. assert (l <= Bval t * (1 - 20 * eps)) by lra. assert (l * (1 + 9 * eps) <= Bval t * (1 - 20 * eps) * (1 + 9 * eps)) by (apply Rmult_le_compat_r; lra). assert ((1 - 20 * eps) * (1 + 9 * eps) <= 1) by nra. assert (Bval t * ((1 - 20 * eps) * (1 + 9 * eps)) <= Bval t * 1) by (apply Rmult_le_compat_l; lra). lra.
    + destruct (norm_tiny Fc) as [Fn En]; [fold l; lra|]. split; [exact Fn|]. rewrite Rabs_pos_eq by (apply Pn, Fn). lra.
  - intros H. unfold m in H. assert (Hl : Bval t * (1 + 20 * eps) < l) by lra. assert (Lb : Bval t <= l) by nra. destruct (norm_ap Fc) as [Fn En]; [fold l; split; lra|]. fold l in En. apply abs_le in En.
    destruct (isclose n0 t (vnorm c) n0) eqn:E; [|reflexivity]. exfalso. apply isclose_0 in E; [|exact Ft]. destruct E as [_ E]. apply abs_le in E. assert (Bval t * (1 + 20 * eps) * (1 - 9 * eps) < l * (1 - 9 * eps)) by (apply Rmult_lt_compat_r; lra). assert (1 <= (1 + 20 * eps) * (1 - 9 * eps)) by nra. assert (Bval t * 1 <= Bval t * ((1 + 20 * eps) * (1 - 9 * eps))) by (apply Rmult_le_compat_l; lra). lra.
Qed.
