(** * Crossing an edge with a plane in binary64: error bounds. *)
From Coq Require Import Reals ZArith List Bool Lra Lia Psatz.
From Flocq Require Import Core IEEE754.BinarySingleNaN Mult_error.
From Verif Require Import Num B64 BLemmas Vec RVec MPlane SpecDouble PErr PFar.
Local Open Scope R_scope.
Set Implicit Arguments.
Unset Strict Implicit.

Definition scale_ok (M : R) : Prop := bpow radix2 (-800) <= M <= bpow radix2 800.
Lemma scale_rel M k : scale_ok M -> 1 <= k <= 1000 -> rel (k * M).
Proof.
  intros [L U] [K1 K2]. assert (A : bpow radix2 (-900) <= bpow radix2 (-800)) by (apply bpow_le; lia).
  assert (B : 1000 * bpow radix2 800 <= bpow radix2 900).
  { replace (bpow radix2 900) with (bpow radix2 100 * bpow radix2 800) by (rewrite <- bpow_plus; reflexivity).
    apply Rmult_le_compat_r; [apply bpow_ge_0|]. apply Rle_trans with (bpow radix2 10); [change (1000 <= IZR (2 ^ 10)); apply IZR_le; vm_compute; discriminate|apply bpow_le; lia]. }
  pose proof (bpow_gt_0 radix2 (-800)). unfold rel. split; nra.
Qed.
Lemma scale_mid M k : scale_ok M -> 1 <= k <= 1000 -> mid (k * M).
Proof. intros H K. destruct (scale_rel H K) as [A B]. split; [apply Rle_trans with (2 := A)|apply Rle_trans with (1 := B)]; apply bpow_le; lia. Qed.
Lemma scale_pos M : scale_ok M -> 0 < M.
Proof. intros [H _]. pose proof (bpow_gt_0 radix2 (-800)). lra. Qed.

Section Plane.
Context (M : R) (HM : scale_ok M) (p : plane b64) (Wr : within M (pl_r0 p)) (Wn : within 2 (pl_n p)).
Let sigma := exact_distance p.
Let T := eps * M.
Lemma T_pos : 0 < T.
Proof. pose proof eps_pos. pose proof (scale_pos HM). unfold T. nra. Qed.
Lemma T_small : T <= M / 1000000000.
Proof. pose proof eps_pos. pose proof eps_small. pose proof (scale_pos HM). unfold T. nra. Qed.
Lemma one_sub x y : bfin x = true -> bfin y = true -> Rabs (Bval x) <= M -> Rabs (Bval y) <= M ->
  bfin (nsub x y) = true /\ Rabs (Bval (nsub x y) - (Bval x - Bval y)) <= 2 * T /\ Rabs (Bval (nsub x y)) <= 3 * M.
Proof.
  intros Fx Fy Hx Hy. apply abs_le in Hx, Hy. destruct (@sub_ap x y (2 * M)) as [A B]; auto; [apply scale_mid; auto; lra|apply abs_le; lra|].
  pose proof T_pos. pose proof T_small. unfold T in *. split; [exact A|]. apply abs_le in B. split; apply abs_le; lra.
Qed.
Lemma vsub_ap u w : within M u -> within M w -> within (3 * M) (vsub u w) /\
  Rabs (Bval (c0 (vsub u w)) - (Bval (c0 u) - Bval (c0 w))) <= 2 * T /\
  Rabs (Bval (c1 (vsub u w)) - (Bval (c1 u) - Bval (c1 w))) <= 2 * T /\
  Rabs (Bval (c2 (vsub u w)) - (Bval (c2 u) - Bval (c2 w))) <= 2 * T.
Proof.
  intros Wu Ww. destruct (within_fin Wu) as (F0 & F1 & F2). destruct (within_fin Ww) as (G0 & G1 & G2). destruct Wu as (_ & U0 & U1 & U2), Ww as (_ & W0 & W1 & W2).
  destruct (one_sub F0 G0 U0 W0) as (A0 & B0 & D0). destruct (one_sub F1 G1 U1 W1) as (A1 & B1 & D1). destruct (one_sub F2 G2 U2 W2) as (A2 & B2 & D2).
  unfold vsub, zip3. cbn [c0 c1 c2]. split; [|auto]. unfold within, fin3b. cbn [c0 c1 c2]. rewrite A0, A1, A2. auto.
Qed.
Lemma diff_dot u w : within M u -> within M w ->
  bfin (vdot (vsub u w) (pl_n p)) = true /\
  Rabs (Bval (vdot (vsub u w) (pl_n p)) - rdot (rsub (Rval3 u) (Rval3 w)) (Rval3 (pl_n p))) <= 78 * T /\
  Rabs (Bval (vdot (vsub u w) (pl_n p))) <= 21 * M.
Proof.
  intros Wu Ww. destruct (vsub_ap Wu Ww) as (W & B0 & B1 & B2).
  destruct (@dot_ap (3 * M) (vsub u w) (pl_n p)) as (F & E & L); auto; [apply scale_rel; auto; lra|].
  split; [exact F|]. split; [|lra].
  destruct Wn as (_ & N0 & N1 & N2). pose proof T_pos as PT.
  pose proof (mul_bound (X := 2 * T) (Y := 2) ltac:(lra) ltac:(lra) B0 N0) as Q0. pose proof (mul_bound (X := 2 * T) (Y := 2) ltac:(lra) ltac:(lra) B1 N1) as Q1. pose proof (mul_bound (X := 2 * T) (Y := 2) ltac:(lra) ltac:(lra) B2 N2) as Q2.
  apply abs_le in E, Q0, Q1, Q2. apply abs_le. unfold rdot, rsub, Rval3, map3 in *. cbn [c0 c1 c2] in *. unfold T in *. lra.
Qed.
Lemma sd_ap x : within M x -> bfin (signed_distance1 p x) = true /\ Rabs (Bval (signed_distance1 p x) - sigma x) <= 58 * T /\ Rabs (sigma x) <= 12 * M.
Proof.
  intros Wx. destruct (@dot_ap M x (pl_n p)) as (F & E & L); auto; [rewrite <- (Rmult_1_l M); apply scale_rel; auto; lra|].
  destruct (@dot_ap M (pl_r0 p) (pl_n p)) as (G & D & K); auto; [rewrite <- (Rmult_1_l M); apply scale_rel; auto; lra|].
  unfold signed_distance1. cbn [equation d0 d1 d2 d3]. change (mk3 (c0 (pl_n p)) (c1 (pl_n p)) (c2 (pl_n p))) with (mk3 (c0 (pl_n p)) (c1 (pl_n p)) (c2 (pl_n p))).
  replace (mk3 (c0 (pl_n p)) (c1 (pl_n p)) (c2 (pl_n p))) with (pl_n p) by (destruct (pl_n p); reflexivity).
  assert (NF : bfin (nopp (vdot (pl_r0 p) (pl_n p))) = true) by (change (is_finite (Bopp (vdot (pl_r0 p) (pl_n p))) = true); rewrite is_finite_Bopp; exact G).
  assert (NV : Bval (nopp (vdot (pl_r0 p) (pl_n p))) = - Bval (vdot (pl_r0 p) (pl_n p))) by (exact (@B2R_Bopp 53 1024 (vdot (pl_r0 p) (pl_n p)))).
  apply abs_le in L, K. destruct (@add_ap _ _ (14 * M) F NF) as [S ES]; [apply scale_mid; auto; lra|rewrite NV; apply abs_le; lra|].
  split; [exact S|]. rewrite NV in ES. apply abs_le in E, D, ES. split.
  - apply abs_le. unfold sigma, exact_distance, rdot, rsub in *. cbn [c0 c1 c2] in *. unfold T. lra.
  - destruct Wx as (_ & X0 & X1 & X2), Wr as (_ & R0 & R1 & R2), Wn as (_ & N0 & N1 & N2). pose proof (scale_pos HM) as PM. apply abs_le in X0, X1, X2, R0, R1, R2.
    assert (Q0 : Rabs ((Bval (c0 x) - Bval (c0 (pl_r0 p))) * Bval (c0 (pl_n p))) <= 2 * M * 2) by (apply mul_bound; try lra; apply abs_le; lra).
    assert (Q1 : Rabs ((Bval (c1 x) - Bval (c1 (pl_r0 p))) * Bval (c1 (pl_n p))) <= 2 * M * 2) by (apply mul_bound; try lra; apply abs_le; lra).
    assert (Q2 : Rabs ((Bval (c2 x) - Bval (c2 (pl_r0 p))) * Bval (c2 (pl_n p))) <= 2 * M * 2) by (apply mul_bound; try lra; apply abs_le; lra).
    apply abs_le in Q0, Q1, Q2. apply abs_le. unfold sigma, exact_distance, rdot, rsub, Rval3, map3. cbn [c0 c1 c2]. lra.
Qed.
(** the two numbers whose quotient is the parameter of the crossing *)
Lemma quotient a b : within M a -> within M b ->
  let num := vdot (vsub (pl_r0 p) a) (pl_n p) in let den := vdot (vsub b a) (pl_n p) in
  (bfin num = true /\ Rabs (Bval num + sigma a) <= 78 * T) /\ (bfin den = true /\ Rabs (Bval den - (sigma b - sigma a)) <= 78 * T).
Proof.
  intros Wa Wb num den. destruct (diff_dot Wr Wa) as (F & E & _). destruct (diff_dot Wb Wa) as (G & D & _). fold num in F, E. fold den in G, D.
  split; (split; [assumption|]); [apply abs_le in E; apply abs_le|apply abs_le in D; apply abs_le]; unfold sigma, exact_distance, rdot, rsub, Rval3, map3 in *; cbn [c0 c1 c2] in *; lra.
Qed.

(** ** ends on different sides *)
Lemma coord_between a b t : bfin a = true -> bfin b = true -> bfin t = true -> Rabs (Bval a) <= M -> Rabs (Bval b) <= M -> 0 <= Bval t <= 1 - 60 * eps ->
  let x := nadd (nmul t (nsub b a)) a in
  bfin x = true /\ between (Bval a) (Bval b) (Bval x) /\ Rabs (Bval x - (Bval t * (Bval b - Bval a) + Bval a)) <= 10 * T.
Proof.
  intros Fa Fb Ft Ha Hb Ht x. pose proof (scale_pos HM) as PM. pose proof T_pos as PT. pose proof T_small as ST. pose proof eps_pos as PE. destruct (one_sub Fb Fa Hb Ha) as (Fr & Er & Hr).
  assert (B1 : Rabs (Bval t * Bval (nsub b a)) <= 3 * M).
  { replace (3 * M) with (1 * (3 * M)) by ring. apply mul_bound; auto; try lra. apply abs_le. lra. }
  destruct (@mul_ap t (nsub b a) (3 * M)) as [Fq Eq]; auto; [apply scale_mid; auto; lra|]. apply abs_le in B1, Eq, Ha.
  destruct (@add_ap (nmul t (nsub b a)) a (5 * M)) as [Fs Es]; auto; [apply scale_mid; auto; lra|unfold T in *; apply abs_le; lra|].
  split; [exact Fs|]. split.
  - unfold x. change (nadd (nmul t (nsub b a)) a) with (badd (bmul t (bsub b a)) a).
    assert (P1000 : forall k, 1 <= k <= 1000 -> k * M <= bpow radix2 1000) by (intros k K; apply (scale_mid HM K)). apply abs_le in Hb.
    assert (V1 : Bval (bsub b a) = rnd64 (Bval b - Bval a)) by (apply bsub_val; auto; apply Rle_trans with (2 * M); [apply abs_le; lra|apply P1000; lra]).
    assert (V2 : Bval (bmul t (bsub b a)) = rnd64 (Bval t * Bval (bsub b a))) by (apply bmul_val; auto; apply Rle_trans with (3 * M); [apply abs_le; exact B1|apply P1000; lra]).
    assert (V3 : Bval (badd (bmul t (bsub b a)) a) = rnd64 (Bval (bmul t (bsub b a)) + Bval a)).
    { apply badd_val; auto. apply Rle_trans with (5 * M); [|apply P1000; lra]. change (bmul t (bsub b a)) with (nmul t (nsub b a)). unfold T in *. apply abs_le. lra. }
    rewrite V3, V2, V1. apply lerp_between'; auto using rnd64_B.
  - apply abs_le in Er, Es. fold x in Es. assert (Q : Rabs (Bval t * (Bval (nsub b a) - (Bval b - Bval a))) <= 1 * (2 * T)) by (apply mul_bound; try lra; apply abs_le; lra).
    apply abs_le in Q. apply abs_le. unfold T in *. lra.
Qed.
Lemma between_lt a b x : bfin a = true -> bfin b = true -> bfin x = true -> between (Bval a) (Bval b) (Bval x) ->
  nlt a x && nlt b x = false /\ nlt x a && nlt x b = false.
Proof.
  intros Fa Fb Fx [L U]. rewrite !blt_spec by auto. unfold Rmin in L. unfold Rmax in U. destruct (Rle_dec (Bval a) (Bval b)).
  - rewrite (Rlt_bool_false (Bval b)) by lra. rewrite (Rlt_bool_false (Bval x) (Bval a)) by lra. split; [apply andb_false_r|reflexivity].
  - rewrite (Rlt_bool_false (Bval a)) by lra. rewrite (Rlt_bool_false (Bval x) (Bval b)) by lra. split; [reflexivity|apply andb_false_r].
Qed.
(** at least [4096 T] away from the plane as computed, so at least [4038 T] away *)
Definition clear_of (x : V3 b64) : Prop := 4096 * T <= Rabs (Bval (signed_distance1 p x)).
Lemma clear_sigma x : within M x -> clear_of x ->
  (0 < Bval (signed_distance1 p x) /\ 4038 * T <= sigma x) \/ (Bval (signed_distance1 p x) < 0 /\ sigma x <= - (4038 * T)).
Proof.
  intros W C. destruct (sd_ap W) as (_ & E & _). apply abs_le in E. pose proof T_pos. unfold clear_of in C. revert C. unfold Rabs. destruct (Rcase_abs _); [right|left]; lra.
Qed.
Lemma ratio_bound num den : (0 <= num /\ num <= (1 - 64 * eps) * den /\ 0 < den) \/ (num <= 0 /\ (1 - 64 * eps) * den <= num /\ den < 0) -> 0 <= num / den <= 1 - 64 * eps.
Proof.
  assert (G : forall n d, 0 <= n /\ n <= (1 - 64 * eps) * d /\ 0 < d -> 0 <= n / d <= 1 - 64 * eps).
  { intros n d (A & B & D). split; [apply Rmult_le_pos; [auto|apply Rlt_le, Rinv_0_lt_compat; auto]|]. apply Rmult_le_reg_r with d; [auto|]. unfold Rdiv. rewrite Rmult_assoc, Rinv_l by lra. lra. }
  intros [H|(A & B & D)]; [now apply G|]. replace (num / den) with (- num / - den) by (field; lra). apply G. lra.
Qed.
Theorem crossing_found a b : within M a -> within M b -> clear_of a -> clear_of b -> Bval (signed_distance1 p a) * Bval (signed_distance1 p b) < 0 ->
  exists x, line_segment_xsection p a b = Some x /\ within M x /\ between3 (Rval3 a) (Rval3 b) (Rval3 x) /\ Rabs (sigma x) <= 300 * T.
Proof.
  intros Wa Wb Ca Cb Op. destruct (quotient Wa Wb) as [[Fn En] [Fd Ed]]. destruct (sd_ap Wa) as (_ & _ & Ba). destruct (sd_ap Wb) as (_ & _ & Bb).
  pose proof (scale_pos HM) as PM. pose proof T_pos as PT. pose proof T_small as ST. pose proof eps_pos as PE. pose proof eps_small as SE.
  unfold line_segment_xsection, line_xsection. set (num := vdot (vsub (pl_r0 p) a) (pl_n p)) in *. set (den := vdot (vsub b a) (pl_n p)) in *.
  apply abs_le in En, Ed, Ba, Bb.
  assert (RT : 0 <= Bval num / Bval den <= 1 - 64 * eps /\ Bval den <> 0).
  { destruct (clear_sigma Wa Ca) as [[Pa Sa]|[Pa Sa]], (clear_sigma Wb Cb) as [[Pb Sb]|[Pb Sb]]; try (exfalso; nra).
    - split; [|unfold T in *; lra]. apply ratio_bound. right. assert (K : - (64 * eps * Bval den) <= 64 * eps * (25 * M)) by (unfold T in *; nra). unfold T in *. split; [lra|]. split; [lra|lra].
    - split; [|unfold T in *; lra]. apply ratio_bound. left. assert (K : 64 * eps * Bval den <= 64 * eps * (25 * M)) by (unfold T in *; nra). unfold T in *. split; [lra|]. split; [lra|lra]. }
  destruct RT as [RT NZ].
  assert (Z : neqb den n0 = false).
  { rewrite beq_spec by auto. change (Bval n0) with 0. now apply Req_bool_false. }
  rewrite Z. cbv zeta. set (t := ndiv num den).
  destruct (@div_ap num den 1) as [Ft Et]; auto; [split; [change 1 with (bpow radix2 0); apply bpow_le; lia|change 1 with (bpow radix2 0); apply bpow_le; lia]|apply abs_le; lra|].
  fold t in Ft, Et. apply abs_le in Et.
  assert (T0 : 0 <= Bval t).
  { unfold t. change (ndiv num den) with (bdiv num den). destruct (@bdiv_val num den) as [-> _]; auto; [apply Rle_trans with 1; [apply abs_le; lra|change 1 with (bpow radix2 0); apply bpow_le; lia]|]. rewrite <- rnd64_0. apply rnd64_le. lra. }
  assert (HT : 0 <= Bval t <= 1 - 60 * eps) by lra.
  destruct (within_fin Wa) as (A0 & A1 & A2). destruct (within_fin Wb) as (B0 & B1 & B2). pose proof Wa as (_ & a0 & a1 & a2). pose proof Wb as (_ & b0 & b1 & b2).
  destruct (coord_between A0 B0 Ft a0 b0 HT) as (F0 & G0 & E0). destruct (coord_between A1 B1 Ft a1 b1 HT) as (F1 & G1 & E1). destruct (coord_between A2 B2 Ft a2 b2 HT) as (F2 & G2 & E2).
  set (x := vadd (vscale t (vsub b a)) a).
  assert (X0 : c0 x = nadd (nmul t (nsub (c0 b) (c0 a))) (c0 a)) by reflexivity.
  assert (X1 : c1 x = nadd (nmul t (nsub (c1 b) (c1 a))) (c1 a)) by reflexivity.
  assert (X2 : c2 x = nadd (nmul t (nsub (c2 b) (c2 a))) (c2 a)) by reflexivity.
  exists x. rewrite <- X0 in F0, G0, E0. rewrite <- X1 in F1, G1, E1. rewrite <- X2 in F2, G2, E2.
  assert (OB : out_of_bounds x a b = false).
  { unfold out_of_bounds, any3, zip3. cbn [c0 c1 c2]. destruct (between_lt A0 B0 F0 G0) as [-> ->]. destruct (between_lt A1 B1 F1 G1) as [-> ->]. destruct (between_lt A2 B2 F2 G2) as [-> ->]. reflexivity. }
  rewrite OB. split; [reflexivity|].
  assert (BM : forall u v w, Rabs u <= M -> Rabs v <= M -> between u v w -> Rabs w <= M).
  { intros u v w Hu Hv [L U]. apply abs_le in Hu, Hv. apply abs_le. unfold Rmin in L. unfold Rmax in U. destruct (Rle_dec u v); lra. }
  split; [|split].
  - unfold within, fin3b. rewrite F0, F1, F2. split; [reflexivity|]. split; [exact (BM _ _ _ a0 b0 G0)|split; [exact (BM _ _ _ a1 b1 G1)|exact (BM _ _ _ a2 b2 G2)]].
  - unfold between3, Rval3, map3. cbn [c0 c1 c2]. auto.
  - destruct Wn as (_ & N0 & N1 & N2).
    pose proof (mul_bound (X := 10 * T) (Y := 2) ltac:(lra) ltac:(lra) E0 N0) as Q0. pose proof (mul_bound (X := 10 * T) (Y := 2) ltac:(lra) ltac:(lra) E1 N1) as Q1. pose proof (mul_bound (X := 10 * T) (Y := 2) ltac:(lra) ltac:(lra) E2 N2) as Q2.
    assert (D1 : Rabs (Bval t * (Bval den - (sigma b - sigma a))) <= 1 * (78 * T)) by (apply mul_bound; try lra; apply abs_le; lra).
    assert (D2 : Rabs ((Bval t - Bval num / Bval den) * Bval den) <= eps * 1 * (25 * M)) by (apply mul_bound; try lra; apply abs_le; unfold T in *; lra).
    replace ((Bval t - Bval num / Bval den) * Bval den) with (Bval t * Bval den - Bval num) in D2 by (field; exact NZ).
    apply abs_le in Q0, Q1, Q2, D1, D2. apply abs_le.
    assert (SX : sigma x = (Bval (c0 x) - (Bval t * (Bval (c0 b) - Bval (c0 a)) + Bval (c0 a))) * Bval (c0 (pl_n p)) +
      (Bval (c1 x) - (Bval t * (Bval (c1 b) - Bval (c1 a)) + Bval (c1 a))) * Bval (c1 (pl_n p)) +
      (Bval (c2 x) - (Bval t * (Bval (c2 b) - Bval (c2 a)) + Bval (c2 a))) * Bval (c2 (pl_n p)) + (Bval t * (sigma b - sigma a) + sigma a))
      by (unfold sigma, exact_distance, rdot, rsub, Rval3, map3; cbn [c0 c1 c2]; ring).
    rewrite SX. unfold T in *. lra.
Qed.

(** ** ends on the same side *)
Lemma sg_abs v : v <> 0 -> exists s, sg s * v = Rabs v /\ 0 < Rabs v.
Proof. intros H. pose proof (Rabs_pos_lt v H). unfold Rabs in *. destruct (Rcase_abs v); [exists true|exists false]; cbn [sg]; split; lra. Qed.
Lemma T_low : bpow radix2 (-1022) <= T.
Proof.
  destruct HM as [H _]. unfold T. apply Rle_trans with (eps * bpow radix2 (-800)); [|apply Rmult_le_compat_l; [pose proof eps_pos; lra|exact H]].
  unfold eps. rewrite <- bpow_plus. apply bpow_le. lia.
Qed.
Lemma coord_out num den a b : bfin num = true -> bfin den = true -> bfin a = true -> bfin b = true -> Rabs (Bval a) <= M -> Rabs (Bval b) <= M ->
  3960 * T <= Rabs (Bval num) -> Bval den <> 0 -> Rabs (Bval den) <= 25 * M -> Rabs (Bval den) <= 8 * Rabs (Bval (nsub b a)) ->
  Bval num * Bval den < 0 \/ Rabs (Bval den) + 3880 * T <= Rabs (Bval num) ->
  let x := nadd (nmul (ndiv num den) (nsub b a)) a in nlt a x && nlt b x || nlt x a && nlt x b = true.
Proof.
  intros Fn Fd Fa Fb Ha Hb LN NZ UD DR C x.
  pose proof (scale_pos HM) as PM. pose proof T_pos as PT. pose proof T_small as ST. pose proof eps_pos as PE. pose proof eps_small as SE. pose proof T_low as TL.
  destruct (one_sub Fb Fa Hb Ha) as (Fr & Er & Hr). apply abs_le in Er.
  assert (NN : Bval num <> 0) by (intros E; rewrite E, Rabs_R0 in LN; lra).
  destruct (sg_abs NZ) as (r & Er' & PD). assert (NY : Bval (nsub b a) <> 0) by (intros E; rewrite E, Rabs_R0 in DR; lra).
  destruct (sg_abs NN) as (s & Es' & PN). destruct (sg_abs NY) as (q & Eq' & PY).
  set (N := Rabs (Bval num)) in *. set (D := Rabs (Bval den)) in *. set (Y := Rabs (Bval (nsub b a))) in *.
  assert (F1 : far (xorb s r) (ndiv num den) (rnd64 (N / D))) by (rewrite <- Es', <- Er'; apply div_far; auto; lra).
  assert (ND : 100 * eps <= N / D).
  { apply Rmult_le_reg_r with D; [exact PD|]. replace (N / D * D) with N by (field; lra). unfold T in *. nra. }
  assert (E100 : bpow radix2 (-1022) <= 100 * eps).
  { apply Rle_trans with eps; [unfold eps; apply bpow_le; lia|lra]. }
  apply far_mono with (L' := (1 - eps) * (N / D)) in F1; [|apply rnd_low; lra].
  assert (F2 : far (xorb (xorb s r) q) (nmul (ndiv num den) (nsub b a)) (rnd64 ((1 - eps) * (N / D) * Y))) by (rewrite <- Eq'; apply mul_far; auto; [nra|lra]).
  assert (K : / 8 <= Y / D) by (apply Rmult_le_reg_r with D; [exact PD|]; unfold Rdiv; rewrite Rmult_assoc, Rinv_l by lra; lra).
  replace ((1 - eps) * (N / D) * Y) with ((1 - eps) * (N * (Y / D))) in F2 by (field; lra).
  assert (P1000 : forall k, 1 <= k <= 1000 -> k * M <= bpow radix2 1000) by (intros k Hk; apply (scale_mid HM Hk)).
  assert (P1022 : forall k, 1 <= k <= 1000 -> bpow radix2 (-1022) <= k * M).
  { intros k Hk. apply Rle_trans with (2 := proj1 (scale_mid HM Hk)). apply bpow_le. lia. }
  destruct (xorb s r) eqn:SR.
  - cbn [xorb] in F2.
    assert (L2 : 490 * T <= rnd64 ((1 - eps) * (N * (Y / D)))).
    { apply Rle_trans with (rnd64 (494 * T)).
      - apply Rle_trans with ((1 - eps) * (494 * T)); [nra|]. apply rnd_low. lra.
      - apply rnd64_le. assert (495 * T <= N * (Y / D)) by nra. nra. }
    apply far_mono with (1 := F2) in L2. clear F2. rename L2 into F2.
    pose proof Ha as Ha'. apply abs_le in Ha, Hb.
    assert (BS : Rabs (490 * T + sg (negb q) * Bval a) <= 2 * M) by (apply abs_le; destruct q; cbn [negb sg]; lra).
    assert (F3 : far (negb q) x (rnd64 (490 * T + sg (negb q) * Bval a))) by (apply add_far; auto; apply Rle_trans with (1 := BS); apply P1000; lra).
    assert (E3 : Rabs (rnd64 (490 * T + sg (negb q) * Bval a) - (490 * T + sg (negb q) * Bval a)) <= eps * (2 * M)) by (apply rnd_err; [apply P1022; lra|exact BS]).
    apply abs_le in E3. apply far_mono with (L' := 488 * T + sg (negb q) * Bval a) in F3; [|unfold T in *; lra].
    pose proof (far_lt F3 Fa ltac:(lra)) as O1.
    assert (O2 : (if negb q then nlt x b else nlt b x) = true).
    { apply (far_lt F3 Fb). destruct q; cbn [negb sg] in *; lra. }
    destruct (negb q); rewrite O1, O2; [apply orb_true_r|reflexivity].
  - replace (xorb false q) with q in F2 by (destruct q; reflexivity).
    assert (C' : D + 3880 * T <= N).
    { destruct C as [C|C]; [|exact C]. exfalso. destruct s, r; try discriminate SR; cbn [sg] in *; nra. }
    assert (NK : Y + 485 * T <= N * (Y / D)).
    { assert (A1 : (D + 3880 * T) * (Y / D) <= N * (Y / D)) by (apply Rmult_le_compat_r; lra). assert (A2 : D * (Y / D) = Y) by (field; lra). nra. }
    assert (L2 : Y + 476 * T <= rnd64 ((1 - eps) * (N * (Y / D)))).
    { apply Rle_trans with (rnd64 (Y + 481 * T)); [|apply rnd64_le; unfold T in *; nra].
      assert (E : Rabs (rnd64 (Y + 481 * T) - (Y + 481 * T)) <= eps * (4 * M)) by (apply rnd_err; [apply P1022; lra|apply abs_le; lra]). apply abs_le in E. unfold T in *; lra. }
    apply far_mono with (1 := F2) in L2. clear F2. rename L2 into F2. apply abs_le in Ha, Hb.
    assert (Bq : sg q * Bval b <= M) by (destruct q; cbn [sg]; lra).
    assert (L3 : sg q * Bval b + 474 * T <= (Y + 476 * T) + sg q * Bval a) by (rewrite <- Eq'; destruct q; cbn [sg]; lra).
    assert (L4 : (Y + 476 * T) + sg q * Bval a <= 5 * M) by (destruct q; cbn [sg]; lra).
    assert (L5 : - (5 * M) <= (Y + 476 * T) + sg q * Bval a) by (destruct q; cbn [sg]; lra).
    assert (BS : Rabs ((Y + 476 * T) + sg q * Bval a) <= 5 * M) by (apply abs_le; lra).
    assert (F3 : far q x (rnd64 ((Y + 476 * T) + sg q * Bval a))) by (apply add_far; auto; apply Rle_trans with (1 := BS); apply P1000; lra).
    assert (E3 : Rabs (rnd64 ((Y + 476 * T) + sg q * Bval a) - ((Y + 476 * T) + sg q * Bval a)) <= eps * (5 * M)) by (apply rnd_err; [apply P1022; lra|exact BS]).
    apply abs_le in E3. apply far_mono with (L' := 469 * T + sg q * Bval b) in F3; [|unfold T in *; lra].
    pose proof (far_lt F3 Fb ltac:(lra)) as O1.
    assert (O2 : (if q then nlt x a else nlt a x) = true).
    { apply (far_lt F3 Fa). destruct q; cbn [sg] in *; lra. }
    destruct q; rewrite O1, O2; [apply orb_true_r|reflexivity].
Qed.

Lemma rnd_scale X k : rnd64 X = X -> (0 <= k)%Z -> rnd64 (X * bpow radix2 k) = X * bpow radix2 k.
Proof. intros H K. apply round_generic; [typeclasses eauto|]. apply mult_bpow_pos_exact_FLT; [now apply rnd_id_fmt|exact K]. Qed.
Lemma rnd_abs_le z U : rnd64 U = U -> Rabs z <= U -> Rabs (rnd64 z) <= U.
Proof. intros H Hz. apply abs_le in Hz. apply abs_le. split; [rewrite <- H, <- rnd64_opp|rewrite <- H]; apply rnd64_le; lra. Qed.
Lemma dot_le v X : within X v -> rnd64 X = X -> X <= 3 * M -> Rabs (Bval (vdot v (pl_n p))) <= 8 * X.
Proof.
  intros Wv FX UX. destruct (within_fin Wv) as (F0 & F1 & F2). destruct (within_fin Wn) as (G0 & G1 & G2). destruct Wv as (_ & V0 & V1 & V2). destruct Wn as (_ & N0 & N1 & N2).
  pose proof (scale_pos HM) as PM. assert (PX : 0 <= X) by (pose proof (Rabs_pos (Bval (c0 v))); lra).
  assert (P1000 : forall k, 1 <= k <= 1000 -> k * M <= bpow radix2 1000) by (intros k Hk; apply (scale_mid HM Hk)).
  assert (X2 : rnd64 (2 * X) = 2 * X) by (replace (2 * X) with (X * bpow radix2 1) by (change (bpow radix2 1) with 2; ring); now apply rnd_scale).
  assert (X4 : rnd64 (4 * X) = 4 * X) by (replace (4 * X) with (X * bpow radix2 2) by (change (bpow radix2 2) with 4; ring); now apply rnd_scale).
  assert (X8 : rnd64 (8 * X) = 8 * X) by (replace (8 * X) with (X * bpow radix2 3) by (change (bpow radix2 3) with 8; ring); now apply rnd_scale).
  assert (P : forall x n, bfin x = true -> bfin n = true -> Rabs (Bval x) <= X -> Rabs (Bval n) <= 2 -> bfin (nmul x n) = true /\ Rabs (Bval (nmul x n)) <= 2 * X).
  { intros x n Fx Fn Hx Hn. assert (B : Rabs (Bval x * Bval n) <= 2 * X) by (rewrite Rmult_comm; apply mul_bound; auto; lra). change (nmul x n) with (bmul x n).
    destruct (@bmul_val x n) as [-> ->]; auto; [apply Rle_trans with (1 := B), Rle_trans with (6 * M); [lra|apply P1000; lra]|]. split; [reflexivity|now apply rnd_abs_le]. }
  destruct (P _ _ F0 G0 V0 N0) as [A0 B0]. destruct (P _ _ F1 G1 V1 N1) as [A1 B1]. destruct (P _ _ F2 G2 V2 N2) as [A2 B2]. apply abs_le in B0, B1, B2.
  change (vdot v (pl_n p)) with (badd (badd (nmul (c0 v) (c0 (pl_n p))) (nmul (c1 v) (c1 (pl_n p)))) (nmul (c2 v) (c2 (pl_n p)))).
  assert (S1 : Rabs (Bval (nmul (c0 v) (c0 (pl_n p))) + Bval (nmul (c1 v) (c1 (pl_n p)))) <= 4 * X) by (apply abs_le; lra).
  destruct (badd_val A0 A1) as [E1 H1]; [apply Rle_trans with (1 := S1), Rle_trans with (12 * M); [lra|apply P1000; lra]|].
  apply (rnd_abs_le X4) in S1. rewrite <- E1 in S1. apply abs_le in S1. set (s := badd (nmul (c0 v) (c0 (pl_n p))) (nmul (c1 v) (c1 (pl_n p)))) in *.
  assert (S2 : Rabs (Bval s + Bval (nmul (c2 v) (c2 (pl_n p)))) <= 8 * X) by (apply abs_le; lra).
  destruct (badd_val H1 A2) as [E2 _]; [apply Rle_trans with (1 := S2), Rle_trans with (24 * M); [lra|apply P1000; lra]|].
  rewrite E2. now apply rnd_abs_le.
Qed.
Lemma rnd_abs_B y : rnd64 (Rabs (Bval y)) = Rabs (Bval y).
Proof. unfold Rabs. destruct (Rcase_abs _); [rewrite rnd64_opp, rnd64_B|rewrite rnd64_B]; reflexivity. Qed.
Theorem no_crossing a b : within M a -> within M b -> clear_of a -> clear_of b -> 0 < Bval (signed_distance1 p a) * Bval (signed_distance1 p b) ->
  line_segment_xsection p a b = None.
Proof.
  intros Wa Wb Ca Cb Sm. destruct (quotient Wa Wb) as [[Fn En] [Fd Ed]]. destruct (sd_ap Wa) as (_ & _ & Ba). destruct (sd_ap Wb) as (_ & _ & Bb).
  pose proof (scale_pos HM) as PM. pose proof T_pos as PT. pose proof T_small as ST.
  unfold line_segment_xsection, line_xsection. destruct (vsub_ap Wb Wa) as (WR & _). set (num := vdot (vsub (pl_r0 p) a) (pl_n p)) in *. set (den := vdot (vsub b a) (pl_n p)) in *.
  destruct (neqb den n0) eqn:Z; [reflexivity|]. assert (NZ : Bval den <> 0).
  { intros E. rewrite beq_spec in Z by auto. change (Bval n0) with 0 in Z. rewrite E, Req_bool_true in Z by reflexivity. discriminate. }
  cbv zeta. apply abs_le in En, Ed, Ba, Bb.
  assert (LN : 3960 * T <= Rabs (Bval num)).
  { destruct (clear_sigma Wa Ca) as [[Pa Sa]|[Pa Sa]]; unfold Rabs; destruct (Rcase_abs _); unfold T in *; lra. }
  assert (UD : Rabs (Bval den) <= 25 * M) by (apply abs_le; unfold T in *; lra).
  assert (C : Bval num * Bval den < 0 \/ Rabs (Bval den) + 3880 * T <= Rabs (Bval num)).
  { destruct (Rlt_le_dec (Bval num * Bval den) 0) as [L|L]; [now left|right].
    destruct (clear_sigma Wa Ca) as [[Pa Sa]|[Pa Sa]], (clear_sigma Wb Cb) as [[Pb Sb]|[Pb Sb]]; try (exfalso; nra).
    - assert (Q : Bval num < 0) by (unfold T in *; lra). assert (Q' : Bval den <= 0) by nra. rewrite (Rabs_left1 (Bval den)), (Rabs_left1 (Bval num)) by lra. lra.
    - assert (Q : 0 < Bval num) by (unfold T in *; lra). assert (Q' : 0 <= Bval den) by nra. rewrite (Rabs_pos_eq (Bval den)), (Rabs_pos_eq (Bval num)) by lra. lra. }
  destruct (within_fin Wa) as (A0 & A1 & A2). destruct (within_fin Wb) as (B0 & B1 & B2). pose proof Wa as (_ & a0 & a1 & a2). pose proof Wb as (_ & b0 & b1 & b2).
  set (x := vadd (vscale (ndiv num den) (vsub b a)) a).
  assert (DL : forall i, Rabs (Bval (c0 (vsub b a))) <= Rabs (Bval i) -> Rabs (Bval (c1 (vsub b a))) <= Rabs (Bval i) -> Rabs (Bval (c2 (vsub b a))) <= Rabs (Bval i) -> Rabs (Bval i) <= 3 * M -> Rabs (Bval den) <= 8 * Rabs (Bval i)).
  { intros i H0 H1 H2 H3. apply dot_le; [|apply rnd_abs_B|exact H3]. destruct WR as (WF & _). split; auto. }
  enough (O : out_of_bounds x a b = true) by (rewrite O; reflexivity). destruct WR as (_ & W0 & W1 & W2).
  assert (MX : (Rabs (Bval (c1 (vsub b a))) <= Rabs (Bval (c0 (vsub b a))) /\ Rabs (Bval (c2 (vsub b a))) <= Rabs (Bval (c0 (vsub b a)))) \/
    (Rabs (Bval (c0 (vsub b a))) <= Rabs (Bval (c1 (vsub b a))) /\ Rabs (Bval (c2 (vsub b a))) <= Rabs (Bval (c1 (vsub b a)))) \/
    (Rabs (Bval (c0 (vsub b a))) <= Rabs (Bval (c2 (vsub b a))) /\ Rabs (Bval (c1 (vsub b a))) <= Rabs (Bval (c2 (vsub b a))))) by lra.
  unfold out_of_bounds, any3, zip3. cbn [c0 c1 c2].
  destruct MX as [[M1 M2]|[[M1 M2]|[M1 M2]]].
  - assert (H : nlt (c0 a) (c0 x) && nlt (c0 b) (c0 x) || nlt (c0 x) (c0 a) && nlt (c0 x) (c0 b) = true) by (apply coord_out; auto; apply (DL (c0 (vsub b a))); auto using Rle_refl).
    apply orb_prop in H. destruct H as [-> | ->]; [reflexivity|]. now rewrite orb_true_r.
  - assert (H : nlt (c1 a) (c1 x) && nlt (c1 b) (c1 x) || nlt (c1 x) (c1 a) && nlt (c1 x) (c1 b) = true) by (apply coord_out; auto; apply (DL (c1 (vsub b a))); auto using Rle_refl).
    apply orb_prop in H. destruct H as [-> | ->]; rewrite ?orb_true_r; reflexivity.
  - assert (H : nlt (c2 a) (c2 x) && nlt (c2 b) (c2 x) || nlt (c2 x) (c2 a) && nlt (c2 x) (c2 b) = true) by (apply coord_out; auto; apply (DL (c2 (vsub b a))); auto using Rle_refl).
    apply orb_prop in H. destruct H as [-> | ->]; rewrite ?orb_true_r; reflexivity.
Qed.
End Plane.
