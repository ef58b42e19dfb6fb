(** * rodrigues of a matrix of doubles: proofs for property C173. *)
From Coq Require Import Reals ZArith List Bool Sumbool Lra Lia Psatz.
From Flocq Require Import Core IEEE754.BinarySingleNaN.
From Verif Require Import Num B64 BLemmas Vec RVec VLemmas NpList MVx MRotation SpecGeom SpecRotation SpecDouble SpecTransD SpecTrigD SpecRigidD PMat3 PRotation PRotation2 PErr PNormB PNormD PRodD PEulerD PSumD PAngleD PRigid PRigidD PPartD PXzD.
Import ListNotations.
Local Open Scope R_scope.
Set Implicit Arguments.
Unset Strict Implicit.
Local Notation eps := PErr.eps.

(** ** the product of the factors of a matrix next to an orthogonal one *)
Lemma weighted u0 u1 u2 v0 v1 v2 a b c H : 0 <= H -> u0 * u0 + u1 * u1 + u2 * u2 = 1 -> v0 * v0 + v1 * v1 + v2 * v2 = 1 -> Rabs a <= H -> Rabs b <= H -> Rabs c <= H ->
  Rabs (u0 * a * v0 + u1 * b * v1 + u2 * c * v2) <= H.
Proof.
  intros PH U V A B C. assert (Q : forall u w v, Rabs w <= H -> Rabs (u * w * v) <= H * (/ 2 * (u * u + v * v))).
  { intros u w v W. replace (u * w * v) with (w * (u * v)) by ring. pose proof (Rle_0_sqr (u - v)) as Z1. pose proof (Rle_0_sqr (u + v)) as Z2. unfold Rsqr in Z1, Z2. assert (UV : Rabs (u * v) <= / 2 * (u * u + v * v)) by (apply abs_le; lra). apply mul_bound; auto. apply Rle_trans with (2 := UV). apply Rabs_pos. }
  pose proof (Q u0 a v0 A) as Q0. pose proof (Q u1 b v1 B) as Q1. pose proof (Q u2 c v2 C) as Q2. replace H with (H * (/ 2 * (u0 * u0 + v0 * v0)) + H * (/ 2 * (u1 * u1 + v1 * v1)) + H * (/ 2 * (u2 * u2 + v2 * v2))).
  - apply abs_le in Q0, Q1, Q2. apply abs_le. lra.
  - replace (H * (/ 2 * (u0 * u0 + v0 * v0)) + H * (/ 2 * (u1 * u1 + v1 * v1)) + H * (/ 2 * (u2 * u2 + v2 * v2))) with (H * / 2 * ((u0 * u0 + u1 * u1 + u2 * u2) + (v0 * v0 + v1 * v1 + v2 * v2))) by ring. rewrite U, V. lra.
Qed.
Lemma norm_tri x y : Rabs (rnorm x - rnorm y) <= rnorm (rsub x y).
Proof.
  assert (E1 : radd (rsub x y) y = x) by (apply V3_eq; unfold radd, rsub; cbn [c0 c1 c2]; ring).
  assert (E2 : radd (rsub y x) x = y) by (apply V3_eq; unfold radd, rsub; cbn [c0 c1 c2]; ring).
  assert (E3 : rnorm (rsub y x) = rnorm (rsub x y)) by (unfold rnorm; f_equal; unfold rdot, rsub; cbn [c0 c1 c2]; ring).
  pose proof (rnorm_tri (rsub x y) y) as T1. rewrite E1 in T1. pose proof (rnorm_tri (rsub y x) x) as T2. rewrite E2, E3 in T2. apply abs_le. lra.
Qed.
Lemma near_apply h C m w : 0 <= h -> mnear h C m -> rnorm w = 1 -> rnorm (rsub (rapply C w) (rapply m w)) <= 6 * h.
Proof.
  intros Ph ((A0 & A1 & A2) & (B0 & B1 & B2) & (D0 & D1 & D2)) W. destruct (comp_le w) as (W0 & W1 & W2). rewrite W in W0, W1, W2. replace (6 * h) with (2 * (3 * h)) by ring.
  assert (R : forall r s, Rabs (c0 (rsub r s)) <= h -> Rabs (c1 (rsub r s)) <= h -> Rabs (c2 (rsub r s)) <= h -> Rabs (rdot r w - rdot s w) <= 3 * h).
  { intros r s X Y Z. replace (rdot r w - rdot s w) with (c0 (rsub r s) * c0 w + c1 (rsub r s) * c1 w + c2 (rsub r s) * c2 w) by (unfold rdot, rsub; cbn [c0 c1 c2]; ring).
    pose proof (mul_bound Ph Rle_0_1 X W0) as M0. pose proof (mul_bound Ph Rle_0_1 Y W1) as M1. pose proof (mul_bound Ph Rle_0_1 Z W2) as M2. apply abs_le in M0, M1, M2. apply abs_le. lra. }
  apply rnorm_small; [lra| | |]; unfold rapply; unfold rsub at 1; cbn [c0 c1 c2]; apply R; assumption.
Qed.
Lemma polar_near C U s V m h : 0 <= h -> svd_of C U s V -> orthogonal m -> mnear h C m -> mnear (7 * h) (rmmul U V) m.
Proof.
  intros Ph (OU & OV & S0 & S1 & S2 & EC) OM NC.
  assert (SV : forall e x, (e = ex \/ e = ey \/ e = ez) -> rnorm (rapply (rdiag s) e) = x -> Rabs (x - 1) <= 6 * h).
  { intros e x He <-. set (w := rapply (rtrans V) e). assert (E1 : rnorm e = 1) by (clear -He; assert (E : rdot e e = 1) by (destruct He as [->|[->| ->]]; unfold rdot, ex, ey, ez; cbn [c0 c1 c2]; ring); unfold rnorm; rewrite E; apply sqrt_1).
    assert (W : rnorm w = 1) by (unfold w; rewrite orthogonal_norm; [exact E1|now apply orthogonal_trans]).
    assert (CW : rapply C w = rapply U (rapply (rdiag s) e)) by (unfold w; rewrite EC, !rapply_mul, rotation_inv_r by exact OV; reflexivity).
    pose proof (near_apply Ph NC W) as N. pose proof (norm_tri (rapply C w) (rapply m w)) as T. assert (NW : rnorm (rapply C w) = rnorm (rapply (rdiag s) e)) by (rewrite CW; apply orthogonal_norm; exact OU). rewrite NW, (orthogonal_norm w OM), W in T. lra. }
  destruct s as [s0 s1 s2]. cbn [c0 c1 c2] in *. assert (SX : forall e x y, 0 <= x -> rdot y y = x * x -> rapply (rdiag (mk3 s0 s1 s2)) e = y -> (e = ex \/ e = ey \/ e = ez) -> Rabs (x - 1) <= 6 * h). { intros e x y Px Y E He. apply (SV e x He). rewrite E. unfold rnorm. rewrite Y. now apply sqrt_square. }
  assert (D0 : Rabs (s0 - 1) <= 6 * h) by (eapply (SX ex s0); [lra| |unfold rapply, rdiag, ex, rdot; cbn [c0 c1 c2]; reflexivity|auto]; unfold rdot; cbn [c0 c1 c2]; ring).
  assert (D1 : Rabs (s1 - 1) <= 6 * h) by (eapply (SX ey s1); [lra| |unfold rapply, rdiag, ey, rdot; cbn [c0 c1 c2]; reflexivity|auto]; unfold rdot; cbn [c0 c1 c2]; ring).
  assert (D2 : Rabs (s2 - 1) <= 6 * h) by (eapply (SX ez s2); [lra| |unfold rapply, rdiag, ez, rdot; cbn [c0 c1 c2]; reflexivity|auto]; unfold rdot; cbn [c0 c1 c2]; ring).
  clear SX SV. assert (N : mnear (6 * h) C (rmmul U V)).
  { rewrite EC. clear -OU OV D0 D1 D2 Ph. destruct OU as [OU _]. destruct OV as [_ OV]. destruct U as [[u00 u01 u02] [u10 u11 u12] [u20 u21 u22]], V as [[v00 v01 v02] [v10 v11 v12] [v20 v21 v22]].
    unfold rmmul, rtrans, reye, rcol0, rcol1, rcol2, rdot in OU, OV. cbn [c0 c1 c2] in OU, OV. injection OU as A0 _ _ _ A1 _ _ _ A2. injection OV as B0 _ _ _ B1 _ _ _ B2.
    assert (PH : 0 <= 6 * h) by lra. unfold mnear, coords_le, rsub, rmmul, rdiag, rcol0, rcol1, rcol2, rdot. cbn [c0 c1 c2].
    assert (G : forall a b c x y z, a * a + b * b + c * c = 1 -> x * x + y * y + z * z = 1 -> Rabs ((a * s0 + b * 0 + c * 0) * x + (a * 0 + b * s1 + c * 0) * y + (a * 0 + b * 0 + c * s2) * z - (a * x + b * y + c * z)) <= 6 * h).
    { intros a b c x y z A B. replace ((a * s0 + b * 0 + c * 0) * x + (a * 0 + b * s1 + c * 0) * y + (a * 0 + b * 0 + c * s2) * z - (a * x + b * y + c * z)) with (a * (s0 - 1) * x + b * (s1 - 1) * y + c * (s2 - 1) * z) by ring. now apply weighted. }
    split; [|split]; (split; [|split]); apply G; assumption. }
  destruct N as ((X0 & X1 & X2) & (Y0 & Y1 & Y2) & (Z0 & Z1 & Z2)), NC as ((A0 & A1 & A2) & (B0 & B1 & B2) & (E0 & E1 & E2)).
  assert (T : forall c k m', Rabs (c - k) <= 6 * h -> Rabs (c - m') <= h -> Rabs (k - m') <= 7 * h) by (intros c k m' P Q; apply abs_le in P, Q; apply abs_le; lra).
  unfold mnear, coords_le, rsub in *. cbn [c0 c1 c2] in *. repeat split; eapply T; eassumption.
Qed.

(** ** arc cosines of nearby numbers *)
Lemma acos_near t q c : 0 <= t <= PI -> 0 <= q -> 4 * q <= sin t * sin t -> -1 <= c <= 1 -> Rabs (c - cos t) <= q -> Rabs (acos c - t) * sin t <= 2 * q.
Proof.
  intros Ht Pq Hq Hc D. destruct (Rle_lt_or_eq_dec 0 q Pq) as [Q|Q].
  2:{ subst q. assert (E : c = cos t) by (apply abs_le in D; lra). rewrite E, acos_cos by exact Ht. rewrite Rminus_eq_0, Rabs_R0. lra. }
  assert (S0 : 0 <= sin t) by (apply sin_ge_0; lra). pose proof (SIN_bound t) as SB. assert (PS : 0 < sin t) by nra. set (s := sin t) in *. set (H := 2 * q / s). assert (HS : H * s = 2 * q) by (unfold H; field; lra). assert (PH : 0 < H) by (unfold H; apply Rdiv_lt_0_compat; lra). assert (H2 : H <= s / 2) by (apply Rmult_le_reg_r with s; [exact PS|rewrite HS; lra]).
  assert (SL : 5 / 6 * (H / 2) <= sin (H / 2)) by (apply sin_low; lra). pose proof (acos_bound c) as AB. assert (CA : cos (acos c) = c) by (apply cos_acos; exact Hc). assert (ST : s <= t) by (apply sin_small; lra). assert (SP : s <= PI - t) by (unfold s; rewrite <- sin_PI_x; apply sin_small; lra). apply abs_le in D.
  assert (KEY : forall u, Rabs (u - t) = H / 2 -> q < 2 * (sin u * sin (H / 2))).
  { intros u Hu. pose proof (sin_lip u t) as L. rewrite Hu in L. fold s in L. apply abs_le in L. assert (SU : 3 / 4 * s <= sin u) by lra. apply Rlt_le_trans with (2 * (3 / 4 * s * (5 / 6 * (H / 2)))); [|apply Rmult_le_compat_l; [lra|]; apply Rmult_le_compat; lra]. replace (2 * (3 / 4 * s * (5 / 6 * (H / 2)))) with (5 / 8 * (H * s)) by field. rewrite HS. lra. }
  assert (UP : acos c <= t + H).
  { destruct (Rle_lt_dec (acos c) (t + H)) as [A|A]; [exact A|exfalso]. assert (C1 : cos (acos c) <= cos (t + H)) by (apply cos_decr_1; lra). pose proof (form2 t (t + H)) as F. replace ((t - (t + H)) / 2) with (- (H / 2)) in F by field. replace ((t + (t + H)) / 2) with (t + H / 2) in F by field. rewrite sin_neg in F. assert (U : Rabs (t + H / 2 - t) = H / 2) by (replace (t + H / 2 - t) with (H / 2) by ring; apply Rabs_pos_eq; lra). pose proof (KEY _ U). lra. }
  assert (LO : t - H <= acos c).
  { destruct (Rle_lt_dec (t - H) (acos c)) as [A|A]; [exact A|exfalso]. assert (C1 : cos (t - H) <= cos (acos c)) by (apply cos_decr_1; lra). pose proof (form2 (t - H) t) as F. replace ((t - H - t) / 2) with (- (H / 2)) in F by field. replace ((t - H + t) / 2) with (t - H / 2) in F by field. rewrite sin_neg in F. assert (U : Rabs (t - H / 2 - t) = H / 2) by (replace (t - H / 2 - t) with (- (H / 2)) by ring; rewrite Rabs_Ropp; apply Rabs_pos_eq; lra). pose proof (KEY _ U). lra. }
  rewrite <- HS. apply Rmult_le_compat_r; [lra|]. apply abs_le. lra.
Qed.

Section Log.
Context (T : Trans b64) (HA : accurate_acos T).
Context (r : M3 b64) (k : V3 R) (t D : R) (K : rdot k k = 1) (Ht : 0 <= t <= PI) (CR : close33 D r (axis_rot t k)) (HD : 20 * eps <= D) (D2 : D <= / 100).
Let s := sin t.
Let w : V3 b64 := mk3 (nsub (c1 (c2 r)) (c2 (c1 r))) (nsub (c2 (c0 r)) (c0 (c2 r))) (nsub (c0 (c1 r)) (c1 (c0 r))).
Let sd : b64 := nmul (vnorm w) (nsqrt (nlit 1 4)).
Let cd : b64 := clip (nofZ (-1)) (nofZ 1) (nmul (nsub (mtrace r) (nofZ 1)) (nlit 1 2)).
Let p := 22 / 10 * D.

Lemma l_small0 : 0 < eps /\ 0 < D /\ -1 <= s <= 1.
Proof. pose proof eps_tiny. pose proof (SIN_bound t) as B. fold s in B. repeat split; lra. Qed.
Lemma l_k : Rabs (c0 k) <= 1 /\ Rabs (c1 k) <= 1 /\ Rabs (c2 k) <= 1 /\ rnorm k = 1.
Proof. assert (N : rnorm k = 1) by (unfold rnorm; rewrite K; apply sqrt_1). destruct (comp_le k) as (A & B & C). rewrite N in A, B, C. auto. Qed.
Lemma l_w : close3 p w (rscale (2 * s) k).
Proof.
  destruct l_small0 as (PE & PD & Ps). destruct CR as (R0 & R1 & R2). destruct (rrow_le (Logic.proj1 (axis_rot_rotation t K))) as ((A0 & A1 & A2) & (B0 & B1 & B2) & (E0 & E1 & E2)). apply nr3_close in R0, R1, R2. destruct R0 as (M00 & M01 & M02), R1 as (M10 & M11 & M12), R2 as (M20 & M21 & M22).
  assert (M3 : mid 3) by (apply mid_const; lra). set (m := axis_rot t k) in *.
  assert (X0 : c1 (c2 m) - c2 (c1 m) = 2 * s * c0 k) by (unfold m, axis_rot, s; cbn [c0 c1 c2]; ring). assert (X1 : c2 (c0 m) - c0 (c2 m) = 2 * s * c1 k) by (unfold m, axis_rot, s; cbn [c0 c1 c2]; ring). assert (X2 : c0 (c1 m) - c1 (c0 m) = 2 * s * c2 k) by (unfold m, axis_rot, s; cbn [c0 c1 c2]; ring).
  apply nr_close; unfold w, rscale; cbn [c0 c1 c2]; [rewrite <- X0|rewrite <- X1|rewrite <- X2]; (eapply nr_weak; [|eapply (nr_sub (B := 3) (P := 1) (Q := 1))]); try eassumption; unfold p; lra.
Qed.
Lemma half_val : (bfin (nsqrt (nlit 1 4) : b64) = true /\ Bval (nsqrt (nlit 1 4)) = / 2) /\ (bfin (nlit 1 2 : b64) = true /\ Bval (nlit 1 2) = / 2).
Proof.
  split; (split; [vm_compute; reflexivity|]); rewrite (@Bval_me _ 4503599627370496%Z (-53)%Z) by (vm_compute; reflexivity); change (bpow radix2 (-53)) with (/ 9007199254740992); lra.
Qed.
Lemma l_c : nr (2 * D) cd (cos t) /\ -1 <= Bval cd <= 1.
Proof.
  destruct l_small0 as (PE & PD & Ps). pose proof CR as (R0 & R1 & R2). destruct (rrow_le (Logic.proj1 (axis_rot_rotation t K))) as ((A0 & A1 & A2) & (B0 & B1 & B2) & (E0 & E1 & E2)). apply nr3_close in R0, R1, R2. destruct R0 as (M00 & M01 & M02), R1 as (M10 & M11 & M12), R2 as (M20 & M21 & M22).
  pose proof (axis_rot_trace t K) as TR. unfold trace in TR. set (m := axis_rot t k) in *. destruct half_val as [_ [FH VH]]. destruct (@int_val 1) as [F1 V1]; [lia|]. destruct (@int_val (-1)) as [Fm Vm]; [lia|]. assert (M3 : mid 3) by (apply mid_const; lra). assert (M4 : mid 4) by (apply mid_const; lra). assert (M5 : mid 5) by (apply mid_const; lra).
  pose proof (nr_add (B := 3) M00 M11 A0 B1 ltac:(lra) M3) as S1. assert (U1 : Rabs (c0 (c0 m) + c1 (c1 m)) <= 2) by (apply abs_le in A0, B1; apply abs_le; lra). pose proof (nr_add (B := 4) S1 M22 U1 E2 ltac:(lra) M4) as S2. rewrite TR in S2. pose proof (COS_bound t) as CB.
  assert (N1 : nr 0 (nofZ 1) 1) by (split; [exact F1|rewrite V1, Rminus_eq_0, Rabs_R0; lra]). assert (NH : nr 0 (nlit 1 2) (/ 2)) by (split; [exact FH|rewrite VH, Rminus_eq_0, Rabs_R0; lra]).
  assert (U2 : Rabs (1 + 2 * cos t) <= 3) by (apply abs_le; lra). pose proof (nr_sub (B := 5) (Q := 1) S2 N1 U2 ltac:(apply abs_le; lra) ltac:(lra) M5) as S3. replace (1 + 2 * cos t - 1) with (2 * cos t) in S3 by ring. assert (U3 : Rabs (2 * cos t) <= 2) by (apply abs_le; lra).
  pose proof (nr_mul (B := 3) (Q := / 2) S3 NH U3 ltac:(apply abs_le; lra) ltac:(lra) M3) as S4. replace (2 * cos t * / 2) with (cos t) in S4 by field. fold (mtrace r) in S4.
  assert (S5 : nr (2 * D) (nmul (nsub (mtrace r) (nofZ 1)) (nlit 1 2)) (cos t)) by (eapply nr_weak; [|exact S4]; lra). clear S4. set (x := nmul (nsub (mtrace r) (nofZ 1)) (nlit 1 2)) in *. destruct S5 as [Fx Ex]. unfold cd, clip. rewrite (blt_spec Fx Fm), (blt_spec F1 Fx), V1, Vm. apply abs_le in Ex.
  destruct (Rlt_bool_spec (Bval x) (-1)) as [L|L]; [split; [split; [exact Fm|rewrite Vm; apply abs_le; lra]|rewrite Vm; lra]|]. destruct (Rlt_bool_spec 1 (Bval x)) as [G|G]; [split; [split; [exact F1|rewrite V1; apply abs_le; lra]|rewrite V1; lra]|]. split; [split; [exact Fx|apply abs_le; lra]|lra].
Qed.
Lemma l_under : 0 <= s <= 9 / 1000000 -> D <= / 2000000000000 -> bfin sd = true /\ Bval sd <= 95 / 10000000.
Proof.
  intros Hs HD'. destruct l_small0 as (PE & PD & Ps). pose proof eps_tiny as ET. pose proof l_w as CW. assert (PP : 0 <= p) by (unfold p; lra). pose proof (close_norm PP CW) as CN. destruct l_k as (_ & _ & _ & KN). rewrite rnorm_scale, KN, Rmult_1_r, (Rabs_pos_eq (2 * s)) in CN by lra. apply abs_le in CN. unfold p in CN. destruct half_val as [[FH VH] _].
  assert (NB : bfin (vnorm w) = true /\ - (1 / 2) <= Bval (vnorm w) <= 185 / 10000000).
  { set (nw := rnorm (Rval3 w)) in *. assert (N0 : 0 <= nw) by apply rnorm_pos. destruct (Rle_lt_dec (bpow radix2 (-400)) nw) as [A|A].
    - assert (SO : span_ok nw) by (split; [exact A|apply Rle_trans with (bpow radix2 0); [change (bpow radix2 0) with 1; lra|apply bpow_le; lia]]). destruct (norm_ap (Logic.proj1 CW) SO) as [FN EN]. fold nw in EN. apply abs_le in EN. split; [exact FN|]. assert (9 * eps * nw <= 9 * eps) by nra. lra.
    - assert (H11 : bpow radix2 (-300) <= 1 <= bpow radix2 300) by (change 1 with (bpow radix2 0); split; apply bpow_le; lia). destruct (small_norm H11 (Logic.proj1 CW) (Rlt_le _ _ A)) as [FN EN]. split; [exact FN|]. assert (T40 : bpow radix2 (-399) <= bpow radix2 (-40)) by (apply bpow_le; lia). change (bpow radix2 (-40)) with (/ 1099511627776) in T40. lra. }
  destruct NB as [FN BN]. assert (M1 : mid 1) by (apply mid_const; lra). unfold sd. destruct (@mul_ap (vnorm w) (nsqrt (nlit 1 4)) 1 FN FH M1) as [FM EM]; [rewrite VH; apply abs_le; lra|]. rewrite VH in EM. apply abs_le in EM. split; [exact FM|lra].
Qed.
(** ** away from the threshold *)
Context (Hs : 9 / 1000000 <= sin t) (HS : 100 * D <= sin t * sin t).
Lemma l_small : 0 < eps /\ 0 < s <= 1 /\ 0 < D /\ D <= / 100 * s /\ D <= / 100.
Proof using HD D2 Hs HS. pose proof eps_tiny. pose proof (SIN_bound t) as B. fold s in B, Hs, HS. repeat split; try lra; nra. Qed.
Lemma l_s : nr (28 / 10 * D) sd s.
Proof.
  destruct l_small as (PE & Ps & PD & D1 & _). pose proof l_w as CW. assert (PP : 0 <= p) by (unfold p; lra). pose proof (close_norm PP CW) as CN. destruct l_k as (_ & _ & _ & KN). rewrite rnorm_scale, KN, Rmult_1_r, (Rabs_pos_eq (2 * s)) in CN by lra. apply abs_le in CN. unfold p in CN.
  assert (SO : span_ok (rnorm (Rval3 w))). { split; [apply Rle_trans with (bpow radix2 (-20)); [apply bpow_le; lia|change (bpow radix2 (-20)) with (/ 1048576); fold s in Hs; lra]|apply Rle_trans with (bpow radix2 2); [change (bpow radix2 2) with 4; lra|apply bpow_le; lia]]. }
  destruct (norm_ap (Logic.proj1 CW) SO) as [FN EN]. set (nw := rnorm (Rval3 w)) in *. assert (NW : 9 * eps * nw <= 20 * eps) by nra. destruct half_val as [[FH VH] _].
  assert (N1 : nr (2 * p + 20 * eps) (vnorm w) (2 * s)) by (split; [exact FN|]; apply abs_le in EN; apply abs_le; unfold p; lra). assert (N2 : nr 0 (nsqrt (nlit 1 4)) (/ 2)) by (split; [exact FH|rewrite VH, Rminus_eq_0, Rabs_R0; lra]).
  assert (M2 : mid 2) by (apply mid_const; lra). assert (B1 : Rabs (2 * s) <= 2) by (apply abs_le; lra). assert (B2 : Rabs (/ 2) <= / 2) by (apply abs_le; lra).
  pose proof (nr_mul (B := 2) N1 N2 B1 B2 ltac:(unfold p; lra) M2) as N3. replace (2 * s * / 2) with s in N3 by field. eapply nr_weak; [|exact N3]. unfold p. lra.
Qed.
Lemma l_theta : nr (42 / 10 * D / s) (arccos cd) t.
Proof.
  destruct l_small as (PE & Ps & PD & D1 & _). destruct l_c as [[Fc Ec] Bc]. destruct (HA Fc Bc) as (q & E & Fq & _ & Dq). change ulp_1 with eps in Dq. unfold arccos. rewrite E. split; [exact Fq|]. fold s in HS. assert (AN : Rabs (acos (Bval cd) - t) * s <= 2 * (2 * D)) by (apply acos_near; auto; [lra|fold s; lra]).
  assert (AN' : Rabs (acos (Bval cd) - t) <= 4 * (D / s)) by (apply Rmult_le_reg_r with s; [lra|]; replace (4 * (D / s) * s) with (2 * (2 * D)) by (field; lra); exact AN). assert (V : D <= D / s) by (apply Rmult_le_reg_r with s; [lra|]; replace (D / s * s) with D by (field; lra); nra). replace (42 / 10 * D / s) with (42 / 10 * (D / s)) by (field; lra). apply abs_le in AN', Dq. apply abs_le. lra.
Qed.
Lemma l_out : (2 / 100000 <= sin t -> nlt sd (nlit 1 100000) = false) /\ close3 (20 * D / s) (map3 (fun x => nmul x (nmul (ndiv (nofZ 1) (nmul (nofZ 2) sd)) (arccos cd))) w) (rscale t k).
Proof.
  destruct l_small as (PE & Ps & PD & D1 & _). destruct l_k as (K0 & K1 & K2 & _). pose proof pi_up as PU. pose proof l_theta as NT. pose proof l_s as NS. set (h := / s). assert (Hh : h * s = 1) by (unfold h; field; lra). assert (H1 : 1 <= h) by (unfold h; rewrite <- Rinv_1; apply Rinv_le_contravar; lra). assert (H5 : h <= 120000). { apply Rmult_le_reg_r with s; [lra|]. rewrite Hh. fold s in Hs. lra. }
  set (v := D * h). assert (Vs : v * s = D) by (unfold v; rewrite Rmult_assoc, Hh; ring). assert (Pv : 0 < v) by (unfold v; apply Rmult_lt_0_compat; lra). assert (V1 : v <= / 100 * s) by (fold s in HS; apply Rmult_le_reg_r with s; [lra|]; rewrite Vs; lra). assert (VD : D <= v) by (rewrite <- Vs; nra).
  replace (42 / 10 * D / s) with (42 / 10 * v) in NT by (unfold v, h; field; lra). replace (20 * D / s) with (20 * v) by (unfold v, h; field; lra).
  assert (HV : v * h <= / 100). { apply Rmult_le_reg_r with s; [lra|]. rewrite Rmult_assoc, Hh. lra. } assert (PVH : 0 < v * h) by (apply Rmult_lt_0_compat; lra). assert (VVH : v <= v * h) by nra. assert (EH : eps * h <= / 20 * v) by (unfold v; replace (/ 20 * (D * h)) with (/ 20 * D * h) by ring; apply Rmult_le_compat_r; lra).
  split. { intros Hs'. fold s in Hs'. destruct lit_val as [Fl Vl]. destruct NS as [Fs Es]. rewrite (blt_spec Fs Fl). apply Rlt_bool_false. apply abs_le in Es. fold s in Hs. lra. }
  assert (MM : forall B, 1 <= B <= 1000000 -> mid B). { intros B [B1 B2]. split; [apply Rle_trans with (bpow radix2 0); [apply bpow_le; lia|exact B1]|apply Rle_trans with (bpow radix2 20); [change (bpow radix2 20) with 1048576; lra|apply bpow_le; lia]]. }
  destruct (@int_val 1) as [F1 I1]; [lia|]. destruct (@int_val 2) as [F2 I2]; [lia|]. assert (N2 : nr 0 (nofZ 2) 2) by (split; [exact F2|rewrite I2, Rminus_eq_0, Rabs_R0; lra]).
  assert (ND : nr (58 / 10 * D) (nmul (nofZ 2) sd) (2 * s)). { eapply nr_weak; [|exact (nr_mul (B := 3) (P := 2) (Q := 1) N2 NS ltac:(apply abs_le; lra) ltac:(apply abs_le; lra) ltac:(lra) (MM 3 ltac:(lra)))]. lra. }
  assert (NI : nr (16 / 10 * (v * h)) (ndiv (nofZ 1) (nmul (nofZ 2) sd)) (h / 2)).
  { destruct ND as [FY EY]. set (y := nmul (nofZ 2) sd) in *. set (Y := Bval y) in *. apply abs_le in EY. assert (LY : 194 / 100 * s <= Y) by lra. assert (IY : 0 < / Y) by (apply Rinv_0_lt_compat; lra). assert (UI : / Y <= 52 / 100 * h). { apply Rmult_le_reg_r with Y; [lra|]. rewrite Rinv_l by lra. apply Rle_trans with (52 / 100 * h * (194 / 100 * s)); [|apply Rmult_le_compat_l; lra]. replace (52 / 100 * h * (194 / 100 * s)) with (52 * 194 / 10000 * (h * s)) by field. rewrite Hh. lra. }
    destruct (@div_ap (nofZ 1) y h F1 (MM h ltac:(lra))) as [FQ EQ]; [fold Y; lra|rewrite I1; fold Y; unfold Rdiv; rewrite Rmult_1_l, Rabs_pos_eq; lra|]. split; [exact FQ|]. rewrite I1 in EQ. fold Y in EQ.
    assert (DI : Rabs (1 / Y - h / 2) <= 152 / 100 * (v * h)). { replace (1 / Y - h / 2) with ((2 * s - Y) * (/ Y * (h / 2))) by (unfold h; field; lra). assert (M : Rabs ((2 * s - Y) * (/ Y * (h / 2))) <= 58 / 10 * D * (52 / 100 * h * (h / 2))). { apply mul_bound; [lra|nra|apply abs_le; lra|]. rewrite Rabs_pos_eq by (apply Rmult_le_pos; lra). apply Rmult_le_compat_r; lra. } apply Rle_trans with (1 := M). replace (58 / 10 * D * (52 / 100 * h * (h / 2))) with (58 * 26 / 1000 * (v * h)) by (unfold v; field). lra. }
    apply abs_le in EQ, DI. apply abs_le. lra. }
  assert (PT : Rabs t <= 33 / 10) by (apply abs_le; lra). assert (PG : Rabs (h / 2) <= h / 2) by (rewrite Rabs_pos_eq; lra).
  assert (NV : nr (76 / 10 * (v * h)) (nmul (ndiv (nofZ 1) (nmul (nofZ 2) sd)) (arccos cd)) (h / 2 * t)).
  { assert (BB : (h / 2 + 16 / 10 * (v * h)) * (33 / 10 + 42 / 10 * v) <= 2 * h). { replace ((h / 2 + 16 / 10 * (v * h)) * (33 / 10 + 42 / 10 * v)) with (h * ((/ 2 + 16 / 10 * v) * (33 / 10 + 42 / 10 * v))) by field. replace (2 * h) with (h * 2) by ring. apply Rmult_le_compat_l; [lra|]. nra. }
    eapply nr_weak; [|exact (nr_mul (B := 2 * h) NI NT PG PT BB (MM (2 * h) ltac:(lra)))]. assert (Q : 42 / 10 * v * (h / 2 + 16 / 10 * (v * h)) <= 217 / 100 * (v * h)). { replace (42 / 10 * v * (h / 2 + 16 / 10 * (v * h))) with (v * h * (42 / 10 * (/ 2 + 16 / 10 * v))) by field. replace (217 / 100 * (v * h)) with (v * h * (217 / 100)) by ring. apply Rmult_le_compat_l; lra. } lra. }
  pose proof l_w as CW. apply nr3_close in CW. destruct CW as (W0 & W1 & W2). unfold rscale in W0, W1, W2. cbn [c0 c1 c2] in W0, W1, W2.
  assert (BV : Rabs (h / 2 * t) <= 165 / 100 * h) by (rewrite Rabs_pos_eq by nra; nra). assert (M4 : mid 4) by (apply MM; lra).
  assert (FIN : forall x ki, nr p x (2 * s * ki) -> Rabs ki <= 1 -> nr (20 * v) (nmul x (nmul (ndiv (nofZ 1) (nmul (nofZ 2) sd)) (arccos cd))) (t * ki)).
  { intros x ki NX Bk. replace (t * ki) with (2 * s * ki * (h / 2 * t)) by (replace (2 * s * ki * (h / 2 * t)) with (h * s * (t * ki)) by field; rewrite Hh; ring).
    assert (BX : Rabs (2 * s * ki) <= 2 * s) by (replace (2 * s) with (2 * s * 1) at 2 by ring; apply mul_bound; [lra|lra|rewrite Rabs_pos_eq; lra|exact Bk]).
    assert (BB : (2 * s + p) * (165 / 100 * h + 76 / 10 * (v * h)) <= 4). { unfold p. rewrite <- Vs. replace ((2 * s + 22 / 10 * (v * s)) * (165 / 100 * h + 76 / 10 * (v * h))) with (h * s * ((2 + 22 / 10 * v) * (165 / 100 + 76 / 10 * v))) by ring. rewrite Hh. nra. }
    eapply nr_weak; [|exact (nr_mul (B := 4) NX NV BX BV BB M4)]. unfold p. assert (Q1 : 22 / 10 * D * (165 / 100 * h) = 363 / 100 * v) by (unfold v; field). assert (Q2 : 76 / 10 * (v * h) * (2 * s + 22 / 10 * D) <= 154 / 10 * v). { rewrite <- Vs. replace (76 / 10 * (v * h) * (2 * s + 22 / 10 * (v * s))) with (h * s * (76 / 10 * v * (2 + 22 / 10 * v))) by ring. rewrite Hh. nra. } lra. }
  apply nr_close; unfold map3, rscale; cbn [c0 c1 c2]; apply FIN; assumption.
Qed.
End Log.
Lemma product_ap svd d tau e (m : M3 b64) u sv v M : 0 <= d <= 1 / 1000 -> 0 <= tau -> 0 <= e <= 1 / 100 -> accurate_svd d tau svd -> svd m = Ok (u, sv, v) -> orthogonal M -> close33 e m M ->
  close33 (9 * d + 20 * eps + 7 * (e + 2 * tau)) (mmul u v) M.
Proof.
  intros Hd Htau He HS E OM CM. set (D := 9 * d + 20 * eps + 7 * (e + 2 * tau)). pose proof eps_pos as PE. destruct (HS _ _ _ _ E) as (U & V & C & SV & CU & CV & _ & HC). pose proof SV as (OU & OV & _).
  assert (WM : forall row Row, close3 e row Row -> coords_le 1 Row -> within 2 row). { intros row Row (F & A & B & G) (X & Y & Z). apply abs_le in A, B, G, X, Y, Z. split; [exact F|]. repeat split; apply abs_le; lra. }
  destruct (rrow_le OM) as (Q0 & Q1 & Q2). destruct CM as (M0 & M1 & M2). specialize (HC 2 (WM _ _ M0 Q0) (WM _ _ M1 Q1) (WM _ _ M2 Q2)).
  assert (PH : 0 <= e + 2 * tau) by lra. assert (NC : mnear (e + 2 * tau) C M).
  { destruct HC as (H0 & H1 & H2). assert (G : forall row Row Row', close3 (tau * 2) row Row -> close3 e row Row' -> coords_le (e + 2 * tau) (rsub Row Row')). { intros row Row Row' (_ & A & B & G) (_ & X & Y & Z). apply abs_le in A, B, G, X, Y, Z. unfold coords_le, rsub. cbn [c0 c1 c2]. repeat split; apply abs_le; lra. }
    split; [exact (G _ _ _ H0 M0)|]. split; [exact (G _ _ _ H1 M1)|exact (G _ _ _ H2 M2)]. }
  pose proof (polar_near PH SV OM NC) as NP.
  assert (CP : close33 (9 * d + 20 * eps) (mmul u v) (rmmul U V)). { pose proof (close33_cnear (Logic.proj1 Hd) CV) as NV. eapply close33_weak; [|apply cnear_close; eapply mul_near; [| |exact CU| |exact NV|]]; auto; lra. }
  destruct NP as (P0 & P1 & P2), CP as (R0 & R1 & R2). assert (G : forall row Row Row', close3 (9 * d + 20 * eps) row Row -> coords_le (7 * (e + 2 * tau)) (rsub Row Row') -> close3 D row Row'). { intros row Row Row' (F & A & B & G) (X & Y & Z). unfold rsub in X, Y, Z. cbn [c0 c1 c2] in X, Y, Z. apply abs_le in A, B, G, X, Y, Z. unfold D. split; [exact F|]. repeat split; apply abs_le; lra. }
  split; [exact (G _ _ _ R0 P0)|]. split; [exact (G _ _ _ R1 P1)|exact (G _ _ _ R2 P2)].
Qed.
Lemma log_ap (T : Trans b64) svd d tau e (m : M3 b64) u sv v k t : accurate_acos T -> 0 <= d <= 1 / 1000 -> 0 <= tau -> 0 <= e <= 1 / 100 -> accurate_svd d tau svd -> svd m = Ok (u, sv, v) -> rdot k k = 1 -> 0 <= t <= PI -> close33 e m (axis_rot t k) ->
  let D := 9 * d + 20 * eps + 7 * (e + 2 * tau) in 2 / 100000 <= sin t -> 100 * D <= sin t * sin t ->
  exists r, rodrigues_mat svd m = Ok r /\ close3 (20 * D / sin t) r (rscale t k).
Proof.
  intros HA Hd Htau He HS E K Ht CM D Hs HSS. pose proof eps_pos as PE. pose proof (product_ap Hd Htau He HS E (Logic.proj1 (axis_rot_rotation t K)) CM) as CR. fold D in CR.
  assert (HD : 20 * eps <= D) by (unfold D; lra). assert (D2 : D <= / 100) by (pose proof (SIN_bound t); nra). destruct (l_out HA K Ht CR HD D2 ltac:(lra) HSS) as [TE CO]. specialize (TE Hs). eexists. split; [|exact CO]. unfold rodrigues_mat. rewrite E. cbn [bindr]. rewrite TE. reflexivity.
Qed.
Lemma log_small (T : Trans b64) svd d tau e (m : M3 b64) u sv v k t : accurate_acos T -> 0 <= d <= 1 / 1000 -> 0 <= tau -> 0 <= e <= 1 / 100 -> accurate_svd d tau svd -> svd m = Ok (u, sv, v) -> rdot k k = 1 -> 0 <= t <= 1 / 1000 -> close33 e m (axis_rot t k) ->
  let D := 9 * d + 20 * eps + 7 * (e + 2 * tau) in D <= / 2000000000000 ->
  exists r, rodrigues_mat svd m = Ok r /\ close3 (13 / 1000000) r (rscale t k).
Proof.
  intros HA Hd Htau He HS E K Ht CM D HD1. pose proof eps_pos as PE. pose proof (product_ap Hd Htau He HS E (Logic.proj1 (axis_rot_rotation t K)) CM) as CR. fold D in CR. pose proof PI2_3_2 as P3.
  assert (HD : 20 * eps <= D) by (unfold D; lra). assert (D2 : D <= / 100) by lra. assert (Ht' : 0 <= t <= PI) by lra. assert (PS : 0 <= sin t) by (apply sin_ge_0; lra). destruct lit_val as [Fl Vl]. destruct (@int_val 0) as [Z0 VZ]; [lia|]. change (nofZ 0) with (n0 : b64) in Z0, VZ.
  unfold rodrigues_mat. rewrite E. cbn [bindr]. match goal with |- context [nlt ?x (nlit 1 100000)] => set (sd := x) end. match goal with |- context [nlt n0 ?x] => set (cd := x) end. cbv zeta.
  pose proof (l_c K CR HD D2) as [[Fc Ec] _]. fold cd in Fc, Ec. apply abs_le in Ec. assert (CC : cos 0 - cos t <= t) by (pose proof (cos_lip 0 t) as L; rewrite Rminus_0_l, Rabs_Ropp, (Rabs_pos_eq t) in L by lra; apply abs_le in L; lra). rewrite cos_0 in CC.
  destruct (Rle_lt_dec (sin t) (9 / 1000000)) as [A|A].
  - destruct (l_under K CR HD D2 (conj PS A) HD1) as [Fs Bs]. fold sd in Fs, Bs. rewrite (blt_spec Fs Fl). rewrite Rlt_bool_true by lra. rewrite (blt_spec Z0 Fc), VZ. rewrite Rlt_bool_true by lra. eexists. split; [reflexivity|].
    assert (TT : t <= 12 / 1000000) by (pose proof (sin_low (h := t) ltac:(lra)); lra). destruct (l_k K) as (K0 & K1 & K2 & _).
    assert (G : forall x, Rabs x <= 1 -> Rabs (0 - t * x) <= 13 / 1000000) by (intros x Hx; rewrite Rminus_0_l, Rabs_Ropp; replace (13 / 1000000) with (13 / 1000000 * 1) by ring; apply mul_bound; [lra|lra|apply abs_le; lra|exact Hx]).
    split; [reflexivity|]. repeat split; apply G; assumption.
  - assert (HSS : 100 * D <= sin t * sin t) by nra. destruct (l_out HA K Ht' CR HD D2 (Rlt_le _ _ A) HSS) as [_ CO]. destruct (l_s K CR HD D2 (Rlt_le _ _ A) HSS) as [Fs Es]. fold sd in CO, Fs, Es. fold cd in CO. apply abs_le in Es.
    assert (BD : 20 * D / sin t <= 13 / 1000000) by (apply Rmult_le_reg_r with (sin t); [lra|]; replace (20 * D / sin t * sin t) with (20 * D) by (field; lra); nra).
    destruct (nlt sd (nlit 1 100000)) eqn:L.
    + rewrite (blt_spec Fs Fl) in L. revert L. case Rlt_bool_spec; [|discriminate]. intros L _. rewrite (blt_spec Z0 Fc), VZ. rewrite Rlt_bool_true by lra. eexists. split; [reflexivity|].
      assert (TT : t <= 13 / 1000000) by (pose proof (sin_low (h := t) ltac:(lra)); lra). destruct (l_k K) as (K0 & K1 & K2 & _).
      assert (G : forall x, Rabs x <= 1 -> Rabs (0 - t * x) <= 13 / 1000000) by (intros x Hx; rewrite Rminus_0_l, Rabs_Ropp; replace (13 / 1000000) with (13 / 1000000 * 1) by ring; apply mul_bound; [lra|lra|apply abs_le; lra|exact Hx]).
      split; [reflexivity|]. repeat split; apply G; assumption.
    + eexists. split; [reflexivity|]. eapply close3_weak; [exact BD|exact CO].
Qed.
(** ** turning by nearby vectors *)
Lemma exp_near k k' t th dl : rdot k k = 1 -> rdot k' k' = 1 -> 0 <= t -> 0 <= th -> 0 <= dl -> Rabs (t - th) <= 2 * dl -> coords_le dl (rsub (rscale th k') (rscale t k)) -> mnear (13 * dl) (axis_rot th k') (axis_rot t k).
Proof.
  intros K K' Ht Hth Hdl HT (C0 & C1 & C2). destruct (l_k K) as (K0 & K1 & K2 & _). destruct (l_k K') as (J0 & J1 & J2 & _). pose proof (cos_lip th t) as CL. pose proof (sin_lip th t) as SL. rewrite (Rabs_minus_sym th t) in CL, SL.
  assert (ST : Rabs (sin t) <= t) by (pose proof (sin_lip t 0) as L; rewrite sin_0, !Rminus_0_r, (Rabs_pos_eq t) in L by lra; exact L). assert (CT : Rabs (1 - cos t) <= t) by (pose proof (cos_lip 0 t) as L; rewrite cos_0, Rminus_0_l, Rabs_Ropp, (Rabs_pos_eq t) in L by lra; exact L).
  unfold rsub, rscale in C0, C1, C2. cbn [c0 c1 c2] in C0, C1, C2.
  assert (TK : forall x y, Rabs (th * x - t * y) <= dl -> Rabs x <= 1 -> t * Rabs (x - y) <= 3 * dl).
  { intros x y A B. rewrite <- (Rabs_pos_eq t) at 1 by lra. rewrite <- Rabs_mult. replace (t * (x - y)) with ((t - th) * x + (th * x - t * y)) by ring. apply Rle_trans with (1 := Rabs_triang _ _). assert (Rabs ((t - th) * x) <= 2 * dl * 1) by (apply mul_bound; lra). lra. }
  assert (WT : forall q x, Rabs q <= t -> t * Rabs x <= 3 * dl -> Rabs (q * x) <= 3 * dl). { intros q x A B. rewrite Rabs_mult. apply Rle_trans with (2 := B). apply Rmult_le_compat_r; [apply Rabs_pos|exact A]. }
  pose proof (TK _ _ C0 J0) as T0. pose proof (TK _ _ C1 J1) as T1. pose proof (TK _ _ C2 J2) as T2. clear C0 C1 C2.
  assert (SA : forall x y, Rabs x <= 1 -> t * Rabs (x - y) <= 3 * dl -> Rabs (sin th * x - sin t * y) <= 5 * dl).
  { intros x y A B. replace (sin th * x - sin t * y) with ((sin th - sin t) * x + sin t * (x - y)) by ring. apply Rle_trans with (1 := Rabs_triang _ _). assert (Rabs ((sin th - sin t) * x) <= 2 * dl * 1) by (apply mul_bound; lra). pose proof (WT _ _ ST B). lra. }
  assert (CA : forall x y x' y', Rabs x <= 1 -> Rabs y <= 1 -> Rabs x' <= 1 -> Rabs y' <= 1 -> t * Rabs (x' - x) <= 3 * dl -> t * Rabs (y' - y) <= 3 * dl -> Rabs ((1 - cos th) * (x' * y') - (1 - cos t) * (x * y)) <= 8 * dl).
  { intros x y x' y' A B A' B' TX TY. replace ((1 - cos th) * (x' * y') - (1 - cos t) * (x * y)) with ((cos th - cos t) * - (x' * y') + ((1 - cos t) * (x' - x) * y' + (1 - cos t) * (y' - y) * x)) by ring.
    assert (P : Rabs (- (x' * y')) <= 1) by (rewrite Rabs_Ropp; replace 1 with (1 * 1) by ring; apply mul_bound; lra). assert (Rabs ((cos th - cos t) * - (x' * y')) <= 2 * dl * 1) by (apply mul_bound; lra).
    assert (Rabs ((1 - cos t) * (x' - x) * y') <= 3 * dl * 1) by (apply mul_bound; [lra|lra|exact (WT _ _ CT TX)|exact B']). assert (Rabs ((1 - cos t) * (y' - y) * x) <= 3 * dl * 1) by (apply mul_bound; [lra|lra|exact (WT _ _ CT TY)|exact A]).
    apply Rle_trans with (1 := Rabs_triang _ _). apply Rle_trans with (2 * dl * 1 + (3 * dl * 1 + 3 * dl * 1)); [|lra]. apply Rplus_le_compat; [assumption|]. apply Rle_trans with (1 := Rabs_triang _ _). lra. }
  pose proof (SA _ _ J0 T0) as S0. pose proof (SA _ _ J1 T1) as S1. pose proof (SA _ _ J2 T2) as S2.
  pose proof (CA _ _ _ _ K0 K0 J0 J0 T0 T0) as Q00. pose proof (CA _ _ _ _ K0 K1 J0 J1 T0 T1) as Q01. pose proof (CA _ _ _ _ K0 K2 J0 J2 T0 T2) as Q02. pose proof (CA _ _ _ _ K1 K1 J1 J1 T1 T1) as Q11. pose proof (CA _ _ _ _ K1 K2 J1 J2 T1 T2) as Q12. pose proof (CA _ _ _ _ K2 K2 J2 J2 T2 T2) as Q22.
  clear TK WT SA CA T0 T1 T2. apply abs_le in S0, S1, S2, Q00, Q01, Q02, Q11, Q12, Q22. assert (CD : Rabs (cos th - cos t) <= 2 * dl) by lra. apply abs_le in CD. clear CL SL ST CT HT K0 K1 K2 J0 J1 J2.
  unfold mnear, coords_le, axis_rot, rsub. cbn [c0 c1 c2]. repeat split; apply abs_le; lra.
Qed.
Lemma exp_ap (T : Trans b64) r k t dl : accurate_trig T -> rdot k k = 1 -> 0 <= t <= PI -> 0 <= dl <= / 100 -> close3 dl r (rscale t k) -> close33 (200 * eps + 13 * dl) (rodrigues_vec r) (axis_rot t k).
Proof.
  intros HT K Ht Hd C. pose proof pi_up as PU. pose proof eps_pos as PE. destruct (l_k K) as (_ & _ & _ & KN). pose proof (close_norm (Logic.proj1 Hd) C) as CN. rewrite rnorm_scale, KN, Rmult_1_r, (Rabs_pos_eq t) in CN by lra. set (th := rnorm (Rval3 r)) in *. assert (P : 0 <= th) by apply rnorm_pos. pose proof CN as CN'. apply abs_le in CN'.
  assert (EX : exists k', rdot k' k' = 1 /\ Rval3 r = rscale th k').
  { destruct (Rle_lt_or_eq_dec 0 th P) as [Q|Q].
    - exists (rscale (/ th) (Rval3 r)). split.
      + rewrite rdot_scale_l, rdot_scale_r, <- rnorm_sq. fold th. field. lra.
      + rewrite rscale_scale, Rinv_r, rscale_1 by lra. reflexivity.
    - exists k. split; [exact K|]. rewrite <- Q. destruct (comp_le (Rval3 r)) as (A & B & D). fold th in A, B, D. rewrite <- Q in A, B, D. apply abs_le in A, B, D. destruct (Rval3 r) as [x y z]. cbn [c0 c1 c2] in *. unfold rscale. cbn [c0 c1 c2]. f_equal; lra. }
  destruct EX as (k' & K' & Er). assert (TB : th <= bpow radix2 20) by (change (bpow radix2 20) with 1048576; lra). pose proof (rod_ap HT (Logic.proj1 C) TB K' Er) as RA. fold th in RA.
  assert (NR : mnear (13 * dl) (axis_rot th k') (axis_rot t k)). { apply exp_near; auto; try lra; [rewrite Rabs_minus_sym; exact CN|]. rewrite <- Er. destruct C as (_ & A & B & D). unfold coords_le, rsub, Rval3, map3. cbn [c0 c1 c2]. auto. }
  destruct NR as (P0 & P1 & P2), RA as (R0 & R1 & R2). assert (E2 : (87 + 27 * th) * eps <= 200 * eps) by (apply Rmult_le_compat_r; lra).
  assert (G : forall row Row Row', close3 ((87 + 27 * th) * eps) row Row -> coords_le (13 * dl) (rsub Row Row') -> close3 (200 * eps + 13 * dl) row Row'). { intros row Row Row' (F & A & B & G) (X & Y & Z). unfold rsub in X, Y, Z. cbn [c0 c1 c2] in X, Y, Z. apply abs_le in A, B, G, X, Y, Z. split; [exact F|]. repeat split; apply abs_le; lra. }
  split; [exact (G _ _ _ R0 P0)|]. split; [exact (G _ _ _ R1 P1)|exact (G _ _ _ R2 P2)].
Qed.
