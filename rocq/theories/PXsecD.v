(** * The intersection of a line with a plane in binary64. *)
From Coq Require Import Reals ZArith List Bool Lra Lia Psatz.
From Flocq Require Import Core IEEE754.BinarySingleNaN.
From Verif Require Import Num B64 BLemmas Vec RVec VLemmas SpecGeom MVx MPlane SpecDouble PErr PFar PNormB PSliceF PNormD PPlaneD PCrossD PLineD.
Local Open Scope R_scope.
Set Implicit Arguments.
Unset Strict Implicit.

Lemma quot_le x y z : y <> 0 -> Rabs x <= z * Rabs y -> Rabs (x / y) <= z.
Proof.
  intros N H. pose proof (Rabs_pos_lt y N) as P. unfold Rdiv. rewrite Rabs_mult, Rabs_inv. apply Rmult_le_reg_r with (Rabs y); [exact P|]. rewrite Rmult_assoc, Rinv_l by lra. lra.
Qed.
Section Xsec.
Context (M E : R) (HM : bpow radix2 (-150) <= M <= bpow radix2 150) (HE : bpow radix2 (-150) <= E <= bpow radix2 150).
Context (r n : V3 b64) (Wr : within M r) (Fn : fin3b n = true) (Un : rnorm (Rval3 n) <= bpow radix2 400) (p : plane b64) (HP : mk_plane r n = Ok p).
Context (pt ray : V3 b64) (Wp : within M pt) (We : within E ray).
Let N := unit_of (Rval3 n).
Let D := rdot (Rval3 ray) N.
Let d := plane_distance r n pt.
Context (LD : bpow radix2 (-20) * E <= Rabs D).
Let c := Rabs D / E.
Let A := M / (c * c).
Let t := - d / D.
Lemma x_scale m : bpow radix2 (-150) <= m <= bpow radix2 150 -> scale_ok m.
Proof. intros [H1 H2]. split; [apply Rle_trans with (2 := H1)|apply Rle_trans with (1 := H2)]; apply bpow_le; lia. Qed.
Lemma x_pos : 0 < M /\ 0 < E /\ 0 < Rabs D /\ D <> 0.
Proof.
  pose proof (bpow_gt_0 radix2 (-150)). pose proof (bpow_gt_0 radix2 (-20)). assert (0 < bpow radix2 (-20) * E) by (apply Rmult_lt_0_compat; lra). repeat split; try lra. intros Z. rewrite Z, Rabs_R0 in LD. lra.
Qed.
Lemma x_D : Rabs D <= 2 * E.
Proof.
  destruct x_pos as (PM & PE & PD & ND). unfold D. pose proof (cauchy (Rval3 ray) N) as C. pose proof (plane_unit Fn Un HP) as U. fold N in U. rewrite U, Rmult_1_r in C. apply Rle_trans with (1 := C).
  destruct We as (_ & X0 & X1 & X2). apply rnorm_small; [lra| | |]; assumption.
Qed.
Lemma x_c : / 1048576 <= c <= 2 /\ Rabs D = c * E.
Proof.
  destruct x_pos as (PM & PE & PD & ND). pose proof x_D as U. change (bpow radix2 (-20)) with (/ 1048576) in LD. assert (V : Rabs D = c * E) by (unfold c; field; lra). split; [|exact V]. rewrite V in LD, U.
  split; [apply Rmult_le_reg_r with E; lra|]. apply Rmult_le_reg_r with E; lra.
Qed.
Lemma x_A : 0 < A /\ M <= 4 * A /\ M / c <= 2 * A /\ M = A * (c * c).
Proof.
  destruct x_pos as (PM & PE & PD & ND). destruct x_c as ([C1 C2] & _). assert (PC : 0 < c * c) by (apply Rmult_lt_0_compat; lra). assert (V : M = A * (c * c)) by (unfold A; field; lra).
  assert (PA : 0 < A) by (unfold A; apply Rmult_lt_0_compat; [lra|apply Rinv_0_lt_compat; exact PC]). split; [exact PA|]. split.
  - rewrite V at 1. assert (c * c <= 4) by nra. assert (A * (c * c) <= A * 4) by (apply Rmult_le_compat_l; lra). lra.
  - split; [|exact V]. replace (M / c) with (A * c) by (unfold A; field; lra). assert (A * c <= A * 2) by (apply Rmult_le_compat_l; lra). lra.
Qed.
Lemma x_t : E * Rabs t <= 4 * (A * c) /\ 4 * (A * c) <= 8 * A.
Proof.
  destruct x_pos as (PM & PE & PD & ND). destruct x_c as ([C1 C2] & VD). destruct x_A as (PA & A1 & A2 & AV). pose proof (@dist_size M (x_scale HM) r n Wr Fn Un p HP pt Wp) as S. fold d in S.
  assert (Q : Rabs t <= 4 * M / (c * E)).
  { unfold t. apply quot_le; [exact ND|]. rewrite Rabs_Ropp, VD. replace (4 * M / (c * E) * (c * E)) with (4 * M) by (field; lra). exact S. }
  split; [|assert (A * c <= A * 2) by (apply Rmult_le_compat_l; lra); lra]. apply Rle_trans with (E * (4 * M / (c * E))); [apply Rmult_le_compat_l; lra|]. replace (E * (4 * M / (c * E))) with (4 * (A * c)) by (unfold A; field; lra). lra.
Qed.
Lemma num_den : let num := vdot (vsub (pl_r0 p) pt) (pl_n p) in let den := vdot ray (pl_n p) in
  (bfin num = true /\ Rabs (Bval num + d) <= 150 * (eps * M)) /\ (bfin den = true /\ Rabs (Bval den - D) <= 58 * (eps * E)).
Proof.
  destruct x_pos as (PM & PE & PD & ND). destruct (@plane_fields r n Fn Un p HP) as [ER C]. fold N in C. pose proof eps_pos as P0. pose proof eps_small as S0. pose proof (plane_unit Fn Un HP) as U. fold N in U.
  assert (Wn : within 2 (pl_n p)) by (apply (close_within C); [exact U|lra]). assert (Wr' : within M (pl_r0 p)) by (rewrite ER; exact Wr). cbn zeta. split.
  - destruct (@diff_dot M (x_scale HM) p Wn (pl_r0 p) pt Wr' Wp) as (F & Q & _). split; [exact F|]. rewrite ER in Q |- *. destruct C as (_ & C0 & C1 & C2).
    destruct Wp as (_ & X0 & X1 & X2). destruct Wr as (_ & R0 & R1 & R2). apply abs_le in X0, X1, X2, R0, R1, R2.
    assert (Z : forall x y z w, - M <= x <= M -> - M <= y <= M -> Rabs (z - w) <= 12 * eps -> Rabs ((x - y) * (z - w)) <= 2 * M * (12 * eps)) by (intros; apply mul_bound; try lra; apply abs_le; lra).
    pose proof (Z _ _ _ _ R0 X0 C0) as Z0. pose proof (Z _ _ _ _ R1 X1 C1) as Z1. pose proof (Z _ _ _ _ R2 X2 C2) as Z2. apply abs_le in Q, Z0, Z1, Z2.
    unfold d, plane_distance. fold N. unfold rdot, rsub, Rval3, map3 in *. cbn [c0 c1 c2] in *. apply abs_le. lra.
  - destruct (@dot_ap E ray (pl_n p)) as (F & Q & _); [rewrite <- (Rmult_1_l E); apply scale_rel; [apply x_scale; exact HE|lra]|exact We|exact Wn|]. split; [exact F|]. destruct C as (_ & C0 & C1 & C2). destruct We as (_ & X0 & X1 & X2).
    assert (Z : forall x z w, Rabs x <= E -> Rabs (z - w) <= 12 * eps -> Rabs (x * (z - w)) <= E * (12 * eps)) by (intros; apply mul_bound; lra).
    pose proof (Z _ _ _ X0 C0) as Z0. pose proof (Z _ _ _ X1 C1) as Z1. pose proof (Z _ _ _ X2 C2) as Z2. apply abs_le in Q, Z0, Z1, Z2.
    unfold D, rdot, Rval3, map3 in *. cbn [c0 c1 c2] in *. apply abs_le. lra.
Qed.
Lemma x_mid k b : 1 <= k <= 1000 -> (b = A / E \/ b = A) -> mid (k * b).
Proof.
  intros Hk Hb. destruct x_pos as (PM & PE & PD & ND). destruct x_c as ([C1 C2] & VD). destruct x_A as (PA & A1 & A2 & AV).
  assert (UA : A <= bpow radix2 200). { assert (Q : A <= M * 1099511627776) by (unfold A; apply div_le; [nra|]; assert (/ 1099511627776 <= c * c) by nra; assert (M * 1099511627776 * / 1099511627776 <= M * 1099511627776 * (c * c)) by (apply Rmult_le_compat_l; lra); lra).
    apply Rle_trans with (bpow radix2 150 * bpow radix2 40); [change (bpow radix2 40) with 1099511627776; lra|rewrite <- bpow_plus; apply bpow_le; lia]. }
  assert (LA : bpow radix2 (-160) <= A) by (apply Rle_trans with (bpow radix2 (-2) * bpow radix2 (-150)); [rewrite <- bpow_plus; apply bpow_le; lia|change (bpow radix2 (-2)) with (/ 4); lra]).
  assert (I1 : bpow radix2 (-150) <= / E <= bpow radix2 150).
  { change (-150)%Z with (Z.opp 150). rewrite bpow_opp. change 150%Z with (Z.opp (-150)) at 2. rewrite bpow_opp. destruct HE as [H1 H2]. split; apply Rinv_le; auto. apply bpow_gt_0. }
  pose proof (bpow_gt_0 radix2 (-160)) as P1. pose proof (bpow_gt_0 radix2 (-150)) as P2.
  assert (B : bpow radix2 (-310) <= b <= bpow radix2 350).
  { destruct Hb as [->| ->].
    - change (-310)%Z with (-160 + -150)%Z. change 350%Z with (200 + 150)%Z. rewrite !bpow_plus. unfold Rdiv. split; apply Rmult_le_compat; lra.
    - split; [apply Rle_trans with (2 := LA)|apply Rle_trans with (1 := UA)]; apply bpow_le; lia. }
  apply rel_mid; [|exact Hk]. destruct B as [B1 B2]. split; [apply Rle_trans with (2 := B1)|apply Rle_trans with (1 := B2)]; apply bpow_le; lia.
Qed.
Lemma s_ap : let den := vdot ray (pl_n p) in neqb den n0 = false /\
  let s := ndiv (vdot (vsub (pl_r0 p) pt) (pl_n p)) den in bfin s = true /\ E * Rabs (Bval s - t) <= 544 * (eps * A).
Proof.
  destruct num_den as [[Fm Em] [Fd Ed]]. destruct x_pos as (PM & PE & PD & ND). destruct x_c as ([C1 C2] & VD). destruct x_A as (PA & A1 & A2 & AV). destruct x_t as [TT TA]. pose proof eps_pos as P0. pose proof eps_small as S0. pose proof eps_val as V0.
  set (num := vdot (vsub (pl_r0 p) pt) (pl_n p)) in *. set (den := vdot ray (pl_n p)) in *. cbn zeta. apply abs_le in Ed.
  assert (SD : 58 * (eps * E) <= / 10000000 * Rabs D). { rewrite V0. change (bpow radix2 (-20)) with (/ 1048576) in LD. lra. }
  assert (LDn : (1 - / 10000000) * Rabs D <= Rabs (Bval den)) by (unfold Rabs in *; destruct (Rcase_abs D), (Rcase_abs (Bval den)); lra).
  assert (Nd : Bval den <> 0) by (intros Z; rewrite Z, Rabs_R0 in LDn; lra).
  split; [rewrite beq_spec by (auto; reflexivity); change (Bval n0) with 0; now apply Req_bool_false|].
  assert (Q : E * Rabs (Bval num / Bval den - t) <= 534 * (eps * A)).
  { replace (Bval num / Bval den - t) with (((Bval num + d) - t * (Bval den - D)) / Bval den) by (unfold t; field; split; assumption).
    rewrite <- (Rabs_pos_eq E) at 1 by lra. rewrite <- Rabs_mult. unfold Rdiv. rewrite <- Rmult_assoc. apply quot_le; [exact Nd|].
    assert (PX : 0 < eps * A * c * E) by (apply Rmult_lt_0_compat; [apply Rmult_lt_0_compat; [apply Rmult_lt_0_compat|]|]; lra).
    assert (Q1 : Rabs (E * t * (Bval den - D)) <= 4 * (A * c) * (58 * (eps * E))) by (apply mul_bound; [apply Rmult_le_pos; [lra|apply Rmult_le_pos; lra]|apply Rmult_le_pos; [lra|apply Rmult_le_pos; lra]|rewrite Rabs_mult, (Rabs_pos_eq E) by lra; exact TT|apply abs_le; exact Ed]).
    assert (Q2 : Rabs (E * (Bval num + d)) <= E * (150 * (eps * M))) by (rewrite Rabs_mult, (Rabs_pos_eq E) by lra; apply Rmult_le_compat_l; lra).
    assert (G : 534 * (eps * A) * ((1 - / 10000000) * Rabs D) <= 534 * (eps * A) * Rabs (Bval den)) by (apply Rmult_le_compat_l; [apply Rmult_le_pos; [lra|apply Rmult_le_pos; lra]|exact LDn]). rewrite VD in G.
    assert (Q3 : E * (150 * (eps * M)) <= 300 * (eps * A * c * E)).
    { rewrite AV. replace (E * (150 * (eps * (A * (c * c))))) with (150 * (eps * A * c * E) * c) by ring. assert (150 * (eps * A * c * E) * c <= 150 * (eps * A * c * E) * 2) by (apply Rmult_le_compat_l; lra). lra. }
    replace (4 * (A * c) * (58 * (eps * E))) with (232 * (eps * A * c * E)) in Q1 by ring. replace (534 * (eps * A) * ((1 - / 10000000) * (c * E))) with (534 * (1 - / 10000000) * (eps * A * c * E)) in G by ring.
    apply abs_le in Q1, Q2. apply abs_le. lra. }
  assert (EA : 0 < eps * A) by (apply Rmult_lt_0_compat; lra). assert (EA2 : eps * A <= A / 1000000) by (apply Rle_trans with (/ 1000000000000 * A); [apply Rmult_le_compat_r; lra|lra]).
  assert (B : Rabs (Bval num / Bval den) <= 81 / 10 * (A / E)).
  { apply Rmult_le_reg_l with E; [exact PE|]. replace (E * (81 / 10 * (A / E))) with (81 / 10 * A) by (field; lra). pose proof (Rabs_triang (Bval num / Bval den - t) t) as TR. replace (Bval num / Bval den - t + t) with (Bval num / Bval den) in TR by ring.
    assert (E * Rabs (Bval num / Bval den) <= E * (Rabs (Bval num / Bval den - t) + Rabs t)) by (apply Rmult_le_compat_l; lra). lra. }
  destruct (@div_ap num den (81 / 10 * (A / E)) Fm) as [Fs Es]; [apply x_mid; [lra|left; reflexivity]|exact Nd|exact B|]. split; [exact Fs|].
  pose proof (Rabs_triang (Bval (ndiv num den) - Bval num / Bval den) (Bval num / Bval den - t)) as TR. replace (Bval (ndiv num den) - Bval num / Bval den + (Bval num / Bval den - t)) with (Bval (ndiv num den) - t) in TR by ring.
  assert (Z : E * Rabs (Bval (ndiv num den) - t) <= E * (eps * (81 / 10 * (A / E)) + Rabs (Bval num / Bval den - t))) by (apply Rmult_le_compat_l; lra).
  replace (E * (eps * (81 / 10 * (A / E)) + Rabs (Bval num / Bval den - t))) with (81 / 10 * (eps * A) + E * Rabs (Bval num / Bval den - t)) in Z by (field; lra). lra.
Qed.
(** one coordinate *)
Lemma x_coord (s e q : b64) : bfin s = true -> E * Rabs (Bval s - t) <= 544 * (eps * A) -> bfin e = true -> Rabs (Bval e) <= E -> bfin q = true -> Rabs (Bval q) <= M ->
  bfin (nadd (nmul s e) q) = true /\ Rabs (Bval (nadd (nmul s e) q) - (Bval q + t * Bval e)) <= 570 * (eps * A).
Proof.
  intros Fs Es Fe He Fq Hq. destruct x_pos as (PM & PE & PD & ND). destruct x_A as (PA & A1 & A2 & AV). destruct x_t as [TT TA]. pose proof eps_pos as P0. pose proof eps_small as S0.
  assert (EA : 0 < eps * A) by (apply Rmult_lt_0_compat; lra). assert (EA2 : eps * A <= A / 1000000) by (apply Rle_trans with (/ 1000000000000 * A); [apply Rmult_le_compat_r; lra|lra]).
  assert (Q1 : Rabs ((Bval s - t) * Bval e) <= 544 * (eps * A)) by (rewrite Rabs_mult; apply Rle_trans with (Rabs (Bval s - t) * E); [apply Rmult_le_compat_l; [apply Rabs_pos|exact He]|lra]).
  assert (Q2 : Rabs (t * Bval e) <= 8 * A) by (rewrite Rabs_mult; apply Rle_trans with (Rabs t * E); [apply Rmult_le_compat_l; [apply Rabs_pos|exact He]|lra]). apply abs_le in Q1, Q2, Hq.
  assert (V : Bval s * Bval e = (Bval s - t) * Bval e + t * Bval e) by ring.
  destruct (@mul_ap s e (81 / 10 * A) Fs Fe) as [Fm Em]; [apply x_mid; [lra|right; reflexivity]|apply abs_le; lra|]. apply abs_le in Em.
  destruct (@add_ap (nmul s e) q (122 / 10 * A) Fm Fq) as [Fa Ea]; [apply x_mid; [lra|right; reflexivity]|apply abs_le; lra|]. apply abs_le in Ea. split; [exact Fa|]. apply abs_le. lra.
Qed.
Lemma xsec_ap : exists x, line_xsection p pt ray = Some x /\ close3 (570 * (eps * A)) x (radd (Rval3 pt) (rscale t (Rval3 ray))).
Proof.
  destruct s_ap as [Z [Fs Es]]. destruct (within_fin Wp) as (F0 & F1 & F2). destruct (within_fin We) as (G0 & G1 & G2). destruct Wp as (_ & X0 & X1 & X2). destruct We as (_ & Y0 & Y1 & Y2).
  unfold line_xsection. rewrite Z. eexists. split; [reflexivity|]. set (s := ndiv (vdot (vsub (pl_r0 p) pt) (pl_n p)) (vdot ray (pl_n p))) in *.
  destruct (x_coord Fs Es G0 Y0 F0 X0) as [O0 P0]. destruct (x_coord Fs Es G1 Y1 F1 X1) as [O1 P1]. destruct (x_coord Fs Es G2 Y2 F2 X2) as [O2 P2].
  unfold close3, fin3b. split; [apply andb_true_intro; split; [apply andb_true_intro; split|]; assumption|]. split; [exact P0|]. split; [exact P1|exact P2].
Qed.
End Xsec.
