(** * rotation_from_up_and_look in binary64. *)
From Coq Require Import Reals ZArith List Bool Lra Lia Psatz.
From Flocq Require Import Core IEEE754.BinarySingleNaN.
From Verif Require Import Num B64 BLemmas Vec RVec VLemmas MVx MPlane MRotation SpecDouble PErr PFar PNormB PSliceF PNormD PScaleD PLineD.
Local Open Scope R_scope.
Set Implicit Arguments.
Unset Strict Implicit.

(** the unit vector of a perturbed vector *)
Lemma unit_pert d n N : 0 <= d -> close3 d n N -> 100000 * d <= rnorm N -> span_ok (rnorm N) -> span_ok (rnorm (Rval3 n)) ->
  close3 (31 / 10 * (d / rnorm N) + 12 * eps) (normalize1 n) (unit_of N).
Proof.
  intros Pd C L SN Sn. set (A := rnorm N) in *. pose proof (span_pos SN) as PA. pose proof (span_pos Sn) as PB. pose proof (close_norm Pd C) as D. fold A in D. set (B := rnorm (Rval3 n)) in *. apply abs_le in D.
  destruct C as (Fn & C0 & C1 & C2). destruct (normalize_ap Fn Sn) as (Fu & U0 & U1 & U2). split; [exact Fu|]. destruct (comp_le N) as (N0 & N1 & N2). fold A in N0, N1, N2.
  assert (G : forall x y, Rabs (x - y) <= d -> Rabs y <= A -> Rabs (/ B * x - / A * y) <= 31 / 10 * (d / A)).
  { intros x y Hxy Hy. replace (/ B * x - / A * y) with (/ B * ((x - y) + y / A * (A - B))) by (field; lra). rewrite Rabs_mult, (Rabs_pos_eq (/ B)) by (apply Rlt_le, Rinv_0_lt_compat; exact PB).
    assert (W : Rabs (y / A * (A - B)) <= 1 * (2 * d)).
    { apply mul_bound; try lra; [|apply abs_le; lra]. unfold Rdiv. rewrite Rabs_mult, (Rabs_pos_eq (/ A)) by (apply Rlt_le, Rinv_0_lt_compat; exact PA). apply Rmult_le_reg_r with A; [exact PA|]. rewrite Rmult_assoc, Rinv_l by lra. lra. }
    apply Rmult_le_reg_l with B; [exact PB|]. rewrite <- Rmult_assoc, Rinv_r, Rmult_1_l by lra. replace (B * (31 / 10 * (d / A))) with (31 / 10 * d * (B / A)) by (field; lra).
    apply abs_le in Hxy, W. assert (R1 : 99 / 100 <= B / A) by (apply Rmult_le_reg_r with A; [exact PA|]; replace (B / A * A) with B by (field; lra); lra).
    assert (R3 : 31 / 10 * d * (99 / 100) <= 31 / 10 * d * (B / A)) by (apply Rmult_le_compat_l; lra). apply abs_le. lra. }
  pose proof (G _ _ C0 N0) as G0. pose proof (G _ _ C1 N1) as G1. pose proof (G _ _ C2 N2) as G2. unfold unit_of, rscale in U0, U1, U2 |- *. fold A. fold B in U0, U1, U2. unfold Rval3, map3 in U0, U1, U2. cbn [c0 c1 c2] in *.
  apply abs_le in U0, U1, U2, G0, G1, G2. repeat split; apply abs_le; lra.
Qed.

Section Look.
Context (up look : V3 b64) (Fu : fin3b up = true) (Su : span_ok (rnorm (Rval3 up))) (L : R) (HL : bpow radix2 (-150) <= L <= bpow radix2 150) (Wl : within L look).
Let Y := unit_of (Rval3 up).
Let S := rdot (Rval3 look) Y.
Let Zp := rsub (Rval3 look) (rscale S Y).
Context (LZ : bpow radix2 (-20) * L <= rnorm Zp).
Let rho := rnorm Zp / L.
Let y := vdivs up (vnorm up).
Lemma k_pos : 0 < L /\ 0 < rnorm Zp /\ scale_ok L.
Proof.
  pose proof (bpow_gt_0 radix2 (-150)). pose proof (bpow_gt_0 radix2 (-20)). assert (0 < bpow radix2 (-20) * L) by (apply Rmult_lt_0_compat; lra). repeat split; try lra; [apply Rle_trans with (bpow radix2 (-150))|apply Rle_trans with (bpow radix2 150)]; try lra; apply bpow_le; lia.
Qed.
Lemma k_Y : rnorm Y = 1.
Proof. apply unit_norm, span_pos, Su. Qed.
Lemma k_y : close3 (12 * eps) y Y.
Proof. exact (normalize_ap Fu Su). Qed.
Lemma k_small : 0 < eps <= / 1000000000000.
Proof. split; [exact eps_pos|exact eps_small]. Qed.
Lemma k_yw : within (10001 / 10000) y.
Proof. destruct k_y as (F & A & B & C). pose proof k_small as E. destruct (comp_le Y) as (L0 & L1 & L2). rewrite k_Y in *. apply abs_le in A, B, C, L0, L1, L2. split; [exact F|]. repeat split; apply abs_le; lra. Qed.
Lemma k_S : Rabs S <= 2 * L.
Proof.
  destruct k_pos as (PL & _). unfold S. pose proof (cauchy (Rval3 look) Y) as C. rewrite k_Y, Rmult_1_r in C. apply Rle_trans with (1 := C). destruct Wl as (_ & X0 & X1 & X2). apply rnorm_small; [lra| | |]; assumption.
Qed.
Let s := vdot look y.
Lemma k_s : bfin s = true /\ Rabs (Bval s - S) <= 461 / 10 * (eps * L).
Proof.
  destruct k_pos as (PL & _ & SL). pose proof k_small as E. assert (EL : 0 < eps * L) by (apply Rmult_lt_0_compat; lra).
  destruct (@dot_ap2 L (10001 / 10000) look y) as [F D]; [|lra|lra|exact Wl|exact k_yw|].
  { rewrite Rmult_comm. destruct HL as [H1 H2]. pose proof (bpow_gt_0 radix2 (-150)). pose proof (bpow_gt_0 radix2 150). split; [apply Rle_trans with (bpow radix2 (-150)); [apply bpow_le; lia|lra]|apply Rle_trans with (bpow radix2 1 * bpow radix2 150); [change (bpow radix2 1) with 2; lra|rewrite <- bpow_plus; apply bpow_le; lia]]. }
  split; [exact F|]. fold s in D. destruct k_y as (_ & A & B & C). destruct Wl as (_ & X0 & X1 & X2).
  assert (T0 : Rabs (Bval (c0 look) * (Bval (c0 y) - c0 Y)) <= L * (12 * eps)) by (apply mul_bound; lra). assert (T1 : Rabs (Bval (c1 look) * (Bval (c1 y) - c1 Y)) <= L * (12 * eps)) by (apply mul_bound; lra). assert (T2 : Rabs (Bval (c2 look) * (Bval (c2 y) - c2 Y)) <= L * (12 * eps)) by (apply mul_bound; lra).
  apply abs_le in D, T0, T1, T2. apply abs_le. unfold S, rdot, Rval3, map3 in *. cbn [c0 c1 c2] in *. lra.
Qed.
Let zp := vsub look (vscale s y).
Lemma k_coord (li yi : b64) (Yi : R) : bfin li = true -> bfin yi = true -> Rabs (Bval li) <= L -> Rabs (Bval yi - Yi) <= 12 * eps -> Rabs Yi <= 1 ->
  bfin (nsub li (nmul s yi)) = true /\ Rabs (Bval (nsub li (nmul s yi)) - (Bval li - S * Yi)) <= 76 * (eps * L).
Proof.
  intros Fl Fy Hl Hy HY. destruct k_pos as (PL & _ & SL). pose proof k_small as E. destruct k_s as [Fs Es]. pose proof k_S as HS. assert (EL : 0 < eps * L) by (apply Rmult_lt_0_compat; lra). assert (EL2 : eps * L <= L / 1000000) by (apply Rle_trans with (/ 1000000000000 * L); [apply Rmult_le_compat_r; lra|lra]).
  assert (Q1 : Rabs ((Bval s - S) * Bval yi) <= 461 / 10 * (eps * L) * (10001 / 10000)) by (apply mul_bound; try lra; apply abs_le in Hy, HY; apply abs_le; lra).
  assert (Q2 : Rabs (S * (Bval yi - Yi)) <= 2 * L * (12 * eps)) by (apply mul_bound; lra). assert (Q3 : Rabs (S * Yi) <= 2 * L * 1) by (apply mul_bound; lra). apply abs_le in Q1, Q2, Q3, Hl.
  assert (V : Bval s * Bval yi = (Bval s - S) * Bval yi + S * (Bval yi - Yi) + S * Yi) by ring.
  destruct (@mul_ap s yi (201 / 100 * L) Fs Fy) as [Fm Em]; [apply scale_mid; [exact SL|lra]|apply abs_le; lra|]. apply abs_le in Em.
  destruct (@sub_ap li (nmul s yi) (302 / 100 * L) Fl Fm) as [Fz Ez]; [apply scale_mid; [exact SL|lra]|apply abs_le; lra|]. apply abs_le in Ez. split; [exact Fz|]. apply abs_le. lra.
Qed.
Lemma k_zp : close3 (76 * (eps * L)) zp Zp.
Proof.
  destruct (within_fin Wl) as (F0 & F1 & F2). destruct (within_fin k_yw) as (G0 & G1 & G2). destruct k_y as (_ & A & B & C). destruct Wl as (_ & X0 & X1 & X2). destruct (comp_le Y) as (L0 & L1 & L2). rewrite k_Y in *.
  destruct (k_coord F0 G0 X0 A L0) as [O0 P0]. destruct (k_coord F1 G1 X1 B L1) as [O1 P1]. destruct (k_coord F2 G2 X2 C L2) as [O2 P2].
  unfold close3, fin3b. split; [apply andb_true_intro; split; [apply andb_true_intro; split|]; assumption|]. auto.
Qed.
Lemma k_Zup : rnorm Zp <= 2 * L.
Proof.
  destruct k_pos as (PL & _). assert (Q : rdot Zp Zp = rdot (Rval3 look) (Rval3 look) - S * S).
  { pose proof (rnorm_sq Y) as U. rewrite k_Y in U. transitivity (rdot (Rval3 look) (Rval3 look) - 2 * S * rdot (Rval3 look) Y + S * S * rdot Y Y); [unfold Zp, rdot, rsub, rscale; cbn [c0 c1 c2]; ring|]. rewrite <- U. fold S. ring. }
  assert (LN : rnorm (Rval3 look) <= 2 * L) by (destruct Wl as (_ & X0 & X1 & X2); apply rnorm_small; [lra| | |]; assumption). pose proof (rnorm_sq (Rval3 look)) as Q2. pose proof (rnorm_sq Zp) as Q3. pose proof (rnorm_pos Zp). pose proof (rnorm_pos (Rval3 look)). nra.
Qed.
Lemma k_rho : 0 < rho <= 2 /\ rnorm Zp = rho * L /\ eps <= 2 * (eps / rho).
Proof.
  destruct k_pos as (PL & PZ & _). pose proof k_Zup as U. pose proof k_small as E. assert (V : rnorm Zp = rho * L) by (unfold rho; field; lra). assert (P : 0 < rho) by (apply Rmult_lt_reg_r with L; lra). assert (Q : rho <= 2) by (apply Rmult_le_reg_r with L; lra).
  split; [auto|]. split; [exact V|]. apply Rmult_le_reg_r with rho; [exact P|]. replace (2 * (eps / rho) * rho) with (2 * eps) by (field; lra). rewrite (Rmult_comm 2). apply Rmult_le_compat_l; lra.
Qed.
Lemma k_err : 10000000 * (eps / rho) <= 1.
Proof.
  destruct k_pos as (PL & PZ & _). destruct k_rho as ([P _] & V & _). pose proof eps_val as E. apply Rmult_le_reg_r with rho; [exact P|]. replace (10000000 * (eps / rho) * rho) with (10000000 * eps) by (field; lra). assert (/ 1048576 <= rho) by (apply Rmult_le_reg_r with L; [exact PL|]; rewrite <- V; exact LZ). rewrite E. lra.
Qed.
Lemma k_span : span_ok (rnorm Zp) /\ span_ok (rnorm (Rval3 zp)) /\ 100000 * (76 * (eps * L)) <= rnorm Zp.
Proof.
  destruct k_pos as (PL & PZ & SL). pose proof k_Zup as U. pose proof k_small as E. pose proof eps_val as EV. assert (EL : 0 < eps * L) by (apply Rmult_lt_0_compat; lra). assert (D : Rabs (rnorm (Rval3 zp) - rnorm Zp) <= 2 * (76 * (eps * L))) by (apply close_norm; [lra|exact k_zp]).
  change (bpow radix2 (-20)) with (/ 1048576) in LZ. assert (K : 100000 * (76 * (eps * L)) <= rnorm Zp) by (apply Rle_trans with (2 := LZ); rewrite EV; lra). apply abs_le in D.
  assert (G : forall x, / 4194304 * L <= x <= 4 * L -> span_ok x).
  { intros x [X1 X2]. destruct HL as [H1 H2]. pose proof (bpow_gt_0 radix2 (-150)). split; [apply Rle_trans with (bpow radix2 (-22) * bpow radix2 (-150)); [rewrite <- bpow_plus; apply bpow_le; lia|change (bpow radix2 (-22)) with (/ 4194304); lra]|apply Rle_trans with (bpow radix2 2 * bpow radix2 150); [change (bpow radix2 2) with 4; lra|rewrite <- bpow_plus; apply bpow_le; lia]]. }
  split; [apply G; lra|]. split; [apply G; lra|exact K].
Qed.
Let Z := unit_of Zp.
Let z := vdivs zp (vnorm zp).
Lemma k_z : close3 (260 * (eps / rho)) z Z.
Proof.
  destruct k_pos as (PL & PZ & _). destruct k_span as (S1 & S2 & K). destruct k_rho as ([P _] & V & R). pose proof k_small as E. assert (EL : 0 < eps * L) by (apply Rmult_lt_0_compat; lra).
  destruct (@unit_pert (76 * (eps * L)) zp Zp) as (F & A & B & C); auto; [lra|exact k_zp|]. replace (76 * (eps * L) / rnorm Zp) with (76 * (eps / rho)) in A, B, C by (rewrite V; field; lra).
  assert (PE : 0 < eps / rho) by (apply Rmult_lt_0_compat; [lra|now apply Rinv_0_lt_compat]). split; [exact F|]. fold Z in A, B, C. change (normalize1 zp) with z in A, B, C. repeat split; [apply Rle_trans with (1 := A)|apply Rle_trans with (1 := B)|apply Rle_trans with (1 := C)]; lra.
Qed.
Lemma k_ZZ : rnorm Z = 1.
Proof. apply unit_norm. now destruct k_pos. Qed.
(** one entry of the cross product *)
Lemma k_cross (a b c d : b64) (A B C D : R) : bfin a = true -> bfin b = true -> bfin c = true -> bfin d = true -> Rabs (Bval a - A) <= 12 * eps -> Rabs (Bval c - C) <= 12 * eps -> Rabs (Bval b - B) <= 260 * (eps / rho) -> Rabs (Bval d - D) <= 260 * (eps / rho) ->
  Rabs A <= 1 -> Rabs B <= 1 -> Rabs C <= 1 -> Rabs D <= 1 -> bfin (nsub (nmul a b) (nmul c d)) = true /\ Rabs (Bval (nsub (nmul a b) (nmul c d)) - (A * B - C * D)) <= 580 * (eps / rho).
Proof.
  intros Fa Fb Fc Fd Ha Hc Hb Hd HA HB HC HD. destruct k_rho as ([P _] & V & R). pose proof k_small as E. pose proof k_err as K. set (t := eps / rho) in *. assert (PE : 0 < t) by (apply Rmult_lt_0_compat; [lra|now apply Rinv_0_lt_compat]).
  assert (G : forall x xv y0 yv, bfin x = true -> bfin y0 = true -> Rabs (Bval x - xv) <= 12 * eps -> Rabs (Bval y0 - yv) <= 260 * t -> Rabs xv <= 1 -> Rabs yv <= 1 -> bfin (nmul x y0) = true /\ Rabs (Bval (nmul x y0) - xv * yv) <= 287 * t /\ Rabs (Bval (nmul x y0)) <= 101 / 100).
  { intros x xv y0 yv Fx Fy Hx Hy Lx Ly. assert (T1 : Rabs ((Bval x - xv) * Bval y0) <= 12 * eps * (10001 / 10000)) by (apply mul_bound; try lra; apply abs_le in Hy, Ly; apply abs_le; lra). assert (T2 : Rabs (xv * (Bval y0 - yv)) <= 1 * (260 * t)) by (apply mul_bound; lra).
    assert (T3 : Rabs (xv * yv) <= 1 * 1) by (apply mul_bound; lra). apply abs_le in T1, T2, T3. assert (W : Bval x * Bval y0 = (Bval x - xv) * Bval y0 + xv * (Bval y0 - yv) + xv * yv) by ring.
    destruct (@mul_ap x y0 (1001 / 1000 * 1) Fx Fy) as [Fm Em]; [apply scale_mid; [change 1 with (bpow radix2 0); split; apply bpow_le; lia|lra]|apply abs_le; lra|]. apply abs_le in Em. split; [exact Fm|]. split; apply abs_le; lra. }
  destruct (G a A b B Fa Fb Ha Hb HA HB) as (F1 & E1 & B1). destruct (G c C d D Fc Fd Hc Hd HC HD) as (F2 & E2 & B2). apply abs_le in B1, B2, E1, E2.
  destruct (@sub_ap (nmul a b) (nmul c d) (202 / 100 * 1) F1 F2) as [F3 E3]; [apply scale_mid; [change 1 with (bpow radix2 0); split; apply bpow_le; lia|lra]|apply abs_le; lra|]. apply abs_le in E3. split; [exact F3|]. apply abs_le. lra.
Qed.
Lemma fin_parts (w : V3 b64) : fin3b w = true -> bfin (c0 w) = true /\ bfin (c1 w) = true /\ bfin (c2 w) = true.
Proof. intros H. unfold fin3b in H. apply andb_prop in H. destruct H as [H ?]. apply andb_prop in H. destruct H. auto. Qed.
Lemma k_x : close3 (580 * (eps / rho)) (vcross y z) (rcross Y Z).
Proof.
  destruct k_y as (Fy & Y0 & Y1 & Y2). destruct k_z as (Fz & Z0 & Z1 & Z2). destruct (fin_parts Fy) as (A0 & A1 & A2). destruct (fin_parts Fz) as (B0 & B1 & B2). destruct (comp_le Y) as (L0 & L1 & L2). rewrite k_Y in *. destruct (comp_le Z) as (M0 & M1 & M2). rewrite k_ZZ in *.
  destruct (@k_cross (c1 y) (c2 z) (c2 y) (c1 z) (c1 Y) (c2 Z) (c2 Y) (c1 Z)) as [O0 P0]; auto. destruct (@k_cross (c2 y) (c0 z) (c0 y) (c2 z) (c2 Y) (c0 Z) (c0 Y) (c2 Z)) as [O1 P1]; auto. destruct (@k_cross (c0 y) (c1 z) (c1 y) (c0 z) (c0 Y) (c1 Z) (c1 Y) (c0 Z)) as [O2 P2]; auto.
  unfold close3, fin3b. split; [apply andb_true_intro; split; [apply andb_true_intro; split|]; assumption|]. auto.
Qed.
Lemma norm_nz v : fin3b v = true -> span_ok (rnorm (Rval3 v)) -> neqb (vnorm v) n0 = false.
Proof.
  intros Fv SV. destruct (norm_ap Fv SV) as [F D]. pose proof (span_pos SV). pose proof k_small. rewrite beq_spec by (auto; reflexivity). apply Req_bool_false. intros HZ. change (Bval n0) with 0 in HZ. rewrite HZ in D. apply abs_le in D. assert (9 * eps * rnorm (Rval3 v) <= 9 * / 1000000000000 * rnorm (Rval3 v)) by (apply Rmult_le_compat_r; lra). lra.
Qed.
Lemma look_ap : exists m, rotation_from_up_and_look up look = Ok m /\ close3 (580 * (eps / rho)) (c0 m) (rcross Y Z) /\ close3 (12 * eps) (c1 m) Y /\ close3 (260 * (eps / rho)) (c2 m) Z.
Proof.
  destruct k_pos as (PL & PZ & _). destruct k_span as (S1 & S2 & K). unfold rotation_from_up_and_look. rewrite (norm_nz Fu Su).
  assert (SL : span_ok (rnorm (Rval3 look))).
  { assert (LN : rnorm (Rval3 look) <= 2 * L) by (destruct Wl as (_ & X0 & X1 & X2); apply rnorm_small; [lra| | |]; assumption). assert (Q : rdot Zp Zp = rdot (Rval3 look) (Rval3 look) - S * S).
    { pose proof (rnorm_sq Y) as U. rewrite k_Y in U. transitivity (rdot (Rval3 look) (Rval3 look) - 2 * S * rdot (Rval3 look) Y + S * S * rdot Y Y); [unfold Zp, rdot, rsub, rscale; cbn [c0 c1 c2]; ring|]. rewrite <- U. fold S. ring. }
    assert (GE : rnorm Zp <= rnorm (Rval3 look)) by (pose proof (rnorm_sq (Rval3 look)); pose proof (rnorm_sq Zp); pose proof (rnorm_pos (Rval3 look)); nra). destruct S1 as [S1 _]. split; [lra|]. apply Rle_trans with (1 := LN). apply Rle_trans with (bpow radix2 1 * bpow radix2 150); [change (bpow radix2 1) with 2; lra|rewrite <- bpow_plus; apply bpow_le; lia]. }
  rewrite (norm_nz (Logic.proj1 Wl) SL). fold y. fold s. fold zp. rewrite (norm_nz (Logic.proj1 k_zp) S2). fold z. eexists. split; [reflexivity|]. cbn [c0 c1 c2]. split; [exact k_x|]. split; [exact k_y|exact k_z].
Qed.
End Look.
