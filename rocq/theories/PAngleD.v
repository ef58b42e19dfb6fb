(** * angle and signed_angle in binary64, for any accurate arc cosine. *)
From Coq Require Import Reals ZArith List Bool Lra Lia Psatz.
From Flocq Require Import Core IEEE754.BinarySingleNaN.
From Verif Require Import Num B64 BLemmas Vec RVec VLemmas MVx MPlane SpecDouble SpecTransD SpecTrigD PErr PFar PNormB PSliceF PNormD PScaleD PLineD PLine2D PRodD.
Local Open Scope R_scope.
Set Implicit Arguments.
Unset Strict Implicit.
Local Notation eps := PErr.eps.

Lemma unit_dot v w : fin3b v = true -> fin3b w = true -> span_ok (rnorm (Rval3 v)) -> span_ok (rnorm (Rval3 w)) ->
  nr (82 * eps) (vdot (normalize1 v) (normalize1 w)) (rdot (unit_of (Rval3 v)) (unit_of (Rval3 w))).
Proof.
  intros Fv Fw Sv Sw. destruct (normalize_ap Fv Sv) as (Fa & A0 & A1 & A2). destruct (normalize_ap Fw Sw) as (Fb & B0 & B1 & B2). set (a := normalize1 v) in *. set (b := normalize1 w) in *. set (A := unit_of (Rval3 v)) in *. set (B := unit_of (Rval3 w)) in *.
  assert (NA : rnorm A = 1) by (apply unit_norm, span_pos, Sv). assert (NB : rnorm B = 1) by (apply unit_norm, span_pos, Sw). destruct (comp_le A) as (P0 & P1 & P2). destruct (comp_le B) as (Q0 & Q1 & Q2). rewrite NA in P0, P1, P2. rewrite NB in Q0, Q1, Q2. pose proof eps_pos as PE. pose proof eps_small as SE.
  unfold fin3b in Fa, Fb. apply andb_prop in Fa. destruct Fa as [Fa X2]. apply andb_prop in Fa. destruct Fa as [X0 X1]. apply andb_prop in Fb. destruct Fb as [Fb Y2]. apply andb_prop in Fb. destruct Fb as [Y0 Y1].
  assert (M : forall x y X Y, nr (12 * eps) x X -> nr (12 * eps) y Y -> Rabs X <= 1 -> Rabs Y <= 1 -> nr (252 / 10 * eps) (nmul x y) (X * Y) /\ Rabs (X * Y) <= 1).
  { intros x y X Y Hx Hy HX HY. split; [|replace 1 with (1 * 1) by ring; apply mul_bound; lra]. apply nr_weak with (12 * eps * 1 + 12 * eps * (1 + 12 * eps) + eps * (101 / 100)); [nra|]. apply (nr_mul (P := 1) Hx Hy); auto; [nra|apply mid_const; lra]. }
  destruct (M _ _ _ _ (conj X0 A0) (conj Y0 B0) P0 Q0) as [M0 L0]. destruct (M _ _ _ _ (conj X1 A1) (conj Y1 B1) P1 Q1) as [M1 L1]. destruct (M _ _ _ _ (conj X2 A2) (conj Y2 B2) P2 Q2) as [M2 L2].
  assert (T1 := nr_add (B := 21 / 10) M0 M1 L0 L1 ltac:(lra) (mid_const (B := 21 / 10) ltac:(lra))). assert (BT : Rabs (c0 A * c0 B + c1 A * c1 B) <= 2) by (eapply Rle_trans; [apply Rabs_triang|lra]).
  assert (T2 := nr_add (B := 31 / 10) T1 M2 BT L2 ltac:(lra) (mid_const (B := 31 / 10) ltac:(lra))). apply nr_weak with (2 := T2). lra.
Qed.
Lemma clamp_near e x X : nr e x X -> -1 <= X <= 1 -> nr e (pymax (pymin x (nofZ 1)) (nofZ (-1))) X /\ -1 <= Bval (pymax (pymin x (nofZ 1)) (nofZ (-1))) <= 1.
Proof.
  intros [F E] HX. destruct (@int_val 1) as [F1 V1]; [lia|]. destruct (@int_val (-1)) as [Fm Vm]; [lia|]. apply abs_le in E. unfold pymax, pymin.
  assert (N1 : nr e (nofZ 1) X \/ Bval x <= 1). { destruct (Rle_dec (Bval x) 1) as [H|H]; [now right|left]. split; [exact F1|]. rewrite V1. apply abs_le. lra. }
  rewrite (blt_spec F1 F), V1. destruct (Rlt_bool_spec 1 (Bval x)) as [H|H].
  - rewrite (blt_spec F1 Fm), V1, Vm. destruct (Rlt_bool_spec 1 (-1)) as [G|G]; [lra|]. split; [|lra]. split; [exact F1|]. rewrite V1. apply abs_le. lra.
  - rewrite (blt_spec F Fm), Vm. destruct (Rlt_bool_spec (Bval x) (-1)) as [G|G].
    + split; [|lra]. split; [exact Fm|]. rewrite Vm. apply abs_le. lra.
    + split; [|lra]. split; [exact F|apply abs_le; lra].
Qed.
Lemma unit_range v w : 0 < rnorm v -> 0 < rnorm w -> -1 <= rdot (unit_of v) (unit_of w) <= 1 /\ rdot (unit_of v) (unit_of w) * (rnorm v * rnorm w) = rdot v w.
Proof.
  intros Pv Pw. split; [apply abs_le; eapply Rle_trans; [apply cauchy|]; rewrite !unit_norm by assumption; lra|]. unfold unit_of. set (a := rnorm v) in *. set (b := rnorm w) in *. unfold rdot, rscale. cbn [c0 c1 c2]. field. lra.
Qed.
(** cosines of angles in [0, pi] tell the angles apart *)
Lemma cos_apart x y h : 0 <= x <= PI -> 0 <= y <= PI -> 0 < h <= 1 -> h <= y - x -> 2 * (sin (h / 2) * sin (h / 2)) <= cos x - cos y.
Proof.
  intros Hx Hy Hh H. rewrite form2. pose proof PI2_3_2 as P3. set (g := (y - x) / 2). set (s := (x + y) / 2). replace ((x - y) / 2) with (- g) by (unfold g; field). rewrite sin_neg.
  assert (G : h / 2 <= g <= PI / 2) by (unfold g; lra). assert (S : g <= s <= PI - g) by (unfold g, s; lra).
  assert (I1 : sin (h / 2) <= sin g) by (apply sin_incr_1; lra). assert (I2 : sin (h / 2) <= sin s).
  { destruct (Rle_dec s (PI / 2)) as [L|L]; [apply sin_incr_1; lra|]. replace (sin s) with (sin (PI - s)) by (rewrite sin_PI_x; reflexivity). apply sin_incr_1; lra. }
  assert (P : 0 <= sin (h / 2)) by (apply sin_ge_0; lra). replace (-2 * - sin g * sin s) with (2 * (sin g * sin s)) by ring. apply Rmult_le_compat_l; [lra|]. apply Rmult_le_compat; assumption.
Qed.
Lemma sin_low h : 0 <= h <= 1 -> 5 / 6 * h <= sin h.
Proof.
  intros [H0 H1]. pose proof PI2_3_2 as P3. destruct (sin_bound h 0) as [L _]; [lra|lra|]. unfold sin_approx, sin_term in L. cbn in L. assert (h * h <= 1) by nra. assert (h * (h * h) <= h * 1) by (apply Rmult_le_compat_l; lra). lra.
Qed.

Lemma pi_up : PI <= 33 / 10.
Proof. pose proof (PI_ineq 3) as [_ I]. unfold tg_alt, PI_tg in I. cbn in I. lra. Qed.

Section Angle.
Context (T : Trans b64) (HT : accurate_trig T) (HA : accurate_acos T).
Lemma ratio_near : bfin (ndiv (nofZ 180) npi) = true /\ Rabs (Bval (ndiv (nofZ 180) npi) * (PI / 180) - 1) <= 15 / 10 * eps.
Proof.
  destruct HT as (_ & _ & FP & EP). change ulp_1 with eps in EP. pose proof eps_pos as PE. pose proof eps_small as SE. destruct (@int_val 180) as [F V]; [lia|]. pose proof PI_4 as P4. pose proof PI2_3_2 as P3. apply abs_le in EP. set (p := Bval npi) in *.
  assert (Pp : 299 / 100 <= p) by lra. assert (Q : 0 < 180 / p <= 61) by (split; [apply Rdiv_lt_0_compat; lra|apply Rmult_le_reg_r with p; [lra|]; replace (180 / p * p) with 180 by (field; lra); lra]).
  destruct (@div_ap (nofZ 180) npi 61 F) as [G E]; [apply mid_const; lra|fold p; intros Z; lra|rewrite V; fold p; apply abs_le; lra|]. fold p in E. split; [exact G|]. rewrite V in E. set (q := Bval (ndiv (nofZ 180) npi)) in *.
  replace (q * (PI / 180) - 1) with ((q - 180 / p) * (PI / 180) + (PI - p) * / p) by (field; lra).
  assert (A1 : Rabs ((q - 180 / p) * (PI / 180)) <= eps * 61 * (33 / 10 / 180)) by (apply mul_bound; [lra|lra|exact E|]; rewrite Rabs_pos_eq by lra; pose proof pi_up; lra).
  assert (A2 : Rabs ((PI - p) * / p) <= eps * (34 / 100)). { apply mul_bound; [lra|lra|apply abs_le; lra|]. rewrite Rabs_pos_eq by (apply Rlt_le, Rinv_0_lt_compat; lra). apply Rmult_le_reg_r with p; [lra|]. rewrite Rinv_l by lra. lra. }
  apply abs_le in A1, A2. apply abs_le. lra.
Qed.
Lemma angle_ap v w look : fin3b v = true -> fin3b w = true -> span_ok (rnorm (Rval3 v)) -> span_ok (rnorm (Rval3 w)) ->
  exists a, angle v w look = Ok a /\ bfin a = true /\ 0 <= Bval a /\ Rabs (cos (Bval a * (PI / 180)) - rdot (unit_of (Rval3 v)) (unit_of (Rval3 w))) <= 100 * eps /\ Bval a * (PI / 180) <= PI + 20 * eps.
Proof.
  intros Fv Fw Sv Sw. pose proof eps_pos as PE. pose proof eps_small as SE. pose proof PI_4 as P4. pose proof PI2_3_2 as P3. destruct (unit_range (span_pos Sv) (span_pos Sw)) as [UR _]. set (C := rdot _ _) in *.
  destruct (clamp_near (unit_dot Fv Fw Sv Sw) UR) as [[Fd Ed] Rd]. fold (acos_argument v w) in Fd, Ed, Rd. set (d := acos_argument v w) in *. fold C in Ed. destruct (HA Fd Rd) as (y & Ey & Fy & Py & Hy). change ulp_1 with eps in Hy. destruct ratio_near as [Fq Eqq].
  pose proof pi_up as PU. pose proof (acos_bound (Bval d)) as AB. apply abs_le in Hy. assert (By : Bval y <= 4) by lra. set (q := ndiv (nofZ 180) npi) in *. apply abs_le in Eqq.
  assert (Q0 : 0 <= Bval q <= 61). { split; [apply Rmult_le_reg_r with (PI / 180); [lra|]; lra|]. apply Rmult_le_reg_r with (PI / 180); [lra|]. lra. }
  assert (MB : mid 256) by (apply mid_const; lra). destruct (@mul_ap y q 256 Fy Fq MB) as [Fa _]; [rewrite Rabs_pos_eq by (apply Rmult_le_pos; lra); apply Rle_trans with (4 * 61); [apply Rmult_le_compat; lra|lra]|].
  set (a := nmul y q) in *.
  (* relative error of the product *)
  assert (RA : exists z, Bval a = rnd64 (Bval y * Bval q) /\ z = Bval y * Bval q /\ 0 <= z <= 244 /\ Rabs (rnd64 z - z) <= eps * (z + bpow radix2 (-1000))).
  { exists (Bval y * Bval q). assert (Z : 0 <= Bval y * Bval q <= 244) by (split; [apply Rmult_le_pos; lra|apply Rle_trans with (4 * 61); [apply Rmult_le_compat; lra|lra]]). split.
    - unfold a. change (nmul y q) with (bmul y q). destruct (@bmul_val y q) as [-> _]; auto. rewrite Rabs_pos_eq by lra. apply Rle_trans with (bpow radix2 8); [change (bpow radix2 8) with 256; lra|apply bpow_le; lia].
    - split; [reflexivity|]. split; [exact Z|]. pose proof (bpow_gt_0 radix2 (-1000)). apply rnd_err; [apply Rle_trans with (bpow radix2 (-1000)); [apply bpow_le; lia|lra]|rewrite Rabs_pos_eq; lra]. }
  destruct RA as (z & Va & Ez & Rz & Hz). rewrite <- Ez in Va. assert (SB : 0 < bpow radix2 (-1000) <= / 1000) by (split; [apply bpow_gt_0|apply Rle_trans with (bpow radix2 (-10)); [apply bpow_le; lia|cbn; lra]]). apply abs_le in Hz. rewrite <- Va in Hz.
  assert (ZY : Rabs (z * (PI / 180) - Bval y) <= 6 * eps). { rewrite Ez. replace (Bval y * Bval q * (PI / 180) - Bval y) with (Bval y * (Bval q * (PI / 180) - 1)) by ring. replace (6 * eps) with (4 * (15 / 10 * eps)) by field. apply mul_bound; try lra; [rewrite Rabs_pos_eq; lra|apply abs_le; lra]. }
  assert (PC : PI / 180 <= / 45) by lra. assert (AZ : Rabs (Bval a * (PI / 180) - z * (PI / 180)) <= 45 / 10 * eps).
  { replace (Bval a * (PI / 180) - z * (PI / 180)) with ((Bval a - z) * (PI / 180)) by ring. apply Rle_trans with (eps * (z + bpow radix2 (-1000)) * (PI / 180)); [apply mul_bound; [apply Rmult_le_pos; lra|lra|apply abs_le; lra|rewrite Rabs_pos_eq; lra]|]. apply abs_le in ZY. assert (ZP : (z + bpow radix2 (-1000)) * (PI / 180) <= 41 / 10) by nra. replace (eps * (z + bpow radix2 (-1000)) * (PI / 180)) with (eps * ((z + bpow radix2 (-1000)) * (PI / 180))) by ring. apply Rle_trans with (eps * (41 / 10)); [apply Rmult_le_compat_l; lra|lra]. }
  exists a. split; [unfold angle; fold d; rewrite Ey; reflexivity|]. split; [exact Fa|]. split; [rewrite Va; apply rnd_pos; lra|]. apply abs_le in ZY, AZ. split; [|lra].
  assert (AY : Rabs (Bval a * (PI / 180) - acos (Bval d)) <= 125 / 10 * eps) by (apply abs_le; lra). pose proof (cos_lip (Bval a * (PI / 180)) (acos (Bval d))) as CL. rewrite cos_acos in CL by exact Rd. assert (CL' := Rle_trans _ _ _ CL AY). apply abs_le in CL', Ed. apply abs_le. lra.
Qed.
(** within a ten-thousandth of a degree *)
Lemma angle_close v w look t : fin3b v = true -> fin3b w = true -> span_ok (rnorm (Rval3 v)) -> span_ok (rnorm (Rval3 w)) -> angle_between t (Rval3 v) (Rval3 w) ->
  exists a, angle v w look = Ok a /\ bfin a = true /\ 0 <= Bval a /\ Rabs (cos (Bval a * (PI / 180)) - cos (t * (PI / 180))) <= 100 * eps /\ Rabs (Bval a - t) <= 1 / 10000.
Proof.
  intros Fv Fw Sv Sw [Ht Hc]. destruct (angle_ap look Fv Fw Sv Sw) as (a & Ea & Fa & Pa & Ca & Ua). exists a. do 3 (split; [assumption|]). pose proof (span_pos Sv) as Pv. pose proof (span_pos Sw) as Pw. destruct (unit_range Pv Pw) as [_ UE]. set (C := rdot (unit_of _) _) in *. pose proof eps_pos as PE. pose proof PI_4 as P4. pose proof PI2_3_2 as P3.
  assert (PP : 0 < rnorm (Rval3 v) * rnorm (Rval3 w)) by (apply Rmult_lt_0_compat; assumption). assert (EC : cos (t * (PI / 180)) = C) by (apply Rmult_eq_reg_r with (rnorm (Rval3 v) * rnorm (Rval3 w)); lra). rewrite EC. split; [exact Ca|].
  set (x := Bval a * (PI / 180)) in *. set (y := t * (PI / 180)) in *. assert (Hy : 0 <= y <= PI) by (unfold y; split; [apply Rmult_le_pos; lra|]; apply Rle_trans with (180 * (PI / 180)); [apply Rmult_le_compat_r; lra|lra]).
  assert (Hx : 0 <= x) by (unfold x; apply Rmult_le_pos; lra). set (x' := Rmin x PI). assert (X' : 0 <= x' <= PI /\ Rabs (x - x') <= 20 * eps) by (unfold x', Rmin; destruct (Rle_dec x PI); split; try lra; apply abs_le; lra). destruct X' as [Rx Dx].
  assert (CX : Rabs (cos x' - cos y) <= 120 * eps). { pose proof (cos_lip x x') as L. assert (L' := Rle_trans _ _ _ L Dx). rewrite EC. apply abs_le in L', Ca. apply abs_le. lra. }
  assert (EV : eps <= / 1000000000000000) by (rewrite eps_val; lra). assert (S2 : 2 * (sin (1 / 1000000 / 2) * sin (1 / 1000000 / 2)) > 120 * eps). { pose proof (@sin_low (1 / 1000000 / 2) ltac:(lra)) as L. assert (5 / 6 * (1 / 1000000 / 2) * (5 / 6 * (1 / 1000000 / 2)) <= sin (1 / 1000000 / 2) * sin (1 / 1000000 / 2)) by (apply Rmult_le_compat; lra). lra. }
  assert (D : Rabs (x' - y) <= 1 / 1000000). { apply abs_le in CX. apply abs_le. split; apply Rnot_lt_le; intros Q.
    - pose proof (@cos_apart x' y (1 / 1000000) Rx Hy ltac:(lra) ltac:(lra)). lra.
    - pose proof (@cos_apart y x' (1 / 1000000) Hy Rx ltac:(lra) ltac:(lra)). lra. }
  apply abs_le in D, Dx. assert (XY : Rabs (x - y) <= 11 / 10000000) by (apply abs_le; lra). replace (Bval a - t) with ((x - y) * (180 / PI)) by (unfold x, y; field; lra).
  assert (R : 180 / PI <= 61) by (apply Rmult_le_reg_r with PI; [lra|]; replace (180 / PI * PI) with 180 by (field; lra); lra). apply Rle_trans with (11 / 10000000 * 61); [apply mul_bound; try lra; rewrite Rabs_pos_eq; [lra|apply Rlt_le, Rdiv_lt_0_compat; lra]|lra].
Qed.
End Angle.

(** ** signed_angle: the sign of the triple product *)
Section Triple.
Context (X Y Z : R) (HX : bpow radix2 (-200) <= X <= bpow radix2 200) (HY : bpow radix2 (-200) <= Y <= bpow radix2 200) (HZ : bpow radix2 (-200) <= Z <= bpow radix2 200).
Lemma t_mid2 k : 1 <= k <= 100 -> mid (k * (X * Y)).
Proof.
  intros [K1 K2]. pose proof (bpow_gt_0 radix2 (-200)) as P. pose proof (bpow_gt_0 radix2 200) as P2. assert (L : bpow radix2 (-400) <= X * Y) by (change (-400)%Z with (-200 + -200)%Z; rewrite bpow_plus; apply Rmult_le_compat; lra). assert (U : X * Y <= bpow radix2 400) by (change 400%Z with (200 + 200)%Z; rewrite bpow_plus; apply Rmult_le_compat; lra).
  pose proof (bpow_gt_0 radix2 (-400)) as P4. pose proof (bpow_gt_0 radix2 400) as P5. split; [apply Rle_trans with (bpow radix2 (-400)); [apply bpow_le; lia|]; apply Rle_trans with (1 * (X * Y)); [lra|apply Rmult_le_compat_r; lra]|]. apply Rle_trans with (bpow radix2 10 * bpow radix2 400); [|rewrite <- bpow_plus; apply bpow_le; lia]. change (bpow radix2 10) with 1024. apply Rmult_le_compat; lra.
Qed.
Lemma t_mid3 k : 1 <= k <= 100 -> mid (k * (X * Y * Z)).
Proof.
  intros [K1 K2]. pose proof (bpow_gt_0 radix2 (-200)) as P. pose proof (bpow_gt_0 radix2 200) as P2. assert (L : bpow radix2 (-600) <= X * Y * Z) by (change (-600)%Z with (-200 + -200 + -200)%Z; rewrite !bpow_plus; apply Rmult_le_compat; try lra; [apply Rlt_le, Rmult_lt_0_compat; lra|apply Rmult_le_compat; lra]). assert (U : X * Y * Z <= bpow radix2 600) by (change 600%Z with (200 + 200 + 200)%Z; rewrite !bpow_plus; apply Rmult_le_compat; try lra; [apply Rlt_le, Rmult_lt_0_compat; lra|apply Rmult_le_compat; lra]).
  pose proof (bpow_gt_0 radix2 (-600)) as P4. pose proof (bpow_gt_0 radix2 600) as P5. split; [apply Rle_trans with (bpow radix2 (-600)); [apply bpow_le; lia|]; apply Rle_trans with (1 * (X * Y * Z)); [lra|apply Rmult_le_compat_r; lra]|]. apply Rle_trans with (bpow radix2 10 * bpow radix2 600); [|rewrite <- bpow_plus; apply bpow_le; lia]. change (bpow radix2 10) with 1024. apply Rmult_le_compat; lra.
Qed.
Lemma t_pos : 0 < X /\ 0 < Y /\ 0 < Z /\ 0 < X * Y /\ 0 < X * Y * Z.
Proof. pose proof (bpow_gt_0 radix2 (-200)). assert (0 < X * Y) by (apply Rmult_lt_0_compat; lra). repeat split; try lra. apply Rmult_lt_0_compat; lra. Qed.
Lemma t_self (x : b64) : bfin x = true -> nr 0 x (Bval x).
Proof. intros F. split; [exact F|]. rewrite Rminus_diag_eq, Rabs_R0 by reflexivity. lra. Qed.
Lemma t_minor a b c d : bfin a = true -> bfin b = true -> bfin c = true -> bfin d = true -> Rabs (Bval a) <= X -> Rabs (Bval b) <= Y -> Rabs (Bval c) <= X -> Rabs (Bval d) <= Y ->
  nr (41 / 10 * (eps * (X * Y))) (nsub (nmul a b) (nmul c d)) (Bval a * Bval b - Bval c * Bval d) /\ Rabs (Bval a * Bval b - Bval c * Bval d) <= 2 * (X * Y).
Proof.
  intros Fa Fb Fc Fd Ba Bb Bc Bd. destruct t_pos as (PX & PY & _ & PXY & _). pose proof eps_pos as PE. pose proof eps_small as SE. assert (PEX : 0 <= eps * (X * Y)) by (apply Rmult_le_pos; lra). assert (SEX : eps * (X * Y) <= X * Y / 1000000) by nra.
  assert (M : forall x y, bfin x = true -> bfin y = true -> Rabs (Bval x) <= X -> Rabs (Bval y) <= Y -> nr (eps * (X * Y)) (nmul x y) (Bval x * Bval y) /\ Rabs (Bval x * Bval y) <= X * Y).
  { intros x y Fx Fy Hx Hy. split; [|apply mul_bound; lra]. apply nr_weak with (0 * Y + 0 * (X + 0) + eps * (1 * (X * Y))); [lra|]. apply (nr_mul (t_self Fx) (t_self Fy) Hx Hy); [lra|apply t_mid2; lra]. }
  destruct (M _ _ Fa Fb Ba Bb) as [M1 L1]. destruct (M _ _ Fc Fd Bc Bd) as [M2 L2]. split; [|apply abs_le in L1, L2; apply abs_le; lra].
  assert (S := nr_sub (B := 21 / 10 * (X * Y)) M1 M2 L1 L2 ltac:(lra) (t_mid2 (k := 21 / 10) ltac:(lra))). apply nr_weak with (2 := S). lra.
Qed.
Lemma triple_ap v w z : within X v -> within Y w -> within Z z -> nr (30 * (eps * (X * Y * Z))) (vdot (vcross v w) z) (rdot (rcross (Rval3 v) (Rval3 w)) (Rval3 z)).
Proof.
  intros (Fv & V0 & V1 & V2) (Fw & W0 & W1 & W2) (Fz & Z0 & Z1 & Z2). unfold fin3b in Fv, Fw, Fz. apply andb_prop in Fv. destruct Fv as [Fv f2]. apply andb_prop in Fv. destruct Fv as [f0 f1]. apply andb_prop in Fw. destruct Fw as [Fw g2]. apply andb_prop in Fw. destruct Fw as [g0 g1]. apply andb_prop in Fz. destruct Fz as [Fz h2]. apply andb_prop in Fz. destruct Fz as [h0 h1].
  destruct t_pos as (PX & PY & PZ & PXY & PXYZ). pose proof eps_pos as PE. pose proof eps_small as SE. set (U := X * Y * Z) in *. assert (PEU : 0 <= eps * U) by (apply Rmult_le_pos; lra). assert (SEU : eps * U <= U / 1000000) by nra. assert (PEX : 0 <= eps * (X * Y)) by (apply Rmult_le_pos; lra). assert (SEX : eps * (X * Y) <= X * Y / 1000000) by nra.
  assert (M : forall x A y, nr (41 / 10 * (eps * (X * Y))) x A -> Rabs A <= 2 * (X * Y) -> bfin y = true -> Rabs (Bval y) <= Z -> nr (62 / 10 * (eps * U)) (nmul x y) (A * Bval y) /\ Rabs (A * Bval y) <= 2 * U).
  { intros x A y Hx HA Fy Hy. split; [|replace (2 * U) with (2 * (X * Y) * Z) by (unfold U; ring); apply mul_bound; lra]. apply nr_weak with (41 / 10 * (eps * (X * Y)) * Z + 0 * (2 * (X * Y) + 41 / 10 * (eps * (X * Y))) + eps * (21 / 10 * U)); [unfold U; lra|]. apply (nr_mul Hx (t_self Fy) HA Hy); [|apply t_mid3; lra]. rewrite Rplus_0_r. replace (21 / 10 * U) with (21 / 10 * (X * Y) * Z) by (unfold U; ring). apply Rmult_le_compat_r; lra. }
  destruct (t_minor f1 g2 f2 g1 V1 W2 V2 W1) as [T0 L0]. destruct (t_minor f2 g0 f0 g2 V2 W0 V0 W2) as [T1 L1]. destruct (t_minor f0 g1 f1 g0 V0 W1 V1 W0) as [T2 L2].
  destruct (M _ _ _ T0 L0 h0 Z0) as [M0 B0]. destruct (M _ _ _ T1 L1 h1 Z1) as [M1 B1]. destruct (M _ _ _ T2 L2 h2 Z2) as [M2 B2].
  assert (S1 := nr_add (B := 41 / 10 * U) M0 M1 B0 B1 ltac:(lra) (t_mid3 (k := 41 / 10) ltac:(lra))).
  assert (BS : Rabs ((Bval (c1 v) * Bval (c2 w) - Bval (c2 v) * Bval (c1 w)) * Bval (c0 z) + (Bval (c2 v) * Bval (c0 w) - Bval (c0 v) * Bval (c2 w)) * Bval (c1 z)) <= 4 * U) by (eapply Rle_trans; [apply Rabs_triang|lra]).
  assert (S2 := nr_add (B := 61 / 10 * U) S1 M2 BS B2 ltac:(lra) (t_mid3 (k := 61 / 10) ltac:(lra))). apply nr_weak with (2 := S2). lra.
Qed.
End Triple.
Lemma mul_1 a : bfin a = true -> Rabs (Bval a) <= bpow radix2 1000 -> bfin (nmul (nofZ 1) a) = true /\ Bval (nmul (nofZ 1) a) = Bval a.
Proof.
  intros F H. destruct (@int_val 1) as [F1 V1]; [lia|]. change (nmul (nofZ 1) a) with (bmul (nofZ 1) a). destruct (@bmul_val (nofZ 1) a) as [V G]; auto; [rewrite V1, Rmult_1_l; exact H|]. split; [exact G|]. rewrite V, V1, Rmult_1_l. apply round_generic; [typeclasses eauto|apply generic_format_B2R].
Qed.
Lemma mul_m1 a : bfin a = true -> Rabs (Bval a) <= bpow radix2 1000 -> bfin (nmul (nofZ (-1)) a) = true /\ Bval (nmul (nofZ (-1)) a) = - Bval a.
Proof.
  intros F H. destruct (@int_val (-1)) as [F1 V1]; [lia|]. change (nmul (nofZ (-1)) a) with (bmul (nofZ (-1)) a). assert (E : Bval (nofZ (-1)) * Bval a = - Bval a) by (rewrite V1; ring). destruct (@bmul_val (nofZ (-1)) a) as [V G]; auto; [rewrite E, Rabs_Ropp; exact H|]. split; [exact G|]. rewrite V, E. apply round_generic; [typeclasses eauto|apply generic_format_opp, generic_format_B2R].
Qed.
Lemma signed_ap (T : Trans b64) X Y Z v w look a : bpow radix2 (-200) <= X <= bpow radix2 200 -> bpow radix2 (-200) <= Y <= bpow radix2 200 -> bpow radix2 (-200) <= Z <= bpow radix2 200 -> within X v -> within Y w -> within Z look ->
  angle v w look = Ok a -> bfin a = true -> Rabs (Bval a) <= bpow radix2 1000 -> let D := rdot (rcross (Rval3 v) (Rval3 w)) (Rval3 look) in let e := 30 * (eps * (X * Y * Z)) in
  exists s, signed_angle v w look = Ok s /\ bfin s = true /\ (Bval s = Bval a \/ Bval s = - Bval a) /\ (e < D -> Bval s = Bval a) /\ (D < - e -> Bval s = - Bval a).
Proof.
  intros HX HY HZ Wv Ww Wz Ea Fa Ba D e. destruct (triple_ap HX HY HZ Wv Ww Wz) as [Ft Et]. fold e in Et. fold D in Et. apply abs_le in Et. unfold signed_angle. rewrite Ea. cbn [bindr]. set (t := vdot (vcross v w) look) in *.
  destruct nr_0 as [F0 E0]. assert (V0 : Bval n0 = 0) by (apply abs_le in E0; lra). destruct (@int_val 1) as [F1 V1]; [lia|]. destruct (@int_val (-1)) as [Fm Vm]; [lia|].
  destruct (mul_1 Fa Ba) as [G1 H1]. destruct (mul_m1 Fa Ba) as [Gm Hm].
  assert (Em : neqb (nofZ (-1) : b64) n0 = false) by (vm_compute; reflexivity). assert (E1 : neqb (nofZ 1 : b64) n0 = false) by (vm_compute; reflexivity). assert (Ez : neqb (n0 : b64) n0 = true) by (vm_compute; reflexivity).
  unfold nsign. rewrite (blt_spec Ft F0), (blt_spec F0 Ft), (beq_spec Ft F0), V0. destruct (Rlt_bool_spec (Bval t) 0) as [L|L].
  - rewrite Em. eexists. split; [reflexivity|]. split; [exact Gm|]. rewrite Hm. split; [auto|]. split; [intros; exfalso; lra|auto].
  - destruct (Rlt_bool_spec 0 (Bval t)) as [L2|L2].
    + rewrite E1. eexists. split; [reflexivity|]. split; [exact G1|]. rewrite H1. split; [auto|]. split; [auto|intros; exfalso; lra].
    + destruct (Req_bool_spec (Bval t) 0) as [L3|L3]; [|exfalso; lra]. rewrite Ez. eexists. split; [reflexivity|]. split; [exact G1|]. rewrite H1. split; [auto|]. split; [auto|intros; exfalso; lra].
Qed.
