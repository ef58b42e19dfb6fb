(** * [rotate_to_xz_plane] in doubles: proofs for property C172. *)
From Coq Require Import Reals ZArith List Bool Sumbool Lra Lia Psatz.
From Flocq Require Import Core IEEE754.BinarySingleNaN.
From Verif Require Import Num B64 BLemmas Vec RVec VLemmas NpList MVx MPlane MRotation SpecGeom SpecRotation SpecDouble SpecTransD SpecTrigD SpecXzD PMat3 PRotation PRotation2 PErr PFar PNormB PSliceF PNormD PPlaneD PScaleD PLineD PLine2D PRodD PEulerD PCrossD PSumD PMeanD PAngleD PNormalsD PRigidD.
Import ListNotations.
Local Open Scope R_scope.
Set Implicit Arguments.
Unset Strict Implicit.
Local Notation eps := PErr.eps.

(** ** the real picture *)
Lemma far_real a b c th t s kk x y z : 0 <= a -> 0 <= b -> 0 <= c -> rdot kk kk = 1 -> 0 < s -> s * s = x * x + z * z -> cos t = y -> 0 <= sin t <= 1 -> Rabs (th - t) <= a -> Rabs (s - sin t) <= c ->
  Rabs (c0 kk - - z / s) <= b -> Rabs (c1 kk) <= b -> Rabs (c2 kk - x / s) <= b -> Rabs x <= 101 / 100 -> Rabs y <= 1 -> Rabs z <= 101 / 100 ->
  coords_le (32 / 10 * a + 82 / 10 * b + c) (rsub (rapply (axis_rot th kk) (mk3 x y z)) ey).
Proof.
  intros Pa Pb Pc K Ps S2 CT ST Ht Hs K0 K1 K2 X Y Z. pose proof (cos_lip th t) as LC. pose proof (sin_lip th t) as LS. assert (DC : Rabs (cos th - y) <= a) by (rewrite <- CT; lra). assert (DS : Rabs (sin th - sin t) <= a) by lra. clear LC LS.
  pose proof (COS_bound th) as CB. pose proof (SIN_bound th) as SB. set (g := sin t) in *. set (k0 := - z / s) in *. set (k2 := x / s) in *. destruct kk as [q0 q1 q2]. cbn [c0 c1 c2] in *.
  assert (U : forall w, Rabs w <= 101 / 100 -> w * w <= s * s -> Rabs (w / s) <= 1). { intros w _ W. unfold Rdiv. rewrite Rabs_mult, (Rabs_pos_eq (/ s)) by (apply Rlt_le, Rinv_0_lt_compat; exact Ps). apply Rmult_le_reg_r with s; [exact Ps|]. rewrite Rmult_assoc, Rinv_l by lra. rewrite Rmult_1_r, Rmult_1_l. apply abs_le. split; nra. }
  assert (KZ : Rabs (z / s) <= 1) by (apply U; [exact Z|nra]). assert (KX : Rabs (x / s) <= 1) by (apply U; [exact X|nra]).
  assert (Q : Rabs q0 <= 1 /\ Rabs q1 <= 1 /\ Rabs q2 <= 1) by (unfold rdot in K; cbn [c0 c1 c2] in K; repeat split; apply abs_le; split; nra). destruct Q as (Q0 & Q1 & Q2).
  assert (MB : forall u v A B, Rabs u <= A -> Rabs v <= B -> Rabs (u * v) <= A * B) by (intros; rewrite Rabs_mult; apply Rmult_le_compat; auto; apply Rabs_pos).
  (* kk . N is small *)
  assert (D0 : q0 * x + q1 * y + q2 * z = (q0 - k0) * x + q1 * y + (q2 - k2) * z) by (unfold k0, k2; field; lra).
  assert (DN : Rabs (q0 * x + q1 * y + q2 * z) <= 303 / 100 * b). { rewrite D0. pose proof (MB _ _ _ _ K0 X) as A0. pose proof (MB _ _ _ _ K1 Y) as A1. pose proof (MB _ _ _ _ K2 Z) as A2. apply abs_le in A0, A1, A2. apply abs_le. lra. }
  assert (MID : forall q, Rabs q <= 1 -> Rabs ((1 - cos th) * (q0 * x + q1 * y + q2 * z) * q) <= 606 / 100 * b).
  { intros q Hq. assert (C2 : Rabs (1 - cos th) <= 2) by (apply abs_le; lra). pose proof (MB _ _ _ _ (MB _ _ _ _ C2 DN) Hq). lra. }
  (* cross products *)
  assert (CR : forall w W, Rabs (w - W) <= 202 / 100 * b -> Rabs w <= 202 / 100 -> Rabs (sin th * w - g * W) <= 202 / 100 * a + 202 / 100 * b).
  { intros w W Hw Bw. replace (sin th * w - g * W) with ((sin th - g) * w + g * (w - W)) by ring. assert (G1 : Rabs g <= 1) by (apply abs_le; lra). pose proof (MB _ _ _ _ DS Bw) as A0. pose proof (MB _ _ _ _ G1 Hw) as A1. apply abs_le in A0, A1. apply abs_le. lra. }
  assert (Y' : Rabs y <= 101 / 100) by lra.
  assert (PB : forall u v p q, Rabs u <= 1 -> Rabs v <= 101 / 100 -> Rabs p <= 1 -> Rabs q <= 101 / 100 -> Rabs (u * v - p * q) <= 202 / 100) by (intros u v p q U1 V1 P1 Q1'; pose proof (MB _ _ _ _ U1 V1) as A0; pose proof (MB _ _ _ _ P1 Q1') as A1; apply abs_le in A0, A1; apply abs_le; lra).
  assert (X0 : Rabs (sin th * (q1 * z - q2 * y) - g * (- k2 * y)) <= 202 / 100 * a + 202 / 100 * b).
  { apply CR; [|now apply PB]. replace (q1 * z - q2 * y - - k2 * y) with (q1 * z - (q2 - k2) * y) by ring. pose proof (MB _ _ _ _ K1 Z) as A0. pose proof (MB _ _ _ _ K2 Y') as A1. apply abs_le in A0, A1. apply abs_le. lra. }
  assert (X1 : Rabs (sin th * (q2 * x - q0 * z) - g * s) <= 202 / 100 * a + 202 / 100 * b).
  { apply CR; [|now apply PB]. assert (ES : s = k2 * x - k0 * z) by (unfold k0, k2; apply Rmult_eq_reg_r with s; [|lra]; rewrite S2; field; lra). rewrite ES. replace (q2 * x - q0 * z - (k2 * x - k0 * z)) with ((q2 - k2) * x - (q0 - k0) * z) by ring. pose proof (MB _ _ _ _ K2 X) as A0. pose proof (MB _ _ _ _ K0 Z) as A1. apply abs_le in A0, A1. apply abs_le. lra. }
  assert (X2 : Rabs (sin th * (q0 * y - q1 * x) - g * (k0 * y)) <= 202 / 100 * a + 202 / 100 * b).
  { apply CR; [|now apply PB]. replace (q0 * y - q1 * x - k0 * y) with ((q0 - k0) * y - q1 * x) by ring. pose proof (MB _ _ _ _ K0 Y') as A0. pose proof (MB _ _ _ _ K1 X) as A1. apply abs_le in A0, A1. apply abs_le. lra. }
  (* the exact turn *)
  assert (GG : g * g = 1 - y * y) by (unfold g; pose proof (sin2_cos2 t) as Q; unfold Rsqr in Q; rewrite CT in Q; lra).
  assert (E0 : forall w, Rabs (w / s) <= 1 -> Rabs (y * w - g * (w / s * y)) <= c). { intros w W. replace (y * w - g * (w / s * y)) with (y * (w / s) * (s - g)) by (field; lra). pose proof (MB _ _ _ _ (MB _ _ _ _ Y W) Hs). lra. }
  assert (E1 : Rabs (y * y + g * s - 1) <= c). { replace (y * y + g * s - 1) with (g * (s - g)) by (rewrite Rmult_minus_distr_l, GG; ring). assert (G1 : Rabs g <= 1) by (apply abs_le; lra). pose proof (MB _ _ _ _ G1 Hs). lra. }
  assert (CX : forall w, Rabs w <= 101 / 100 -> Rabs ((cos th - y) * w) <= 101 / 100 * a) by (intros w W; pose proof (MB _ _ _ _ DC W); lra).
  rewrite axis_rot_apply. unfold coords_le, rsub, radd, rscale, rcross, rdot, ey. cbn [c0 c1 c2].
  pose proof (MID q0 Q0) as M0. pose proof (MID q1 Q1) as M1. pose proof (MID q2 Q2) as M2. pose proof (CX x X) as C0'. pose proof (CX y Y') as C1'. pose proof (CX z Z) as C2'. pose proof (E0 x KX) as F0. pose proof (E0 z KZ) as F2. unfold k0, k2 in X0, X2.
  apply abs_le in M0, M1, M2, C0', C1', C2', F0, F2, E1, X0, X1, X2. split; [|split]; apply abs_le.
  - lra.
  - lra.
  - replace (- z / s * y) with (- (z / s * y)) in X2 by (field; lra). lra.
Qed.
Lemma near_real h t u x y z : 0 <= h <= 1 / 100 -> Rabs x <= h -> Rabs z <= h -> Rabs y <= 1 -> (u = 0 \/ u = PI) -> Rabs (t - u) <= h -> Rabs (y - cos u) <= h ->
  coords_le (22 / 10 * h) (rsub (rapply (axis_rot t ex) (mk3 x y z)) ey).
Proof.
  intros Hh X Z Y HU HT HY. pose proof (cos_lip t u) as LC. pose proof (sin_lip t u) as LS. assert (S0 : sin u = 0) by (destruct HU; subst; [apply sin_0|apply sin_PI]). assert (C2 : cos u * cos u = 1) by (destruct HU; subst; [rewrite cos_0|rewrite cos_PI]; ring).
  rewrite S0, Rminus_0_r in LS. assert (DC : Rabs (cos t - cos u) <= h) by lra. assert (DS : Rabs (sin t) <= h) by lra. clear LC LS. pose proof (COS_bound t) as CB.
  assert (MB : forall u v A B, Rabs u <= A -> Rabs v <= B -> Rabs (u * v) <= A * B) by (intros; rewrite Rabs_mult; apply Rmult_le_compat; auto; apply Rabs_pos).
  assert (U1 : Rabs (cos u) <= 1) by (destruct HU; subst; [rewrite cos_0|rewrite cos_PI]; apply abs_le; lra). assert (C1 : Rabs (cos t) <= 1) by (apply abs_le; lra).
  pose proof (MB _ _ _ _ DC Y) as A0. pose proof (MB _ _ _ _ U1 HY) as A1. pose proof (MB _ _ _ _ DS Z) as A2. pose proof (MB _ _ _ _ DS Y) as A3. pose proof (MB _ _ _ _ C1 Z) as A4. assert (HH : h * h <= / 100 * h) by nra.
  rewrite axis_rot_apply. unfold coords_le, rsub, radd, rscale, rcross, rdot, ex, ey. cbn [c0 c1 c2]. apply abs_le in A0, A1, A2, A3, A4, X. split; [|split]; apply abs_le; [lra| |lra].
  assert (EQ : cos t * y - 1 = (cos t - cos u) * y + cos u * (y - cos u)) by lra. lra.
Qed.

(** ** the doubles *)
Lemma lit_val : bfin (nlit 1 100000 : b64) = true /\ 999 / 100000000 <= Bval (nlit 1 100000 : b64) <= 1001 / 100000000.
Proof.
  split; [vm_compute; reflexivity|]. rewrite (@Bval_me (nlit 1 100000) 5902958103587057%Z (-69)%Z) by (vm_compute; reflexivity). change (bpow radix2 (-69)) with (/ 590295810358705651712). lra.
Qed.
Lemma abs_val (x : b64) : bfin x = true -> bfin (nabs x) = true /\ Bval (nabs x) = Rabs (Bval x).
Proof. intros F. split; [unfold nabs, b64_num, babs, bfin; rewrite is_finite_Babs; exact F|apply B2R_Babs]. Qed.
Lemma mul_0r (x z : b64) : bfin x = true -> bfin z = true -> Bval z = 0 -> bfin (nmul x z) = true /\ Bval (nmul x z) = 0.
Proof. intros F Fz Vz. destruct (zero_inv Fz Vz) as [s ->]. destruct x as [t|t| |t m e H]; try discriminate F; split; reflexivity. Qed.
Lemma sub_0l z x : bfin z = true -> Bval z = 0 -> bfin x = true -> (bfin (nsub z x) = true /\ Bval (nsub z x) = - Bval x) /\ (bfin (nsub x z) = true /\ Bval (nsub x z) = Bval x).
Proof.
  intros Fz Vz Fx. destruct (zero_inv Fz Vz) as [s ->]. destruct x as [t|t| |t m e H]; try discriminate Fx; [destruct s, t; repeat split; cbn; try reflexivity; apply eq_sym, Ropp_0|].
  repeat split; try reflexivity. exact (B2R_Bopp 53 1024 (B754_finite t m e H)).
Qed.
Lemma mul_1' (x y : b64) : bfin x = true -> bfin y = true -> Bval y = 1 -> Rabs (Bval x) <= bpow radix2 1000 -> bfin (nmul x y) = true /\ Bval (nmul x y) = Bval x.
Proof.
  intros F Fy Vy H. change (nmul x y) with (bmul x y). destruct (@bmul_val x y) as [V G]; auto; [rewrite Vy, Rmult_1_r; exact H|]. split; [exact G|]. rewrite V, Vy, Rmult_1_r. apply round_generic; [typeclasses eauto|apply generic_format_B2R].
Qed.
Lemma four : 4 <= bpow radix2 1000.
Proof. replace 4 with (bpow radix2 2) by reflexivity. apply bpow_le. lia. Qed.
Lemma e2_dot n : fin3b n = true -> coords_le 4 (Rval3 n) -> bfin (vdot (mk3 n0 (nofZ 1) n0) n) = true /\ Bval (vdot (mk3 n0 (nofZ 1) n0) n) = Bval (c1 n).
Proof.
  intros F (_ & B1 & _). destruct (fin3b_all F) as (F0 & F1 & F2). cbn [Rval3 map3 c0 c1 c2] in B1. pose proof four as H4. unfold vdot. cbn [c0 c1 c2]. destruct (mul_0l F0) as [G0 V0]. destruct (mul_0l F2) as [G2 V2]. destruct (@mul_1 (c1 n) F1) as [G1 V1]; [lra|].
  destruct (Logic.proj1 (add_0l G0 V0 G1)) as [G3 V3]. destruct (Logic.proj2 (add_0l G2 V2 G3)) as [G4 V4]. split; [exact G4|]. rewrite V4, V3. exact V1.
Qed.
Lemma e2_cross n : fin3b n = true -> coords_le 4 (Rval3 n) -> fin3b (vcross n (mk3 n0 (nofZ 1) n0)) = true /\ Rval3 (vcross n (mk3 n0 (nofZ 1) n0)) = mk3 (- Bval (c2 n)) 0 (Bval (c0 n)).
Proof.
  intros F (B0 & B1 & B2). destruct (fin3b_all F) as (F0 & F1 & F2). cbn [Rval3 map3 c0 c1 c2] in B0, B1, B2. pose proof four as H4. destruct (@int_val 1) as [O1 O2]; [lia|]. assert (Z : bfin (n0 : b64) = true /\ Bval (n0 : b64) = 0) by (split; reflexivity). destruct Z as [Z1 Z2].
  unfold vcross, fin3b, Rval3, map3. cbn [c0 c1 c2]. destruct (mul_0r F1 Z1 Z2) as [G10 V10]. destruct (mul_0r F2 Z1 Z2) as [G20 V20]. destruct (mul_0r F0 Z1 Z2) as [G00 V00]. destruct (@mul_1' (c2 n) (nofZ 1) F2 O1 O2) as [G2 V2]; [lra|]. destruct (@mul_1' (c0 n) (nofZ 1) F0 O1 O2) as [G0 V0]; [lra|].
  destruct (Logic.proj1 (sub_0l G10 V10 G2)) as [A0 W0]. destruct (Logic.proj1 (sub_0l G20 V20 G00)) as [A1 W1]. destruct (Logic.proj2 (sub_0l G10 V10 G0)) as [A2 W2]. rewrite A0, A1, A2, W0, W1, W2, V2, V0, V00. split; [reflexivity|]. f_equal. lra.
Qed.
Lemma ex_axis : let r := mk3 (nofZ 1 : b64) n0 n0 in exists o z1 z2, vdivs r (vnorm r) = mk3 o z1 z2 /\ bfin o = true /\ Bval o = 1 /\ bfin z1 = true /\ Bval z1 = 0 /\ bfin z2 = true /\ Bval z2 = 0.
Proof.
  intros r. exists (c0 (vdivs r (vnorm r))), (c1 (vdivs r (vnorm r))), (c2 (vdivs r (vnorm r))). split; [reflexivity|]. split; [vm_compute; reflexivity|].
  split; [rewrite (@Bval_me _ 4503599627370496%Z (-52)%Z) by (vm_compute; reflexivity); change (bpow radix2 (-52)) with (/ 4503599627370496); lra|].
  split; [vm_compute; reflexivity|]. split; [rewrite (@Bval_me _ 0%Z 0%Z) by (vm_compute; reflexivity); lra|]. split; [vm_compute; reflexivity|]. rewrite (@Bval_me _ 0%Z 0%Z) by (vm_compute; reflexivity). lra.
Qed.
Lemma eps_tiny : 0 < eps <= / 4000000000000000.
Proof. split; [apply eps_pos|]. unfold PErr.eps. change (bpow radix2 (-52)) with (/ 4503599627370496). lra. Qed.
Lemma sin_far t h : 0 <= h <= 1 / 100 -> h <= t <= PI - h -> 5 / 6 * h <= sin t.
Proof.
  intros H [L U]. pose proof PI2_3_2 as P3. apply Rle_trans with (sin h); [apply sin_low; lra|]. destruct (Rle_lt_dec t (PI / 2)) as [A|A]; [apply sin_incr_1; lra|]. rewrite <- (sin_PI_x t). apply sin_incr_1; lra.
Qed.
Lemma sin_small t : 0 <= t -> sin t <= t.
Proof. intros H. destruct (Rle_lt_or_eq_dec 0 t H) as [P| <-]; [apply Rlt_le, sin_lt_x; exact P|rewrite sin_0; lra]. Qed.

Section Core.
Context (T : Trans b64) (HT : accurate_trig T) (HA : accurate_acos T).
Context (n : V3 b64) (Fn : fin3b n = true) (Hn : Rabs (rnorm (Rval3 n) - 1) <= 25 * eps) (Hy : Rabs (Bval (c1 n)) <= 1).
Let x := Bval (c0 n).
Let y := Bval (c1 n).
Let z := Bval (c2 n).
Let t := acos y.
Let g := sin t.
Let theta : b64 := arccos (vdot (mk3 n0 (nofZ 1) n0) n).
Let a : b64 := nabs (nsub theta npi).
Let b : b64 := nabs theta.

Lemma sq_ap : Rabs (x * x + z * z - g * g) <= 51 * eps.
Proof.
  pose proof eps_tiny as SE. pose proof Hn as Hn'. pose proof (rnorm_sq (Rval3 n)) as E. unfold rdot, Rval3, map3 in E. cbn [c0 c1 c2] in E. fold (map3 Bval n) in E. fold (Rval3 n) in E. fold x y z in E. assert (Y : -1 <= y <= 1) by (apply abs_le in Hy; exact Hy).
  pose proof (sin2_cos2 t) as Q. unfold Rsqr in Q. fold g in Q. assert (C : cos t = y) by (apply cos_acos; exact Y). rewrite C in Q. set (w := rnorm (Rval3 n)) in *. clearbody w g x y z. apply abs_le in Hn'.
  assert (W : Rabs (w * w - 1) <= 51 * eps). { replace (w * w - 1) with ((w - 1) * 2 + (w - 1) * (w - 1)) by ring. assert (E16 : 625 * eps * eps <= eps) by nra. set (q := w - 1) in *. assert (Q1 : q * q <= 25 * eps * (25 * eps)) by nra. assert (Q0 : 0 <= q * q) by nra. apply abs_le. lra. }
  apply abs_le in W. apply abs_le. lra.
Qed.
Lemma size_n : coords_le (101 / 100) (Rval3 n).
Proof. pose proof eps_tiny as SE. destruct (comp_le (Rval3 n)) as (A & B & C). apply abs_le in Hn. repeat split; lra. Qed.
Lemma size_4 : coords_le 4 (Rval3 n).
Proof. destruct size_n as (A & B & C). repeat split; lra. Qed.
Lemma theta_ap : bfin theta = true /\ 0 <= Bval theta /\ Rabs (Bval theta - t) <= 2 * eps.
Proof.
  destruct (e2_dot Fn size_4) as [F V]. assert (Y : -1 <= y <= 1) by (apply abs_le in Hy; exact Hy). destruct (HA F) as (q & E & Fq & Pq & Dq); [rewrite V; exact Y|]. unfold theta, arccos. rewrite E. rewrite V in Dq. auto.
Qed.
Lemma t_range : 0 <= t <= PI.
Proof. apply acos_bound. Qed.
Lemma test_ap : (nlt (if nlt b a then b else a) (nlit 1 100000) = true -> exists u, (u = 0 \/ u = PI) /\ Rabs (t - u) <= 1002 / 100000000) /\
  (nlt (if nlt b a then b else a) (nlit 1 100000) = false -> 998 / 100000000 <= t <= PI - 998 / 100000000).
Proof.
  destruct theta_ap as (F & P & D). destruct HT as (_ & _ & Fp & Dp). change ulp_1 with eps in Dp. pose proof eps_tiny as SE. pose proof t_range as TR. pose proof pi_up as PU. destruct lit_val as [Fl Vl].
  assert (M4 : mid 4) by (apply mid_const; lra). apply abs_le in D, Dp. destruct (@sub_ap theta npi 4 F Fp M4) as [FS DS]; [apply abs_le; lra|].
  destruct (abs_val FS) as [Fa Va]. destruct (abs_val F) as [Fb Vb]. fold a in Fa, Va. fold b in Fb, Vb. rewrite (Rabs_pos_eq (Bval theta)) in Vb by lra.
  assert (DA : Rabs (Bval a - (PI - t)) <= 7 * eps). { rewrite Va. apply abs_le in DS. destruct (Rcase_abs (Bval (nsub theta npi))) as [N|N]; [rewrite (Rabs_left _ N)|rewrite (Rabs_right _ N)]; apply abs_le; lra. }
  apply abs_le in DA. rewrite (blt_spec Fb Fa). destruct (Rlt_bool_spec (Bval b) (Bval a)) as [L|L].
  - rewrite (blt_spec Fb Fl). split; intros H; revert H; (case Rlt_bool_spec; [|]); intros K E; try discriminate E.
    + exists 0. split; [now left|]. apply abs_le. lra.
    + split; lra.
  - rewrite (blt_spec Fa Fl). split; intros H; revert H; (case Rlt_bool_spec; [|]); intros K E; try discriminate E.
    + exists PI. split; [now right|]. apply abs_le. lra.
    + split; lra.
Qed.

Let axis : V3 b64 := if nlt (if nlt b a then b else a) (nlit 1 100000) then mk3 (nofZ 1) n0 n0 else vcross n (mk3 n0 (nofZ 1) n0).
Let r : V3 b64 := vscale theta (vdivs axis (vnorm axis)).

Lemma near_case u : nlt (if nlt b a then b else a) (nlit 1 100000) = true -> (u = 0 \/ u = PI) -> Rabs (t - u) <= 1002 / 100000000 ->
  fin3b r = true /\ rnorm (Rval3 r) <= 4 /\ Rval3 r = rscale (rnorm (Rval3 r)) ex /\ coords_le (3 / 100000) (rsub (rapply (axis_rot (rnorm (Rval3 r)) ex) (Rval3 n)) ey).
Proof.
  intros H HU HD. destruct theta_ap as (F & P & D). pose proof eps_tiny as SE. pose proof t_range as TR. pose proof pi_up as PU. apply abs_le in D. destruct ex_axis as (o & z1 & z2 & E & Fo & Vo & F1 & V1 & F2 & V2). pose proof four as H4.
  assert (R : fin3b r = true /\ Rval3 r = mk3 (Bval theta) 0 0).
  { unfold r, axis. rewrite H, E. unfold vscale, fin3b, Rval3, map3. cbn [c0 c1 c2]. destruct (@mul_1' theta o F Fo Vo) as [G0 W0]; [apply abs_le; lra|]. destruct (mul_0r F F1 V1) as [G1 W1]. destruct (mul_0r F F2 V2) as [G2 W2]. rewrite G0, G1, G2, W0, W1, W2. now split. }
  destruct R as [FR VR]. assert (N : rnorm (Rval3 r) = Bval theta). { rewrite VR. unfold rnorm, rdot. cbn [c0 c1 c2]. replace (Bval theta * Bval theta + 0 * 0 + 0 * 0) with (Bval theta * Bval theta) by ring. apply sqrt_square. exact P. }
  split; [exact FR|]. rewrite N. split; [lra|]. split; [rewrite VR; unfold rscale, ex; cbn [c0 c1 c2]; f_equal; ring|].
  assert (Y : -1 <= y <= 1) by (apply abs_le in Hy; exact Hy). assert (C : cos t = y) by (apply cos_acos; exact Y). pose proof sq_ap as SQ. apply abs_le in SQ.
  assert (GU : Rabs g <= 1002 / 100000000). { pose proof (sin_lip t u) as L. assert (S0 : sin u = 0) by (destruct HU; subst; [apply sin_0|apply sin_PI]). rewrite S0, Rminus_0_r in L. unfold g. lra. }
  assert (GG : g * g <= 1002 / 100000000 * (1002 / 100000000)) by (apply abs_le in GU; nra).
  assert (XZ : Rabs x <= 101 / 10000000 /\ Rabs z <= 101 / 10000000) by (clearbody g x z; split; apply abs_le; split; nra).
  assert (W : coords_le (22 / 10 * (101 / 10000000)) (rsub (rapply (axis_rot (Bval theta) ex) (mk3 x y z)) ey)).
  { apply near_real with (u := u); try apply XZ; auto; [lra| |]; [apply abs_le in HD; apply abs_le; lra|]. rewrite <- C. pose proof (cos_lip t u). lra. }
  replace (Rval3 n) with (mk3 x y z) by reflexivity. destruct W as (W0 & W1 & W2). repeat split; lra.
Qed.
Lemma far_case : nlt (if nlt b a then b else a) (nlit 1 100000) = false -> 998 / 100000000 <= t <= PI - 998 / 100000000 ->
  exists kk, fin3b r = true /\ rnorm (Rval3 r) <= 4 /\ rdot kk kk = 1 /\ Rval3 r = rscale (rnorm (Rval3 r)) kk /\ 8 / 1000000 <= g /\ coords_le (1500 * eps / g) (rsub (rapply (axis_rot (rnorm (Rval3 r)) kk) (Rval3 n)) ey).
Proof.
  intros H HD. destruct theta_ap as (F & P & D). pose proof eps_tiny as SE. pose proof t_range as TR. pose proof pi_up as PU. apply abs_le in D. destruct (e2_cross Fn size_4) as [FC VC]. set (C := vcross n (mk3 n0 (nofZ 1) n0)) in *.
  assert (LG : 8 / 1000000 <= g) by (apply Rle_trans with (5 / 6 * (998 / 100000000)); [lra|apply sin_far; lra]). assert (UG : g <= 1) by (unfold g; pose proof (SIN_bound t); lra). assert (GT : g <= t) by (apply sin_small; lra).
  set (s := rnorm (Rval3 C)). assert (Ps : 0 <= s) by apply rnorm_pos. assert (S2 : s * s = x * x + z * z) by (unfold s; rewrite rnorm_sq, VC; unfold rdot; cbn [c0 c1 c2]; fold x z; ring). pose proof sq_ap as SQ. rewrite <- S2 in SQ.
  assert (PG : 0 < / g) by (apply Rinv_0_lt_compat; lra). set (v := eps / g). assert (Vg : v * g = eps) by (unfold v; field; lra). assert (Pv : 0 < v) by (unfold v; apply Rdiv_lt_0_compat; lra). assert (Vs : v <= 4 / 100000000000) by (apply Rmult_le_reg_r with g; [lra|]; rewrite Vg; nra). assert (VE : eps <= v) by (rewrite <- Vg; nra).
  assert (DS : Rabs (s - g) <= 51 * v). { apply abs_le in SQ. apply abs_le. clearbody v s g. split; nra. }
  assert (Ls : 79 / 10000000 <= s) by (apply abs_le in DS; lra). assert (Us : s <= 2) by (apply abs_le in DS; lra).
  assert (SO : span_ok s). { split; [apply Rle_trans with (bpow radix2 (-20)); [apply bpow_le; lia|change (bpow radix2 (-20)) with (/ 1048576); lra]|apply Rle_trans with (bpow radix2 1); [change (bpow radix2 1) with 2; lra|apply bpow_le; lia]]. }
  pose proof (normalize_ap FC SO) as NC. unfold SpecDouble.unit_of in NC. fold s in NC. rewrite VC in NC. set (k := rscale (/ s) (mk3 (- Bval (c2 n)) 0 (Bval (c0 n)))) in *. change (normalize1 C) with (vdivs C (vnorm C)) in NC. set (kd := vdivs C (vnorm C)) in *.
  assert (ER : r = vscale theta kd) by (unfold r, axis; rewrite H; reflexivity).
  assert (K0 : c0 k = - z / s) by (unfold k, rscale; cbn [c0 c1 c2]; fold z; field; lra). assert (K1 : c1 k = 0) by (unfold k, rscale; cbn [c0 c1 c2]; ring). assert (K2 : c2 k = x / s) by (unfold k, rscale; cbn [c0 c1 c2]; fold x; field; lra).
  assert (KN : rnorm k = 1). { unfold k. replace (mk3 (- Bval (c2 n)) 0 (Bval (c0 n))) with (Rval3 C) by exact VC. change (rnorm (SpecDouble.unit_of (Rval3 C)) = 1). apply unit_norm. fold s. lra. }
  destruct (comp_le k) as (L0 & L1 & L2). rewrite KN in L0, L1, L2. apply nr3_close in NC. destruct NC as (N0 & N1 & N2).
  assert (NT : nr 0 theta (Bval theta)) by (split; [exact F|rewrite Rminus_eq_0, Rabs_R0; lra]). assert (BT : Rabs (Bval theta) <= 34 / 10) by (apply abs_le; lra). assert (M4 : mid 4) by (apply mid_const; lra).
  assert (CR : close3 (45 * eps) r (rscale (Bval theta) k)).
  { rewrite ER. apply nr_close; unfold vscale, map3, rscale; cbn [c0 c1 c2].
    - eapply nr_weak; [|exact (nr_mul (B := 4) NT N0 BT L0 ltac:(nra) M4)]. lra.
    - eapply nr_weak; [|exact (nr_mul (B := 4) NT N1 BT L1 ltac:(nra) M4)]. lra.
    - eapply nr_weak; [|exact (nr_mul (B := 4) NT N2 BT L2 ltac:(nra) M4)]. lra. }
  pose proof (close_norm (e := 45 * eps) ltac:(lra) CR) as CN. rewrite rnorm_scale, KN, Rmult_1_r, (Rabs_pos_eq (Bval theta)) in CN by lra. set (th := rnorm (Rval3 r)) in *. apply abs_le in CN.
  assert (LT : 99 / 100 * g <= th) by lra. assert (PT : 0 < th) by lra. destruct CR as (FR & E0 & E1 & E2). set (kk := rscale (/ th) (Rval3 r)).
  exists kk. split; [exact FR|]. split; [lra|]. assert (KK : rdot kk kk = 1). { unfold kk. autorewrite with rdot. rewrite <- rnorm_sq. fold th. field. lra. }
  split; [exact KK|]. split; [unfold kk; destruct (Rval3 r) as [r0 r1 r2]; unfold rscale; cbn [c0 c1 c2]; f_equal; field; lra|]. split; [exact LG|].
  assert (KD : forall ri ki, Rabs (ri - Bval theta * ki) <= 45 * eps -> Rabs ki <= 1 -> Rabs (/ th * ri - ki) <= 137 * v).
  { intros ri ki A B. replace (/ th * ri - ki) with (/ th * ((ri - Bval theta * ki) + (Bval theta - th) * ki)) by (field; lra). rewrite Rabs_mult, (Rabs_pos_eq (/ th)) by (apply Rlt_le, Rinv_0_lt_compat; lra).
    assert (Q : Rabs (ri - Bval theta * ki + (Bval theta - th) * ki) <= 135 * eps). { assert (M : Rabs ((Bval theta - th) * ki) <= 90 * eps * 1) by (apply mul_bound; [lra|lra|apply abs_le; lra|exact B]). apply abs_le in A, M. apply abs_le. lra. }
    apply Rmult_le_reg_l with th; [exact PT|]. rewrite <- Rmult_assoc, Rinv_r, Rmult_1_l by lra. apply Rle_trans with (1 := Q). apply Rle_trans with (99 / 100 * g * (137 * v)); [|apply Rmult_le_compat_r; lra]. replace (99 / 100 * g * (137 * v)) with (99 / 100 * 137 * (v * g)) by ring. rewrite Vg. lra. }
  destruct size_n as (X & _ & Z). unfold Rval3, map3 in X, Z. cbn [c0 c1 c2] in X, Z. fold x in X. fold z in Z. assert (Y : -1 <= y <= 1) by (apply abs_le in Hy; exact Hy).
  assert (W : coords_le (32 / 10 * (92 * eps) + 82 / 10 * (137 * v) + 51 * v) (rsub (rapply (axis_rot th kk) (mk3 x y z)) ey)).
  { apply far_real with (t := t) (s := s); auto; try lra.
    - apply cos_acos. exact Y.
    - fold g. lra.
    - apply abs_le. lra.
    - rewrite <- K0. unfold kk, rscale. cbn [c0 c1 c2]. apply KD; [exact E0|exact L0].
    - replace (c1 kk) with (c1 kk - c1 k) by (rewrite K1; ring). unfold kk, rscale. cbn [c0 c1 c2]. apply KD; [exact E1|exact L1].
    - rewrite <- K2. unfold kk, rscale. cbn [c0 c1 c2]. apply KD; [exact E2|exact L2]. }
  replace (Rval3 n) with (mk3 x y z) by reflexivity. replace (1500 * eps / g) with (1500 * v) by (unfold v; field; lra). destruct W as (W0 & W1 & W2). repeat split; lra.
Qed.
Lemma core_ap d cv2 : accurate_rodrigues d cv2 ->
  exists m, rotation m /\ close33 d (cv2 r) m /\ coords_le (3 / 100000) (rsub (rapply m (Rval3 n)) ey) /\
    (2 / 100000 <= t <= PI - 2 / 100000 -> coords_le (1500 * eps / g) (rsub (rapply m (Rval3 n)) ey)).
Proof.
  intros HC. destruct test_ap as [TN TF]. destruct (Sumbool.sumbool_of_bool (nlt (if nlt b a then b else a) (nlit 1 100000))) as [H|H].
  - destruct (TN H) as (u & HU & HD). destruct (near_case H HU HD) as (FR & N4 & ER & W). assert (K : rdot ex ex = 1) by (unfold rdot, ex; cbn; ring). exists (axis_rot (rnorm (Rval3 r)) ex). split; [apply axis_rot_rotation, K|].
    split; [apply HC with (k := ex); auto; apply axis_rot_turns, K|]. split; [exact W|]. intros Q. exfalso. apply abs_le in HD. destruct HU; subst; lra.
  - destruct (far_case H (TF H)) as (kk & FR & N4 & K & ER & LG & W). exists (axis_rot (rnorm (Rval3 r)) kk). split; [apply axis_rot_rotation, K|].
    split; [apply HC with (k := kk); auto; apply axis_rot_turns, K|]. split; [|intros _; exact W].
    assert (Q : 1500 * eps / g <= 3 / 100000). { pose proof eps_tiny. apply Rmult_le_reg_r with g; [lra|]. replace (1500 * eps / g * g) with (1500 * eps) by (field; lra). nra. }
    destruct W as (W0 & W1 & W2). repeat split; lra.
Qed.
End Core.
