(** * [find_rigid_rotation] with scaling, and of a single pair, in doubles: proofs for property C170. *)
From Coq Require Import Reals ZArith List Bool Lra Lia Psatz.
From Flocq Require Import Core IEEE754.BinarySingleNaN.
From Verif Require Import Num B64 BLemmas Vec RVec VLemmas NpList MVx MPlane MRotation MRigid SpecGeom SpecRotation SpecRigid SpecDouble SpecSumD SpecTransD SpecTrigD SpecRigidD PMat3 PRotation PRotation2 PErr PFar PNormB PSliceF PNormD PScaleD PLineD PLine2D PRodD PEulerD PCrossD PRigid PRigid2 PSumD PMeanD PRigidD.
Import ListNotations.
Local Open Scope R_scope.
Set Implicit Arguments.
Unset Strict Implicit.
Local Notation eps := PErr.eps.

Lemma self_dot v : ordinary_point v -> okay (vdot v v) /\ Rabs (Bval (vdot v v) - rdot (Rval3 v) (Rval3 v)) <= 7 * eps * rdot (Rval3 v) (Rval3 v).
Proof.
  intros [Fv [Z|HX]].
  - rewrite Z. assert (E : exists b, vdot v v = (B754_zero b : b64)).
    { destruct v as [x y z]. unfold fin3b in Fv. cbn [c0 c1 c2] in Fv. apply andb_prop in Fv. destruct Fv as [F Fz]. apply andb_prop in F. destruct F as [Fx Fy].
      unfold Rval3, map3, rzero in Z. cbn [c0 c1 c2] in Z. injection Z as Vx Vy Vz. destruct (zero_inv Fx Vx) as [s ->]. destruct (zero_inv Fy Vy) as [t ->]. destruct (zero_inv Fz Vz) as [w ->]. destruct s, t, w; eexists; reflexivity. }
    destruct E as [b ->]. split; [split; [reflexivity|now left]|].
    unfold rdot, rzero. cbn [c0 c1 c2]. change (Bval (B754_zero b)) with 0. rewrite Rmult_0_l, !Rplus_0_l, Rminus_eq_0, Rabs_R0. lra.
  - set (X := rnorm (Rval3 v)) in *. assert (HS0 : span_ok X) by (split; [apply Rle_trans with (bpow radix2 (-180)); [apply bpow_le; lia|apply HX]|apply Rle_trans with (bpow radix2 180); [apply HX|apply bpow_le; lia]]).
    pose proof (span_pos HS0) as PX. pose proof (span_sq HS0) as HS. pose proof eps_pos as PE. pose proof eps_small as SE. destruct (fin3b_all Fv) as (F0 & F1 & F2).
    rewrite <- rnorm_sq. fold X. pose proof (rnorm_sq (Rval3 v)) as EX. fold X in EX. unfold rdot, Rval3, map3 in EX. cbn [c0 c1 c2] in EX. set (S := X * X) in *. assert (PS : 0 < S) by (unfold S; nra).
    set (a := Bval (c0 v)) in *. set (b := Bval (c1 v)) in *. set (c := Bval (c2 v)) in *.
    assert (ES : eps * S <= S / 1000000) by nra. assert (ES0 : 0 < eps * S) by nra.
    assert (M1 : mid S) by (rewrite <- (Rmult_1_l S); apply scale_mid; auto; lra). assert (M2 : mid (2 * S)) by (apply scale_mid; auto; lra).
    assert (A0 : 0 <= a * a) by nra. assert (B0 : 0 <= b * b) by nra. assert (C0 : 0 <= c * c) by nra.
    destruct (@mul_ap (c0 v) (c0 v) S F0 F0 M1) as [P0 E0]; [apply abs_le; fold a; lra|]. fold a in E0.
    destruct (@mul_ap (c1 v) (c1 v) S F1 F1 M1) as [P1 E1]; [apply abs_le; fold b; lra|]. fold b in E1.
    destruct (@mul_ap (c2 v) (c2 v) S F2 F2 M1) as [P2 E2]; [apply abs_le; fold c; lra|]. fold c in E2. apply abs_le in E0, E1, E2.
    destruct (@add_ap _ _ (2 * S) P0 P1 M2) as [S1 E3]; [apply abs_le; lra|]. apply abs_le in E3.
    destruct (@add_ap _ _ (2 * S) S1 P2 M2) as [S2 E4]; [apply abs_le; lra|]. apply abs_le in E4.
    unfold vdot. set (s := nadd (nadd (nmul (c0 v) (c0 v)) (nmul (c1 v) (c1 v))) (nmul (c2 v) (c2 v))) in *.
    assert (D : Rabs (Bval s - S) <= 7 * eps * S) by (apply abs_le; lra). split; [|exact D]. split; [exact S2|right]. apply abs_le in D. destruct HX as [X1 X2]. pose proof (bpow_gt_0 radix2 (-180)) as PB.
    assert (L1 : bpow radix2 (-180) * bpow radix2 (-180) <= S) by (apply Rmult_le_compat; lra). assert (L2 : S <= bpow radix2 180 * bpow radix2 180) by (apply Rmult_le_compat; lra). rewrite <- bpow_plus in L1, L2.
    replace (-180 + -180)%Z with (1 + -361)%Z in L1 by reflexivity. replace (180 + 180)%Z with (-1 + 361)%Z in L2 by reflexivity. rewrite bpow_plus in L1, L2. change (bpow radix2 1) with 2 in L1. change (bpow radix2 (-1)) with (/ 2) in L2.
    split; [apply Rle_trans with (bpow radix2 (-361)); [apply bpow_le; lia|lra]|apply Rle_trans with (bpow radix2 361); [lra|apply bpow_le; lia]].
Qed.
Lemma squares_sum ps : Forall ordinary_point ps -> 0 <= rsum (map (fun p => rdot p p) (map Rval3 ps)) /\ Rabs (rsum (map Bval (map (fun p => vdot p p) ps)) - rsum (map (fun p => rdot p p) (map Rval3 ps))) <= 7 * eps * rsum (map (fun p => rdot p p) (map Rval3 ps)).
Proof.
  induction 1 as [|p ps H _ [P IH]]; [cbn; rewrite Rminus_eq_0, Rabs_R0; lra|]. cbn [map rsum]. destruct (self_dot H) as [_ E]. pose proof (rdot_nonneg (Rval3 p)). apply abs_le in E, IH. split; [lra|]. apply abs_le. lra.
Qed.
Lemma frob_range ps : Forall ordinary_point ps -> Exists (fun p => Rval3 p <> rzero) ps -> (Z.of_nat (length ps) < 2 ^ 30)%Z -> bpow radix2 (-180) <= frob (map Rval3 ps) <= bpow radix2 200.
Proof.
  intros H NZ HL. pose proof (bpow_gt_0 radix2 (-180)) as P1. pose proof (bpow_gt_0 radix2 180) as P2.
  assert (LO : bpow radix2 (-180) * bpow radix2 (-180) <= rsum (map (fun p => rdot p p) (map Rval3 ps))).
  { clear HL. revert H. induction NZ as [p ps Np|p ps _ IH]; intros H; inversion H as [|? ? Hp H']; subst; cbn [map rsum].
    - destruct (squares_sum H') as [P _]. destruct Hp as [_ [Z|[L _]]]; [contradiction|]. rewrite <- rnorm_sq. assert (bpow radix2 (-180) * bpow radix2 (-180) <= rnorm (Rval3 p) * rnorm (Rval3 p)) by (apply Rmult_le_compat; lra). lra.
    - pose proof (rdot_nonneg (Rval3 p)). specialize (IH H'). lra. }
  assert (HI : rsum (map (fun p => rdot p p) (map Rval3 ps)) <= INR (length ps) * (bpow radix2 180 * bpow radix2 180)).
  { clear NZ LO HL. induction H as [|p ps [_ Hp] _ IH]; [cbn; lra|]. cbn [map rsum]. change (length (p :: ps)) with (S (length ps)). rewrite S_INR. destruct Hp as [Z|[L U]].
    - rewrite Z. set (B := bpow radix2 180 * bpow radix2 180) in *. assert (PB : 0 <= B) by (unfold B; nra). replace (rdot rzero rzero) with 0 by (unfold rdot, rzero; cbn [c0 c1 c2]; ring). lra.
    - rewrite <- rnorm_sq. assert (rnorm (Rval3 p) * rnorm (Rval3 p) <= bpow radix2 180 * bpow radix2 180) by (apply Rmult_le_compat; lra). lra. }
  unfold frob. split.
  - rewrite <- (sqrt_square (bpow radix2 (-180))) by lra. now apply sqrt_le_1_alt.
  - rewrite <- (sqrt_square (bpow radix2 200)) by apply bpow_ge_0. apply sqrt_le_1_alt. eapply Rle_trans; [exact HI|]. assert (L := @len_real (length ps) ltac:(lia)).
    apply Rle_trans with (bpow radix2 30 * (bpow radix2 180 * bpow radix2 180)); [apply Rmult_le_compat_r; [nra|exact L]|]. rewrite <- !bpow_plus. apply bpow_le. lia.
Qed.
Lemma frob_ap ps : Forall ordinary_point ps -> Exists (fun p => Rval3 p <> rzero) ps -> (Z.of_nat (length ps) < 2 ^ 30)%Z ->
  nr ((INR (length ps) + 10) * eps * frob (map Rval3 ps)) (frobenius ps) (frob (map Rval3 ps)).
Proof.
  intros H NZ HL. destruct (squares_sum H) as [PS ES]. pose proof (frob_range H NZ HL) as RG. pose proof (bpow_gt_0 radix2 (-180)) as P1. unfold frobenius. set (l := map (fun p => vdot p p) ps) in *.
  assert (OK : Forall okay l) by (unfold l; apply Forall_map; revert H; apply Forall_impl; intros p Hp; apply (self_dot Hp)). pose proof (nsum_summed l) as HS. destruct (summed_ap HS) as [F E].
  { constructor; [split; [reflexivity|left; reflexivity]|exact OK]. } { cbn [length]. unfold l. rewrite map_length. lia. }
  cbn [map rsum length] in E. change (Bval (nofZ 0)) with 0 in E. assert (Ll : length l = length ps) by apply map_length. rewrite Rplus_0_l, S_INR, Ll in E. replace (INR (length ps) + 1 - 1) with (INR (length ps)) in E by ring.
  set (n := INR (length ps)) in *. pose proof (pos_INR (length ps)) as PN. fold n in PN. assert (NL := @len_real (length ps) ltac:(lia)). fold n in NL. set (A := rsum (map Bval l)) in *. unfold frob in *. set (S := rsum (map (fun p => rdot p p) (map Rval3 ps))) in *. set (x := sqrt S) in *.
  assert (EX : S = x * x) by (unfold x; now rewrite sqrt_sqrt). assert (PX : 0 < x) by lra. pose proof eps_pos as PE. pose proof eps_val as VE. pose proof eps_small as SE. apply abs_le in ES, E. assert (N0 : 0 <= n * eps <= / 1000000) by (rewrite VE; lra).
  assert (D : Rabs (Bval (nsum l) - x * x) <= (n + 8) * eps * (x * x)).
  { rewrite <- EX. apply abs_le. assert (A <= S + 7 * eps * S) by lra. assert (0 <= A) by (unfold A; now apply sum_pos). assert (n * eps * A <= n * eps * (S + 7 * eps * S)) by (apply Rmult_le_compat_l; lra). assert (0 <= eps * S) by nra. assert (n * eps * (7 * (eps * S)) <= / 1000000 * (7 * (eps * S))) by (apply Rmult_le_compat_r; lra). lra. }
  assert (X2 : 0 < x * x) by nra. assert (Sm : (n + 8) * eps <= / 10000) by (rewrite VE; lra). assert (PS' : 0 < Bval (nsum l)). { apply abs_le in D. assert ((n + 8) * eps * (x * x) <= / 10000 * (x * x)) by (apply Rmult_le_compat_r; lra). lra. }
  destruct (bsqrt_val F PS') as [V Fn]. split; [exact Fn|]. rewrite V. assert (Q : Rabs (sqrt (Bval (nsum l)) - x) <= (n + 8) * eps * x) by (apply sqrt_diff; auto; [lra|apply Rmult_le_pos; lra]). apply abs_le in Q.
  assert (R1 : (n + 8) * eps * x <= / 10000 * x) by (apply Rmult_le_compat_r; lra).
  assert (R : Rabs (rnd64 (sqrt (Bval (nsum l))) - sqrt (Bval (nsum l))) <= eps * (2 * x)).
  { apply rnd_err; [|apply abs_le; pose proof (sqrt_pos (Bval (nsum l))); lra]. apply Rle_trans with (bpow radix2 (-180)); [apply bpow_le; lia|lra]. }
  apply abs_le in R. apply abs_le. lra.
Qed.
Lemma quot_ap e x y X Y : 0 <= e <= / 1000 -> 0 < X -> 0 < Y -> mid (11 / 10 * (X / Y)) -> nr (e * X) x X -> nr (e * Y) y Y -> nr ((21 / 10 * e + 11 / 10 * eps) * (X / Y)) (ndiv x y) (X / Y).
Proof.
  intros He PX PY HM [Fx Ex] [Fy Ey]. apply abs_le in Ex, Ey. assert (EX : e * X <= / 1000 * X) by (apply Rmult_le_compat_r; lra). assert (EY : e * Y <= / 1000 * Y) by (apply Rmult_le_compat_r; lra). assert (Py : 0 < Bval y) by lra.
  set (k := X / Y) in *. assert (Pk : 0 < k) by (apply Rdiv_lt_0_compat; assumption). assert (EK : X = k * Y) by (unfold k; field; lra). assert (Pe : 0 <= e * k) by nra.
  assert (D : Rabs (Bval x / Bval y - k) <= 21 / 10 * e * k).
  { apply abs_le. assert (Q : Bval x / Bval y * Bval y = Bval x) by (field; lra). set (q := Bval x / Bval y) in *. assert (Hq : (q - k) * Bval y = Bval x - k * Bval y) by (rewrite Rmult_minus_distr_r, Q; ring).
    assert (U : Bval x - k * Bval y <= 2 * (e * k) * Y) by (rewrite EK in Ex; nra). assert (Lw : - (2 * (e * k) * Y) <= Bval x - k * Bval y) by (rewrite EK in Ex; nra).
    assert (W : 2 * (e * k) * Y <= 21 / 10 * e * k * Bval y). { assert (Y <= 1050 / 1000 * Bval y) by lra. assert (2 * (e * k) * Y <= 2 * (e * k) * (1050 / 1000 * Bval y)) by (apply Rmult_le_compat_l; lra). lra. }
    split; apply Rmult_le_reg_r with (Bval y); try exact Py; rewrite ?Hq; lra. }
  apply abs_le in D. assert (EKs : e * k <= / 1000 * k) by (apply Rmult_le_compat_r; lra). destruct (@div_ap x y (11 / 10 * k) Fx HM) as [G E]; [lra|apply abs_le; lra|]. split; [exact G|]. apply abs_le in E. apply abs_le. lra.
Qed.
(** ** scaling *)
Section Form.
Context {F : Type} {N : Num F}.
Lemma scaled_form svd a b r : length a <> 1%nat -> find_rigid_rotation svd (P3N a) (P3N b) true = Ok r -> exists r1, find_rigid_rotation svd (P3N a) (P3N b) false = Ok r1 /\ r = mscale (ndiv (frobenius b) (frobenius a)) r1.
Proof.
  intros L H. unfold find_rigid_rotation in *. destruct a as [|p [|p' a]]; [| |]; try (now elim L); cbn [bindr] in *; (destruct (gram _ _) as [c|]; [|discriminate H]); cbn [bindr] in *; (destruct (svd c) as [[[u s] v]|]; [|discriminate H]); cbn [bindr] in *; injection H as <-; eexists; split; reflexivity.
Qed.
Lemma pair_form svd p q r : find_rigid_rotation svd (P3N [p]) (P3N [q]) false = Ok r -> exists c u s v, gram [p; vcross p q] [q; vcross p q] = Ok c /\ svd c = Ok (u, s, v) /\ r = turn_of u v.
Proof.
  intros H. unfold find_rigid_rotation in *. cbn [bindr] in H. destruct (gram _ _) as [c|]; [|discriminate H]. cbn [bindr] in *. destruct (svd c) as [[[u s] v]|] eqn:E; [|discriminate H]. cbn [bindr] in *. injection H as <-. exists c, u, s, v. auto.
Qed.
End Form.
Lemma scaled_near svd d ps qs r : 0 <= d <= 1 / 1000 -> length ps = length qs -> length ps <> 1%nat -> (Z.of_nat (length ps) < 2 ^ 30)%Z -> Forall ordinary_point ps -> Forall ordinary_point qs ->
  Exists (fun p => Rval3 p <> rzero) ps -> Exists (fun p => Rval3 p <> rzero) qs -> find_rigid_rotation svd (P3N ps) (P3N qs) true = Ok r ->
  let n := INR (length ps) in let k := frob (map Rval3 qs) / frob (map Rval3 ps) in
  exists r1, find_rigid_rotation svd (P3N ps) (P3N qs) false = Ok r1 /\ forall Q, rotation Q -> close33 (9 * d + 20 * eps) r1 Q -> close33 (k * (10 * d + (3 * n + 60) * eps)) r (map3 (rscale k) Q).
Proof.
  intros D EL N1 HL Hp Hq Zp Zq H n k. destruct (scaled_form N1 H) as (r1 & E1 & ->). exists r1. split; [exact E1|]. intros Q [O _] C. pose proof eps_pos as PE. pose proof eps_small as SE.
  pose proof (frob_ap Hp Zp HL) as Fp. assert (HLq : (Z.of_nat (length qs) < 2 ^ 30)%Z) by (rewrite <- EL; exact HL). pose proof (frob_ap Hq Zq HLq) as Fq. rewrite <- EL in Fq. fold n in Fp, Fq. pose proof (frob_range Hp Zp HL) as Rp. pose proof (frob_range Hq Zq HLq) as Rq.
  pose proof (pos_INR (length ps)) as PN. fold n in PN. assert (EN : n * eps <= / 1000000) by (apply eps_n; lia). set (x := frob (map Rval3 qs)) in *. set (y := frob (map Rval3 ps)) in *. pose proof (bpow_gt_0 radix2 (-180)) as P1.
  assert (Pk : 0 < k) by (apply Rdiv_lt_0_compat; lra). assert (MK : forall j, 1 <= j <= 2 -> mid (j * k)).
  { intros j Hj. assert (K1 : bpow radix2 (-380) <= k). { unfold k. apply Rmult_le_reg_r with y; [lra|]. replace (x / y * y) with x by (field; lra). apply Rle_trans with (bpow radix2 (-380) * bpow radix2 200); [apply Rmult_le_compat_l; [apply bpow_ge_0|lra]|]. rewrite <- bpow_plus. apply Rle_trans with (bpow radix2 (-180)); [apply bpow_le; lia|lra]. }
    assert (K2 : k <= bpow radix2 380). { unfold k. apply Rmult_le_reg_r with y; [lra|]. replace (x / y * y) with x by (field; lra). apply Rle_trans with (bpow radix2 380 * bpow radix2 (-180)); [rewrite <- bpow_plus; apply Rle_trans with (bpow radix2 200); [lra|apply bpow_le; lia]|apply Rmult_le_compat_l; [apply bpow_ge_0|lra]]. }
    apply rel_mid; [|lra]. split; [eapply Rle_trans; [|exact K1]|eapply Rle_trans; [exact K2|]]; apply bpow_le; lia. }
  assert (NQ : nr ((21 / 10 * ((n + 10) * eps) + 11 / 10 * eps) * k) (ndiv (frobenius qs) (frobenius ps)) k) by (apply quot_ap; [split; [apply Rmult_le_pos; lra|lra]|lra|lra|apply MK; lra|exact Fq|exact Fp]).
  set (a := (21 / 10 * ((n + 10) * eps) + 11 / 10 * eps) * k) in *. assert (Ha : 0 <= a <= / 1000 * k). { unfold a. split; [apply Rmult_le_pos; [|lra]; assert (0 <= (n + 10) * eps) by (apply Rmult_le_pos; lra); lra|apply Rmult_le_compat_r; lra]. }
  assert (ENT : forall z Z, nr (9 * d + 20 * eps) z Z -> Rabs Z <= 1 -> nr (k * (10 * d + (3 * n + 60) * eps)) (nmul (ndiv (frobenius qs) (frobenius ps)) z) (k * Z)).
  { intros z Z NZ HZ. assert (Bd : (k + a) * (1 + (9 * d + 20 * eps)) <= 11 / 10 * k) by nra. eapply nr_weak; [|apply (nr_mul NQ NZ (P := k) (Q := 1) (B := 11 / 10 * k)); [rewrite Rabs_pos_eq; lra|exact HZ|exact Bd|apply MK; lra]].
    assert ((9 * d + 20 * eps) * (k + a) <= (9 * d + 20 * eps) * (1001 / 1000 * k)) by (apply Rmult_le_compat_l; lra). assert (0 <= d * k) by nra. assert (0 <= eps * k) by nra. assert (0 <= n * (eps * k)) by nra. unfold a in *. lra. }
  destruct (rrow_le O) as ((A0 & A1 & A2) & (B0 & B1 & B2) & (D0 & D1 & D2)). destruct C as (C0 & C1 & C2). apply nr3_close in C0, C1, C2. destruct C0 as (X0 & X1 & X2), C1 as (Y0 & Y1 & Y2), C2 as (Z0 & Z1 & Z2).
  unfold close33, mscale, map3, vscale, rscale. cbn [c0 c1 c2]. split; [|split]; apply nr_close; unfold map3; cbn [c0 c1 c2]; apply ENT; assumption.
Qed.
(** ** a single pair *)
Lemma pair_best p q l Q h : l = combine [p; rcross p q] [q; rcross p q] -> rotation Q -> 0 <= h -> (forall Q', rotation Q' -> pres (rapply Q) l <= pres (rapply Q') l + h) ->
  forall Q', rotation Q' -> residual (rapply Q) [p] [q] <= residual (rapply Q') [p] [q] + h.
Proof.
  intros -> M Ph H Q' R'. rewrite !residual_of. assert (E1 : forall m, pres (rapply m) (combine [p] [q]) = rdot (rsub (rapply m p) q) (rsub (rapply m p) q)) by (intros m; unfold pres, psum; cbn [combine map rsum fst snd]; ring). rewrite !E1.
  assert (D : rcross p q = rzero \/ rcross p q <> rzero). { destruct (Req_dec (rnorm (rcross p q)) 0) as [Z|Z]; [left; now apply rnorm_0|right; intros C; apply Z; now apply rnorm_0]. }
  assert (Z : forall m', rapply m' rzero = rzero) by (intros m'; unfold rapply, rzero, rdot; cbn [c0 c1 c2]; f_equal; ring).
  destruct D as [X|X].
  - specialize (H Q' R'). rewrite !single_pres, X, !Z, !rsub_diag in H. lra.
  - destruct (turn_exists X) as (k & K & T1 & T2). specialize (H k K). rewrite !single_pres, T1, T2, rsub_diag in H. assert (Nq : q <> rzero) by (intros ->; apply X, cross_zero_r). pose proof (rnorm_gt0 _ Nq).
    assert (SQ : rdot (rsub (rscale (rnorm p / rnorm q) q) q) (rsub (rscale (rnorm p / rnorm q) q) q) = (rnorm p - rnorm q) * (rnorm p - rnorm q)).
    { transitivity ((rnorm p / rnorm q - 1) * (rnorm p / rnorm q - 1) * rdot q q); [unfold rdot, rsub, rscale; cbn [c0 c1 c2]; ring|]. rewrite <- rnorm_sq. field. lra. }
    rewrite SQ in H. pose proof (dist_sq_ge p q (Logic.proj1 R')). pose proof (rdot_nonneg (rsub (rapply Q (rcross p q)) (rcross p q))). lra.
Qed.
Lemma pair_nearly svd d tau X p q r : 0 <= d <= 1 / 1000 -> 0 <= tau -> accurate_svd d tau svd -> bpow radix2 (-90) <= X <= bpow radix2 90 -> within X p -> within X q ->
  find_rigid_rotation svd (P3N [p]) (P3N [q]) false = Ok r -> let Y := X + 3 * (X * X) in
  exists Q, rotation Q /\ close33 (9 * d + 20 * eps) r Q /\ forall Q', rotation Q' -> residual (rapply Q) [Rval3 p] [Rval3 q] <= residual (rapply Q') [Rval3 p] [Rval3 q] + Y * Y * (75 * tau + 840 * eps).
Proof.
  intros D PT HS HX Wp Wq H Y. pose proof eps_pos as PE. pose proof eps_small as SE. pose proof (bpow_gt_0 radix2 (-90)) as P9. assert (PX : 0 < X) by lra. assert (PXX : 0 < X * X) by nra.
  destruct (pair_form H) as (c & u & s & v & EG & ES & ->). assert (HE : bpow radix2 (-150) <= X <= bpow radix2 150) by (split; [apply Rle_trans with (bpow radix2 (-90)); [apply bpow_le; lia|apply HX]|apply Rle_trans with (bpow radix2 90); [apply HX|apply bpow_le; lia]]).
  assert (SELF : forall w : V3 b64, within X w -> close3 0 w (Rval3 w) /\ coords3 X (Rval3 w)). { intros w (F & B0 & B1 & B2). split; [split; [exact F|]; cbn [Rval3 map3 c0 c1 c2]; rewrite !Rminus_eq_0, Rabs_R0; repeat split; lra|repeat split; assumption]. }
  destruct (SELF p Wp) as [Cp Bp]. destruct (SELF q Wq) as [Cq Bq]. clear SELF. assert (PeX : 0 <= eps * X) by nra.
  pose proof (cross_ap HE (close3_weak PeX Cp) (close3_weak PeX Cq) Bp Bq) as CC. pose proof (cross_size HE Bp Bq) as CS. destruct (comp_le (rcross (Rval3 p) (Rval3 q))) as (S0 & S1 & S2).
  set (e := 9 * (eps * (X * X))) in *. assert (PeXX : 0 <= eps * (X * X)) by nra. assert (PY : 0 < Y) by (unfold Y; lra). assert (EY : e <= 3 * (eps * Y)) by (unfold e, Y; lra). assert (He : 0 <= e <= Y / 1000). { split; [unfold e; lra|]. eapply Rle_trans; [exact EY|]. replace (Y / 1000) with (/ 1000 * Y) by field. assert (eps * Y <= / 1000000000000 * Y) by (apply Rmult_le_compat_r; lra). lra. }
  assert (HY : bpow radix2 (-190) <= Y <= bpow radix2 190).
  { split; [apply Rle_trans with (bpow radix2 (-90)); [apply bpow_le; lia|unfold Y; lra]|]. assert (X * X <= bpow radix2 90 * bpow radix2 90) by (apply Rmult_le_compat; lra). rewrite <- bpow_plus in H0. assert (bpow radix2 90 <= bpow radix2 (90 + 90)) by (apply bpow_le; lia). apply Rle_trans with (bpow radix2 2 * bpow radix2 (90 + 90)); [change (bpow radix2 2) with 4; unfold Y; lra|]. rewrite <- bpow_plus. apply bpow_le. lia. }
  assert (XY : X <= Y) by (unfold Y; lra). assert (CY : rnorm (rcross (Rval3 p) (Rval3 q)) <= Y) by (unfold Y; lra).
  assert (HA : forall w, close3 0 w (Rval3 w) -> coords3 X (Rval3 w) -> close3 e w (Rval3 w) /\ coords_le Y (Rval3 w)) by (intros w C (B0 & B1 & B2); split; [eapply close3_weak; [|exact C]; lra|repeat split; eapply Rle_trans; eauto]).
  assert (HB : close3 e (vcross p q) (rcross (Rval3 p) (Rval3 q)) /\ coords_le Y (rcross (Rval3 p) (Rval3 q))) by (split; [exact CC|repeat split; eapply Rle_trans; eauto; eapply Rle_trans; eauto]).
  set (cr := rcross (Rval3 p) (Rval3 q)) in *.
  destruct (@gram_ap e Y [p; vcross p q] [q; vcross p q] [Rval3 p; cr] [Rval3 q; cr] HY He) as (c' & EG' & CG & W0 & W1 & W2); [cbn; lia|reflexivity|apply Forall2_cons; [exact (HA p Cp Bp)|apply Forall2_cons; [exact HB|apply Forall2_nil]]|apply Forall2_cons; [exact (HA q Cq Bq)|apply Forall2_cons; [exact HB|apply Forall2_nil]]|]. rewrite EG in EG'. injection EG' as <-.
  cbn [length] in CG, W0, W1, W2. replace (INR 2) with 2 in CG, W0, W1, W2 by reflexivity. set (g := 2 * (2 + 3) * (eps * (Y * Y)) + 2 * (201 / 100 * e * Y)) in *.
  destruct (HS _ _ _ _ ES) as (U & V & C & SO & CU & CV & _ & HC). specialize (HC _ W0 W1 W2). assert (PYY : 0 < Y * Y) by nra. assert (EYY : 0 <= eps * (Y * Y)) by nra. assert (EeY : e * Y <= 3 * (eps * (Y * Y))) by (replace (3 * (eps * (Y * Y))) with (3 * (eps * Y) * Y) by ring; apply Rmult_le_compat_r; lra). assert (E0 : 0 <= e * Y) by nra.
  assert (Hg : 0 <= g <= 23 * (eps * (Y * Y))) by (unfold g; lra). assert (Gs : 23 * (eps * (Y * Y)) <= / 100 * (Y * Y)) by (replace (23 * (eps * (Y * Y))) with (23 * eps * (Y * Y)) by ring; apply Rmult_le_compat_r; lra).
  set (h := tau * (2 * (Y * Y) + g) + g) in *. assert (T2 : 0 <= tau * (2 * (Y * Y) + g) <= 201 / 100 * (tau * (Y * Y))). { split; [apply Rmult_le_pos; lra|]. replace (201 / 100 * (tau * (Y * Y))) with (tau * (201 / 100 * (Y * Y))) by ring. apply Rmult_le_compat_l; lra. }
  assert (Ph : 0 <= h) by (unfold h; lra).
  destruct (@turn_best d u v U V (Rval3 s) C h (cross_gram [Rval3 p; cr] [Rval3 q; cr]) (combine [Rval3 p; cr] [Rval3 q; cr]) D SO CU CV Ph) as (Q & RQ & CQ & BQ & _); [apply near_near with (c := c); assumption|reflexivity|].
  exists Q. split; [exact RQ|]. split; [exact CQ|]. intros Q' R'. eapply Rle_trans; [exact (@pair_best (Rval3 p) (Rval3 q) _ Q (36 * h) eq_refl RQ ltac:(lra) BQ Q' R')|]. apply Rplus_le_compat_l. assert (0 <= tau * (Y * Y)) by nra. unfold h. lra.
Qed.
