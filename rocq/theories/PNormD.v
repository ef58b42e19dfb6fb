(** * Lengths and unit vectors in binary64: error bounds. *)
From Coq Require Import Reals ZArith List Bool Lra Lia Psatz.
From Flocq Require Import Core IEEE754.BinarySingleNaN.
From Verif Require Import Num B64 BLemmas Vec RVec VLemmas MVx MPlane SpecDouble PErr PFar PNormB PSliceF.
Local Open Scope R_scope.
Set Implicit Arguments.
Unset Strict Implicit.

(** integers up to [2^53] are doubles *)
Lemma int_val z : (Z.abs z <= 2 ^ 53)%Z -> bfin (nofZ z) = true /\ Bval (nofZ z) = IZR z.
Proof.
  intros H. change (nofZ z) with (bofZ z). unfold bofZ, bfin, Bval.
  pose proof (@binary_normalize_correct 53 1024 prec_gt_0_53 prec_lt_emax_53 mode_NE z 0 false) as C. cbv zeta in C. rewrite round_eq in C.
  assert (V : F2R (Float radix2 z 0) = IZR z) by (unfold F2R; cbn; ring). rewrite V in C.
  assert (G : rnd64 (IZR z) = IZR z).
  { apply round_generic; [typeclasses eauto|]. rewrite <- V. destruct (Z.eq_dec (Z.abs z) (2 ^ 53)) as [E|E].
    - assert (K : F2R (Float radix2 z 0) = F2R (Float radix2 (Z.sgn z) 53)).
      { rewrite V. unfold F2R. cbn [Fnum Fexp]. rewrite <- (IZR_Zpower radix2 53) by lia. rewrite <- mult_IZR. f_equal. change (radix2 ^ 53)%Z with (2 ^ 53)%Z. rewrite <- E. rewrite Z.mul_comm. symmetry. apply Z.abs_sgn. }
      rewrite K. apply generic_format_F2R. intros N. unfold cexp, FLT_exp. assert (M : (mag radix2 (F2R (Float radix2 (Z.sgn z) 53)) <= 54)%Z).
      { apply mag_le_bpow; [apply F2R_neq_0; cbn; exact N|]. rewrite <- K, V, <- abs_IZR, E. change (2 ^ 53)%Z with (Zpower radix2 53). rewrite IZR_Zpower by lia. apply bpow_lt. lia. }
      cbn [Fexp]. lia.
    - apply generic_format_FLT. exists (Float radix2 z 0); [reflexivity| |cbn; lia]. cbn [Fnum]. change (radix2 ^ 53)%Z with (2 ^ 53)%Z. lia. }
  rewrite G in C. rewrite Rlt_bool_true in C; [destruct C as (C1 & C2 & _); auto|].
  rewrite <- abs_IZR. apply Rle_lt_trans with (IZR (2 ^ 53)); [now apply IZR_le|]. change (2 ^ 53)%Z with (Zpower radix2 53). rewrite IZR_Zpower by lia. apply bpow_lt. lia.
Qed.

Definition span_ok (X : R) : Prop := bpow radix2 (-400) <= X <= bpow radix2 400.
Lemma span_pos X : span_ok X -> 0 < X.
Proof. intros [H _]. pose proof (bpow_gt_0 radix2 (-400)). lra. Qed.
Lemma span_sq X : span_ok X -> scale_ok (X * X).
Proof.
  intros [L U]. pose proof (bpow_gt_0 radix2 (-400)). unfold scale_ok.
  replace (bpow radix2 (-800)) with (bpow radix2 (-400) * bpow radix2 (-400)) by (rewrite <- bpow_plus; reflexivity).
  replace (bpow radix2 800) with (bpow radix2 400 * bpow radix2 400) by (rewrite <- bpow_plus; reflexivity).
  split; apply Rmult_le_compat; lra.
Qed.
Lemma span_scale X : span_ok X -> scale_ok X.
Proof. intros [L U]. split; [apply Rle_trans with (2 := L)|apply Rle_trans with (1 := U)]; apply bpow_le; lia. Qed.
Lemma comp_le v : Rabs (c0 v) <= rnorm v /\ Rabs (c1 v) <= rnorm v /\ Rabs (c2 v) <= rnorm v.
Proof.
  pose proof (rnorm_sq v) as E. pose proof (rnorm_pos v) as P. unfold rdot in E.
  repeat split; apply abs_le; split; nra.
Qed.
Lemma sqrt_diff s X c : 0 < X -> 0 <= s -> Rabs (s - X * X) <= c * (X * X) -> 0 <= c -> Rabs (sqrt s - X) <= c * X.
Proof.
  intros PX Ps H C. apply abs_le in H. pose proof (sqrt_pos s) as P. pose proof (sqrt_sqrt s Ps) as E.
  apply abs_le. split.
  - destruct (Rle_lt_dec X (sqrt s)) as [A|A]; [nra|]. assert ((X - sqrt s) * (X + sqrt s) <= c * (X * X)) by nra. nra.
  - destruct (Rle_lt_dec (sqrt s) X) as [A|A]; [nra|]. assert ((sqrt s - X) * (X + sqrt s) <= c * (X * X)) by nra. nra.
Qed.

Lemma norm_ap v : fin3b v = true -> span_ok (rnorm (Rval3 v)) ->
  bfin (vnorm v) = true /\ Rabs (Bval (vnorm v) - rnorm (Rval3 v)) <= 9 * eps * rnorm (Rval3 v).
Proof.
  intros Fv HX. set (X := rnorm (Rval3 v)) in *. pose proof (span_pos HX) as PX. pose proof (span_sq HX) as HS. pose proof eps_pos as PE. pose proof eps_small as SE.
  unfold fin3b in Fv. apply andb_prop in Fv. destruct Fv as [Fv F2]. apply andb_prop in Fv. destruct Fv as [F0 F1].
  pose proof (rnorm_sq (Rval3 v)) as EX. fold X in EX. unfold rdot, Rval3, map3 in EX. cbn [c0 c1 c2] in EX. set (S := X * X) in *. assert (PS : 0 < S) by (unfold S; nra).
  set (a := Bval (c0 v)) in *. set (b := Bval (c1 v)) in *. set (c := Bval (c2 v)) in *.
  assert (ES : eps * S <= S / 1000000) by nra. assert (ES0 : 0 < eps * S) by nra.
  assert (M1 : mid S) by (rewrite <- (Rmult_1_l S); apply scale_mid; auto; lra). assert (M2 : mid (2 * S)) by (apply scale_mid; auto; lra).
  assert (A0 : 0 <= a * a) by nra. assert (B0 : 0 <= b * b) by nra. assert (C0 : 0 <= c * c) by nra.
  destruct (@mul_ap (c0 v) (c0 v) S F0 F0 M1) as [P0 E0]; [apply abs_le; fold a; lra|]. fold a in E0.
  destruct (@mul_ap (c1 v) (c1 v) S F1 F1 M1) as [P1 E1]; [apply abs_le; fold b; lra|]. fold b in E1.
  destruct (@mul_ap (c2 v) (c2 v) S F2 F2 M1) as [P2 E2]; [apply abs_le; fold c; lra|]. fold c in E2. apply abs_le in E0, E1, E2.
  destruct (@add_ap _ _ (2 * S) P0 P1 M2) as [S1 E3]; [apply abs_le; lra|]. apply abs_le in E3.
  destruct (@add_ap _ _ (2 * S) S1 P2 M2) as [S2 E4]; [apply abs_le; lra|]. apply abs_le in E4.
  change (vnorm v) with (nsqrt (nadd (nadd (nmul (c0 v) (c0 v)) (nmul (c1 v) (c1 v))) (nmul (c2 v) (c2 v)))).
  set (s := nadd (nadd (nmul (c0 v) (c0 v)) (nmul (c1 v) (c1 v))) (nmul (c2 v) (c2 v))) in *.
  assert (D : Rabs (Bval s - S) <= 7 * eps * S) by (apply abs_le; lra). assert (Ps : 0 < Bval s) by (apply abs_le in D; lra).
  destruct (bsqrt_val S2 Ps) as [V Fn]. split; [exact Fn|]. rewrite V.
  assert (Q : Rabs (sqrt (Bval s) - X) <= 7 * eps * X) by (apply sqrt_diff; auto; lra). apply abs_le in Q.
  assert (EX1 : eps * X <= X / 1000000) by nra. assert (EX0 : 0 < eps * X) by nra.
  assert (R : Rabs (rnd64 (sqrt (Bval s)) - sqrt (Bval s)) <= eps * (2 * X)).
  { apply rnd_err; [|apply abs_le; pose proof (sqrt_pos (Bval s)); lra]. apply (mid_low (B := 2 * X)). apply scale_mid; [now apply span_scale|lra]. }
  apply abs_le in R. apply abs_le. lra.
Qed.

(** each entry of the computed unit vector is within [12 eps] of the exact one *)
Lemma unit_norm v : 0 < rnorm v -> rnorm (unit_of v) = 1.
Proof. intros P. unfold unit_of. rewrite rnorm_scale, Rabs_pos_eq by (apply Rlt_le, Rinv_0_lt_compat; exact P). field. lra. Qed.
Lemma normalize_ap v : fin3b v = true -> span_ok (rnorm (Rval3 v)) -> close3 (12 * eps) (normalize1 v) (unit_of (Rval3 v)).
Proof.
  intros Fv HX. destruct (norm_ap Fv HX) as [FN EN]. destruct (comp_le (Rval3 v)) as (L0 & L1 & L2). unfold Rval3, map3 in L0, L1, L2. cbn [c0 c1 c2] in L0, L1, L2. fold (map3 Bval v) in L0, L1, L2. fold (Rval3 v) in L0, L1, L2.
  unfold unit_of. set (X := rnorm (Rval3 v)) in *. set (n := vnorm v) in *. pose proof (span_pos HX) as PX. pose proof eps_pos as PE. pose proof eps_small as SE.
  unfold fin3b in Fv. apply andb_prop in Fv. destruct Fv as [Fv F2]. apply andb_prop in Fv. destruct Fv as [F0 F1]. apply abs_le in EN.
  assert (EX1 : eps * X <= X / 1000000) by nra. assert (EX0 : 0 < eps * X) by nra. assert (PN : 0 < Bval n) by lra.
  assert (D : forall x, bfin x = true -> Rabs (Bval x) <= X -> bfin (ndiv x n) = true /\ Rabs (Bval (ndiv x n) - / X * Bval x) <= 12 * eps).
  { intros x F L. set (xv := Bval x) in *.
    assert (Q : Rabs (xv / Bval n - / X * xv) <= 10 * eps).
    { replace (xv / Bval n - / X * xv) with ((xv / X) * ((X - Bval n) / Bval n)) by (field; lra). replace (10 * eps) with (1 * (10 * eps)) by ring. apply mul_bound; try lra.
      - unfold Rdiv. rewrite Rabs_mult, (Rabs_pos_eq (/ X)) by (apply Rlt_le, Rinv_0_lt_compat; exact PX). apply Rmult_le_reg_r with X; [exact PX|]. rewrite Rmult_assoc, Rinv_l by lra. lra.
      - unfold Rdiv. rewrite Rabs_mult, (Rabs_pos_eq (/ Bval n)) by (apply Rlt_le, Rinv_0_lt_compat; exact PN). apply Rmult_le_reg_r with (Bval n); [exact PN|]. rewrite Rmult_assoc, Rinv_l by lra. rewrite Rmult_1_r. apply abs_le. nra. }
    assert (U : Rabs (/ X * xv) <= 1).
    { rewrite Rabs_mult, (Rabs_pos_eq (/ X)) by (apply Rlt_le, Rinv_0_lt_compat; exact PX). rewrite Rmult_comm. apply Rmult_le_reg_r with X; [exact PX|]. rewrite Rmult_assoc, Rinv_l by lra. lra. }
    apply abs_le in Q, U. destruct (@div_ap x n 2 F) as [Fd Ed]; [split; [change 2 with (bpow radix2 1)|change 2 with (bpow radix2 1)]; apply bpow_le; lia|lra|fold xv; apply abs_le; lra|].
    split; [exact Fd|]. fold xv in Ed. apply abs_le in Ed. apply abs_le. lra. }
  destruct (D _ F0 L0) as [D0 E0]. destruct (D _ F1 L1) as [D1 E1]. destruct (D _ F2 L2) as [D2 E2].
  unfold close3, fin3b, normalize1, vdivs, map3. cbn [c0 c1 c2]. fold n. rewrite D0, D1, D2. split; [reflexivity|]. unfold rscale, Rval3, map3. cbn [c0 c1 c2]. auto.
Qed.
Lemma rnorm_tri a b : rnorm (radd a b) <= rnorm a + rnorm b.
Proof.
  pose proof (rnorm_pos a). pose proof (rnorm_pos b). pose proof (rnorm_pos (radd a b)). pose proof (rnorm_sq a). pose proof (rnorm_sq b). pose proof (rnorm_sq (radd a b)) as E. pose proof (cauchy a b) as C. apply abs_le in C.
  rewrite rdot_add_l, !rdot_add_r in E. rewrite (rdot_sym b a) in E. nra.
Qed.
Lemma rnorm_small e d : 0 <= e -> Rabs (c0 d) <= e -> Rabs (c1 d) <= e -> Rabs (c2 d) <= e -> rnorm d <= 2 * e.
Proof.
  intros Pe A B C. apply abs_le in A, B, C. pose proof (rnorm_sq d) as E. pose proof (rnorm_pos d). unfold rdot in E.
  assert (c0 d * c0 d <= e * e) by nra. assert (c1 d * c1 d <= e * e) by nra. assert (c2 d * c2 d <= e * e) by nra. nra.
Qed.
Lemma close_norm e x y : 0 <= e -> close3 e x y -> Rabs (rnorm (Rval3 x) - rnorm y) <= 2 * e.
Proof.
  intros Pe (_ & A & B & C).
  assert (N1 : rnorm (rsub (Rval3 x) y) <= 2 * e) by (apply rnorm_small; auto).
  assert (N2 : rnorm (rsub y (Rval3 x)) <= 2 * e) by (apply rnorm_small; auto; unfold rsub; cbn [c0 c1 c2]; rewrite Rabs_minus_sym; auto).
  assert (E1 : radd (rsub (Rval3 x) y) y = Rval3 x) by (apply V3_eq; unfold radd, rsub; cbn [c0 c1 c2]; ring).
  assert (E2 : radd (rsub y (Rval3 x)) (Rval3 x) = y) by (apply V3_eq; unfold radd, rsub; cbn [c0 c1 c2]; ring).
  pose proof (rnorm_tri (rsub (Rval3 x) y) y) as T1. rewrite E1 in T1. pose proof (rnorm_tri (rsub y (Rval3 x)) (Rval3 x)) as T2. rewrite E2 in T2. apply abs_le. lra.
Qed.
Lemma close_within e x y : close3 e x y -> rnorm y = 1 -> e <= 1 -> within 2 x.
Proof.
  intros (F & A & B & C) U E. destruct (comp_le y) as (L0 & L1 & L2). rewrite U in *. apply abs_le in A, B, C, L0, L1, L2. split; [exact F|]. repeat split; apply abs_le; lra.
Qed.
