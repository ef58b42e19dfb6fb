(** * The normal of a plane of doubles has no entry greater than two. *)
From Coq Require Import Reals ZArith List Bool Lra Lia Psatz.
From Flocq Require Import Core IEEE754.BinarySingleNaN.
From Verif Require Import Num B64 BLemmas Vec RVec MVx MPlane SpecDouble PErr PFar.
Local Open Scope R_scope.
Set Implicit Arguments.
Unset Strict Implicit.

Lemma bsqrt_val x : bfin x = true -> 0 < Bval x -> Bval (nsqrt x) = rnd64 (sqrt (Bval x)) /\ bfin (nsqrt x) = true.
Proof.
  intros F P. change (nsqrt x) with (bsqrt x). unfold bsqrt, Bval, bfin in *.
  pose proof (@Bsqrt_correct 53 1024 prec_gt_0_53 prec_lt_emax_53 mode_NE x) as (A & B & _). rewrite round_eq in A. split; [exact A|]. rewrite B.
  destruct x as [b|b| |b m e H]; cbn in *; try discriminate; auto. destruct b; [|reflexivity]. exfalso.
  assert (Q : F2R (Float radix2 (Z.neg m) e) < 0) by (now apply F2R_lt_0). unfold F2R in *. cbn in *. lra.
Qed.
Lemma sum_ge x y B : bfin x = true -> bfin y = true -> 0 <= Bval x <= B -> 0 <= Bval y <= B -> 2 * B <= bpow radix2 1000 ->
  bfin (nadd x y) = true /\ Bval x <= Bval (nadd x y) /\ Bval y <= Bval (nadd x y) /\ Bval (nadd x y) <= rnd64 (2 * B).
Proof.
  intros Fx Fy Hx Hy HB. change (nadd x y) with (badd x y). destruct (@badd_val x y) as [-> ->]; auto; [apply abs_le; lra|]. split; [reflexivity|].
  split; [rewrite <- (rnd64_B x) at 1; apply rnd64_le; lra|]. split; [rewrite <- (rnd64_B y) at 1; apply rnd64_le; lra|apply rnd64_le; lra].
Qed.
Lemma not_close x : bfin x = true -> isclose n0 default_atol x n0 = false -> bpow radix2 (-27) <= Rabs (Bval x).
Proof.
  intros F H. unfold isclose in H. assert (NF : nfinite x = true) by exact F. rewrite NF in H. change (nfinite (@n0 b64 _)) with true in H. cbn [andb] in H.
  set (l := nlit 1 (2 ^ 27) : b64). assert (Fl : bfin l = true) by (vm_compute; reflexivity).
  assert (Vl : Bval l = bpow radix2 (-27)).
  { rewrite (@Bval_me l 4503599627370496%Z (-79)%Z) by (vm_compute; reflexivity). change 4503599627370496%Z with (Zpower radix2 52). rewrite IZR_Zpower by lia. rewrite <- bpow_plus. reflexivity. }
  set (t := nadd default_atol (nmul n0 (nabs n0)) : b64) in *. assert (Ft : bfin t = true) by (vm_compute; reflexivity).
  assert (Lt : nle l t = true) by (vm_compute; reflexivity). rewrite ble_spec in Lt by auto. rewrite Vl in Lt. revert Lt. case Rle_bool_spec; [|discriminate]. intros Lt _.
  assert (FS : bfin (nsub x n0) = true /\ Bval (nsub x n0) = Bval x).
  { change (nsub x n0) with (bsub x n0). destruct x as [b|b| |b m e Hm]; cbn in F; try discriminate; split; try reflexivity; destruct b; reflexivity. }
  destruct FS as [FS VS].
  assert (FA : bfin (nabs (nsub x n0)) = true) by (change (is_finite (Babs (nsub x n0)) = true); rewrite is_finite_Babs; exact FS).
  assert (VA : Bval (nabs (nsub x n0)) = Rabs (Bval x)) by (rewrite <- VS; exact (@B2R_Babs 53 1024 (nsub x n0))).
  rewrite ble_spec in H by auto. rewrite VA in H. revert H. case Rle_bool_spec; [discriminate|]. lra.
Qed.
Lemma sqr_ap x : bfin x = true -> Rabs (Bval x) <= bpow radix2 400 -> bfin (nmul x x) = true /\ Bval (nmul x x) = rnd64 (Rabs (Bval x) * Rabs (Bval x)) /\ 0 <= Bval (nmul x x) <= bpow radix2 800.
Proof.
  intros F H. assert (E : Bval x * Bval x = Rabs (Bval x) * Rabs (Bval x)) by (rewrite <- Rabs_mult, Rabs_pos_eq; [reflexivity|nra]). pose proof (Rabs_pos (Bval x)) as P.
  assert (B : Rabs (Bval x) * Rabs (Bval x) <= bpow radix2 800).
  { replace (bpow radix2 800) with (bpow radix2 400 * bpow radix2 400) by (rewrite <- bpow_plus; reflexivity). apply Rmult_le_compat; auto. }
  assert (B' : Rabs (Bval x * Bval x) <= bpow radix2 800) by (rewrite E, Rabs_pos_eq by nra; exact B).
  change (nmul x x) with (bmul x x). destruct (@bmul_val x x) as [-> ->]; auto; [apply Rle_trans with (1 := B'); apply bpow_le; lia|]. rewrite E. split; [reflexivity|]. split; [reflexivity|].
  split; [rewrite <- rnd64_0; apply rnd64_le; nra|]. apply Rle_trans with (Rabs (rnd64 (Rabs (Bval x) * Rabs (Bval x)))); [apply Rle_abs|]. apply rnd64_pow; [lia|]. now rewrite <- E.
Qed.
Lemma norm_ge n X : within (bpow radix2 400) n -> bpow radix2 (-27) <= X ->
  (X = Rabs (Bval (c0 n)) \/ X = Rabs (Bval (c1 n)) \/ X = Rabs (Bval (c2 n))) ->
  bfin (vnorm n) = true /\ / 2 * X <= Bval (vnorm n).
Proof.
  intros W HX Hi. destruct (within_fin W) as (F0 & F1 & F2). destruct W as (_ & W0 & W1 & W2). pose proof eps_pos as PE. pose proof eps_small as SE.
  destruct (sqr_ap F0 W0) as (A0 & E0 & B0). destruct (sqr_ap F1 W1) as (A1 & E1 & B1). destruct (sqr_ap F2 W2) as (A2 & E2 & B2).
  assert (K1 : 2 * bpow radix2 800 = bpow radix2 801) by (change 2 with (bpow radix2 1); rewrite <- bpow_plus; reflexivity).
  assert (K2 : 2 * bpow radix2 801 = bpow radix2 802) by (change 2 with (bpow radix2 1); rewrite <- bpow_plus; reflexivity).
  assert (K3 : bpow radix2 800 <= bpow radix2 801) by (apply bpow_le; lia). assert (K4 : bpow radix2 802 <= bpow radix2 1000) by (apply bpow_le; lia). assert (K5 : bpow radix2 801 <= bpow radix2 802) by (apply bpow_le; lia).
  assert (RP : forall e, (-1074 <= e)%Z -> rnd64 (bpow radix2 e) <= bpow radix2 e).
  { intros e He. apply Rle_trans with (1 := Rle_abs _). apply rnd64_pow; [exact He|]. rewrite Rabs_pos_eq by apply bpow_ge_0. apply Rle_refl. }
  destruct (sum_ge A0 A1 B0 B1) as (S1 & G0 & G1 & U1); [lra|]. rewrite K1 in U1. pose proof (RP 801%Z ltac:(lia)) as R1.
  destruct (@sum_ge _ _ (bpow radix2 801) S1 A2) as (S2 & G2 & G3 & U2); [lra|lra|lra|].
  set (s := nadd (nadd (nmul (c0 n) (c0 n)) (nmul (c1 n) (c1 n))) (nmul (c2 n) (c2 n))) in *.
  assert (PX : 0 < X) by (pose proof (bpow_gt_0 radix2 (-27)); lra).
  assert (XX : bpow radix2 (-54) <= X * X).
  { replace (bpow radix2 (-54)) with (bpow radix2 (-27) * bpow radix2 (-27)) by (rewrite <- bpow_plus; reflexivity). pose proof (bpow_gt_0 radix2 (-27)). apply Rmult_le_compat; lra. }
  assert (LS : rnd64 (X * X) <= Bval s) by (destruct Hi as [-> | [-> | ->]]; lra).
  assert (LX : (1 - eps) * (X * X) <= rnd64 (X * X)) by (apply rnd_low; apply Rle_trans with (2 := XX); apply bpow_le; lia).
  assert (PS : 0 < Bval s) by nra.
  destruct (bsqrt_val S2 PS) as [V F]. change (vnorm n) with (nsqrt s). split; [exact F|]. rewrite V.
  assert (H1 : (1 - eps) * X <= sqrt (Bval s)).
  { rewrite <- (sqrt_square ((1 - eps) * X)) by nra. apply sqrt_le_1_alt. apply Rle_trans with (2 := LS), Rle_trans with (2 := LX). assert (K : (1 - eps) * (1 - eps) <= 1 - eps) by nra. replace ((1 - eps) * X * ((1 - eps) * X)) with ((1 - eps) * (1 - eps) * (X * X)) by ring. apply Rmult_le_compat_r; [nra|exact K]. }
  apply Rle_trans with (rnd64 ((1 - eps) * X)); [|now apply rnd64_le].
  apply Rle_trans with ((1 - eps) * ((1 - eps) * X)); [nra|]. apply rnd_low. apply Rle_trans with (/ 2 * bpow radix2 (-27)); [|nra].
  change (/ 2) with (bpow radix2 (-1)). rewrite <- bpow_plus. apply bpow_le. lia.
Qed.
Theorem plane_normal r n pl : mk_plane r n = Ok pl -> within (bpow radix2 400) n -> pl_r0 pl = r /\ within 2 (pl_n pl).
Proof.
  intros H W. unfold mk_plane in H. destruct (almost_zero n default_atol) eqn:Z; [discriminate|]. injection H as <-. cbn [pl_r0 pl_n]. split; [reflexivity|].
  destruct (within_fin W) as (F0 & F1 & F2).
  assert (MX : exists X, bpow radix2 (-27) <= X /\ (X = Rabs (Bval (c0 n)) \/ X = Rabs (Bval (c1 n)) \/ X = Rabs (Bval (c2 n))) /\ Rabs (Bval (c0 n)) <= X /\ Rabs (Bval (c1 n)) <= X /\ Rabs (Bval (c2 n)) <= X).
  { set (X := Rmax (Rabs (Bval (c0 n))) (Rmax (Rabs (Bval (c1 n))) (Rabs (Bval (c2 n))))).
    assert (X0 : Rabs (Bval (c0 n)) <= X) by apply Rmax_l. assert (X1 : Rabs (Bval (c1 n)) <= X) by (eapply Rle_trans; [apply Rmax_l|apply Rmax_r]). assert (X2 : Rabs (Bval (c2 n)) <= X) by (eapply Rle_trans; [apply Rmax_r|apply Rmax_r]).
    exists X. split; [|split; [|auto]].
    - unfold almost_zero, all3, map3 in Z. cbn [c0 c1 c2] in Z. apply andb_false_iff in Z. destruct Z as [Z|Z]; [apply andb_false_iff in Z; destruct Z as [Z|Z]|].
      + apply not_close in Z; auto. lra.
      + apply not_close in Z; auto. lra.
      + apply not_close in Z; auto. lra.
    - unfold X, Rmax. destruct (Rle_dec _ _); destruct (Rle_dec _ _); auto. }
  destruct MX as (X & LX & IX & X0 & X1 & X2). destruct (norm_ge W LX IX) as [FN LN]. pose proof (bpow_gt_0 radix2 (-27)).
  assert (D : forall x, bfin x = true -> Rabs (Bval x) <= X -> bfin (ndiv x (vnorm n)) = true /\ Rabs (Bval (ndiv x (vnorm n))) <= 2).
  { intros x F Hx. change (ndiv x (vnorm n)) with (bdiv x (vnorm n)). assert (P : 0 < Bval (vnorm n)) by lra.
    assert (Q : Rabs (Bval x / Bval (vnorm n)) <= bpow radix2 1).
    { change (bpow radix2 1) with 2. unfold Rdiv. rewrite Rabs_mult, (Rabs_pos_eq (/ _)) by (apply Rlt_le, Rinv_0_lt_compat; exact P). apply Rmult_le_reg_r with (Bval (vnorm n)); [exact P|]. rewrite Rmult_assoc, Rinv_l by lra. lra. }
    destruct (@bdiv_val x (vnorm n)) as [-> ->]; auto; [lra|apply Rle_trans with (1 := Q); apply bpow_le; lia|]. split; [reflexivity|]. change 2 with (bpow radix2 1). apply rnd64_pow; [lia|exact Q]. }
  destruct (D _ F0 X0) as [D0 E0]. destruct (D _ F1 X1) as [D1 E1]. destruct (D _ F2 X2) as [D2 E2].
  unfold within, fin3b, normalize1, vdivs, map3. cbn [c0 c1 c2]. rewrite D0, D1, D2. auto.
Qed.
