(** * Boxes in binary64: middle, far corner, volume and surface area. *)
From Coq Require Import Reals ZArith List Bool Lra Lia Psatz.
From Flocq Require Import Core IEEE754.BinarySingleNaN Mult_error.
From Verif Require Import Num B64 BLemmas Vec RVec VLemmas MPlane MSolids PSolids SpecDouble PErr PCutD.
Local Open Scope R_scope.
Set Implicit Arguments.
Unset Strict Implicit.

(** multiplying by 0.5 and dividing by 2 are the same operation *)
Lemma half_same (s : b64) : bfin s = true -> nmul (nlit 1 2) s = ndiv s (nofZ 2).
Proof.
  intros Fs. change (nmul (nlit 1 2) s) with (bmul (blit 1 2) s). change (ndiv s (nofZ 2)) with (bdiv s (bofZ 2)). unfold bmul, bdiv.
  assert (L : Rabs (rnd64 (Bval s / 2)) < bpow radix2 1024).
  { apply Rle_lt_trans with (Rabs (Bval s)); [|pose proof (Bval_lt s) as B; unfold bmax in B; exact B].
    destruct (Rle_dec 0 (Bval s)) as [P|P].
    - rewrite (Rabs_pos_eq (Bval s)) by exact P. rewrite Rabs_pos_eq by (rewrite <- rnd64_0; apply rnd64_le; lra). rewrite <- (rnd64_B s) at 2. apply rnd64_le. lra.
    - rewrite (Rabs_left (Bval s)) by lra. rewrite Rabs_left1 by (rewrite <- rnd64_0; apply rnd64_le; lra). apply Ropp_le_contravar. rewrite <- (rnd64_B s) at 1. apply rnd64_le. lra. }
  assert (Z2 : B2R (bofZ 2) <> 0) by (change (Bval (nofZ 2) <> 0); rewrite B2_val; lra).
  pose proof (@Bdiv_correct 53 1024 prec_gt_0_53 prec_lt_emax_53 mode_NE s (bofZ 2) Z2) as D. pose proof (@Bmult_correct 53 1024 prec_gt_0_53 prec_lt_emax_53 mode_NE (blit 1 2) s) as C.
  rewrite round_eq in C, D. change (B2R (bofZ 2)) with (Bval (nofZ 2)) in D. rewrite B2_val in D. change (B2R (blit 1 2)) with (Bval (nlit 1 2)) in C. rewrite Bhalf_val in C.
  change (B2R s) with (Bval s) in C, D. replace (/ 2 * Bval s) with (Bval s / 2) in C by lra. rewrite Rlt_bool_true in C by exact L. rewrite Rlt_bool_true in D by exact L.
  destruct C as (C1 & C2 & C3), D as (D1 & D2 & D3).
  assert (NM : forall z : b64, is_finite z = true -> is_nan z = false) by (intros z; destruct z; auto; discriminate).
  match goal with |- ?a = ?b => change (B2R a = rnd64 (Bval s / 2)) in C1; change (B2R b = rnd64 (Bval s / 2)) in D1; set (za := a) in *; set (zb := b) in * end.
  assert (FC : is_finite za = true) by (etransitivity; [exact C2|]; apply andb_true_intro; split; [reflexivity|exact Fs]). assert (FD : is_finite zb = true) by (etransitivity; [exact D2|exact Fs]).
  apply B2R_Bsign_inj; [exact FC|exact FD|rewrite C1, D1; reflexivity|]. rewrite (C3 (NM _ FC)), (D3 (NM _ FD)). change (Bsign (blit 1 2)) with false. change (Bsign (bofZ 2)) with false. destruct (Bsign s); reflexivity.
Qed.
(** products that neither vanish nor leave the range keep a relative error *)
Definition plain (z : R) : Prop := z = 0 \/ bpow radix2 (-1000) <= Rabs z <= bpow radix2 1000.
Lemma mul_rel x y : bfin x = true -> bfin y = true -> plain (Bval x * Bval y) -> bfin (nmul x y) = true /\ Rabs (Bval (nmul x y) - Bval x * Bval y) <= eps * Rabs (Bval x * Bval y).
Proof.
  intros Fx Fy [Z|H].
  - change (nmul x y) with (bmul x y). destruct (@bmul_val x y Fx Fy) as [V F]; [rewrite Z, Rabs_R0; apply bpow_ge_0|]. split; [exact F|]. rewrite V, Z, rnd64_0. rewrite Rminus_eq_0, Rabs_R0. lra.
  - exact (@mul_ap x y (Rabs (Bval x * Bval y)) Fx Fy H (Rle_refl _)).
Qed.
Definition side (z : R) : Prop := z = 0 \/ bpow radix2 (-300) <= z <= bpow radix2 300.
Lemma side_pos z : side z -> 0 <= z <= bpow radix2 300.
Proof. pose proof (bpow_gt_0 radix2 (-300)). pose proof (bpow_gt_0 radix2 300). intros [->|]; lra. Qed.
Lemma side_mul x y : side x -> side y -> x * y = 0 \/ bpow radix2 (-600) <= x * y <= bpow radix2 600.
Proof.
  intros [->|H]; [left; ring|]. intros [->|K]; [left; ring|]. right. pose proof (bpow_gt_0 radix2 (-300)). change (-600)%Z with (-300 + -300)%Z. change 600%Z with (300 + 300)%Z. rewrite !bpow_plus. split; apply Rmult_le_compat; lra.
Qed.
Lemma plain_of z : z = 0 \/ bpow radix2 (-950) <= z <= bpow radix2 950 -> plain z.
Proof.
  intros [->|[H1 H2]]; [left; reflexivity|right]. pose proof (bpow_gt_0 radix2 (-950)). rewrite Rabs_pos_eq by lra. split; [apply Rle_trans with (2 := H1)|apply Rle_trans with (1 := H2)]; apply bpow_le; lia.
Qed.
Lemma prod2 (x y : b64) : bfin x = true -> bfin y = true -> side (Bval x) -> side (Bval y) -> bfin (nmul x y) = true /\ Rabs (Bval (nmul x y) - Bval x * Bval y) <= eps * (Bval x * Bval y).
Proof.
  intros Fx Fy Hx Hy. destruct (@mul_rel x y Fx Fy) as [F E].
  - apply plain_of. destruct (side_mul Hx Hy) as [H|[H1 H2]]; [left; exact H|right]. split; [apply Rle_trans with (2 := H1)|apply Rle_trans with (1 := H2)]; apply bpow_le; lia.
  - rewrite (Rabs_pos_eq (Bval x * Bval y)) in E by (apply Rmult_le_pos; now apply side_pos). auto.
Qed.
Lemma volume_ap (x y z : b64) : bfin x = true -> bfin y = true -> bfin z = true -> side (Bval x) -> side (Bval y) -> side (Bval z) ->
  bfin (nmul (nmul x y) z) = true /\ Rabs (Bval (nmul (nmul x y) z) - Bval x * Bval y * Bval z) <= 3 * eps * (Bval x * Bval y * Bval z).
Proof.
  intros Fx Fy Fz Hx Hy Hz. destruct (prod2 Fx Fy Hx Hy) as [F E]. pose proof (side_mul Hx Hy) as S. pose proof eps_pos as P0. pose proof eps_small as S0. set (P := Bval x * Bval y) in *. set (m := nmul x y) in *.
  assert (PP : 0 <= P) by (apply Rmult_le_pos; now apply side_pos). assert (Pz : 0 <= Bval z) by now apply side_pos. assert (PV : 0 <= P * Bval z) by (apply Rmult_le_pos; lra). apply abs_le in E.
  assert (EP : eps * P <= P / 1000000) by (apply Rle_trans with (/ 1000000000000 * P); [apply Rmult_le_compat_r; lra|lra]).
  destruct (@mul_rel m z F Fz) as [F2 E2].
  - apply plain_of. destruct S as [S|[S1 S2]]; [left; rewrite S in E, EP; replace (Bval m) with 0 by lra; ring|]. destruct Hz as [Hz|[Z1 Z2]]; [left; rewrite Hz; ring|]. right.
    pose proof (bpow_gt_0 radix2 (-600)) as B1. pose proof (bpow_gt_0 radix2 (-300)) as B2. assert (M1 : bpow radix2 (-1) * bpow radix2 (-600) <= Bval m) by (change (bpow radix2 (-1)) with (/ 2); lra). assert (M2 : Bval m <= bpow radix2 1 * bpow radix2 600) by (change (bpow radix2 1) with 2; lra).
    rewrite <- bpow_plus in M1, M2. pose proof (bpow_gt_0 radix2 (-1 + -600)) as B3. split.
    + apply Rle_trans with (bpow radix2 (-1 + -600) * bpow radix2 (-300)); [rewrite <- bpow_plus; apply bpow_le; lia|apply Rmult_le_compat; lra].
    + apply Rle_trans with (bpow radix2 (1 + 600) * bpow radix2 300); [apply Rmult_le_compat; lra|rewrite <- bpow_plus; apply bpow_le; lia].
  - split; [exact F2|]. assert (D : Rabs ((Bval m - P) * Bval z) <= eps * P * Bval z) by (apply mul_bound; try nra; [apply abs_le; lra|rewrite Rabs_pos_eq; lra]). apply abs_le in D.
    assert (M0 : 0 <= Bval m * Bval z) by (apply Rmult_le_pos; lra). rewrite (Rabs_pos_eq (Bval m * Bval z)) in E2 by exact M0. apply abs_le in E2.
    assert (U : Bval m * Bval z <= 11 / 10 * (P * Bval z)) by (assert (Bval m * Bval z <= (11 / 10 * P) * Bval z) by (apply Rmult_le_compat_r; lra); lra).
    assert (U2 : eps * (Bval m * Bval z) <= eps * (11 / 10 * (P * Bval z))) by (apply Rmult_le_compat_l; lra). assert (Y : 0 <= eps * (P * Bval z)) by (apply Rmult_le_pos; lra). apply abs_le. lra.
Qed.
Lemma area_ap (l h w : b64) : bfin l = true -> bfin h = true -> bfin w = true -> side (Bval l) -> side (Bval h) -> side (Bval w) ->
  let a := nmul (nofZ 2) (nadd (nadd (nmul w l) (nmul h l)) (nmul h w)) in let S := 2 * (Bval w * Bval l + Bval h * Bval l + Bval h * Bval w) in
  bfin a = true /\ Rabs (Bval a - S) <= 5 * eps * S.
Proof.
  intros Fl Fh Fw Hl Hh Hw. destruct (prod2 Fw Fl Hw Hl) as [F1 E1]. destruct (prod2 Fh Fl Hh Hl) as [F2 E2]. destruct (prod2 Fh Fw Hh Hw) as [F3 E3].
  pose proof (side_mul Hw Hl) as S1. pose proof (side_mul Hh Hl) as S2. pose proof (side_mul Hh Hw) as S3. pose proof eps_pos as P0. pose proof eps_small as S0.
  set (x := nmul w l) in *. set (y := nmul h l) in *. set (z := nmul h w) in *. set (X := Bval w * Bval l) in *. set (Y := Bval h * Bval l) in *. set (Z := Bval h * Bval w) in *.
  pose proof (bpow_gt_0 radix2 (-600)) as B0. assert (B1 : bpow radix2 10 * bpow radix2 600 <= bpow radix2 900) by (rewrite <- bpow_plus; apply bpow_le; lia). change (bpow radix2 10) with 1024 in B1. assert (B2 : bpow radix2 900 <= bpow radix2 1000) by (apply bpow_le; lia). pose proof (bpow_gt_0 radix2 600) as B3.
  assert (PX : 0 <= X <= bpow radix2 600) by (destruct S1; lra). assert (PY : 0 <= Y <= bpow radix2 600) by (destruct S2; lra). assert (PZ : 0 <= Z <= bpow radix2 600) by (destruct S3; lra).
  assert (SM : forall q, 0 <= q -> 0 <= eps * q <= q / 1000000) by (intros q Hq; split; [apply Rmult_le_pos; lra|apply Rle_trans with (/ 1000000000000 * q); [apply Rmult_le_compat_r; lra|lra]]).
  pose proof (SM X (Logic.proj1 PX)) as KX. pose proof (SM Y (Logic.proj1 PY)) as KY. pose proof (SM Z (Logic.proj1 PZ)) as KZ. apply abs_le in E1, E2, E3.
  destruct (@add_rel x y F1 F2) as [F4 E4]; [apply abs_le; lra|]. rewrite (Rabs_pos_eq (Bval x + Bval y)) in E4 by lra. set (s := nadd x y) in *. pose proof (SM (Bval x + Bval y) ltac:(lra)) as KS. apply abs_le in E4.
  assert (U4 : eps * (Bval x + Bval y) <= eps * (101 / 100 * (X + Y))) by (apply Rmult_le_compat_l; lra).
  destruct (@add_rel s z F4 F3) as [F5 E5]; [apply abs_le; lra|]. rewrite (Rabs_pos_eq (Bval s + Bval z)) in E5 by lra. set (t := nadd s z) in *. pose proof (SM (Bval s + Bval z) ltac:(lra)) as KT. apply abs_le in E5.
  assert (U5 : eps * (Bval s + Bval z) <= eps * (101 / 100 * (X + Y + Z))) by (apply Rmult_le_compat_l; lra).
  assert (T2 : bfin (nofZ 2) = true) by (vm_compute; reflexivity). destruct (@mul_rel (nofZ 2) t T2 F5) as [F6 E6]; rewrite ?B2_val in *.
  { apply plain_of. destruct S1 as [S1|S1]; [destruct S2 as [S2|S2]; [destruct S3 as [S3|S3]|]|].
    - left. rewrite S1, S2, S3 in *. lra.
    - right. assert (B4 : bpow radix2 (-950) <= bpow radix2 (-600)) by (apply bpow_le; lia). assert (B5 : bpow radix2 900 <= bpow radix2 950) by (apply bpow_le; lia). lra.
    - right. assert (B4 : bpow radix2 (-950) <= bpow radix2 (-600)) by (apply bpow_le; lia). assert (B5 : bpow radix2 900 <= bpow radix2 950) by (apply bpow_le; lia). lra.
    - right. assert (B4 : bpow radix2 (-950) <= bpow radix2 (-600)) by (apply bpow_le; lia). assert (B5 : bpow radix2 900 <= bpow radix2 950) by (apply bpow_le; lia). lra. }
  rewrite (Rabs_pos_eq (2 * Bval t)) in E6 by lra. assert (U6 : eps * (2 * Bval t) <= eps * (202 / 100 * (X + Y + Z))) by (apply Rmult_le_compat_l; lra). apply abs_le in E6.
  cbn zeta. split; [exact F6|]. apply abs_le. lra.
Qed.
Lemma max_ap (o s : b64) : bfin o = true -> bfin s = true -> Rabs (Bval o) <= bpow radix2 900 -> Rabs (Bval s) <= bpow radix2 900 -> bfin (nadd o s) = true /\ Rabs (Bval (nadd o s) - (Bval o + Bval s)) <= eps * Rabs (Bval o + Bval s).
Proof.
  intros Fo Fs Ho Hs. apply add_rel; auto. apply abs_le in Ho, Hs. assert (bpow radix2 1 * bpow radix2 900 <= bpow radix2 1000) by (rewrite <- bpow_plus; apply bpow_le; lia). change (bpow radix2 1) with 2 in H. apply abs_le. lra.
Qed.
Lemma half_exact (s : b64) : bfin s = true -> Bval s = 0 \/ bpow radix2 (-1000) <= Bval s -> Bval s <= bpow radix2 900 -> bfin (ndiv s (nofZ 2)) = true /\ Bval (ndiv s (nofZ 2)) = Bval s / 2.
Proof.
  intros Fs H U. pose proof (bpow_gt_0 radix2 (-1000)) as P. pose proof (bpow_gt_0 radix2 900) as P9. assert (P0 : 0 <= Bval s) by (destruct H; lra).
  assert (B : bpow radix2 900 <= bpow radix2 1000) by (apply bpow_le; lia).
  change (ndiv s (nofZ 2)) with (bdiv s (bofZ 2)). destruct (@bdiv_val s (bofZ 2) Fs) as [V F]; change (Bval (bofZ 2)) with (Bval (nofZ 2)) in *; rewrite ?B2_val in *; [lra|rewrite Rabs_pos_eq; lra|].
  split; [exact F|]. rewrite V. destruct H as [->|H]; [unfold Rdiv; rewrite Rmult_0_l; apply rnd64_0|].
  unfold rnd64. apply round_generic; [typeclasses eauto|]. change (Bval s / 2) with (Bval s * bpow radix2 (-1)). apply mult_bpow_exact_FLT; [apply rnd_id_fmt, rnd64_B|].
  assert (M : (-999 <= mag radix2 (Bval s))%Z) by (apply mag_ge_bpow; rewrite Rabs_pos_eq by lra; exact H). lia.
Qed.
