(** * Rounding errors of short computations in binary64. *)
From Coq Require Import Reals ZArith List Bool Lra Lia Psatz.
From Flocq Require Import Core IEEE754.BinarySingleNaN Relative Plus_error.
From Verif Require Import Num B64 BLemmas Vec RVec SpecDouble.
Local Open Scope R_scope.
Set Implicit Arguments.
Unset Strict Implicit.

(** twice the unit roundoff *)
Definition eps : R := bpow radix2 (-52).
Lemma eps_val : eps = / 4503599627370496.
Proof. unfold eps. reflexivity. Qed.
Lemma eps_pos : 0 < eps.
Proof. rewrite eps_val. lra. Qed.
Lemma eps_small : eps <= / 1000000000000.
Proof. rewrite eps_val. lra. Qed.
Definition mid (B : R) : Prop := bpow radix2 (-1000) <= B <= bpow radix2 1000.
Lemma mid_pos B : mid B -> 0 < B.
Proof. intros [H _]. pose proof (bpow_gt_0 radix2 (-1000)). lra. Qed.

Lemma rnd_err z B : bpow radix2 (-1022) <= B -> Rabs z <= B -> Rabs (rnd64 z - z) <= eps * B.
Proof.
  intros HB Hz. pose proof (bpow_gt_0 radix2 (-1022)) as P0. assert (P : 0 < B) by lra. unfold rnd64.
  apply Rle_trans with (1 := error_le_half_ulp radix2 (FLT_exp (-1074) 53) (fun x => negb (Z.even x)) z).
  assert (U : ulp radix2 (FLT_exp (-1074) 53) z <= ulp radix2 (FLT_exp (-1074) 53) B) by (apply ulp_le; [typeclasses eauto|typeclasses eauto|rewrite (Rabs_pos_eq B) by lra; exact Hz]).
  assert (V : ulp radix2 (FLT_exp (-1074) 53) B <= Rabs B * bpow radix2 (1 - 53)).
  { apply ulp_FLT_le. rewrite Rabs_pos_eq by lra. apply Rle_trans with (2 := HB). apply bpow_le. lia. }
  rewrite Rabs_pos_eq in V by lra. change (bpow radix2 (1 - 53)) with eps in V. pose proof eps_pos. nra.
Qed.

Section Ops.
Context (x y : b64) (B : R) (Fx : bfin x = true) (Fy : bfin y = true) (HB : mid B).
Lemma mid_low : bpow radix2 (-1022) <= B.
Proof. destruct HB as [H _]. apply Rle_trans with (2 := H). apply bpow_le. lia. Qed.
Lemma add_ap : Rabs (Bval x + Bval y) <= B -> bfin (nadd x y) = true /\ Rabs (Bval (nadd x y) - (Bval x + Bval y)) <= eps * B.
Proof. intros H. destruct HB. change (nadd x y) with (badd x y). destruct (@badd_val x y) as [-> ->]; auto; [lra|]. split; [reflexivity|apply rnd_err; [apply mid_low|exact H]]. Qed.
Lemma sub_ap : Rabs (Bval x - Bval y) <= B -> bfin (nsub x y) = true /\ Rabs (Bval (nsub x y) - (Bval x - Bval y)) <= eps * B.
Proof. intros H. destruct HB. change (nsub x y) with (bsub x y). destruct (@bsub_val x y) as [-> ->]; auto; [lra|]. split; [reflexivity|apply rnd_err; [apply mid_low|exact H]]. Qed.
Lemma mul_ap : Rabs (Bval x * Bval y) <= B -> bfin (nmul x y) = true /\ Rabs (Bval (nmul x y) - Bval x * Bval y) <= eps * B.
Proof. intros H. destruct HB. change (nmul x y) with (bmul x y). destruct (@bmul_val x y) as [-> ->]; auto; [lra|]. split; [reflexivity|apply rnd_err; [apply mid_low|exact H]]. Qed.
Lemma div_ap : Bval y <> 0 -> Rabs (Bval x / Bval y) <= B -> bfin (ndiv x y) = true /\ Rabs (Bval (ndiv x y) - Bval x / Bval y) <= eps * B.
Proof. intros Hy H. destruct HB. change (ndiv x y) with (bdiv x y). destruct (@bdiv_val x y) as [-> ->]; auto; [lra|]. split; [reflexivity|apply rnd_err; [apply mid_low|exact H]]. Qed.
End Ops.

Lemma within_fin X v : within X v -> bfin (c0 v) = true /\ bfin (c1 v) = true /\ bfin (c2 v) = true.
Proof. intros [H _]. unfold fin3b in H. apply andb_prop in H. destruct H as [H ?]. apply andb_prop in H. tauto. Qed.

Lemma abs_le x B : Rabs x <= B <-> - B <= x <= B.
Proof. split; [apply Rabs_le_inv|apply Rabs_le]. Qed.
Lemma mul_bound x y X Y : 0 <= X -> 0 <= Y -> Rabs x <= X -> Rabs y <= Y -> Rabs (x * y) <= X * Y.
Proof. intros. rewrite Rabs_mult. apply Rmult_le_compat; auto using Rabs_pos. Qed.

Definition rel (X : R) : Prop := bpow radix2 (-900) <= X <= bpow radix2 900.
Lemma rel_mid X k : rel X -> 1 <= k <= 1000 -> mid (k * X).
Proof.
  intros [L U] [K1 K2]. assert (A : bpow radix2 (-1000) <= bpow radix2 (-900)) by (apply bpow_le; lia).
  assert (B : 1000 * bpow radix2 900 <= bpow radix2 1000).
  { replace (bpow radix2 1000) with (bpow radix2 100 * bpow radix2 900) by (rewrite <- bpow_plus; reflexivity).
    apply Rmult_le_compat_r; [apply bpow_ge_0|]. apply Rle_trans with (bpow radix2 10); [change (1000 <= IZR (2 ^ 10)); apply IZR_le; vm_compute; discriminate|apply bpow_le; lia]. }
  pose proof (bpow_gt_0 radix2 (-900)). unfold mid. split; nra.
Qed.
Lemma rel_pos X : rel X -> 0 < X.
Proof. intros [H _]. pose proof (bpow_gt_0 radix2 (-900)). lra. Qed.

Lemma dot_ap X v n : rel X -> within X v -> within 2 n ->
  bfin (vdot v n) = true /\ Rabs (Bval (vdot v n) - rdot (Rval3 v) (Rval3 n)) <= 22 * (eps * X) /\ Rabs (Bval (vdot v n)) <= 7 * X.
Proof.
  intros HX Wv Wn. destruct (within_fin Wv) as (F0 & F1 & F2). destruct (within_fin Wn) as (G0 & G1 & G2).
  destruct Wv as (_ & V0 & V1 & V2), Wn as (_ & N0 & N1 & N2). pose proof (rel_pos HX) as PX. pose proof eps_pos as PE. pose proof eps_small as SE.
  assert (EX : 0 < eps * X) by nra. assert (EX' : eps * X <= X / 1000000) by nra.
  assert (P : forall x y, Rabs x <= X -> Rabs y <= 2 -> Rabs (x * y) <= 2 * X) by (intros x y Hx Hy; rewrite Rmult_comm; apply mul_bound; auto; lra).
  destruct (mul_ap F0 G0 (rel_mid (k := 2) HX ltac:(lra)) (P _ _ V0 N0)) as [P0 E0].
  destruct (mul_ap F1 G1 (rel_mid (k := 2) HX ltac:(lra)) (P _ _ V1 N1)) as [P1 E1].
  destruct (mul_ap F2 G2 (rel_mid (k := 2) HX ltac:(lra)) (P _ _ V2 N2)) as [P2 E2].
  pose proof (P _ _ V0 N0) as B0. pose proof (P _ _ V1 N1) as B1. pose proof (P _ _ V2 N2) as B2.
  apply abs_le in E0, E1, E2, B0, B1, B2.
  destruct (@add_ap _ _ (6 * X) P0 P1) as [S1 E3]; [apply rel_mid; auto; lra|apply abs_le; lra|]. apply abs_le in E3.
  destruct (@add_ap _ _ (10 * X) S1 P2) as [S2 E4]; [apply rel_mid; auto; lra|apply abs_le; lra|]. apply abs_le in E4.
  change (vdot v n) with (nadd (nadd (nmul (c0 v) (c0 n)) (nmul (c1 v) (c1 n))) (nmul (c2 v) (c2 n))).
  split; [exact S2|]. unfold rdot, Rval3, map3. cbn [c0 c1 c2]. split; apply abs_le; lra.
Qed.

(** ** Interpolation stays between its ends *)
Lemma rnd_id_fmt a : rnd64 a = a -> generic_format radix2 (FLT_exp (-1074) 53) a.
Proof. intros <-. apply generic_format_round; typeclasses eauto. Qed.
Lemma lerp_between a b t : rnd64 a = a -> rnd64 b = b -> a <= b -> 0 <= t <= 1 - 60 * eps ->
  a <= rnd64 (rnd64 (t * rnd64 (b - a)) + a) <= b.
Proof.
  intros Fa Fb L [T0 T1]. pose proof eps_pos as PE. pose proof eps_small as SE.
  assert (R0 : 0 <= rnd64 (b - a)) by (rewrite <- rnd64_0; apply rnd64_le; lra).
  assert (Q0 : 0 <= rnd64 (t * rnd64 (b - a))) by (rewrite <- rnd64_0; apply rnd64_le; nra).
  split; [rewrite <- Fa at 1; apply rnd64_le; lra|]. rewrite <- Fb at 2. apply rnd64_le.
  enough (rnd64 (t * rnd64 (b - a)) <= b - a) by lra.
  destruct (Rle_lt_dec (bpow radix2 (-1022)) (b - a)) as [C|C].
  - set (d := b - a) in *. pose proof (bpow_gt_0 radix2 (-1022)). assert (PD : 0 < d) by lra.
    assert (E1 : Rabs (rnd64 d - d) <= eps * d) by (apply rnd_err; [exact C|rewrite Rabs_pos_eq; lra]). apply abs_le in E1.
    assert (U : t * rnd64 d <= (1 - 60 * eps) * ((1 + eps) * d)) by (apply Rmult_le_compat; lra).
    assert (E2 : Rabs (rnd64 (t * rnd64 d) - t * rnd64 d) <= eps * ((1 + eps) * d)).
    { apply rnd_err; [nra|]. rewrite Rabs_pos_eq by nra. apply Rle_trans with (1 := U). assert (0 < (1 + eps) * d) by nra. nra. }
    apply abs_le in E2. assert (K : (1 - 59 * eps) * (1 + eps) <= 1) by nra. assert ((1 - 59 * eps) * (1 + eps) * d <= 1 * d) by (apply Rmult_le_compat_r; lra). lra.
  - assert (G : rnd64 (b - a) = b - a).
    { apply round_generic; [typeclasses eauto|]. unfold Rminus. apply FLT_format_plus_small; [typeclasses eauto|now apply rnd_id_fmt|apply generic_format_opp; now apply rnd_id_fmt|].
      change (b + - a) with (b - a). rewrite Rabs_pos_eq by lra. apply Rlt_le, Rlt_le_trans with (1 := C). apply bpow_le. lia. }
    rewrite G. apply Rle_trans with (rnd64 (b - a)); [apply rnd64_le; nra|lra].
Qed.
Lemma lerp_between' a b t : rnd64 a = a -> rnd64 b = b -> 0 <= t <= 1 - 60 * eps ->
  between a b (rnd64 (rnd64 (t * rnd64 (b - a)) + a)).
Proof.
  intros Fa Fb T. unfold between. destruct (Rle_lt_dec a b) as [L|L].
  - rewrite Rmin_left, Rmax_right by lra. now apply lerp_between.
  - rewrite Rmin_right, Rmax_left by lra. destruct (@lerp_between (- a) (- b) t) as [H1 H2]; [rewrite rnd64_opp; congruence|rewrite rnd64_opp; congruence|lra|exact T|].
    replace (- b - - a) with (- (b - a)) in H1, H2 by ring. rewrite rnd64_opp in H1, H2. replace (t * - rnd64 (b - a)) with (- (t * rnd64 (b - a))) in H1, H2 by ring.
    rewrite rnd64_opp in H1, H2. replace (- rnd64 (t * rnd64 (b - a)) + - a) with (- (rnd64 (t * rnd64 (b - a)) + a)) in H1, H2 by ring. rewrite rnd64_opp in H1, H2. lra.
Qed.
