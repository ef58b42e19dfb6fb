(** * Lower bounds for computations in binary64 that may overflow. *)
From Coq Require Import Reals ZArith List Bool Lra Lia Psatz.
From Flocq Require Import Core IEEE754.BinarySingleNaN Relative.
From Verif Require Import Num B64 BLemmas Vec RVec PErr.
Local Open Scope R_scope.
Set Implicit Arguments.
Unset Strict Implicit.

Definition sg (s : bool) : R := if s then -1 else 1.
(** [x], infinite or not, is at least [L] away from zero on the side of the sign bit [s] *)
Definition far (s : bool) (x : b64) (L : R) : Prop := x = B754_infinity s \/ (bfin x = true /\ L <= sg s * Bval x).
Lemma far_mono s x L L' : far s x L -> L' <= L -> far s x L'.
Proof. intros [H|[H1 H2]] HL; [now left|right; split; [auto|lra]]. Qed.
Lemma rnd_sg s x : rnd64 (sg s * x) = sg s * rnd64 x.
Proof. destruct s; cbn [sg]; [replace (-1 * x) with (- x) by ring; rewrite rnd64_opp; ring|now rewrite !Rmult_1_l]. Qed.
Lemma sg_xorb s r x y : sg (xorb s r) * (x * y) = (sg s * x) * (sg r * y).
Proof. destruct s, r; cbn [xorb sg]; ring. Qed.
Lemma sign_of x s : bfin x = true -> 0 < sg s * Bval x -> Bsign x = s.
Proof.
  unfold bfin, Bval. destruct x as [b|b| |b m e H]; cbn [is_finite B2R Bsign]; intros F P; try discriminate; try lra.
  destruct b, s; auto; exfalso; cbn [sg cond_Zopp] in P.
  - assert (Q : F2R (Float radix2 (Z.neg m) e) < 0) by (now apply F2R_lt_0). unfold F2R in *. cbn in *. lra.
  - assert (Q : 0 < F2R (Float radix2 (Z.pos m) e)) by (now apply F2R_gt_0). unfold F2R in *. cbn in *. lra.
Qed.
Lemma overflow_inf (x : b64) s : B2SF x = binary_overflow 53 1024 mode_NE s -> x = B754_infinity s.
Proof. destruct x as [b|b| |b m e H]; cbn; try discriminate. now intros [= ->]. Qed.

Lemma mul_far s r x y L : far s x L -> 0 < L -> bfin y = true -> 0 < sg r * Bval y -> far (xorb s r) (nmul x y) (rnd64 (L * (sg r * Bval y))).
Proof.
  intros H PL Fy Py. change (nmul x y) with (bmul x y). pose proof (sign_of Fy Py) as Sy. destruct H as [->|[Fx Lx]].
  - left. unfold bmul. destruct y as [b|b| |b m e Hm]; cbn in Fy; try discriminate; [unfold Bval in Py; cbn in Py; lra|]. cbn in Sy. subst b. reflexivity.
  - pose proof (sign_of Fx (Rlt_le_trans _ _ _ PL Lx)) as Sx.
    pose proof (@Bmult_correct 53 1024 prec_gt_0_53 prec_lt_emax_53 mode_NE x y) as C. rewrite round_eq in C. fold (Bval x) (Bval y) in C.
    destruct (Rlt_bool _ _).
    + destruct C as (A & B & _). right. unfold bfin, Bval, bmul in *. rewrite B, Fx, Fy. split; [reflexivity|]. rewrite A, <- rnd_sg. apply rnd64_le. rewrite sg_xorb. apply Rmult_le_compat_r; lra.
    + left. rewrite Sx, Sy in C. now apply overflow_inf.
Qed.
Lemma div_far s r x y : bfin x = true -> bfin y = true -> 0 < sg s * Bval x -> 0 < sg r * Bval y -> far (xorb s r) (ndiv x y) (rnd64 ((sg s * Bval x) / (sg r * Bval y))).
Proof.
  intros Fx Fy Px Py. change (ndiv x y) with (bdiv x y). pose proof (sign_of Fy Py) as Sy. pose proof (sign_of Fx Px) as Sx.
  assert (NZ : Bval y <> 0) by (intros E; rewrite E in Py; lra).
  pose proof (@Bdiv_correct 53 1024 prec_gt_0_53 prec_lt_emax_53 mode_NE x y NZ) as C. rewrite round_eq in C. fold (Bval x) (Bval y) in C.
  destruct (Rlt_bool _ _).
  - destruct C as (A & B & _). right. unfold bfin, Bval, bdiv in *. rewrite B, Fx. split; [reflexivity|]. rewrite A, <- rnd_sg. apply rnd64_le, Req_le. clear - NZ. destruct s, r; cbn [xorb sg]; field; auto.
  - left. rewrite Sx, Sy in C. now apply overflow_inf.
Qed.
Lemma add_far s x y L : far s x L -> bfin y = true -> Rabs (L + sg s * Bval y) <= bpow radix2 1000 -> far s (nadd x y) (rnd64 (L + sg s * Bval y)).
Proof.
  intros H Fy Hb. change (nadd x y) with (badd x y). destruct H as [->|[Fx Lx]].
  - left. unfold badd. destruct y as [b|b| |b m e Hm]; cbn in Fy; try discriminate; reflexivity.
  - pose proof (@Bplus_correct 53 1024 prec_gt_0_53 prec_lt_emax_53 mode_NE x y Fx Fy) as C. rewrite round_eq in C. fold (Bval x) (Bval y) in C.
    assert (G : rnd64 (L + sg s * Bval y) <= sg s * rnd64 (Bval x + Bval y)) by (rewrite <- rnd_sg; apply rnd64_le; lra).
    destruct (Rlt_bool (Rabs (rnd64 (Bval x + Bval y))) (bpow radix2 1024)) eqn:O.
    + destruct C as (A & B & _). right. unfold bfin, Bval, badd in *. rewrite B. split; [reflexivity|]. rewrite A. exact G.
    + left. destruct C as [C1 C2]. unfold badd. rewrite (overflow_inf C1). f_equal.
      assert (O' : bpow radix2 1024 <= Rabs (rnd64 (Bval x + Bval y))) by (destruct (Rlt_bool_spec (Rabs (rnd64 (Bval x + Bval y))) (bpow radix2 1024)); [discriminate O|auto]).
      assert (R : Rabs (rnd64 (L + sg s * Bval y)) <= bpow radix2 1000) by (apply rnd64_pow; [lia|exact Hb]). apply abs_le in R.
      assert (K : bpow radix2 1000 < bpow radix2 1024) by (apply bpow_lt; lia). pose proof (bpow_gt_0 radix2 1000) as K0.
      assert (P : 0 < sg s * rnd64 (Bval x + Bval y)).
      { revert O' G R. generalize (rnd64 (L + sg s * Bval y)). intros z. clear - K K0. destruct s; cbn [sg]; unfold Rabs; destruct (Rcase_abs _); intros; lra. }
      assert (Q : 0 < sg s * (Bval x + Bval y)).
      { rewrite <- rnd_sg in P. destruct (Rlt_le_dec 0 (sg s * (Bval x + Bval y))) as [|Z]; [auto|]. apply rnd64_le in Z. rewrite rnd64_0 in Z. lra. }
      destruct (Rlt_le_dec 0 (sg s * Bval x)) as [Px|Px]; [now apply sign_of|]. assert (Py : 0 < sg s * Bval y) by lra. rewrite C2. now apply sign_of.
Qed.
Lemma far_lt s x a L : far s x L -> bfin a = true -> sg s * Bval a < L -> (if s then nlt x a else nlt a x) = true.
Proof.
  intros [->|[Fx Lx]] Fa H.
  - destruct a as [b|b| |b m e Hm]; cbn in Fa; try discriminate; destruct s; reflexivity.
  - destruct s; rewrite blt_spec by auto; apply Rlt_bool_true; cbn [sg] in *; lra.
Qed.
Lemma rnd_low z : bpow radix2 (-1022) <= z -> (1 - eps) * z <= rnd64 z.
Proof. intros H. pose proof (bpow_gt_0 radix2 (-1022)). assert (E : Rabs (rnd64 z - z) <= eps * z) by (apply rnd_err; [auto|rewrite Rabs_pos_eq; lra]). apply abs_le in E. lra. Qed.
