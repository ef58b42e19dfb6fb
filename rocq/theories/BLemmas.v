(** * Facts about the binary64 instance, in terms of real numbers. *)
From Coq Require Import Reals ZArith List Bool Lra Lia.
From Flocq Require Import Core IEEE754.BinarySingleNaN Relative.
From Verif Require Import Num B64.
Local Open Scope R_scope.
Set Implicit Arguments.
Unset Strict Implicit.

(** The real value of a double (0 for infinities and NaN). *)
Definition Bval (x : b64) : R := B2R x.
Definition bfin (x : b64) : bool := is_finite x.

Definition rnd64 (x : R) : R := round radix2 (FLT_exp (-1074) 53) ZnearestE x.
Definition u64 : R := bpow radix2 (-53).

Lemma fexp_FLT e : SpecFloat.fexp 53 1024 e = FLT_exp (-1074) 53 e.
Proof. reflexivity. Qed.
Lemma round_eq x : round radix2 (SpecFloat.fexp 53 1024) (round_mode mode_NE) x = rnd64 x.
Proof. reflexivity. Qed.

#[global] Instance prec53 : Prec_gt_0 53. Proof. reflexivity. Qed.
#[global] Instance vexp : Valid_exp (FLT_exp (-1074) 53).
Proof. apply FLT_exp_valid. reflexivity. Qed.

Lemma rnd64_le x y : x <= y -> rnd64 x <= rnd64 y.
Proof. intros H. apply round_le; auto; typeclasses eauto. Qed.
Lemma rnd64_0 : rnd64 0 = 0.
Proof. apply round_0. typeclasses eauto. Qed.
Lemma rnd64_opp x : rnd64 (- x) = - rnd64 x.
Proof. apply round_NE_opp. Qed.
Lemma rnd64_B x : rnd64 (Bval x) = Bval x.
Proof.
  apply round_generic; [typeclasses eauto|]. exact (generic_format_B2R 53 1024 x).
Qed.

Lemma rnd64_pow x e : (-1074 <= e)%Z -> Rabs x <= bpow radix2 e -> Rabs (rnd64 x) <= bpow radix2 e.
Proof.
  intros He Hx. apply abs_round_le_generic; auto; try typeclasses eauto.
  apply generic_format_bpow. unfold FLT_exp. lia.
Qed.

Lemma rnd64_rel x : bpow radix2 (-1022) <= Rabs x ->
  exists d, Rabs d <= u64 /\ rnd64 x = x * (1 + d).
Proof.
  intros H. unfold rnd64, u64.
  destruct (relative_error_N_FLT_ex radix2 (-1074) 53 eq_refl (fun x => negb (Z.even x)) x) as [d [Hd E]]; auto.
  exists d. split; auto. eapply Rle_trans; [exact Hd|].
  change (bpow radix2 (-53)) with (/ IZR (2 ^ 53)). change (bpow radix2 (-53 + 1)) with (/ IZR (2 ^ 52)).
  simpl. lra.
Qed.

Lemma bound_lt x : Rabs x <= bpow radix2 1000 -> Rlt_bool (Rabs (rnd64 x)) (bpow radix2 1024) = true.
Proof.
  intros H. apply Rlt_bool_true. eapply Rle_lt_trans; [apply rnd64_pow; [|exact H]; lia|].
  apply bpow_lt. lia.
Qed.

Lemma bmul_val x y : bfin x = true -> bfin y = true -> Rabs (Bval x * Bval y) <= bpow radix2 1000 ->
  Bval (bmul x y) = rnd64 (Bval x * Bval y) /\ bfin (bmul x y) = true.
Proof.
  intros Fx Fy H. unfold bmul, Bval, bfin in *.
  pose proof (@Bmult_correct 53 1024 prec_gt_0_53 prec_lt_emax_53 mode_NE x y) as C.
  rewrite round_eq, (bound_lt H) in C. destruct C as (A&B&_). rewrite Fx, Fy in B. auto.
Qed.

Lemma bdiv_val x y : bfin x = true -> Bval y <> 0 -> Rabs (Bval x / Bval y) <= bpow radix2 1000 ->
  Bval (bdiv x y) = rnd64 (Bval x / Bval y) /\ bfin (bdiv x y) = true.
Proof.
  intros Fx Fy H. unfold bdiv, Bval, bfin in *.
  pose proof (@Bdiv_correct 53 1024 prec_gt_0_53 prec_lt_emax_53 mode_NE x y Fy) as C.
  rewrite round_eq, (bound_lt H) in C. destruct C as (A&B&_). rewrite Fx in B. auto.
Qed.

Lemma badd_val x y : bfin x = true -> bfin y = true -> Rabs (Bval x + Bval y) <= bpow radix2 1000 ->
  Bval (badd x y) = rnd64 (Bval x + Bval y) /\ bfin (badd x y) = true.
Proof.
  intros Fx Fy H. unfold badd, Bval, bfin in *.
  pose proof (@Bplus_correct 53 1024 prec_gt_0_53 prec_lt_emax_53 mode_NE x y Fx Fy) as C.
  rewrite round_eq, (bound_lt H) in C. destruct C as (A&B&_). auto.
Qed.
Lemma bsub_val x y : bfin x = true -> bfin y = true -> Rabs (Bval x - Bval y) <= bpow radix2 1000 ->
  Bval (bsub x y) = rnd64 (Bval x - Bval y) /\ bfin (bsub x y) = true.
Proof.
  intros Fx Fy H. unfold bsub, Bval, bfin in *.
  pose proof (@Bminus_correct 53 1024 prec_gt_0_53 prec_lt_emax_53 mode_NE x y Fx Fy) as C.
  rewrite round_eq, (bound_lt H) in C. destruct C as (A&B&_). auto.
Qed.

Lemma blt_spec x y : bfin x = true -> bfin y = true -> nlt x y = Rlt_bool (Bval x) (Bval y).
Proof. intros. apply (Bltb_correct 53 1024); auto. Qed.
Lemma ble_spec x y : bfin x = true -> bfin y = true -> nle x y = Rle_bool (Bval x) (Bval y).
Proof. intros. apply (Bleb_correct 53 1024); auto. Qed.
Lemma beq_spec x y : bfin x = true -> bfin y = true -> neqb x y = Req_bool (Bval x) (Bval y).
Proof. intros. apply (Beqb_correct 53 1024); auto. Qed.

(** Real value from mantissa and exponent. *)
Lemma Bval_me x m e : b64_me x = Some (m, e) -> Bval x = IZR m * bpow radix2 e.
Proof.
  destruct x as [s|s| |s p q H]; cbn; try discriminate; intros [= <- <-].
  - lra.
  - unfold F2R. cbn. auto.
Qed.
Lemma bfin_me x me : b64_me x = Some me -> bfin x = true.
Proof. destruct x; cbn; congruence. Qed.
