(** * IEEE 754 double precision as a [Num] instance (via Flocq).

    CPython floats and numpy float64 scalars are IEEE binary64 with
    round-to-nearest-even.  Flocq's [binary_float 53 1024] with a single NaN is
    used; NaN payloads are not modelled. *)
From Coq Require Import ZArith List Bool Lia.
From Flocq Require Import Core.Raux IEEE754.BinarySingleNaN.
From Verif Require Import Num.

Definition b64 := binary_float 53 1024.

Lemma prec_gt_0_53 : Core.FLX.Prec_gt_0 53.
Proof. reflexivity. Qed.
Lemma prec_lt_emax_53 : Prec_lt_emax 53 1024.
Proof. reflexivity. Qed.

Definition badd : b64 -> b64 -> b64 := @Bplus 53 1024 prec_gt_0_53 prec_lt_emax_53 mode_NE.
Definition bsub : b64 -> b64 -> b64 := @Bminus 53 1024 prec_gt_0_53 prec_lt_emax_53 mode_NE.
Definition bmul : b64 -> b64 -> b64 := @Bmult 53 1024 prec_gt_0_53 prec_lt_emax_53 mode_NE.
Definition bdiv : b64 -> b64 -> b64 := @Bdiv 53 1024 prec_gt_0_53 prec_lt_emax_53 mode_NE.
Definition bsqrt : b64 -> b64 := @Bsqrt 53 1024 prec_gt_0_53 prec_lt_emax_53 mode_NE.
Definition bopp : b64 -> b64 := @Bopp 53 1024.
Definition babs : b64 -> b64 := @Babs 53 1024.
Definition bofZ (z : Z) : b64 :=
  binary_normalize 53 1024 prec_gt_0_53 prec_lt_emax_53 mode_NE z 0 false.
(** A decimal literal [n/d] with [|n|, d < 2^53] is the correctly rounded
    quotient of two exact doubles, which is what CPython's parser returns. *)
Definition blit (n : Z) (d : positive) : b64 := bdiv (bofZ n) (bofZ (Zpos d)).

(** ceil / round-half-even of [m * 2^e], on integers. *)
Definition zceil_pow (m e : Z) : Z :=
  if (0 <=? e)%Z then (m * 2 ^ e)%Z else (- ((- m) / 2 ^ (- e)))%Z.
Definition zround_pow (m e : Z) : Z :=
  if (0 <=? e)%Z then (m * 2 ^ e)%Z
  else let p := (2 ^ (- e))%Z in
       let q := (m / p)%Z in
       let r := (m mod p)%Z in
       match (2 * r ?= p)%Z with
       | Lt => q
       | Gt => (q + 1)%Z
       | Eq => if Z.even q then q else (q + 1)%Z
       end.
Definition b64_int (f : Z -> Z -> Z) (x : b64) : option Z :=
  match x with
  | B754_zero _ => Some 0%Z
  | B754_finite s m e _ => Some (f (SpecFloat.cond_Zopp s (Zpos m)) e)
  | _ => None
  end.

#[global] Instance b64_num : Num b64 := {
  nadd := badd;
  nsub := bsub;
  nmul := bmul;
  ndiv := bdiv;
  nopp := bopp;
  nabs := babs;
  nsqrt := bsqrt;
  nofZ := bofZ;
  nlit := blit;
  nlt := @Bltb 53 1024;
  nle := @Bleb 53 1024;
  neqb := @Beqb 53 1024;
  nfinite := @is_finite 53 1024;
  nceil := b64_int zceil_pow;
  nround := b64_int zround_pow
}.

(** Read-out used by [Example]s: mantissa and exponent of a finite double. *)
Definition b64_me (x : b64) : option (Z * Z) :=
  match x with
  | B754_zero _ => Some (0, 0)%Z
  | B754_finite s m e _ => Some (SpecFloat.cond_Zopp s (Zpos m), e)
  | _ => None
  end.
