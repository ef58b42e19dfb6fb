(** * Rewriting lemmas for the exact instance [xr]. *)
From Coq Require Import Reals ZArith List Bool Lra Lia.
From Flocq Require Import Core.Raux Core.Generic_fmt Core.Round_NE.
From Verif Require Import Num.
Import ListNotations.
Local Open Scope R_scope.

Lemma xadd a b : nadd (Fin a) (Fin b) = Fin (a + b). Proof. reflexivity. Qed.
Lemma xsub a b : nsub (Fin a) (Fin b) = Fin (a - b). Proof. reflexivity. Qed.
Lemma xmul a b : nmul (Fin a) (Fin b) = Fin (a * b). Proof. reflexivity. Qed.
Lemma xopp a : nopp (Fin a) = Fin (- a). Proof. reflexivity. Qed.
Lemma xabs a : nabs (Fin a) = Fin (Rabs a). Proof. reflexivity. Qed.
Lemma xofZ z : nofZ z = Fin (IZR z). Proof. reflexivity. Qed.
Lemma xlit n d : nlit n d = Fin (IZR n / IZR (Zpos d)). Proof. reflexivity. Qed.
Lemma xlt a b : nlt (Fin a) (Fin b) = Rlt_bool a b. Proof. reflexivity. Qed.
Lemma xle a b : nle (Fin a) (Fin b) = Rle_bool a b. Proof. reflexivity. Qed.
Lemma xeqb a b : neqb (Fin a) (Fin b) = Req_bool a b. Proof. reflexivity. Qed.
Lemma xround a : nround (Fin a) = Some (ZnearestE a). Proof. reflexivity. Qed.
Lemma xceil a : nceil (Fin a) = Some (Zceil a). Proof. reflexivity. Qed.
Lemma xfinite a : nfinite (Fin a) = true. Proof. reflexivity. Qed.
#[export] Hint Rewrite xadd xsub xmul xopp xabs xofZ xlit xlt xle xeqb xround xceil xfinite : xr.

Lemma xdivE a b : b <> 0 -> ndiv (Fin a) (Fin b) = Fin (a / b).
Proof. intros H. cbn. rewrite Req_bool_false; auto. Qed.
Lemma xdiv0 a : ndiv (Fin a) (Fin 0) = NaN.
Proof. cbn. rewrite Req_bool_true; auto. Qed.
Lemma xsqrtE a : 0 <= a -> nsqrt (Fin a) = Fin (sqrt a).
Proof. intros H. cbn. rewrite Rlt_bool_false; auto. Qed.
Lemma xpydivE a b : b <> 0 -> pydiv (Fin a) (Fin b) = Ok (Fin (a / b)).
Proof. intros H. unfold pydiv. rewrite xofZ, xeqb, Req_bool_false by auto. now rewrite xdivE. Qed.
Lemma xpydiv0 a : pydiv (Fin a) (Fin 0) = Err ZeroDivisionError.
Proof. unfold pydiv. rewrite xofZ, xeqb, Req_bool_true by auto. reflexivity. Qed.

Ltac xs := autorewrite with xr in *.
Ltac xdec :=
  repeat match goal with
  | |- context [Rlt_bool ?a ?b] => destruct (Rlt_bool_spec a b)
  | |- context [Rle_bool ?a ?b] => destruct (Rle_bool_spec a b)
  | |- context [Req_bool ?a ?b] => destruct (Req_bool_spec a b)
  | H : context [Rlt_bool ?a ?b] |- _ => destruct (Rlt_bool_spec a b)
  | H : context [Rle_bool ?a ?b] |- _ => destruct (Rle_bool_spec a b)
  | H : context [Req_bool ?a ?b] |- _ => destruct (Req_bool_spec a b)
  end.
