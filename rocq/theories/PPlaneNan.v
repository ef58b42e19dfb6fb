(** * Rows without intersection, in double precision (C25). *)
From Coq Require Import Reals ZArith List Bool Lia.
From Flocq Require Import Core.Raux IEEE754.BinarySingleNaN.
From Verif Require Import Num B64 Vec NpList MPlane PPlane2.
Import ListNotations.
Set Implicit Arguments.
Unset Strict Implicit.

(** every coordinate differs from itself, as only NaN does *)
Definition all_nan (w : V3 b64) : Prop := neqb (c0 w) (c0 w) = false /\ neqb (c1 w) (c1 w) = false /\ neqb (c2 w) (c2 w) = false.
Lemma nnan_b : (nnan : b64) = B754_nan.
Proof. reflexivity. Qed.
Lemma div_nan (x : b64) : ndiv x B754_nan = B754_nan.
Proof. destruct x; reflexivity. Qed.
Lemma mul_nan (x : b64) : nmul B754_nan x = B754_nan.
Proof. destruct x; reflexivity. Qed.
Lemma add_nan (x : b64) : nadd B754_nan x = B754_nan.
Proof. destruct x; reflexivity. Qed.
Lemma vnan_all : all_nan vnan.
Proof. repeat split; reflexivity. Qed.
Lemma missing_nan (p : plane b64) pts rays : length pts = length rays ->
  (forall k q r, nth_error pts k = Some q -> nth_error rays k = Some r -> line_xsection p q r = None ->
     exists w, nth_error (fst (line_xsections p pts rays)) k = Some w /\ all_nan w) /\
  (forall k q r, nth_error pts k = Some q -> nth_error rays k = Some r -> line_segment_xsection p q r = None ->
     exists w, nth_error (fst (line_segment_xsections p pts rays)) k = Some w /\ all_nan w).
Proof.
  revert rays. induction pts as [|q pts IH]; intros [|r rays]; try discriminate.
  - intros _. split; intros [|k] ? ?; discriminate.
  - intros [= L]. destruct (IH _ L) as [H1 H2]. split.
    + rewrite lxs_cons. destruct (line_xsections p pts rays) as [P V]. intros [|k] q' r'; cbn [nth_error fst].
      * intros [= <-] [= <-]. unfold line_xsection. destruct (vdot r (pl_n p) =? n0)%num eqn:E; [|discriminate]. intros _.
        eexists. split; [reflexivity|]. rewrite ?nnan_b, ?div_nan. destruct r as [a b c], q as [d e f]. unfold vadd, vscale. cbn [c0 c1 c2]. rewrite ?mul_nan, ?add_nan. repeat split; reflexivity.
      * apply H1.
    + rewrite lsxs_cons. destruct (line_segment_xsections p pts rays) as [P V]. intros [|k] q' r'; cbn [nth_error].
      * intros [= <-] [= <-] ->. eexists. split; [reflexivity|apply vnan_all].
      * intros A B C. destruct (H2 k q' r' A B C) as (w & W & N). exists w. split; auto. destruct (line_segment_xsection p q r); exact W.
Qed.
