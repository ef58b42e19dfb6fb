(** * Algebra of real 3x3 matrices and rotations. *)
From Coq Require Import Reals ZArith List Bool Lra Lia Psatz.
From Verif Require Import Num XLemmas Vec RVec VLemmas.
Import ListNotations.
Local Open Scope R_scope.
Set Implicit Arguments.
Unset Strict Implicit.

Lemma M3_eq (a b : M3 R) : c0 a = c0 b -> c1 a = c1 b -> c2 a = c2 b -> a = b.
Proof. apply V3_eq. Qed.
Lemma finm_inj (a b : M3 R) : finm a = finm b -> a = b.
Proof.
  destruct a as [[a00 a01 a02] [a10 a11 a12] [a20 a21 a22]], b as [[b00 b01 b02] [b10 b11 b12] [b20 b21 b22]].
  intros E. unfold finm, fin3, map3 in E. cbn [c0 c1 c2] in E. injection E as -> -> -> -> -> -> -> -> ->. reflexivity.
Qed.
Lemma rcross_anti a b : rcross a b = rscale (-1) (rcross b a). Proof. vring. Qed.
Lemma rdet_rows a b c : rdet (mk3 a b c) = rdot a (rcross b c). Proof. vring. Qed.
Lemma rdot_cross_cyc a b c : rdot a (rcross b c) = rdot b (rcross c a). Proof. vring. Qed.
Lemma rsub_self_0 a b : rdot (rsub a b) (rsub a b) = 0 -> a = b.
Proof.
  intros H. apply rdot_self_0 in H. apply V3_eq; [assert (c0 (rsub a b) = 0) by now rewrite H|assert (c1 (rsub a b) = 0) by now rewrite H|assert (c2 (rsub a b) = 0) by now rewrite H];
  cbn in *; lra.
Qed.
(** the third vector of a right-handed orthonormal frame *)
Lemma frame_cross a b c : rdot a a = 1 -> rdot b b = 1 -> rdot c c = 1 -> rdot a b = 0 ->
  rdot a (rcross b c) = 1 -> rcross a b = c.
Proof.
  intros Ha Hb Hc Hab D. apply rsub_self_0. autorewrite with rdot. rewrite lagrange, Ha, Hb, Hc, Hab.
  assert (E1 : rdot (rcross a b) c = 1) by (rewrite rdot_sym, rdot_cross_cyc; exact D).
  rewrite ?(rdot_sym c (rcross a b)), ?E1. lra.
Qed.
Lemma grassmann v a b c :
  radd (radd (rscale (rdot v a) (rcross b c)) (rscale (rdot v b) (rcross c a))) (rscale (rdot v c) (rcross a b))
  = rscale (rdot a (rcross b c)) v.
Proof. vring. Qed.
Lemma rotation_intro a b c : rdot a a = 1 -> rdot b b = 1 -> rdot c c = 1 -> rdot a b = 0 -> rdot a c = 0 -> rdot b c = 0 ->
  rdot a (rcross b c) = 1 -> rotation (mk3 a b c).
Proof.
  intros Ha Hb Hc Hab Hac Hbc D. split; [|now rewrite rdet_rows]. split.
  - unfold rmmul, rtrans, reye, rcol0, rcol1, rcol2. cbn [c0 c1 c2].
    assert (E : forall v : V3 R, mk3 (c0 v) (c1 v) (c2 v) = v) by now intros [].
    rewrite !E, Ha, Hb, Hc, (rdot_sym b a), (rdot_sym c a), (rdot_sym c b), Hab, Hac, Hbc. reflexivity.
  - assert (C1 : rcross a b = c) by now apply frame_cross.
    assert (C2 : rcross b c = a) by (apply frame_cross; auto; now rewrite <- rdot_cross_cyc).
    assert (C3 : rcross c a = b) by (apply frame_cross; auto; [now rewrite rdot_sym|now rewrite rdot_cross_cyc]).
    assert (G : forall v, radd (radd (rscale (rdot v a) a) (rscale (rdot v b) b)) (rscale (rdot v c) c) = v).
    { intros v. pose proof (grassmann v a b c) as G. rewrite D, C1, C2, C3, rscale_1 in G. exact G. }
    pose proof (G (mk3 1 0 0)) as G0. pose proof (G (mk3 0 1 0)) as G1. pose proof (G (mk3 0 0 1)) as G2. clear -G0 G1 G2.
    destruct a as [a0 a1 a2], b as [b0 b1 b2], c as [c0' c1' c2']. vunf. cbn [c0 c1 c2] in *.
    injection G0 as E1 E2 E3. injection G1 as E4 E5 E6. injection G2 as E7 E8 E9.
    unfold reye. f_equal; f_equal; lra.
Qed.
(** what a rotation gives *)
Record rot_facts (a b c : V3 R) : Prop := {
  rf_aa : rdot a a = 1; rf_bb : rdot b b = 1; rf_cc : rdot c c = 1;
  rf_ab : rdot a b = 0; rf_ac : rdot a c = 0; rf_bc : rdot b c = 0;
  rf_det : rdot a (rcross b c) = 1;
  rf_c : rcross a b = c; rf_a : rcross b c = a; rf_b : rcross c a = b }.
Lemma rotation_facts m : rotation m -> rot_facts (c0 m) (c1 m) (c2 m).
Proof.
  intros [[O _] D]. destruct m as [a b c]. rewrite rdet_rows in D. cbn [c0 c1 c2].
  unfold rmmul, rtrans, reye, rcol0, rcol1, rcol2 in O. cbn [c0 c1 c2] in O.
  assert (E : forall v : V3 R, mk3 (c0 v) (c1 v) (c2 v) = v) by now intros [].
  rewrite !E in O. injection O as O1 O2 O3 O4 O5 O6 O7 O8 O9.
  constructor; auto.
  - now apply frame_cross.
  - apply frame_cross; auto. now rewrite <- rdot_cross_cyc.
  - apply frame_cross; auto. now rewrite rdot_cross_cyc.
Qed.
Lemma rmmul_assoc a b c : rmmul (rmmul a b) c = rmmul a (rmmul b c).
Proof. destruct a as [[a00 a01 a02] [a10 a11 a12] [a20 a21 a22]], b as [[b00 b01 b02] [b10 b11 b12] [b20 b21 b22]], c as [[c00 c01 c02] [c10 c11 c12] [c20 c21 c22]]. vunf. cbn [c0 c1 c2]. f_equal; f_equal; ring. Qed.
Lemma rmmul_eye_l a : rmmul reye a = a.
Proof. destruct a as [[a00 a01 a02] [a10 a11 a12] [a20 a21 a22]]. vunf. cbn [c0 c1 c2]. f_equal; f_equal; ring. Qed.
Lemma rmmul_eye_r a : rmmul a reye = a.
Proof. destruct a as [[a00 a01 a02] [a10 a11 a12] [a20 a21 a22]]. vunf. cbn [c0 c1 c2]. f_equal; f_equal; ring. Qed.
Lemma rtrans_mul a b : rtrans (rmmul a b) = rmmul (rtrans b) (rtrans a).
Proof. destruct a as [[a00 a01 a02] [a10 a11 a12] [a20 a21 a22]], b as [[b00 b01 b02] [b10 b11 b12] [b20 b21 b22]]. vunf. cbn [c0 c1 c2]. f_equal; f_equal; ring. Qed.
Lemma rtrans_trans a : rtrans (rtrans a) = a.
Proof. destruct a as [[a00 a01 a02] [a10 a11 a12] [a20 a21 a22]]. reflexivity. Qed.
Lemma rdet_mul a b : rdet (rmmul a b) = rdet a * rdet b.
Proof. destruct a as [[a00 a01 a02] [a10 a11 a12] [a20 a21 a22]], b as [[b00 b01 b02] [b10 b11 b12] [b20 b21 b22]]. vunf. cbn [c0 c1 c2]. ring. Qed.
Lemma rdet_trans a : rdet (rtrans a) = rdet a.
Proof. destruct a as [[a00 a01 a02] [a10 a11 a12] [a20 a21 a22]]. vunf. cbn [c0 c1 c2]. ring. Qed.
Lemma rdet_eye : rdet reye = 1.
Proof. vunf. cbn. ring. Qed.
Lemma rapply_mul a b v : rapply (rmmul a b) v = rapply a (rapply b v).
Proof. destruct a as [[a00 a01 a02] [a10 a11 a12] [a20 a21 a22]], b as [[b00 b01 b02] [b10 b11 b12] [b20 b21 b22]], v as [vx vy vz]. vunf. cbn [c0 c1 c2]. f_equal; ring. Qed.
Lemma rapply_eye v : rapply reye v = v.
Proof. destruct v as [vx vy vz]. vunf. cbn [c0 c1 c2]. f_equal; ring. Qed.
Lemma rapply_add m a b : rapply m (radd a b) = radd (rapply m a) (rapply m b).
Proof. destruct m as [[m00 m01 m02] [m10 m11 m12] [m20 m21 m22]], a as [ax ay az], b as [b_x b_y b_z]. vunf. cbn [c0 c1 c2]. f_equal; ring. Qed.
Lemma rapply_sub m a b : rapply m (rsub a b) = rsub (rapply m a) (rapply m b).
Proof. destruct m as [[m00 m01 m02] [m10 m11 m12] [m20 m21 m22]], a as [ax ay az], b as [b_x b_y b_z]. vunf. cbn [c0 c1 c2]. f_equal; ring. Qed.
Lemma rapply_scale m s a : rapply m (rscale s a) = rscale s (rapply m a).
Proof. destruct m as [[m00 m01 m02] [m10 m11 m12] [m20 m21 m22]], a as [ax ay az]. vunf. cbn [c0 c1 c2]. f_equal; ring. Qed.
Lemma rapply_dot m a b : rdot (rapply m a) b = rdot a (rapply (rtrans m) b).
Proof. destruct m as [[m00 m01 m02] [m10 m11 m12] [m20 m21 m22]], a as [ax ay az], b as [b_x b_y b_z]. vunf. cbn [c0 c1 c2]. ring. Qed.
Lemma orthogonal_eye : orthogonal reye.
Proof. split; vunf; cbn [c0 c1 c2]; f_equal; f_equal; ring. Qed.
Lemma rotation_eye : rotation reye.
Proof. split; [apply orthogonal_eye|apply rdet_eye]. Qed.
Lemma orthogonal_mul a b : orthogonal a -> orthogonal b -> orthogonal (rmmul a b).
Proof.
  intros [A1 A2] [B1 B2]. split; rewrite rtrans_mul, rmmul_assoc.
  - rewrite <- (rmmul_assoc b), B1, rmmul_eye_l. auto.
  - rewrite <- (rmmul_assoc (rtrans a)), A2, rmmul_eye_l. auto.
Qed.
Lemma orthogonal_trans a : orthogonal a -> orthogonal (rtrans a).
Proof. intros [A1 A2]. split; now rewrite rtrans_trans. Qed.
Lemma rotation_mul a b : rotation a -> rotation b -> rotation (rmmul a b).
Proof. intros [A1 A2] [B1 B2]. split; [now apply orthogonal_mul|]. rewrite rdet_mul, A2, B2. ring. Qed.
Lemma rotation_trans a : rotation a -> rotation (rtrans a).
Proof. intros [A1 A2]. split; [now apply orthogonal_trans|]. now rewrite rdet_trans. Qed.
Lemma orthogonal_dot m a b : orthogonal m -> rdot (rapply m a) (rapply m b) = rdot a b.
Proof. intros [_ O]. rewrite rapply_dot, <- rapply_mul, O, rapply_eye. reflexivity. Qed.
Lemma orthogonal_norm m a : orthogonal m -> rnorm (rapply m a) = rnorm a.
Proof. intros O. unfold rnorm. now rewrite orthogonal_dot. Qed.
Lemma orthogonal_det m : orthogonal m -> rdet m = 1 \/ rdet m = -1.
Proof.
  intros [O _]. assert (E : rdet m * rdet m = 1) by (rewrite <- (rdet_trans m) at 2; rewrite <- rdet_mul, O; apply rdet_eye).
  destruct (Rle_dec 0 (rdet m)); [left|right]; nra.
Qed.
Lemma rotation_inv_l m v : orthogonal m -> rapply (rtrans m) (rapply m v) = v.
Proof. intros [_ O]. now rewrite <- rapply_mul, O, rapply_eye. Qed.
Lemma rotation_inv_r m v : orthogonal m -> rapply m (rapply (rtrans m) v) = v.
Proof. intros [O _]. now rewrite <- rapply_mul, O, rapply_eye. Qed.

(** ** axis and angle of a rotation *)
Definition raxis (m : M3 R) : V3 R :=
  mk3 (c1 (c2 m) - c2 (c1 m)) (c2 (c0 m) - c0 (c2 m)) (c0 (c1 m) - c1 (c0 m)).
Definition rtrace (m : M3 R) : R := c0 (c0 m) + c1 (c1 m) + c2 (c2 m).
Section Axis.
Variables a0 a1 a2 b0 b1 b2 e0 e1 e2 : R.
Hypothesis RT : rotation (mk3 (mk3 a0 a1 a2) (mk3 b0 b1 b2) (mk3 e0 e1 e2)).
Lemma rot_eqs :
  (a0*a0+a1*a1+a2*a2=1 /\ b0*b0+b1*b1+b2*b2=1 /\ e0*e0+e1*e1+e2*e2=1 /\
   a0*b0+a1*b1+a2*b2=0 /\ a0*e0+a1*e1+a2*e2=0 /\ b0*e0+b1*e1+b2*e2=0) /\
  (a0*a0+b0*b0+e0*e0=1 /\ a1*a1+b1*b1+e1*e1=1 /\ a2*a2+b2*b2+e2*e2=1 /\
   a0*a1+b0*b1+e0*e1=0 /\ a0*a2+b0*b2+e0*e2=0 /\ a1*a2+b1*b2+e1*e2=0) /\
  (a1*b2-a2*b1=e0 /\ a2*b0-a0*b2=e1 /\ a0*b1-a1*b0=e2 /\
   b1*e2-b2*e1=a0 /\ b2*e0-b0*e2=a1 /\ b0*e1-b1*e0=a2 /\
   e1*a2-e2*a1=b0 /\ e2*a0-e0*a2=b1 /\ e0*a1-e1*a0=b2).
Proof.
  pose proof (rotation_facts RT) as Q. pose proof (rotation_facts (rotation_trans RT)) as Q'.
  destruct Q as [Q1 Q2 Q3 Q4 Q5 Q6 _ Q7 Q8 Q9]. destruct Q' as [P1 P2 P3 P4 P5 P6 _ _ _ _].
  vunf. cbn [c0 c1 c2] in *. injection Q7 as Q71 Q72 Q73. injection Q8 as Q81 Q82 Q83. injection Q9 as Q91 Q92 Q93.
  repeat split; lra.
Qed.
Lemma axis_outer : let t := a0 + b1 + e2 in let r0 := e1 - b2 in let r1 := a2 - e0 in let r2 := b0 - a1 in
  r0*r0 = (1+t)*(2*a0-t+1) /\ r1*r1 = (1+t)*(2*b1-t+1) /\ r2*r2 = (1+t)*(2*e2-t+1) /\
  r0*r1 = (1+t)*(a1+b0) /\ r0*r2 = (1+t)*(a2+e0) /\ r1*r2 = (1+t)*(b2+e1).
Proof.
  pose proof rot_eqs as (K1&K2&K3). destruct K1 as (U1&U2&U3&U4&U5&U6). destruct K2 as (V1&V2&V3&V4&V5&V6). destruct K3 as (W1&W2&W3&W4&W5&W6&W7&W8&W9).
  cbv zeta. repeat split; lra.
Qed.
End Axis.
