(** * Rigid fits in doubles: proofs for properties C167 and C168. *)
From Coq Require Import Reals ZArith List Bool Lra Lia Psatz.
From Flocq Require Import Core IEEE754.BinarySingleNaN.
From Verif Require Import Num B64 BLemmas Vec RVec VLemmas NpList MVx MPlane MRotation MRigid SpecGeom SpecRotation SpecRigid SpecDouble SpecTransD SpecTrigD SpecRigidD PMat3 PRotation PRotation2 PErr PFar PNormB PSliceF PNormD PScaleD PLineD PLine2D PRodD PEulerD PRigid PRigid2 PSumD PMeanD.
Import ListNotations.
Local Open Scope R_scope.
Set Implicit Arguments.
Unset Strict Implicit.
Local Notation eps := PErr.eps.

Lemma close33_weak a b m M : a <= b -> close33 a m M -> close33 b m M.
Proof. intros H ((F0 & A0 & A1 & A2) & (F1 & B0 & B1 & B2) & (F2 & D0 & D1 & D2)). repeat split; auto; eapply Rle_trans; eauto. Qed.
Lemma close3_weak a b v V : a <= b -> close3 a v V -> close3 b v V.
Proof. intros H (F0 & A0 & A1 & A2). repeat split; auto; eapply Rle_trans; eauto. Qed.
Lemma close33_trans d m M : close33 d m M -> close33 d (mtrans m) (rtrans M).
Proof.
  destruct m as [[a0 a1 a2] [b0 b1 b2] [e0 e1 e2]], M as [[f0 f1 f2] [g0 g1 g2] [h0 h1 h2]]. unfold close33, close3, mtrans, rtrans, fin3b, rcol0, rcol1, rcol2, map3. cbn [c0 c1 c2].
  intros ((F0 & A0 & A1 & A2) & (F1 & B0 & B1 & B2) & (F2 & D0 & D1 & D2)). apply andb_prop in F0, F1, F2. destruct F0 as [F0 F02], F1 as [F1 F12], F2 as [F2 F22]. apply andb_prop in F0, F1, F2. destruct F0, F1, F2. rewrite ?andb_true_iff. tauto.
Qed.
Lemma close33_cnear d m M : 0 <= d -> close33 d m M -> cnear (2 * d) m M.
Proof.
  intros P H. apply close33_trans in H. destruct H as ((F0 & A0 & A1 & A2) & (F1 & B0 & B1 & B2) & (F2 & D0 & D1 & D2)).
  split; [|split]; (split; [assumption|apply rnorm_small; assumption]).
Qed.
Lemma close33_flip d m M : close33 d m M -> close33 d (flip_third_column m) (rmmul M flip3).
Proof.
  destruct m as [[a0 a1 a2] [b0 b1 b2] [e0 e1 e2]], M as [[f0 f1 f2] [g0 g1 g2] [h0 h1 h2]].
  assert (O : forall (x : b64) X, bfin x = true -> Rabs (Bval x - X) <= d -> bfin (nopp x) = true /\ Rabs (Bval (nopp x) - (- X)) <= d) by (intros x X F E; exact (@nr_opp d x X (conj F E))).
  assert (I : forall (x : b64) X Y, X = Y -> Rabs (Bval x - X) <= d -> Rabs (Bval x - Y) <= d) by (intros x X Y ->; auto).
  unfold close33, close3, flip_third_column, flip3, rmmul, fin3b, rcol0, rcol1, rcol2, map3, rdot. cbn [c0 c1 c2].
  intros ((F0 & A0 & A1 & A2) & (F1 & B0 & B1 & B2) & (F2 & D0 & D1 & D2)). apply andb_prop in F0, F1, F2. destruct F0 as [F0 F02], F1 as [F1 F12], F2 as [F2 F22]. apply andb_prop in F0, F1, F2. destruct F0, F1, F2.
  destruct (O _ _ F02 A2) as [X0 Y0]. destruct (O _ _ F12 B2) as [X1 Y1]. destruct (O _ _ F22 D2) as [X2 Y2]. rewrite X0, X1, X2, ?andb_true_iff.
  repeat split; auto; (eapply I; [|eassumption]; ring).
Qed.
(** ** the product of the factors *)
Lemma factors_near d u v U V : 0 <= d <= 1 / 1000 -> orthogonal U -> orthogonal V -> close33 d u U -> close33 d v V ->
  close33 (9 * d + 20 * eps) (mmul (mtrans v) (mtrans u)) (base U V) /\ close33 (9 * d + 20 * eps) (mmul (flip_third_column (mtrans v)) (mtrans u)) (flipped U V).
Proof.
  intros [P D] OU OV CU CV. pose proof eps_pos as PE. apply close33_trans in CU, CV. pose proof (close33_cnear P CU) as NU.
  split; (eapply close33_weak; [|apply cnear_close; eapply mul_near; [| |exact CV || exact (close33_flip CV)| |exact NU|]]); try lra; auto using orthogonal_trans, orthogonal_mul, flip3_orth.
Qed.
(** ** the sign of the determinant *)
Lemma minor_sgn a b c e A B C E : nr (1 / 100) a A -> nr (1 / 100) b B -> nr (1 / 100) c C -> nr (1 / 100) e E -> Rabs A <= 1 -> Rabs B <= 1 -> Rabs C <= 1 -> Rabs E <= 1 ->
  nr (43 / 1000) (nsub (nmul a b) (nmul c e)) (A * B - C * E) /\ Rabs (A * B - C * E) <= 2.
Proof.
  intros NA NB NC NE HA HB HC HE. pose proof eps_small as SE. pose proof eps_pos as PE. assert (M2 : mid 2) by (change 2 with (bpow radix2 1); split; apply bpow_le; lia). assert (M4 : mid 4) by (change 4 with (bpow radix2 2); split; apply bpow_le; lia).
  pose proof (nr_mul (B := 2) NA NB HA HB ltac:(lra) M2) as H1. pose proof (nr_mul (B := 2) NC NE HC HE ltac:(lra) M2) as H2.
  assert (Q1 : Rabs (A * B) <= 1) by (replace 1 with (1 * 1) by ring; apply mul_bound; lra). assert (Q2 : Rabs (C * E) <= 1) by (replace 1 with (1 * 1) by ring; apply mul_bound; lra).
  split; [|apply abs_le in Q1, Q2; apply abs_le; lra]. eapply nr_weak; [|exact (nr_sub (B := 4) H1 H2 Q1 Q2 ltac:(lra) M4)]. lra.
Qed.
Lemma det_sign m M : close33 (1 / 100) m M -> orthogonal M -> nlt (mdet m) n0 = Rlt_bool (rdet M) 0.
Proof.
  intros CL O. destruct (rrow_le O) as ((A0 & A1 & A2) & (B0 & B1 & B2) & (D0 & D1 & D2)). pose proof eps_small as SE. pose proof eps_pos as PE.
  assert (N : nr (1 / 5) (mdet m) (rdet M)).
  { clear O. destruct m as [[a0 a1 a2] [b0 b1 b2] [e0 e1 e2]], M as [[f0 f1 f2] [g0 g1 g2] [h0 h1 h2]]. unfold close33, close3, fin3b in CL. cbn [c0 c1 c2] in *.
    destruct CL as ((F0 & X0 & X1 & X2) & (F1 & Y0 & Y1 & Y2) & (F2 & Z0 & Z1 & Z2)). apply andb_prop in F0, F1, F2. destruct F0 as [F0 F02], F1 as [F1 F12], F2 as [F2 F22]. apply andb_prop in F0, F1, F2. destruct F0 as [F00 F01], F1 as [F10 F11], F2 as [F20 F21].
    assert (M4 : mid 4) by (change 4 with (bpow radix2 2); split; apply bpow_le; lia). assert (M16 : mid 16) by (change 16 with (bpow radix2 4); split; apply bpow_le; lia).
    destruct (minor_sgn (conj F11 Y1) (conj F22 Z2) (conj F12 Y2) (conj F21 Z1) B1 D2 B2 D1) as [K0 L0].
    destruct (minor_sgn (conj F12 Y2) (conj F20 Z0) (conj F10 Y0) (conj F22 Z2) B2 D0 B0 D2) as [K1 L1].
    destruct (minor_sgn (conj F10 Y0) (conj F21 Z1) (conj F11 Y1) (conj F20 Z0) B0 D1 B1 D0) as [K2 L2].
    pose proof (nr_mul (B := 4) (conj F00 X0) K0 A0 L0 ltac:(lra) M4) as T0. pose proof (nr_mul (B := 4) (conj F01 X1) K1 A1 L1 ltac:(lra) M4) as T1. pose proof (nr_mul (B := 4) (conj F02 X2) K2 A2 L2 ltac:(lra) M4) as T2.
    pose proof (@mul_bound _ _ 1 2 ltac:(lra) ltac:(lra) A0 L0) as U0. pose proof (@mul_bound _ _ 1 2 ltac:(lra) ltac:(lra) A1 L1) as U1. pose proof (@mul_bound _ _ 1 2 ltac:(lra) ltac:(lra) A2 L2) as U2.
    pose proof (nr_add (B := 16) T0 T1 U0 U1 ltac:(lra) M16) as S1. assert (U3 : Rabs (f0 * (g1 * h2 - g2 * h1) + f1 * (g2 * h0 - g0 * h2)) <= 4) by (apply abs_le in U0, U1; apply abs_le; lra).
    pose proof (nr_add (B := 16) S1 T2 U3 U2 ltac:(lra) M16) as S2. unfold mdet, vdot, vcross, rdet, rdot, rcross. cbn [c0 c1 c2]. eapply nr_weak; [|exact S2]. lra. }
  destruct N as [F E]. rewrite blt_spec by (auto; reflexivity). change (Bval n0) with 0. apply abs_le in E. destruct (orthogonal_det O) as [D|D]; rewrite D in *.
  - rewrite !Rlt_bool_false by lra. reflexivity.
  - rewrite !Rlt_bool_true by lra. reflexivity.
Qed.
(** ** what the two functions return *)
Section Form.
Context {F : Type} {N : Num F}.
(** the rotation built from the factors *)
Definition turn_of (u v : M3 F) : M3 F := if nlt (mdet (mmul (mtrans v) (mtrans u))) n0 then mmul (flip_third_column (mtrans v)) (mtrans u) else mmul (mtrans v) (mtrans u).
Lemma rotation_form svd a b r : find_rigid_rotation svd a b false = Ok r -> exists c u s v, svd c = Ok (u, s, v) /\ r = turn_of u v.
Proof.
  intros H. unfold find_rigid_rotation in H. destruct a as [a| |], b as [b| |]; try discriminate H.
  match type of H with (bindr ?x _ = _) => destruct x as [[a' b']|]; [|discriminate H] end. cbn [bindr] in H. destruct (gram a' b') as [c|]; [|discriminate H]. cbn [bindr] in H. destruct (svd c) as [[[u s] v]|] eqn:E; [|discriminate H]. cbn [bindr] in H. injection H as <-. exists c, u, s, v. auto.
Qed.
Lemma rotation_core_form svd a b : length a <> 1%nat -> length a = length b -> forall c u s v, gram a b = Ok c -> svd c = Ok (u, s, v) -> find_rigid_rotation svd (P3N a) (P3N b) false = Ok (turn_of u v).
Proof.
  intros L _ c u s v G E. unfold find_rigid_rotation. destruct a as [|p [|p' a]]; [| |]; try (now elim L); cbn [bindr]; rewrite G; cbn [bindr]; rewrite E; reflexivity.
Qed.
Lemma rotation_many_err svd a b c x : length a <> 1%nat -> gram a b = Ok c -> svd c = Err x -> exists y, find_rigid_rotation svd (P3N a) (P3N b) false = Err y.
Proof.
  intros L G E. unfold find_rigid_rotation. destruct a as [|p [|p' a]]; [| |]; try (now elim L); cbn [bindr]; rewrite G; cbn [bindr]; rewrite E; eexists; reflexivity.
Qed.
Lemma transform_form svd a b r t : find_rigid_transform svd a b = Ok (r, t) -> exists a' b' c u s v, as_columns a = Ok a' /\ as_columns b = Ok b' /\
  gram (map (fun p => vsub p (vmean a')) a') (map (fun p => vsub p (vmean b')) b') = Ok c /\ svd c = Ok (u, s, v) /\ r = turn_of u v /\ t = vsub (vmean b') (mapply r (vmean a')) /\
  (nlt (mdet (mmul (mtrans v) (mtrans u))) n0 = true -> (neqb (c0 s) n0 || neqb (c1 s) n0 || neqb (c2 s) n0)%bool = true).
Proof.
  intros H. unfold find_rigid_transform in H. destruct (as_columns a) as [a'|]; [|discriminate H]. cbn [bindr] in H. destruct (as_columns b) as [b'|]; [|discriminate H]. cbn [bindr] in H.
  destruct (gram _ _) as [c|] eqn:G; [|discriminate H]. cbn [bindr] in H. destruct (svd c) as [[[u s] v]|] eqn:E; [|discriminate H]. cbn [bindr] in H. exists a', b', c, u, s, v. unfold turn_of.
  destruct (nlt _ _); [destruct (_ || _)%bool eqn:Z; [|discriminate H]|]; cbn [bindr] in H; injection H as <- <-; repeat split; auto; try (intros K; discriminate K); intros _; exact Z.
Qed.
End Form.
Lemma core_sign d u v U V : 0 <= d <= 1 / 1000 -> orthogonal U -> orthogonal V -> close33 d u U -> close33 d v V ->
  nlt (mdet (mmul (mtrans v) (mtrans u))) n0 = Rlt_bool (rdet (base U V)) 0.
Proof.
  intros D OU OV CU CV. destruct (factors_near D OU OV CU CV) as [H _]. apply det_sign; [|now apply base_orth]. eapply close33_weak; [|exact H]. pose proof eps_small. lra.
Qed.
Lemma core_rot d u v U V : 0 <= d <= 1 / 1000 -> orthogonal U -> orthogonal V -> close33 d u U -> close33 d v V ->
  let Q := if Rlt_bool (rdet (base U V)) 0 then flipped U V else base U V in
  rotation Q /\ close33 (9 * d + 20 * eps) (turn_of u v) Q.
Proof.
  intros D OU OV CU CV Q. unfold turn_of. rewrite (core_sign D OU OV CU CV). destruct (factors_near D OU OV CU CV) as [H1 H2]. unfold Q. destruct (base_det OU OV) as [B|B].
  - rewrite Rlt_bool_false by lra. split; [split; [now apply base_orth|assumption]|assumption].
  - rewrite Rlt_bool_true by lra. split; [split; [now apply flipped_orth|rewrite flipped_det; lra]|assumption].
Qed.
Lemma rotation_rot svd d a b r : 0 <= d <= 1 / 1000 -> orthogonal_factors d svd -> find_rigid_rotation svd a b false = Ok r -> exists Q, rotation Q /\ close33 (9 * d + 20 * eps) r Q.
Proof.
  intros D HS H. apply rotation_form in H. destruct H as (c & u & s & v & E & ->). destruct (HS _ _ _ _ E) as (U & V & OU & OV & CU & CV). destruct (core_rot D OU OV CU CV) as [Q1 Q2]. eauto.
Qed.
Lemma transform_rot svd d a b r t : 0 <= d <= 1 / 1000 -> orthogonal_factors d svd -> find_rigid_transform svd a b = Ok (r, t) -> exists Q, rotation Q /\ close33 (9 * d + 20 * eps) r Q.
Proof.
  intros D HS H. apply transform_form in H. destruct H as (a' & b' & c & u & s & v & _ & _ & _ & E & -> & _ & _). destruct (HS _ _ _ _ E) as (U & V & OU & OV & CU & CV). destruct (core_rot D OU OV CU CV) as [Q1 Q2]. eauto.
Qed.
(** ** how good the fit is *)
Definition mnear (e : R) (c k : M3 R) : Prop := coords_le e (rsub (c0 c) (c0 k)) /\ coords_le e (rsub (c1 c) (c1 k)) /\ coords_le e (rsub (c2 c) (c2 k)).
Lemma gain_near e q q' c k : orthogonal q -> orthogonal q' -> 0 <= e -> mnear e c k ->
  trace (rmmul q' c) - trace (rmmul q c) <= trace (rmmul q' k) - trace (rmmul q k) + 18 * e.
Proof.
  intros Q Q' P H. destruct (rrow_le Q) as ((A0 & A1 & A2) & (B0 & B1 & B2) & (D0 & D1 & D2)). destruct (rrow_le Q') as ((A0' & A1' & A2') & (B0' & B1' & B2') & (D0' & D1' & D2')). clear Q Q'.
  destruct q as [[q00 q01 q02] [q10 q11 q12] [q20 q21 q22]], q' as [[p00 p01 p02] [p10 p11 p12] [p20 p21 p22]], c as [[c00 c01 c02] [c10 c11 c12] [c20 c21 c22]], k as [[k00 k01 k02] [k10 k11 k12] [k20 k21 k22]].
  unfold mnear, coords_le, rsub in H. unfold trace, rmmul, rcol0, rcol1, rcol2, rdot. cbn [c0 c1 c2] in *. destruct H as ((H0 & H1 & H2) & (H3 & H4 & H5) & (H6 & H7 & H8)).
  assert (K : forall x y z, Rabs x <= 1 -> Rabs y <= 1 -> Rabs z <= e -> (x - y) * z <= 2 * e).
  { intros x y z X Y Z. assert (W : Rabs (x - y) <= 2) by (apply abs_le in X, Y; apply abs_le; lra). pose proof (@mul_bound _ _ 2 e ltac:(lra) P W Z) as M. apply abs_le in M. lra. }
  pose proof (K _ _ _ A0' A0 H0). pose proof (K _ _ _ A1' A1 H3). pose proof (K _ _ _ A2' A2 H6). pose proof (K _ _ _ B0' B0 H1). pose proof (K _ _ _ B1' B1 H4). pose proof (K _ _ _ B2' B2 H7). pose proof (K _ _ _ D0' D0 H2). pose proof (K _ _ _ D1' D1 H5). pose proof (K _ _ _ D2' D2 H8). lra.
Qed.
(** sums of products of coordinates *)
Lemma entry_ap e Y (f : forall T, V3 T -> T) (g : forall T, V3 T -> T) (a b : list (V3 b64)) (A B : list (V3 R)) :
  bpow radix2 (-190) <= Y <= bpow radix2 190 -> 0 <= e <= Y / 1000 -> (Z.of_nat (length a) <= 2 ^ 30)%Z -> length a = length b ->
  Forall2 (fun p P => nr e (f b64 p) (f R P) /\ Rabs (f R P) <= Y) a A -> Forall2 (fun p P => nr e (g b64 p) (g R P) /\ Rabs (g R P) <= Y) b B ->
  let n := INR (length a) in
  nr (n * (n + 3) * (eps * (Y * Y)) + n * (201 / 100 * e * Y)) (nsum (map2 (fun x y => nmul (f b64 x) (g b64 y)) a b)) (rsum (map (fun pq => f R (fst pq) * g R (snd pq)) (combine A B))) /\
  Rabs (rsum (map (fun pq => f R (fst pq) * g R (snd pq)) (combine A B))) <= n * (Y * Y).
Proof.
  intros HY He HL EL HA HB n. pose proof eps_pos as PE. pose proof eps_small as SE. assert (PY : 0 < Y) by (destruct HY as [H _]; pose proof (bpow_gt_0 radix2 (-190)); lra).
  assert (HM : span_ok (11 / 10 * (Y * Y))).
  { destruct HY as [Y1 Y2]. pose proof (bpow_gt_0 radix2 (-190)) as P1. assert (Z1 : bpow radix2 (-190) * bpow radix2 (-190) <= Y * Y) by (apply Rmult_le_compat; lra). assert (Z2 : Y * Y <= bpow radix2 190 * bpow radix2 190) by (apply Rmult_le_compat; lra). rewrite <- bpow_plus in Z1, Z2. replace (-190 + -190)%Z with (-380)%Z in Z1 by reflexivity. replace (190 + 190)%Z with 380%Z in Z2 by reflexivity. assert (P3 : 0 < bpow radix2 (-380)) by apply bpow_gt_0. split.
    - apply Rle_trans with (bpow radix2 (-380)); [apply bpow_le; lia|]. lra.
    - apply Rle_trans with (bpow radix2 1 * bpow radix2 380); [|rewrite <- bpow_plus; apply bpow_le; lia]. change (bpow radix2 1) with 2. assert (0 <= Y * Y) by nra. lra. }
  assert (MB : mid (11 / 10 * (Y * Y))) by (destruct HM as [M1 M2]; split; [eapply Rle_trans; [|exact M1]|eapply Rle_trans; [exact M2|]]; apply bpow_le; lia).
  assert (PYY : 0 < Y * Y) by (apply Rmult_lt_0_compat; lra). assert (EY : e * Y <= / 1000 * (Y * Y)) by (replace (/ 1000 * (Y * Y)) with (Y / 1000 * Y) by field; apply Rmult_le_compat_r; lra). assert (EE : e * e <= / 1000 * (e * Y)) by (replace (/ 1000 * (e * Y)) with (e * (Y / 1000)) by field; apply Rmult_le_compat_l; lra). assert (E0 : 0 <= e * Y) by nra.
  assert (G : Forall2 (fun x y => nr (201 / 100 * e * Y + eps * (11 / 10 * (Y * Y))) x y /\ Rabs y <= Y * Y) (map2 (fun x y => nmul (f b64 x) (g b64 y)) a b) (map (fun pq => f R (fst pq) * g R (snd pq)) (combine A B))).
  { clear n HL. revert b B HB EL. induction HA as [|p P a A [Np Bp] _ IH]; intros [|q b] B HB EL; try discriminate EL; [inversion HB; constructor|]. inversion HB as [|? Q ? B' [Nq Bq] HB']; subst. cbn [combine map fst snd]. change (map2 (fun x y => nmul (f b64 x) (g b64 y)) (p :: a) (q :: b)) with (nmul (f b64 p) (g b64 q) :: map2 (fun x y => nmul (f b64 x) (g b64 y)) a b). constructor.
    - split; [|apply mul_bound; lra]. eapply nr_weak; [|apply (nr_mul (B := 11 / 10 * (Y * Y)) Np Nq Bp Bq); [|exact MB]]; [|nra]. nra.
    - apply IH; [exact HB'|now injection EL]. }
  set (la := map2 _ a b) in *. set (lA := map _ (combine A B)) in *.
  assert (LL : length la = length a) by (unfold la, map2; rewrite map_length, combine_length; lia).
  clearbody la lA.
  assert (F1 : Forall (fun x => bfin x = true /\ Rabs (Bval x) <= 11 / 10 * (Y * Y)) la).
  { clear -G PYY EY E0 SE PE. induction G as [|x y l k [[Fx Ex] Bx] _ IH]; constructor; auto. split; [exact Fx|]. apply abs_le in Ex, Bx. apply abs_le. assert (eps * (11 / 10 * (Y * Y)) <= / 1000 * (Y * Y)) by nra. lra. }
  assert (F2 : Forall2 (fun x y => Rabs (x - y) <= 201 / 100 * e * Y + eps * (11 / 10 * (Y * Y))) (map Bval la) lA) by (clear -G; induction G as [|x y l k [[Fx Ex] Bx] _ IH]; cbn [map]; constructor; auto).
  assert (F3 : Rabs (rsum lA) <= INR (length la) * (Y * Y)).
  { clear -G. induction G as [|x y l k [_ Bx] _ IH]; [cbn; rewrite Rabs_R0; lra|]. cbn [rsum]. change (length (x :: l)) with (S (length l)). rewrite S_INR. apply abs_le in Bx, IH. apply abs_le. lra. }
  destruct (nsum_ap HM F1 ltac:(rewrite LL; exact HL)) as (FS & ES & _). apply rsum_near in F2. rewrite map_length in F2. rewrite LL in *. fold n in ES, F2, F3. split; [|exact F3]. split; [exact FS|].
  pose proof (pos_INR (length a)) as PN. fold n in PN. apply abs_le in ES, F2. apply abs_le. assert (0 <= n * (eps * (Y * Y))) by (apply Rmult_le_pos; [lra|nra]). assert (0 <= n * n * (eps * (Y * Y))) by (apply Rmult_le_pos; [nra|nra]). nra.
Qed.
Lemma fin3b_all (v : V3 b64) : fin3b v = true -> bfin (c0 v) = true /\ bfin (c1 v) = true /\ bfin (c2 v) = true.
Proof. unfold fin3b. intros H. apply andb_prop in H. destruct H as [H H2]. apply andb_prop in H. tauto. Qed.
Lemma gram_ap e Y (a b : list (V3 b64)) (A B : list (V3 R)) :
  bpow radix2 (-190) <= Y <= bpow radix2 190 -> 0 <= e <= Y / 1000 -> (Z.of_nat (length a) <= 2 ^ 30)%Z -> length a = length b ->
  Forall2 (fun p P => close3 e p P /\ coords_le Y P) a A -> Forall2 (fun p P => close3 e p P /\ coords_le Y P) b B ->
  let n := INR (length a) in let g := n * (n + 3) * (eps * (Y * Y)) + n * (201 / 100 * e * Y) in
  exists c, gram a b = Ok c /\ close33 g c (cross_gram A B) /\ within (n * (Y * Y) + g) (c0 c) /\ within (n * (Y * Y) + g) (c1 c) /\ within (n * (Y * Y) + g) (c2 c).
Proof.
  intros HY He HL EL HA HB n g.
  assert (P : forall (x : list (V3 b64)) (X : list (V3 R)), Forall2 (fun p P => close3 e p P /\ coords_le Y P) x X ->
    Forall2 (fun p P => nr e (c0 p) (c0 P) /\ Rabs (c0 P) <= Y) x X /\ Forall2 (fun p P => nr e (c1 p) (c1 P) /\ Rabs (c1 P) <= Y) x X /\ Forall2 (fun p P => nr e (c2 p) (c2 P) /\ Rabs (c2 P) <= Y) x X).
  { intros x X H. induction H as [|p Q x X [(F & E0 & E1 & E2) (L0 & L1 & L2)] _ (I0 & I1 & I2)]; [repeat constructor|]. destruct (fin3b_all F) as (F0 & F1 & F2). repeat split; constructor; auto; repeat split; auto. }
  destruct (P _ _ HA) as (A0 & A1 & A2). destruct (P _ _ HB) as (B0 & B1 & B2). clear P HA HB.
  unfold gram. rewrite (Logic.proj2 (Nat.eqb_eq _ _) EL).
  pose proof (@entry_ap e Y (@c0) (@c0) a b A B HY He HL EL A0 B0) as E00. pose proof (@entry_ap e Y (@c0) (@c1) a b A B HY He HL EL A0 B1) as E01. pose proof (@entry_ap e Y (@c0) (@c2) a b A B HY He HL EL A0 B2) as E02.
  pose proof (@entry_ap e Y (@c1) (@c0) a b A B HY He HL EL A1 B0) as E10. pose proof (@entry_ap e Y (@c1) (@c1) a b A B HY He HL EL A1 B1) as E11. pose proof (@entry_ap e Y (@c1) (@c2) a b A B HY He HL EL A1 B2) as E12.
  pose proof (@entry_ap e Y (@c2) (@c0) a b A B HY He HL EL A2 B0) as E20. pose proof (@entry_ap e Y (@c2) (@c1) a b A B HY He HL EL A2 B1) as E21. pose proof (@entry_ap e Y (@c2) (@c2) a b A B HY He HL EL A2 B2) as E22.
  cbv zeta in *. fold n in E00, E01, E02, E10, E11, E12, E20, E21, E22. fold g in E00, E01, E02, E10, E11, E12, E20, E21, E22.
  eexists. split; [reflexivity|]. unfold cross_gram. cbv zeta. cbn [c0 c1 c2]. clear A0 A1 A2 B0 B1 B2.
  assert (R3 : forall x y z X' Y' Z', nr g x X' /\ Rabs X' <= n * (Y * Y) -> nr g y Y' /\ Rabs Y' <= n * (Y * Y) -> nr g z Z' /\ Rabs Z' <= n * (Y * Y) -> close3 g (mk3 x y z) (mk3 X' Y' Z') /\ within (n * (Y * Y) + g) (mk3 x y z)).
  { intros x y z X' Y' Z' [[F0 K0] L0] [[F1 K1] L1] [[F2 K2] L2]. unfold close3, within, fin3b. cbn [c0 c1 c2]. rewrite F0, F1, F2. cbn [andb]. apply abs_le in K0, K1, K2, L0, L1, L2. repeat split; apply abs_le; lra. }
  destruct (R3 _ _ _ _ _ _ E00 E01 E02) as [G0 W0]. destruct (R3 _ _ _ _ _ _ E10 E11 E12) as [G1 W1]. destruct (R3 _ _ _ _ _ _ E20 E21 E22) as [G2 W2]. repeat split; try (apply G0 || apply G1 || apply G2 || apply W0 || apply W1 || apply W2).
Qed.
Lemma near_near a b c C D : close33 a c C -> close33 b c D -> mnear (a + b) D C.
Proof.
  intros ((_ & X0 & X1 & X2) & (_ & Y0 & Y1 & Y2) & (_ & Z0 & Z1 & Z2)) ((_ & X0' & X1' & X2') & (_ & Y0' & Y1' & Y2') & (_ & Z0' & Z1' & Z2')).
  apply abs_le in X0, X1, X2, Y0, Y1, Y2, Z0, Z1, Z2, X0', X1', X2', Y0', Y1', Y2', Z0', Z1', Z2'. unfold mnear, coords_le, rsub. cbn [c0 c1 c2]. repeat split; apply abs_le; lra.
Qed.
(** the turn built from the factors is nearly best *)
Lemma turn_best d u v U V s C h G l : 0 <= d <= 1 / 1000 -> svd_of C U s V -> close33 d u U -> close33 d v V -> 0 <= h -> mnear h G C -> G = pgram l ->
  exists Q, rotation Q /\ close33 (9 * d + 20 * eps) (turn_of u v) Q /\
    (forall Q', rotation Q' -> pres (rapply Q) l <= pres (rapply Q') l + 36 * h) /\
    ((nlt (mdet (mmul (mtrans v) (mtrans u))) n0 = true -> c2 s = 0) -> forall Q', orthogonal Q' -> pres (rapply Q) l <= pres (rapply Q') l + 36 * h).
Proof.
  intros D HS CU CV Ph HM EG. pose proof HS as (OU & OV & _). destruct (core_rot D OU OV CU CV) as [RQ CQ]. pose proof (core_sign D OU OV CU CV) as SG. set (Q := if Rlt_bool _ _ then _ else _) in *. exists Q. split; [exact RQ|]. split; [exact CQ|].
  assert (K : forall Q', orthogonal Q' -> trace (rmmul Q' C) <= trace (rmmul Q C) -> pres (rapply Q) l <= pres (rapply Q') l + 36 * h).
  { intros Q' O' L. rewrite !pres_gain by (auto; apply RQ). rewrite <- EG. pose proof (gain_near (Logic.proj1 RQ) O' Ph HM). lra. }
  destruct (base_det OU OV) as [B|B].
  - assert (EQ : Q = base U V) by (unfold Q; now rewrite Rlt_bool_false by lra). split.
    + intros Q' R'. apply K; [apply R'|]. rewrite EQ. exact (gain_le HS (Logic.proj1 R')).
    + intros _ Q' O'. apply K; [exact O'|]. rewrite EQ. exact (gain_le HS O').
  - assert (EQ : Q = flipped U V) by (unfold Q; now rewrite Rlt_bool_true by lra). split.
    + intros Q' R'. apply K; [apply R'|]. rewrite EQ. exact (gain_rot_le HS R' B).
    + rewrite SG, Rlt_bool_true by lra. intros Z Q' O'. specialize (Z eq_refl). apply K; [exact O'|]. rewrite EQ. pose proof (gain_le HS O') as L1. pose proof (gain_flipped HS) as L2. pose proof (gain_base HS) as L3. cbv beta zeta in *. lra.
Qed.
Lemma residual_of f ps qs : residual f ps qs = pres f (combine ps qs). Proof. apply residual_pres. Qed.
Lemma self_close X (ps : list (V3 b64)) : Forall (within X) ps -> Forall2 (fun p P => close3 0 p P /\ coords_le X P) ps (map Rval3 ps).
Proof.
  induction 1 as [|p ps (F & B0 & B1 & B2) _ IH]; cbn [map]; constructor; auto. split; [split; [exact F|]|repeat split; assumption].
  cbn [Rval3 map3 c0 c1 c2]. rewrite !Rminus_eq_0, Rabs_R0. repeat split; lra.
Qed.
Lemma rotation_nearly svd d tau X ps qs r : 0 <= d <= 1 / 1000 -> 0 <= tau -> accurate_svd d tau svd -> bpow radix2 (-180) <= X <= bpow radix2 180 -> Forall (within X) ps -> Forall (within X) qs ->
  length ps = length qs -> length ps <> 1%nat -> (Z.of_nat (length ps) <= 2 ^ 30)%Z -> find_rigid_rotation svd (P3N ps) (P3N qs) false = Ok r ->
  let n := INR (length ps) in
  exists Q, rotation Q /\ close33 (9 * d + 20 * eps) r Q /\ forall Q', rotation Q' ->
    residual (rapply Q) (map Rval3 ps) (map Rval3 qs) <= residual (rapply Q') (map Rval3 ps) (map Rval3 qs) + 40 * n * (X * X) * (tau + (n + 3) * eps).
Proof.
  intros D PT HS HX Wp Wq EL N1 HL H n. pose proof eps_pos as PE. pose proof eps_small as SE. assert (PX : 0 < X) by (destruct HX as [H1 _]; pose proof (bpow_gt_0 radix2 (-180)); lra).
  assert (HY : bpow radix2 (-190) <= X <= bpow radix2 190) by (split; [apply Rle_trans with (bpow radix2 (-180)); [apply bpow_le; lia|apply HX]|apply Rle_trans with (bpow radix2 180); [apply HX|apply bpow_le; lia]]).
  destruct (@gram_ap 0 X ps qs _ _ HY ltac:(lra) HL EL (self_close Wp) (self_close Wq)) as (c & EG & CG & W0 & W1 & W2). fold n in CG, W0, W1, W2. set (g := n * (n + 3) * (eps * (X * X)) + n * (201 / 100 * 0 * X)) in *.
  assert (SV : exists u s v, svd c = Ok (u, s, v) /\ r = turn_of u v).
  { destruct (svd c) as [[[u s] v]|x] eqn:E.
    - exists u, s, v. split; [reflexivity|]. pose proof (rotation_core_form N1 EL EG E) as Y. rewrite H in Y. now injection Y.
    - exfalso. clear -H EG E N1. destruct (rotation_many_err N1 EG E) as [y Y]. rewrite H in Y. discriminate Y. }
  destruct SV as (u & s & v & ES & ->). destruct (HS _ _ _ _ ES) as (U & V & C & SO & CU & CV & _ & HC). specialize (HC _ W0 W1 W2).
  pose proof (pos_INR (length ps)) as PN. fold n in PN. assert (PXX : 0 < X * X) by (apply Rmult_lt_0_compat; lra). pose proof (eps_n HL) as EN. fold n in EN.
  assert (EGV : g = n * (n + 3) * (eps * (X * X))) by (unfold g; ring). assert (Pg : 0 <= g) by (rewrite EGV; apply Rmult_le_pos; nra).
  assert (G1 : g <= / 100 * (n * (X * X))). { rewrite EGV. replace (n * (n + 3) * (eps * (X * X))) with ((n * eps + 3 * eps) * (n * (X * X))) by ring. apply Rmult_le_compat_r; [nra|lra]. }
  set (h := tau * (n * (X * X) + g) + g) in *. assert (Ph : 0 <= h) by (unfold h; assert (0 <= tau * (n * (X * X) + g)) by (apply Rmult_le_pos; nra); lra).
  destruct (@turn_best d u v U V (Rval3 s) C h (cross_gram (map Rval3 ps) (map Rval3 qs)) (combine (map Rval3 ps) (map Rval3 qs)) D SO CU CV Ph) as (Q & RQ & CQ & BQ & _); [apply near_near with (c := c); assumption|reflexivity|].
  exists Q. split; [exact RQ|]. split; [exact CQ|]. intros Q' R'. rewrite !residual_of. eapply Rle_trans; [exact (BQ Q' R')|]. apply Rplus_le_compat_l.
  assert (Z : tau * (n * (X * X) + g) <= 101 / 100 * (tau * (n * (X * X)))) by (replace (101 / 100 * (tau * (n * (X * X)))) with (tau * (101 / 100 * (n * (X * X)))) by ring; apply Rmult_le_compat_l; lra).
  unfold h. replace (40 * n * (X * X) * (tau + (n + 3) * eps)) with (40 * (tau * (n * (X * X))) + 40 * (n * (n + 3) * (eps * (X * X)))) by ring. rewrite <- EGV. assert (0 <= tau * (n * (X * X))) by (apply Rmult_le_pos; nra). lra.
Qed.
(** ** with a translation *)
Lemma nr3_close e v w : close3 e v w -> nr e (c0 v) (c0 w) /\ nr e (c1 v) (c1 w) /\ nr e (c2 v) (c2 w).
Proof. intros (F & E0 & E1 & E2). destruct (fin3b_all F) as (F0 & F1 & F2). repeat split; assumption. Qed.
Lemma centre_ap X (ps : list (V3 b64)) : bpow radix2 (-180) <= X <= bpow radix2 180 -> Forall (within X) ps -> ps <> [] -> (Z.of_nat (length ps) <= 2 ^ 30)%Z ->
  let n := INR (length ps) in
  Forall2 (fun p P => close3 ((n + 5) * (eps * X)) p P /\ coords_le (2 * X) P) (map (fun p => vsub p (vmean ps)) ps) (centred (map Rval3 ps)).
Proof.
  intros HX H NE HL n. pose proof eps_pos as PE. pose proof eps_small as SE. assert (PX : 0 < X) by (destruct HX as [H1 _]; pose proof (bpow_gt_0 radix2 (-180)); lra).
  assert (HM : span_ok X) by (split; [apply Rle_trans with (bpow radix2 (-180)); [apply bpow_le; lia|apply HX]|apply Rle_trans with (bpow radix2 180); [apply HX|apply bpow_le; lia]]).
  assert (HP : (0 < length ps)%nat) by (destruct ps; [contradiction|cbn; lia]). destruct (vmean_ap HM H HP HL) as (C & G0 & G1 & G2). fold n in C. pose proof (eps_n HL) as EN. fold n in EN. pose proof (pos_INR (length ps)) as PN. fold n in PN.
  assert (MB : mid (21 / 10 * X)) by (apply span_mid; [exact HM|lra]). unfold centred. set (g := centroid _) in *. clearbody n g. set (m := vmean ps) in *. clearbody m. apply nr3_close in C. destruct C as (C0 & C1 & C2).
  assert (K : (n + 2) * (eps * X) <= / 100 * X). { replace ((n + 2) * (eps * X)) with ((n * eps + 2 * eps) * X) by ring. apply Rmult_le_compat_r; lra. } assert (P0 : 0 <= eps * X) by (apply Rmult_le_pos; lra).
  clear NE HP HL. induction H as [|p ps (F & B0 & B1 & B2) _ IH]; cbn [map]; constructor; auto. destruct (fin3b_all F) as (F0 & F1 & F2).
  assert (S : forall x : b64, bfin x = true -> nr 0 x (Bval x)) by (intros x Fx; split; [exact Fx|rewrite Rminus_eq_0, Rabs_R0; lra]).
  pose proof (nr_sub (B := 21 / 10 * X) (S _ F0) C0 B0 G0 ltac:(lra) MB) as N0. pose proof (nr_sub (B := 21 / 10 * X) (S _ F1) C1 B1 G1 ltac:(lra) MB) as N1. pose proof (nr_sub (B := 21 / 10 * X) (S _ F2) C2 B2 G2 ltac:(lra) MB) as N2.
  split.
  - apply nr_close; unfold vsub, zip3, rsub; cbn [c0 c1 c2 Rval3 map3]; eapply nr_weak; try eassumption; lra.
  - apply abs_le in B0, B1, B2, G0, G1, G2. unfold coords_le, rsub, Rval3, map3. cbn [c0 c1 c2]. repeat split; apply abs_le; lra.
Qed.
Lemma shift_ap D m X r Q (a b : V3 b64) (A B : V3 R) : mid X -> mid (16 * X) -> 0 <= D <= 1 / 100 -> 0 <= m <= X / 1000 -> close33 D r Q -> orthogonal Q -> close3 m a A -> close3 m b B -> coords_le X A -> coords_le X B ->
  (forall k, 1 <= k <= 16 -> mid (k * X)) ->
  close3 (3 * (D * X) + 5 * m + 17 * (eps * X)) (vsub b (mapply r a)) (rsub B (rapply Q A)).
Proof.
  intros M1 M16 HD Hm (R0 & R1 & R2) O CA CB (LA0 & LA1 & LA2) (LB0 & LB1 & LB2) MX. pose proof eps_pos as PE. pose proof eps_small as SE. pose proof (mid_pos M1) as PX. destruct (rrow_le O) as (Q0 & Q1 & Q2).
  apply nr3_close in CA, CB. destruct CA as (A0 & A1 & A2), CB as (B0 & B1 & B2).
  assert (DX : D * X <= / 100 * X) by (apply Rmult_le_compat_r; lra). assert (DX0 : 0 <= D * X) by nra. assert (Dm : D * m <= / 100 * m) by (apply Rmult_le_compat_r; lra). assert (Dm0 : 0 <= D * m) by nra. assert (EX : 0 <= eps * X) by nra. assert (EX1 : eps * X <= / 1000 * X) by (apply Rmult_le_compat_r; lra).
  assert (ROW : forall row Row y Y', close3 D row Row -> coords_le 1 Row -> nr m y Y' -> Rabs Y' <= X -> nr (3 * (D * X) + 5 * m + 17 * (eps * X)) (nsub y (vdot row a)) (Y' - rdot Row A)).
  { intros row Row y Y' CR (L0 & L1 & L2) NY LY. apply nr3_close in CR. destruct CR as (N0 & N1 & N2).
    assert (MM : forall k, 1 <= k <= 16 -> mid (k * X)) by exact MX.
    pose proof (nr_mul (B := 11 / 10 * X) N0 A0 L0 LA0 ltac:(lra) (MM (11 / 10) ltac:(lra))) as T0. pose proof (nr_mul (B := 11 / 10 * X) N1 A1 L1 LA1 ltac:(lra) (MM (11 / 10) ltac:(lra))) as T1. pose proof (nr_mul (B := 11 / 10 * X) N2 A2 L2 LA2 ltac:(lra) (MM (11 / 10) ltac:(lra))) as T2.
    assert (U0 : Rabs (c0 Row * c0 A) <= X) by (replace X with (1 * X) by ring; apply mul_bound; lra). assert (U1 : Rabs (c1 Row * c1 A) <= X) by (replace X with (1 * X) by ring; apply mul_bound; lra). assert (U2 : Rabs (c2 Row * c2 A) <= X) by (replace X with (1 * X) by ring; apply mul_bound; lra).
    set (p := D * X + m * (1 + D) + eps * (11 / 10 * X)) in *. assert (HP : p <= D * X + 101 / 100 * m + 11 / 10 * (eps * X)) by (unfold p; lra).
    pose proof (nr_add (B := 22 / 10 * X) T0 T1 U0 U1 ltac:(lra) (MM (22 / 10) ltac:(lra))) as S1. assert (U3 : Rabs (c0 Row * c0 A + c1 Row * c1 A) <= 2 * X) by (apply abs_le in U0, U1; apply abs_le; lra).
    pose proof (nr_add (B := 33 / 10 * X) S1 T2 U3 U2 ltac:(lra) (MM (33 / 10) ltac:(lra))) as S2. assert (U4 : Rabs (c0 Row * c0 A + c1 Row * c1 A + c2 Row * c2 A) <= 3 * X) by (apply abs_le in U3, U2; apply abs_le; lra).
    pose proof (nr_sub (B := 44 / 10 * X) NY S2 LY U4 ltac:(lra) (MM (44 / 10) ltac:(lra))) as S3. eapply nr_weak; [|exact S3]. lra. }
  apply nr_close; [exact (ROW _ _ _ _ R0 Q0 B0 LB0)|exact (ROW _ _ _ _ R1 Q1 B1 LB1)|exact (ROW _ _ _ _ R2 Q2 B2 LB2)].
Qed.
Lemma zero_third s : fin3b s = true -> c0 (Rval3 s) >= c1 (Rval3 s) -> c1 (Rval3 s) >= c2 (Rval3 s) -> c2 (Rval3 s) >= 0 -> (neqb (c0 s) n0 || neqb (c1 s) n0 || neqb (c2 s) n0)%bool = true -> c2 (Rval3 s) = 0.
Proof.
  intros F H0 H1 H2 H. destruct (fin3b_all F) as (F0 & F1 & F2). rewrite !beq_spec in H by (auto; reflexivity). change (Bval n0) with 0 in H. cbn [Rval3 map3 c0 c1 c2] in *.
  apply orb_prop in H. destruct H as [H|H]; [apply orb_prop in H; destruct H as [H|H]|]; revert H; (case Req_bool_spec; [intros; lra|intros _ K; discriminate K]).
Qed.
Lemma transform_nearly svd d tau X ps qs r t : 0 <= d <= 1 / 1000 -> 0 <= tau -> accurate_svd d tau svd -> bpow radix2 (-180) <= X <= bpow radix2 180 -> Forall (within X) ps -> Forall (within X) qs ->
  length ps = length qs -> ps <> [] -> (Z.of_nat (length ps) <= 2 ^ 30)%Z -> find_rigid_transform svd (P3N ps) (P3N qs) = Ok (r, t) ->
  let n := INR (length ps) in
  exists Q o, rotation Q /\ close33 (9 * d + 20 * eps) r Q /\ close3 (X * (27 * d + (5 * n + 90) * eps)) t o /\ forall Q' o', orthogonal Q' ->
    residual (SpecRigid.rigid Q o) (map Rval3 ps) (map Rval3 qs) <= residual (SpecRigid.rigid Q' o') (map Rval3 ps) (map Rval3 qs) + n * (X * X) * (150 * tau + 330 * (n + 5) * eps).
Proof.
  intros D PT HS HX Wp Wq EL NE HL H n. pose proof eps_pos as PE. pose proof eps_small as SE. assert (PX : 0 < X) by (destruct HX as [H1 _]; pose proof (bpow_gt_0 radix2 (-180)); lra).
  assert (NEq : qs <> []) by (destruct ps, qs; [contradiction|discriminate EL|discriminate EL|discriminate]). assert (HLq : (Z.of_nat (length qs) <= 2 ^ 30)%Z) by (rewrite <- EL; exact HL).
  assert (HM : span_ok X) by (split; [apply Rle_trans with (bpow radix2 (-180)); [apply bpow_le; lia|apply HX]|apply Rle_trans with (bpow radix2 180); [apply HX|apply bpow_le; lia]]).
  apply transform_form in H. destruct H as (a' & b' & c & u & s & v & EA & EB & EG & ES & -> & -> & EZ). cbn [as_columns] in EA, EB. injection EA as <-. injection EB as <-.
  pose proof (centre_ap HX Wp NE HL) as CP. pose proof (centre_ap HX Wq NEq HLq) as CQ. rewrite <- EL in CQ. cbv zeta in CP, CQ. fold n in CP, CQ.
  pose proof (pos_INR (length ps)) as PN. fold n in PN. pose proof (eps_n HL) as EN. fold n in EN. assert (PXX : 0 < X * X) by (apply Rmult_lt_0_compat; lra).
  set (e := (n + 5) * (eps * X)) in *. assert (He : 0 <= e <= 2 * X / 1000). { unfold e. split; [apply Rmult_le_pos; nra|]. replace ((n + 5) * (eps * X)) with ((n * eps + 5 * eps) * X) by ring. replace (2 * X / 1000) with (2 / 1000 * X) by field. apply Rmult_le_compat_r; lra. }
  assert (HY : bpow radix2 (-190) <= 2 * X <= bpow radix2 190).
  { split; [apply Rle_trans with (bpow radix2 (-180)); [apply bpow_le; lia|lra]|]. apply Rle_trans with (bpow radix2 1 * bpow radix2 180); [change (bpow radix2 1) with 2; lra|rewrite <- bpow_plus; apply bpow_le; lia]. }
  set (a := map (fun p => vsub p (vmean ps)) ps) in *. set (b := map (fun p => vsub p (vmean qs)) qs) in *. assert (La : length a = length ps) by apply map_length. assert (Lb : length b = length qs) by apply map_length.
  destruct (@gram_ap e (2 * X) a b _ _ HY He ltac:(rewrite La; exact HL) ltac:(congruence) CP CQ) as (c' & EG' & CG & W0 & W1 & W2). rewrite EG in EG'. injection EG' as <-. rewrite La in CG, W0, W1, W2. fold n in CG, W0, W1, W2.
  set (g := n * (n + 3) * (eps * (2 * X * (2 * X))) + n * (201 / 100 * e * (2 * X))) in *.
  assert (EGV : g = n * (X * X) * ((4 * (n + 3) + 402 / 100 * (n + 5)) * eps)) by (unfold g, e; field). assert (PnX : 0 <= n * (X * X)) by nra. assert (Pg : 0 <= g) by (rewrite EGV; apply Rmult_le_pos; nra).
  assert (G9 : g <= 9 * (n * (X * X) * ((n + 5) * eps))). { rewrite EGV. replace (9 * (n * (X * X) * ((n + 5) * eps))) with (n * (X * X) * ((9 * (n + 5)) * eps)) by ring. apply Rmult_le_compat_l; [exact PnX|]. apply Rmult_le_compat_r; lra. }
  assert (G1 : g <= / 25 * (n * (X * X))). { eapply Rle_trans; [exact G9|]. replace (9 * (n * (X * X) * ((n + 5) * eps))) with ((9 * (n * eps) + 45 * eps) * (n * (X * X))) by ring. apply Rmult_le_compat_r; lra. }
  destruct (HS _ _ _ _ ES) as (U & V & C & SO & CU & CV & FS & HC). specialize (HC _ W0 W1 W2).
  set (h := tau * (n * (2 * X * (2 * X)) + g) + g) in *. assert (Ph : 0 <= h) by (unfold h; assert (0 <= tau * (n * (2 * X * (2 * X)) + g)) by (apply Rmult_le_pos; nra); lra).
  destruct (@turn_best d u v U V (Rval3 s) C h (cross_gram (centred (map Rval3 ps)) (centred (map Rval3 qs))) (combine (centred (map Rval3 ps)) (centred (map Rval3 qs))) D SO CU CV Ph) as (Q & RQ & CLQ & _ & BQ); [apply near_near with (c := c); assumption|reflexivity|].
  destruct SO as (_ & _ & S0 & S1 & S2 & _). specialize (BQ (fun K => zero_third FS S0 S1 S2 (EZ K))).
  exists Q, (rsub (centroid (map Rval3 qs)) (rapply Q (centroid (map Rval3 ps)))). split; [exact RQ|]. split; [exact CLQ|]. split.
  - destruct (vmean_ap HM Wp ltac:(destruct ps; [contradiction|cbn; lia]) HL) as (Ca & La0 & La1 & La2). destruct (vmean_ap HM Wq ltac:(destruct qs; [contradiction|cbn; lia]) HLq) as (Cb & Lb0 & Lb1 & Lb2). rewrite <- EL in Cb. fold n in Ca, Cb. set (m := (n + 2) * (eps * X)) in *.
    assert (Hm : 0 <= m <= X / 1000). { unfold m. split; [apply Rmult_le_pos; nra|]. replace ((n + 2) * (eps * X)) with ((n * eps + 2 * eps) * X) by ring. replace (X / 1000) with (/ 1000 * X) by field. apply Rmult_le_compat_r; lra. }
    assert (MX : forall k, 1 <= k <= 16 -> mid (k * X)) by (intros k Hk; apply span_mid; [exact HM|lra]). assert (M1 : mid X) by (replace X with (1 * X) by ring; apply MX; lra).
    pose proof (@shift_ap (9 * d + 20 * eps) m X (turn_of u v) Q _ _ _ _ M1 (MX 16 ltac:(lra)) ltac:(lra) Hm CLQ (Logic.proj1 RQ) Ca Cb (conj La0 (conj La1 La2)) (conj Lb0 (conj Lb1 Lb2)) MX) as ST.
    eapply close3_weak; [|exact ST]. unfold m. assert (0 <= eps * X) by nra. assert (0 <= n * (eps * X)) by nra. lra.
  - intros Q' o' O'. rewrite !residual_of. assert (Lr : length (map Rval3 ps) = length (map Rval3 qs)) by (rewrite !map_length; exact EL). assert (Nr : map Rval3 ps <> []) by (destruct ps; [contradiction|discriminate]).
    rewrite !(pres_split _ _ Lr Nr). rewrite map_length. fold n. match goal with |- _ + n * rdot ?x ?x <= _ => assert (Z0 : rdot x x = 0) by apply rsub_diag end. rewrite Z0.
    match goal with |- _ <= _ + n * rdot ?x ?x + _ => pose proof (rdot_nonneg x) as Z1; assert (Z2 : 0 <= n * rdot x x) by (apply Rmult_le_pos; assumption) end. specialize (BQ Q' O').
    assert (Z : tau * (n * (2 * X * (2 * X)) + g) <= 404 / 100 * (tau * (n * (X * X)))) by (replace (404 / 100 * (tau * (n * (X * X)))) with (tau * (404 / 100 * (n * (X * X)))) by ring; apply Rmult_le_compat_l; lra).
    assert (Z3 : 0 <= tau * (n * (X * X))) by (apply Rmult_le_pos; lra). assert (Z4 : 0 <= n * (X * X) * ((n + 5) * eps)) by (apply Rmult_le_pos; [lra|apply Rmult_le_pos; lra]). replace (n * (X * X) * (150 * tau + 330 * (n + 5) * eps)) with (150 * (tau * (n * (X * X))) + 330 * (n * (X * X) * ((n + 5) * eps))) by ring. unfold h in BQ. lra.
Qed.
