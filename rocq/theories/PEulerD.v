(** * euler in binary64, for any accurate sine and cosine. *)
From Coq Require Import Reals ZArith List Bool Ascii Lra Lia Psatz.
From Flocq Require Import Core IEEE754.BinarySingleNaN.
From Verif Require Import Num B64 BLemmas Vec RVec VLemmas MVx MPlane MRotation SpecRotation SpecDouble SpecTransD SpecTrigD PMat3 PRotation PRotation2 PErr PFar PNormB PSliceF PNormD PScaleD PLineD PLine2D PRodD.
Import ListNotations.
Local Open Scope R_scope.
Set Implicit Arguments.
Unset Strict Implicit.
Local Notation eps := PErr.eps.

(** a vector of doubles at distance at most [e] *)
Definition vnear (e : R) (v : V3 b64) (V : V3 R) : Prop := fin3b v = true /\ rnorm (rsub (Rval3 v) V) <= e.
Definition cnear (e : R) (m : M3 b64) (m0 : M3 R) : Prop := vnear e (mcol0 m) (rcol0 m0) /\ vnear e (mcol1 m) (rcol1 m0) /\ vnear e (mcol2 m) (rcol2 m0).
Lemma row_near d a A v : 0 <= d <= 1 / 100 -> close3 d a A -> coords_le 1 A -> within (106 / 100) v -> nr (32 / 10 * d + 9 * eps) (vdot a v) (rdot A (Rval3 v)).
Proof.
  intros [D0 D1] (Fa & E0 & E1 & E2) (L0 & L1 & L2) (Fv & V0 & V1 & V2). pose proof eps_pos as PE. pose proof eps_small as SE.
  unfold fin3b in Fa, Fv. apply andb_prop in Fa. destruct Fa as [Fa A2]. apply andb_prop in Fa. destruct Fa as [A0 A1]. apply andb_prop in Fv. destruct Fv as [Fv G2]. apply andb_prop in Fv. destruct Fv as [G0 G1].
  assert (S : forall x : b64, bfin x = true -> nr 0 x (Bval x)) by (intros x F; split; [exact F|]; rewrite Rminus_diag_eq, Rabs_R0 by reflexivity; lra).
  assert (M : forall x X y, nr d x X -> Rabs X <= 1 -> bfin y = true -> Rabs (Bval y) <= 106 / 100 -> nr (106 / 100 * d + 11 / 10 * eps) (nmul x y) (X * Bval y) /\ Rabs (X * Bval y) <= 106 / 100).
  { intros x X y Hx HX Fy Hy. split; [|replace (106 / 100) with (1 * (106 / 100)) by ring; apply mul_bound; lra]. apply nr_weak with (d * (106 / 100) + 0 * (1 + d) + eps * (11 / 10)); [lra|]. apply (nr_mul (P := 1) Hx (S y Fy)); auto; [nra|apply mid_const; lra]. }
  destruct (M _ _ _ (conj A0 E0) L0 G0 V0) as [M0 B0]. destruct (M _ _ _ (conj A1 E1) L1 G1 V1) as [M1 B1]. destruct (M _ _ _ (conj A2 E2) L2 G2 V2) as [M2 B2].
  assert (T1 := nr_add (B := 22 / 10) M0 M1 B0 B1 ltac:(lra) (mid_const (B := 22 / 10) ltac:(lra))). assert (BT : Rabs (c0 A * Bval (c0 v) + c1 A * Bval (c1 v)) <= 212 / 100) by (eapply Rle_trans; [apply Rabs_triang|lra]).
  assert (T2 := nr_add (B := 33 / 10) T1 M2 BT B2 ltac:(lra) (mid_const (B := 33 / 10) ltac:(lra))). apply nr_weak with (2 := T2). lra.
Qed.
Lemma rrow_le A : orthogonal A -> coords_le 1 (c0 A) /\ coords_le 1 (c1 A) /\ coords_le 1 (c2 A).
Proof.
  intros [O _]. assert (R : rdot (c0 A) (c0 A) = 1 /\ rdot (c1 A) (c1 A) = 1 /\ rdot (c2 A) (c2 A) = 1).
  { destruct A as [[a0 a1 a2] [b0 b1 b2] [d0 d1 d2]]. unfold rmmul, rtrans, reye, rcol0, rcol1, rcol2 in O. cbn [c0 c1 c2] in *. injection O as E1 E2 E3 E4 E5 E6 E7 E8 E9. auto. }
  assert (G : forall v, rdot v v = 1 -> coords_le 1 v) by (intros v Hv; assert (N : rnorm v = 1) by (unfold rnorm; rewrite Hv; apply sqrt_1); rewrite <- N; exact (comp_le v)). destruct R as (R0 & R1 & R2). auto.
Qed.
Lemma col_step d e a A v V : 0 <= d <= 1 / 100 -> e <= 1 / 20 -> close33 d a A -> orthogonal A -> vnear e v V -> rnorm V = 1 -> vnear (e + (64 / 10 * d + 18 * eps)) (mapply a v) (rapply A V).
Proof.
  intros Hd He (C0 & C1 & C2) O [Fv Ev] NV. pose proof eps_pos as PE. destruct (rrow_le O) as (R0 & R1 & R2).
  assert (W : within (106 / 100) v).
  { destruct (comp_le (rsub (Rval3 v) V)) as (A0 & A1 & A2). destruct (comp_le V) as (B0 & B1 & B2). rewrite NV in B0, B1, B2. unfold rsub in A0, A1, A2. cbn [c0 c1 c2] in A0, A1, A2. split; [exact Fv|]. fold (rsub (Rval3 v) V) in A0, A1, A2. unfold Rval3, map3 in A0, A1, A2. cbn [c0 c1 c2] in A0, A1, A2. fold (map3 Bval v) in A0, A1, A2. fold (Rval3 v) in A0, A1, A2.
    apply abs_le in A0, A1, A2, B0, B1, B2. repeat split; apply abs_le; lra. }
  destruct (row_near Hd C0 R0 W) as [F0 E0]. destruct (row_near Hd C1 R1 W) as [F1 E1]. destruct (row_near Hd C2 R2 W) as [F2 E2].
  split; [unfold fin3b, mapply, map3; cbn [c0 c1 c2]; now rewrite F0, F1, F2|].
  replace (rsub (Rval3 (mapply a v)) (rapply A V)) with (radd (rapply A (rsub (Rval3 v) V)) (rsub (Rval3 (mapply a v)) (rapply A (Rval3 v)))).
  2:{ rewrite rapply_sub. set (p := rapply A (Rval3 v)). set (q := rapply A V). set (s := Rval3 (mapply a v)). clearbody p q s. destruct p as [p0 p1 p2], q as [q0 q1 q2], s as [s0 s1 s2]. unfold radd, rsub. cbn [c0 c1 c2]. f_equal; ring. }
  eapply Rle_trans; [apply rnorm_tri|]. rewrite (orthogonal_norm _ O). apply Rplus_le_compat; [exact Ev|]. replace (64 / 10 * d + 18 * eps) with (2 * (32 / 10 * d + 9 * eps)) by field. apply rnorm_small; [lra|exact E0|exact E1|exact E2].
Qed.
Lemma rcol_unit A : orthogonal A -> rnorm (rcol0 A) = 1 /\ rnorm (rcol1 A) = 1 /\ rnorm (rcol2 A) = 1.
Proof.
  intros [_ O]. assert (R : rdot (rcol0 A) (rcol0 A) = 1 /\ rdot (rcol1 A) (rcol1 A) = 1 /\ rdot (rcol2 A) (rcol2 A) = 1).
  { destruct A as [[a0 a1 a2] [b0 b1 b2] [d0 d1 d2]]. unfold rmmul, rtrans, reye, rcol0, rcol1, rcol2 in O |- *. cbn [c0 c1 c2] in *. injection O as E1 E2 E3 E4 E5 E6 E7 E8 E9. auto. }
  destruct R as (R0 & R1 & R2). unfold rnorm. rewrite R0, R1, R2, sqrt_1. auto.
Qed.
Lemma mul_near d e a A m M : 0 <= d <= 1 / 100 -> e <= 1 / 20 -> close33 d a A -> orthogonal A -> cnear e m M -> orthogonal M -> cnear (e + (64 / 10 * d + 18 * eps)) (mmul a m) (rmmul A M).
Proof.
  intros Hd He C O (N0 & N1 & N2) OM. destruct (rcol_unit OM) as (U0 & U1 & U2). split; [|split].
  - exact (col_step Hd He C O N0 U0).
  - exact (col_step Hd He C O N1 U1).
  - exact (col_step Hd He C O N2 U2).
Qed.

Section Euler.
Context (T : Trans b64) (HT : accurate_trig T).
(** the double [t] stands for the angle [th], up to [d] eps *)
Definition angle_ok (d : R) (t : b64) (th : R) : Prop := 0 <= d /\ bfin t = true /\ Rabs (Bval t - th) <= d * eps.
Lemma trig_near d t th : angle_ok d t th -> nr ((1 + d) * eps) (ncos t) (cos th) /\ nr ((1 + d) * eps) (nsin t) (sin th).
Proof.
  intros (Pd & F & E). destruct HT as (HS & HC & _). destruct (HC t F) as [FC EC]. destruct (HS t F) as [FS ES]. change ulp_1 with eps in EC, ES. pose proof (cos_lip (Bval t) th) as LC. pose proof (sin_lip (Bval t) th) as LS.
  assert (LC' : Rabs (cos (Bval t) - cos th) <= d * eps) by lra. assert (LS' : Rabs (sin (Bval t) - sin th) <= d * eps) by lra. apply abs_le in EC, ES, LC', LS'. split; (split; [assumption|apply abs_le; lra]).
Qed.
Lemma step_near d e t th a m M : angle_ok d t th -> (1 + d) * eps <= 1 / 100 -> e <= 1 / 20 -> cnear e m M -> rotation M ->
  match axis_of a with
  | None => euler_step m t a = m
  | Some k => exists A, turns_about k th A /\ cnear (e + 25 * ((1 + d) * eps)) (euler_step m t a) (rmmul A M)
  end.
Proof.
  intros Ha Hd He Hm [OM _]. destruct (trig_near Ha) as [Hc Hs]. pose proof eps_pos as PE. destruct Ha as (Pd & _). set (D := (1 + d) * eps) in *. assert (PD : eps <= D) by (unfold D; nra). pose proof (nr_opp Hs) as Ho.
  assert (N0 : nr D n0 0) by (apply nr_weak with (2 := nr_0); lra). assert (N1 : nr D (nofZ 1) 1) by (apply nr_weak with (2 := nr_1); lra).
  assert (G : forall b A, close33 D b A -> rotation A -> cnear (e + 25 * D) (mmul b m) (rmmul A M)).
  { intros b A C [OA _]. assert (K := @mul_near D e b A m M ltac:(lra) He C OA Hm OM). destruct K as ([F0 E0] & [F1 E1] & [F2 E2]). repeat split; try assumption; eapply Rle_trans; try eassumption; lra. }
  unfold axis_of, euler_step. destruct (Ascii.eqb_spec a "x") as [->|X].
  { exists (mk3 (mk3 1 0 0) (mk3 0 (cos th) (- sin th)) (mk3 0 (sin th) (cos th))). pose proof (turn_x th) as TX. split; [exact TX|]. change (Ascii.eqb "x" "y") with false. change (Ascii.eqb "x" "z") with false. cbv iota. apply G; [|eapply turns_rotation; [|exact TX]; unfold ex, rdot; cbn; ring]. split; [|split]; apply nr_close; cbn [c0 c1 c2]; assumption. }
  destruct (Ascii.eqb_spec a "y") as [->|Y].
  { exists (mk3 (mk3 (cos th) 0 (sin th)) (mk3 0 1 0) (mk3 (- sin th) 0 (cos th))). pose proof (turn_y th) as TX. split; [exact TX|]. change (Ascii.eqb "y" "z") with false. cbv iota. apply G; [|eapply turns_rotation; [|exact TX]; unfold ey, rdot; cbn; ring]. split; [|split]; apply nr_close; cbn [c0 c1 c2]; assumption. }
  destruct (Ascii.eqb_spec a "z") as [->|Z].
  { exists (mk3 (mk3 (cos th) (- sin th) 0) (mk3 (sin th) (cos th) 0) (mk3 0 0 1)). pose proof (turn_z th) as TX. split; [exact TX|]. apply G; [|eapply turns_rotation; [|exact TX]; unfold ez, rdot; cbn; ring]. split; [|split]; apply nr_close; cbn [c0 c1 c2]; assumption. }
  reflexivity.
Qed.
(** a list of angles, all within [d] eps *)
Lemma fold_near d l L : Forall2 (fun x y => angle_ok d (fst x) (fst y) /\ snd x = snd y) l L -> forall e m M, 0 <= d -> 0 <= e -> (1 + d) * eps <= 1 / 1000 ->
  e + 25 * ((1 + d) * eps) * INR (length l) <= 1 / 20 -> cnear e m M -> rotation M ->
  exists A, cnear (e + 25 * ((1 + d) * eps) * INR (length l)) (fold_left (fun r ta => euler_step r (fst ta) (snd ta)) l m) (rmmul A M) /\ rotation A /\ forall v, turned L v (rapply A v).
Proof.
  intros H. pose proof eps_pos as PE. induction H as [|[t a] [th b] l L [Ha E] HF IH]; intros e m M Pd Pe Hd He Hm HM.
  - exists reye. cbn [length fold_left]. rewrite rmmul_eye_l. split; [|split; [apply rotation_eye|intros v; rewrite rapply_eye; constructor]]. change (INR 0) with 0. rewrite Rmult_0_r, Rplus_0_r. exact Hm.
  - cbn [fst snd length fold_left] in *. subst b. rewrite S_INR in *. pose proof (pos_INR (length l)) as PN. set (D := (1 + d) * eps) in *. assert (PD : 0 < D) by (unfold D; nra). assert (Q : 0 <= D * INR (length l)) by (apply Rmult_le_pos; lra).
    pose proof (@step_near d e t th a m M Ha ltac:(fold D; lra) ltac:(lra) Hm HM) as S. fold D in S. destruct (axis_of a) as [k|] eqn:EA.
    + destruct S as (A & TA & N). pose proof (turns_rotation (axis_of_unit EA) TA) as RA. destruct (IH (e + 25 * D) (euler_step m t a) (rmmul A M)) as (B & NB & RB & TB); auto; try lra; [now apply rotation_mul|].
      exists (rmmul B A). rewrite rmmul_assoc. split; [|split; [now apply rotation_mul|]].
      * replace (e + 25 * D * (INR (length l) + 1)) with (e + 25 * D + 25 * D * INR (length l)) by ring. exact NB.
      * intros v. rewrite rapply_mul. eapply turned_step; eauto.
    + rewrite S. destruct (IH e m M) as (B & NB & RB & TB); auto; [lra|]. exists B. split; [|split; [exact RB|]].
      * destruct NB as ([F0 E0] & [F1 E1] & [F2 E2]). repeat split; try assumption; eapply Rle_trans; try eassumption; lra.
      * intros v. now apply turned_skip.
Qed.
Lemma cnear_close e m M : cnear e m M -> close33 e m M.
Proof.
  intros ([F0 E0] & [F1 E1] & [F2 E2]). destruct (comp_le (rsub (Rval3 (mcol0 m)) (rcol0 M))) as (A0 & A1 & A2). destruct (comp_le (rsub (Rval3 (mcol1 m)) (rcol1 M))) as (B0 & B1 & B2). destruct (comp_le (rsub (Rval3 (mcol2 m)) (rcol2 M))) as (D0 & D1 & D2).
  unfold fin3b in F0, F1, F2. apply andb_prop in F0. destruct F0 as [F0 F02]. apply andb_prop in F0. destruct F0 as [F00 F01]. apply andb_prop in F1. destruct F1 as [F1 F12]. apply andb_prop in F1. destruct F1 as [F10 F11]. apply andb_prop in F2. destruct F2 as [F2 F22]. apply andb_prop in F2. destruct F2 as [F20 F21].
  split; [|split]; apply nr_close; (split; [assumption|eapply Rle_trans; eassumption]).
Qed.
Lemma cnear_eye : cnear 0 meye reye.
Proof.
  destruct nr_0 as [G0 E0]. destruct nr_1 as [G1 E1]. assert (V0 : Bval n0 = 0) by (apply abs_le in E0; lra). assert (V1 : Bval (nofZ 1) = 1) by (apply abs_le in E1; lra).
  split; [|split]; (split; [reflexivity|]); unfold mcol0, mcol1, mcol2, rcol0, rcol1, rcol2, meye, reye, Rval3, map3, rsub; cbn [c0 c1 c2]; rewrite V0, V1; unfold rnorm, rdot; cbn [c0 c1 c2]; right; rewrite <- sqrt_0; f_equal; ring.
Qed.
Lemma rapply_ext A B : (forall v, rapply A v = rapply B v) -> A = B.
Proof.
  intros H. pose proof (H (mk3 1 0 0)) as H0. pose proof (H (mk3 0 1 0)) as H1. pose proof (H (mk3 0 0 1)) as H2. destruct A as [[a0 a1 a2] [b0 b1 b2] [d0 d1 d2]], B as [[e0 e1 e2] [f0 f1 f2] [g0 g1 g2]]. unfold rapply, rdot in *. cbn [c0 c1 c2] in *. injection H0 as X0 X1 X2. injection H1 as Y0 Y1 Y2. injection H2 as Z0 Z1 Z2. f_equal; f_equal; lra.
Qed.
Lemma euler_near d l L M : Forall2 (fun x y => angle_ok d (fst x) (fst y) /\ snd x = snd y) l L -> 0 <= d -> (1 + d) * eps <= 1 / 1000 ->
  25 * ((1 + d) * eps) * INR (length l) <= 1 / 20 -> (forall v, turned L v (rapply M v)) -> close33 (25 * ((1 + d) * eps) * INR (length l)) (fold_left (fun r ta => euler_step r (fst ta) (snd ta)) l meye) M.
Proof.
  intros HF Pd Hd Hn HM. destruct (@fold_near d l L HF 0 meye reye Pd ltac:(lra) Hd ltac:(lra) cnear_eye rotation_eye) as (A & NA & _ & TA). rewrite rmmul_eye_r, Rplus_0_l in NA. replace M with A; [now apply cnear_close|]. apply rapply_ext. intros v. exact (turned_fun (TA v) (HM v)).
Qed.
Lemma euler_rad xyz order M : Forall (fun x => bfin x = true) xyz -> INR (length order) <= 1000000000 -> (forall v, turned (combine (map Bval xyz) order) v (rapply M v)) ->
  close33 (25 * INR (length order) * eps) (euler xyz order false) M.
Proof.
  intros HF Hn HM. pose proof eps_pos as PE. pose proof eps_small as SE. set (l := combine xyz order). assert (Ln : INR (length l) <= INR (length order)) by (apply le_INR; unfold l; rewrite combine_length; lia). pose proof (pos_INR (length l)) as PN.
  assert (C : close33 (25 * ((1 + 0) * eps) * INR (length l)) (euler xyz order false) M).
  { apply euler_near with (combine (map Bval xyz) order); auto; try lra; [|nra]. unfold l. clear - HF PE. revert order. induction HF as [|x xs F HF IH]; intros [|o os]; cbn [map combine]; constructor; auto. cbn [fst snd]. split; [|reflexivity]. split; [lra|]. split; [exact F|]. rewrite Rminus_diag_eq, Rabs_R0 by reflexivity. lra. }
  assert (W : forall v w, close3 (25 * ((1 + 0) * eps) * INR (length l)) v w -> close3 (25 * INR (length order) * eps) v w) by (intros v w (F & A & B & D); assert (25 * ((1 + 0) * eps) * INR (length l) <= 25 * INR (length order) * eps) by nra; repeat split; try assumption; lra).
  destruct C as (C0 & C1 & C2). split; [|split]; apply W; assumption.
Qed.
(** degrees *)
Lemma deg_near : bfin (ndiv npi (nofZ 180)) = true /\ Rabs (Bval (ndiv npi (nofZ 180)) - PI / 180) <= eps / 26.
Proof.
  destruct HT as (_ & _ & FP & EP). change ulp_1 with eps in EP. pose proof eps_pos as PE. pose proof eps_small as SE. destruct (@int_val 180) as [F V]; [lia|]. pose proof PI_4 as P4. pose proof PI2_3_2 as P3. apply abs_le in EP.
  assert (MB : mid (/ 32)) by (change (/ 32) with (bpow radix2 (-5)); split; apply bpow_le; lia).
  destruct (@div_ap npi (nofZ 180) (/ 32) FP MB) as [G E]; [rewrite V; lra|rewrite V; apply abs_le; lra|]. split; [exact G|]. rewrite V in E. apply abs_le in E. apply abs_le. lra.
Qed.
Lemma deg_angle A x : bfin x = true -> Rabs (Bval x * (PI / 180)) <= A -> A <= 1000000000 -> angle_ok (1 / 10 + 7 / 2 * A) (nmul x (ndiv npi (nofZ 180))) (Bval x * (PI / 180)).
Proof.
  intros F HA HA2. destruct deg_near as [G E]. set (p := ndiv npi (nofZ 180)) in *. pose proof eps_pos as PE. pose proof eps_small as SE. pose proof PI_4 as P4. pose proof PI2_3_2 as P3. pose proof (Rabs_pos (Bval x)) as PX.
  assert (HX : Rabs (Bval x) <= 60 * A). { rewrite Rabs_mult, (Rabs_pos_eq (PI / 180)) in HA by lra. assert (Rabs (Bval x) * (3 / 180) <= Rabs (Bval x) * (PI / 180)) by (apply Rmult_le_compat_l; lra). lra. }
  apply abs_le in E. assert (HP : Rabs (Bval p) <= / 44) by (apply abs_le; lra). pose proof (Rle_trans _ _ _ (Rabs_pos _) HA) as PA. pose proof (bpow_gt_0 radix2 (-1000)) as PB. assert (SB : bpow radix2 (-1000) <= / 1000) by (apply Rle_trans with (bpow radix2 (-10)); [apply bpow_le; lia|cbn; lra]).
  assert (XP : Rabs (Bval x * Bval p) <= A + A / 1000000). { replace (Bval x * Bval p) with (Bval x * (PI / 180) + Bval x * (Bval p - PI / 180)) by ring. eapply Rle_trans; [apply Rabs_triang|]. apply Rplus_le_compat; [exact HA|]. apply Rle_trans with (60 * A * (eps / 26)); [apply mul_bound; try lra; apply abs_le; lra|nra]. }
  destruct (@mul_ap x p (A + A / 1000000 + bpow radix2 (-1000)) F G) as [H H2]; [split; [lra|]|lra|].
  { apply Rle_trans with (bpow radix2 100); [|apply bpow_le; lia]. apply Rle_trans with 10000000000; [lra|]. cbn. lra. }
  split; [lra|]. split; [exact H|]. replace (Bval (nmul x p) - Bval x * (PI / 180)) with ((Bval (nmul x p) - Bval x * Bval p) + Bval x * (Bval p - PI / 180)) by ring.
  assert (A2 : Rabs (Bval x * (Bval p - PI / 180)) <= 60 * A * (eps / 26)) by (apply mul_bound; try lra; apply abs_le; lra). apply abs_le in H2, A2. apply abs_le.
  assert (0 <= A * eps) by (apply Rmult_le_pos; lra). assert (eps * bpow radix2 (-1000) <= eps * / 1000) by (apply Rmult_le_compat_l; lra). lra.
Qed.
Lemma euler_deg A xyz order M : Forall (fun x => bfin x = true /\ Rabs (Bval x * (PI / 180)) <= A) xyz -> 0 <= A -> (1 + A) * INR (length order) <= 100000000 -> A <= 100000000 -> (forall v, turned (combine (map (fun x => Bval x * (PI / 180)) xyz) order) v (rapply M v)) ->
  close33 (90 * (1 + A) * INR (length order) * eps) (euler xyz order true) M.
Proof.
  intros HF PA Hn HA HM. pose proof eps_pos as PE. pose proof eps_small as SE. set (l := combine (map (fun x => nmul x (ndiv npi (nofZ 180))) xyz) order). assert (Ln : INR (length l) <= INR (length order)) by (apply le_INR; unfold l; rewrite combine_length; lia). pose proof (pos_INR (length l)) as PN.
  set (d := 1 / 10 + 7 / 2 * A). assert (Q1 : 25 * (1 + d) <= 90 * (1 + A)) by (unfold d; lra).
  assert (Q2 : 25 * (1 + d) * INR (length l) <= 90 * (1 + A) * INR (length order)) by (apply Rmult_le_compat; try lra; unfold d; lra).
  assert (C : close33 (25 * ((1 + d) * eps) * INR (length l)) (euler xyz order true) M).
  { apply euler_near with (combine (map (fun x => Bval x * (PI / 180)) xyz) order); auto; try (unfold d; nra); [|nra]. unfold l, d. clear - HF PE HA PA HT. revert order. induction HF as [|x xs [F B] HF IH]; intros [|o os]; cbn [map combine]; constructor; auto. cbn [fst snd]. split; [|reflexivity]. apply deg_angle; auto. lra. }
  assert (W : forall v w, close3 (25 * ((1 + d) * eps) * INR (length l)) v w -> close3 (90 * (1 + A) * INR (length order) * eps) v w) by (intros v w (F & X & B & D); assert (25 * ((1 + d) * eps) * INR (length l) <= 90 * (1 + A) * INR (length order) * eps) by nra; repeat split; try assumption; lra).
  destruct C as (C0 & C1 & C2). split; [|split]; apply W; assumption.
Qed.
End Euler.
