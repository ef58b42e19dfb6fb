(** * The intersection of a segment with a plane in binary64. *)
From Coq Require Import Reals ZArith List Bool Lra Lia Psatz.
From Flocq Require Import Core IEEE754.BinarySingleNaN.
From Verif Require Import Num B64 BLemmas Vec RVec VLemmas SpecGeom MVx MPlane SpecDouble PErr PFar PNormB PSliceF PNormD PPlaneD PCrossD PLineD PXsecD.
Local Open Scope R_scope.
Set Implicit Arguments.
Unset Strict Implicit.

Section Xseg.
Context (M E : R) (HM : bpow radix2 (-150) <= M <= bpow radix2 150) (HE : bpow radix2 (-149) <= E <= bpow radix2 149).
Context (r n : V3 b64) (Wr : within M r) (Fn : fin3b n = true) (Un : rnorm (Rval3 n) <= bpow radix2 400) (p : plane b64) (HP : mk_plane r n = Ok p).
Context (a b : V3 b64) (Wa : within M a) (Fb : fin3b b = true).
Let v := rsub (Rval3 b) (Rval3 a).
Context (Hv : Rabs (c0 v) <= E /\ Rabs (c1 v) <= E /\ Rabs (c2 v) <= E).
Let N := unit_of (Rval3 n).
Let D := rdot v N.
Let d := plane_distance r n a.
Context (LD : bpow radix2 (-19) * E <= Rabs D).
Let c := Rabs D / E.
Let A := M / (c * c).
Let t := - d / D.
Let E' := 1001 / 1000 * E.
Let ray := vsub b a.
Let D' := rdot (Rval3 ray) N.
Lemma g_E : 0 < E /\ 0 < M /\ bpow radix2 (-150) <= E' <= bpow radix2 150.
Proof.
  pose proof (bpow_gt_0 radix2 (-149)). pose proof (bpow_gt_0 radix2 (-150)). repeat split; try lra; unfold E'.
  - apply Rle_trans with (bpow radix2 (-149)); [apply bpow_le; lia|lra].
  - apply Rle_trans with (bpow radix2 1 * bpow radix2 149); [change (bpow radix2 1) with 2; lra|rewrite <- bpow_plus; apply bpow_le; lia].
Qed.
Lemma g_mid : mid (1 * E).
Proof. apply scale_mid; [|lra]. destruct HE as [H1 H2]. split; [apply Rle_trans with (2 := H1)|apply Rle_trans with (1 := H2)]; apply bpow_le; lia. Qed.
Lemma g_ray : within E' ray /\ close3 (eps * E) ray v.
Proof.
  destruct g_E as (PE & PM & _). pose proof eps_pos as P0. pose proof eps_small as S0. destruct (within_fin Wa) as (F0 & F1 & F2). assert (G : bfin (c0 b) = true /\ bfin (c1 b) = true /\ bfin (c2 b) = true).
  { unfold fin3b in Fb. apply andb_prop in Fb. destruct Fb as [X Z]. apply andb_prop in X. destruct X. auto. }
  destruct G as (G0 & G1 & G2). assert (H1 : forall x y : b64, bfin x = true -> bfin y = true -> Rabs (Bval x - Bval y) <= E -> bfin (nsub x y) = true /\ Rabs (Bval (nsub x y) - (Bval x - Bval y)) <= eps * E /\ Rabs (Bval (nsub x y)) <= E').
  { intros x y Fx Fy H. destruct (@sub_ap x y (1 * E) Fx Fy g_mid) as [F C]; [lra|]. rewrite Rmult_1_l in C. split; [exact F|]. split; [exact C|]. assert (eps * E <= / 1000000000000 * E) by (apply Rmult_le_compat_r; lra). apply abs_le in C, H. unfold E'. apply abs_le. lra. }
  destruct Hv as (V0 & V1 & V2). destruct (H1 _ _ G0 F0 V0) as (A0 & B0 & C0). destruct (H1 _ _ G1 F1 V1) as (A1 & B1 & C1). destruct (H1 _ _ G2 F2 V2) as (A2 & B2 & C2).
  assert (FF : fin3b ray = true) by (unfold fin3b; apply andb_true_intro; split; [apply andb_true_intro; split|]; assumption). split; (split; [exact FF|]); repeat split; assumption.
Qed.
Lemma g_unit : Rabs (c0 N) <= 1 /\ Rabs (c1 N) <= 1 /\ Rabs (c2 N) <= 1.
Proof. pose proof (plane_unit Fn Un HP) as U. fold N in U. destruct (comp_le N) as (H0 & H1 & H2). rewrite U in *. auto. Qed.
Lemma g_DD : Rabs (D' - D) <= 3 * (eps * E).
Proof.
  destruct g_E as (PE & PM & _). pose proof eps_pos as P0. destruct g_ray as [_ (_ & H0 & H1 & H2)]. destruct g_unit as (U0 & U1 & U2). assert (0 <= eps * E) by (apply Rmult_le_pos; lra).
  assert (T0 : Rabs ((Bval (c0 ray) - c0 v) * c0 N) <= eps * E * 1) by (apply mul_bound; lra). assert (T1 : Rabs ((Bval (c1 ray) - c1 v) * c1 N) <= eps * E * 1) by (apply mul_bound; lra). assert (T2 : Rabs ((Bval (c2 ray) - c2 v) * c2 N) <= eps * E * 1) by (apply mul_bound; lra).
  apply abs_le in T0, T1, T2. apply abs_le. unfold D', D, rdot, Rval3, map3. cbn [c0 c1 c2]. lra.
Qed.
Lemma g_low : 999 / 1000 * Rabs D <= Rabs D' /\ bpow radix2 (-20) * E' <= Rabs D' /\ 0 < Rabs D /\ D <> 0 /\ D' <> 0.
Proof.
  destruct g_E as (PE & PM & _). pose proof g_DD as H. pose proof eps_val as V0. change (bpow radix2 (-19)) with (/ 524288) in LD. change (bpow radix2 (-20)) with (/ 1048576).
  assert (S : 3 * (eps * E) <= / 1000 * Rabs D) by (rewrite V0; lra). assert (L : 999 / 1000 * Rabs D <= Rabs D') by (apply abs_le in H; revert H S; unfold Rabs; destruct (Rcase_abs D), (Rcase_abs D'); lra).
  assert (PD : 0 < Rabs D) by lra. split; [exact L|]. split; [unfold E'; lra|]. split; [exact PD|]. split; intros Z; [rewrite Z, Rabs_R0 in PD; lra|rewrite Z, Rabs_R0 in L; lra].
Qed.
Let t' := - d / D'.
Lemma g_c : 0 < c <= 2 /\ Rabs D = c * E /\ M = A * (c * c) /\ 0 < A.
Proof.
  destruct g_E as (PE & PM & _). destruct g_low as (_ & _ & PD & _). assert (V : Rabs D = c * E) by (unfold c; field; lra). assert (PC : 0 < c) by (apply Rmult_lt_reg_r with E; lra).
  assert (U : Rabs D <= 2 * E).
  { unfold D. pose proof (cauchy v N) as C. pose proof (plane_unit Fn Un HP) as U. fold N in U. rewrite U, Rmult_1_r in C. apply Rle_trans with (1 := C). destruct Hv as (V0 & V1 & V2). apply rnorm_small; [lra| | |]; assumption. }
  assert (0 < c * c) by (apply Rmult_lt_0_compat; lra). split; [split; [exact PC|apply Rmult_le_reg_r with E; lra]|]. split; [exact V|]. split; [unfold A; field; lra|unfold A; apply Rmult_lt_0_compat; [lra|apply Rinv_0_lt_compat; lra]].
Qed.
Lemma g_t : E * Rabs (t' - t) <= 121 / 10 * (eps * A) /\ E * Rabs t' <= 81 / 10 * A.
Proof.
  destruct g_E as (PE & PM & _). destruct g_low as (L & _ & PD & ND & ND'). destruct g_c as ([C1 C2] & VD & VM & PA). pose proof g_DD as H. pose proof eps_pos as P0. pose proof (dist_size (x_scale HM) Wr Fn Un HP Wa) as B. fold d in B.
  assert (PDD : 0 < Rabs D') by lra. assert (LC : 999 / 1000 * (c * E) <= Rabs D') by lra. assert (PEA : 0 < eps * A) by (apply Rmult_lt_0_compat; lra).
  split.
  - replace (t' - t) with (d * (D' - D) / (D * D')) by (unfold t', t; field; auto). rewrite <- (Rabs_pos_eq E) at 1 by lra. rewrite <- Rabs_mult. replace (E * (d * (D' - D) / (D * D'))) with (E * (d * (D' - D)) / (D * D')) by (field; auto).
    apply quot_le; [apply Rmult_integral_contrapositive_currified; auto|]. rewrite !Rabs_mult, (Rabs_pos_eq E) by lra.
    assert (T : Rabs d * Rabs (D' - D) <= 4 * M * (3 * (eps * E))) by (apply Rmult_le_compat; auto using Rabs_pos). apply Rle_trans with (E * (4 * M * (3 * (eps * E)))); [apply Rmult_le_compat_l; lra|]. rewrite VM.
    apply Rle_trans with (121 / 10 * (eps * A) * (c * E * (999 / 1000 * (c * E)))).
    + assert (0 <= eps * A * (c * E * (c * E))) by (apply Rmult_le_pos; [lra|]; apply Rmult_le_pos; apply Rmult_le_pos; lra). apply Rle_trans with (121 / 10 * (999 / 1000) * (eps * A * (c * E * (c * E)))); [|right; ring].
      apply Rle_trans with (12 * (eps * A * (c * E * (c * E)))); [right; ring|lra].
    + apply Rmult_le_compat_l; [lra|]. rewrite VD. apply Rmult_le_compat_l; [apply Rmult_le_pos; lra|exact LC].
  - unfold t'. rewrite <- (Rabs_pos_eq E) at 1 by lra. rewrite <- Rabs_mult. replace (E * (- d / D')) with (- (E * d) / D') by (field; auto). apply quot_le; [exact ND'|]. rewrite Rabs_Ropp, Rabs_mult, (Rabs_pos_eq E) by lra.
    apply Rle_trans with (E * (4 * M)); [apply Rmult_le_compat_l; lra|]. rewrite VM. apply Rle_trans with (81 / 10 * A * (999 / 1000 * (c * E))); [|apply Rmult_le_compat_l; lra].
    assert (CC : c * c <= 2 * c) by (apply Rmult_le_compat_r; lra). assert (W : A * E * (c * c) <= A * E * (2 * c)) by (apply Rmult_le_compat_l; [apply Rmult_le_pos; lra|exact CC]). assert (0 <= A * E * c) by (apply Rmult_le_pos; [apply Rmult_le_pos; lra|lra]). lra.
Qed.
Lemma g_A' : M / (Rabs D' / E' * (Rabs D' / E')) <= 101 / 100 * A.
Proof.
  destruct g_E as (PE & PM & _). destruct g_low as (L & _ & PD & ND & ND'). destruct g_c as ([C1 C2] & VD & VM & PA). set (k := Rabs D' / E').
  assert (PE' : 0 < E') by (unfold E'; lra). assert (VK : Rabs D' = k * E') by (unfold k; field; lra).
  assert (K : 997 / 1000 * c <= k) by (apply Rmult_le_reg_r with E'; [exact PE'|]; rewrite <- VK; rewrite VD in L; assert (0 <= c * E) by (apply Rmult_le_pos; lra); unfold E'; lra).
  assert (KK : 997 / 1000 * c * (997 / 1000 * c) <= k * k) by (apply Rmult_le_compat; lra). assert (PK : 0 < k * k) by (apply Rmult_lt_0_compat; lra). apply Rmult_le_reg_r with (k * k); [exact PK|]. replace (M / (k * k) * (k * k)) with M by (field; intros Z; rewrite Z in PK; lra).
  apply Rle_trans with (101 / 100 * A * (997 / 1000 * c * (997 / 1000 * c))); [|apply Rmult_le_compat_l; lra]. rewrite VM at 1. assert (0 < A * (c * c)) by (rewrite <- VM; exact PM). lra.
Qed.
Let x := radd (Rval3 a) (rscale t v).
Lemma g_line : exists y, line_xsection p a ray = Some y /\ close3 (600 * (eps * A)) y x.
Proof.
  destruct g_E as (PE & PM & HE'). destruct g_low as (L & L' & PD & ND & ND'). destruct g_c as ([C1 C2] & VD & VM & PA). destruct g_t as [T1 T2]. destruct g_ray as [WR CR]. pose proof eps_pos as P0. pose proof g_A' as GA.
  destruct (xsec_ap HM HE' Wr Fn Un HP Wa WR L') as (y & Hy & Fy & Y0 & Y1 & Y2). exists y. split; [exact Hy|]. split; [exact Fy|]. fold N in Y0, Y1, Y2. fold D' in Y0, Y1, Y2. fold d in Y0, Y1, Y2. fold t' in Y0, Y1, Y2.
  assert (PEA : 0 < eps * A) by (apply Rmult_lt_0_compat; lra). assert (GE : eps * (M / (Rabs D' / E' * (Rabs D' / E'))) <= eps * (101 / 100 * A)) by (apply Rmult_le_compat_l; lra).
  assert (C : forall (q e v0 y0 : R), Rabs (e - v0) <= eps * E -> Rabs v0 <= E -> Rabs (y0 - (q + t' * e)) <= 570 * (eps * (M / (Rabs D' / E' * (Rabs D' / E')))) -> Rabs (y0 - (q + t * v0)) <= 600 * (eps * A)).
  { intros q e v0 y0 He Hv0 HY. assert (S1 : Rabs ((t' - t) * v0) <= 121 / 10 * (eps * A)) by (rewrite Rabs_mult; apply Rle_trans with (Rabs (t' - t) * E); [apply Rmult_le_compat_l; [apply Rabs_pos|exact Hv0]|lra]).
    assert (S2 : Rabs (t' * (e - v0)) <= eps * (81 / 10 * A)) by (rewrite Rabs_mult; apply Rle_trans with (Rabs t' * (eps * E)); [apply Rmult_le_compat_l; [apply Rabs_pos|exact He]|]; apply Rle_trans with (eps * (E * Rabs t')); [right; ring|apply Rmult_le_compat_l; lra]).
    apply abs_le in HY, S1, S2. apply abs_le. lra. }
  destruct CR as (_ & K0 & K1 & K2). destruct Hv as (V0 & V1 & V2). split; [exact (C _ _ _ _ K0 V0 Y0)|]. split; [exact (C _ _ _ _ K1 V1 Y1)|exact (C _ _ _ _ K2 V2 Y2)].
Qed.
(** where the end points agree the result has the same coordinate *)
Lemma flat_coord (s ai bi : b64) : bfin s = true -> bfin ai = true -> bfin bi = true -> Rabs (Bval ai) <= M -> Bval ai = Bval bi -> Bval (nadd (nmul s (nsub bi ai)) ai) = Bval ai.
Proof.
  intros Fs Fa Fb' Ha H. change (Bval (badd (bmul s (bsub bi ai)) ai) = Bval ai). assert (BP : 0 < bpow radix2 1000) by apply bpow_gt_0. destruct (@bsub_val bi ai Fb' Fa) as [V F]; [rewrite H, Rminus_diag_eq, Rabs_R0 by reflexivity; lra|].
  assert (Z : Bval (bsub bi ai) = 0) by (rewrite V, H, Rminus_diag_eq by reflexivity; apply rnd64_0). destruct (@bmul_val s (bsub bi ai) Fs F) as [V1 F1]; [rewrite Z, Rmult_0_r, Rabs_R0; lra|]. rewrite Z, Rmult_0_r, rnd64_0 in V1.
  destruct (@badd_val (bmul s (bsub bi ai)) ai F1 Fa) as [V2 F2]; [rewrite V1, Rplus_0_l; apply Rle_trans with (1 := Ha); apply Rle_trans with (bpow radix2 150); [lra|apply bpow_le; lia]|]. rewrite V2, V1, Rplus_0_l. apply rnd64_B.
Qed.
Definition clear_of (e : R) (ai bi xi : R) : Prop := ai = bi \/ Rmin ai bi + e <= xi <= Rmax ai bi - e.
Lemma oob_coord e (y ai bi : b64) xi : bfin y = true -> bfin ai = true -> bfin bi = true -> Rabs (Bval y - xi) <= e -> (Bval ai = Bval bi -> Bval y = Bval ai) -> clear_of e (Bval ai) (Bval bi) xi ->
  nlt ai y && nlt bi y = false /\ nlt y ai && nlt y bi = false.
Proof.
  intros Fy Fa Fb' H Fl C. rewrite !blt_spec by assumption. apply abs_le in H. destruct C as [C|C].
  - rewrite (Fl C), <- C. rewrite Rlt_bool_false by lra. auto.
  - revert C. unfold Rmin, Rmax. destruct (Rle_dec (Bval ai) (Bval bi)); intros C; split; apply andb_false_iff; [right|left|left|right]; apply Rlt_bool_false; lra.
Qed.
Definition beyond (e : R) (ai bi xi : R) : Prop := Rmax ai bi + e < xi \/ xi < Rmin ai bi - e.
Lemma beyond_coord e (y ai bi : b64) xi : bfin y = true -> bfin ai = true -> bfin bi = true -> Rabs (Bval y - xi) <= e -> beyond e (Bval ai) (Bval bi) xi -> nlt ai y && nlt bi y = true \/ nlt y ai && nlt y bi = true.
Proof.
  intros Fy Fa Fb' H C. rewrite !blt_spec by assumption. apply abs_le in H. pose proof (Rmax_l (Bval ai) (Bval bi)). pose proof (Rmax_r (Bval ai) (Bval bi)). pose proof (Rmin_l (Bval ai) (Bval bi)). pose proof (Rmin_r (Bval ai) (Bval bi)).
  destruct C as [C|C]; [left|right]; apply andb_true_intro; split; apply Rlt_bool_true; lra.
Qed.
Lemma xseg_ap : let e := 600 * (eps * A) in
  (forall y, line_segment_xsection p a b = Some y -> close3 e y x) /\
  (clear_of e (Bval (c0 a)) (Bval (c0 b)) (c0 x) -> clear_of e (Bval (c1 a)) (Bval (c1 b)) (c1 x) -> clear_of e (Bval (c2 a)) (Bval (c2 b)) (c2 x) -> line_segment_xsection p a b <> None) /\
  (beyond e (Bval (c0 a)) (Bval (c0 b)) (c0 x) \/ beyond e (Bval (c1 a)) (Bval (c1 b)) (c1 x) \/ beyond e (Bval (c2 a)) (Bval (c2 b)) (c2 x) -> line_segment_xsection p a b = None).
Proof.
  intros e. destruct g_line as (y & Hy & Cy). fold e in Cy. unfold line_segment_xsection. fold ray. rewrite Hy. destruct (within_fin Wa) as (F0 & F1 & F2). assert (G : bfin (c0 b) = true /\ bfin (c1 b) = true /\ bfin (c2 b) = true).
  { unfold fin3b in Fb. apply andb_prop in Fb. destruct Fb as [X Z]. apply andb_prop in X. destruct X. auto. }
  destruct G as (G0 & G1 & G2). assert (FY : bfin (c0 y) = true /\ bfin (c1 y) = true /\ bfin (c2 y) = true).
  { destruct Cy as [Fy _]. unfold fin3b in Fy. apply andb_prop in Fy. destruct Fy as [X Z]. apply andb_prop in X. destruct X. auto. }
  destruct FY as (Y0 & Y1 & Y2). assert (Cy' := Cy). destruct Cy' as (_ & K0 & K1 & K2).
  split; [intros z; destruct (out_of_bounds y a b); [discriminate|intros [= <-]; exact Cy]|]. split.
  - intros C0 C1 C2. destruct g_E as (PE & PM & HE'). destruct g_low as (L & L' & _). destruct g_ray as [WR CR]. destruct (s_ap HM HE' Wr Fn Un HP Wa WR L') as [Z [Fs _]]. destruct Wa as (_ & A0 & A1 & A2).
    unfold line_xsection in Hy. rewrite Z in Hy. injection Hy as <-.
    destruct (oob_coord Y0 F0 G0 K0 (flat_coord Fs F0 G0 A0) C0) as [S0 T0]. destruct (oob_coord Y1 F1 G1 K1 (flat_coord Fs F1 G1 A1) C1) as [S1 T1]. destruct (oob_coord Y2 F2 G2 K2 (flat_coord Fs F2 G2 A2) C2) as [S2 T2].
    unfold out_of_bounds, any3, zip3. cbn [c0 c1 c2] in *. rewrite S0, S1, S2, T0, T1, T2. discriminate.
  - intros C. enough (out_of_bounds y a b = true) as -> by reflexivity. unfold out_of_bounds, any3, zip3. cbn [c0 c1 c2].
    destruct C as [C|[C|C]]; [destruct (beyond_coord Y0 F0 G0 K0 C) as [-> | ->]|destruct (beyond_coord Y1 F1 G1 K1 C) as [-> | ->]|destruct (beyond_coord Y2 F2 G2 K2 C) as [-> | ->]]; rewrite ?orb_true_r; reflexivity.
Qed.
End Xseg.
