(** * canonical_point and equation of a plane in binary64. *)
From Coq Require Import Reals ZArith List Bool Lra Lia Psatz.
From Flocq Require Import Core IEEE754.BinarySingleNaN.
From Verif Require Import Num B64 BLemmas Vec RVec VLemmas MVx MPlane SpecDouble PErr PFar PNormB PSliceF PNormD PPlaneD.
Local Open Scope R_scope.
Set Implicit Arguments.
Unset Strict Implicit.

Section Canon.
Context (M : R) (HM : scale_ok M) (r n : V3 b64) (Wr : within M r) (Fn : fin3b n = true) (Un : rnorm (Rval3 n) <= bpow radix2 400).
Context (p : plane b64) (HP : mk_plane r n = Ok p).
Let N := unit_of (Rval3 n).
Let T := eps * M.
Lemma canon_unit : rnorm N = 1.
Proof. exact (plane_unit Fn Un HP). Qed.
Lemma offset_ap : bfin (vdot (pl_r0 p) (pl_n p)) = true /\ Rabs (Bval (vdot (pl_r0 p) (pl_n p)) - rdot (Rval3 r) N) <= 58 * T /\ Rabs (rdot (Rval3 r) N) <= 2 * M.
Proof.
  destruct (plane_fields Fn Un HP) as [-> C]. pose proof (scale_pos HM) as PM. pose proof eps_pos as PE. pose proof eps_small as SE. assert (PT : 0 < T) by (unfold T; nra).
  assert (Wn : within 2 (pl_n p)) by (apply (close_within C); [exact canon_unit|lra]).
  assert (HR : rel M) by (destruct HM as [A B]; split; [apply Rle_trans with (2 := A)|apply Rle_trans with (1 := B)]; apply bpow_le; lia).
  destruct (dot_ap HR Wr Wn) as (F & E & _). split; [exact F|]. destruct C as (_ & A0 & A1 & A2). pose proof Wr as (_ & R0 & R1 & R2). split.
  - fold N in A0, A1, A2. assert (Q : forall x y z, Rabs x <= M -> Rabs (y - z) <= 12 * eps -> Rabs (x * (y - z)) <= M * (12 * eps)) by (intros; apply mul_bound; auto; lra).
    pose proof (Q _ _ _ R0 A0) as Q0. pose proof (Q _ _ _ R1 A1) as Q1. pose proof (Q _ _ _ R2 A2) as Q2. apply abs_le in Q0, Q1, Q2, E. fold T in E. replace (M * (12 * eps)) with (12 * T) in Q0, Q1, Q2 by (unfold T; ring).
    apply abs_le. unfold rdot, Rval3, map3 in *. cbn [c0 c1 c2] in *. lra.
  - pose proof (cauchy (Rval3 r) N) as K. rewrite canon_unit, Rmult_1_r in K. apply Rle_trans with (1 := K). apply rnorm_small; [lra| | |]; auto.
Qed.
Definition exact_canon : V3 R := rscale (rdot (Rval3 r) N) N.
Lemma canon_ap : close3 (86 * T) (canonical_point p) exact_canon.
Proof.
  destruct offset_ap as (Fs & Es & Ds). destruct (plane_fields Fn Un HP) as [_ (Fp & A0 & A1 & A2)]. fold N in A0, A1, A2. pose proof (scale_pos HM) as PM. pose proof eps_pos as PE. pose proof eps_small as SE.
  assert (PT : 0 < T) by (unfold T; nra). assert (ST : T <= M / 1000000) by (unfold T; nra).
  destruct (comp_le N) as (L0 & L1 & L2). rewrite canon_unit in L0, L1, L2. unfold fin3b in Fp. apply andb_prop in Fp. destruct Fp as [Fp G2]. apply andb_prop in Fp. destruct Fp as [G0 G1].
  set (s := vdot (pl_r0 p) (pl_n p)) in *. set (D := rdot (Rval3 r) N) in *.
  assert (K : forall n y, bfin n = true -> Rabs y <= 1 -> Rabs (Bval n - y) <= 12 * eps -> bfin (nmul s n) = true /\ Rabs (Bval (nmul s n) - D * y) <= 86 * T).
  { intros k y Fk Y A.
    assert (Q1 : Rabs ((Bval s - D) * Bval k) <= 58 * T * (1 + 12 * eps)) by (apply mul_bound; try nra; apply abs_le in A, Y; apply abs_le; lra).
    assert (Q2 : Rabs (D * (Bval k - y)) <= 2 * M * (12 * eps)) by (apply mul_bound; auto; nra).
    assert (Q4 : Rabs (D * y) <= 2 * M * 1) by (apply mul_bound; auto; nra).
    assert (V3 : 2 * M * (12 * eps) = 24 * T) by (unfold T; ring). rewrite V3 in Q2. assert (V4 : 58 * T * (1 + 12 * eps) <= 58 * T + T / 1000) by (assert (T * eps <= T * / 1000000000000) by (apply Rmult_le_compat_l; lra); lra).
    generalize dependent (58 * T * (1 + 12 * eps)). intros z Q1 V4. apply abs_le in Q1, Q2, Q4.
    destruct (@mul_ap s k (3 * M) Fs Fk) as [Fm Em]; [apply scale_mid; auto; lra|apply abs_le; lra|]. replace (eps * (3 * M)) with (3 * T) in Em by (unfold T; ring). split; [exact Fm|]. apply abs_le in Em. apply abs_le. lra. }
  destruct (K _ _ G0 L0 A0) as [K0 B0]. destruct (K _ _ G1 L1 A1) as [K1 B1]. destruct (K _ _ G2 L2 A2) as [K2 B2].
  unfold close3, fin3b, canonical_point, vscale, map3, exact_canon, rscale. cbn [c0 c1 c2]. fold s. rewrite K0, K1, K2. auto.
Qed.
Lemma canon_dist : Rabs (plane_distance r n (canonical_point p)) <= 172 * T.
Proof.
  destruct canon_ap as (_ & A & B & C). set (q := canonical_point p) in *. pose proof (scale_pos HM) as PM. pose proof eps_pos as PE. assert (PT : 0 < T) by (unfold T; nra).
  assert (E : plane_distance r n q = rdot (rsub (Rval3 q) exact_canon) N).
  { unfold exact_canon. rewrite rdot_sub_l, rdot_scale_l. pose proof (rnorm_sq N) as S. rewrite canon_unit in S. rewrite <- S. unfold plane_distance. fold N. rewrite !rdot_sub_l. ring. }
  rewrite E. apply Rle_trans with (1 := cauchy _ _). rewrite canon_unit, Rmult_1_r. replace (172 * T) with (2 * (86 * T)) by ring. apply rnorm_small; [lra| | |]; auto.
Qed.
Lemma equation_ap : let '(mk4 A B C D) := equation p in
  mk3 A B C = pl_n p /\ bfin D = true /\ Rabs (Bval D + rdot (Rval3 r) N) <= 58 * T.
Proof.
  unfold equation. destruct offset_ap as (F & E & _). split; [now destruct (pl_n p)|]. set (s := vdot (pl_r0 p) (pl_n p)) in *.
  change (nopp s) with (Bopp s). split; [unfold bfin; rewrite is_finite_Bopp; exact F|]. unfold Bval. rewrite B2R_Bopp. fold (Bval s). apply abs_le in E. apply abs_le. lra.
Qed.
End Canon.
