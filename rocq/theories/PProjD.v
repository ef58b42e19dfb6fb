(** * Projection on and rejection from a vector in binary64. *)
From Coq Require Import Reals ZArith List Bool Lra Lia Psatz.
From Flocq Require Import Core.
From Verif Require Import Num B64 BLemmas Vec RVec VLemmas NpList MVx SpecDouble PErr PFar PNormB PSliceF PNormD PPlaneD.
Import ListNotations.
Local Open Scope R_scope.
Set Implicit Arguments.
Unset Strict Implicit.

Section Proj.
Context (M : R) (HM : scale_ok M) (n : V3 b64) (Fn : fin3b n = true) (Sn : span_ok (rnorm (Rval3 n))).
Let T := eps * M.
Let N := unit_of (Rval3 n).
Lemma dir_unit : rnorm N = 1.
Proof. apply unit_norm, (span_pos Sn). Qed.
Lemma proj_T : 0 < M /\ 0 < T /\ T <= M / 1000000.
Proof. pose proof (scale_pos HM). pose proof eps_pos. pose proof eps_small. unfold T. repeat split; nra. Qed.
Lemma sproj_ap v : within M v -> bfin (sproj1 v n) = true /\ Rabs (Bval (sproj1 v n) - rdot (Rval3 v) N) <= 58 * T /\ Rabs (rdot (Rval3 v) N) <= 2 * M.
Proof.
  intros W. pose proof (normalize_ap Fn Sn) as C. fold N in C. destruct proj_T as (PM & PT & ST). pose proof eps_pos as PE. pose proof eps_small as SE.
  assert (W2 : within 2 (normalize1 n)) by (apply (close_within C); [apply dir_unit|nra]).
  assert (RM : rel M) by (replace M with (1 * M) by ring; apply scale_rel; auto; lra).
  destruct (dot_ap RM W W2) as (F & E & _). fold (sproj1 v n) in F, E. fold T in E. split; [exact F|].
  destruct C as (_ & A0 & A1 & A2). destruct W as (_ & X0 & X1 & X2). split.
  - assert (Z : forall x w z, Rabs x <= M -> Rabs (w - z) <= 12 * eps -> Rabs (x * (w - z)) <= M * (12 * eps)) by (intros; apply mul_bound; auto; lra).
    pose proof (Z _ _ _ X0 A0) as Q0. pose proof (Z _ _ _ X1 A1) as Q1. pose proof (Z _ _ _ X2 A2) as Q2. replace (M * (12 * eps)) with (12 * T) in * by (unfold T; ring).
    apply abs_le in Q0, Q1, Q2, E. apply abs_le. unfold rdot, Rval3, map3 in *. cbn [c0 c1 c2] in *. lra.
  - apply Rle_trans with (1 := cauchy _ _). rewrite dir_unit, Rmult_1_r. apply rnorm_small; auto; lra.
Qed.
Lemma proj_ap v : within M v -> close3 (86 * T) (MVx.proj1 v n) (rscale (rdot (Rval3 v) N) N).
Proof.
  intros W. destruct (sproj_ap W) as (Fs & Es & Ds). destruct proj_T as (PM & PT & ST). pose proof eps_pos as PE. pose proof eps_small as SE.
  pose proof (normalize_ap Fn Sn) as (Fp & A0 & A1 & A2). fold N in A0, A1, A2. destruct (comp_le N) as (L0 & L1 & L2). rewrite dir_unit in L0, L1, L2.
  unfold fin3b in Fp. apply andb_prop in Fp. destruct Fp as [Fp G2]. apply andb_prop in Fp. destruct Fp as [G0 G1].
  assert (K : forall n y, bfin n = true -> Rabs y <= 1 -> Rabs (Bval n - y) <= 12 * eps ->
    forall D s, bfin s = true -> Rabs D <= 2 * M -> Rabs (Bval s - D) <= 58 * T -> bfin (nmul s n) = true /\ Rabs (Bval (nmul s n) - D * y) <= 86 * T).
  { clear - HM PM PE SE PT ST. intros n y Fn Y A D s Fs HD Es.
    assert (Q1 : Rabs ((Bval s - D) * Bval n) <= 58 * T * (1 + 12 * eps)) by (apply mul_bound; try nra; apply abs_le in A, Y; apply abs_le; lra).
    assert (Q2 : Rabs (D * (Bval n - y)) <= 2 * M * (12 * eps)) by (apply mul_bound; auto; nra).
    replace (2 * M * (12 * eps)) with (24 * T) in Q2 by (unfold T; ring).
    assert (V4 : 58 * T * (1 + 12 * eps) <= 58 * T + T / 1000) by (assert (T * eps <= T * / 1000000000000) by (apply Rmult_le_compat_l; lra); lra).
    assert (Q4 : Rabs (D * y) <= 2 * M * 1) by (apply mul_bound; auto; lra).
    apply abs_le in Q1, Q2, Q4. destruct (@mul_ap s n (3 * M) Fs Fn) as [Fm Em]; [apply scale_mid; auto; lra|apply abs_le; lra|]. replace (eps * (3 * M)) with (3 * T) in Em by (unfold T; ring).
    split; [exact Fm|]. apply abs_le in Em. apply abs_le. lra. }
  destruct (K _ _ G0 L0 A0 _ _ Fs Ds Es) as [K0 B0]. destruct (K _ _ G1 L1 A1 _ _ Fs Ds Es) as [K1 B1]. destruct (K _ _ G2 L2 A2 _ _ Fs Ds Es) as [K2 B2].
  unfold close3, fin3b, MVx.proj1, vscale, rscale, map3. cbn [c0 c1 c2]. rewrite K0, K1, K2. auto.
Qed.
Lemma reject_ap v : within M v -> close3 (90 * T) (reject1 v n) (rsub (Rval3 v) (rscale (rdot (Rval3 v) N) N)).
Proof.
  intros W. destruct (sproj_ap W) as (_ & _ & Ds). pose proof (proj_ap W) as (Fp & A0 & A1 & A2). destruct proj_T as (PM & PT & ST). destruct (comp_le N) as (L0 & L1 & L2). rewrite dir_unit in L0, L1, L2.
  unfold fin3b in Fp. apply andb_prop in Fp. destruct Fp as [Fp G2]. apply andb_prop in Fp. destruct Fp as [G0 G1]. destruct (within_fin W) as (F0 & F1 & F2). destruct W as (_ & X0 & X1 & X2).
  set (q := MVx.proj1 v n) in *. set (D := rdot (Rval3 v) N) in *. unfold rscale in A0, A1, A2. cbn [c0 c1 c2] in A0, A1, A2.
  assert (K : forall x p y, bfin x = true -> bfin p = true -> Rabs (Bval x) <= M -> Rabs y <= 1 -> Rabs (Bval p - D * y) <= 86 * T -> bfin (nsub x p) = true /\ Rabs (Bval (nsub x p) - (Bval x - D * y)) <= 90 * T).
  { intros x p y Fx Fp X Y A. assert (Q4 : Rabs (D * y) <= 2 * M * 1) by (apply mul_bound; auto; lra). apply abs_le in Q4, A, X.
    destruct (@sub_ap x p (4 * M) Fx Fp) as [Fr Er]; [apply scale_mid; auto; lra|apply abs_le; lra|]. replace (eps * (4 * M)) with (4 * T) in Er by (unfold T; ring). split; [exact Fr|]. apply abs_le in Er. apply abs_le. lra. }
  destruct (K _ _ _ F0 G0 X0 L0 A0) as [K0 B0]. destruct (K _ _ _ F1 G1 X1 L1 A1) as [K1 B1]. destruct (K _ _ _ F2 G2 X2 L2 A2) as [K2 B2].
  unfold close3, fin3b, reject1, vsub, zip3, rsub, rscale, Rval3, map3. fold q. cbn [c0 c1 c2]. rewrite K0, K1, K2. auto.
Qed.
Lemma reject_dot v : within M v -> Rabs (rdot (Rval3 (reject1 v n)) N) <= 180 * T.
Proof.
  intros W. pose proof (reject_ap W) as (_ & A0 & A1 & A2). destruct proj_T as (PM & PT & ST). set (q := reject1 v n) in *. set (y := rsub (Rval3 v) (rscale (rdot (Rval3 v) N) N)) in *.
  assert (E : rdot (Rval3 q) N = rdot (rsub (Rval3 q) y) N).
  { unfold y. rewrite !rdot_sub_l, rdot_scale_l. pose proof (rnorm_sq N) as S. rewrite dir_unit in S. rewrite <- S. ring. }
  rewrite E. apply Rle_trans with (1 := cauchy _ _). rewrite dir_unit, Rmult_1_r. replace (180 * T) with (2 * (90 * T)) by ring. apply rnorm_small; auto; lra.
Qed.
End Proj.
