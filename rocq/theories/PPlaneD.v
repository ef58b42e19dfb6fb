(** * Planes of doubles against the exact plane through the same point with the same normal direction. *)
From Coq Require Import Reals ZArith List Bool Lra Lia Psatz.
From Flocq Require Import Core IEEE754.BinarySingleNaN.
From Verif Require Import Num B64 BLemmas Vec RVec VLemmas MVx MPlane SpecDouble PErr PFar PNormB PSliceF PNormD.
Import ListNotations.
Local Open Scope R_scope.
Set Implicit Arguments.
Unset Strict Implicit.

Lemma not_zero_norm n : fin3b n = true -> almost_zero n default_atol = false -> bpow radix2 (-27) <= rnorm (Rval3 n).
Proof.
  intros F Z. unfold fin3b in F. apply andb_prop in F. destruct F as [F F2]. apply andb_prop in F. destruct F as [F0 F1]. destruct (comp_le (Rval3 n)) as (L0 & L1 & L2).
  unfold almost_zero, all3, map3 in Z. cbn [c0 c1 c2] in Z. apply andb_false_iff in Z. destruct Z as [Z|Z]; [apply andb_false_iff in Z; destruct Z as [Z|Z]|]; apply not_close in Z; auto.
  - apply Rle_trans with (1 := Z). exact L0.
  - apply Rle_trans with (1 := Z). exact L1.
  - apply Rle_trans with (1 := Z). exact L2.
Qed.
(** how far a plane's stored normal is from a unit vector [N] *)
Lemma dist_ap M p N e x : scale_ok M -> within M (pl_r0 p) -> close3 (e * eps) (pl_n p) N -> rnorm N = 1 -> 0 <= e <= 1000 -> within M x ->
  let d := rdot (rsub (Rval3 x) (Rval3 (pl_r0 p))) N in
  bfin (signed_distance1 p x) = true /\ Rabs (Bval (signed_distance1 p x) - d) <= (58 + 6 * e) * (eps * M).
Proof.
  intros HM Wr CN UN [E0 E1] Wx d. pose proof eps_pos as PE. pose proof eps_small as SE. assert (Wn : within 2 (pl_n p)) by (apply (close_within CN); auto; nra).
  destruct (sd_ap HM Wr Wn Wx) as (F & E & _). split; [exact F|]. destruct CN as (_ & A & B & C). destruct Wx as (_ & X0 & X1 & X2), Wr as (_ & R0 & R1 & R2). pose proof (scale_pos HM) as PM. apply abs_le in X0, X1, X2, R0, R1, R2.
  assert (D : forall u v w z, - M <= u <= M -> - M <= v <= M -> Rabs (w - z) <= e * eps -> Rabs ((u - v) * (w - z)) <= 2 * M * (e * eps)) by (intros; apply mul_bound; try nra; apply abs_le; lra).
  pose proof (D _ _ _ _ X0 R0 A) as Q0. pose proof (D _ _ _ _ X1 R1 B) as Q1. pose proof (D _ _ _ _ X2 R2 C) as Q2. apply abs_le in E, Q0, Q1, Q2.
  apply abs_le. unfold d. unfold exact_distance, rdot, rsub, Rval3, map3 in *. cbn [c0 c1 c2] in *. lra.
Qed.
Lemma abs_val (s : b64) : bfin s = true -> bfin (nabs s) = true /\ Bval (nabs s) = Rabs (Bval s).
Proof. intros F. split; [change (is_finite (Babs s) = true); rewrite is_finite_Babs; exact F|exact (@B2R_Babs 53 1024 s)]. Qed.
Lemma sign_pos s : bfin s = true -> 0 < Bval s -> nsign s = nofZ 1.
Proof. intros F P. unfold nsign. rewrite !blt_spec by auto. change (Bval n0) with 0. rewrite (Rlt_bool_true 0) by lra. rewrite ?(Rlt_bool_false _ 0) by lra. reflexivity. Qed.
Lemma sign_neg s : bfin s = true -> Bval s < 0 -> nsign s = nofZ (-1).
Proof. intros F P. unfold nsign. rewrite !blt_spec by auto. change (Bval n0) with 0. rewrite (Rlt_bool_true _ 0) by lra. rewrite ?(Rlt_bool_false 0) by lra. reflexivity. Qed.

Section Plane.
Context (M : R) (HM : scale_ok M) (r n : V3 b64) (Wr : within M r) (Fn : fin3b n = true) (Un : rnorm (Rval3 n) <= bpow radix2 400).
Context (p : plane b64) (HP : mk_plane r n = Ok p).
Let N := unit_of (Rval3 n).
Let T := eps * M.
Let d := plane_distance r n.
Lemma plane_span : span_ok (rnorm (Rval3 n)).
Proof.
  unfold mk_plane in HP. destruct (almost_zero n default_atol) eqn:Z; [discriminate|]. pose proof (not_zero_norm Fn Z) as L. split; [|exact Un]. apply Rle_trans with (2 := L). apply bpow_le. lia.
Qed.
Lemma plane_unit : rnorm N = 1.
Proof. apply unit_norm. apply (span_pos plane_span). Qed.
Lemma plane_fields : pl_r0 p = r /\ close3 (12 * eps) (pl_n p) N.
Proof.
  pose proof plane_span as S. unfold mk_plane in HP. destruct (almost_zero n default_atol) eqn:Z; [discriminate|]. injection HP as <-. split; [reflexivity|]. apply normalize_ap; auto.
Qed.
Lemma plane_dist x : within M x -> bfin (signed_distance1 p x) = true /\ Rabs (Bval (signed_distance1 p x) - d x) <= 130 * T.
Proof.
  intros Wx. destruct plane_fields as [E C]. assert (W : within M (pl_r0 p)) by (rewrite E; exact Wr). destruct (dist_ap HM W C plane_unit ltac:(lra) Wx) as [F D]. split; [exact F|].
  rewrite E in D. fold d in D. unfold d, plane_distance. fold N. unfold T. apply Rle_trans with (1 := D). right. ring.
Qed.
Lemma plane_front x : within M x -> 130 * T < d x -> nsign (signed_distance1 p x) = nofZ 1.
Proof. intros W H. destruct (plane_dist W) as [F E]. apply abs_le in E. apply sign_pos; auto. lra. Qed.
Lemma plane_back x : within M x -> d x < - (130 * T) -> nsign (signed_distance1 p x) = nofZ (-1).
Proof. intros W H. destruct (plane_dist W) as [F E]. apply abs_le in E. apply sign_neg; auto. lra. Qed.
Lemma dist_size x : within M x -> Rabs (d x) <= 4 * M.
Proof.
  intros (_ & X0 & X1 & X2). pose proof Wr as (_ & R0 & R1 & R2). pose proof (scale_pos HM) as PM. apply abs_le in X0, X1, X2, R0, R1, R2.
  unfold d, plane_distance. fold N. pose proof (cauchy (rsub (Rval3 x) (Rval3 r)) N) as C. rewrite plane_unit, Rmult_1_r in C. apply Rle_trans with (1 := C).
  replace (4 * M) with (2 * (2 * M)) by ring. apply rnorm_small; [lra| | |]; unfold rsub, Rval3, map3; cbn [c0 c1 c2]; apply abs_le; lra.
Qed.
(** the foot of the perpendicular *)
Definition exact_foot (x : V3 b64) : V3 R := rsub (Rval3 x) (rscale (d x) N).
Lemma project_ap x : within M x -> close3 (210 * T) (project_point p x) (exact_foot x).
Proof.
  intros W. destruct (plane_dist W) as [Fs Es]. pose proof (dist_size W) as Ds. destruct plane_fields as [_ (Fp & A0 & A1 & A2)]. pose proof (scale_pos HM) as PM. pose proof eps_pos as PE. pose proof eps_small as SE.
  assert (PT : 0 < T) by (unfold T; nra). assert (ST : T <= M / 1000000) by (unfold T; nra).
  destruct (comp_le N) as (L0 & L1 & L2). rewrite plane_unit in L0, L1, L2. destruct (within_fin W) as (F0 & F1 & F2). destruct W as (_ & X0 & X1 & X2).
  unfold fin3b in Fp. apply andb_prop in Fp. destruct Fp as [Fp G2]. apply andb_prop in Fp. destruct Fp as [G0 G1].
  assert (K : forall x n y, bfin x = true -> bfin n = true -> Rabs (Bval x) <= M -> Rabs y <= 1 -> Rabs (Bval n - y) <= 12 * eps ->
    forall D s, bfin s = true -> Rabs D <= 4 * M -> Rabs (Bval s - D) <= 130 * T ->
    bfin (nsub x (nmul s n)) = true /\ Rabs (Bval (nsub x (nmul s n)) - (Bval x - D * y)) <= 210 * T).
  { clear - HM PM PE SE PT ST. intros x n y Fx Fn X Y A D s Fs HD Es.
    assert (Q1 : Rabs ((Bval s - D) * Bval n) <= 130 * T * (1 + 12 * eps)) by (apply mul_bound; try nra; apply abs_le in A, Y; apply abs_le; lra).
    assert (Q2 : Rabs (D * (Bval n - y)) <= 4 * M * (12 * eps)) by (apply mul_bound; auto; nra).
    assert (Q3 : Rabs (Bval s * Bval n) <= 5 * M * 2) by (apply mul_bound; try nra; apply abs_le in HD, Es, A, Y; apply abs_le; nra).
    destruct (@mul_ap s n (10 * M) Fs Fn) as [Fm Em]; [apply scale_mid; auto; lra|replace (10 * M) with (5 * M * 2) by ring; exact Q3|]. apply abs_le in Q1, Q2, Q3, Em, X.
    assert (V1 : eps * (10 * M) = 10 * T) by (unfold T; ring). rewrite V1 in Em.
    destruct (@sub_ap x (nmul s n) (12 * M) Fx Fm) as [Fr Er]; [apply scale_mid; auto; lra|apply abs_le; lra|]. apply abs_le in Er. assert (V2 : eps * (12 * M) = 12 * T) by (unfold T; ring). rewrite V2 in Er.
    split; [exact Fr|]. assert (V3 : 4 * M * (12 * eps) = 48 * T) by (unfold T; ring). rewrite V3 in Q2. assert (V4 : 130 * T * (1 + 12 * eps) <= 130 * T + T / 1000) by (assert (T * eps <= T * / 1000000000000) by (apply Rmult_le_compat_l; lra); lra).
    generalize dependent (130 * T * (1 + 12 * eps)). intros. apply abs_le. lra. }
  destruct (K _ _ _ F0 G0 X0 L0 A0 _ _ Fs Ds Es) as [K0 B0]. destruct (K _ _ _ F1 G1 X1 L1 A1 _ _ Fs Ds Es) as [K1 B1]. destruct (K _ _ _ F2 G2 X2 L2 A2 _ _ Fs Ds Es) as [K2 B2].
  unfold close3, fin3b, project_point, vsub, vscale, zip3, map3, exact_foot, rsub, rscale, Rval3, map3. cbn [c0 c1 c2]. rewrite K0, K1, K2. auto.
Qed.
Lemma project_dist x : within M x -> Rabs (d (project_point p x)) <= 420 * T.
Proof.
  intros W. destruct (project_ap W) as (_ & A & B & C). set (q := project_point p x) in *. pose proof (scale_pos HM) as PM. pose proof eps_pos as PE. assert (PT : 0 < T) by (unfold T; nra).
  assert (E : d q = rdot (rsub (Rval3 q) (exact_foot x)) N).
  { unfold exact_foot. rewrite rdot_sub_l, rdot_sub_l, rdot_scale_l. pose proof (rnorm_sq N) as S. rewrite plane_unit in S. rewrite <- S. unfold d, plane_distance. fold N. rewrite !rdot_sub_l. ring. }
  rewrite E. apply Rle_trans with (1 := cauchy _ _). rewrite plane_unit, Rmult_1_r. replace (420 * T) with (2 * (210 * T)) by ring. apply rnorm_small; [lra| | |]; auto.
Qed.
End Plane.

(** ** The flipped plane *)
Lemma times_m1 x : bfin x = true -> Rabs (Bval x) <= 2 -> bfin (nmul x (nofZ (-1))) = true /\ Bval (nmul x (nofZ (-1))) = - Bval x.
Proof.
  intros F L. assert (V : Bval (nofZ (-1)) = -1) by (rewrite (@Bval_me _ (-4503599627370496)%Z (-52)%Z) by (vm_compute; reflexivity); change (bpow radix2 (-52)) with (/ 4503599627370496); lra).
  change (nmul x (nofZ (-1))) with (bmul x (nofZ (-1))). destruct (@bmul_val x (nofZ (-1))) as [-> ->]; auto.
  - rewrite V. replace (Bval x * -1) with (- Bval x) by ring. rewrite Rabs_Ropp. apply Rle_trans with (1 := L). change 2 with (bpow radix2 1). apply bpow_le. lia.
  - split; [reflexivity|]. rewrite V. replace (Bval x * -1) with (- Bval x) by ring. rewrite rnd64_opp, rnd64_B. reflexivity.
Qed.
Section Flip.
Context (M : R) (HM : scale_ok M) (r n : V3 b64) (Wr : within M r) (Fn : fin3b n = true) (Un : rnorm (Rval3 n) <= bpow radix2 400).
Context (p : plane b64) (HP : mk_plane r n = Ok p) (f : plane b64) (HF : flipped p = Ok f).
Let N := unit_of (Rval3 n).
Lemma flip_fields : pl_r0 f = r /\ close3 (50 * eps) (pl_n f) (rscale (-1) N).
Proof.
  destruct (plane_fields Fn Un HP) as [E C]. pose proof (plane_unit Fn Un HP) as U. fold N in C, U. pose proof eps_pos as PE. pose proof eps_small as SE.
  pose proof (close_within C U ltac:(lra)) as W. pose proof (@close_norm (12 * eps) _ _ ltac:(lra) C) as NC. rewrite U in NC. destruct C as (_ & A0 & A1 & A2). destruct (within_fin W) as (F0 & F1 & F2). destruct W as (_ & W0 & W1 & W2).
  unfold flipped in HF. set (m := map3 (fun x : b64 => (x * nofZ (-1))%num) (pl_n p)) in *.
  destruct (times_m1 F0 W0) as [G0 V0]. destruct (times_m1 F1 W1) as [G1 V1]. destruct (times_m1 F2 W2) as [G2 V2].
  assert (Fm : fin3b m = true) by (unfold fin3b, m, map3; cbn [c0 c1 c2]; rewrite G0, G1, G2; reflexivity).
  assert (Vm : Rval3 m = rscale (-1) (Rval3 (pl_n p))) by (unfold m, rscale, Rval3, map3; cbn [c0 c1 c2]; rewrite V0, V1, V2; f_equal; ring).
  assert (Nm : rnorm (Rval3 m) = rnorm (Rval3 (pl_n p))) by (rewrite Vm, rnorm_scale; replace (Rabs (-1)) with 1 by (rewrite Rabs_left; lra); ring).
  apply abs_le in NC. set (q := rnorm (Rval3 (pl_n p))) in *.
  assert (Um : rnorm (Rval3 m) <= bpow radix2 400) by (rewrite Nm; apply Rle_trans with 2; [lra|change 2 with (bpow radix2 1); apply bpow_le; lia]).
  destruct (plane_fields Fm Um HF) as [E' (Ff & B0 & B1 & B2)]. split; [now rewrite E'|]. split; [exact Ff|].
  assert (Z : Rabs (/ q - 1) <= 25 * eps).
  { replace (/ q - 1) with ((1 - q) * / q) by (field; lra). rewrite Rabs_mult, (Rabs_pos_eq (/ q)) by (apply Rlt_le, Rinv_0_lt_compat; lra). apply Rmult_le_reg_r with q; [lra|]. rewrite Rmult_assoc, Rinv_l by lra. rewrite Rmult_1_r. apply abs_le. nra. }
  destruct (comp_le (Rval3 (pl_n p))) as (L0 & L1 & L2). fold q in L0, L1, L2. unfold Rval3, map3 in L0, L1, L2. cbn [c0 c1 c2] in L0, L1, L2.
  assert (K : forall x y z, Rabs y <= q -> Rabs (x - / q * - y) <= 12 * eps -> Rabs (y - z) <= 12 * eps -> Rabs (x - -1 * z) <= 50 * eps).
  { intros x y z Hy Hx Hz. assert (Q : Rabs (y * (/ q - 1)) <= (1 + 24 * eps) * (25 * eps)) by (apply mul_bound; try lra; apply Rle_trans with (1 := Hy); lra). apply abs_le in Q, Hx, Hz. apply abs_le. nra. }
  unfold unit_of in B0, B1, B2. rewrite Nm, Vm in B0, B1, B2. unfold rscale, Rval3, map3 in B0, B1, B2. cbn [c0 c1 c2] in B0, B1, B2.
  unfold rscale. cbn [c0 c1 c2]. repeat split.
  - apply (K _ (Bval (c0 (pl_n p)))); auto. replace (- Bval (c0 (pl_n p))) with (-1 * Bval (c0 (pl_n p))) by ring. exact B0.
  - apply (K _ (Bval (c1 (pl_n p)))); auto. replace (- Bval (c1 (pl_n p))) with (-1 * Bval (c1 (pl_n p))) by ring. exact B1.
  - apply (K _ (Bval (c2 (pl_n p)))); auto. replace (- Bval (c2 (pl_n p))) with (-1 * Bval (c2 (pl_n p))) by ring. exact B2.
Qed.
Lemma flip_unit : rnorm (rscale (-1) N) = 1.
Proof. rewrite rnorm_scale. unfold N. rewrite (plane_unit Fn Un HP). rewrite Rabs_left; lra. Qed.
Lemma flip_dist x : within M x -> bfin (signed_distance1 f x) = true /\ Rabs (Bval (signed_distance1 f x) + plane_distance r n x) <= 358 * (eps * M).
Proof.
  intros Wx. destruct flip_fields as [E C]. assert (W : within M (pl_r0 f)) by (rewrite E; exact Wr). destruct (dist_ap HM W C flip_unit ltac:(lra) Wx) as [F D]. split; [exact F|].
  rewrite E, rdot_scale_r in D. unfold plane_distance. fold N. replace ((58 + 6 * 50) * (eps * M)) with (358 * (eps * M)) in D by ring. apply abs_le in D. apply abs_le. lra.
Qed.
End Flip.
