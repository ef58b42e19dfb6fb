(** * The cross product of two edges in binary64, and the normal it gives. *)
From Coq Require Import Reals ZArith List Bool Lra Lia Psatz.
From Flocq Require Import Core IEEE754.BinarySingleNaN.
From Verif Require Import Num B64 BLemmas Vec RVec VLemmas MVx MPlane MSolids SpecDouble PErr PFar PNormB PSliceF PNormD PPlaneD.
Local Open Scope R_scope.
Set Implicit Arguments.
Unset Strict Implicit.

Definition coords3 (E : R) (v : V3 R) : Prop := Rabs (c0 v) <= E /\ Rabs (c1 v) <= E /\ Rabs (c2 v) <= E.

Lemma close_small x : bfin x = true -> isclose n0 default_atol x n0 = true -> Rabs (Bval x) <= 11 / 1000000000.
Proof.
  intros F H. unfold isclose in H. assert (NF : nfinite x = true) by exact F. rewrite NF in H. change (nfinite (@n0 b64 _)) with true in H. cbn [andb] in H.
  set (t := nadd default_atol (nmul n0 (nabs n0)) : b64) in *. assert (Ft : bfin t = true) by (vm_compute; reflexivity).
  assert (Vt : Bval t <= 11 / 1000000000).
  { set (l := nlit 11 (2 ^ 30) : b64). assert (Fl : bfin l = true) by (vm_compute; reflexivity). assert (Vl : Bval l = 11 / 1073741824) by (rewrite (@Bval_me l 6192449487634432%Z (-79)%Z) by (vm_compute; reflexivity); change (bpow radix2 (-79)) with (/ 604462909807314587353088); lra). assert (L : nle t l = true) by (vm_compute; reflexivity). rewrite ble_spec in L by auto. revert L. case Rle_bool_spec; [|discriminate]. rewrite Vl. lra. }
  assert (FS : bfin (nsub x n0) = true /\ Bval (nsub x n0) = Bval x).
  { change (nsub x n0) with (bsub x n0). destruct x as [b|b| |b m e Hm]; cbn in F; try discriminate; split; try reflexivity; destruct b; reflexivity. }
  destruct FS as [FS VS].
  assert (FA : bfin (nabs (nsub x n0)) = true) by (change (is_finite (Babs (nsub x n0)) = true); rewrite is_finite_Babs; exact FS).
  assert (VA : Bval (nabs (nsub x n0)) = Rabs (Bval x)) by (rewrite <- VS; exact (@B2R_Babs 53 1024 (nsub x n0))).
  rewrite ble_spec in H by auto. rewrite VA in H. revert H. case Rle_bool_spec; [|discriminate]. lra.
Qed.

Section Cross.
Context (E : R) (HE : bpow radix2 (-150) <= E <= bpow radix2 150).
Let T := eps * (E * E).
Lemma edge_pos : 0 < E.
Proof. destruct HE as [H _]. pose proof (bpow_gt_0 radix2 (-150)). lra. Qed.
Lemma edge_sq : scale_ok (E * E).
Proof.
  destruct HE as [L U]. pose proof (bpow_gt_0 radix2 (-150)). pose proof edge_pos. unfold scale_ok. split.
  - apply Rle_trans with (bpow radix2 (-300)); [apply bpow_le; lia|]. replace (bpow radix2 (-300)) with (bpow radix2 (-150) * bpow radix2 (-150)) by (rewrite <- bpow_plus; reflexivity). apply Rmult_le_compat; lra.
  - apply Rle_trans with (bpow radix2 300); [|apply bpow_le; lia]. replace (bpow radix2 300) with (bpow radix2 150 * bpow radix2 150) by (rewrite <- bpow_plus; reflexivity). apply Rmult_le_compat; lra.
Qed.
Lemma edge_mid : mid E.
Proof. destruct HE as [L U]. split; [apply Rle_trans with (2 := L)|apply Rle_trans with (1 := U)]; apply bpow_le; lia. Qed.
(** an edge *)
Lemma edge_ap a b : fin3b a = true -> fin3b b = true -> coords3 E (rsub (Rval3 b) (Rval3 a)) -> close3 (eps * E) (vsub b a) (rsub (Rval3 b) (Rval3 a)).
Proof.
  intros Fa Fb (H0 & H1 & H2). unfold fin3b in Fa, Fb. apply andb_prop in Fa, Fb. destruct Fa as [Fa A2], Fb as [Fb B2]. apply andb_prop in Fa, Fb. destruct Fa as [A0 A1], Fb as [B0 B1].
  destruct (@sub_ap _ _ E B0 A0 edge_mid H0) as [F0 E0]. destruct (@sub_ap _ _ E B1 A1 edge_mid H1) as [F1 E1]. destruct (@sub_ap _ _ E B2 A2 edge_mid H2) as [F2 E2].
  unfold close3, fin3b, vsub, zip3, rsub, Rval3, map3. cbn [c0 c1 c2]. now rewrite F0, F1, F2.
Qed.
(** one entry *)
Lemma minor_ap a b c d a' b' c' d' : bfin a = true -> bfin b = true -> bfin c = true -> bfin d = true ->
  Rabs (Bval a - a') <= eps * E -> Rabs (Bval b - b') <= eps * E -> Rabs (Bval c - c') <= eps * E -> Rabs (Bval d - d') <= eps * E ->
  Rabs a' <= E -> Rabs b' <= E -> Rabs c' <= E -> Rabs d' <= E ->
  bfin (nsub (nmul a b) (nmul c d)) = true /\ Rabs (Bval (nsub (nmul a b) (nmul c d)) - (a' * b' - c' * d')) <= 9 * T.
Proof.
  intros Fa Fb Fc Fd Ea Eb Ec Ed Ha Hb Hc Hd. pose proof edge_pos as PE. pose proof eps_pos as P0. pose proof eps_small as S0. pose proof edge_sq as HS.
  assert (ES : eps * E <= E / 1000000) by nra. assert (EP : 0 < eps * E) by nra. assert (PT : 0 < T) by (unfold T; nra). assert (ST : T <= (E * E) / 1000000) by (unfold T; nra).
  assert (M : forall x y x' y', bfin x = true -> bfin y = true -> Rabs (Bval x - x') <= eps * E -> Rabs (Bval y - y') <= eps * E -> Rabs x' <= E -> Rabs y' <= E ->
    bfin (nmul x y) = true /\ Rabs (Bval (nmul x y) - x' * y') <= 31 / 10 * T /\ Rabs (x' * y') <= E * E).
  { clear a b c d a' b' c' d' Fa Fb Fc Fd Ea Eb Ec Ed Ha Hb Hc Hd. intros x y x' y' Fx Fy Ex Ey Hx Hy.
    assert (Q1 : Rabs ((Bval x - x') * Bval y) <= eps * E * (E + eps * E)) by (apply mul_bound; try lra; apply abs_le in Ey, Hy; apply abs_le; lra).
    assert (Q2 : Rabs (x' * (Bval y - y')) <= E * (eps * E)) by (apply mul_bound; lra).
    assert (Q3 : Rabs (x' * y') <= E * E) by (apply mul_bound; lra).
    assert (B1 : eps * E * (E + eps * E) <= 1001 / 1000 * T) by (unfold T; nra). assert (B2 : E * (eps * E) = T) by (unfold T; ring). rewrite B2 in Q2. apply abs_le in Q1, Q2. assert (Q3' := Q3). apply abs_le in Q3'.
    assert (V : Bval x * Bval y = (Bval x - x') * Bval y + x' * (Bval y - y') + x' * y') by ring.
    assert (BB : Rabs (Bval x * Bval y) <= 1001 / 1000 * (E * E)) by (rewrite V; apply abs_le; lra).
    destruct (@mul_ap x y (1001 / 1000 * (E * E)) Fx Fy) as [F G]; [apply scale_mid; [exact HS|lra]|exact BB|]. split; [exact F|]. split; [|exact Q3].
    replace (eps * (1001 / 1000 * (E * E))) with (1001 / 1000 * T) in G by (unfold T; ring). apply abs_le in G. apply abs_le. rewrite V in G. lra. }
  destruct (M _ _ _ _ Fa Fb Ea Eb Ha Hb) as (F1 & E1 & B1). destruct (M _ _ _ _ Fc Fd Ec Ed Hc Hd) as (F2 & E2 & B2). apply abs_le in E1, E2, B1, B2.
  destruct (@sub_ap _ _ (21 / 10 * (E * E)) F1 F2) as [F G]; [apply scale_mid; [exact HS|lra]|apply abs_le; lra|]. split; [exact F|].
  replace (eps * (21 / 10 * (E * E))) with (21 / 10 * T) in G by (unfold T; ring). apply abs_le in G. apply abs_le. lra.
Qed.
Lemma cross_ap e f e' f' : close3 (eps * E) e e' -> close3 (eps * E) f f' -> coords3 E e' -> coords3 E f' -> close3 (9 * T) (vcross e f) (rcross e' f').
Proof.
  intros (Fe & e0 & e1 & e2) (Ff & f0 & f1 & f2) (H0 & H1 & H2) (K0 & K1 & K2). unfold fin3b in Fe, Ff. apply andb_prop in Fe, Ff. destruct Fe as [Fe G2], Ff as [Ff L2]. apply andb_prop in Fe, Ff. destruct Fe as [G0 G1], Ff as [L0 L1].
  unfold close3, fin3b, vcross, rcross. cbn [c0 c1 c2].
  destruct (minor_ap G1 L2 G2 L1 e1 f2 e2 f1 H1 K2 H2 K1) as [-> ?]. destruct (minor_ap G2 L0 G0 L2 e2 f0 e0 f2 H2 K0 H0 K2) as [-> ?]. destruct (minor_ap G0 L1 G1 L0 e0 f1 e1 f0 H0 K1 H1 K0) as [-> ?]. auto.
Qed.
(** the unit normal *)
Lemma unit_cross n N : close3 (9 * T) n N -> bpow radix2 (-30) * (E * E) <= rnorm N <= 3 * (E * E) ->
  span_ok (rnorm (Rval3 n)) /\ close3 (64 * (T / rnorm N)) (normalize1 n) (unit_of N).
Proof.
  intros C [L U]. pose proof edge_pos as PE. pose proof eps_pos as P0. pose proof eps_val as V0. pose proof edge_sq as HS. set (A := rnorm N) in *. assert (PS : 0 < E * E) by nra.
  assert (PT : 0 < T) by (unfold T; nra). assert (LT : 4194304 * T <= A).
  { apply Rle_trans with (2 := L). unfold T. change (bpow radix2 (-30)) with (/ 1073741824). rewrite V0. nra. }
  pose proof (@close_norm (9 * T) n N ltac:(lra) C) as D. fold A in D. set (B := rnorm (Rval3 n)) in *. apply abs_le in D.
  assert (S : span_ok B).
  { destruct HE as [HL HU]. assert (Z1 : bpow radix2 (-300) <= E * E) by (replace (bpow radix2 (-300)) with (bpow radix2 (-150) * bpow radix2 (-150)) by (rewrite <- bpow_plus; reflexivity); pose proof (bpow_gt_0 radix2 (-150)); apply Rmult_le_compat; lra).
    assert (Z2 : E * E <= bpow radix2 300) by (replace (bpow radix2 300) with (bpow radix2 150 * bpow radix2 150) by (rewrite <- bpow_plus; reflexivity); apply Rmult_le_compat; lra).
    assert (Z3 : bpow radix2 (-330) <= A) by (apply Rle_trans with (2 := L); replace (bpow radix2 (-330)) with (bpow radix2 (-30) * bpow radix2 (-300)) by (rewrite <- bpow_plus; reflexivity); apply Rmult_le_compat_l; [apply bpow_ge_0|exact Z1]).
    assert (Z4 : bpow radix2 (-330) = 1024 * bpow radix2 (-340)) by (change 1024 with (bpow radix2 10); rewrite <- bpow_plus; reflexivity). pose proof (bpow_gt_0 radix2 (-340)). pose proof (bpow_gt_0 radix2 300).
    assert (Z5 : bpow radix2 310 = 1024 * bpow radix2 300) by (change 1024 with (bpow radix2 10); rewrite <- bpow_plus; reflexivity).
    split; [apply Rle_trans with (bpow radix2 (-340)); [apply bpow_le; lia|lra]|apply Rle_trans with (bpow radix2 310); [lra|apply bpow_le; lia]]. }
  split; [exact S|]. destruct C as (Fn & C0 & C1 & C2). destruct (normalize_ap Fn S) as (Fu & U0 & U1 & U2). split; [exact Fu|]. fold B in U0, U1, U2.
  assert (PA : 0 < A) by lra. assert (PB : 0 < B) by lra. destruct (comp_le N) as (N0 & N1 & N2). fold A in N0, N1, N2.
  assert (EA : 12 * eps <= 36 * (T / A)). { apply Rmult_le_reg_r with A; [exact PA|]. replace (36 * (T / A) * A) with (36 * T) by (field; lra). unfold T. nra. }
  assert (G : forall x y, Rabs (x - y) <= 9 * T -> Rabs y <= A -> Rabs (/ B * x - / A * y) <= 28 * (T / A)).
  { intros x y Hxy Hy. replace (/ B * x - / A * y) with (/ B * ((x - y) + y / A * (A - B))) by (field; lra). rewrite Rabs_mult, (Rabs_pos_eq (/ B)) by (apply Rlt_le, Rinv_0_lt_compat; exact PB).
    assert (W : Rabs (y / A * (A - B)) <= 1 * (18 * T)).
    { apply mul_bound; try lra; [|apply abs_le; lra]. unfold Rdiv. rewrite Rabs_mult, (Rabs_pos_eq (/ A)) by (apply Rlt_le, Rinv_0_lt_compat; exact PA). apply Rmult_le_reg_r with A; [exact PA|]. rewrite Rmult_assoc, Rinv_l by lra. lra. }
    apply Rmult_le_reg_l with B; [exact PB|]. rewrite <- Rmult_assoc, Rinv_r, Rmult_1_l by lra. replace (B * (28 * (T / A))) with (28 * T * (B / A)) by (field; lra).
    apply abs_le in Hxy, W. assert (R1 : 1 - 18 * T / A <= B / A) by (apply Rmult_le_reg_r with A; [exact PA|]; replace ((1 - 18 * T / A) * A) with (A - 18 * T) by (field; lra); replace (B / A * A) with B by (field; lra); lra).
    assert (R2 : 18 * T / A <= / 100000) by (apply Rmult_le_reg_r with A; [exact PA|]; replace (18 * T / A * A) with (18 * T) by (field; lra); lra).
    assert (R3 : 28 * T * (1 - / 100000) <= 28 * T * (B / A)) by (apply Rmult_le_compat_l; lra). apply abs_le. lra. }
  pose proof (G _ _ C0 N0) as G0. pose proof (G _ _ C1 N1) as G1. pose proof (G _ _ C2 N2) as G2. unfold unit_of, rscale in U0, U1, U2 |- *. fold A. fold B in U0, U1, U2. unfold Rval3, map3 in U0, U1, U2. cbn [c0 c1 c2] in *.
  apply abs_le in U0, U1, U2, G0, G1, G2. repeat split; apply abs_le; lra.
Qed.
Lemma cross_size e f : coords3 E e -> coords3 E f -> rnorm (rcross e f) <= 3 * (E * E).
Proof.
  intros (H0 & H1 & H2) (K0 & K1 & K2). pose proof edge_pos as PE. apply abs_le in H0, H1, H2, K0, K1, K2.
  assert (N : forall v, -E <= c0 v <= E -> -E <= c1 v <= E -> -E <= c2 v <= E -> rdot v v <= 3 * (E * E)) by (intros v V0 V1 V2; unfold rdot; nra).
  pose proof (N e H0 H1 H2) as Ne. pose proof (N f K0 K1 K2) as Nf. assert (De : 0 <= rdot e e) by (unfold rdot; nra). assert (Df : 0 <= rdot f f) by (unfold rdot; nra).
  assert (LG : rdot (rcross e f) (rcross e f) = rdot e e * rdot f f - rdot e f * rdot e f) by (unfold rdot, rcross; cbn [c0 c1 c2]; ring).
  assert (B : rdot (rcross e f) (rcross e f) <= (3 * (E * E)) * (3 * (E * E))) by (rewrite LG; assert (rdot e e * rdot f f <= (3 * (E * E)) * (3 * (E * E))) by (apply Rmult_le_compat; lra); nra).
  unfold rnorm. rewrite <- (sqrt_square (3 * (E * E))) by nra. now apply sqrt_le_1_alt.
Qed.
(** the plane of a point and two edges *)
Lemma plane_cross q n N : close3 (9 * T) n N -> bpow radix2 (-30) * (E * E) <= rnorm N <= 3 * (E * E) ->
  (3 / 100000000 <= rnorm N -> exists p, mk_plane q n = Ok p) /\
  forall p, mk_plane q n = Ok p -> pl_r0 p = q /\ close3 (64 * (T / rnorm N)) (pl_n p) (unit_of N).
Proof.
  intros C HN. destruct (unit_cross C HN) as [S U]. unfold mk_plane. split.
  - intros H. destruct (almost_zero n default_atol) eqn:Z; [exfalso|eauto].
    destruct C as (Fn & C0 & C1 & C2). unfold fin3b in Fn. apply andb_prop in Fn. destruct Fn as [Fn F2]. apply andb_prop in Fn. destruct Fn as [F0 F1].
    unfold almost_zero, all3, map3 in Z. cbn [c0 c1 c2] in Z. apply andb_prop in Z. destruct Z as [Z Z2]. apply andb_prop in Z. destruct Z as [Z0 Z1].
    apply close_small in Z0; [|exact F0]. apply close_small in Z1; [|exact F1]. apply close_small in Z2; [|exact F2].
    assert (LT : 4194304 * T <= rnorm N) by (apply Rle_trans with (2 := Logic.proj1 HN); unfold T; change (bpow radix2 (-30)) with (/ 1073741824); rewrite eps_val; pose proof edge_pos; nra).
    assert (PT : 0 <= T) by (unfold T; pose proof eps_pos; pose proof edge_pos; nra).
    apply abs_le in C0, C1, C2, Z0, Z1, Z2. pose proof (@rnorm_small (11 / 1000000000 + 9 * T) N ltac:(lra) ltac:(apply abs_le; lra) ltac:(apply abs_le; lra) ltac:(apply abs_le; lra)). lra.
  - intros p HP. destruct (almost_zero n default_atol) eqn:Z; [discriminate|]. injection HP as <-. auto.
Qed.
(** the computed normal is nearly perpendicular to what the exact one is perpendicular to *)
Lemma nearly_perp n N d w : close3 d n N -> 0 <= d -> coords3 E w -> rdot N w = 0 -> Rabs (rdot (Rval3 n) w) <= 3 * d * E.
Proof.
  intros (_ & A & B & C) Pd (W0 & W1 & W2) Z. pose proof edge_pos as PE.
  replace (rdot (Rval3 n) w) with ((Bval (c0 n) - c0 N) * c0 w + (Bval (c1 n) - c1 N) * c1 w + (Bval (c2 n) - c2 N) * c2 w) by (unfold rdot, Rval3, map3 in *; cbn [c0 c1 c2]; lra).
  assert (Q0 : Rabs ((Bval (c0 n) - c0 N) * c0 w) <= d * E) by (apply mul_bound; lra). assert (Q1 : Rabs ((Bval (c1 n) - c1 N) * c1 w) <= d * E) by (apply mul_bound; lra). assert (Q2 : Rabs ((Bval (c2 n) - c2 N) * c2 w) <= d * E) by (apply mul_bound; lra).
  apply abs_le in Q0, Q1, Q2. apply abs_le. lra.
Qed.
End Cross.
