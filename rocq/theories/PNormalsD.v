(** * Face and vertex normals on doubles: proofs for property C161. *)
From Coq Require Import Reals ZArith List Bool Lra Lia Psatz.
From Flocq Require Import Core IEEE754.BinarySingleNaN.
From Verif Require Import Num B64 BLemmas Vec RVec VLemmas PMat3 SpecGeom SpecDouble SpecNormals NpList MVx MNormals PErr PNormD PPlaneD PSliceF PFar PCrossD PSumD PLine2D PMeanD PRodD PAngleD PNormals PNormals2 PNormals3 PNormals4.
Import ListNotations.
Local Open Scope R_scope.
Set Implicit Arguments.
Unset Strict Implicit.
Local Notation eps := PErr.eps.

(** ** directions *)
Lemma unit_gen d n N : 0 < d -> close3 d n N -> 4096 * d <= rnorm N -> bpow radix2 (-390) <= rnorm N <= bpow radix2 390 ->
  span_ok (rnorm (Rval3 n)) /\ close3 (12 * eps + 31 / 10 * (d / rnorm N)) (normalize1 n) (unit_of N).
Proof.
  intros Pd C LT [L U]. set (A := rnorm N) in *. pose proof (@close_norm d n N ltac:(lra) C) as D. fold A in D. set (B := rnorm (Rval3 n)) in *. apply abs_le in D.
  assert (PA : 0 < A) by lra. assert (PB : 0 < B) by lra.
  assert (S : span_ok B).
  { assert (Z1 : bpow radix2 (-390) = 1024 * bpow radix2 (-400)) by (change 1024 with (bpow radix2 10); rewrite <- bpow_plus; reflexivity). assert (Z2 : bpow radix2 400 = 1024 * bpow radix2 390) by (change 1024 with (bpow radix2 10); rewrite <- bpow_plus; reflexivity).
    pose proof (bpow_gt_0 radix2 (-400)). pose proof (bpow_gt_0 radix2 390). split; lra. }
  split; [exact S|]. destruct C as (Fn & C0 & C1 & C2). destruct (normalize_ap Fn S) as (Fu & U0 & U1 & U2). split; [exact Fu|]. fold B in U0, U1, U2.
  destruct (comp_le N) as (N0 & N1 & N2). fold A in N0, N1, N2.
  assert (G : forall x y, Rabs (x - y) <= d -> Rabs y <= A -> Rabs (/ B * x - / A * y) <= 31 / 10 * (d / A)).
  { intros x y Hxy Hy. replace (/ B * x - / A * y) with (/ B * ((x - y) + y / A * (A - B))) by (field; lra). rewrite Rabs_mult, (Rabs_pos_eq (/ B)) by (apply Rlt_le, Rinv_0_lt_compat; exact PB).
    assert (W : Rabs (y / A * (A - B)) <= 1 * (2 * d)).
    { apply mul_bound; try lra; [|apply abs_le; lra]. unfold Rdiv. rewrite Rabs_mult, (Rabs_pos_eq (/ A)) by (apply Rlt_le, Rinv_0_lt_compat; exact PA). apply Rmult_le_reg_r with A; [exact PA|]. rewrite Rmult_assoc, Rinv_l by lra. lra. }
    apply Rmult_le_reg_l with B; [exact PB|]. rewrite <- Rmult_assoc, Rinv_r, Rmult_1_l by lra. replace (B * (31 / 10 * (d / A))) with (31 / 10 * d * (B / A)) by (field; lra).
    apply abs_le in Hxy, W. assert (R1 : 1 - 2 * d / A <= B / A) by (apply Rmult_le_reg_r with A; [exact PA|]; replace ((1 - 2 * d / A) * A) with (A - 2 * d) by (field; lra); replace (B / A * A) with B by (field; lra); lra).
    assert (R2 : 2 * d / A <= / 1000) by (apply Rmult_le_reg_r with A; [exact PA|]; replace (2 * d / A * A) with (2 * d) by (field; lra); lra).
    assert (R3 : 31 / 10 * d * (1 - / 1000) <= 31 / 10 * d * (B / A)) by (apply Rmult_le_compat_l; lra). apply abs_le. lra. }
  pose proof (G _ _ C0 N0) as G0. pose proof (G _ _ C1 N1) as G1. pose proof (G _ _ C2 N2) as G2. unfold unit_of, rscale in U0, U1, U2 |- *. fold A. fold B in U0, U1, U2. unfold Rval3, map3 in U0, U1, U2. cbn [c0 c1 c2] in *.
  apply abs_le in U0, U1, U2, G0, G1, G2. repeat split; apply abs_le; lra.
Qed.
(** a row of NormalizedNx3 that is not tiny *)
Definition norm_row (p : V3 b64) : V3 b64 := vdivs p (nsqrt (row_ss p)).
Lemma row_unit p : fin3b p = true -> span_ok (rnorm (Rval3 p)) -> norm_row p = normalize1 p.
Proof.
  intros Fp HX. destruct (norm_ap Fp HX) as [FN EN]. pose proof (span_pos HX) as PX. pose proof eps_small. pose proof eps_pos. apply abs_le in EN.
  assert (P : 0 < Bval (vnorm p)) by nra. unfold norm_row, row_ss. cbv zeta. destruct (neqb (vdot p p) n0) eqn:Z; [|reflexivity]. exfalso.
  assert (V : Bval (vnorm p) = 0); [|lra]. change (vnorm p) with (bsqrt (vdot p p)). destruct (vdot p p) as [s|s| |s m e H1]; try discriminate Z; try reflexivity; destruct s; discriminate Z.
Qed.
(** ** the matrix form of the cross product *)
Lemma add_0l z x : bfin z = true -> Bval z = 0 -> bfin x = true -> (bfin (nadd z x) = true /\ Bval (nadd z x) = Bval x) /\ (bfin (nadd x z) = true /\ Bval (nadd x z) = Bval x).
Proof.
  intros Fz Vz Fx. destruct (zero_inv Fz Vz) as [s ->]. destruct x as [t|t| |t m e H]; try discriminate Fx; [destruct s, t; repeat split; reflexivity|repeat split; reflexivity].
Qed.
Lemma mul_0l (x : b64) : bfin x = true -> bfin (nmul n0 x) = true /\ Bval (nmul n0 x) = 0.
Proof. intros F. destruct x as [t|t| |t m e H]; try discriminate F; split; reflexivity. Qed.
Section Ax.
Context (E : R) (HE : bpow radix2 (-150) <= E <= bpow radix2 150).
Let T := eps * (E * E).
Lemma prod_ap x y x' y' : bfin x = true -> bfin y = true -> Rabs (Bval x - x') <= eps * E -> Rabs (Bval y - y') <= eps * E -> Rabs x' <= E -> Rabs y' <= E ->
  bfin (nmul x y) = true /\ Rabs (Bval (nmul x y) - x' * y') <= 31 / 10 * T /\ Rabs (x' * y') <= E * E.
Proof.
  intros Fx Fy Ex Ey Hx Hy. pose proof (edge_pos HE) as PE. pose proof eps_pos as P0. pose proof eps_small as S0. pose proof (edge_sq HE) as HS.
  assert (ES : eps * E <= E / 1000000) by nra. assert (EP : 0 < eps * E) by nra. assert (PT : 0 < T) by (unfold T; nra). assert (ST : T <= (E * E) / 1000000) by (unfold T; nra).
  assert (Q1 : Rabs ((Bval x - x') * Bval y) <= eps * E * (E + eps * E)) by (apply mul_bound; try lra; apply abs_le in Ey, Hy; apply abs_le; lra).
  assert (Q2 : Rabs (x' * (Bval y - y')) <= E * (eps * E)) by (apply mul_bound; lra).
  assert (Q3 : Rabs (x' * y') <= E * E) by (apply mul_bound; lra).
  assert (B1 : eps * E * (E + eps * E) <= 1001 / 1000 * T) by (unfold T; nra). assert (B2 : E * (eps * E) = T) by (unfold T; ring). rewrite B2 in Q2. apply abs_le in Q1, Q2. assert (Q3' := Q3). apply abs_le in Q3'.
  assert (V : Bval x * Bval y = (Bval x - x') * Bval y + x' * (Bval y - y') + x' * y') by ring.
  assert (BB : Rabs (Bval x * Bval y) <= 1001 / 1000 * (E * E)) by (rewrite V; apply abs_le; lra).
  destruct (@mul_ap x y (1001 / 1000 * (E * E)) Fx Fy) as [F G]; [apply scale_mid; [exact HS|lra]|exact BB|]. split; [exact F|]. split; [|exact Q3].
  replace (eps * (1001 / 1000 * (E * E))) with (1001 / 1000 * T) in G by (unfold T; field). apply abs_le in G. apply abs_le. rewrite V in G. lra.
Qed.
Lemma sum_ap p q P Q : bfin p = true -> bfin q = true -> Rabs (Bval p - P) <= 31 / 10 * T -> Rabs (Bval q - Q) <= 31 / 10 * T -> Rabs P <= E * E -> Rabs Q <= E * E ->
  bfin (nadd p q) = true /\ Rabs (Bval (nadd p q) - (P + Q)) <= 9 * T.
Proof.
  intros Fp Fq Ep Eq BP BQ. pose proof (edge_pos HE) as PE. pose proof eps_pos as P0. pose proof eps_small as S0. pose proof (edge_sq HE) as HS.
  assert (P2 : 0 < E * E) by (apply Rmult_lt_0_compat; lra). assert (PT : 0 < T) by (apply Rmult_lt_0_compat; lra). assert (ST : T <= (E * E) / 1000000) by (clear - P2 S0; subst T; nra). apply abs_le in Ep, Eq, BP, BQ.
  destruct (@add_ap p q (21 / 10 * (E * E)) Fp Fq) as [F G]; [apply scale_mid; [exact HS|lra]|apply abs_le; lra|]. split; [exact F|].
  replace (eps * (21 / 10 * (E * E))) with (21 / 10 * T) in G by (unfold T; field). apply abs_le in G. apply abs_le. lra.
Qed.
Lemma opp_close e x x' : bfin x = true -> Rabs (Bval x - x') <= e -> bfin (nopp x) = true /\ Rabs (Bval (nopp x) - - x') <= e.
Proof. intros F H. destruct (opp_val x) as [-> ->]. split; [exact F|]. apply abs_le in H. apply abs_le. lra. Qed.
Lemma ax_ap e f e' f' : close3 (eps * E) e e' -> close3 (eps * E) f f' -> coords3 E e' -> coords3 E f' -> close3 (9 * T) (mapply (ax e) f) (rcross e' f').
Proof.
  intros Ce Cf (H0 & H1 & H2) (K0 & K1 & K2). destruct e as [a b c], f as [x y z]. destruct e' as [a' b' c'], f' as [x' y' z']. destruct Ce as (Fe & e0 & e1 & e2), Cf as (Ff & f0 & f1 & f2). unfold fin3b in Fe, Ff. apply andb_prop in Fe, Ff. destruct Fe as [Fe G2], Ff as [Ff L2]. apply andb_prop in Fe, Ff. destruct Fe as [G0 G1], Ff as [L0 L1]. cbn [c0 c1 c2] in *.
  destruct (opp_close G0 e0) as [N0 n0']. destruct (opp_close G1 e1) as [N1 n1']. destruct (opp_close G2 e2) as [N2 n2'].
  assert (A0 : Rabs (- a') <= E) by now rewrite Rabs_Ropp. assert (A1 : Rabs (- b') <= E) by now rewrite Rabs_Ropp. assert (A2 : Rabs (- c') <= E) by now rewrite Rabs_Ropp.
  assert (S3 : forall p q P Q w, bfin p = true /\ Rabs (Bval p - P) <= 31 / 10 * T /\ Rabs P <= E * E -> bfin q = true /\ Rabs (Bval q - Q) <= 31 / 10 * T /\ Rabs Q <= E * E -> bfin w = true /\ Bval w = 0 ->
    (bfin (nadd (nadd w p) q) = true /\ Rabs (Bval (nadd (nadd w p) q) - (P + Q)) <= 9 * T) /\ (bfin (nadd (nadd p w) q) = true /\ Rabs (Bval (nadd (nadd p w) q) - (P + Q)) <= 9 * T) /\ (bfin (nadd (nadd p q) w) = true /\ Rabs (Bval (nadd (nadd p q) w) - (P + Q)) <= 9 * T)).
  { clear - HE T. intros p q P Q w (Fp & Ep & BP) (Fq & Eq & BQ) [Fw Vw]. destruct (add_0l Fw Vw Fp) as [[F1 V1] [F2 V2]]. destruct (sum_ap Fp Fq Ep Eq BP BQ) as [F3 E3]. destruct (add_0l Fw Vw F3) as [_ [F4 V4]].
    split; [apply sum_ap; auto; now rewrite V1|]. split; [apply sum_ap; auto; now rewrite V2|]. rewrite V4. auto. }
  assert (W : close3 (9 * T) (mapply (ax (mk3 a b c)) (mk3 x y z)) (mk3 (- c' * y' + b' * z') (c' * x' + - a' * z') (- b' * x' + a' * y'))).
  { unfold close3, fin3b, mapply, ax, map3, vdot. cbn [c0 c1 c2].
    destruct (S3 _ _ _ _ _ (prod_ap N2 L1 n2' f1 A2 K1) (prod_ap G1 L2 e1 f2 H1 K2) (mul_0l L0)) as ([-> E0] & _ & _).
    destruct (S3 _ _ _ _ _ (prod_ap G2 L0 e2 f0 H2 K0) (prod_ap N0 L2 n0' f2 A0 K2) (mul_0l L1)) as (_ & [-> E1] & _).
    destruct (S3 _ _ _ _ _ (prod_ap N1 L0 n1' f0 A1 K0) (prod_ap G0 L1 e0 f1 H0 K1) (mul_0l L2)) as (_ & _ & [-> E2]). auto. }
  unfold rcross. cbn [c0 c1 c2]. replace (b' * z' - c' * y') with (- c' * y' + b' * z') by ring. replace (c' * x' - a' * z') with (c' * x' + - a' * z') by ring. replace (a' * y' - b' * x') with (- b' * x' + a' * y') by ring. exact W.
Qed.
End Ax.
(** ** the arrays *)
Definition bvert (v : list (V3 b64)) (i : Z) : V3 b64 := nth (Z.to_nat i) v (mk3 n0 n0 n0).
Lemma bvert_val v i : vertex (map Rval3 v) i = Rval3 (bvert v i).
Proof. unfold vertex, bvert. exact (map_nth Rval3 v (mk3 n0 n0 n0) (Z.to_nat i)). Qed.
Lemma edges_gen (v : list (V3 b64)) f k m : in_range (length v) f -> (k < 3)%nat -> (m < 3)%nat ->
  edges_for (ravel3 v) f (Z.of_nat k) (Z.of_nat m) = Ok (ravel3 (map (fun t => vsub (bvert v (corner k t)) (bvert v (corner m t))) f)).
Proof.
  intros H K M. unfold edges_for. rewrite reshape_ravel. cbn [bindr].
  assert (T : forall k, (k < 3)%nat -> traverse (fun t => let* i := column (Z.of_nat k) t in pyget v i) f = Ok (map (fun t => bvert v (corner k t)) f)).
  { intros j J. apply traverse_ok. intros t I. rewrite column_ok by auto. cbn [bindr]. rewrite (@pyget_ok _ _ _ (mk3 n0 n0 n0)); [reflexivity|]. apply (H t); auto using corner_in. }
  rewrite !T by auto. cbn [bindr]. do 2 f_equal. clear. unfold map2. induction f as [|t f IH]; [reflexivity|]. cbn [map combine fst snd]. now rewrite IH.
Qed.
Definition bnormal (v : list (V3 b64)) (t : V3 Z) : V3 b64 :=
  mapply (ax (vsub (bvert v (c1 t)) (bvert v (c0 t)))) (vsub (bvert v (c2 t)) (bvert v (c0 t))).
Lemma tri_gen (v : list (V3 b64)) f : in_range (length v) f -> tri_normals_scaled (ravel3 v) f = Ok (ravel3 (map (bnormal v) f)).
Proof.
  intros H. unfold tri_normals_scaled. pose proof (@edges_gen v f 1 0 H ltac:(lia) ltac:(lia)) as E1. pose proof (@edges_gen v f 2 0 H ltac:(lia) ltac:(lia)) as E2.
  change (Z.of_nat 1) with 1%Z in E1. change (Z.of_nat 2) with 2%Z in E2. change (Z.of_nat 0) with 0%Z in E1, E2. rewrite E1, E2. clear E1 E2. cbn [bindr].
  unfold cross_value. rewrite !reshape_ravel. cbn [bindr]. rewrite !map_length, Nat.eqb_refl. do 2 f_equal. clear. unfold map2. induction f as [|t f IH]; [reflexivity|]. cbn [map combine fst snd]. now rewrite IH.
Qed.
Lemma tri_unit_gen (v : list (V3 b64)) f : in_range (length v) f -> tri_normals (ravel3 v) f = Ok (ravel3 (map (fun t => norm_row (bnormal v t)) f)).
Proof. intros H. unfold tri_normals. rewrite tri_gen by exact H. cbn [bindr]. unfold normalized_value. rewrite reshape_ravel. cbn [bindr]. now rewrite map_map. Qed.
(** ** one face *)
Section Face.
Context (E : R) (HE : bpow radix2 (-150) <= E <= bpow radix2 150).
Let T := eps * (E * E).
Definition short (v : list (V3 b64)) (t : V3 Z) : Prop :=
  coords3 E (rsub (vertex (map Rval3 v) (c1 t)) (vertex (map Rval3 v) (c0 t))) /\ coords3 E (rsub (vertex (map Rval3 v) (c2 t)) (vertex (map Rval3 v) (c0 t))).
Lemma fin_vert v i : Forall (fun p => fin3b p = true) v -> fin3b (bvert v i) = true.
Proof. intros H. unfold bvert. destruct (nth_in_or_default (Z.to_nat i) v (mk3 n0 n0 n0)) as [I| ->]; [|reflexivity]. rewrite Forall_forall in H. now apply H. Qed.
Lemma face_ap v t : Forall (fun p => fin3b p = true) v -> short v t -> close3 (9 * T) (bnormal v t) (face_normal (map Rval3 v) t) /\ rnorm (face_normal (map Rval3 v) t) <= 3 * (E * E) /\ coords3 (2 * (E * E)) (face_normal (map Rval3 v) t).
Proof.
  intros H [S1 S2]. unfold face_normal, bnormal. rewrite !bvert_val in *. split; [|split].
  - apply ax_ap; auto; apply edge_ap; auto using fin_vert.
  - now apply cross_size.
  - destruct S1 as (A0 & A1 & A2), S2 as (B0 & B1 & B2). set (e := rsub _ _) in A0, A1, A2 |- *. set (g := rsub _ (Rval3 (bvert v (c0 t)))) in B0, B1, B2 |- *. clearbody e g. pose proof (edge_pos HE) as PE.
    assert (M : forall a b c d, Rabs a <= E -> Rabs b <= E -> Rabs c <= E -> Rabs d <= E -> Rabs (a * b - c * d) <= 2 * (E * E)).
    { intros a b c d Ha Hb Hc Hd. assert (Q1 : Rabs (a * b) <= E * E) by (apply mul_bound; lra). assert (Q2 : Rabs (c * d) <= E * E) by (apply mul_bound; lra). apply abs_le in Q1, Q2. apply abs_le. lra. }
    unfold coords3, rcross. cbn [c0 c1 c2]. auto.
Qed.
Lemma T_pos : 0 < E * E /\ 0 < T /\ T <= E * E / 1000000.
Proof. pose proof (edge_pos HE) as PE. pose proof eps_pos. pose proof eps_small as S0. assert (P2 : 0 < E * E) by (apply Rmult_lt_0_compat; lra). split; [exact P2|]. split; [apply Rmult_lt_0_compat; lra|clear - P2 S0; subst T; nra]. Qed.
Lemma EE_span : bpow radix2 (-300) <= E * E <= bpow radix2 300.
Proof.
  destruct HE as [HL HU]. pose proof (bpow_gt_0 radix2 (-150)). change (-300)%Z with (-150 + -150)%Z. change 300%Z with (150 + 150)%Z. rewrite !bpow_plus. split; apply Rmult_le_compat; lra.
Qed.
(** the direction of a sum of [n] normals *)
Lemma dir_ap n p S : 1 <= n <= bpow radix2 31 -> close3 (12 * (n * n) * T) p S -> rnorm S <= 3 * n * (E * E) -> 65536 * (n * n) * T <= rnorm S ->
  close3 (75 * (n * n) * (T / rnorm S)) (norm_row p) (unit_of S).
Proof.
  intros [N1 N2] C U L. destruct T_pos as (P2 & PT & ST). destruct EE_span as [EL EU]. assert (PN : n <= n * n) by nra. assert (PNT : 0 < (n * n) * T) by (apply Rmult_lt_0_compat; lra).
  assert (PS : 0 < rnorm S) by lra.
  destruct (@unit_gen (12 * (n * n) * T) p S) as [SP G]; [lra|exact C|lra| |].
  - split.
    + apply Rle_trans with (bpow radix2 16 * T); [|change (bpow radix2 16) with 65536; assert (T <= n * n * T) by nra; lra]. unfold T, PErr.eps. rewrite <- Rmult_assoc, <- bpow_plus. apply Rle_trans with (bpow radix2 (16 + -52) * bpow radix2 (-300)); [rewrite <- bpow_plus; apply bpow_le; lia|apply Rmult_le_compat_l; [apply bpow_ge_0|exact EL]].
    + apply Rle_trans with (bpow radix2 2 * bpow radix2 31 * bpow radix2 300); [|rewrite <- !bpow_plus; apply bpow_le; lia]. change (bpow radix2 2) with 4. eapply Rle_trans; [exact U|]. apply Rmult_le_compat; lra.
  - destruct C as (Fp & _). rewrite (row_unit Fp SP). destruct G as (Fg & G0 & G1 & G2). split; [exact Fg|].
    assert (B : 12 * eps + 31 / 10 * (12 * (n * n) * T / rnorm S) <= 75 * (n * n) * (T / rnorm S)).
    { assert (Q : 12 * eps <= 36 * (n * n) * (T / rnorm S)). { apply Rmult_le_reg_r with (rnorm S); [exact PS|]. replace (36 * (n * n) * (T / rnorm S) * rnorm S) with (36 * ((n * n) * T)) by (field; lra). unfold T. pose proof eps_pos as P0. apply Rle_trans with (12 * eps * (3 * n * (E * E))); [apply Rmult_le_compat_l; lra|]. assert (0 <= eps * (E * E)) by nra. nra. }
      assert (Z : 31 / 10 * (12 * (n * n) * T / rnorm S) = 372 / 10 * (n * n) * (T / rnorm S)) by (field; lra). rewrite Z. assert (0 <= (n * n) * (T / rnorm S)) by (apply Rmult_le_pos; [nra|apply Rlt_le, Rdiv_lt_0_compat; lra]). lra. }
    split; [|split]; lra.
Qed.
End Face.
(** ** adding up the faces at a vertex *)
Lemma combine_repeat {A B C} (l : list A) (x : B) (y : C) n : combine l (repeat y n) = map (fun e => (fst e, y)) (combine l (repeat x n)).
Proof. revert n. induction l as [|a l IH]; intros [|n]; try reflexivity. cbn [repeat combine map fst]. now rewrite IH. Qed.
Lemma faces_gen (v : list (V3 b64)) f : in_range (length v) f ->
  faces_by_vertex v f = Ok (mksparse (3 * length v) (3 * length f) (map (fun e => (fst e, nofZ 1)) (fbv_ents f))).
Proof.
  intros H. set (v' := map (fun _ => fin3 rzero) v). assert (L : length v' = length v) by apply map_length. assert (Q := @faces_ok v' f). rewrite L in Q. specialize (Q H). revert Q.
  unfold faces_by_vertex, coo. cbv zeta. rewrite L. destruct (_ || _); [discriminate|]. intros Q. apply (f_equal (fun r => match r with Ok m => sp_entries m | Err _ => [] end)) in Q. cbv beta iota in Q. cbn [sp_entries] in Q. do 2 f_equal. rewrite (combine_repeat _ (@nofZ xr _ 1) (@nofZ b64 _ 1)). rewrite Q. unfold fin_ents. rewrite map_map. reflexivity.
Qed.
Lemma rows_gen {A} (g : nat -> A) n : map g (seq 0 (3 * n)) = ravel3 (map (fun w => mk3 (g (3 * w)%nat) (g (3 * w + 1)%nat) (g (3 * w + 2)%nat)) (seq 0 n)).
Proof.
  assert (G : forall m a, map g (seq (3 * a) (3 * m)) = ravel3 (map (fun w => mk3 (g (3 * w)%nat) (g (3 * w + 1)%nat) (g (3 * w + 2)%nat)) (seq a m))).
  { induction m as [|m IH]; intros a; [rewrite Nat.mul_0_r; reflexivity|]. rewrite seq3. cbn [seq map].
    change (ravel3 (mk3 ?x ?y ?z :: ?l)) with (x :: y :: z :: ravel3 l). replace (3 * a + 3)%nat with (3 * S a)%nat by lia. now rewrite IH. }
  exact (G n 0%nat).
Qed.
Definition row_at (f : list (V3 Z)) (x : list b64) (i : nat) : list b64 := map (fun e => nmul (nofZ 1) (nth (snd (fst e)) x n0)) (filter (fun e => Nat.eqb (fst (fst e)) i) (fbv_ents f)).
Definition vsum_at (v : list (V3 b64)) (f : list (V3 Z)) (w : nat) : V3 b64 :=
  let x := ravel3 (map (bnormal v) f) in mk3 (nsum (row_at f x (3 * w))) (nsum (row_at f x (3 * w + 1))) (nsum (row_at f x (3 * w + 2))).
Lemma vert_gen (v : list (V3 b64)) f : in_range (length v) f -> vert_normals v f true = Ok (map (fun w => norm_row (vsum_at v f w)) (seq 0 (length v))).
Proof.
  intros H. unfold vert_normals. rewrite faces_gen by exact H. cbn [bindr]. unfold graph_value. rewrite tri_gen by exact H. cbn [bindr]. unfold sp_dot. cbn [sp_rows sp_cols sp_entries].
  assert (L : length (ravel3 (map (bnormal v) f)) = (3 * length f)%nat) by (unfold ravel3; rewrite (@flat_map_length_const _ _ _ 3), map_length; [lia|reflexivity]). rewrite L, Nat.eqb_refl. cbn [bindr].
  set (x := ravel3 (map (bnormal v) f)) in *.
  assert (R : forall i, map (fun e => nmul (snd e) (nth (snd (fst e)) x n0)) (filter (fun e => Nat.eqb (fst (fst e)) i) (map (fun e : nat * nat * R => (fst e, @nofZ b64 _ 1)) (fbv_ents f))) = row_at f x i).
  { intros i. unfold row_at. induction (fbv_ents f) as [|[[a b] r] l IH]; [reflexivity|]. cbn [map filter fst snd]. destruct (Nat.eqb a i); [|exact IH]. cbn [map fst snd]. now rewrite IH. }
  rewrite (map_ext _ (fun i => nsum (row_at f x i))) by (intros i; now rewrite R). rewrite rows_gen. unfold normalized_value. rewrite reshape_ravel. cbn [bindr]. rewrite reshape_ravel. rewrite map_map. reflexivity.
Qed.
Lemma part_count k k' p w : (k < 3)%nat -> (k' < 3)%nat -> length (filter (fun e => Nat.eqb (fst (fst e)) (3 * w + k')) (part k p)) = if Nat.eqb k k' then length (filter (fun ij => Nat.eqb (fst ij) w) p) else 0%nat.
Proof.
  intros K K'. induction p as [|[i j] p IH]; [cbn; now destruct (Nat.eqb k k')|]. unfold part in *. cbn [map filter fst snd]. destruct (Nat.eqb_spec k k') as [<-|NE].
  - destruct (Nat.eqb_spec i w) as [->|NW]; [rewrite Nat.eqb_refl; cbn [length]; now rewrite IH|]. replace (3 * i + k =? 3 * w + k)%nat with false by (symmetry; apply Nat.eqb_neq; lia). exact IH.
  - replace (3 * i + k =? 3 * w + k')%nat with false by (symmetry; apply Nat.eqb_neq; lia). exact IH.
Qed.
Lemma inc_count f a w : nonneg f -> length (filter (fun ij => Nat.eqb (fst ij) w) (inc a f)) = count_at f w.
Proof.
  revert a. induction f as [|t f IH]; intros a H; [reflexivity|]. unfold count_at in *. cbn [inc flat_map]. rewrite app_length, <- (IH (S a)) by (intros t' i It Ii; exact (H t' i (or_intror It) Ii)).
  assert (H0 : (0 <= c0 t)%Z) by (apply (H t); cbn; auto). assert (H1 : (0 <= c1 t)%Z) by (apply (H t); cbn; auto). assert (H2 : (0 <= c2 t)%Z) by (apply (H t); cbn; auto).
  assert (E : forall z, (0 <= z)%Z -> Nat.eqb (Z.to_nat z) w = Z.eqb (Z.of_nat w) z) by (intros z Hz; destruct (Nat.eqb_spec (Z.to_nat z) w), (Z.eqb_spec (Z.of_nat w) z); auto; lia).
  cbn [filter fst]. rewrite !E by auto. destruct (Z.eqb (Z.of_nat w) (c0 t)), (Z.eqb (Z.of_nat w) (c1 t)), (Z.eqb (Z.of_nat w) (c2 t)); cbn [length]; lia.
Qed.
Lemma row_count f x w k : nonneg f -> (k < 3)%nat -> length (row_at f x (3 * w + k)) = count_at f w.
Proof.
  intros H K. unfold row_at. rewrite map_length. unfold fbv_ents. rewrite !filter_app, !app_length, !part_count by lia. rewrite <- (inc_count 0 w H). destruct k as [|[|[|k]]]; try lia; cbn [Nat.eqb]; lia.
Qed.
Lemma normals_count v f w : length (normals_at v f (Z.of_nat w)) = count_at f w.
Proof. unfold normals_at, count_at. induction f as [|t f IH]; [reflexivity|]. cbn [flat_map]. now rewrite !app_length, IH, map_length. Qed.
Lemma rowsum_close f x X i d B : 0 <= d -> (forall j, Rabs (nth j x 0 - nth j X 0) <= d /\ Rabs (nth j X 0) <= B) -> Forall (fun e => snd e = 1) f ->
  let n := INR (length (filter (fun e => Nat.eqb (fst (fst e)) i) f)) in Rabs (rowsum f x i - rowsum f X i) <= n * d /\ Rabs (rowsum f X i) <= n * B.
Proof.
  intros Pd H U. induction U as [|e f E _ IH]; cbv zeta in *; [unfold rowsum; cbn; rewrite Rminus_0_r, Rabs_R0; lra|]. rewrite !rowsum_cons. cbn [filter]. destruct (Nat.eqb (fst (fst e)) i).
  - cbn [length]. rewrite S_INR, E. destruct (H (snd (fst e))) as [H1 H2]. destruct IH as [I1 I2]. apply abs_le in H1, H2, I1, I2. split; apply abs_le; lra.
  - rewrite !Rplus_0_l. exact IH.
Qed.
Lemma fbv_ones f : Forall (fun e => snd e = 1) (fbv_ents f).
Proof. unfold fbv_ents, part. rewrite !Forall_app, !Forall_map. repeat split; apply Forall_forall; reflexivity. Qed.
Lemma ravel_nth (l : list (V3 b64)) (P : b64 -> Prop) : P n0 -> Forall (fun p => P (c0 p) /\ P (c1 p) /\ P (c2 p)) l -> forall j, P (nth j (ravel3 l) n0).
Proof.
  intros P0 H j. destruct (nth_in_or_default j (ravel3 l) n0) as [I| ->]; [|exact P0]. unfold ravel3 in I |- *. apply in_flat_map in I. destruct I as (p & Ip & I). rewrite Forall_forall in H. destruct (H p Ip) as (Q0 & Q1 & Q2). cbn [In] in I. destruct I as [<-|[<-|[<-|[]]]]; assumption.
Qed.
Lemma ravel_close {A} (g : A -> V3 b64) (h : A -> V3 R) d B l : 0 <= d -> 0 <= B -> Forall (fun t => close3 d (g t) (h t) /\ coords3 B (h t)) l ->
  forall j, Rabs (nth j (map Bval (ravel3 (map g l))) 0 - nth j (rflat (map h l)) 0) <= d /\ Rabs (nth j (rflat (map h l)) 0) <= B.
Proof.
  intros Pd PB H. assert (Z : forall j, Rabs (nth j (@nil R) 0 - nth j (@nil R) 0) <= d /\ Rabs (nth j (@nil R) 0) <= B) by (intros [|j]; cbn [nth]; rewrite ?Rminus_0_r, Rabs_R0; auto).
  induction H as [|t l ((_ & C0 & C1 & C2) & (B0 & B1 & B2)) _ IH]; [exact Z|]. cbn [map]. intros j.
  change (ravel3 (g t :: map g l)) with (c0 (g t) :: c1 (g t) :: c2 (g t) :: ravel3 (map g l)). change (rflat (h t :: map h l)) with (c0 (h t) :: c1 (h t) :: c2 (h t) :: rflat (map h l)). cbn [map].
  destruct j as [|[|[|j]]]; cbn [nth]; auto.
Qed.
Section Vertex.
Context (E : R) (HE : bpow radix2 (-150) <= E <= bpow radix2 150) (v : list (V3 b64)) (f : list (V3 Z)).
Context (HR : in_range (length v) f) (HF : Forall (fun p => fin3b p = true) v) (HS : Forall (short E v) f).
Let T := eps * (E * E).
Let S w := rvsum (normals_at (map Rval3 v) f (Z.of_nat w)).
Lemma HR' : in_range (length (map Rval3 v)) f.
Proof. now rewrite map_length. Qed.
Lemma NN : nonneg f.
Proof. intros t i It Ii. now apply (HR It Ii). Qed.
Lemma entry_ap w k : (k < 3)%nat -> (Z.of_nat (count_at f w) <= 2 ^ 30)%Z -> let n := INR (count_at f w) in let s := nsum (row_at f (ravel3 (map (bnormal v) f)) (3 * w + k)) in
  bfin s = true /\ Rabs (Bval s - coord (Z.of_nat k) (S w)) <= (9 * n + 126 / 100 * (n * (n + 1))) * T /\ Rabs (coord (Z.of_nat k) (S w)) <= n * (2 * (E * E)).
Proof.
  intros K HC n s. set (x := ravel3 (map (bnormal v) f)) in *. destruct (T_pos HE) as (P2 & PT & ST). fold T in PT, ST.
  assert (HC' : Forall (fun t => close3 (9 * T) (bnormal v t) (face_normal (map Rval3 v) t) /\ coords3 (2 * (E * E)) (face_normal (map Rval3 v) t)) f).
  { apply Forall_forall. intros t I. rewrite Forall_forall in HS. destruct (face_ap HE HF (HS t I)) as (C & _ & B). auto. }
  pose proof (@ravel_close _ (bnormal v) (face_normal (map Rval3 v)) (9 * T) (2 * (E * E)) f ltac:(lra) ltac:(lra) HC') as RC. fold x in RC.
  assert (RF : forall j, bfin (nth j x n0) = true /\ Rabs (Bval (nth j x n0)) <= 21 / 10 * (E * E)).
  { intros j. unfold x. revert j. apply ravel_nth with (P := fun y => bfin y = true /\ Rabs (Bval y) <= 21 / 10 * (E * E)); [split; [reflexivity|change (Bval n0) with 0; rewrite Rabs_R0; lra]|].
    rewrite Forall_map. eapply Forall_impl; [|exact HC']. intros t ((Fn & C0 & C1 & C2) & (B0 & B1 & B2)). unfold fin3b in Fn. apply andb_prop in Fn. destruct Fn as [Fn F2]. apply andb_prop in Fn. destruct Fn as [F0 F1].
    apply abs_le in C0, C1, C2, B0, B1, B2. repeat split; auto; apply abs_le; lra. }
  assert (SP : span_ok (21 / 10 * (E * E))).
  { destruct (EE_span HE) as [L U]. split; [apply Rle_trans with (bpow radix2 (-300)); [apply bpow_le; lia|lra]|apply Rle_trans with (bpow radix2 2 * bpow radix2 300); [change (bpow radix2 2) with 4; lra|rewrite <- bpow_plus; apply bpow_le; lia]]. }
  assert (BIG : 21 / 10 * (E * E) <= bpow radix2 1000) by (destruct SP as [_ U]; eapply Rle_trans; [exact U|apply bpow_le; lia]).
  assert (RA : Forall (fun y => bfin y = true /\ Rabs (Bval y) <= 21 / 10 * (E * E)) (row_at f x (3 * w + k)) /\ rsum (map Bval (row_at f x (3 * w + k))) = rowsum (fbv_ents f) (map Bval x) (3 * w + k)).
  { unfold row_at, rowsum. pose proof (fbv_ones f) as O. induction O as [|e l O1 _ IH]; [split; [constructor|reflexivity]|]. cbn [filter]. destruct (Nat.eqb (fst (fst e)) (3 * w + k)); [|exact IH]. destruct IH as [I1 I2]. cbn [map rsum].
    destruct (RF (snd (fst e))) as [F1 B1]. destruct (@mul_1 (nth (snd (fst e)) x n0) F1 ltac:(lra)) as [F2 V2]. split; [constructor; [now rewrite V2|exact I1]|]. rewrite I2, V2, O1, Rmult_1_l. f_equal. change 0 with (Bval n0) at 1. now rewrite map_nth. }
  destruct RA as [RA RB]. destruct (nsum_ap SP RA) as (Fs & Es & _); [rewrite row_count; [exact HC|exact NN|exact K]|]. fold s in Fs, Es. rewrite row_count in Es by (exact NN || exact K). fold n in Es. rewrite RB in Es.
  destruct (@rowsum_close (fbv_ents f) (map Bval x) (rflat (map (face_normal (map Rval3 v)) f)) (3 * w + k) (9 * T) (2 * (E * E)) ltac:(lra) RC (fbv_ones f)) as [D1 D2].
  assert (CN : length (filter (fun e => Nat.eqb (fst (fst e)) (3 * w + k)) (fbv_ents f)) = count_at f w) by (rewrite <- (@row_count f x w k NN K); unfold row_at; now rewrite map_length).
  rewrite CN in D1, D2. fold n in D1, D2. rewrite (@vertex_rows f (map Rval3 v) w k HR' K) in D1, D2. fold (S w) in D1, D2. split; [exact Fs|]. split; [|exact D2].
  replace (6 / 10 * (eps * (n * (n + 1) * (21 / 10 * (E * E))))) with (126 / 100 * (n * (n + 1)) * T) in Es by (unfold T; field). apply abs_le in D1, Es. apply abs_le. lra.
Qed.
Lemma vsum_ap w : (1 <= Z.of_nat (count_at f w) <= 2 ^ 30)%Z -> let n := INR (count_at f w) in
  close3 (12 * (n * n) * T) (vsum_at v f w) (S w).
Proof.
  intros HC n. destruct (T_pos HE) as (P2 & PT & ST). fold T in PT, ST. destruct (@entry_ap w 0 ltac:(lia) ltac:(lia)) as (F0 & E0 & _). destruct (@entry_ap w 1 ltac:(lia) ltac:(lia)) as (F1 & E1 & _). destruct (@entry_ap w 2 ltac:(lia) ltac:(lia)) as (F2 & E2 & _).
  fold n in E0, E1, E2. assert (N1 : 1 <= n) by (change 1 with (INR 1); apply le_INR; lia).
  assert (Q : (9 * n + 126 / 100 * (n * (n + 1))) * T <= 12 * (n * n) * T) by (apply Rmult_le_compat_r; [lra|nra]).
  rewrite Nat.add_0_r in F0, E0. unfold vsum_at, close3, fin3b. cbv zeta. cbn [c0 c1 c2]. rewrite F0, F1, F2. cbn [andb]. destruct (S w) as [a b c]. cbn [c0 c1 c2]. change (coord (Z.of_nat 0) (mk3 a b c)) with a in E0. change (coord (Z.of_nat 1) (mk3 a b c)) with b in E1. change (coord (Z.of_nat 2) (mk3 a b c)) with c in E2. split; [reflexivity|]. split; [|split]; lra.
Qed.
Lemma rvsum_norm B l : Forall (fun x => rnorm x <= B) l -> rnorm (rvsum l) <= INR (length l) * B.
Proof.
  induction 1 as [|x l H _ IH]; [cbn [rvsum length INR]; rewrite Rmult_0_l, (Logic.proj2 (rnorm_0 rzero) eq_refl); lra|]. cbn [rvsum length]. rewrite S_INR. pose proof (rnorm_tri x (rvsum l)). lra.
Qed.
Lemma sum_norm w : rnorm (S w) <= 3 * INR (count_at f w) * (E * E).
Proof.
  unfold S. rewrite <- (normals_count (map Rval3 v)). replace (3 * INR (length (normals_at (map Rval3 v) f (Z.of_nat w))) * (E * E)) with (INR (length (normals_at (map Rval3 v) f (Z.of_nat w))) * (3 * (E * E))) by ring. apply rvsum_norm.
  apply Forall_forall. intros x I. unfold normals_at in I. apply in_flat_map in I. destruct I as (t & It & I). apply in_map_iff in I. destruct I as (_ & <- & _). rewrite Forall_forall in HS. now destruct (face_ap HE HF (HS t It)) as (_ & B & _).
Qed.
Lemma vert_dir w : (1 <= Z.of_nat (count_at f w) <= 2 ^ 30)%Z -> let n := INR (count_at f w) in 65536 * (n * n) * T <= rnorm (S w) ->
  close3 (75 * (n * n) * (T / rnorm (S w))) (norm_row (vsum_at v f w)) (unit_of (S w)).
Proof.
  intros HC n H. apply dir_ap; auto.
  - split; [change 1 with (INR 1); apply le_INR; lia|]. pose proof (@len_real (count_at f w) ltac:(lia)). change (bpow radix2 31) with 2147483648. fold n in H0. lra.
  - now apply vsum_ap.
  - apply sum_norm.
Qed.
End Vertex.
(** ** whatever the size of the rows: no overflow, no NaN *)
Lemma sq_round y : Rabs y <= bpow radix2 500 -> y * y <= 15 / 10 * rnd64 (y * y) + bpow radix2 (-1074) / 2 /\ 0 <= rnd64 (y * y).
Proof.
  intros H. assert (P : 0 <= y * y) by nra. assert (R0 : 0 <= rnd64 (y * y)) by (rewrite <- rnd64_0; now apply rnd64_le). split; [|exact R0].
  destruct (Rle_dec (bpow radix2 (-1022)) (Rabs (y * y))) as [L|L].
  - destruct (rnd64_rel L) as (d & Hd & E). assert (Hu : Rabs d <= / 1000) by (eapply Rle_trans; [exact Hd|unfold u64; change (bpow radix2 (-53)) with (/ 9007199254740992); lra]). apply abs_le in Hu. pose proof (bpow_gt_0 radix2 (-1074)). rewrite E. nra.
  - assert (N : Rabs (rnd64 (y * y) - y * y) <= bpow radix2 (-1074) / 2).
    { unfold rnd64. pose proof (error_le_half_ulp radix2 (FLT_exp (-1074) 53) (fun z => negb (Z.even z)) (y * y)) as Q. assert (U : ulp radix2 (FLT_exp (-1074) 53) (y * y) = bpow radix2 (-1074)) by (apply ulp_FLT_small; [reflexivity|]; apply Rnot_le_lt in L; eapply Rlt_le_trans; [exact L|apply bpow_le; lia]). rewrite U in Q. lra. }
    apply abs_le in N. lra.
Qed.
Lemma pos_min (x : b64) : 0 < Bval x -> bpow radix2 (-1074) <= Bval x.
Proof.
  intros P. assert (F : generic_format radix2 (FLT_exp (-1074) 53) (Bval x)) by (apply rnd_id_fmt; apply rnd64_B). eapply Rle_trans; [|apply ulp_le_id; [exact P|exact F]].
  rewrite ulp_neq_0 by lra. apply bpow_le. unfold cexp, FLT_exp. lia.
Qed.
Lemma lit_root : let d := nsqrt (nlit 1 10000000000 : b64) in bfin d = true /\ bpow radix2 (-20) <= Bval d.
Proof.
  intros d. assert (F : bfin d = true) by (vm_compute; reflexivity). split; [exact F|]. set (l := nlit 1 (2 ^ 20) : b64). assert (Fl : bfin l = true) by (vm_compute; reflexivity).
  assert (Vl : Bval l = bpow radix2 (-20)) by (rewrite (@Bval_me l 4503599627370496%Z (-72)%Z) by (vm_compute; reflexivity); change 4503599627370496%Z with (2 ^ 52)%Z; change (bpow radix2 (-72)) with (/ 4722366482869645213696); change (bpow radix2 (-20)) with (/ 1048576); change (2 ^ 52)%Z with 4503599627370496%Z; lra).
  assert (L : nle l d = true) by (vm_compute; reflexivity). rewrite ble_spec in L by auto. revert L. case Rle_bool_spec; [|discriminate]. rewrite Vl. auto.
Qed.
Lemma quot_2 (a d : b64) : bfin a = true -> 0 < Bval d -> Rabs (Bval a) <= 2 * Bval d -> bfin (ndiv a d) = true /\ Rabs (Bval (ndiv a d)) <= 2.
Proof.
  intros Fa Pd H. assert (Q : Rabs (Bval a / Bval d) <= 2). { unfold Rdiv. rewrite Rabs_mult, (Rabs_pos_eq (/ Bval d)) by (apply Rlt_le, Rinv_0_lt_compat; exact Pd). apply Rmult_le_reg_r with (Bval d); [exact Pd|]. rewrite Rmult_assoc, Rinv_l by lra. lra. }
  change (ndiv a d) with (bdiv a d). destruct (@bdiv_val a d Fa) as [V F]; [lra|eapply Rle_trans; [exact Q|]; change 2 with (bpow radix2 1); apply bpow_le; lia|]. split; [exact F|]. rewrite V. change 2 with (bpow radix2 1). apply rnd64_pow; [lia|exact Q].
Qed.
Lemma add_pos a b : bfin a = true -> bfin b = true -> 0 <= Bval a -> 0 <= Bval b -> Bval a + Bval b <= bpow radix2 1000 ->
  bfin (nadd a b) = true /\ Bval a <= Bval (nadd a b) /\ Bval b <= Bval (nadd a b) /\ (forall e, (-1074 <= e)%Z -> Bval a + Bval b <= bpow radix2 e -> Bval (nadd a b) <= bpow radix2 e).
Proof.
  intros Fa Fb Pa Pb H. change (nadd a b) with (badd a b). destruct (@badd_val a b Fa Fb) as [V F]; [rewrite Rabs_pos_eq; lra|]. rewrite V. split; [exact F|]. split; [|split].
  - rewrite <- (rnd64_B a) at 1. apply rnd64_le. lra.
  - rewrite <- (rnd64_B b) at 1. apply rnd64_le. lra.
  - intros e He Hs. now apply rnd_bpow_le.
Qed.
Lemma row_bounded p : within (bpow radix2 490) p -> within 2 (norm_row p).
Proof.
  intros W. destruct (within_fin W) as (F0 & F1 & F2). destruct W as (_ & B0 & B1 & B2). destruct p as [x y z]. cbn [c0 c1 c2] in *.
  assert (M : forall a, bfin a = true -> Rabs (Bval a) <= bpow radix2 490 -> bfin (nmul a a) = true /\ Bval (nmul a a) <= bpow radix2 980 /\ 0 <= Bval (nmul a a) /\ Bval a * Bval a <= 15 / 10 * Bval (nmul a a) + bpow radix2 (-1074) / 2).
  { clear. intros a Fa Ba. assert (Q : Rabs (Bval a * Bval a) <= bpow radix2 980) by (change 980%Z with (490 + 490)%Z; rewrite bpow_plus; apply mul_bound; auto using bpow_ge_0). change (nmul a a) with (bmul a a). destruct (@bmul_val a a Fa Fa) as [V F]; [eapply Rle_trans; [exact Q|apply bpow_le; lia]|]. destruct (@sq_round (Bval a)) as [R1 R2]; [eapply Rle_trans; [exact Ba|apply bpow_le; lia]|]. rewrite V. repeat split; auto.
    pose proof (@rnd64_pow (Bval a * Bval a) 980 ltac:(lia) Q) as R3. apply abs_le in R3. lra. }
  destruct (M x F0 B0) as (Fx & Ux & Px & Qx). destruct (M y F1 B1) as (Fy & Uy & Py & Qy). destruct (M z F2 B2) as (Fz & Uz & Pz & Qz). clear M.
  assert (Z1 : bpow radix2 981 = 2 * bpow radix2 980) by (change 2 with (bpow radix2 1); now rewrite <- bpow_plus). assert (Z2 : 2 * bpow radix2 981 = bpow radix2 982) by (change 2 with (bpow radix2 1); now rewrite <- bpow_plus). assert (Z3 : bpow radix2 982 <= bpow radix2 1000) by (apply bpow_le; lia). pose proof (bpow_gt_0 radix2 980).
  destruct (add_pos Fx Fy Px Py) as (Fu & Xu & Yu & Bu); [lra|]. specialize (Bu 981%Z ltac:(lia) ltac:(lra)). set (u := nadd (nmul x x) (nmul y y)) in *.
  destruct (add_pos Fu Fz ltac:(lra) Pz) as (Fs & Us & Zs & _); [lra|]. set (s := nadd u (nmul z z)) in *.
  assert (G : exists d, norm_row (mk3 x y z) = mk3 (ndiv x d) (ndiv y d) (ndiv z d) /\ 0 < Bval d /\ forall a, Rabs (Bval a) <= bpow radix2 490 -> 0 <= Bval (nmul a a) <= Bval s -> Bval a * Bval a <= 15 / 10 * Bval (nmul a a) + bpow radix2 (-1074) / 2 -> Rabs (Bval a) <= 2 * Bval d).
  { unfold norm_row, row_ss. cbv zeta. change (vdot (mk3 x y z) (mk3 x y z)) with s. assert (P74 := bpow_gt_0 radix2 (-1074)). destruct (neqb s n0) eqn:EQ.
    - eexists. split; [reflexivity|]. destruct lit_root as [Fd Ld]. set (d := nsqrt (nlit 1 10000000000)) in *. pose proof (bpow_gt_0 radix2 (-20)). split; [lra|]. intros a Ba Ha Qa.
      assert (S0 : Bval s = 0) by (clear - EQ; clearbody s; destruct s as [b|b| |b m e H]; try discriminate EQ; try reflexivity; destruct b; discriminate EQ).
      assert (A2 : Bval a * Bval a <= bpow radix2 (-1074)) by (rewrite S0 in Ha; nra). assert (A1 : Rabs (Bval a) <= bpow radix2 (-20)); [|lra].
      apply Rnot_lt_le. intros C. assert (bpow radix2 (-20) * bpow radix2 (-20) < Rabs (Bval a) * Rabs (Bval a)) by (apply Rmult_le_0_lt_compat; lra). rewrite <- Rabs_mult in H1. rewrite Rabs_pos_eq in H1 by nra. rewrite <- bpow_plus in H1. assert (bpow radix2 (-1074) <= bpow radix2 (-20 + -20)) by (apply bpow_le; lia). lra.
    - eexists. split; [reflexivity|]. assert (PS : 0 < Bval s). { assert (0 <= Bval s) by lra. destruct H0 as [|Z]; [assumption|exfalso]. destruct (zero_inv Fs (eq_sym Z)) as [b Eb]. rewrite Eb in EQ. destruct b; discriminate EQ. }
      pose proof (pos_min PS) as Mn. destruct (@sqrt_fin s Fs ltac:(lra)) as [_ Vd]. set (d := nsqrt s) in *. set (r := sqrt (Bval s)) in *. assert (Pr : 0 < r) by now apply sqrt_lt_R0. assert (Rr : r * r = Bval s) by (apply sqrt_sqrt; lra).
      assert (Lr : bpow radix2 (-1022) <= Rabs r). { rewrite Rabs_pos_eq by lra. apply Rnot_lt_le. intros C. assert (r * r < bpow radix2 (-1022) * bpow radix2 (-1022)) by (apply Rmult_le_0_lt_compat; lra). rewrite <- bpow_plus in H0. assert (bpow radix2 (-1022 + -1022) <= bpow radix2 (-1074)) by (apply bpow_le; lia). lra. }
      destruct (rnd64_rel Lr) as (e & He & Ee). assert (Hu : Rabs e <= / 1000) by (eapply Rle_trans; [exact He|unfold u64; change (bpow radix2 (-53)) with (/ 9007199254740992); lra]). apply abs_le in Hu. assert (Dr : 999 / 1000 * r <= Bval d) by (rewrite Vd, Ee; nra). split; [lra|].
      intros a Ba Ha Qa. assert (A2 : Bval a * Bval a <= 2 * (r * r)) by (rewrite Rr; lra). apply Rle_trans with (1998 / 1000 * r); [|lra]. apply Rnot_lt_le. intros C. assert (1998 / 1000 * r * (1998 / 1000 * r) < Rabs (Bval a) * Rabs (Bval a)) by (apply Rmult_le_0_lt_compat; lra). rewrite <- Rabs_mult, Rabs_pos_eq in H0 by nra. assert (0 < r * r) by nra. lra. }
  destruct G as (d & -> & Pd & G). destruct (@quot_2 x d F0 Pd) as [X1 X2]; [apply G; auto; lra|]. destruct (@quot_2 y d F1 Pd) as [Y1 Y2]; [apply G; auto; lra|]. destruct (@quot_2 z d F2 Pd) as [W1 W2]; [apply G; auto; lra|].
  unfold within, fin3b. cbn [c0 c1 c2]. rewrite X1, Y1, W1. auto.
Qed.
