(** * Proofs about the rotation model. *)
From Coq Require Import Reals ZArith List Bool Lra Lia Psatz Nsatz Ascii.
From Flocq Require Import Core.
From Verif Require Import Num XLemmas Vec NpList RVec VLemmas PMat3 MRotation SpecRotation.
Import ListNotations.
Local Open Scope R_scope.
Set Implicit Arguments.
Unset Strict Implicit.

Definition axis_rot (t : R) (k : V3 R) : M3 R :=
  let c := cos t in let s := sin t in
  mk3 (mk3 (c + (1-c)*(c0 k*c0 k)) ((1-c)*(c1 k*c0 k) - s*c2 k) ((1-c)*(c2 k*c0 k) + s*c1 k))
      (mk3 ((1-c)*(c0 k*c1 k) + s*c2 k) (c + (1-c)*(c1 k*c1 k)) ((1-c)*(c2 k*c1 k) - s*c0 k))
      (mk3 ((1-c)*(c0 k*c2 k) - s*c1 k) ((1-c)*(c1 k*c2 k) + s*c0 k) (c + (1-c)*(c2 k*c2 k))).
Lemma axis_rot_apply t k v :
  rapply (axis_rot t k) v = radd (radd (rscale (cos t) v) (rscale ((1 - cos t) * rdot k v) k)) (rscale (sin t) (rcross k v)).
Proof. destruct k as [k0 k1 k2], v as [v0 v1 v2]. unfold axis_rot. vunf. cbn [c0 c1 c2]. f_equal; ring. Qed.
Lemma axis_rot_rotation t k : rdot k k = 1 -> rotation (axis_rot t k).
Proof.
  intros K. pose proof (sin2_cos2 t) as C. unfold Rsqr in C. unfold axis_rot. cbv zeta.
  set (c := cos t) in *. set (s := sin t) in *. clearbody c s. destruct k as [x y z]. unfold rdot in K. cbn [c0 c1 c2] in *.
  apply rotation_intro; vunf; cbn [c0 c1 c2]; nsatz.
Qed.
Lemma axis_rot_turns t k : rdot k k = 1 -> turns_about k t (axis_rot t k).
Proof.
  intros K. split.
  - rewrite axis_rot_apply, K. destruct k as [x y z]. vunf. cbn [c0 c1 c2]. f_equal; ring.
  - intros u U. rewrite axis_rot_apply, U. destruct k as [x y z], u as [u0 u1 u2]. vunf. cbn [c0 c1 c2]. f_equal; ring.
Qed.
Lemma axis_rot_trace t k : rdot k k = 1 -> trace (axis_rot t k) = 1 + 2 * cos t.
Proof.
  intros K. unfold trace, axis_rot. destruct k as [x y z]. unfold rdot in K. cbn [c0 c1 c2] in *.
  nsatz.
Qed.
Lemma turns_unique k t m m' : rdot k k = 1 -> turns_about k t m -> turns_about k t m' -> m = m'.
Proof.
  intros K [A1 A2] [B1 B2].
  assert (E : forall v, rapply m v = rapply m' v).
  { intros v. replace v with (radd (rscale (rdot k v) k) (rsub v (rscale (rdot k v) k))).
    - rewrite !rapply_add, !rapply_scale, A1, B1. rewrite A2, B2; auto; autorewrite with rdot; rewrite K; ring.
    - destruct k as [x y z], v as [v0 v1 v2]. vunf. cbn [c0 c1 c2]. f_equal; ring. }
  pose proof (E (mk3 1 0 0)) as E0. pose proof (E (mk3 0 1 0)) as E1. pose proof (E (mk3 0 0 1)) as E2.
  destruct m as [[a00 a01 a02] [a10 a11 a12] [a20 a21 a22]], m' as [[b00 b01 b02] [b10 b11 b12] [b20 b21 b22]].
  clear -E0 E1 E2. vunf. cbn [c0 c1 c2] in *. injection E0 as X1 X2 X3. injection E1 as Y1 Y2 Y3. injection E2 as Z1 Z2 Z3.
  f_equal; f_equal; lra.
Qed.
Definition reps : R := 1 / 4503599627370496.
Lemma unit_of v : v <> rzero -> rdot (rscale (/ rnorm v) v) (rscale (/ rnorm v) v) = 1.
Proof. intros H. pose proof (rnorm_gt0 v H). autorewrite with rdot. rewrite <- rnorm_sq. field. lra. Qed.
Lemma frodrigues_vec v : rodrigues_vec (fin3 v) =
  finm (if Rlt_dec (rnorm v) reps then reye else axis_rot (rnorm v) (rscale (/ rnorm v) v)).
Proof.
  unfold rodrigues_vec. rewrite fnorm. unfold eps. xs. change (1 / 4503599627370496) with reps.
  destruct (Rlt_dec (rnorm v) reps) as [L|L].
  - rewrite Rlt_bool_true by auto. reflexivity.
  - rewrite Rlt_bool_false by lra. assert (0 < reps) by (unfold reps; lra).
    change (n0 : xr) with (Fin 0). xs. rewrite Req_bool_false by lra. xs.
    rewrite xdivE by lra. destruct v as [x y z]. unfold axis_rot, rscale. set (r := rnorm _) in *.
    unfold finm, fin3, madd, mscale, rrt, cross_matrix, meye, vadd, zip3, vscale, map3.
    cbn [c0 c1 c2]. change (ncos (Fin r)) with (Fin (cos r)). change (nsin (Fin r)) with (Fin (sin r)).
    change (n0 : xr) with (Fin 0). cbv zeta. xs. f_equal; f_equal; f_equal; unfold Rdiv; ring.
Qed.
(** ** rodrigues of a matrix *)
Lemma svd_orthogonal m u s v : orthogonal m -> svd_of m u s v -> rmmul u v = m.
Proof.
  intros O (U & V & S0 & S1 & S2 & E).
  assert (D : rmmul (rdiag s) (rtrans (rdiag s)) = reye).
  { assert (X : rdiag s = rmmul (rmmul (rtrans u) m) (rtrans v)).
    { rewrite E, !rmmul_assoc. destruct V as [V1 _]. rewrite V1, rmmul_eye_r, <- rmmul_assoc.
      destruct U as [_ U1]. now rewrite U1, rmmul_eye_l. }
    rewrite X. apply orthogonal_mul; [apply orthogonal_mul|]; auto using orthogonal_trans. }
  assert (S : rdiag s = reye).
  { destruct s as [x y z]. unfold rdiag, reye in *. vunf. cbn [c0 c1 c2] in *. injection D as D1 D2 D3.
    assert (x = 1) by nra. assert (y = 1) by nra. assert (z = 1) by nra. now subst. }
  now rewrite E, S, rmmul_eye_r.
Qed.
Lemma sin_acos_trace m : rotation m -> let c := (trace m - 1) / 2 in
  -1 <= c <= 1 /\ rnorm (raxis m) = 2 * sin (acos c).
Proof.
  intros M. destruct m as [[a0 a1 a2] [b0 b1 b2] [e0 e1 e2]]. pose proof (axis_outer M) as A. cbv zeta in A.
  destruct A as (A1&A2&A3&_). cbv zeta. unfold trace, raxis. cbn [c0 c1 c2]. set (t := a0+b1+e2) in *.
  assert (S : rdot (mk3 (e1-b2) (a2-e0) (b0-a1)) (mk3 (e1-b2) (a2-e0) (b0-a1)) = (1+t)*(3-t)) by (unfold rdot; cbn [c0 c1 c2]; unfold t in *; lra).
  assert (P : 0 <= (1+t)*(3-t)) by (rewrite <- S; apply rdot_self_pos).
  assert (B : -1 <= t <= 3) by (split; nra). split; [lra|].
  rewrite sin_acos by lra. unfold rnorm. rewrite S. replace ((1+t)*(3-t)) with (2*2*(1-((t-1)/2)²)) by (unfold Rsqr; field).
  rewrite sqrt_mult, sqrt_square; try lra. unfold Rsqr. nra.
Qed.
Definition svd_ok (svd : @svd_t xr) (m : M3 R) : Prop :=
  exists u s v, svd (finm m) = Ok (finm u, fin3 s, finm v) /\ svd_of m u s v.
(** the matrix is recovered from its axis *)
Lemma axis_rot_recover m : rotation m -> let th := acos ((trace m - 1) / 2) in sin th <> 0 ->
  axis_rot th (rscale (/ (2 * sin th)) (raxis m)) = m.
Proof.
  intros M th S. pose proof (sin_acos_trace M) as [B NS]. fold th in NS.
  assert (C : cos th = (trace m - 1) / 2) by (apply cos_acos; lra).
  assert (SQ : 4 * (sin th * sin th) = (1 + trace m) * (3 - trace m)).
  { pose proof (sin2_cos2 th) as E. unfold Rsqr in E. rewrite C in E. lra. }
  clear NS. set (s := sin th) in *. set (t := trace m) in *. assert (T3 : 3 - t <> 0) by (intros X; rewrite X in SQ; nra).
  assert (T1 : 1 + t <> 0) by (intros X; rewrite X in SQ; nra).
  destruct m as [[a0 a1 a2] [b0 b1 b2] [e0 e1 e2]]. pose proof (axis_outer M) as A. cbv zeta in A.
  unfold trace in t. cbn [c0 c1 c2] in t. fold t in A. destruct A as (A1&A2&A3&A4&A5&A6).
  unfold axis_rot. rewrite C. fold s. unfold raxis, rscale. cbn [c0 c1 c2].
  set (r0 := e1 - b2) in *. set (r1 := a2 - e0) in *. set (r2 := b0 - a1) in *.
  assert (K : forall p q w, p * q = (1 + t) * w -> / (2*s) * p * (/ (2*s) * q) = w / (3 - t)).
  { intros p q w E. replace (/ (2*s) * p * (/ (2*s) * q)) with (p * q / (4 * (s * s))) by (field; auto).
    rewrite SQ, E. field. split; auto. }
  assert (L : forall p, s * (/ (2*s) * p) = p / 2) by (intros; field; auto).
  assert (A4' : r1 * r0 = (1+t)*(a1+b0)) by lra. assert (A5' : r2 * r0 = (1+t)*(a2+e0)) by lra. assert (A6' : r2 * r1 = (1+t)*(b2+e1)) by lra.
  rewrite !L. rewrite (K _ _ _ A1), (K _ _ _ A2), (K _ _ _ A3), (K _ _ _ A4), (K _ _ _ A5), (K _ _ _ A6), (K _ _ _ A4'), (K _ _ _ A5'), (K _ _ _ A6').
  replace (1 - (t-1)/2) with ((3-t)/2) by field.
  assert (G : forall w, (3-t)/2 * (w/(3-t)) = w/2) by (intros; field; auto). rewrite !G.
  unfold r0, r1, r2, t. f_equal; f_equal; field.
Qed.
Definition half_axis (m : M3 R) : V3 R :=
  let h d := sqrt ((d + 1) * (1/2)) in
  let rx := h (c0 (c0 m)) in let ry := h (c1 (c1 m)) in let rz := h (c2 (c2 m)) in
  let ry := if Rlt_bool (c1 (c0 m)) 0 then - ry else ry in
  let rz := if Rlt_bool (c2 (c0 m)) 0 then - rz else rz in
  let rz := if Rlt_bool (Rabs rx) (Rabs ry) && Rlt_bool (Rabs rx) (Rabs rz) &&
               negb (Bool.eqb (Rlt_bool 0 (c2 (c1 m))) (Rlt_bool 0 (ry * rz))) then - rz else rz in
  mk3 rx ry rz.
Lemma if_fin (b : bool) x y : (if b then Fin x else Fin y) = Fin (if b then x else y).
Proof. now destruct b. Qed.
Lemma rotation_diag m : rotation m -> -1 <= c0 (c0 m) <= 1 /\ -1 <= c1 (c1 m) <= 1 /\ -1 <= c2 (c2 m) <= 1.
Proof.
  intros M. destruct m as [[a0 a1 a2] [b0 b1 b2] [e0 e1 e2]]. pose proof (rot_eqs M) as ((U1&U2&U3&_)&_). cbn [c0 c1 c2].
  split; [|split]; split; nra.
Qed.
Lemma half_axis_norm m : rotation m -> rdot (half_axis m) (half_axis m) = (trace m + 3) / 2.
Proof.
  intros M. destruct (rotation_diag M) as (A&B&C). unfold half_axis, rdot, trace. cbn [c0 c1 c2].
  pose proof (sqrt_sqrt ((c0 (c0 m) + 1) * (1/2))) as S0. pose proof (sqrt_sqrt ((c1 (c1 m) + 1) * (1/2))) as S1.
  pose proof (sqrt_sqrt ((c2 (c2 m) + 1) * (1/2))) as S2.
  set (x := sqrt ((c0 (c0 m) + 1) * (1/2))) in *. set (y := sqrt ((c1 (c1 m) + 1) * (1/2))) in *. set (z := sqrt ((c2 (c2 m) + 1) * (1/2))) in *.
  clearbody x y z. destruct (Rlt_bool (c1 (c0 m)) 0), (Rlt_bool (c2 (c0 m)) 0);
  match goal with |- context [if ?b then _ else _] => destruct b end; lra.
Qed.
Lemma half_axis_pos m : rotation m -> 0 < rnorm (half_axis m).
Proof.
  intros M. apply rnorm_gt0. intros E. pose proof (half_axis_norm M) as H. rewrite E, rdot_zero in H.
  pose proof (sin_acos_trace M) as [B _]. lra.
Qed.
Definition rlog (m : M3 R) : V3 R :=
  let c := (trace m - 1) / 2 in let th := acos c in
  if Rlt_dec (sin th) (1/100000) then
    if Rlt_dec 0 c then rzero else rscale (th / rnorm (half_axis m)) (half_axis m)
  else rscale (th / (2 * sin th)) (raxis m).
Lemma rodrigues_mat_rot svd m : rotation m -> svd_ok svd m -> rodrigues_mat svd (finm m) = Ok (fin3 (rlog m)).
Proof.
  intros M (u & s & v & E & D). unfold rodrigues_mat. rewrite E. cbn [bindr]. rewrite fmmul.
  rewrite (svd_orthogonal (proj1 M) D). pose proof (sin_acos_trace M) as [B NS]. cbv zeta in NS.
  pose proof (half_axis_pos M) as HP. destruct (rotation_diag M) as (D0&D1&D2).
  unfold rlog. change (mtrace (finm m)) with (Fin (trace m)).
  change (mk3 (nsub (c1 (c2 (finm m))) (c2 (c1 (finm m)))) (nsub (c2 (c0 (finm m))) (c0 (c2 (finm m)))) (nsub (c0 (c1 (finm m))) (c1 (c0 (finm m))))) with (fin3 (raxis m)).
  rewrite fnorm, NS. xs. rewrite (@xsqrtE (1 / 4)) by lra. xs.
  replace (sqrt (1/4)) with (1/2) by (symmetry; apply sqrt_lem_1; lra).
  replace ((trace m - 1) * (1/2)) with ((trace m - 1) / 2) by field. set (c := (trace m - 1) / 2) in *.
  replace (2 * sin (acos c) * (1/2)) with (sin (acos c)) by field.
  assert (CL : clip (Fin (-1)) (Fin 1) (Fin c) = Fin c).
  { unfold clip. xs. rewrite !Rlt_bool_false by lra. reflexivity. }
  rewrite CL. assert (AC : arccos (Fin c) = Fin (acos c)).
  { unfold arccos. cbn [nacos xr_trans]. rewrite !Rle_bool_true by lra. reflexivity. }
  rewrite AC. xs. destruct (Rlt_dec (sin (acos c)) (1/100000)) as [L|L].
  - rewrite Rlt_bool_true by auto. change (n0 : xr) with (Fin 0). xs. destruct (Rlt_dec 0 c) as [P|P].
    + rewrite Rlt_bool_true by auto. reflexivity.
    + rewrite Rlt_bool_false by lra.
      assert (H : forall d, -1 <= d -> nsqrt (nmul (nadd (Fin d) (Fin 1)) (Fin (1/2))) = Fin (sqrt ((d+1)*(1/2)))).
      { intros d Hd. xs. rewrite xsqrtE; auto. lra. }
      cbn [c0 c1 c2 finm fin3 map3]. rewrite !H by lra. xs.
      assert (PS : forall d, Rlt_bool (sqrt d) 0 = false) by (intros; apply Rlt_bool_false, sqrt_pos).
      rewrite !PS.
      match goal with |- context [vnorm ?X] => assert (HX : X = fin3 (half_axis m)); [|rewrite HX] end.
      { unfold half_axis, fin3, map3. cbn [c0 c1 c2]. cbv zeta.
        destruct (Rlt_bool (c1 (c0 m)) 0), (Rlt_bool (c2 (c0 m)) 0); xs;
        match goal with |- context [if ?b then _ else _] => destruct b end; reflexivity. }
      rewrite fnorm, xdivE by lra. f_equal. unfold fin3, map3, rscale. cbn [c0 c1 c2]. xs. f_equal; f_equal; ring.
  - rewrite Rlt_bool_false by lra. rewrite xdivE by lra. f_equal.
    unfold fin3, map3, rscale, raxis, finm, fin3, map3. cbn [c0 c1 c2]. xs. f_equal; f_equal; field; lra.
Qed.
Lemma sq_eq p q : p * p = q * q -> 0 <= p -> 0 <= q -> p = q.
Proof. intros E P Q. assert ((p - q) * (p + q) = 0) by lra. apply Rmult_integral in H. lra. Qed.
Lemma abs0 p : Rabs p = 0 -> p = 0.
Proof. intros H. destruct (Req_dec p 0); auto. now apply Rabs_no_R0 in H0. Qed.
(** at a half turn, the model's axis is exact *)
Lemma half_axis_outer m : rotation m -> trace m = -1 ->
  forall c s k, c = -1 -> s = 0 -> k = half_axis m ->
  mk3 (mk3 (c + (1-c)*(c0 k*c0 k)) ((1-c)*(c1 k*c0 k) - s*c2 k) ((1-c)*(c2 k*c0 k) + s*c1 k))
      (mk3 ((1-c)*(c0 k*c1 k) + s*c2 k) (c + (1-c)*(c1 k*c1 k)) ((1-c)*(c2 k*c1 k) - s*c0 k))
      (mk3 ((1-c)*(c0 k*c2 k) - s*c1 k) ((1-c)*(c1 k*c2 k) + s*c0 k) (c + (1-c)*(c2 k*c2 k))) = m.
Proof.
  intros M T c s k -> -> ->. destruct (rotation_diag M) as (D0&D1&D2).
  destruct m as [[a0 a1 a2] [b0 b1 b2] [e0 e1 e2]]. unfold trace in T. cbn [c0 c1 c2] in *.
  pose proof (axis_outer M) as A. cbv zeta in A. rewrite T in A. destruct A as (A1&A2&A3&_).
  assert (b2 = e1) by nra. assert (e0 = a2) by nra. assert (b0 = a1) by nra. subst b2 e0 b0.
  pose proof (rot_eqs M) as (_&_&K3). destruct K3 as (W1&W2&W3&W4&W5&W6&W7&W8&W9).
  clear A1 A2 A3 M. unfold half_axis. cbn [c0 c1 c2].
  pose proof (@sqrt_sqrt ((a0+1)*(1/2)) ltac:(lra)) as X. pose proof (@sqrt_sqrt ((b1+1)*(1/2)) ltac:(lra)) as Y. pose proof (@sqrt_sqrt ((e2+1)*(1/2)) ltac:(lra)) as Z.
  pose proof (sqrt_pos ((a0+1)*(1/2))) as PX. pose proof (sqrt_pos ((b1+1)*(1/2))) as PY. pose proof (sqrt_pos ((e2+1)*(1/2))) as PZ.
  set (x := sqrt ((a0+1)*(1/2))) in *. set (y := sqrt ((b1+1)*(1/2))) in *. set (z := sqrt ((e2+1)*(1/2))) in *. clearbody x y z.
  assert (XY : (2*(x*y)) * (2*(x*y)) = a1 * a1) by (replace ((2*(x*y)) * (2*(x*y))) with ((2*(x*x))*(2*(y*y))) by ring; rewrite X, Y; lra).
  assert (XZ : (2*(x*z)) * (2*(x*z)) = a2 * a2) by (replace ((2*(x*z)) * (2*(x*z))) with ((2*(x*x))*(2*(z*z))) by ring; rewrite X, Z; lra).
  assert (YZ : (2*(y*z)) * (2*(y*z)) = e1 * e1) by (replace ((2*(y*z)) * (2*(y*z))) with ((2*(y*y))*(2*(z*z))) by ring; rewrite Y, Z; lra).
  assert (TR : a1 * a2 = 2 * (x*x) * e1) by (rewrite X; lra).
  assert (PXY : 0 <= x*y) by now apply Rmult_le_pos. assert (PXZ : 0 <= x*z) by now apply Rmult_le_pos. assert (PYZ : 0 <= y*z) by now apply Rmult_le_pos.
  assert (SQ : forall p q, 0 <= p -> (2*p)*(2*p) = q*q -> (q < 0 -> q = - (2 * p)) /\ (0 <= q -> q = 2 * p)).
  { intros p q Hp E. split; intros; [enough (2 * p = - q) by lra|symmetry]; apply sq_eq; lra. }
  destruct (SQ _ _ PXY XY) as [N1 P1]. destruct (SQ _ _ PXZ XZ) as [N2 P2]. destruct (SQ _ _ PYZ YZ) as [N3 P3].
  set (y' := if Rlt_bool a1 0 then - y else y). set (z' := if Rlt_bool a2 0 then - z else z).
  assert (E1 : a1 = 2 * (x * y')). { unfold y'. destruct (Rlt_bool_spec a1 0) as [L|L]; [rewrite N1 by auto|rewrite P1 by auto]; ring. }
  assert (E2 : a2 = 2 * (x * z')). { unfold z'. destruct (Rlt_bool_spec a2 0) as [L|L]; [rewrite N2 by auto|rewrite P2 by auto]; ring. }
  assert (Ay : Rabs y' = y). { unfold y'. destruct (Rlt_bool a1 0); rewrite ?Rabs_Ropp; now apply Rabs_pos_eq. }
  assert (Az : Rabs z' = z). { unfold z'. destruct (Rlt_bool a2 0); rewrite ?Rabs_Ropp; now apply Rabs_pos_eq. }
  assert (Y' : y' * y' = (b1+1)*(1/2)). { unfold y'. destruct (Rlt_bool a1 0); lra. }
  assert (Z' : z' * z' = (e2+1)*(1/2)). { unfold z'. destruct (Rlt_bool a2 0); lra. }
  assert (YZ' : (2*(y'*z')) * (2*(y'*z')) = e1 * e1) by (replace ((2*(y'*z')) * (2*(y'*z'))) with ((2*(y'*y'))*(2*(z'*z'))) by ring; rewrite Y', Z'; lra).
  assert (TR' : x * x * (2 * (y' * z') - e1) = 0). { rewrite E1, E2 in TR. lra. }
  assert (E3 : 0 < x -> e1 = 2 * (y' * z')) by (intros XP; apply Rmult_integral in TR'; destruct TR' as [Q|Q]; [apply Rmult_integral in Q; lra|lra]).
  clear TR TR' W1 W2 W3 W4 W5 W6 W7 W8 W9 N1 P1 N2 P2 N3 P3 XY XZ YZ.
  fold y' z'. rewrite Ay, Az, (Rabs_pos_eq x) by auto. clearbody y' z'.
  (* the last sign *)
  set (z'' := if (Rlt_bool x y && Rlt_bool x z && negb (Bool.eqb (Rlt_bool 0 e1) (Rlt_bool 0 (y' * z'))))%bool then - z' else z').
  assert (F : e1 = 2 * (y' * z'') /\ a2 = 2 * (x * z'') /\ z'' * z'' = (e2+1)*(1/2)).
  { unfold z''. destruct (Rlt_bool_spec x y) as [L1|L1]; cbn [andb]; [destruct (Rlt_bool_spec x z) as [L2|L2]; cbn [andb]|].
    - (* x smallest *)
      destruct (Rle_lt_or_eq_dec _ _ PX) as [XP|X0].
      + specialize (E3 XP). rewrite E3. replace (Rlt_bool 0 (2 * (y' * z'))) with (Rlt_bool 0 (y' * z')) by (destruct (Rlt_bool_spec 0 (y'*z')), (Rlt_bool_spec 0 (2*(y'*z'))); auto; lra).
        rewrite eqb_reflx. cbn [negb]. repeat split; auto.
      + subst x. assert (a2 = 0) by lra.
        assert (y' * z' <> 0). { intros Q. apply Rmult_integral in Q. destruct Q as [Q|Q]; rewrite Q, Rabs_R0 in *; lra. }
        destruct (Rlt_bool_spec 0 e1), (Rlt_bool_spec 0 (y'*z')); cbn [Bool.eqb negb]; repeat split; try lra.
          * symmetry; apply sq_eq; lra.
          * symmetry; apply sq_eq; lra.
          * enough (2 * (y' * z') = - e1) by lra. apply sq_eq; lra.
          * enough (- (2 * (y' * z')) = - e1) by lra. apply sq_eq; lra.
    - assert (XP : 0 < x \/ x = 0) by lra. destruct XP as [XP|X0].
      + auto.
      + assert (z' = 0) by (apply abs0; lra). subst z'. repeat split; try lra. assert (e1 * e1 = 0) by lra. nra.
    - assert (XP : 0 < x \/ x = 0) by lra. destruct XP as [XP|X0].
      + auto.
      + assert (y' = 0) by (apply abs0; lra). subst y'. repeat split; try lra. assert (e1 * e1 = 0) by lra. nra. }
  destruct F as (F1 & F2 & F3). clearbody z''. f_equal; f_equal; lra.
Qed.
Lemma rodrigues_vec_rotation v : exists m, rodrigues_vec (fin3 v) = finm m /\ rotation m.
Proof.
  rewrite frodrigues_vec. eexists. split; [reflexivity|]. destruct (Rlt_dec (rnorm v) reps) as [L|L].
  - apply rotation_eye.
  - apply axis_rot_rotation, unit_of. intros ->. apply L. unfold rnorm. rewrite rdot_zero, sqrt_0. unfold reps. lra.
Qed.
Lemma rnorm_div a s : 0 < s -> rnorm (rscale (/ s) a) = rnorm a / s.
Proof. intros H. rewrite rnorm_scale, Rabs_pos_eq; [unfold Rdiv; ring|]. left. now apply Rinv_0_lt_compat. Qed.
Lemma frodrigues_axis th k : rdot k k = 1 -> reps <= th -> rodrigues_vec (fin3 (rscale th k)) = finm (axis_rot th k).
Proof.
  intros K H. assert (P : 0 < th) by (unfold reps in H; lra). rewrite frodrigues_vec.
  assert (NK : rnorm k = 1) by (unfold rnorm; rewrite K; apply sqrt_1).
  rewrite rnorm_scale, NK, Rabs_pos_eq, Rmult_1_r by lra. destruct (Rlt_dec th reps); [lra|].
  rewrite rscale_scale, Rinv_l, rscale_1 by lra. reflexivity.
Qed.
Lemma sin_le_self x : 0 <= x -> sin x <= x.
Proof. intros [H|<-]; [left; now apply sin_lt_x|rewrite sin_0; lra]. Qed.
Lemma as_rotation_far svd m : rotation m -> svd_ok svd m -> 1/100000 <= sin (acos ((trace m - 1) / 2)) ->
  as_rotation_matrix svd (RMatrix (finm m)) = Ok (finm m).
Proof.
  intros M S H. unfold as_rotation_matrix. rewrite (rodrigues_mat_rot M S). cbn [mapr]. f_equal.
  unfold rlog. set (th := acos _) in *. destruct (Rlt_dec _ _) as [L|_]; [lra|].
  assert (B : 0 <= th <= PI) by apply acos_bound. assert (th >= sin th) by (apply Rle_ge, sin_le_self; lra).
  assert (T : sin th <> 0) by lra.
  replace (rscale (th / (2 * sin th)) (raxis m)) with (rscale th (rscale (/ (2 * sin th)) (raxis m))) by (rewrite rscale_scale; reflexivity).
  rewrite frodrigues_axis.
  - f_equal. apply axis_rot_recover; auto.
  - autorewrite with rdot. rewrite <- rnorm_sq. destruct (sin_acos_trace M) as [_ E]. cbv zeta in E. fold th in E. rewrite E. field. auto.
  - unfold reps. lra.
Qed.
Lemma rotation_near_eye m : rotation m -> let d := 3 - trace m in
  forall i j, (coord j (coord i m) - coord j (coord i reye)) * (coord j (coord i m) - coord j (coord i reye)) <= 2 * d.
Proof.
  intros M. destruct m as [[a0 a1 a2] [b0 b1 b2] [e0 e1 e2]]. pose proof (rot_eqs M) as ((U1&U2&U3&_)&_).
  cbv zeta. unfold trace. cbn [c0 c1 c2].
  assert (B : forall x, 0 <= x * x) by apply Rle_0_sqr. assert (A : forall x, 0 <= (x - 1) * (x - 1)) by (intros; apply B).
  pose proof (A a0). pose proof (A b1). pose proof (A e2). pose proof (B a1). pose proof (B a2). pose proof (B b0). pose proof (B b2). pose proof (B e0). pose proof (B e1).
  intros i j. destruct i as [|[p|p|]|p], j as [|[q|q|]|q]; cbn [coord c0 c1 c2 reye]; lra.
Qed.
Lemma as_rotation_eye svd m : rotation m -> svd_ok svd m -> trace m = 3 -> as_rotation_matrix svd (RMatrix (finm m)) = Ok (finm m).
Proof.
  intros M S T. assert (E : m = reye).
  { pose proof (rotation_near_eye M) as E. cbv zeta in E. rewrite T in E.
    assert (Z : forall i j, coord j (coord i m) = coord j (coord i reye)) by (intros i j; specialize (E i j); nra).
    pose proof (Z 0%Z 0%Z). pose proof (Z 0%Z 1%Z). pose proof (Z 0%Z 2%Z). pose proof (Z 1%Z 0%Z). pose proof (Z 1%Z 1%Z). pose proof (Z 1%Z 2%Z).
    pose proof (Z 2%Z 0%Z). pose proof (Z 2%Z 1%Z). pose proof (Z 2%Z 2%Z). cbn [coord] in *. apply M3_eq; apply V3_eq; auto. }
  unfold as_rotation_matrix. rewrite (rodrigues_mat_rot M S). cbn [mapr]. f_equal. unfold rlog. rewrite T.
  replace ((3 - 1) / 2) with 1 by field. assert (A1 : acos 1 = 0) by (rewrite <- cos_0; apply acos_cos; pose proof PI_RGT_0; lra).
  rewrite A1, sin_0. destruct (Rlt_dec 0 (1/100000)); [|lra]. destruct (Rlt_dec 0 1); [|lra]. rewrite frodrigues_vec.
  assert (Z : rnorm rzero = 0) by now apply rnorm_0. rewrite Z. destruct (Rlt_dec 0 reps) as [_|L]; [now rewrite E|]. unfold reps in L. lra.
Qed.
Lemma as_rotation_half svd m : rotation m -> svd_ok svd m -> trace m = -1 -> as_rotation_matrix svd (RMatrix (finm m)) = Ok (finm m).
Proof.
  intros M S T. unfold as_rotation_matrix. rewrite (rodrigues_mat_rot M S). cbn [mapr]. f_equal. unfold rlog. rewrite T.
  replace ((-1 - 1) / 2) with (-1) by field. pose proof PI_RGT_0. pose proof PI2_3_2.
  assert (A1 : acos (-1) = PI) by (rewrite <- cos_PI; apply acos_cos; lra).
  rewrite A1, sin_PI. destruct (Rlt_dec 0 (1/100000)); [|lra]. destruct (Rlt_dec 0 (-1)); [lra|].
  assert (H1 : rdot (half_axis m) (half_axis m) = 1) by (rewrite (half_axis_norm M), T; field).
  assert (H2 : rnorm (half_axis m) = 1) by (unfold rnorm; rewrite H1; apply sqrt_1).
  replace (PI / rnorm (half_axis m)) with PI by (rewrite H2; field). rewrite frodrigues_axis; auto; [|unfold reps; lra].
  f_equal. unfold axis_rot. now apply half_axis_outer; rewrite ?cos_PI, ?sin_PI.
Qed.
Lemma as_rotation_near svd m : rotation m -> svd_ok svd m -> sin (acos ((trace m - 1) / 2)) < 1/100000 -> 1 < trace m ->
  as_rotation_matrix svd (RMatrix (finm m)) = Ok (finm reye) /\ mat_within (2/100000) m reye.
Proof.
  intros M S L T. split.
  - unfold as_rotation_matrix. rewrite (rodrigues_mat_rot M S). cbn [mapr]. f_equal. unfold rlog.
    destruct (Rlt_dec _ _) as [_|]; [|lra]. destruct (Rlt_dec _ _) as [_|]; [|lra]. rewrite frodrigues_vec.
    assert (Z : rnorm rzero = 0) by now apply rnorm_0. rewrite Z. destruct (Rlt_dec 0 reps) as [_|L']; [reflexivity|]. unfold reps in L'. lra.
  - intros i j. pose proof (rotation_near_eye M i j) as E. cbv zeta in E. set (x := coord j (coord i m) - coord j (coord i reye)) in *.
    destruct (sin_acos_trace M) as [B NS]. set (th := acos _) in *.
    assert (C : cos th = (trace m - 1)/2) by (apply cos_acos; lra). pose proof (sin2_cos2 th) as Q. unfold Rsqr in Q. rewrite C in Q.
    assert (P : 0 <= sin th) by (apply sin_ge_0; apply acos_bound).
    set (s := sin th) in *. assert (s * s <= 1/100000 * (1/100000)) by (apply Rmult_le_compat; lra).
    assert ((3 - trace m) * (1 + trace m) = 4 * (s * s)) by lra.
    assert (2 * (3 - trace m) <= 4 * (s * s)) by nra.
    apply Rabs_le. split; nra.
Qed.
Lemma rlog_inverse svd th k m : rdot k k = 1 -> 0 <= th <= PI -> 1/100000 <= sin th -> m = axis_rot th k -> svd_ok svd m ->
  rodrigues_mat svd (finm m) = Ok (fin3 (rscale th k)).
Proof.
  intros K B S E O. assert (M : rotation m) by (rewrite E; now apply axis_rot_rotation).
  rewrite (rodrigues_mat_rot M O). f_equal. f_equal. unfold rlog. rewrite E, (axis_rot_trace _ K).
  replace ((1 + 2 * cos th - 1) / 2) with (cos th) by field. rewrite acos_cos by auto.
  destruct (Rlt_dec _ _) as [|_]; [lra|]. unfold raxis, axis_rot, rscale. destruct k as [x y z]. cbn [c0 c1 c2]. f_equal; field; lra.
Qed.
