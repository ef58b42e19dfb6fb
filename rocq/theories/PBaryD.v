(** * Barycentric coordinates of a projection in binary64. *)
From Coq Require Import Reals ZArith List Bool Lra Lia Psatz.
From Flocq Require Import Core IEEE754.BinarySingleNaN.
From Verif Require Import Num B64 BLemmas Vec RVec VLemmas SpecGeom MVx MPlane MSegment SpecDouble PErr PFar PNormB PSliceF PNormD PPlaneD PScaleD PCrossD PLineD.
Local Open Scope R_scope.
Set Implicit Arguments.
Unset Strict Implicit.

Lemma sum3_bound x y z x' y' z' X Y : 0 <= X -> 0 <= Y -> Rabs x <= X -> Rabs y <= X -> Rabs z <= X -> Rabs x' <= Y -> Rabs y' <= Y -> Rabs z' <= Y ->
  Rabs (x * x' + y * y' + z * z') <= 3 * (X * Y).
Proof.
  intros PX PY H0 H1 H2 K0 K1 K2. pose proof (mul_bound PX PY H0 K0) as A. pose proof (mul_bound PX PY H1 K1) as B. pose proof (mul_bound PX PY H2 K2) as C. apply abs_le in A, B, C. apply abs_le. lra.
Qed.
Lemma close_self d v : 0 <= d -> fin3b v = true -> close3 d v (Rval3 v).
Proof. intros P F. split; [exact F|]. unfold Rval3, map3. cbn [c0 c1 c2]. rewrite !Rminus_eq_0, Rabs_R0. auto. Qed.
Lemma close_comp d v w B : close3 d v w -> coords3 B w -> within (B + d) v.
Proof. intros (F & D0 & D1 & D2) (H0 & H1 & H2). apply abs_le in D0, D1, D2, H0, H1, H2. split; [exact F|]. repeat split; apply abs_le; lra. Qed.

Section Bary.
Context (E : R) (HE : bpow radix2 (-150) <= E <= bpow radix2 150).
Let G := E * E.
Let T := eps * G.
Context (n : V3 b64) (N : V3 R) (CN : close3 (9 * T) n N) (LA : bpow radix2 (-20) * G <= rnorm N <= 3 * G).
Let A := rnorm N.
Lemma b_pos : 0 < G /\ 0 < A /\ 0 < T /\ 4294967296 * T <= A /\ A <= 3 * G /\ G <= 1048576 * A.
Proof.
  pose proof (edge_pos HE). assert (PG : 0 < G) by (unfold G; nra). fold A in LA. change (bpow radix2 (-20)) with (/ 1048576) in LA. pose proof eps_pos. pose proof eps_val as V. unfold T. assert (0 < eps * G) by nra. rewrite V in *. repeat split; lra.
Qed.
Lemma b_range : bpow radix2 (-300) <= G <= bpow radix2 300 /\ bpow radix2 (-320) <= A <= bpow radix2 302.
Proof.
  destruct b_pos as (PG & PA & _ & _ & UA & LG). pose proof (bpow_gt_0 radix2 (-150)) as P1. assert (R1 : bpow radix2 (-300) <= G <= bpow radix2 300).
  { unfold G. change (-300)%Z with (-150 + -150)%Z. change 300%Z with (150 + 150)%Z. rewrite !bpow_plus. split; apply Rmult_le_compat; lra. }
  split; [exact R1|]. change (-320)%Z with (-20 + -300)%Z. change 302%Z with (2 + 300)%Z. rewrite !bpow_plus. change (bpow radix2 2) with 4. change (bpow radix2 (-20)) with (/ 1048576). lra.
Qed.
Lemma nN : coords3 A N.
Proof. exact (comp_le N). Qed.
Lemma n_within : within (101 / 100 * A) n.
Proof. destruct b_pos as (PG & PA & PT & TA & UA & LG). destruct (close_comp CN nN) as (F & H0 & H1 & H2). split; [exact F|]. apply abs_le in H0, H1, H2. repeat split; apply abs_le; lra. Qed.
Lemma rel_of x : bpow radix2 (-800) <= x <= bpow radix2 800 -> rel x.
Proof. intros [H1 H2]. split; [apply Rle_trans with (2 := H1)|apply Rle_trans with (1 := H2)]; apply bpow_le; lia. Qed.
Lemma sq_range x y : bpow radix2 (-320) <= x <= bpow radix2 310 -> bpow radix2 (-320) <= y <= bpow radix2 310 -> bpow radix2 (-640) <= x * y <= bpow radix2 620.
Proof.
  intros [H1 H2] [K1 K2]. pose proof (bpow_gt_0 radix2 (-320)). change (-640)%Z with (-320 + -320)%Z. change 620%Z with (310 + 310)%Z. rewrite !bpow_plus. split; apply Rmult_le_compat; lra.
Qed.
Lemma A_range : bpow radix2 (-320) <= A /\ 4 * A <= bpow radix2 310 /\ bpow radix2 (-320) <= G /\ 4 * G <= bpow radix2 310.
Proof.
  destruct b_range as [[R1 R2] [R3 R4]]. split; [exact R3|]. split; [apply Rle_trans with (bpow radix2 2 * bpow radix2 302); [change (bpow radix2 2) with 4; lra|rewrite <- bpow_plus; apply bpow_le; lia]|].
  split; [apply Rle_trans with (2 := R1); apply bpow_le; lia|]. apply Rle_trans with (bpow radix2 2 * bpow radix2 300); [change (bpow radix2 2) with 4; lra|rewrite <- bpow_plus; apply bpow_le; lia].
Qed.
(** the squared length of the normal *)
Lemma s_ap : bfin (vdot n n) = true /\ Rabs (Bval (vdot n n) - A * A) <= 86 * (T * A).
Proof.
  destruct b_pos as (PG & PA & PT & TA & UA & LG). pose proof n_within as W. destruct A_range as (R1 & R2 & R3 & R4).
  destruct (@dot_ap2 (101 / 100 * A) (101 / 100 * A) n n) as [F D]; auto; try lra.
  { apply rel_of. destruct (@sq_range (101 / 100 * A) (101 / 100 * A)) as [S1 S2]; try lra. split; [apply Rle_trans with (2 := S1)|apply Rle_trans with (1 := S2)]; apply bpow_le; lia. }
  split; [exact F|]. assert (AA : A * A = rdot N N) by apply rnorm_sq. rewrite AA.
  assert (Q : Rabs (rdot (Rval3 n) (Rval3 n) - rdot N N) <= 3 * (9 * T * (202 / 100 * A))).
  { destruct CN as (_ & D0 & D1 & D2). destruct nN as (N0 & N1 & N2). destruct (close_comp CN nN) as (_ & W0 & W1 & W2).
    replace (rdot (Rval3 n) (Rval3 n) - rdot N N) with ((Bval (c0 n) - c0 N) * (Bval (c0 n) + c0 N) + (Bval (c1 n) - c1 N) * (Bval (c1 n) + c1 N) + (Bval (c2 n) - c2 N) * (Bval (c2 n) + c2 N)) by (unfold rdot, Rval3, map3; cbn [c0 c1 c2]; ring).
    apply sum3_bound; auto; try lra; apply abs_le; apply abs_le in W0, W1, W2, N0, N1, N2; lra. }
  apply abs_le in D, Q. assert (PX : 0 < T * A) by (apply Rmult_lt_0_compat; lra).
  assert (EA : eps * (101 / 100 * A * (101 / 100 * A)) <= 31 / 10 * (T * A)).
  { replace (eps * (101 / 100 * A * (101 / 100 * A))) with (10201 / 10000 * (eps * A * A)) by field. assert (eps * A * A <= 3 * T * A) by (apply Rmult_le_compat_r; [lra|]; unfold T; pose proof eps_pos; nra). lra. }
  apply abs_le. lra.
Qed.
(** its reciprocal *)
Let d := T / A.
Lemma b_d : 0 < d /\ d <= / 4294967296 /\ eps <= 3 * d.
Proof.
  destruct b_pos as (PG & PA & PT & TA & UA & LG). unfold d. split; [apply Rmult_lt_0_compat; [exact PT|apply Rinv_0_lt_compat; exact PA]|]. split; [apply div_le; lra|].
  apply Rmult_le_reg_r with A; [exact PA|]. replace (3 * (T / A) * A) with (3 * T) by (field; lra). unfold T. pose proof eps_pos. nra.
Qed.
Lemma o_ap : neqb (vdot n n) n0 = false /\ let o := ndiv (nofZ 1) (vdot n n) in bfin o = true /\ Rabs (Bval o - / (A * A)) <= 90 * d * / (A * A).
Proof.
  destruct b_pos as (PG & PA & PT & TA & UA & LG). destruct s_ap as [Fs Es]. destruct b_d as (PD & SD & ED). destruct A_range as (R1 & R2 & _). pose proof eps_pos as P0. pose proof eps_small as S0.
  set (s := vdot n n) in *. set (S := A * A) in *. assert (PS : 0 < S) by (unfold S; nra). assert (TS : T * A = d * S) by (unfold d, S; field; lra). rewrite TS in Es. apply abs_le in Es.
  assert (DS : d * S <= / 4294967296 * S) by (apply Rmult_le_compat_r; lra). assert (Ps : 0 < Bval s) by lra. split.
  { rewrite beq_spec by (auto; reflexivity). change (Bval n0) with 0. apply Req_bool_false. intros Z. lra. }
  destruct (int_val (z := 1)) as [F1 V1]; [lia|]. cbn zeta. assert (PI : 0 < / S) by (apply Rinv_0_lt_compat; exact PS).
  assert (Q : Rabs (1 / Bval s - / S) <= 861 / 10 * d * / S).
  { replace (1 / Bval s - / S) with ((S - Bval s) / S / Bval s) by (field; lra). rewrite !abs_div by assumption. apply div_le; [exact Ps|]. apply div_le; [exact PS|].
    replace (861 / 10 * d * / S * Bval s * S) with (861 / 10 * d * Bval s) by (field; lra). assert (d * (S * (1 - / 10000000)) <= d * Bval s) by (apply Rmult_le_compat_l; lra). apply abs_le. assert (0 < d * S) by (apply Rmult_lt_0_compat; lra). lra. }
  assert (DI : d * / S <= / 4294967296 * / S) by (apply Rmult_le_compat_r; lra). assert (EI : eps * / S <= 3 * d * / S) by (apply Rmult_le_compat_r; lra).
  destruct (@sq_range A A) as [S1 S2]; try lra. fold S in S1, S2. apply abs_le in Q.
  destruct (@div_ap (nofZ 1) s (101 / 100 * / S) F1) as [Fo Eo].
  - assert (I1 : / S <= bpow radix2 640) by (change 640%Z with (Z.opp (-640)); rewrite bpow_opp; apply Rinv_le; [apply bpow_gt_0|exact S1]). assert (I2 : bpow radix2 (-620) <= / S) by (change (-620)%Z with (Z.opp 620); rewrite bpow_opp; apply Rinv_le; [exact PS|exact S2]). assert (Y1 : bpow radix2 (-1000) <= bpow radix2 (-620)) by (apply bpow_le; lia). assert (Y2 : bpow radix2 1 * bpow radix2 640 <= bpow radix2 1000) by (rewrite <- bpow_plus; apply bpow_le; lia). change (bpow radix2 1) with 2 in Y2. split; lra.
  - lra.
  - rewrite V1. apply abs_le. lra.
  - split; [exact Fo|]. rewrite V1 in Eo. apply abs_le in Eo. apply abs_le. lra.
Qed.
(** one of the numerators, and the coordinate it gives *)
Let K := G / A.
Lemma b_K : / 3 <= K /\ d = eps * K /\ 0 < eps * (K * K).
Proof.
  destruct b_pos as (PG & PA & PT & TA & UA & LG). pose proof eps_pos as P0. assert (L : / 3 <= K) by (unfold K; apply Rmult_le_reg_r with A; [exact PA|]; unfold Rdiv; rewrite Rmult_assoc, Rinv_l by lra; lra). split; [exact L|]. split; [unfold d, T, K; field; lra|]. apply Rmult_lt_0_compat; [lra|]. apply Rmult_lt_0_compat; lra.
Qed.
Lemma num_ap m M : close3 (9 * T) m M -> coords3 (2 * G) M -> bfin (vdot m n) = true /\ Rabs (Bval (vdot m n) - rdot M N) <= 200 * (T * G).
Proof.
  intros CM HM. destruct b_pos as (PG & PA & PT & TA & UA & LG). pose proof n_within as W. destruct A_range as (R1 & R2 & R3 & R4).
  assert (WM : within (201 / 100 * G) m) by (destruct (close_comp CM HM) as (F & H0 & H1 & H2); split; [exact F|]; apply abs_le in H0, H1, H2; repeat split; apply abs_le; lra).
  destruct (@dot_ap2 (201 / 100 * G) (101 / 100 * A) m n) as [F D]; auto; try lra.
  { apply rel_of. destruct (@sq_range (201 / 100 * G) (101 / 100 * A)) as [S1 S2]; try lra. split; [apply Rle_trans with (2 := S1)|apply Rle_trans with (1 := S2)]; apply bpow_le; lia. }
  split; [exact F|].
  assert (Q1 : Rabs ((Bval (c0 m) - c0 M) * Bval (c0 n) + (Bval (c1 m) - c1 M) * Bval (c1 n) + (Bval (c2 m) - c2 M) * Bval (c2 n)) <= 3 * (9 * T * (101 / 100 * A))) by (destruct CM as (_ & D0 & D1 & D2), W as (_ & W0 & W1 & W2); apply sum3_bound; auto; lra).
  assert (Q2 : Rabs (c0 M * (Bval (c0 n) - c0 N) + c1 M * (Bval (c1 n) - c1 N) + c2 M * (Bval (c2 n) - c2 N)) <= 3 * (2 * G * (9 * T))) by (destruct CN as (_ & D0 & D1 & D2), HM as (H0 & H1 & H2); apply sum3_bound; auto; lra).
  apply abs_le in D, Q1, Q2. assert (PX : 0 < T * G) by (apply Rmult_lt_0_compat; lra). assert (TG : T * A <= 3 * (T * G)) by (assert (T * A <= T * (3 * G)) by (apply Rmult_le_compat_l; lra); lra).
  assert (EA : eps * (201 / 100 * G * (101 / 100 * A)) = 20301 / 10000 * (T * A)) by (unfold T; field). rewrite EA in D. unfold rdot in D |- *. cbn [Rval3 map3 c0 c1 c2] in D. apply abs_le. lra.
Qed.
Lemma coord_b_ap m M b : close3 (9 * T) m M -> coords3 (2 * G) M -> rnorm M <= 3 * G -> rdot M N = b * (A * A) ->
  let x := nmul (vdot m n) (ndiv (nofZ 1) (vdot n n)) in
  bfin x = true /\ Rabs (Bval x - b) <= 500 * (eps * (K * K)) /\ Rabs b <= 3 * K.
Proof.
  intros CM HM LM Hb. destruct b_pos as (PG & PA & PT & TA & UA & LG). destruct (num_ap CM HM) as [Fm Em]. destruct o_ap as [_ [Fo Eo]]. destruct b_d as (PD & SD & ED). destruct b_K as (LK & DK & PKK). pose proof eps_pos as P0. pose proof eps_small as S0.
  set (y := vdot m n) in *. set (o := ndiv (nofZ 1) (vdot n n)) in *. cbn zeta. set (S := A * A) in *. assert (PS : 0 < S) by (unfold S; nra). assert (PI : 0 < / S) by (apply Rinv_0_lt_compat; exact PS).
  assert (Bb : Rabs b <= 3 * K).
  { assert (C : Rabs (rdot M N) <= 3 * G * A) by (apply Rle_trans with (1 := cauchy _ _); fold A; apply Rmult_le_compat_r; lra). rewrite Hb, Rabs_mult, (Rabs_pos_eq S) in C by lra.
    apply Rmult_le_reg_r with S; [exact PS|]. replace (3 * K * S) with (3 * G * A) by (unfold K, S; field; lra). exact C. }
  assert (TG : T * G = eps * (K * K) * S) by (unfold K, S, T; field; lra). rewrite TG in Em. set (k := eps * (K * K)) in *. rewrite Hb in Em.
  (* the coordinate before the last rounding *)
  assert (Sk : d <= 3 * k) by (rewrite DK; unfold k; assert (K <= 3 * (K * K)) by nra; nra).
  assert (dk : d * K = k) by (rewrite DK; unfold k; ring).
  assert (ek : eps * K <= 3 * k) by (unfold k; assert (K <= 3 * (K * K)) by nra; nra).
  assert (kb : k <= K / 4000). { rewrite <- dk. assert (d * K <= / 4294967296 * K) by (apply Rmult_le_compat_r; lra). lra. }
  set (r := Bval o * S). assert (Er : Rabs (r - 1) <= 90 * d).
  { unfold r. replace (Bval o * S - 1) with ((Bval o - / S) * S) by (field; lra). rewrite Rabs_mult, (Rabs_pos_eq S) by lra. apply Rle_trans with (90 * d * / S * S); [apply Rmult_le_compat_r; lra|]. right. field. lra. }
  set (z := (Bval y - b * S) / S). assert (Ez : Rabs z <= 200 * k) by (unfold z; rewrite abs_div by exact PS; apply div_le; [exact PS|]; lra).
  assert (V : Bval y * Bval o = b + b * (r - 1) + z + z * (r - 1)) by (unfold z, r; field; lra).
  assert (Q1 : Rabs (b * (r - 1)) <= 3 * K * (90 * d)) by (apply mul_bound; auto; lra). assert (Q2 : Rabs (z * (r - 1)) <= 200 * k * (90 * d)) by (apply mul_bound; auto; lra).
  assert (Q3 : 200 * k * (90 * d) <= k) by (replace (200 * k * (90 * d)) with (k * (18000 * d)) by ring; rewrite <- (Rmult_1_r k) at 2; apply Rmult_le_compat_l; lra).
  replace (3 * K * (90 * d)) with (270 * k) in Q1 by (rewrite <- dk; ring). apply abs_le in Q1, Q2, Ez, Bb.
  destruct (@mul_ap y o (4 * K) Fm Fo) as [Fx Ex].
  - assert (KU : K <= 1048576) by (unfold K; apply div_le; lra). assert (Y1 : bpow radix2 (-1000) <= bpow radix2 (-10)) by (apply bpow_le; lia). change (bpow radix2 (-10)) with (/ 1024) in Y1. assert (Y2 : bpow radix2 30 <= bpow radix2 1000) by (apply bpow_le; lia). change (bpow radix2 30) with 1073741824 in Y2. split; lra.
  - rewrite V. apply abs_le. lra.
  - split; [exact Fx|]. rewrite V in Ex. apply abs_le in Ex. split; [|apply abs_le; exact Bb]. apply abs_le. lra.
Qed.
(** the first coordinate *)
Lemma first_ap x1 x2 b1 b2 : bfin x1 = true -> bfin x2 = true -> Rabs (Bval x1 - b1) <= 500 * (eps * (K * K)) -> Rabs (Bval x2 - b2) <= 500 * (eps * (K * K)) -> Rabs b1 <= 3 * K -> Rabs b2 <= 3 * K ->
  let x0 := nsub (nsub (nofZ 1) x1) x2 in
  bfin x0 = true /\ Rabs (Bval x0 - (1 - Bval x1 - Bval x2)) <= 50 * (eps * (K * K)).
Proof.
  intros F1 F2 E1 E2 B1 B2. destruct b_pos as (PG & PA & PT & TA & UA & LG). destruct b_d as (PD & SD & ED). destruct b_K as (LK & DK & PKK). pose proof eps_pos as P0. pose proof eps_small as S0. set (k := eps * (K * K)) in *.
  assert (dk : d * K = k) by (rewrite DK; unfold k; ring). assert (ek : eps * K <= 3 * k) by (unfold k; assert (K <= 3 * (K * K)) by nra; nra). assert (kb : k <= K / 4000000). { rewrite <- dk. assert (d * K <= / 4294967296 * K) by (apply Rmult_le_compat_r; lra). lra. }
  assert (e1 : eps <= 3 * (eps * K)) by (assert (eps * / 3 <= eps * K) by (apply Rmult_le_compat_l; lra); lra).
  apply abs_le in E1, E2, B1, B2. destruct (int_val (z := 1)) as [Fo Vo]; [lia|]. assert (KU : K <= 1048576) by (unfold K; apply div_le; lra).
  assert (MD : forall c, 1 <= c <= 100 -> mid (1 + c * K)).
  { intros c Hc. assert (Y1 : bpow radix2 (-1000) <= bpow radix2 0) by (apply bpow_le; lia). change (bpow radix2 0) with 1 in Y1. assert (Y2 : bpow radix2 30 <= bpow radix2 1000) by (apply bpow_le; lia). change (bpow radix2 30) with 1073741824 in Y2. assert (0 <= c * K <= 100 * K) by (split; nra). split; lra. }
  destruct (@sub_ap (nofZ 1) x1 (1 + 301 / 100 * K) Fo F1) as [Fa Ea]; [apply MD; lra|rewrite Vo; apply abs_le; lra|]. rewrite Vo in Ea. set (a := nsub (nofZ 1) x1) in *. apply abs_le in Ea.
  destruct (@sub_ap a x2 (1 + 605 / 100 * K) Fa F2) as [Fx Ex]; [apply MD; lra|apply abs_le; nra|]. cbn zeta. split; [exact Fx|]. apply abs_le in Ex. apply abs_le. lra.
Qed.
End Bary.
Lemma cross_comp E a b : 0 <= E -> coords3 E a -> coords3 E b -> coords3 (2 * (E * E)) (rcross a b).
Proof.
  intros PE (A0 & A1 & A2) (B0 & B1 & B2). assert (M : forall x y z w, Rabs x <= E -> Rabs y <= E -> Rabs z <= E -> Rabs w <= E -> Rabs (x * y - z * w) <= 2 * (E * E)).
  { intros x y z w X Y Z W. pose proof (mul_bound PE PE X Y) as P. pose proof (mul_bound PE PE Z W) as Q. apply abs_le in P, Q. apply abs_le. lra. }
  unfold coords3, rcross. cbn [c0 c1 c2]. auto.
Qed.
Lemma bary_ap E p q e f b1 b2 : bpow radix2 (-150) <= E <= bpow radix2 150 -> fin3b p = true -> fin3b q = true -> fin3b e = true -> fin3b f = true ->
  coords3 E (Rval3 e) -> coords3 E (Rval3 f) -> coords3 E (rsub (Rval3 p) (Rval3 q)) -> bpow radix2 (-20) * (E * E) <= rnorm (rcross (Rval3 e) (Rval3 f)) ->
  let c := rsub (rsub (Rval3 p) (Rval3 q)) (radd (rscale b1 (Rval3 e)) (rscale b2 (Rval3 f))) in rdot c (Rval3 e) = 0 -> rdot c (Rval3 f) = 0 ->
  let k := eps * (E * E / rnorm (rcross (Rval3 e) (Rval3 f)) * (E * E / rnorm (rcross (Rval3 e) (Rval3 f)))) in let b := barycentric1 p q e f in
  fin3b b = true /\ Rabs (Bval (c1 b) - b1) <= 500 * k /\ Rabs (Bval (c2 b) - b2) <= 500 * k /\ Rabs (Bval (c0 b) - (1 - Bval (c1 b) - Bval (c2 b))) <= 50 * k.
Proof.
  intros HE Fp Fq Fe Ff He Hf Hw LA c Ce Cf k b. pose proof (edge_pos HE) as PE. pose proof eps_pos as P0. assert (PX : 0 <= eps * E) by (apply Rmult_le_pos; lra). assert (PE' : 0 <= E) by lra.
  pose proof (close_self PX Fe) as SE. pose proof (close_self PX Ff) as SF. pose proof (edge_ap HE Fq Fp Hw) as SW.
  pose proof (cross_ap HE SE SF He Hf) as CN. pose proof (cross_ap HE SE SW He Hw) as C2. pose proof (cross_ap HE SW SF Hw Hf) as C1.
  pose proof (cross_size HE He Hf) as UA. pose proof (cross_size HE He Hw) as U2. pose proof (cross_size HE Hw Hf) as U1.
  set (N := rcross (Rval3 e) (Rval3 f)) in *. set (w := rsub (Rval3 p) (Rval3 q)) in *. assert (AA : rnorm N * rnorm N = rdot N N) by apply rnorm_sq.
  assert (I1 : rdot (rcross w (Rval3 f)) N = b1 * (rnorm N * rnorm N)).
  { rewrite AA. replace (rdot (rcross w (Rval3 f)) N) with (b1 * rdot N N + (rdot c (Rval3 e) * rdot (Rval3 f) (Rval3 f) - rdot c (Rval3 f) * rdot (Rval3 f) (Rval3 e))); [rewrite Ce, Cf; ring|].
    unfold c, N. clearbody w. destruct (Rval3 e) as [e0 e1 e2], (Rval3 f) as [f0 f1 f2], w as [w0 w1 w2]. unfold rdot, rcross, rsub, radd, rscale. cbn [c0 c1 c2]. ring. }
  assert (I2 : rdot (rcross (Rval3 e) w) N = b2 * (rnorm N * rnorm N)).
  { rewrite AA. replace (rdot (rcross (Rval3 e) w) N) with (b2 * rdot N N + (rdot c (Rval3 f) * rdot (Rval3 e) (Rval3 e) - rdot c (Rval3 e) * rdot (Rval3 f) (Rval3 e))); [rewrite Ce, Cf; ring|].
    unfold c, N. clearbody w. destruct (Rval3 e) as [e0 e1 e2], (Rval3 f) as [f0 f1 f2], w as [w0 w1 w2]. unfold rdot, rcross, rsub, radd, rscale. cbn [c0 c1 c2]. ring. }
  pose proof (conj LA UA) as L. destruct (o_ap HE CN L) as [Z _].
  destruct (coord_b_ap HE CN L C1 (cross_comp PE' Hw Hf) U1 I1) as (F1 & E1 & B1). destruct (coord_b_ap HE CN L C2 (cross_comp PE' He Hw) U2 I2) as (F2 & E2 & B2).
  destruct (first_ap HE L F1 F2 E1 E2 B1 B2) as (F0 & E0).
  unfold b, barycentric1. cbn zeta. rewrite Z. unfold fin3b. cbn [c0 c1 c2]. rewrite F0, F1, F2. auto.
Qed.
