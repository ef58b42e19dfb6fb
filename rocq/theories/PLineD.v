(** * line_intersect3 in binary64: the intersection, or its mirror image in the first point. *)
From Coq Require Import Reals ZArith List Bool Lra Lia Psatz.
From Flocq Require Import Core IEEE754.BinarySingleNaN.
From Verif Require Import Num B64 BLemmas Vec RVec VLemmas SpecGeom MVx MPlane MSegment SpecDouble PErr PFar PNormB PSliceF PNormD PPlaneD PCrossD.
Local Open Scope R_scope.
Set Implicit Arguments.
Unset Strict Implicit.

Lemma veqb_val (a b : V3 b64) : fin3b a = true -> fin3b b = true -> veqb a b = true -> Rval3 a = Rval3 b.
Proof.
  intros Fa Fb H. unfold fin3b in Fa, Fb. apply andb_prop in Fa, Fb. destruct Fa as [Fa A2], Fb as [Fb B2]. apply andb_prop in Fa, Fb. destruct Fa as [A0 A1], Fb as [B0 B1].
  unfold veqb, all3, zip3 in H. cbn [c0 c1 c2] in H. apply andb_prop in H. destruct H as [H H2]. apply andb_prop in H. destruct H as [H0 H1].
  rewrite beq_spec in H0, H1, H2 by auto. unfold Rval3, map3. f_equal; [revert H0|revert H1|revert H2]; case Req_bool_spec; auto; discriminate.
Qed.
Lemma abs_div x y : 0 < y -> Rabs (x / y) = Rabs x / y.
Proof. intros P. unfold Rdiv. now rewrite Rabs_mult, (Rabs_pos_eq (/ y)) by (apply Rlt_le, Rinv_0_lt_compat; exact P). Qed.
Lemma div_le x y z : 0 < y -> x <= z * y -> x / y <= z.
Proof. intros P H. apply Rmult_le_reg_r with y; [exact P|]. unfold Rdiv. rewrite Rmult_assoc, Rinv_l by lra. lra. Qed.

Section Line.
Context (E : R) (HE : bpow radix2 (-150) <= E <= bpow radix2 150).
Let G := E * E.
Let T := eps * G.
(** the length of a computed cross product *)
Lemma len_ap n N : close3 (9 * T) n N -> bpow radix2 (-30) * G <= rnorm N <= 3 * G ->
  bfin (vnorm n) = true /\ Rabs (Bval (vnorm n) - rnorm N) <= 46 * T.
Proof.
  intros C [L U]. pose proof (edge_pos HE) as PE. pose proof eps_pos as P0. pose proof eps_val as V0. assert (PG : 0 < G) by (unfold G; nra). assert (PT : 0 < T) by (unfold T; nra).
  destruct (unit_cross HE C (conj L U)) as [S _]. pose proof (@close_norm (9 * T) n N ltac:(lra) C) as D. apply abs_le in D.
  destruct C as (Fn & _). destruct (norm_ap Fn S) as [F D2]. split; [exact F|]. set (B := rnorm (Rval3 n)) in *. apply abs_le in D2.
  assert (ST : T <= G / 1000000) by (unfold T; pose proof eps_small; nra).
  assert (EB : eps * B <= 31 / 10 * T) by (unfold T; assert (B <= 31 / 10 * G) by lra; nra). apply abs_le. lra.
Qed.
Context (h k : b64) (H K : R) (Fh : bfin h = true) (Fk : bfin k = true) (Eh : Rabs (Bval h - H) <= 46 * T) (Ek : Rabs (Bval k - K) <= 46 * T).
Context (LH : bpow radix2 (-20) * G <= H <= 3 * G) (LK : bpow radix2 (-20) * G <= K <= 3 * G).
Let t := H / K.
Let d := T / K.
Lemma pos_G : 0 < G.
Proof. unfold G. pose proof (edge_pos HE). nra. Qed.
Lemma pos_T : 0 < T /\ 4294967296 * T <= K /\ 4294967296 * T <= H.
Proof. pose proof pos_G. unfold T in *. pose proof eps_pos. pose proof eps_val as V. change (bpow radix2 (-20)) with (/ 1048576) in *. rewrite V in *. repeat split; lra. Qed.
Lemma pos_K : 0 < K /\ 0 < H.
Proof. pose proof pos_T. lra. Qed.
Lemma t_range : / 3145728 <= t <= 3145728.
Proof.
  pose proof pos_G. destruct pos_K as [PK PH]. change (bpow radix2 (-20)) with (/ 1048576) in *. unfold t. split.
  - apply Rmult_le_reg_r with K; [exact PK|]. unfold Rdiv. rewrite Rmult_assoc, Rinv_l by lra. lra.
  - apply div_le; [exact PK|]. lra.
Qed.
Lemma d_range : 0 < d /\ d <= / 4294967296 /\ eps <= 3 * d.
Proof.
  destruct pos_T as (PT & TK & _). destruct pos_K as [PK PH]. unfold d. split; [apply Rmult_lt_0_compat; [exact PT|apply Rinv_0_lt_compat; exact PK]|]. split; [apply div_le; lra|].
  apply Rmult_le_reg_r with K; [exact PK|]. replace (3 * (T / K) * K) with (3 * T) by (field; lra). unfold T. pose proof eps_pos. nra.
Qed.
Lemma ratio_ap : bfin (ndiv h k) = true /\ Rabs (Bval (ndiv h k) - t) <= 51 * d * (1 + t).
Proof.
  destruct pos_T as (PT & TK & TH). destruct pos_K as [PK PH]. pose proof t_range as RT. destruct d_range as (PD & SD & ED). pose proof eps_pos as P0. pose proof eps_small as S0. apply abs_le in Eh, Ek.
  assert (Pk : 0 < Bval k) by lra.
  assert (Q : Rabs (Bval h / Bval k - t) <= 4601 / 100 * d * (1 + t)).
  { replace (Bval h / Bval k - t) with (((Bval h - H) + t * (K - Bval k)) / Bval k) by (unfold t; field; lra). rewrite abs_div by exact Pk. apply div_le; [exact Pk|].
    assert (W : Rabs (t * (K - Bval k)) <= t * (46 * T)) by (apply mul_bound; [lra|lra|rewrite Rabs_pos_eq; lra|apply abs_le; lra]). apply abs_le in W.
    assert (KK : K * (1 - / 10000000) <= Bval k) by lra.
    assert (Z : 46 * T * (1 + t) <= 4601 / 100 * d * (1 + t) * Bval k).
    { apply Rle_trans with (4601 / 100 * d * (1 + t) * (K * (1 - / 10000000))); [|apply Rmult_le_compat_l; [apply Rmult_le_pos; lra|exact KK]].
      replace (4601 / 100 * d * (1 + t) * (K * (1 - / 10000000))) with (4601 / 100 * (1 - / 10000000) * (T * (1 + t))) by (unfold d; field; lra). assert (0 < T * (1 + t)) by (apply Rmult_lt_0_compat; lra). lra. }
    apply abs_le. lra. }
  assert (QQ : 4601 / 100 * d * (1 + t) <= (1 + t) / 1000000) by (assert (d * (1 + t) <= / 4294967296 * (1 + t)) by (apply Rmult_le_compat_r; lra); lra).
  apply abs_le in Q. destruct (@div_ap h k (101 / 100 * (1 + t)) Fh) as [F D].
  - assert (Y1 : bpow radix2 (-1000) <= 1) by (change 1 with (bpow radix2 0); apply bpow_le; lia). assert (Y2 : bpow radix2 30 <= bpow radix2 1000) by (apply bpow_le; lia). change (bpow radix2 30) with 1073741824 in Y2. split; lra.
  - lra.
  - apply abs_le. lra.
  - split; [exact F|]. apply abs_le in D. assert (eps * (101 / 100 * (1 + t)) <= 3 * d * (101 / 100 * (1 + t))) by (apply Rmult_le_compat_r; lra). apply abs_le. lra.
Qed.
(** one coordinate of the result *)
Context (M : R) (HM : bpow radix2 (-150) <= M <= bpow radix2 150).
Lemma coord_ap (p e : b64) e' (s : bool) : bfin p = true -> Rabs (Bval p) <= M -> bfin e = true -> Rabs (Bval e - e') <= eps * E -> Rabs e' <= E ->
  let q := nadd p (nmul (if s then nofZ (-1) else nofZ 1) (nmul (ndiv h k) e)) in
  bfin q = true /\ Rabs (Bval q - (Bval p + (if s then -1 else 1) * (t * e'))) <= 68 * d * (1 + t) * E + 2 * (eps * M).
Proof.
  intros Fp Hp Fe Ee He. destruct ratio_ap as [Fr Er]. pose proof t_range as RT. destruct d_range as (PD & SD & ED). pose proof eps_pos as P0. pose proof eps_small as S0. pose proof (edge_pos HE) as PE. set (r := ndiv h k) in *.
  set (D := d * (1 + t)) in *. assert (PDD : 0 < D) by (apply Rmult_lt_0_compat; lra). replace (51 * d * (1 + t)) with (51 * D) in Er by (unfold D; ring). replace (68 * d * (1 + t) * E) with (68 * (D * E)) by (unfold D; ring).
  assert (SDD : D <= (1 + t) / 4294967296) by (unfold D; assert (d * (1 + t) <= / 4294967296 * (1 + t)) by (apply Rmult_le_compat_r; lra); lra).
  assert (PX : 0 < D * E) by (apply Rmult_lt_0_compat; lra). assert (PM : 0 < M) by (pose proof (bpow_gt_0 radix2 (-150)); lra).
  assert (TE : eps * (t * E) <= 3 * (D * E)). { assert (eps * t <= 3 * D) by (unfold D; nra). assert (eps * t * E <= 3 * D * E) by (apply Rmult_le_compat_r; lra). lra. }
  assert (XE : 51 * D * (eps * E) <= / 1000 * (D * E)) by (replace (51 * D * (eps * E)) with (51 * eps * (D * E)) by ring; apply Rmult_le_compat_r; lra).
  assert (Q1 : Rabs ((Bval r - t) * Bval e) <= 51 * D * (E + eps * E)) by (apply mul_bound; try nra; apply abs_le in Ee, He; apply abs_le; lra).
  assert (Q2 : Rabs (t * (Bval e - e')) <= t * (eps * E)) by (apply mul_bound; try nra; rewrite Rabs_pos_eq; lra).
  assert (Q3 : Rabs (t * e') <= t * E) by (apply mul_bound; try lra; rewrite Rabs_pos_eq; lra).
  assert (V : Bval r * Bval e = (Bval r - t) * Bval e + t * (Bval e - e') + t * e') by ring.
  apply abs_le in Q1, Q2, Q3. assert (A1 : - (5101 / 100 * (D * E) + 3 * (D * E)) <= Bval r * Bval e - t * e' <= 5101 / 100 * (D * E) + 3 * (D * E)) by lra.
  assert (tE : 0 < t * E) by (apply Rmult_lt_0_compat; lra). assert (tE2 : / 3145728 * E <= t * E <= 3145728 * E) by (split; apply Rmult_le_compat_r; lra).
  assert (BD : 100 * (D * E) <= 11 / 10 * (t * E)).
  { assert (D * E <= (1 + t) / 4294967296 * E) by (apply Rmult_le_compat_r; lra). lra. }
  assert (Y1 : bpow radix2 (-1000) * 4294967296 <= bpow radix2 (-150)) by (change 4294967296 with (bpow radix2 32); rewrite <- bpow_plus; apply bpow_le; lia).
  assert (Y2 : bpow radix2 150 * 4294967296 <= bpow radix2 1000) by (change 4294967296 with (bpow radix2 32); rewrite <- bpow_plus; apply bpow_le; lia).
  pose proof (bpow_gt_0 radix2 (-1000)) as Y3. pose proof (bpow_gt_0 radix2 150) as Y4.
  destruct (@mul_ap r e (21 / 10 * (t * E)) Fr Fe) as [Fl El]; [split; lra|apply abs_le; lra|]. replace (eps * (21 / 10 * (t * E))) with (21 / 10 * (eps * (t * E))) in El by ring. set (l := nmul r e) in *. apply abs_le in El.
  assert (A2 : - (605 / 10 * (D * E)) <= Bval l - t * e' <= 605 / 10 * (D * E)) by lra.
  assert (S : bfin (nmul (if s then nofZ (-1) else nofZ 1) l) = true /\ Bval (nmul (if s then nofZ (-1) else nofZ 1) l) = (if s then -1 else 1) * Bval l).
  { destruct (int_val (z := -1)) as [Fm Vm]; [lia|]. destruct (int_val (z := 1)) as [F1 V1]; [lia|].
    assert (BL : Rabs (Bval l) <= bpow radix2 1000) by (apply abs_le; lra).
    destruct s; [change (nmul (nofZ (-1)) l) with (bmul (nofZ (-1)) l); destruct (@bmul_val (nofZ (-1)) l) as [W1 W2]; auto|change (nmul (nofZ 1) l) with (bmul (nofZ 1) l); destruct (@bmul_val (nofZ 1) l) as [W1 W2]; auto].
    - rewrite Vm. replace (-1 * Bval l) with (- Bval l) by ring. rewrite Rabs_Ropp. exact BL.
    - split; [exact W2|]. rewrite W1, Vm. replace (-1 * Bval l) with (- Bval l) by ring. unfold rnd64. rewrite round_NE_opp. f_equal. apply round_generic; [typeclasses eauto|]. apply (generic_format_B2R 53 1024).
    - rewrite V1, Rmult_1_l. exact BL.
    - split; [exact W2|]. rewrite W1, V1, !Rmult_1_l. apply round_generic; [typeclasses eauto|]. apply (generic_format_B2R 53 1024). }
  destruct S as [Fs Vs]. set (sl := nmul (if s then nofZ (-1) else nofZ 1) l) in *. intros q.
  assert (A3 : Rabs (Bval sl - (if s then -1 else 1) * (t * e')) <= 605 / 10 * (D * E)) by (rewrite Vs; apply abs_le; destruct s; lra).
  assert (A4 : Rabs (Bval sl) <= 21 / 10 * (t * E)) by (rewrite Vs; apply abs_le; destruct s; lra). apply abs_le in A3, A4, Hp.
  assert (A5 : Rabs (Bval p + Bval sl) <= M + 2 * (t * E)). { apply abs_le. assert (Rabs (Bval sl) <= 2 * (t * E)) by (rewrite Vs; apply abs_le; destruct s; lra). apply abs_le in H0. lra. }
  destruct (@add_ap p sl (M + 2 * (t * E)) Fp Fs) as [Fq Eq]; [split; lra|exact A5|]. fold q in Fq, Eq. split; [exact Fq|]. apply abs_le in Eq. assert (EM : 0 < eps * M) by (apply Rmult_lt_0_compat; lra). apply abs_le. destruct s; lra.
Qed.
End Line.

(** ** the whole function *)
Lemma big_comp v : rnorm v <= 2 * Rabs (c0 v) \/ rnorm v <= 2 * Rabs (c1 v) \/ rnorm v <= 2 * Rabs (c2 v).
Proof.
  set (m := Rmax (Rabs (c0 v)) (Rmax (Rabs (c1 v)) (Rabs (c2 v)))).
  assert (A0 : Rabs (c0 v) <= m) by apply Rmax_l. assert (A1 : Rabs (c1 v) <= m) by (apply Rle_trans with (2 := Rmax_r _ _); apply Rmax_l). assert (A2 : Rabs (c2 v) <= m) by (apply Rle_trans with (2 := Rmax_r _ _); apply Rmax_r).
  assert (P : 0 <= m) by (apply Rle_trans with (2 := A0); apply Rabs_pos). pose proof (rnorm_small P A0 A1 A2) as B.
  unfold m, Rmax in B. destruct (Rle_dec (Rabs (c1 v)) (Rabs (c2 v))); destruct (Rle_dec (Rabs (c0 v)) _); auto.
Qed.
(** a quotient of numbers of ordinary size keeps its sign *)
Lemma quot_sign x y X Y B : bfin x = true -> 0 < Y -> Rabs (Bval x - X) <= B -> Rabs (Bval y - Y) <= B -> 1000 * B <= Rabs X -> 1000 * B <= Y -> / 10000000 * Y <= Rabs X <= 2 * Y ->
  bfin (ndiv x y) = true /\ 0 < X * Bval (ndiv x y).
Proof.
  intros Fx PY Hx Hy BX BY [L U]. assert (PB : 0 <= B) by (apply Rle_trans with (2 := Hx); apply Rabs_pos). apply abs_le in Hx, Hy. assert (Py : 0 < Bval y) by lra. pose proof eps_pos as P0. pose proof eps_small as S0.
  assert (Q : / 100000000 <= Rabs (Bval x / Bval y) <= 3 /\ 0 < X * (Bval x / Bval y)).
  { rewrite abs_div by exact Py. assert (W : Rabs X - B <= Rabs (Bval x) <= Rabs X + B /\ 0 < X * Bval x).
    { unfold Rabs in *. destruct (Rcase_abs X), (Rcase_abs (Bval x)); split; try lra; nra. }
    destruct W as [[W1 W2] W3]. split; [split|].
    - apply Rmult_le_reg_r with (Bval y); [exact Py|]. unfold Rdiv. rewrite Rmult_assoc, Rinv_l by lra. lra.
    - apply div_le; [exact Py|]. lra.
    - unfold Rdiv. rewrite <- Rmult_assoc. apply Rmult_lt_0_compat; [exact W3|apply Rinv_0_lt_compat; exact Py]. }
  destruct Q as [[Q1 Q2] Q3]. destruct (@div_ap x y 4 Fx) as [F D]; [change 4 with (bpow radix2 2); split; apply bpow_le; lia|lra|lra|]. split; [exact F|]. apply abs_le in D.
  set (q := Bval x / Bval y) in *. set (z := Bval (ndiv x y)) in *.
  destruct (Rtotal_order 0 X) as [S|[S|S]].
  - assert (0 < q) by (apply Rmult_lt_reg_l with X; lra). rewrite Rabs_pos_eq in Q1 by lra. apply Rmult_lt_0_compat; lra.
  - subst X. rewrite Rmult_0_l in Q3. lra.
  - assert (q < 0) by (destruct (Rlt_le_dec q 0) as [|N]; [assumption|]; assert (X * q <= 0) by nra; lra). rewrite Rabs_left in Q1 by lra. replace (X * z) with (- X * - z) by ring. apply Rmult_lt_0_compat; lra.
Qed.
Lemma line3_ap E M p0 q0 p1 q1 x : bpow radix2 (-150) <= E <= bpow radix2 150 -> bpow radix2 (-150) <= M <= bpow radix2 150 ->
  within M p0 -> fin3b q0 = true -> fin3b p1 = true -> fin3b q1 = true ->
  let e := rsub (Rval3 p0) (Rval3 q0) in let f := rsub (Rval3 p1) (Rval3 q1) in let g := rsub (Rval3 p0) (Rval3 p1) in
  coords3 E e -> coords3 E f -> coords3 E g ->
  let H := rnorm (rcross f g) in let K := rnorm (rcross f e) in bpow radix2 (-20) * (E * E) <= H -> bpow radix2 (-20) * (E * E) <= K ->
  forall a, x = lerp a (Rval3 p0) (Rval3 q0) -> on_line (Rval3 p1) (Rval3 q1) x ->
  let b := 68 * (eps * (E * E) / K) * (1 + H / K) * E + 2 * (eps * M) in
  exists r, line_intersect3 p0 q0 p1 q1 = Some r /\ (close3 b r x \/ 0 < a /\ close3 b r (rsub (rscale 2 (Rval3 p0)) x)).
Proof.
  intros HE HM W0 Fq0 Fp1 Fq1 e f g He Hf Hg H K LH LK a Hx [s Hs] b. pose proof (edge_pos HE) as PE. assert (PG : 0 < E * E) by nra.
  pose proof (cross_size HE Hf Hg) as UH. pose proof (cross_size HE Hf He) as UK. fold H in UH. fold K in UK.
  assert (PK : 0 < K /\ 0 < H) by (change (bpow radix2 (-20)) with (/ 1048576) in LH, LK; lra). destruct PK as [PK PH].
  (* the cross products are parallel *)
  assert (AK : rcross f g = rscale a (rcross f e)).
  { assert (Z : rcross f (rsub x (Rval3 p1)) = rzero) by (rewrite Hs; unfold f, lerp, rcross, rsub, radd, rscale, rzero; cbn [c0 c1 c2]; f_equal; ring).
    assert (XG : rsub x (Rval3 p1) = rsub g (rscale a e)) by (rewrite Hx; unfold g, e, lerp, rsub, radd, rscale; cbn [c0 c1 c2]; f_equal; ring). rewrite XG in Z.
    clearbody e f g. clear - Z. unfold rcross, rsub, rscale, rzero in Z. cbn [c0 c1 c2] in Z. injection Z as Z0 Z1 Z2. unfold rcross, rscale. cbn [c0 c1 c2]. f_equal; lra. }
  assert (Ht : H = Rabs a * K) by (unfold H, K; rewrite AK, rnorm_scale; reflexivity).
  assert (Pa : 0 < Rabs a) by (destruct (Req_dec a 0) as [Z|Z]; [rewrite Z, Rabs_R0 in Ht; lra|now apply Rabs_pos_lt]).
  assert (Ea : H / K = Rabs a) by (rewrite Ht; field; lra).
  assert (Fp0 : fin3b p0 = true) by apply W0.
  unfold line_intersect3.
  (* none of the special cases, except that q0 is p1 *)
  assert (N1 : veqb p0 p1 = false).
  { destruct (veqb p0 p1) eqn:V; [exfalso|reflexivity]. apply veqb_val in V; auto. revert PH. unfold H, g. rewrite V. unfold rnorm, rdot, rcross, rsub. cbn [c0 c1 c2]. rewrite !Rminus_eq_0, !Rmult_0_r, !Rminus_eq_0, Rmult_0_l, !Rplus_0_r, sqrt_0. lra. }
  assert (N2 : veqb p0 q1 = false).
  { destruct (veqb p0 q1) eqn:V; [exfalso|reflexivity]. apply veqb_val in V; auto. revert PH. unfold H, g, f. rewrite <- V. unfold rnorm, rdot, rcross, rsub. cbn [c0 c1 c2].
    replace (_ + _ + _) with 0 by ring. rewrite sqrt_0. lra. }
  rewrite N1, N2. cbn [orb]. rewrite orb_false_r. assert (Pb : 0 <= b).
  { pose proof eps_pos as P0. pose proof (bpow_gt_0 radix2 (-150)). unfold b. apply Rplus_le_le_0_compat; [|nra]. apply Rmult_le_pos; [|lra]. rewrite Ea. apply Rmult_le_pos; [|lra]. apply Rmult_le_pos; [lra|]. apply Rmult_le_pos; [nra|apply Rlt_le, Rinv_0_lt_compat; exact PK]. }
  destruct (veqb q0 p1) eqn:V3.
  { apply veqb_val in V3; auto. exists q0. split; [reflexivity|]. left.
    assert (A1 : a = 1).
    { assert (QQ : rcross f g = rcross f e) by (unfold g, e; rewrite V3; reflexivity). rewrite QQ in AK. destruct (Req_dec a 1) as [|NE]; [assumption|exfalso].
      assert (ZZ : rcross f e = rzero) by (unfold rscale in AK; set (w := rcross f e) in *; destruct w as [w0 w1 w2]; cbn [c0 c1 c2] in AK; injection AK as K0 K1 K2; unfold rzero; f_equal; apply Rmult_eq_reg_l with (a - 1); lra).
      revert PK. unfold K. rewrite ZZ. unfold rnorm, rdot, rzero. cbn [c0 c1 c2]. rewrite Rmult_0_l, !Rplus_0_r, sqrt_0. lra. }
    assert (Ex : x = Rval3 q0) by (rewrite Hx, A1; destruct (Rval3 p0) as [u0 u1 u2], (Rval3 q0) as [v0 v1 v2]; unfold lerp, radd, rscale, rsub; cbn [c0 c1 c2]; f_equal; ring).
    rewrite Ex. split; [exact Fq0|]. unfold Rval3, map3. cbn [c0 c1 c2]. rewrite !Rminus_eq_0, Rabs_R0. auto. }
  (* the general case *)
  pose proof (edge_ap HE Fq0 Fp0 He) as Ce. pose proof (edge_ap HE Fq1 Fp1 Hf) as Cf. pose proof (edge_ap HE Fp1 Fp0 Hg) as Cg.
  pose proof (cross_ap HE Cf Cg Hf Hg) as CH. pose proof (cross_ap HE Cf Ce Hf He) as CK. fold f in CK. fold e in CK. fold f g in CH.
  set (h := vcross (vsub p1 q1) (vsub p0 p1)) in *. set (k := vcross (vsub p1 q1) (vsub p0 q0)) in *. set (G := E * E) in *. set (T := eps * G) in *.
  assert (L30 : bpow radix2 (-30) * G <= bpow radix2 (-20) * G) by (apply Rmult_le_compat_r; [lra|apply bpow_le; lia]).
  destruct (len_ap HE CH) as [Fh Eh]; [split; [apply Rle_trans with (1 := L30); exact LH|exact UH]|]. destruct (len_ap HE CK) as [Fk Ek]; [split; [apply Rle_trans with (1 := L30); exact LK|exact UK]|].
  fold G in Eh, Ek. fold T in Eh, Ek. fold H in Eh. fold K in Ek.
  assert (LT : 4294967296 * T <= K /\ 4294967296 * T <= H) by (unfold T; change (bpow radix2 (-20)) with (/ 1048576) in LH, LK; rewrite eps_val; split; lra). destruct LT as [TK TH].
  assert (PT : 0 < T) by (unfold T; pose proof eps_pos; nra).
  assert (Z1 : neqb (vnorm h) n0 = false).
  { rewrite beq_spec by (auto; reflexivity). change (Bval n0) with 0. apply abs_le in Eh. apply Req_bool_false. intros Z; lra. }
  assert (Z2 : neqb (vnorm k) n0 = false).
  { rewrite beq_spec by (auto; reflexivity). change (Bval n0) with 0. apply abs_le in Ek. apply Req_bool_false. intros Z.
lra. }
  rewrite Z1, Z2. cbn [orb]. set (sg := veqb (vdivs h (vnorm h)) (vdivs k (vnorm k))) in *. eexists. split; [reflexivity|].
  assert (Q : close3 b (vadd p0 (vscale (if sg then nofZ (-1) else nofZ 1) (vscale (ndiv (vnorm h) (vnorm k)) (vsub p0 q0)))) (radd (Rval3 p0) (rscale ((if sg then -1 else 1) * (H / K)) e))).
  { destruct Ce as (Fe & e0 & e1 & e2). fold e in e0, e1, e2. destruct He as (h0 & h1 & h2). destruct (within_fin W0) as (G0 & G1 & G2). destruct W0 as (_ & w0 & w1 & w2).
    unfold fin3b in Fe. apply andb_prop in Fe. destruct Fe as [Fe E2]. apply andb_prop in Fe. destruct Fe as [E0 E1].
    destruct (coord_ap HE Fh Eh Ek (conj LH UH) (conj LK UK) HM sg G0 w0 E0 e0 h0) as [O0 P0]. destruct (coord_ap HE Fh Eh Ek (conj LH UH) (conj LK UK) HM sg G1 w1 E1 e1 h1) as [O1 P1]. destruct (coord_ap HE Fh Eh Ek (conj LH UH) (conj LK UK) HM sg G2 w2 E2 e2 h2) as [O2 P2].
    rewrite <- Rmult_assoc in P0, P1, P2. unfold close3, fin3b. split; [apply andb_true_intro; split; [apply andb_true_intro; split|]; assumption|]. split; [exact P0|]. split; [exact P1|exact P2]. }
  destruct (Rlt_le_dec 0 a) as [Sa|Sa].
  - rewrite Ea, (Rabs_pos_eq a) in Q by lra. destruct sg.
    + left. replace x with (radd (Rval3 p0) (rscale (-1 * a) e)); [exact Q|]. rewrite Hx. unfold e, lerp, radd, rscale, rsub. cbn [c0 c1 c2]. f_equal; ring.
    + right. split; [exact Sa|]. replace (rsub (rscale 2 (Rval3 p0)) x) with (radd (Rval3 p0) (rscale (1 * a) e)); [exact Q|]. rewrite Hx. unfold e, lerp, radd, rscale, rsub. cbn [c0 c1 c2]. f_equal; ring.
  - left. assert (Na : a < 0) by (destruct Sa; [assumption|subst a; rewrite Rabs_R0 in Pa; lra]). rewrite Ea, (Rabs_left a) in Q by lra.
    assert (SG : sg = false).
    { unfold sg. destruct (veqb (vdivs h (vnorm h)) (vdivs k (vnorm k))) eqn:V; [exfalso|reflexivity].
      set (hr := rcross f g) in *. set (kr := rcross f e) in *.
      assert (D : forall x y hv kv, bfin x = true -> bfin y = true -> Rabs (Bval x - hv) <= 9 * T -> Rabs (Bval y - kv) <= 9 * T -> hv = a * kv -> K <= 2 * Rabs kv -> Rabs kv <= K ->
        neqb (ndiv x (vnorm h)) (ndiv y (vnorm k)) = true -> False).
      { intros y z hv kv Fy Fz Dy Dz HV BK SK EQ. apply abs_le in Dy, Dz, Eh, Ek.
        assert (AV : Rabs hv = Rabs a * Rabs kv) by (rewrite HV; apply Rabs_mult).
        assert (HB : H / 2 <= Rabs hv <= H) by (rewrite AV, Ht; split; nra).
        destruct (@quot_sign y (vnorm h) hv H (46 * T) Fy PH) as [O1 S1]; [apply abs_le; lra|apply abs_le; lra|lra|lra|lra|].
        destruct (@quot_sign z (vnorm k) kv K (46 * T) Fz PK) as [O2 S2]; [apply abs_le; lra|apply abs_le; lra|lra|lra|lra|].
        rewrite beq_spec in EQ by auto. revert EQ. case Req_bool_spec; [|discriminate]. intros EQ _. rewrite EQ, HV in S1. nra. }
      unfold veqb, all3, zip3, vdivs, map3 in V. cbn [c0 c1 c2] in V. apply andb_prop in V. destruct V as [V V2]. apply andb_prop in V. destruct V as [V0 V1].
      destruct CH as (FH & a0 & a1 & a2), CK as (FK & b0 & b1 & b2). fold hr in a0, a1, a2. fold kr in b0, b1, b2. fold G in a0, a1, a2, b0, b1, b2. fold T in a0, a1, a2, b0, b1, b2.
      unfold fin3b in FH, FK. apply andb_prop in FH, FK. destruct FH as [FH H2], FK as [FK K2]. apply andb_prop in FH, FK. destruct FH as [H0 H1], FK as [K0 K1].
      destruct (comp_le kr) as (L0 & L1 & L2). fold K in L0, L1, L2. assert (C : c0 hr = a * c0 kr /\ c1 hr = a * c1 kr /\ c2 hr = a * c2 kr) by (rewrite AK; auto). destruct C as (C0 & C1 & C2).
      destruct (big_comp kr) as [B|[B|B]]; fold K in B.
      - exact (D _ _ _ _ H0 K0 a0 b0 C0 B L0 V0).
      - exact (D _ _ _ _ H1 K1 a1 b1 C1 B L1 V1).
      - exact (D _ _ _ _ H2 K2 a2 b2 C2 B L2 V2). }
    rewrite SG in Q |- *. replace x with (radd (Rval3 p0) (rscale (1 * - a) e)); [exact Q|]. rewrite Hx. unfold e, lerp, radd, rscale, rsub. cbn [c0 c1 c2]. f_equal; ring.
Qed.
