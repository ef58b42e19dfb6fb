(** * rodrigues of a vector in binary64, for any accurate sine and cosine. *)
From Coq Require Import Reals ZArith List Bool Lra Lia Psatz.
From Flocq Require Import Core IEEE754.BinarySingleNaN.
From Verif Require Import Num B64 BLemmas Vec RVec VLemmas MVx MPlane MRotation SpecRotation SpecDouble SpecTransD SpecTrigD PRotation PErr PFar PNormB PSliceF PNormD PScaleD PLineD PLine2D.
Local Open Scope R_scope.
Set Implicit Arguments.
Unset Strict Implicit.
Local Notation eps := PErr.eps.
Local Notation unit_of := SpecDouble.unit_of.

(** ** approximate doubles *)
Definition nr (e : R) (x : b64) (X : R) : Prop := bfin x = true /\ Rabs (Bval x - X) <= e.
Lemma mid_const B : 1 <= B <= 1000 -> mid B.
Proof.
  intros [H1 H2]. split; [apply Rle_trans with (2 := H1); change 1 with (bpow radix2 0); apply bpow_le; lia|]. apply Rle_trans with (bpow radix2 10); [apply Rle_trans with (1 := H2); cbn; lra|apply bpow_le; lia].
Qed.
Lemma nr_weak a b x X : a <= b -> nr a x X -> nr b x X.
Proof. intros H [F E]. split; [exact F|lra]. Qed.
Lemma nr_mul a b x y X Y P Q B : nr a x X -> nr b y Y -> Rabs X <= P -> Rabs Y <= Q -> (P + a) * (Q + b) <= B -> mid B -> nr (a * Q + b * (P + a) + eps * B) (nmul x y) (X * Y).
Proof.
  intros [Fx Ex] [Fy Ey] HX HY HB MB. pose proof (Rabs_pos X) as PX. pose proof (Rabs_pos Y) as PY. pose proof (Rle_trans _ _ _ (Rabs_pos _) Ex) as Pa. pose proof (Rle_trans _ _ _ (Rabs_pos _) Ey) as Pb.
  assert (Hx : Rabs (Bval x) <= P + a) by (replace (Bval x) with (X + (Bval x - X)) by ring; eapply Rle_trans; [apply Rabs_triang|lra]). assert (Hy : Rabs (Bval y) <= Q + b) by (replace (Bval y) with (Y + (Bval y - Y)) by ring; eapply Rle_trans; [apply Rabs_triang|lra]).
  destruct (@mul_ap x y B Fx Fy MB) as [F E]; [apply Rle_trans with (2 := HB); apply mul_bound; lra|]. split; [exact F|].
  replace (Bval (nmul x y) - X * Y) with ((Bval (nmul x y) - Bval x * Bval y) + (Bval x * (Bval y - Y) + (Bval x - X) * Y)) by ring.
  assert (A1 : Rabs (Bval x * (Bval y - Y)) <= (P + a) * b) by (apply mul_bound; lra). assert (A2 : Rabs ((Bval x - X) * Y) <= a * Q) by (apply mul_bound; lra). apply abs_le in E, A1, A2. apply abs_le. lra.
Qed.
Lemma nr_add a b x y X Y P Q B : nr a x X -> nr b y Y -> Rabs X <= P -> Rabs Y <= Q -> P + a + (Q + b) <= B -> mid B -> nr (a + b + eps * B) (nadd x y) (X + Y).
Proof.
  intros [Fx Ex] [Fy Ey] HX HY HB MB. apply abs_le in Ex, Ey, HX, HY. destruct (@add_ap x y B Fx Fy MB) as [F E]; [apply abs_le; lra|]. split; [exact F|]. apply abs_le in E. apply abs_le. lra.
Qed.
Lemma nr_sub a b x y X Y P Q B : nr a x X -> nr b y Y -> Rabs X <= P -> Rabs Y <= Q -> P + a + (Q + b) <= B -> mid B -> nr (a + b + eps * B) (nsub x y) (X - Y).
Proof.
  intros [Fx Ex] [Fy Ey] HX HY HB MB. apply abs_le in Ex, Ey, HX, HY. destruct (@sub_ap x y B Fx Fy MB) as [F E]; [apply abs_le; lra|]. split; [exact F|]. apply abs_le in E. apply abs_le. lra.
Qed.
Lemma nr_opp a x X : nr a x X -> nr a (nopp x) (- X).
Proof. intros [F E]. destruct (opp_val x) as [F' V]. split; [rewrite F'; exact F|]. rewrite V. replace (- Bval x - - X) with (- (Bval x - X)) by ring. now rewrite Rabs_Ropp. Qed.
Lemma nr_int z : (Z.abs z <= 2 ^ 53)%Z -> nr 0 (nofZ z) (IZR z).
Proof. intros H. destruct (int_val H) as [F V]. split; [exact F|]. rewrite V, Rminus_diag_eq, Rabs_R0 by reflexivity. lra. Qed.
Lemma nr_0 : nr 0 n0 0. Proof. apply (@nr_int 0). lia. Qed.
Lemma nr_1 : nr 0 (nofZ 1) 1. Proof. apply (@nr_int 1). lia. Qed.

(** ** sine and cosine are 1-Lipschitz *)
Lemma sin_abs x : Rabs (sin x) <= Rabs x.
Proof.
  assert (P : forall y, 0 <= y -> Rabs (sin y) <= y).
  { intros y [H| <-]; [|rewrite sin_0, Rabs_R0; lra]. pose proof (SIN_bound y) as [B1 B2]. destruct (Rle_dec 1 y) as [L|L]; [apply abs_le; lra|]. pose proof (sin_lt_x y H). assert (0 < sin y) by (apply sin_gt_0; [lra|pose proof PI2_1; lra]). apply abs_le. lra. }
  destruct (Rle_dec 0 x) as [H|H]; [rewrite (Rabs_pos_eq x) by lra; now apply P|]. rewrite (Rabs_left x) by lra. replace (sin x) with (- sin (- x)) by (rewrite sin_neg; ring). rewrite Rabs_Ropp. apply P. lra.
Qed.
Lemma half_abs x y : Rabs ((x - y) / 2) = Rabs (x - y) / 2.
Proof. unfold Rdiv. rewrite Rabs_mult, (Rabs_pos_eq (/ 2)) by lra. reflexivity. Qed.
Lemma cos_lip x y : Rabs (cos x - cos y) <= Rabs (x - y).
Proof.
  rewrite form2. pose proof (sin_abs ((x - y) / 2)) as A. rewrite half_abs in A. pose proof (SIN_bound ((x + y) / 2)) as B.
  replace (-2 * sin ((x - y) / 2) * sin ((x + y) / 2)) with (sin ((x - y) / 2) * (-2 * sin ((x + y) / 2))) by ring. replace (Rabs (x - y)) with (Rabs (x - y) / 2 * 2) by field. apply mul_bound; [pose proof (Rabs_pos (x - y)); lra|lra|exact A|apply abs_le; lra].
Qed.
Lemma sin_lip x y : Rabs (sin x - sin y) <= Rabs (x - y).
Proof.
  rewrite form4. pose proof (sin_abs ((x - y) / 2)) as A. rewrite half_abs in A. pose proof (COS_bound ((x + y) / 2)) as B.
  replace (2 * cos ((x + y) / 2) * sin ((x - y) / 2)) with (sin ((x - y) / 2) * (2 * cos ((x + y) / 2))) by ring. replace (Rabs (x - y)) with (Rabs (x - y) / 2 * 2) by field. apply mul_bound; [pose proof (Rabs_pos (x - y)); lra|lra|exact A|apply abs_le; lra].
Qed.

(** ** the norm of tiny vectors *)
Lemma rnd_bpow_le e x : (-1074 <= e)%Z -> x <= bpow radix2 e -> rnd64 x <= bpow radix2 e.
Proof.
  intros He H. unfold rnd64. apply round_le_generic; [typeclasses eauto|typeclasses eauto| |exact H]. apply generic_format_bpow. unfold FLT_exp. lia.
Qed.
Lemma sqrt_fin x : bfin x = true -> 0 <= Bval x -> bfin (nsqrt x) = true /\ Bval (nsqrt x) = rnd64 (sqrt (Bval x)).
Proof.
  intros F [P|Z]; [destruct (bsqrt_val F P); auto|]. change (nsqrt x) with (bsqrt x). unfold bsqrt, Bval, bfin in *.
  pose proof (@Bsqrt_correct 53 1024 prec_gt_0_53 prec_lt_emax_53 mode_NE x) as (A & B & _). rewrite round_eq in A. split; [|exact A]. rewrite B.
  destruct x as [b|b| |b m e H]; cbn in *; try discriminate; auto. exfalso. destruct b; cbn in Z; [assert (Q : F2R (Float radix2 (Z.neg m) e) < 0) by (now apply F2R_lt_0)|assert (Q : 0 < F2R (Float radix2 (Z.pos m) e)) by (now apply F2R_gt_0)]; unfold F2R in *; cbn in *; lra.
Qed.
Lemma rnd_pos x : 0 <= x -> 0 <= rnd64 x.
Proof. intros H. unfold rnd64. apply round_ge_generic; [typeclasses eauto|typeclasses eauto|apply generic_format_0|exact H]. Qed.
Lemma bp_mul a b : bpow radix2 a * bpow radix2 b = bpow radix2 (a + b).
Proof. now rewrite bpow_plus. Qed.
Lemma sq_tiny x : bfin x = true -> Rabs (Bval x) <= bpow radix2 (-400) -> bfin (nmul x x) = true /\ 0 <= Bval (nmul x x) <= bpow radix2 (-800).
Proof.
  intros F H. pose proof (bpow_gt_0 radix2 (-400)) as P. assert (S : Rabs (Bval x * Bval x) <= bpow radix2 (-800)) by (change (-800)%Z with (-400 + -400)%Z; rewrite <- bp_mul; apply mul_bound; lra). assert (S0 : 0 <= Bval x * Bval x) by apply Rle_0_sqr. rewrite Rabs_pos_eq in S by exact S0.
  change (nmul x x) with (bmul x x). destruct (@bmul_val x x) as [-> ->]; auto. { rewrite Rabs_pos_eq by exact S0. apply Rle_trans with (1 := S). apply bpow_le. lia. }
  split; [reflexivity|]. split; [now apply rnd_pos|apply rnd_bpow_le; [lia|exact S]].
Qed.
Lemma add_tiny e x y : (-1000 <= e < 0)%Z -> bfin x = true -> bfin y = true -> 0 <= Bval x <= bpow radix2 e -> 0 <= Bval y <= bpow radix2 e -> bfin (nadd x y) = true /\ 0 <= Bval (nadd x y) <= bpow radix2 (e + 1).
Proof.
  intros He Fx Fy Hx Hy. assert (S : Bval x + Bval y <= bpow radix2 (e + 1)) by (rewrite <- bp_mul; change (bpow radix2 1) with 2; lra). change (nadd x y) with (badd x y). destruct (@badd_val x y) as [-> ->]; auto. { rewrite Rabs_pos_eq by lra. apply Rle_trans with (1 := S). apply bpow_le. lia. }
  split; [reflexivity|]. split; [apply rnd_pos; lra|apply rnd_bpow_le; [lia|exact S]].
Qed.
Lemma norm_tiny v : fin3b v = true -> rnorm (Rval3 v) <= bpow radix2 (-400) -> bfin (vnorm v) = true /\ Bval (vnorm v) <= bpow radix2 (-399).
Proof.
  intros Fv H. destruct (comp_le (Rval3 v)) as (L0 & L1 & L2). unfold Rval3, map3 in L0, L1, L2. cbn [c0 c1 c2] in L0, L1, L2. fold (map3 Bval v) in L0, L1, L2. fold (Rval3 v) in L0, L1, L2.
  unfold fin3b in Fv. apply andb_prop in Fv. destruct Fv as [Fv F2]. apply andb_prop in Fv. destruct Fv as [F0 F1].
  destruct (sq_tiny F0) as [G0 B0]; [lra|]. destruct (sq_tiny F1) as [G1 B1]; [lra|]. destruct (sq_tiny F2) as [G2 B2]; [lra|]. destruct (@add_tiny (-800) _ _ ltac:(lia) G0 G1 B0 B1) as [GA BA]. assert (B2' : 0 <= Bval (nmul (c2 v) (c2 v)) <= bpow radix2 (-800 + 1)) by (split; [lra|apply Rle_trans with (bpow radix2 (-800)); [lra|apply bpow_le; lia]]).
  destruct (@add_tiny (-800 + 1) _ _ ltac:(lia) GA G2 BA B2') as [GS BS]. change (-800 + 1 + 1)%Z with (-399 + -399)%Z in BS. rewrite <- bp_mul in BS. pose proof (bpow_gt_0 radix2 (-399)) as P.
  destruct (sqrt_fin GS) as [F V]; [lra|]. change (vnorm v) with (nsqrt (nadd (nadd (nmul (c0 v) (c0 v)) (nmul (c1 v) (c1 v))) (nmul (c2 v) (c2 v)))). split; [exact F|]. rewrite V. apply rnd_bpow_le; [lia|]. rewrite <- (sqrt_square (bpow radix2 (-399))) by lra. apply sqrt_le_1_alt. lra.
Qed.
Lemma meps_val : bfin (MRotation.eps : b64) = true /\ Bval MRotation.eps = eps.
Proof.
  assert (A : b64_me (MRotation.eps : b64) = Some (4503599627370496, -104)%Z) by (vm_compute; reflexivity). split; [vm_compute; reflexivity|]. rewrite (Bval_me A). unfold eps. replace (IZR 4503599627370496) with (bpow radix2 52) by (cbn; lra). rewrite bp_mul. reflexivity.
Qed.

(** ** rodrigues *)
Section Rod.
Context (T : Trans b64) (HT : accurate_trig T) (r : V3 b64) (Fr : fin3b r = true).
Let th := rnorm (Rval3 r).
Context (Hlo : bpow radix2 (-60) <= th) (Hhi : th <= bpow radix2 20).
Let k := unit_of (Rval3 r).
Let t := vnorm r.
Let D := 1 + 9 * th.
Lemma r_E : 0 < eps <= / 1000000000000.
Proof. split; [exact eps_pos|exact eps_small]. Qed.
Lemma r_span : span_ok th.
Proof. split; [apply Rle_trans with (2 := Hlo)|apply Rle_trans with (1 := Hhi)]; apply bpow_le; lia. Qed.
Lemma r_pos : 0 < th. Proof. exact (span_pos r_span). Qed.
Lemma r_t : nr (9 * eps * th) t th.
Proof. exact (norm_ap Fr r_span). Qed.
Lemma r_D : 1 <= D /\ D * eps <= / 10000.
Proof. pose proof r_pos as P. pose proof r_E as E. split; [unfold D; lra|]. assert (D <= 10000000) by (unfold D; change (bpow radix2 20) with 1048576 in Hhi; lra). apply Rle_trans with (10000000 * eps); [apply Rmult_le_compat_r; lra|lra]. Qed.
Lemma r_c : nr (D * eps) (ncos t) (cos th).
Proof.
  destruct r_t as [F E]. destruct HT as (_ & HC & _). destruct (HC t F) as [FC EC]. split; [exact FC|]. change ulp_1 with eps in EC. pose proof (cos_lip (Bval t) th) as L. apply abs_le in EC, E. assert (L' : Rabs (cos (Bval t) - cos th) <= 9 * eps * th) by (apply Rle_trans with (1 := L); apply abs_le; lra). apply abs_le in L'. apply abs_le. unfold D. lra.
Qed.
Lemma r_s : nr (D * eps) (nsin t) (sin th).
Proof.
  destruct r_t as [F E]. destruct HT as (HS & _ & _). destruct (HS t F) as [FC EC]. split; [exact FC|]. change ulp_1 with eps in EC. pose proof (sin_lip (Bval t) th) as L. apply abs_le in EC, E. assert (L' : Rabs (sin (Bval t) - sin th) <= 9 * eps * th) by (apply Rle_trans with (1 := L); apply abs_le; lra). apply abs_le in L'. apply abs_le. unfold D. lra.
Qed.
Let c1' := nsub (nofZ 1) (ncos t).
Lemma r_cos : Rabs (cos th) <= 1. Proof. apply abs_le, COS_bound. Qed.
Lemma r_sin : Rabs (sin th) <= 1. Proof. apply abs_le, SIN_bound. Qed.
Lemma r_c1 : nr (D * eps + 3 * eps) c1' (1 - cos th).
Proof.
  destruct r_D as [D1 D2]. pose proof r_E as E. apply nr_weak with (0 + D * eps + eps * 3); [lra|]. apply (nr_sub (P := 1) (Q := 1) nr_1 r_c); [rewrite Rabs_pos_eq; lra|exact r_cos|lra|apply mid_const; lra].
Qed.
Let it := ndiv (nofZ 1) t.
Lemma r_tpos : 0 < Bval t /\ 99 / 100 * th <= Bval t.
Proof. destruct r_t as [_ E]. apply abs_le in E. pose proof r_E as S. pose proof r_pos as P. assert (9 * eps * th <= th / 100) by nra. lra. Qed.
Lemma r_it : bfin it = true /\ Rabs (Bval it * th - 1) <= 21 / 2 * eps.
Proof.
  destruct r_t as [F E]. destruct r_tpos as [Pt Lt]. pose proof r_pos as P. pose proof r_E as S. destruct (@int_val 1) as [F1 V1]; [lia|]. apply abs_le in E. pose proof (Rinv_0_lt_compat _ P) as PI'.
  assert (Q : 0 < / Bval t <= 102 / 100 * / th). { split; [now apply Rinv_0_lt_compat|]. apply Rmult_le_reg_r with (Bval t); [exact Pt|]. rewrite Rinv_l by lra. apply Rmult_le_reg_r with th; [exact P|]. replace (102 / 100 * / th * Bval t * th) with (102 / 100 * Bval t) by (field; lra). lra. }
  assert (MB : mid (102 / 100 * / th)). { assert (L1 : / th <= bpow radix2 60) by (replace (bpow radix2 60) with (/ bpow radix2 (-60)) by (change (-60)%Z with (Z.opp 60); rewrite bpow_opp, Rinv_inv; reflexivity); apply Rinv_le_contravar; [apply bpow_gt_0|exact Hlo]). assert (L2 : bpow radix2 (-20) <= / th) by (change (-20)%Z with (Z.opp 20); rewrite bpow_opp; apply Rinv_le_contravar; [exact P|exact Hhi]).
    pose proof (bpow_gt_0 radix2 (-20)). pose proof (bpow_gt_0 radix2 60). split; [apply Rle_trans with (bpow radix2 (-20)); [apply bpow_le; lia|lra]|apply Rle_trans with (bpow radix2 1 * bpow radix2 60); [change (bpow radix2 1) with 2; lra|rewrite bp_mul; apply bpow_le; lia]]. }
  destruct (@div_ap (nofZ 1) t (102 / 100 * / th) F1 MB) as [G H]; [lra|rewrite V1; unfold Rdiv; rewrite Rmult_1_l, Rabs_pos_eq; lra|]. fold it in G, H. rewrite V1 in H. split; [exact G|].
  replace (Bval it * th - 1) with ((Bval it - 1 / Bval t) * th + (th - Bval t) * / Bval t) by (field; lra).
  assert (A1 : Rabs ((Bval it - 1 / Bval t) * th) <= eps * (102 / 100 * / th) * th) by (apply mul_bound; [|lra|exact H|rewrite Rabs_pos_eq; lra]; apply Rmult_le_pos; lra). replace (eps * (102 / 100 * / th) * th) with (102 / 100 * eps) in A1 by (field; lra).
  assert (A2 : Rabs ((th - Bval t) * / Bval t) <= (9 * eps * th) * (102 / 100 * / th)) by (apply mul_bound; [apply Rmult_le_pos; lra|lra|apply abs_le; lra|rewrite Rabs_pos_eq; lra]). replace (9 * eps * th * (102 / 100 * / th)) with (918 / 100 * eps) in A2 by (field; lra).
  apply abs_le in A1, A2. apply abs_le. lra.
Qed.
Lemma r_k1 : rnorm k = 1. Proof. exact (unit_norm r_pos). Qed.
Lemma r_ki x : bfin x = true -> Rabs (Bval x) <= th -> nr (12 * eps) (nmul x it) (/ th * Bval x).
Proof.
  intros Fx Hx. destruct r_it as [Fi Ei]. pose proof r_pos as P. pose proof r_E as S. apply abs_le in Ei. pose proof (Rinv_0_lt_compat _ P) as PI'. set (X := / th * Bval x).
  assert (HX : Rabs X <= 1). { replace 1 with (/ th * th) by (field; lra). apply mul_bound; try lra. rewrite Rabs_pos_eq; lra. }
  assert (V : Bval x * Bval it = X * (Bval it * th)) by (unfold X; field; lra).
  assert (W : Rabs (Bval x * Bval it) <= 1001 / 1000). { rewrite V. replace (1001 / 1000) with (1 * (1001 / 1000)) by ring. apply mul_bound; try lra. apply abs_le. lra. }
  destruct (@mul_ap x it (1001 / 1000) Fx Fi) as [F H]; [apply mid_const; lra|exact W|]. split; [exact F|]. rewrite V in H.
  assert (A : Rabs (X * (Bval it * th - 1)) <= 1 * (21 / 2 * eps)) by (apply mul_bound; try lra; apply abs_le; lra). apply abs_le in A, H. apply abs_le. lra.
Qed.
Let q := map3 (fun x => nmul x it) r.
Lemma r_q : nr (12 * eps) (c0 q) (c0 k) /\ nr (12 * eps) (c1 q) (c1 k) /\ nr (12 * eps) (c2 q) (c2 k).
Proof.
  destruct (comp_le (Rval3 r)) as (L0 & L1 & L2). unfold fin3b in Fr. pose proof Fr as Fv. apply andb_prop in Fv. destruct Fv as [Fv F2]. apply andb_prop in Fv. destruct Fv as [F0 F1]. repeat split; apply r_ki; assumption.
Qed.
Lemma r_entry e E x y z X Y Z : nr 0 e E -> E = 0 \/ E = 1 -> nr (12 * eps) x X -> nr (12 * eps) y Y -> nr (12 * eps) z Z -> Rabs X <= 1 -> Rabs Y <= 1 -> Rabs Z <= 1 ->
  nr ((87 + 27 * th) * eps) (nadd (nadd (nmul (ncos t) e) (nmul c1' (nmul x y))) (nmul (nsin t) z)) (cos th * E + (1 - cos th) * (X * Y) + sin th * Z).
Proof.
  intros He HE Hx Hy Hz BX BY BZ. destruct r_D as [D1 D2]. pose proof r_E as S. pose proof r_cos as BC. pose proof r_sin as BS. set (d := D * eps) in *. assert (Pd : 0 <= d) by (unfold d; apply Rmult_le_pos; lra).
  assert (BE : Rabs E <= 1) by (destruct HE as [-> | ->]; apply abs_le; lra). pose proof r_c as Hc. pose proof r_s as Hs. pose proof r_c1 as H1. fold d in Hc, Hs, H1.
  assert (BC1 : Rabs (1 - cos th) <= 2) by (apply abs_le in BC; apply abs_le; lra).
  assert (T1 : nr (d + 2 * eps) (nmul (ncos t) e) (cos th * E)). { apply nr_weak with (d * 1 + 0 * (1 + d) + eps * 2); [lra|]. apply (nr_mul (P := 1) Hc He); auto; [lra|apply mid_const; lra]. }
  assert (T2 : nr (26 * eps) (nmul x y) (X * Y)). { apply nr_weak with (12 * eps * 1 + 12 * eps * (1 + 12 * eps) + eps * (101 / 100)); [nra|]. apply (nr_mul (P := 1) Hx Hy); auto; [nra|apply mid_const; lra]. }
  assert (BXY : Rabs (X * Y) <= 1) by (replace 1 with (1 * 1) by ring; apply mul_bound; lra).
  assert (T3 : nr (d + 59 * eps) (nmul c1' (nmul x y)) ((1 - cos th) * (X * Y))). { apply nr_weak with ((d + 3 * eps) * 1 + 26 * eps * (2 + (d + 3 * eps)) + eps * 3); [nra|]. apply (nr_mul (P := 2) H1 T2); auto; [nra|apply mid_const; lra]. }
  assert (T4 : nr (d + 14 * eps) (nmul (nsin t) z) (sin th * Z)). { apply nr_weak with (d * 1 + 12 * eps * (1 + d) + eps * (101 / 100)); [nra|]. apply (nr_mul (P := 1) Hs Hz); auto; [nra|apply mid_const; lra]. }
  assert (B1 : Rabs (cos th * E) <= 1) by (replace 1 with (1 * 1) by ring; apply mul_bound; lra). assert (B3 : Rabs ((1 - cos th) * (X * Y)) <= 2) by (replace 2 with (2 * 1) by ring; apply mul_bound; lra). assert (B4 : Rabs (sin th * Z) <= 1) by (replace 1 with (1 * 1) by ring; apply mul_bound; lra).
  assert (T5 := nr_add (B := 4) T1 T3 B1 B3 ltac:(lra) (mid_const (B := 4) ltac:(lra))). assert (B5 : Rabs (cos th * E + (1 - cos th) * (X * Y)) <= 3) by (eapply Rle_trans; [apply Rabs_triang|lra]).
  assert (T6 := nr_add (B := 5) T5 T4 B5 B4 ltac:(lra) (mid_const (B := 5) ltac:(lra))). apply nr_weak with (2 := T6). unfold d, D. lra.
Qed.
Lemma nr_close e v w : nr e (c0 v) (c0 w) -> nr e (c1 v) (c1 w) -> nr e (c2 v) (c2 w) -> close3 e v w.
Proof. intros [A0 B0] [A1 B1] [A2 B2]. split; [unfold fin3b; now rewrite A0, A1, A2|auto]. Qed.
Lemma nr_eq e x X X' : X = X' -> nr e x X -> nr e x X'.
Proof. now intros ->. Qed.
Lemma rod_big : nlt t MRotation.eps = false -> close33 ((87 + 27 * th) * eps) (rodrigues_vec r) (axis_rot th k).
Proof.
  intros HL. unfold rodrigues_vec. fold t. rewrite HL. destruct r_t as [Ft _]. destruct r_tpos as [Pt _]. assert (EZ : neqb t n0 = false) by (destruct nr_0 as [F0 E0]; rewrite (beq_spec Ft F0); destruct (Req_bool_spec (Bval t) (Bval n0)) as [Q|_]; [apply abs_le in E0; lra|reflexivity]). rewrite EZ. fold it. fold q. fold c1'.
  destruct r_q as (Q0 & Q1 & Q2). destruct (comp_le k) as (L0 & L1 & L2). rewrite r_k1 in L0, L1, L2. pose proof nr_0 as N0. pose proof nr_1 as N1. pose proof (nr_opp Q0) as M0. pose proof (nr_opp Q1) as M1. pose proof (nr_opp Q2) as M2.
  assert (O0 : Rabs (- c0 k) <= 1) by now rewrite Rabs_Ropp. assert (O1 : Rabs (- c1 k) <= 1) by now rewrite Rabs_Ropp. assert (O2 : Rabs (- c2 k) <= 1) by now rewrite Rabs_Ropp. pose proof r_E as S. assert (NZ : nr (12 * eps) n0 0) by (apply nr_weak with (2 := nr_0); lra). assert (LZ : Rabs 0 <= 1) by (rewrite Rabs_R0; lra).
  unfold close33, madd, mscale, meye, rrt, cross_matrix, zip3, map3, vadd, vscale, axis_rot. cbn [c0 c1 c2]. fold (map3 (fun x => nmul x it) r). fold q.
  assert (I1 : forall x y z X Y Z W, nr (12 * eps) x X -> nr (12 * eps) y Y -> nr (12 * eps) z Z -> Rabs X <= 1 -> Rabs Y <= 1 -> Rabs Z <= 1 -> W = cos th * 1 + (1 - cos th) * (X * Y) + sin th * Z ->
    nr ((87 + 27 * th) * eps) (nadd (nadd (nmul (ncos t) (nofZ 1)) (nmul c1' (nmul x y))) (nmul (nsin t) z)) W) by (intros x y z X Y Z W H1 H2 H3 H4 H5 H6 ->; apply r_entry; auto).
  assert (I0 : forall x y z X Y Z W, nr (12 * eps) x X -> nr (12 * eps) y Y -> nr (12 * eps) z Z -> Rabs X <= 1 -> Rabs Y <= 1 -> Rabs Z <= 1 -> W = cos th * 0 + (1 - cos th) * (X * Y) + sin th * Z ->
    nr ((87 + 27 * th) * eps) (nadd (nadd (nmul (ncos t) n0) (nmul c1' (nmul x y))) (nmul (nsin t) z)) W) by (intros x y z X Y Z W H1 H2 H3 H4 H5 H6 ->; apply r_entry; auto).
  split; [|split]; apply nr_close; cbn [c0 c1 c2].
  - apply I1 with (c0 k) (c0 k) 0; auto; ring.
  - apply I0 with (c1 k) (c0 k) (- c2 k); auto; ring.
  - apply I0 with (c2 k) (c0 k) (c1 k); auto; ring.
  - apply I0 with (c0 k) (c1 k) (c2 k); auto; ring.
  - apply I1 with (c1 k) (c1 k) 0; auto; ring.
  - apply I0 with (c2 k) (c1 k) (- c0 k); auto; ring.
  - apply I0 with (c0 k) (c2 k) (- c1 k); auto; ring.
  - apply I0 with (c1 k) (c2 k) (c0 k); auto; ring.
  - apply I1 with (c2 k) (c2 k) 0; auto; ring.
Qed.
End Rod.

(** near the identity *)
Lemma axis_rot_small t k : rdot k k = 1 -> 0 <= t -> close33 (3 * t) (meye : M3 b64) (axis_rot t k).
Proof.
  intros K Pt. assert (NK : rnorm k = 1) by (unfold rnorm; rewrite K; apply sqrt_1). destruct (comp_le k) as (L0 & L1 & L2). rewrite NK in L0, L1, L2.
  pose proof (cos_lip t 0) as LC. rewrite cos_0, Rminus_0_r, (Rabs_pos_eq t) in LC by exact Pt. pose proof (sin_abs t) as LS. rewrite (Rabs_pos_eq t) in LS by exact Pt.
  assert (P : forall x y, Rabs x <= 1 -> Rabs y <= 1 -> Rabs ((1 - cos t) * (x * y)) <= t) by (intros x y Hx Hy; replace t with (t * (1 * 1)) at 2 by ring; apply mul_bound; [exact Pt|lra|rewrite Rabs_minus_sym; exact LC|apply mul_bound; lra]).
  assert (Q : forall x, Rabs x <= 1 -> Rabs (sin t * x) <= t) by (intros x Hx; replace t with (t * 1) at 2 by ring; apply mul_bound; lra).
  pose proof (P _ _ L0 L0) as P00. pose proof (P _ _ L0 L1) as P01. pose proof (P _ _ L0 L2) as P02. pose proof (P _ _ L1 L0) as P10. pose proof (P _ _ L1 L1) as P11. pose proof (P _ _ L1 L2) as P12. pose proof (P _ _ L2 L0) as P20. pose proof (P _ _ L2 L1) as P21. pose proof (P _ _ L2 L2) as P22. pose proof (Q _ L0) as Q0. pose proof (Q _ L1) as Q1. pose proof (Q _ L2) as Q2.
  destruct nr_0 as [F0 E0]. destruct nr_1 as [F1 E1]. apply abs_le in E0, E1, LC, P00, P01, P02, P10, P11, P12, P20, P21, P22, Q0, Q1, Q2.
  unfold close33, meye, axis_rot. cbn [c0 c1 c2]. split; [|split]; apply nr_close; cbn [c0 c1 c2]; (split; [assumption|apply abs_le; lra]).
Qed.
Lemma rod_ap (T : Trans b64) r k : accurate_trig T -> fin3b r = true -> let th := rnorm (Rval3 r) in th <= bpow radix2 20 -> rdot k k = 1 -> Rval3 r = rscale th k ->
  close33 ((87 + 27 * th) * eps) (rodrigues_vec r) (axis_rot th k).
Proof.
  intros HT Fr th Hhi K Er. destruct meps_val as [FM VM]. pose proof eps_pos as PE. pose proof eps_small as SE. assert (Pth : 0 <= th) by apply sqrt_pos.
  destruct (nlt (vnorm r) MRotation.eps) eqn:HL.
  - assert (S : th <= 2 * eps).
    { destruct (Rle_dec (bpow radix2 (-400)) th) as [H|H].
      - assert (SP : span_ok th) by (split; [exact H|apply Rle_trans with (1 := Hhi); apply bpow_le; lia]). destruct (norm_ap Fr SP) as [FN EN]. fold th in EN. rewrite (blt_spec FN FM), VM in HL. destruct (Rlt_bool_spec (Bval (vnorm r)) eps) as [Q|Q]; [|discriminate]. apply abs_le in EN. assert (9 * eps * th <= th / 2) by nra. lra.
      - apply Rle_trans with (bpow radix2 (-400)); [lra|]. apply Rle_trans with eps; [unfold eps; apply bpow_le; lia|lra]. }
    assert (C := axis_rot_small K Pth). unfold rodrigues_vec. rewrite HL. destruct C as (C0 & C1 & C2). assert (W : forall v w, close3 (3 * th) v w -> close3 ((87 + 27 * th) * eps) v w).
    { intros v w (F & A & B & C). assert (3 * th <= (87 + 27 * th) * eps) by nra. repeat split; try assumption; lra. }
    split; [|split]; apply W; assumption.
  - assert (Hlo : bpow radix2 (-60) <= th).
    { destruct (Rle_dec (bpow radix2 (-400)) th) as [H|H].
      - assert (SP : span_ok th) by (split; [exact H|apply Rle_trans with (1 := Hhi); apply bpow_le; lia]). destruct (norm_ap Fr SP) as [FN EN]. fold th in EN. rewrite (blt_spec FN FM), VM in HL. destruct (Rlt_bool_spec (Bval (vnorm r)) eps) as [Q|Q]; [discriminate|]. apply abs_le in EN. assert (9 * eps * th <= th / 2) by nra. apply Rle_trans with (eps / 2); [|lra]. unfold eps. change (bpow radix2 (-52) / 2) with (bpow radix2 (-52) * bpow radix2 (-1)). rewrite bp_mul. apply bpow_le. lia.
      - destruct (norm_tiny Fr) as [FN EN]; [fold th; lra|]. rewrite (blt_spec FN FM), VM in HL. destruct (Rlt_bool_spec (Bval (vnorm r)) eps) as [Q|Q]; [discriminate|]. exfalso. assert (bpow radix2 (-399) < eps) by (unfold eps; apply bpow_lt; lia). lra. }
    assert (P : 0 < th) by (pose proof (bpow_gt_0 radix2 (-60)); lra). assert (EK : k = unit_of (Rval3 r)) by (unfold SpecDouble.unit_of; fold th; rewrite Er, rscale_scale, Rinv_l, rscale_1 by lra; reflexivity). rewrite EK. exact (rod_big HT Fr Hlo Hhi HL).
Qed.
