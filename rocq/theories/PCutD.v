(** * Where polylines of doubles meet a plane: the computed points, and which side is kept. *)
From Coq Require Import Reals ZArith List Bool Lra Lia Psatz Sorted.
From Flocq Require Import Core Plus_error Relative IEEE754.BinarySingleNaN.
From Verif Require Import Num B64 BLemmas Vec RVec SpecGeom SpecPoly VLemmas NpList MVx MPlane MSegment MPolyline PPolyline PPolyline2 PPolyline3 SpecDouble PErr PFar PNormB PSliceF PNormD PPlaneD PProjD PCutG PCutC.
Import ListNotations.
Local Open Scope R_scope.
Set Implicit Arguments.
Unset Strict Implicit.

Lemma add_rel x y : bfin x = true -> bfin y = true -> Rabs (Bval x + Bval y) <= bpow radix2 1000 ->
  bfin (nadd x y) = true /\ Rabs (Bval (nadd x y) - (Bval x + Bval y)) <= eps * Rabs (Bval x + Bval y).
Proof.
  intros Fx Fy H. change (nadd x y) with (badd x y). destruct (@badd_val x y Fx Fy H) as [-> ->]. split; [reflexivity|].
  destruct (@FLT_plus_error_N_ex radix2 (-1074) 53 ltac:(reflexivity) (fun x => negb (Z.even x)) (Bval x) (Bval y) (rnd_id_fmt (rnd64_B x)) (rnd_id_fmt (rnd64_B y))) as (d & Hd & E).
  change (round radix2 (FLT_exp (-1074) 53) (Znearest (fun x => negb (Z.even x))) (Bval x + Bval y)) with (rnd64 (Bval x + Bval y)) in E. rewrite E.
  replace ((Bval x + Bval y) * (1 + d) - (Bval x + Bval y)) with (d * (Bval x + Bval y)) by ring. rewrite Rabs_mult. apply Rmult_le_compat_r; [apply Rabs_pos|]. apply Rle_trans with (1 := Hd).
  unfold u_ro. change (bpow radix2 (- (53) + 1)) with eps. pose proof eps_pos. apply Rmult_le_reg_r with (1 + / 2 * eps); [lra|]. unfold Rdiv. rewrite Rmult_assoc, Rinv_l by lra. nra.
Qed.
Lemma one_val : bfin (nofZ 1) = true /\ Bval (nofZ 1) = 1.
Proof. split; [reflexivity|]. rewrite (@Bval_me _ 4503599627370496%Z (-52)%Z) by (vm_compute; reflexivity). change (bpow radix2 (-52)) with (/ 4503599627370496). lra. Qed.

Section Row.
Context (M : R) (HM : scale_ok M).
Let T := eps * M.
(** the weights *)
Lemma weight_ap (a b s : b64) : bfin a = true -> 0 <= Bval a -> 0 <= Bval b -> 0 < Bval a + Bval b ->
  Bval a <= Bval s -> Rabs (Bval s - (Bval a + Bval b)) <= eps * (Bval a + Bval b) -> let t := Bval a / (Bval a + Bval b) in
  0 <= t <= 1 /\ bfin (nsub (nofZ 1) (ndiv a s)) = true /\ Rabs (Bval (nsub (nofZ 1) (ndiv a s)) - (1 - t)) <= 4 * eps.
Proof.
  intros Fa Ha Hb P G1 Er t. pose proof (scale_pos HM) as PM. pose proof eps_pos as PE. pose proof eps_small as SE.
  set (A := Bval a) in *. set (B := Bval b) in *. set (S := Bval s) in *. apply abs_le in Er. assert (PS : 0 < S) by nra.
  assert (Ht : 0 <= t <= 1) by (unfold t; split; [apply Rmult_le_pos; [lra|apply Rlt_le, Rinv_0_lt_compat; lra]|apply Rmult_le_reg_r with (A + B); [lra|]; unfold Rdiv; rewrite Rmult_assoc, Rinv_l by lra; lra]).
  split; [exact Ht|].
  assert (Q : 0 <= A / S <= 1) by (split; [apply Rmult_le_pos; [lra|apply Rlt_le, Rinv_0_lt_compat; lra]|apply Rmult_le_reg_r with S; [lra|]; unfold Rdiv; rewrite Rmult_assoc, Rinv_l by lra; lra]).
  assert (D : Rabs (A / S - t) <= eps).
  { replace (A / S - t) with (A / S * ((A + B - S) / (A + B))) by (unfold t; field; lra). replace eps with (1 * eps) by ring. apply mul_bound; try lra; [apply abs_le; lra|].
    unfold Rdiv. rewrite Rabs_mult, (Rabs_pos_eq (/ (A + B))) by (apply Rlt_le, Rinv_0_lt_compat; lra). apply Rmult_le_reg_r with (A + B); [lra|]. rewrite Rmult_assoc, Rinv_l by lra. rewrite Rmult_1_r. apply abs_le. lra. }
  assert (M1 : mid 1) by (split; [change 1 with (bpow radix2 0)|change 1 with (bpow radix2 0)]; apply bpow_le; lia).
  assert (M2 : mid 2) by (split; [change 2 with (bpow radix2 1)|change 2 with (bpow radix2 1)]; apply bpow_le; lia).
  destruct (@div_ap a s 1 Fa M1) as [Fq Eq]; [fold S; lra|fold A S; apply abs_le; lra|]. fold A S in Eq. set (q := ndiv a s) in *.
  destruct one_val as [F1 V1]. apply abs_le in Eq, D.
  destruct (@sub_ap (nofZ 1) q 2 F1 Fq M2) as [Fr Err]; [rewrite V1; apply abs_le; lra|]. rewrite V1 in Err. apply abs_le in Err. split; [exact Fr|]. apply abs_le. lra.
Qed.
Lemma coord_ap (p q x y : b64) t : bfin p = true -> bfin q = true -> bfin x = true -> bfin y = true -> 0 <= t <= 1 -> Rabs (Bval p - (1 - t)) <= 4 * eps -> Rabs (Bval q - t) <= 4 * eps ->
  Rabs (Bval x) <= M -> Rabs (Bval y) <= M ->
  bfin (nadd (nmul p x) (nmul q y)) = true /\ Rabs (Bval (nadd (nmul p x) (nmul q y)) - (Bval x + t * (Bval y - Bval x))) <= 16 * T.
Proof.
  intros Fp Fq Fx Fy Ht Ep Eq Hx Hy. pose proof (scale_pos HM) as PM. pose proof eps_pos as PE. pose proof eps_small as SE. assert (PT : 0 < T) by (unfold T; nra). assert (ST : T <= M / 1000000) by (unfold T; nra).
  assert (G : forall (w v : b64) k, bfin w = true -> bfin v = true -> 0 <= k <= 1 -> Rabs (Bval w - k) <= 4 * eps -> Rabs (Bval v) <= M -> bfin (nmul w v) = true /\ Rabs (Bval (nmul w v) - k * Bval v) <= 6 * T).
  { intros w v k Fw Fv Hk Ew Hv. assert (B1 : Rabs (Bval w * Bval v) <= 2 * M) by (apply mul_bound; try lra; apply abs_le in Ew; apply abs_le; lra).
    destruct (@mul_ap w v (2 * M) Fw Fv) as [Fm Em]; [apply scale_mid; auto; lra|exact B1|]. split; [exact Fm|].
    assert (B2 : Rabs ((Bval w - k) * Bval v) <= 4 * eps * M) by (apply mul_bound; auto; lra). apply abs_le in Em, B2. replace (eps * (2 * M)) with (2 * T) in Em by (unfold T; ring). replace (4 * eps * M) with (4 * T) in B2 by (unfold T; ring). apply abs_le. lra. }
  assert (Hk : 0 <= 1 - t <= 1) by lra.
  destruct (G p x (1 - t) Fp Fx Hk Ep Hx) as [F1 E1]. destruct (G q y t Fq Fy Ht Eq Hy) as [F2 E2].
  assert (Lx : Rabs ((1 - t) * Bval x) <= (1 - t) * M) by (apply mul_bound; try lra; apply abs_le; lra). assert (Ly : Rabs (t * Bval y) <= t * M) by (apply mul_bound; try lra; apply abs_le; lra).
  apply abs_le in E1, E2, Lx, Ly.
  destruct (@add_ap (nmul p x) (nmul q y) (2 * M)) as [F E]; auto; [apply scale_mid; auto; lra|apply abs_le; lra|]. split; [exact F|]. replace (eps * (2 * M)) with (2 * T) in E by (unfold T; ring). apply abs_le in E. apply abs_le. lra.
Qed.
Context (r n : V3 b64) (Wr : within M r) (Fn : fin3b n = true) (Un : rnorm (Rval3 n) <= bpow radix2 400).
Context (pl : plane b64) (HP : mk_plane r n = Ok pl).
Notation sd := (signed_distance1 pl).
Let d := plane_distance r n.
Lemma sign_zero s : bfin s = true -> Bval s = 0 -> nsign s = n0.
Proof. intros F P. unfold nsign. rewrite !blt_spec by auto. change (Bval n0) with 0. rewrite P. rewrite Rlt_bool_false by lra. rewrite beq_spec by auto. rewrite P. change (Bval n0) with 0. rewrite Req_bool_true by reflexivity. reflexivity. Qed.
(** which edges are reported *)
Lemma gcross_spec a b : within M a -> within M b -> gcross pl (a, b) = true <-> Bval (sd a) * Bval (sd b) <= 0.
Proof.
  intros Wa Wb. destruct (plane_dist HM Wr Fn Un HP Wa) as [Fa _]. destruct (plane_dist HM Wr Fn Un HP Wb) as [Fb _]. unfold gcross. cbn [fst snd].
  destruct (Rtotal_order (Bval (sd a)) 0) as [A|[A|A]]; destruct (Rtotal_order (Bval (sd b)) 0) as [B|[B|B]];
    first [rewrite (sign_neg Fa A)|rewrite (sign_zero Fa A)|rewrite (sign_pos Fa A)]; first [rewrite (sign_neg Fb B)|rewrite (sign_zero Fb B)|rewrite (sign_pos Fb B)];
    (split; [intros H; vm_compute in H; try discriminate; nra|intros H; first [vm_compute; reflexivity|exfalso; nra]]).
Qed.
Lemma grow_ap a b : within M a -> within M b -> Bval (sd a) * Bval (sd b) <= 0 -> Bval (sd a) <> 0 \/ Bval (sd b) <> 0 ->
  exists t, 0 <= t <= 1 /\ close3 (16 * T) (grow pl (a, b)) (lerp t (Rval3 a) (Rval3 b)) /\ Rabs (d (grow pl (a, b))) <= 162 * T.
Proof.
  intros Wa Wb Op NZ. destruct (plane_dist HM Wr Fn Un HP Wa) as [Fa Ea]. destruct (plane_dist HM Wr Fn Un HP Wb) as [Fb Eb]. pose proof (dist_size HM Wr Fn Un HP Wa) as Sa. pose proof (dist_size HM Wr Fn Un HP Wb) as Sb.
  pose proof (scale_pos HM) as PM. pose proof eps_pos as PE. pose proof eps_small as SE. assert (PT : 0 < T) by (unfold T; nra). assert (ST : T <= M / 1000000) by (unfold T; nra).
  fold d in Ea, Eb, Sa, Sb. fold T in Ea, Eb. unfold grow. cbn [fst snd]. destruct (abs_val Fa) as [FA VA]. destruct (abs_val Fb) as [FB VB]. set (A := nabs (sd a)) in *. set (B := nabs (sd b)) in *.
  set (sa := Bval (sd a)) in *. set (sb := Bval (sd b)) in *. apply abs_le in Ea, Eb, Sa, Sb.
  assert (BA : 0 <= Bval A <= 5 * M) by (rewrite VA; split; [apply Rabs_pos|apply abs_le; lra]). assert (BB : 0 <= Bval B <= 5 * M) by (rewrite VB; split; [apply Rabs_pos|apply abs_le; lra]).
  assert (PS : 0 < Bval A + Bval B) by (rewrite VA, VB; pose proof (Rabs_pos sa); pose proof (Rabs_pos sb); destruct NZ as [Z|Z]; pose proof (Rabs_pos_lt _ Z); lra).
  assert (Big : 2 * (5 * M) <= bpow radix2 1000) by (replace (2 * (5 * M)) with (10 * M) by ring; apply (scale_mid HM); lra).
  destruct (sum_ge FA FB BA BB Big) as (_ & GA & GB & _).
  destruct (add_rel FA FB) as (_ & Er); [apply abs_le; lra|]. rewrite (Rabs_pos_eq (Bval A + Bval B)) in Er by lra.
  destruct (weight_ap FA (Logic.proj1 BA) (Logic.proj1 BB) PS GA Er) as (Ht & FtA & EtA). pose proof Er as Er'. pose proof PS as PS'. rewrite (Rplus_comm (Bval A)) in Er', PS'.
  destruct (weight_ap FB (Logic.proj1 BB) (Logic.proj1 BA) PS' GB Er') as (_ & FtB & EtB). set (t := Bval A / (Bval A + Bval B)) in *.
  replace (1 - Bval B / (Bval B + Bval A)) with t in EtB by (unfold t; field; lra).
  exists t. split; [exact Ht|]. destruct (within_fin Wa) as (F0 & F1 & F2). destruct (within_fin Wb) as (G0 & G1 & G2). pose proof Wa as (_ & X0 & X1 & X2). pose proof Wb as (_ & Y0 & Y1 & Y2).
  destruct (coord_ap FtA FtB F0 G0 Ht EtA EtB X0 Y0) as [K0 L0]. destruct (coord_ap FtA FtB F1 G1 Ht EtA EtB X1 Y1) as [K1 L1]. destruct (coord_ap FtA FtB F2 G2 Ht EtA EtB X2 Y2) as [K2 L2].
  set (x := vadd _ _) in *.
  assert (C : close3 (16 * T) x (lerp t (Rval3 a) (Rval3 b))).
  { unfold close3, fin3b, x, vadd, vscale, zip3, map3, lerp, radd, rscale, rsub, Rval3, map3. cbn [c0 c1 c2]. rewrite K0, K1, K2. auto. }
  split; [exact C|]. set (N := unit_of (Rval3 n)). assert (UN : rnorm N = 1) by (apply (plane_unit Fn Un HP)).
  assert (E : d x = rdot (rsub (Rval3 x) (lerp t (Rval3 a) (Rval3 b))) N + ((1 - t) * d a + t * d b)).
  { unfold d, plane_distance. fold N. unfold lerp, rdot, radd, rscale, rsub, Rval3, map3. cbn [c0 c1 c2]. ring. }
  assert (Z : (1 - t) * sa + t * sb = 0).
  { assert (Q : Bval B * sa + Bval A * sb = 0). { rewrite VA, VB. unfold Rabs. destruct (Rcase_abs sa), (Rcase_abs sb); nra. }
    replace ((1 - t) * sa + t * sb) with ((Bval B * sa + Bval A * sb) / (Bval A + Bval B)) by (unfold t; field; lra). rewrite Q. unfold Rdiv. ring. }
  assert (H1 : Rabs (rdot (rsub (Rval3 x) (lerp t (Rval3 a) (Rval3 b))) N) <= 2 * (16 * T)).
  { apply Rle_trans with (1 := cauchy _ _). rewrite UN, Rmult_1_r. destruct C as (_ & C0 & C1 & C2). apply rnorm_small; [lra| | |]; auto. }
  assert (H2 : - (130 * T) <= (1 - t) * d a + t * d b <= 130 * T) by nra.
  apply abs_le in H1. rewrite E. apply abs_le. lra.
Qed.
End Row.

(** ** Cutting with every vertex clear of the plane *)
Section Cut.
Context (M : R) (HM : scale_ok M) (r n : V3 b64) (Wr : within M r) (Fn : fin3b n = true) (Un : rnorm (Rval3 n) <= bpow radix2 400).
Context (pl : plane b64) (HP : mk_plane r n = Ok pl).
Notation sd := (signed_distance1 pl).
Let T := eps * M.
Let d := plane_distance r n.
Let N := unit_of (Rval3 n).
Definition far (v : V3 b64) : Prop := within M v /\ 8192 * T <= Rabs (d v).
Lemma cut_T : 0 < M /\ 0 < T /\ T <= M / 1000000 /\ 0 < eps /\ eps <= / 1000000000000.
Proof. pose proof (scale_pos HM). pose proof eps_pos. pose proof eps_small. unfold T. repeat split; nra. Qed.
Lemma far_sides v : far v -> (8192 * T <= d v /\ 8062 * T <= Bval (sd v) /\ front pl v = true) \/ (d v <= - (8192 * T) /\ Bval (sd v) <= - (8062 * T) /\ front pl v = false).
Proof.
  intros [W C]. destruct (plane_dist HM Wr Fn Un HP W) as [F E]. fold d T in E. apply abs_le in E. destruct cut_T as (_ & PT & _). revert C. unfold Rabs, front. destruct (Rcase_abs (d v)); intros C; [right|left].
  - split; [lra|]. split; [lra|]. rewrite (sign_neg F) by lra. reflexivity.
  - split; [lra|]. split; [lra|]. rewrite (sign_pos F) by lra. reflexivity.
Qed.
Lemma far_off v : far v -> off pl v.
Proof.
  intros H. pose proof H as [W _]. destruct (plane_dist HM Wr Fn Un HP W) as [F _]. destruct cut_T as (_ & PT & _). unfold off.
  destruct (far_sides H) as [(_ & S & _)|(_ & S & _)]; [left; apply (sign_pos F)|right; apply (sign_neg F)]; lra.
Qed.
Lemma far_clear v : far v -> clear_of M pl v.
Proof. intros H. destruct cut_T as (_ & PT & _). unfold clear_of. fold T. destruct (far_sides H) as [(_ & S & _)|(_ & S & _)]; [rewrite Rabs_pos_eq|rewrite Rabs_left]; lra. Qed.
Lemma far_front v : far v -> (front pl v = true <-> 0 < d v).
Proof. intros H. destruct cut_T as (_ & PT & _). destruct (far_sides H) as [(S & _ & E)|(S & _ & E)]; rewrite E; split; intros; try discriminate; try reflexivity; lra. Qed.
Lemma far_back v : far v -> (front pl v = false <-> d v < 0).
Proof. intros H. destruct cut_T as (_ & PT & _). destruct (far_sides H) as [(S & _ & E)|(S & _ & E)]; rewrite E; split; intros; try discriminate; try reflexivity; lra. Qed.
Lemma dist_sdist v : d v = sdist (Rval3 r) (Rval3 n) (Rval3 v).
Proof. unfold d, plane_distance, unit_of, sdist. rewrite rdot_scale_r. unfold Rdiv. apply Rmult_comm. Qed.
Lemma far_change a b : far a -> far b -> meetsb (Rval3 r) (Rval3 n) (Rval3 a, Rval3 b) = change (front pl) (a, b).
Proof.
  intros Ha Hb. unfold meetsb, change. cbn [fst snd]. rewrite <- !dist_sdist. destruct cut_T as (_ & PT & _).
  destruct (far_sides Ha) as [(S & _ & ->)|(S & _ & ->)]; destruct (far_sides Hb) as [(S' & _ & ->)|(S' & _ & ->)]; cbn [xorb];
    destruct (Rlt_dec 0 (d a)); try lra; destruct (Rlt_dec (d a) 0); try lra; destruct (Rlt_dec 0 (d b)); try lra; destruct (Rlt_dec (d b) 0); try lra; reflexivity.
Qed.
Lemma far_crossings c vs : Forall far vs -> crossings (Rval3 r) (Rval3 n) c (map Rval3 vs) = changes (front pl) c vs.
Proof.
  intros H. unfold crossings, changes. rewrite Forall_forall in H. rewrite segs_map.
  assert (G : forall s, In s (segs c vs) -> meetsb (Rval3 r) (Rval3 n) (Rval3 (fst s), Rval3 (snd s)) = change (front pl) s).
  { intros [a b] Hs. apply segs_in in Hs as [Ha Hb]. apply far_change; auto. }
  induction (segs c vs) as [|s S IH]; auto. cbn [map filter]. rewrite (G s) by (left; auto). destruct (change (front pl) s); cbn [length]; [f_equal|]; apply IH; intros; apply G; now right.
Qed.
Lemma far_numeric vs : Forall far vs -> numeric vs = true.
Proof.
  intros H. unfold numeric. apply forallb_forall. intros v I. rewrite Forall_forall in H. destruct (H v I) as [W _]. destruct (within_fin W) as (F0 & F1 & F2). unfold all3, map3. cbn [c0 c1 c2].
  change (bfin (c0 v) && bfin (c1 v) && bfin (c2 v) = true). now rewrite F0, F1, F2.
Qed.
Lemma fin_numeric x : fin3b x = true -> numeric [x] = true.
Proof. intros F. unfold numeric. cbn [forallb]. rewrite andb_true_r. exact F. Qed.
(** the direction of the edge that crosses decides which part is kept *)
Lemma edge_dir a b : far a -> far b -> change (front pl) (a, b) = true -> nlt n0 (sproj1 (vsub b a) (normal pl)) = front pl b.
Proof.
  intros Ha Hb Ch. destruct cut_T as (PM & PT & ST & PE & SE). destruct (plane_fields Fn Un HP) as [_ C]. pose proof (plane_unit Fn Un HP) as U. fold N in C, U.
  pose proof (@close_norm (12 * eps) _ _ ltac:(lra) C) as NC. rewrite U in NC. apply abs_le in NC. change (normal pl) with (pl_n pl). pose proof (close_within C U ltac:(lra)) as Wn. set (m := pl_n pl) in *.
  assert (Sm : span_ok (rnorm (Rval3 m))).
  { split; [apply Rle_trans with (bpow radix2 (-1)); [apply bpow_le; lia|change (bpow radix2 (-1)) with (/ 2); lra]|apply Rle_trans with (bpow radix2 1); [change (bpow radix2 1) with 2; lra|apply bpow_le; lia]]. }
  pose proof Ha as [Wa _]. pose proof Hb as [Wb _]. destruct (vsub_ap HM Wb Wa) as (W & B0 & B1 & B2). fold T in B0, B1, B2.

  assert (Fm : fin3b m = true) by apply Wn.
  assert (RM : rel (3 * M)) by (apply scale_rel; auto; lra).
  (* the scalar projection is the dot product with the renormalized normal *)
  pose proof (normalize_ap Fm Sm) as Cm. set (m' := normalize1 m) in *. pose proof (unit_norm (span_pos Sm)) as U'. pose proof (close_within Cm U' ltac:(lra)) as Wm'.
  destruct (dot_ap RM W Wm') as (Fs & Es & _). change (vdot (vsub b a) m') with (sproj1 (vsub b a) m) in Fs, Es. set (s := sproj1 (vsub b a) m) in *. replace (22 * (eps * (3 * M))) with (66 * T) in Es by (unfold T; ring).
  set (w := vsub b a) in *. set (q := rnorm (Rval3 m)) in *.
  (* m' is within 40 eps of N *)
  assert (NN : forall x y z : R, Rabs y <= q -> Rabs (x - / q * y) <= 12 * eps -> Rabs (y - z) <= 12 * eps -> Rabs (x - z) <= 50 * eps).
  { intros x y z Hy Hx Hz. assert (Z : Rabs (/ q - 1) <= 25 * eps).
    { replace (/ q - 1) with ((1 - q) * / q) by (field; lra). rewrite Rabs_mult, (Rabs_pos_eq (/ q)) by (apply Rlt_le, Rinv_0_lt_compat; lra). apply Rmult_le_reg_r with q; [lra|]. rewrite Rmult_assoc, Rinv_l by lra. rewrite Rmult_1_r. apply abs_le. nra. }
    assert (Q : Rabs (y * (/ q - 1)) <= (1 + 24 * eps) * (25 * eps)) by (apply mul_bound; try lra; apply Rle_trans with (1 := Hy); lra). apply abs_le in Q, Hx, Hz. apply abs_le. nra. }
  destruct (comp_le (Rval3 m)) as (L0 & L1 & L2). fold q in L0, L1, L2. destruct C as (_ & A0 & A1 & A2). destruct Cm as (_ & D0 & D1 & D2). unfold unit_of in D0, D1, D2. fold q in D0, D1, D2. unfold rscale, Rval3, map3 in D0, D1, D2, L0, L1, L2. cbn [c0 c1 c2] in D0, D1, D2, L0, L1, L2.
  pose proof (NN _ _ _ L0 D0 A0) as N0. pose proof (NN _ _ _ L1 D1 A1) as N1. pose proof (NN _ _ _ L2 D2 A2) as N2.
  assert (K : Rabs (Bval s - (d b - d a)) <= 600 * T).
  { destruct W as (_ & W0 & W1 & W2). destruct (comp_le N) as (M0 & M1 & M2). rewrite U in M0, M1, M2.
    assert (G : forall e x y z D, Rabs x <= 3 * M -> Rabs (y - z) <= 50 * eps -> Rabs z <= 1 -> Rabs (x - D) <= 2 * T -> e = x * y -> Rabs (e - D * z) <= 152 * T).
    { intros e x y z D Hx Hy Hz HD ->. replace (x * y - D * z) with (x * (y - z) + (x - D) * z) by ring. assert (Q1 : Rabs (x * (y - z)) <= 3 * M * (50 * eps)) by (apply mul_bound; auto; lra). assert (Q2 : Rabs ((x - D) * z) <= 2 * T * 1) by (apply mul_bound; auto; lra).
      replace (3 * M * (50 * eps)) with (150 * T) in Q1 by (unfold T; ring). apply abs_le in Q1, Q2. apply abs_le. lra. }
    pose proof (G _ _ _ _ _ W0 N0 M0 B0 eq_refl) as G0. pose proof (G _ _ _ _ _ W1 N1 M1 B1 eq_refl) as G1. pose proof (G _ _ _ _ _ W2 N2 M2 B2 eq_refl) as G2.
    apply abs_le in G0, G1, G2, Es. apply abs_le. unfold d, plane_distance. fold N. unfold rdot, rsub, Rval3, map3 in *. cbn [c0 c1 c2] in *. lra. }
  apply abs_le in K. rewrite blt_spec by auto. change (Bval n0) with 0. unfold change in Ch. cbn [fst snd] in Ch.
  destruct (far_sides Ha) as [(S & _ & Ea)|(S & _ & Ea)]; destruct (far_sides Hb) as [(S' & _ & Eb)|(S' & _ & Eb)]; rewrite Ea, Eb in *; try discriminate Ch; [apply Rlt_bool_false|apply Rlt_bool_true]; lra.
Qed.
Lemma filter_one A (g : A -> bool) l : length (filter g l) = 1%nat -> exists S1 s S2, l = S1 ++ s :: S2 /\ g s = true /\ Forall (fun x => g x = false) S1 /\ Forall (fun x => g x = false) S2.
Proof.
  induction l as [|x l IH]; [discriminate|]. cbn. destruct (g x) eqn:E.
  - cbn. intros H. injection H as H. exists [], x, l. split; [reflexivity|]. split; [exact E|]. split; [constructor|]. apply Forall_forall. intros y I. destruct (g y) eqn:Y; [|reflexivity]. exfalso.
    assert (J : In y (filter g l)) by (apply filter_In; auto). destruct (filter g l); [exact J|discriminate].
  - intros H. destruct (IH H) as (S1 & s & S2 & -> & G & H1 & H2). exists (x :: S1), s, S2. split; [reflexivity|]. split; [exact G|]. split; [constructor; auto|exact H2].
Qed.
Lemma same_side l k x : Forall (fun s => change (front pl) s = false) (segs false (x :: l)) -> front pl x = k -> Forall (fun v => front pl v = k) (x :: l).
Proof.
  revert x. induction l as [|y l IH]; intros x H E; [constructor; auto|]. rewrite open_segs_cons in H. inversion H as [|? ? H1 H2]; subst. constructor; [reflexivity|]. apply IH; [exact H2|].
  unfold change in H1. cbn [fst snd] in H1. apply xorb_eq in H1. now symmetry.
Qed.
Lemma same_side_end l k x : Forall (fun s => change (front pl) s = false) (segs false (l ++ [x])) -> front pl x = k -> Forall (fun v => front pl v = k) (l ++ [x]).
Proof.
  intros H E. assert (F : exists y l', l ++ [x] = y :: l') by (destruct l as [|y l]; [exists x, []|exists y, (l ++ [x])]; reflexivity). destruct F as (y & l' & F). rewrite F in H |- *.
  pose proof (same_side H eq_refl) as G. assert (I : In x (y :: l')) by (rewrite <- F; apply in_app_iff; right; now left). rewrite Forall_forall in G. pose proof (G x I) as Q. apply Forall_forall. intros v Iv. rewrite (G v Iv). congruence.
Qed.
Lemma cut_open_far vs : Forall far vs -> changes (front pl) false vs = 1%nat ->
  exists l1 a b l2 x, vs = l1 ++ a :: b :: l2 /\ x = grow pl (a, b) /\ fin3b x = true /\
    (exists t, 0 <= t <= 1 /\ close3 (16 * T) x (lerp t (Rval3 a) (Rval3 b)) /\ Rabs (d x) <= 162 * T) /\
    ((Forall (fun v => d v < 0) (l1 ++ [a]) /\ Forall (fun v => 0 < d v) (b :: l2) /\ cut_by_plane (poly false vs) pl = Ok (poly false (x :: b :: l2))) \/
     (Forall (fun v => 0 < d v) (l1 ++ [a]) /\ Forall (fun v => d v < 0) (b :: l2) /\ cut_by_plane (poly false vs) pl = Ok (poly false (l1 ++ [a; x])))).
Proof.
  intros H C. destruct cut_T as (PM & PT & _). destruct (filter_one C) as (S1 & [a b] & S2 & E & G & H1 & H2). destruct (open_split E) as (l1 & l2 & -> & E1 & E2). subst S1 S2.
  assert (Oa : far a) by (apply (Logic.proj1 (Forall_forall _ _) H); apply in_app_iff; right; now left). assert (Ob : far b) by (apply (Logic.proj1 (Forall_forall _ _) H); apply in_app_iff; right; right; now left).
  assert (GC : forall S, incl S (segs false (l1 ++ a :: b :: l2)) -> Forall (fun s => change (front pl) s = false) S -> Forall (fun s => gcross pl s = false) S).
  { intros S I K. apply Forall_forall. intros [x y] J. rewrite Forall_forall in K. rewrite <- (K _ J). specialize (I _ J). apply segs_in in I as [Ix Iy]. rewrite Forall_forall in H. apply cross_change; apply far_off; auto. }
  assert (Gab : gcross pl (a, b) = true) by (rewrite cross_change; auto using far_off).
  exists l1, a, b, l2, (grow pl (a, b)). split; [reflexivity|]. split; [reflexivity|].
  assert (Wab : within M a /\ within M b) by (split; [apply Oa|apply Ob]). destruct Wab as [Wa Wb].
  destruct (grow_ap HM Wr Fn Un HP Wa Wb) as (t & Ht & Ct & Dt).
  { apply (gcross_spec HM Wr Fn Un HP Wa Wb). exact Gab. }
  { left. destruct (far_sides Oa) as [(_ & S & _)|(_ & S & _)]; lra. }
  split; [apply Ct|]. split; [exists t; auto|].
  assert (I1 : incl (segs false (l1 ++ [a])) (segs false (l1 ++ a :: b :: l2))) by (rewrite E; intros z Iz; apply in_app_iff; left; exact Iz).
  assert (I2 : incl (segs false (b :: l2)) (segs false (l1 ++ a :: b :: l2))) by (rewrite E; intros z Iz; apply in_app_iff; right; right; exact Iz).
  pose proof (@g_cut_open _ _ pl l1 a b l2 Gab (GC _ I1 H1) (GC _ I2 H2)) as Cut.
  rewrite (edge_dir Oa Ob G) in Cut.
  assert (Nv : numeric (l1 ++ a :: b :: l2) = true) by (apply far_numeric; auto). assert (Nx : numeric [grow pl (a, b)] = true) by (apply fin_numeric, Ct).
  assert (FF : Forall far (l1 ++ [a]) /\ Forall far (b :: l2)) by (replace (l1 ++ a :: b :: l2) with ((l1 ++ [a]) ++ b :: l2) in H by (rewrite <- app_assoc; reflexivity); apply Forall_app in H; exact H). destruct FF as [FF1 FF2].
  assert (Sd : forall l k, Forall far l -> Forall (fun v => front pl v = k) l -> if k then Forall (fun v => 0 < d v) l else Forall (fun v => d v < 0) l).
  { intros l k Q K. rewrite Forall_forall in Q, K. destruct k; apply Forall_forall; intros v I; [apply (far_front (Q v I))|apply (far_back (Q v I))]; apply K, I. }
  unfold change in G. cbn [fst snd] in G. destruct (front pl b) eqn:Fb.
  - left. assert (Fa : front pl a = false) by (destruct (front pl a); [discriminate|reflexivity]). split; [exact (Sd _ false FF1 (same_side_end H1 Fa))|]. split; [exact (Sd _ true FF2 (same_side H2 Fb))|].
    rewrite Cut. apply init_points_open. apply (numeric_incl (m := [grow pl (a, b)] ++ l1 ++ a :: b :: l2)); [|rewrite numeric_app, Nx, Nv; reflexivity].
    intros v [<-|I]; [now left|]. apply in_app_iff. right. apply in_app_iff. right. right. exact I.
  - right. assert (Fa : front pl a = true) by (destruct (front pl a); [reflexivity|discriminate]). split; [exact (Sd _ true FF1 (same_side_end H1 Fa))|]. split; [exact (Sd _ false FF2 (same_side H2 Fb))|].
    rewrite Cut. apply init_points_open. apply (numeric_incl (m := [grow pl (a, b)] ++ l1 ++ a :: b :: l2)); [|rewrite numeric_app, Nx, Nv; reflexivity].
    intros v I. apply in_app_iff in I as [I|[<-|[<-|[]]]]; [apply in_app_iff; right; apply in_app_iff; now left|apply in_app_iff; right; apply in_app_iff; right; now left|now left].
Qed.
Lemma cut_rejects c vs : Forall far vs -> changes (front pl) c vs <> (if c then 2 else 1)%nat -> cut_by_plane (poly c vs) pl = Err ValueError.
Proof.
  intros H C. assert (O : Forall (off pl) vs) by (eapply Forall_impl; [|exact H]; apply far_off). rewrite <- (cross_changes c O) in C. destruct c; [now apply g_cut_closed_rejects|now apply g_cut_open_rejects].
Qed.
Definition meet_at (a b x : V3 b64) : Prop := within M x /\ between3 (Rval3 a) (Rval3 b) (Rval3 x) /\ Rabs (d x) <= 1024 * T.
Lemma far_crossable vs : Forall far vs -> crossable pl meet_at vs.
Proof.
  intros H a b Ia Ib NE. rewrite Forall_forall in H. pose proof (H a Ia) as Ha. pose proof (H b Ib) as Hb. destruct cut_T as (PM & PT & ST & PE & SE). destruct (plane_fields Fn Un HP) as [E0 C]. pose proof (plane_unit Fn Un HP) as U. fold N in C, U.
  pose proof (close_within C U ltac:(lra)) as Wn. assert (Wr' : within M (pl_r0 pl)) by (rewrite E0; exact Wr).
  destruct (@crossing_found M HM pl Wr' Wn a b) as (x & Ex & Wx & Bx & Dx); [apply Ha|apply Hb|now apply far_clear|now apply far_clear| |].
  { destruct (far_sides Ha) as [(_ & S & Ea)|(_ & S & Ea)]; destruct (far_sides Hb) as [(_ & S' & Eb)|(_ & S' & Eb)]; rewrite Ea, Eb in NE; try (exfalso; apply NE; reflexivity); nra. }
  exists x. split; [exact Ex|]. split; [apply fin_numeric, Wx|]. split; [exact Wx|]. split; [exact Bx|].
  fold T in Dx. unfold exact_distance in Dx. rewrite E0 in Dx. destruct C as (_ & A0 & A1 & A2). destruct Wx as (_ & X0 & X1 & X2). pose proof Wr as (_ & T0 & T1 & T2). apply abs_le in X0, X1, X2, T0, T1, T2.
  assert (Z : forall s v w z, - M <= s <= M -> - M <= v <= M -> Rabs (w - z) <= 12 * eps -> Rabs ((s - v) * (w - z)) <= 24 * T).
  { intros s v w z Hs Hv Hw. replace (24 * T) with (2 * M * (12 * eps)) by (unfold T; ring). apply mul_bound; try nra; apply abs_le; lra. }
  pose proof (Z _ _ _ _ X0 T0 A0) as Q0. pose proof (Z _ _ _ _ X1 T1 A1) as Q1. pose proof (Z _ _ _ _ X2 T2 A2) as Q2. apply abs_le in Q0, Q1, Q2, Dx. apply abs_le.
  unfold d, plane_distance. fold N. unfold rdot, rsub, Rval3, map3 in *. cbn [c0 c1 c2] in *. lra.
Qed.
Lemma cut_closed_far vs : Forall far vs -> changes (front pl) true vs = 2%nat ->
  exists l1 l2 f0 fr b0 ba x y, vs = l1 ++ l2 /\ l2 ++ l1 = (f0 :: fr) ++ b0 :: ba /\ Forall (fun v => 0 < d v) (f0 :: fr) /\ Forall (fun v => d v < 0) (b0 :: ba) /\
    meet_at (last (b0 :: ba) b0) f0 x /\ meet_at (last (f0 :: fr) f0) b0 y /\ cut_by_plane (poly true vs) pl = Ok (poly false (x :: (f0 :: fr) ++ [y])).
Proof.
  intros H C. assert (O : Forall (off pl) vs) by (eapply Forall_impl; [|exact H]; apply far_off).
  destruct (cut_closed (far_numeric H) O (far_crossable H) C) as (ws & Cut & l1 & l2 & f0 & fr & b0 & ba & x & y & E & Ew & F1 & F2 & Q1 & Q2 & ->).
  assert (I : forall v, In v ((f0 :: fr) ++ b0 :: ba) -> far v) by (intros v I; rewrite <- Ew in I; rewrite Forall_forall in H; apply H; rewrite E; apply in_app_iff in I as [I|I]; apply in_app_iff; auto).
  exists l1, l2, f0, fr, b0, ba, x, y. split; [exact E|]. split; [exact Ew|].
  split; [apply Forall_forall; intros v Iv; rewrite Forall_forall in F1; apply (far_front (I v ltac:(apply in_app_iff; now left))), F1, Iv|].
  split; [apply Forall_forall; intros v Iv; rewrite Forall_forall in F2; apply (far_back (I v ltac:(apply in_app_iff; now right))), F2, Iv|]. auto.
Qed.
End Cut.
