(** * Lengths of segments and their sum in binary64: error bounds. *)
From Coq Require Import Reals ZArith List Bool Lra Lia Psatz Permutation.
From Flocq Require Import Core IEEE754.BinarySingleNaN.
From Verif Require Import Num B64 BLemmas Vec RVec VLemmas SpecGeom SpecPoly MPolyline PSegment PPolyline SpecDouble PErr PFar PNormB PNormD SpecSumD.
Import ListNotations.
Local Open Scope R_scope.
Set Implicit Arguments.
Unset Strict Implicit.

Lemma rnd_half z B : bpow radix2 (-1022) <= B -> Rabs z <= B -> Rabs (rnd64 z - z) <= eps / 2 * B.
Proof.
  intros HB Hz. pose proof (bpow_gt_0 radix2 (-1022)) as P0. assert (P : 0 < B) by lra. unfold rnd64.
  apply Rle_trans with (1 := error_le_half_ulp radix2 (FLT_exp (-1074) 53) (fun x => negb (Z.even x)) z).
  assert (U : ulp radix2 (FLT_exp (-1074) 53) z <= ulp radix2 (FLT_exp (-1074) 53) B) by (apply ulp_le; [typeclasses eauto|typeclasses eauto|rewrite (Rabs_pos_eq B) by lra; exact Hz]).
  assert (V : ulp radix2 (FLT_exp (-1074) 53) B <= Rabs B * bpow radix2 (1 - 53)).
  { apply ulp_FLT_le. rewrite Rabs_pos_eq by lra. apply Rle_trans with (2 := HB). apply bpow_le. lia. }
  rewrite Rabs_pos_eq in V by lra. change (bpow radix2 (1 - 53)) with eps in V. lra.
Qed.

(** ** one segment *)
Lemma zero_inv (x : b64) : bfin x = true -> Bval x = 0 -> exists s, x = B754_zero s.
Proof.
  intros F V. destruct x as [s|s| |s m e H]; try discriminate F; [eauto|]. exfalso.
  assert (Z.pos m <> 0)%Z by lia. unfold Bval, B2R in V. apply eq_0_F2R in V. destruct s; cbn in V; lia.
Qed.
Lemma norm_zero v : fin3b v = true -> Rval3 v = rzero -> bfin (vnorm v) = true /\ Bval (vnorm v) = 0.
Proof.
  intros F V. destruct v as [x y z]. unfold fin3b in F. cbn [c0 c1 c2] in F. apply andb_prop in F. destruct F as [F Fz]. apply andb_prop in F. destruct F as [Fx Fy].
  unfold Rval3, map3, rzero in V. cbn [c0 c1 c2] in V. injection V as Vx Vy Vz.
  destruct (zero_inv Fx Vx) as [s ->]. destruct (zero_inv Fy Vy) as [t ->]. destruct (zero_inv Fz Vz) as [w ->].
  destruct s, t, w; split; reflexivity.
Qed.
Lemma sub_rel x y : bfin x = true -> bfin y = true -> forall B, bpow radix2 (-1000) <= B <= bpow radix2 1000 \/ B = 0 -> Rabs (Bval x - Bval y) <= B ->
  bfin (nsub x y) = true /\ Rabs (Bval (nsub x y) - (Bval x - Bval y)) <= eps * B.
Proof.
  intros Fx Fy B [HB|HB] H.
  - destruct (@sub_ap x y B Fx Fy HB H). auto.
  - subst B. assert (E : Bval x - Bval y = 0) by (apply abs_le in H; lra).
    assert (P1000 : 0 <= bpow radix2 1000) by apply bpow_ge_0.
    destruct (@bsub_val x y Fx Fy) as [V F]; [rewrite E, Rabs_R0; exact P1000|].
    change (nsub x y) with (bsub x y). split; [exact F|]. rewrite V, E. unfold rnd64. rewrite round_0 by typeclasses eauto. rewrite Rminus_0_r, Rabs_R0. lra.
Qed.
Definition seg_d (ab : V3 b64 * V3 b64) : b64 := vnorm (vsub (snd ab) (fst ab)).
Lemma seg_ap ab : ordinary_segment ab ->
  bfin (seg_d ab) = true /\ Rabs (Bval (seg_d ab) - seglen (Rvals ab)) <= 12 * eps * seglen (Rvals ab) /\
  (seglen (Rvals ab) = 0 \/ bpow radix2 (-390) <= seglen (Rvals ab) <= bpow radix2 390).
Proof.
  destruct ab as [a b]. intros (Fa & Fb & H). unfold seg_d, seglen, Rvals. cbn [fst snd] in *. set (X := rdist (Rval3 a) (Rval3 b)) in *.
  pose proof eps_pos as PE. pose proof eps_small as SE.
  assert (EX : X = rnorm (rsub (Rval3 b) (Rval3 a))) by (unfold X; rewrite rdist_sym; reflexivity).
  unfold fin3b in Fa, Fb. apply andb_prop in Fa, Fb. destruct Fa as [Fa A2], Fb as [Fb B2]. apply andb_prop in Fa, Fb. destruct Fa as [A0 A1], Fb as [B0 B1].
  assert (RX : bpow radix2 (-1000) <= X <= bpow radix2 1000 \/ X = 0).
  { destruct H as [H|[L U]].
    - right. rewrite EX, H. unfold rnorm, rdot, rsub. cbn [c0 c1 c2]. rewrite !Rminus_eq_0, Rmult_0_l, !Rplus_0_r. apply sqrt_0.
    - left. split; [apply Rle_trans with (2 := L)|apply Rle_trans with (1 := U)]; apply bpow_le; lia. }
  destruct (comp_le (rsub (Rval3 b) (Rval3 a))) as (L0 & L1 & L2). rewrite <- EX in L0, L1, L2. unfold rsub, Rval3, map3 in L0, L1, L2. cbn [c0 c1 c2] in L0, L1, L2.
  destruct (sub_rel B0 A0 RX L0) as [F0 E0]. destruct (sub_rel B1 A1 RX L1) as [F1 E1]. destruct (sub_rel B2 A2 RX L2) as [F2 E2].
  assert (Fd : fin3b (vsub b a) = true) by (unfold fin3b, vsub, map3, zip3; cbn [c0 c1 c2]; now rewrite F0, F1, F2).
  assert (PX : 0 <= X) by (rewrite EX; apply rnorm_pos).
  assert (C : close3 (eps * X) (vsub b a) (rsub (Rval3 b) (Rval3 a))) by (split; [exact Fd|]; unfold vsub, zip3, rsub, Rval3, map3; cbn [c0 c1 c2]; auto).
  destruct RX as [RX|Z].
  - destruct H as [H|H].
    { exfalso. destruct RX as [RX _]. pose proof (bpow_gt_0 radix2 (-1000)). rewrite EX, H in RX. unfold rnorm, rdot, rsub in RX. cbn [c0 c1 c2] in RX. rewrite !Rminus_eq_0, Rmult_0_l, !Rplus_0_r, sqrt_0 in RX. lra. }
    apply close_norm in C; [|nra]. rewrite <- EX in C. set (Y := rnorm (Rval3 (vsub b a))) in *. apply abs_le in C.
    assert (P0 : 0 < X) by (pose proof (bpow_gt_0 radix2 (-390)); lra). assert (EE : eps * X <= X / 1000000) by nra. assert (EP : 0 < eps * X) by nra.
    assert (S : span_ok Y).
    { assert (Q1 : bpow radix2 (-390) = 1024 * bpow radix2 (-400)) by (change 1024 with (bpow radix2 10); rewrite <- bpow_plus; reflexivity).
      assert (Q2 : bpow radix2 400 = 1024 * bpow radix2 390) by (change 1024 with (bpow radix2 10); rewrite <- bpow_plus; reflexivity).
      pose proof (bpow_gt_0 radix2 (-400)). pose proof (bpow_gt_0 radix2 390). split; lra. }
    destruct (norm_ap Fd S) as [Fn En]. fold Y in En. split; [exact Fn|]. split; [|right; exact H]. apply abs_le in En. apply abs_le.
    assert (eps * Y <= eps * X + eps * X / 1000000) by nra. split; nra.
  - rewrite Z in *. destruct C as (_ & Z0 & Z1 & Z2). rewrite Rmult_0_r in Z0, Z1, Z2. destruct (comp_le (rsub (Rval3 b) (Rval3 a))) as (K0 & K1 & K2). rewrite <- EX in K0, K1, K2.
    apply abs_le in Z0, Z1, Z2, K0, K1, K2. destruct (@norm_zero (vsub b a) Fd) as [Fn Vn].
    + unfold Rval3, map3, rzero. f_equal; lra.
    + rewrite Vn. split; [exact Fn|]. split; [|now left]. rewrite Rminus_eq_0, Rabs_R0. lra.
Qed.

(** ** sums *)
Definition okay (x : b64) : Prop := bfin x = true /\ (Bval x = 0 \/ bpow radix2 (-400) <= Bval x <= bpow radix2 400).
Lemma rsum_app l k : rsum (l ++ k) = rsum l + rsum k.
Proof. induction l; cbn [app rsum]; lra. Qed.
Lemma rsum_perm l k : Permutation l k -> rsum l = rsum k.
Proof. induction 1; cbn [rsum]; lra. Qed.
Lemma sum_size l : Forall okay l -> rsum (map Bval l) = 0 \/ bpow radix2 (-400) <= rsum (map Bval l).
Proof.
  pose proof (bpow_gt_0 radix2 (-400)) as P. induction 1 as [|x l (_ & Hx) _ IH]; [now left|]. cbn [map rsum]. destruct Hx as [->|Hx]; [rewrite Rplus_0_l; exact IH|]. right. destruct IH; lra.
Qed.
Lemma sum_top l : Forall okay l -> rsum (map Bval l) <= INR (length l) * bpow radix2 400.
Proof.
  pose proof (bpow_gt_0 radix2 400) as P. induction 1 as [|x l (_ & Hx) _ IH]; [cbn; lra|]. cbn [map rsum length]. rewrite S_INR. destruct Hx; lra.
Qed.
Lemma sum_pos l : Forall okay l -> 0 <= rsum (map Bval l).
Proof. intros H. pose proof (bpow_gt_0 radix2 (-400)). destruct (sum_size H); lra. Qed.
Lemma summed_ne l s : summed l s -> (1 <= length l)%nat.
Proof. induction 1 as [|l k s t _ IH1 _ IH2|l k s P _ IH]; [cbn; lia|rewrite app_length; lia|now rewrite <- (Permutation_length P)]. Qed.
Lemma len_real n : (Z.of_nat n <= 2 ^ 30)%Z -> INR n <= 1073741824.
Proof. intros H. rewrite INR_IZR_INZ. apply (IZR_le _ (2 ^ 30)). exact H. Qed.

Lemma summed_ap l s : summed l s -> Forall okay l -> (Z.of_nat (length l) <= 2 ^ 30)%Z ->
  bfin s = true /\ Rabs (Bval s - rsum (map Bval l)) <= (INR (length l) - 1) * eps * rsum (map Bval l).
Proof.
  induction 1 as [x|l k s t Hl IHl Hk IHk|l k s P _ IH]; intros HF HL.
  - inversion HF as [|? ? [Fx _] _]; subst. split; [exact Fx|]. cbn. rewrite Rplus_0_r, Rminus_eq_0, Rabs_R0. lra.
  - apply Forall_app in HF. destruct HF as [HA HB]. rewrite app_length in *. apply summed_ne in Hl, Hk.
    destruct IHl as [Fs Es]; [exact HA|lia|]. destruct IHk as [Ft Et]; [exact HB|lia|]. rewrite map_app, rsum_app, plus_INR.
    pose proof (sum_pos HA) as PA. pose proof (sum_pos HB) as PB. set (A := rsum (map Bval l)) in *. set (B := rsum (map Bval k)) in *.
    assert (NA : 1 <= INR (length l)) by (apply (le_INR 1); lia). assert (NB : 1 <= INR (length k)) by (apply (le_INR 1); lia).
    assert (NT : INR (length l) + INR (length k) <= 1073741824) by (rewrite <- plus_INR; apply len_real; lia).
    assert (TP : A + B <= (INR (length l) + INR (length k)) * bpow radix2 400) by (generalize (sum_top HA), (sum_top HB); fold A B; intros; lra).
    set (n := INR (length l)) in *. set (m := INR (length k)) in *. pose proof eps_pos as PE. pose proof eps_val as VE.
    assert (G : Rabs (Bval s + Bval t - (A + B)) <= (n + m - 2) * eps * (A + B)).
    { apply abs_le in Es, Et. assert ((n - 1) * eps * A <= (n + m - 2) * eps * A) by (apply Rmult_le_compat_r; [exact PA|]; apply Rmult_le_compat_r; lra).
      assert ((m - 1) * eps * B <= (n + m - 2) * eps * B) by (apply Rmult_le_compat_r; [exact PB|]; apply Rmult_le_compat_r; lra). apply abs_le. lra. }
    assert (SM : (n + m - 2) * eps <= / 1000000) by (rewrite VE; lra). assert (SP : 0 <= (n + m - 2) * eps) by (apply Rmult_le_pos; lra).
    apply abs_le in G. set (q := (n + m - 2) * eps) in *. assert (GT : (A + B) * q <= (A + B) / 1000000) by nra.
    pose proof (bpow_gt_0 radix2 (-400)) as P4. pose proof (bpow_gt_0 radix2 400) as P5.
    assert (Z : A + B = 0 \/ bpow radix2 (-400) <= A + B) by (generalize (sum_size HA), (sum_size HB); fold A B; intros; lra).
    assert (HI : 2 * (A + B) <= bpow radix2 1000).
    { apply Rle_trans with (bpow radix2 40 * bpow radix2 400); [|rewrite <- bpow_plus; apply bpow_le; lia]. change (bpow radix2 40) with 1099511627776. nra. }
    assert (BB : Rabs (Bval s + Bval t) <= 1001 / 1000 * (A + B)) by (apply abs_le; nra).
    change (nadd s t) with (badd s t). destruct (@badd_val s t Fs Ft) as [V F]; [lra|]. split; [exact F|]. rewrite V.
    assert (ER : Rabs (rnd64 (Bval s + Bval t) - (Bval s + Bval t)) <= eps / 2 * (1001 / 1000 * (A + B))).
    { destruct Z as [Z|Z].
      - rewrite Z in *. assert (E : Bval s + Bval t = 0) by (apply abs_le in BB; lra). rewrite E. unfold rnd64. rewrite round_0 by typeclasses eauto. rewrite Rminus_eq_0, Rabs_R0. lra.
      - apply rnd_half; [|exact BB]. apply Rle_trans with (bpow radix2 (-400)); [apply bpow_le; lia|lra]. }
    apply abs_le in ER. apply abs_le. assert (EA : 0 <= eps * (A + B)) by nra. replace ((n + m - 1) * eps * (A + B)) with (q * (A + B) + eps * (A + B)) by (unfold q; ring). lra.
  - rewrite <- (rsum_perm (Permutation_map Bval P)), <- (Permutation_length P). apply IH.
    + rewrite Forall_forall in *. intros x Hx. apply HF. now apply (Permutation_in x P).
    + now rewrite (Permutation_length P).
Qed.
Lemma nsum_summed l : summed (nofZ 0 :: l) (nsum l).
Proof.
  unfold nsum. change (@n0 b64 _) with (@nofZ b64 _ 0). enough (H : forall k s, summed k s -> summed (k ++ l) (fold_left nadd l s)) by exact (H [nofZ 0] _ (sum_one _)).
  induction l as [|x l IH]; intros k s H; [now rewrite app_nil_r|]. cbn [fold_left]. replace (k ++ x :: l) with ((k ++ [x]) ++ l) by (rewrite <- app_assoc; reflexivity). apply IH. apply sum_add; [exact H|constructor].
Qed.

(** ** a polyline *)
Lemma okay_seg ab : ordinary_segment ab -> okay (seg_d ab).
Proof.
  intros H. destruct (seg_ap H) as (F & E & Z). split; [exact F|]. set (X := seglen (Rvals ab)) in *. pose proof eps_pos. pose proof eps_small. apply abs_le in E. destruct Z as [Z|Z].
  - left. rewrite Z in E. lra.
  - right. assert (Q1 : bpow radix2 (-390) = 1024 * bpow radix2 (-400)) by (change 1024 with (bpow radix2 10); rewrite <- bpow_plus; reflexivity).
    assert (Q2 : bpow radix2 400 = 1024 * bpow radix2 390) by (change 1024 with (bpow radix2 10); rewrite <- bpow_plus; reflexivity).
    pose proof (bpow_gt_0 radix2 (-400)). pose proof (bpow_gt_0 radix2 390). assert (eps * X <= X / 1000000) by nra. lra.
Qed.
Lemma sum_segs l : Forall ordinary_segment l -> 0 <= rsum (map seglen (map Rvals l)) /\
  Rabs (rsum (map Bval (map seg_d l)) - rsum (map seglen (map Rvals l))) <= 12 * eps * rsum (map seglen (map Rvals l)).
Proof.
  induction 1 as [|ab l H _ [P IH]]; [cbn; rewrite Rminus_eq_0, Rabs_R0; lra|]. cbn [map rsum]. destruct (seg_ap H) as (_ & E & Z). pose proof (bpow_gt_0 radix2 (-390)).
  apply abs_le in E, IH. split; [destruct Z; lra|]. apply abs_le. lra.
Qed.
Lemma total_ap l s : Forall ordinary_segment l -> (Z.of_nat (length l) < 2 ^ 30)%Z -> summed (map seg_d l) s \/ summed (nofZ 0 :: map seg_d l) s ->
  bfin s = true /\ Rabs (Bval s - rsum (map seglen (map Rvals l))) <= (INR (length l) + 13) * eps * rsum (map seglen (map Rvals l)).
Proof.
  intros H HL HS. destruct (sum_segs H) as [PS ES]. assert (OK : Forall okay (map seg_d l)) by (apply Forall_map; revert H; apply Forall_impl; exact okay_seg).
  assert (Q : bfin s = true /\ Rabs (Bval s - rsum (map Bval (map seg_d l))) <= INR (length l) * eps * rsum (map Bval (map seg_d l))).
  { pose proof (sum_pos OK) as P0. pose proof eps_pos. destruct HS as [HS|HS].
    - destruct (summed_ap HS OK) as [F E]; [rewrite map_length; lia|]. split; [exact F|]. apply Rle_trans with (1 := E). rewrite map_length. apply Rmult_le_compat_r; [exact P0|]. apply Rmult_le_compat_r; lra.
    - destruct (summed_ap HS) as [F E].
      + constructor; [split; [reflexivity|left; reflexivity]|exact OK].
      + cbn [length]. rewrite map_length. lia.
      + split; [exact F|]. cbn [map rsum length] in E. change (Bval (nofZ 0)) with 0 in E. rewrite Rplus_0_l, S_INR, map_length in E. now replace (INR (length l)) with (INR (length l) + 1 - 1) by ring. }
  destruct Q as [F E]. split; [exact F|]. set (A := rsum (map Bval (map seg_d l))) in *. set (L := rsum (map seglen (map Rvals l))) in *. assert (PN := pos_INR (length l)). assert (NL := @len_real (length l) ltac:(lia)). set (n := INR (length l)) in *.
  pose proof eps_pos as PE. pose proof eps_val as VE. apply abs_le in ES, E. apply abs_le.
  assert (N0 : 0 <= n * eps <= / 1000000) by (rewrite VE; lra).
  assert (B : n * eps * A <= n * eps * L + eps * L).
  { assert (A <= L + 12 * eps * L) by lra. assert (n * eps * A <= n * eps * (L + 12 * eps * L)) by (apply Rmult_le_compat_l; lra). assert (0 <= eps * L) by nra. assert (n * eps * (12 * (eps * L)) <= / 1000000 * (12 * (eps * L))) by (apply Rmult_le_compat_r; lra). lra. }
  lra.
Qed.
