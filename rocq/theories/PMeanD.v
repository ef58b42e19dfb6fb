(** * Sums, means and translations of points of doubles: proofs for property C159. *)
From Coq Require Import Reals ZArith List Bool Lra Lia Psatz.
From Flocq Require Import Core IEEE754.BinarySingleNaN.
From Verif Require Import Num B64 BLemmas Vec RVec VLemmas SpecGeom SpecDouble SpecSumD MRotation PErr PNormD PSumD PLine2D.
Import ListNotations.
Local Open Scope R_scope.
Set Implicit Arguments.
Unset Strict Implicit.
Local Notation eps := PErr.eps.

Lemma eps_n n : (Z.of_nat n <= 2 ^ 30)%Z -> INR n * eps <= / 1000000.
Proof. intros H. pose proof (len_real H) as L. pose proof eps_pos. rewrite eps_val in *. pose proof (pos_INR n). nra. Qed.
(** additions from the left onto a first value *)
Lemma fold_ap M l : span_ok M -> Forall (fun x => bfin x = true /\ Rabs (Bval x) <= M) l -> forall k s S, (Z.of_nat (k + length l) <= 2 ^ 30)%Z ->
  bfin s = true -> Rabs S <= INR k * M -> Rabs (Bval s - S) <= 6 / 10 * (eps * (INR k * (INR k + 1) * M)) ->
  let r := fold_left nadd l s in let n := INR (k + length l) in
  bfin r = true /\ Rabs (Bval r - (S + rsum (map Bval l))) <= 6 / 10 * (eps * (n * (n + 1) * M)) /\ Rabs (S + rsum (map Bval l)) <= n * M.
Proof.
  intros HM H. pose proof (span_pos HM) as PM. pose proof eps_pos as PE. induction H as [|x l [Fx Bx] _ IH]; intros k s S Hk Fs BS Es; cbv zeta.
  - cbn [fold_left map length]. rewrite Nat.add_0_r. change (rsum []) with 0. rewrite Rplus_0_r. auto.
  - cbn [fold_left map length] in *. replace (k + Datatypes.S (length l))%nat with (Datatypes.S k + length l)%nat in * by lia.
    assert (K1 : INR (Datatypes.S k) = INR k + 1) by apply S_INR. pose proof (pos_INR k) as PK.
    assert (Kn : INR (Datatypes.S k) * eps <= / 1000000) by (apply eps_n; lia). rewrite K1 in Kn.
    assert (E1 : 6 / 10 * (eps * (INR k * (INR k + 1) * M)) <= 1 / 100 * ((INR k + 1) * M)).
    { replace (6 / 10 * (eps * (INR k * (INR k + 1) * M))) with (6 / 10 * ((INR k * eps) * ((INR k + 1) * M))) by ring. assert (0 <= (INR k + 1) * M) by nra. assert (INR k * eps <= / 1000000) by nra. nra. }
    apply abs_le in BS. apply abs_le in Bx. pose proof Es as Es'. apply abs_le in Es'. assert (HB : Rabs (Bval s + Bval x) <= 11 / 10 * ((INR k + 1) * M)) by (apply abs_le; nra).
    assert (Mb : mid (11 / 10 * ((INR k + 1) * M))).
    { destruct HM as [M1 M2]. assert (L30 : INR (Datatypes.S k) <= 1073741824) by (apply len_real; lia). rewrite K1 in L30. split.
      - apply Rle_trans with (bpow radix2 (-400)); [apply bpow_le; lia|nra].
      - apply Rle_trans with (bpow radix2 31 * bpow radix2 400); [|rewrite <- bpow_plus; apply bpow_le; lia]. change (bpow radix2 31) with 2147483648. replace (11 / 10 * ((INR k + 1) * M)) with (11 / 10 * (INR k + 1) * M) by ring. apply Rmult_le_compat; lra. }
    destruct (add_ap Fs Fx Mb HB) as [Fa Ea]. apply abs_le in Ea.
    destruct (IH (Datatypes.S k) (nadd s x) (S + Bval x)) as (F & E & Bd); auto.
    + rewrite K1. apply abs_le. nra.
    + rewrite K1. assert (EQ : 6 / 10 * (eps * ((INR k + 1) * (INR k + 1 + 1) * M)) = 6 / 10 * (eps * (INR k * (INR k + 1) * M)) + 12 / 10 * (eps * ((INR k + 1) * M))) by field. apply abs_le. rewrite EQ.
      assert (0 <= eps * ((INR k + 1) * M)) by (apply Rmult_le_pos; [lra|nra]). lra.
    + cbv zeta in *. change (rsum (Bval x :: map Bval l)) with (Bval x + rsum (map Bval l)). rewrite <- Rplus_assoc. auto.
Qed.
Lemma nsum_ap M l : span_ok M -> Forall (fun x => bfin x = true /\ Rabs (Bval x) <= M) l -> (Z.of_nat (length l) <= 2 ^ 30)%Z ->
  let n := INR (length l) in bfin (nsum l) = true /\ Rabs (Bval (nsum l) - rsum (map Bval l)) <= 6 / 10 * (eps * (n * (n + 1) * M)) /\ Rabs (rsum (map Bval l)) <= n * M.
Proof.
  intros HM H HL n. destruct (@fold_ap M l HM H 0%nat n0 0) as (F & E & B); auto.
  - cbn [INR]. rewrite Rabs_R0. lra.
  - change (Bval n0) with 0. cbn [INR]. replace (0 - 0) with 0 by ring. rewrite Rabs_R0. lra.
  - cbn [plus] in E, B. rewrite Rplus_0_l in E, B. auto.
Qed.
Lemma mean_ap M l : span_ok M -> Forall (fun x => bfin x = true /\ Rabs (Bval x) <= M) l -> (0 < length l)%nat -> (Z.of_nat (length l) <= 2 ^ 30)%Z ->
  let m := ndiv (nsum l) (nofZ (Z.of_nat (length l))) in
  bfin m = true /\ Rabs (Bval m - rsum (map Bval l) / INR (length l)) <= (INR (length l) + 2) * (eps * M) /\ Rabs (rsum (map Bval l) / INR (length l)) <= M.
Proof.
  intros HM H HP HL m. destruct (nsum_ap HM H HL) as (F & E & B). set (n := INR (length l)) in *. set (s := rsum (map Bval l)) in *.
  assert (N1 : 1 <= n) by (change 1 with (INR 1); apply le_INR; lia). pose proof (eps_n HL) as EN. fold n in EN. pose proof (span_pos HM) as PM. pose proof eps_pos as PE.
  destruct (@int_val (Z.of_nat (length l))) as [Fi Vi]; [lia|]. rewrite <- INR_IZR_INZ in Vi. fold n in Vi.
  assert (Bs : Rabs (s / n) <= M). { unfold Rdiv. rewrite Rabs_mult, (Rabs_pos_eq (/ n)) by (apply Rlt_le, Rinv_0_lt_compat; lra). apply Rmult_le_reg_r with n; [lra|]. rewrite Rmult_assoc, Rinv_l, Rmult_1_r by lra. lra. }
  assert (Ed : Rabs (Bval (nsum l) / n - s / n) <= 6 / 10 * (eps * ((n + 1) * M))).
  { replace (Bval (nsum l) / n - s / n) with ((Bval (nsum l) - s) * / n) by (field; lra). rewrite Rabs_mult, (Rabs_pos_eq (/ n)) by (apply Rlt_le, Rinv_0_lt_compat; lra). apply Rmult_le_reg_r with n; [lra|]. rewrite Rmult_assoc, Rinv_l, Rmult_1_r by lra. replace (6 / 10 * (eps * ((n + 1) * M)) * n) with (6 / 10 * (eps * (n * (n + 1) * M))) by ring. exact E. }
  assert (Sm : 6 / 10 * (eps * ((n + 1) * M)) <= 1 / 100 * M). { replace (6 / 10 * (eps * ((n + 1) * M))) with (6 / 10 * (n * eps + eps) * M) by ring. apply Rmult_le_compat_r; [lra|]. pose proof eps_small. lra. }
  apply abs_le in Bs. apply abs_le in Ed. assert (HB : Rabs (Bval (nsum l) / Bval (nofZ (Z.of_nat (length l)))) <= 11 / 10 * M) by (rewrite Vi; apply abs_le; lra).
  destruct (@div_ap (nsum l) (nofZ (Z.of_nat (length l))) (11 / 10 * M) F) as [Fd Dd]; auto.
  - apply rel_mid; [|lra]. destruct HM as [M1 M2]. split; [eapply Rle_trans; [|exact M1]|eapply Rle_trans; [exact M2|]]; apply bpow_le; lia.
  - rewrite Vi. lra.
  - fold m in Fd, Dd. rewrite Vi in Dd. apply abs_le in Dd. split; [exact Fd|]. split; [|apply abs_le; lra]. apply abs_le. assert (0 <= eps * M) by (apply Rmult_le_pos; lra). assert (0 <= n * (eps * M)) by (apply Rmult_le_pos; lra). lra.
Qed.

Lemma vsum_comps (ps : list (V3 b64)) : vsum ps = mk3 (nsum (map c0 ps)) (nsum (map c1 ps)) (nsum (map c2 ps)).
Proof.
  unfold vsum, nsum. assert (G : forall v : V3 b64, fold_left vadd ps v = mk3 (fold_left nadd (map c0 ps) (c0 v)) (fold_left nadd (map c1 ps) (c1 v)) (fold_left nadd (map c2 ps) (c2 v))); [|apply G].
  induction ps as [|p ps IH]; intros v; [now destruct v as [v0 v1 v2]|]. cbn [fold_left map]. rewrite IH. now destruct v as [v0 v1 v2], p as [p0 p1 p2].
Qed.
Lemma comps_in M (ps : list (V3 b64)) : Forall (within M) ps -> Forall (fun x => bfin x = true /\ Rabs (Bval x) <= M) (map c0 ps) /\ Forall (fun x => bfin x = true /\ Rabs (Bval x) <= M) (map c1 ps) /\ Forall (fun x => bfin x = true /\ Rabs (Bval x) <= M) (map c2 ps).
Proof.
  intros H. rewrite !Forall_map. split; [|split]; (eapply Forall_impl; [|exact H]; intros p W; destruct (within_fin W) as (F0 & F1 & F2); destruct W as (_ & B0 & B1 & B2); auto).
Qed.
Lemma vmean_ap M ps : span_ok M -> Forall (within M) ps -> (0 < length ps)%nat -> (Z.of_nat (length ps) <= 2 ^ 30)%Z ->
  close3 ((INR (length ps) + 2) * (eps * M)) (vmean ps) (centroid (map Rval3 ps)) /\ Rabs (c0 (centroid (map Rval3 ps))) <= M /\ Rabs (c1 (centroid (map Rval3 ps))) <= M /\ Rabs (c2 (centroid (map Rval3 ps))) <= M.
Proof.
  intros HM H HP HL. destruct (comps_in H) as (H0 & H1 & H2). unfold vmean. rewrite vsum_comps. unfold vdivs, map3, centroid. cbn [c0 c1 c2]. rewrite !map_map.
  destruct (@mean_ap M (map c0 ps) HM H0) as (F0 & E0 & B0); try (rewrite map_length; assumption). destruct (@mean_ap M (map c1 ps) HM H1) as (F1 & E1 & B1); try (rewrite map_length; assumption). destruct (@mean_ap M (map c2 ps) HM H2) as (F2 & E2 & B2); try (rewrite map_length; assumption).
  rewrite !map_map, !map_length in *. unfold Rdiv in *. split.
  - split; [unfold fin3b; cbn [c0 c1 c2]; now rewrite F0, F1, F2|]. cbn [c0 c1 c2 Rval3 map3]. auto.
  - auto.
Qed.
Lemma close_in e X v w : close3 e v w -> Rabs (c0 w) <= X -> Rabs (c1 w) <= X -> Rabs (c2 w) <= X -> within (X + e) v.
Proof. intros (F & E0 & E1 & E2) B0 B1 B2. split; [exact F|]. apply abs_le in E0, E1, E2, B0, B1, B2. split; [|split]; apply abs_le; lra. Qed.
Lemma opp3 (v : V3 b64) : fin3b (vopp v) = fin3b v /\ Rval3 (vopp v) = rscale (-1) (Rval3 v).
Proof.
  destruct v as [x y z]. unfold fin3b, Rval3, vopp, map3, rscale. cbn [c0 c1 c2]. destruct (opp_val x) as [-> ->]. destruct (opp_val y) as [-> ->]. destruct (opp_val z) as [-> ->]. split; [reflexivity|]. f_equal; ring.
Qed.
Lemma vadd_ap X v w : mid X -> fin3b v = true -> fin3b w = true -> Rabs (Bval (c0 v) + Bval (c0 w)) <= X -> Rabs (Bval (c1 v) + Bval (c1 w)) <= X -> Rabs (Bval (c2 v) + Bval (c2 w)) <= X ->
  close3 (eps * X) (vadd v w) (radd (Rval3 v) (Rval3 w)).
Proof.
  intros HX Fv Fw B0 B1 B2. destruct v as [x y z], w as [a b c]. unfold fin3b in Fv, Fw. cbn [c0 c1 c2] in *. apply andb_prop in Fv as [Fv Fz]. apply andb_prop in Fv as [Fx Fy]. apply andb_prop in Fw as [Fw Fc]. apply andb_prop in Fw as [Fa Fb].
  destruct (add_ap Fx Fa HX B0) as [G0 E0]. destruct (add_ap Fy Fb HX B1) as [G1 E1]. destruct (add_ap Fz Fc HX B2) as [G2 E2]. unfold close3, vadd, zip3, radd, Rval3, map3, fin3b. cbn [c0 c1 c2]. rewrite G0, G1, G2. auto.
Qed.
Lemma span_mid M k : span_ok M -> 1 <= k <= 1000 -> mid (k * M).
Proof. intros [M1 M2] K. apply rel_mid; [|exact K]. split; [eapply Rle_trans; [|exact M1]|eapply Rle_trans; [exact M2|]]; apply bpow_le; lia. Qed.
Lemma rsum_shift (l : list R) c : rsum (map (fun x => x - c) l) = rsum l - INR (length l) * c.
Proof. induction l as [|x l IH]; [cbn; lra|]. cbn [map rsum length]. rewrite IH, S_INR. lra. Qed.
Lemma rsum_near e (l k : list R) : Forall2 (fun x y => Rabs (x - y) <= e) l k -> Rabs (rsum l - rsum k) <= INR (length l) * e.
Proof. induction 1 as [|x y l k H _ IH]; [cbn; rewrite Rminus_eq_0, Rabs_R0; lra|]. cbn [rsum]. change (length (x :: l)) with (S (length l)). rewrite S_INR. apply abs_le in H, IH. apply abs_le. lra. Qed.
Lemma centred_comp e (f : V3 R -> R) (ps : list (V3 R)) (qs : list (V3 R)) c : Forall2 (fun p q => Rabs (f q - (f p - c)) <= e) ps qs -> ps <> [] -> c = rsum (map f ps) / INR (length ps) -> Rabs (rsum (map f qs) / INR (length qs)) <= e.
Proof.
  intros H NE Ec. assert (L : length qs = length ps) by (clear -H; induction H; cbn; congruence). assert (N : 0 < INR (length ps)) by (apply lt_0_INR; destruct ps; [contradiction|cbn; lia]).
  assert (G : Forall2 (fun x y => Rabs (x - y) <= e) (map f qs) (map (fun x => x - c) (map f ps))) by (clear -H; induction H; cbn; constructor; auto). apply rsum_near in G. rewrite rsum_shift, !map_length, L in G.
  replace (rsum (map f ps) - INR (length ps) * c) with 0 in G by (rewrite Ec; field; lra). rewrite Rminus_0_r in G. rewrite L. unfold Rdiv. rewrite Rabs_mult, (Rabs_pos_eq (/ _)) by (apply Rlt_le, Rinv_0_lt_compat; exact N).
  apply Rmult_le_reg_r with (INR (length ps)); [exact N|]. rewrite Rmult_assoc, Rinv_l, Rmult_1_r by lra. lra.
Qed.
Lemma translate_ap M ps : span_ok M -> Forall (within M) ps -> ps <> [] -> (Z.of_nat (length ps) <= 2 ^ 30)%Z ->
  let n := INR (length ps) in let g := centroid (map Rval3 ps) in let f := vopp (vmean ps) in let qs := map (fun p => vadd p f) ps in
  close3 ((n + 2) * (eps * M)) f (rscale (-1) g) /\ Forall (fun p => close3 ((n + 5) * (eps * M)) (vadd p f) (rsub (Rval3 p) g)) ps /\
  Forall (fun p => close3 (4 * (eps * M)) (vadd (vadd p f) (vopp f)) (Rval3 p)) ps.
Proof.
  intros HM H NE HL n g f qs. assert (HP : (0 < length ps)%nat) by (destruct ps; [contradiction|cbn; lia]). destruct (vmean_ap HM H HP HL) as (C & G0 & G1 & G2). fold n g in C, G0, G1, G2.
  pose proof (span_pos HM) as PM. pose proof eps_pos as PE. pose proof eps_small as SE. pose proof (eps_n HL) as EN. fold n in EN. assert (N1 : 1 <= n) by (change 1 with (INR 1); apply le_INR; lia).
  destruct (opp3 (vmean ps)) as [Ff Vf]. fold f in Ff, Vf.
  assert (Cf : close3 ((n + 2) * (eps * M)) f (rscale (-1) g)).
  { destruct C as (Fm & E0 & E1 & E2). split; [now rewrite Ff|]. assert (V : c0 (Rval3 f) = - Bval (c0 (vmean ps)) /\ c1 (Rval3 f) = - Bval (c1 (vmean ps)) /\ c2 (Rval3 f) = - Bval (c2 (vmean ps))) by (rewrite Vf; unfold rscale, Rval3, map3; cbn [c0 c1 c2]; repeat split; ring).
    destruct V as (V0 & V1 & V2). cbn [Rval3 map3 c0 c1 c2] in V0, V1, V2. rewrite V0, V1, V2. unfold rscale. cbn [c0 c1 c2]. apply abs_le in E0, E1, E2. split; [|split]; apply abs_le; lra. }
  clear qs. clearbody f. split; [exact Cf|].
  assert (K : (n + 2) * (eps * M) <= 1 / 1000 * M). { replace ((n + 2) * (eps * M)) with ((n * eps + 2 * eps) * M) by ring. apply Rmult_le_compat_r; lra. } assert (KE : eps * M <= 1 / 1000 * M) by (apply Rmult_le_compat_r; lra).
  assert (P0 : 0 <= eps * M) by (apply Rmult_le_pos; lra).
  destruct Cf as (Fin & D0 & D1 & D2). unfold rscale in D0, D1, D2. cbn [c0 c1 c2] in D0, D1, D2. apply abs_le in D0, D1, D2, G0, G1, G2.
  assert (S : Forall (fun p => close3 (eps * (201 / 100 * M)) (vadd p f) (radd (Rval3 p) (Rval3 f))) ps).
  { eapply Forall_impl; [|exact H]. intros p (Fp & B0 & B1 & B2). apply abs_le in B0, B1, B2. apply vadd_ap; auto; [apply span_mid; [exact HM|lra]|..]; apply abs_le; lra. }
  split; rewrite Forall_forall in *; intros p Ip; specialize (H p Ip); specialize (S p Ip); destruct H as (Fp & B0 & B1 & B2); apply abs_le in B0, B1, B2; destruct S as (Fs & S0 & S1 & S2); unfold radd in S0, S1, S2; cbn [c0 c1 c2 Rval3 map3] in S0, S1, S2; apply abs_le in S0, S1, S2.
  - split; [exact Fs|]. unfold rsub, radd, Rval3, map3. cbn [c0 c1 c2]. assert (0 <= n * (eps * M)) by (apply Rmult_le_pos; lra). split; [|split]; apply abs_le; lra.
  - destruct (opp3 f) as [Fo Vo]. assert (V : Bval (c0 (vopp f)) = - Bval (c0 f) /\ Bval (c1 (vopp f)) = - Bval (c1 f) /\ Bval (c2 (vopp f)) = - Bval (c2 f)) by (split; [exact (Logic.proj2 (opp_val (c0 f)))|split; [exact (Logic.proj2 (opp_val (c1 f)))|exact (Logic.proj2 (opp_val (c2 f)))]]). destruct V as (V0 & V1 & V2).
    destruct (@vadd_ap (101 / 100 * M) (vadd p f) (vopp f)) as (Fq & Q0 & Q1 & Q2); [apply span_mid; [exact HM|lra]|exact Fs|now rewrite Fo|rewrite V0; apply abs_le; lra|rewrite V1; apply abs_le; lra|rewrite V2; apply abs_le; lra|].
    unfold radd in Q0, Q1, Q2. cbn [c0 c1 c2 Rval3 map3] in Q0, Q1, Q2. rewrite V0 in Q0. rewrite V1 in Q1. rewrite V2 in Q2. apply abs_le in Q0, Q1, Q2. split; [exact Fq|]. unfold Rval3, map3. cbn [c0 c1 c2]. split; [|split]; apply abs_le; lra.
Qed.
