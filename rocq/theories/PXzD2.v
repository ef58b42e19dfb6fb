(** * [rotate_to_xz_plane] in doubles: the points. *)
From Coq Require Import Reals ZArith List Bool Lra Lia Psatz.
From Flocq Require Import Core IEEE754.BinarySingleNaN.
From Verif Require Import Num B64 BLemmas Vec RVec VLemmas NpList MVx MRotation SpecGeom SpecRotation SpecDouble SpecTransD SpecTrigD SpecXzD PMat3 PRotation PErr PNormB PNormD PRodD PEulerD PSumD PMeanD PRigidD PXzD.
Import ListNotations.
Local Open Scope R_scope.
Set Implicit Arguments.
Unset Strict Implicit.
Local Notation eps := PErr.eps.

(** a computed norm above the threshold belongs to a vector that is not much shorter *)
Lemma norm_over v : fin3b v = true -> rnorm (Rval3 v) <= bpow radix2 400 -> nlt (nlit 1 100000) (vnorm v) = true -> 998 / 100000000 <= rnorm (Rval3 v).
Proof.
  intros F HU HL. destruct lit_val as [Fl Vl]. pose proof eps_tiny as SE. destruct (Rle_lt_dec (bpow radix2 (-30)) (rnorm (Rval3 v))) as [A|A].
  - destruct (norm_ap F) as [FN EN]. { split; [apply Rle_trans with (2 := A); apply bpow_le; lia|exact HU]. } rewrite (blt_spec Fl FN) in HL. revert HL. case Rlt_bool_spec; [|discriminate]. intros H _. apply abs_le in EN. pose proof (rnorm_pos (Rval3 v)). nra.
  - exfalso. change (bpow radix2 (-30)) with (/ 1073741824) in A. set (w := / 1000000000000000000). assert (MW : mid w). { split; [apply Rle_trans with (bpow radix2 (-60)); [apply bpow_le; lia|change (bpow radix2 (-60)) with (/ 1152921504606846976); unfold w; lra]|apply Rle_trans with (bpow radix2 0); [change (bpow radix2 0) with 1; unfold w; lra|apply bpow_le; lia]]. }
    assert (MW2 : mid (3 * w)). { split; [apply Rle_trans with (bpow radix2 (-60)); [apply bpow_le; lia|change (bpow radix2 (-60)) with (/ 1152921504606846976); unfold w; lra]|apply Rle_trans with (bpow radix2 0); [change (bpow radix2 0) with 1; unfold w; lra|apply bpow_le; lia]]. }
    assert (SQ : rnorm (Rval3 v) * rnorm (Rval3 v) <= w) by (pose proof (rnorm_pos (Rval3 v)); unfold w; nra). rewrite rnorm_sq in SQ. unfold rdot, Rval3, map3 in SQ. cbn [c0 c1 c2] in SQ. destruct (fin3b_all F) as (F0 & F1 & F2).
    assert (A0 : 0 <= Bval (c0 v) * Bval (c0 v)) by nra. assert (A1 : 0 <= Bval (c1 v) * Bval (c1 v)) by nra. assert (A2 : 0 <= Bval (c2 v) * Bval (c2 v)) by nra.
    destruct (@mul_ap (c0 v) (c0 v) w F0 F0 MW) as [P0 E0]; [apply abs_le; lra|]. destruct (@mul_ap (c1 v) (c1 v) w F1 F1 MW) as [P1 E1]; [apply abs_le; lra|]. destruct (@mul_ap (c2 v) (c2 v) w F2 F2 MW) as [P2 E2]; [apply abs_le; lra|].
    assert (EW : 0 <= eps * w <= / 1000 * w) by (assert (0 < w) by (unfold w; lra); split; nra). apply abs_le in E0, E1, E2.
    destruct (@add_ap _ _ (3 * w) P0 P1 MW2) as [S1 E3]; [apply abs_le; lra|]. apply abs_le in E3. destruct (@add_ap _ _ (3 * w) S1 P2 MW2) as [S2 E4]; [apply abs_le; lra|]. apply abs_le in E4.
    unfold vnorm, vdot in HL. set (s := nadd (nadd (nmul (c0 v) (c0 v)) (nmul (c1 v) (c1 v))) (nmul (c2 v) (c2 v))) in *. assert (US : Bval s <= 2 * w) by lra. clearbody s.
    destruct (Rtotal_order 0 (Bval s)) as [P|[P|P]].
    + destruct (bsqrt_val S2 P) as [V FN]. rewrite (blt_spec Fl FN), V in HL. revert HL. case Rlt_bool_spec; [|discriminate]. intros H _.
      assert (Q : sqrt (Bval s) <= 2 / 1000000000). { rewrite <- (sqrt_square (2 / 1000000000)) by lra. apply sqrt_le_1_alt. unfold w in US. lra. }
      assert (RR : Rabs (rnd64 (sqrt (Bval s)) - sqrt (Bval s)) <= eps * 1) by (apply rnd_err; [change 1 with (bpow radix2 0); apply bpow_le; lia|apply abs_le; pose proof (sqrt_pos (Bval s)); lra]). apply abs_le in RR. lra.
    + destruct (zero_inv S2 (eq_sym P)) as [b ->]. destruct b; vm_compute in HL; discriminate HL.
    + destruct s as [b|b| |b m e Hm]; try discriminate S2; [change (Bval (B754_zero b)) with 0 in P; lra|]. destruct b; [|].
      * change (nsqrt (B754_finite true m e Hm : b64)) with (B754_nan : b64) in HL. vm_compute in HL. discriminate HL.
      * unfold Bval, B2R in P. assert (G : 0 < F2R (Float radix2 (cond_Zopp false (Zpos m)) e)) by (apply F2R_gt_0; reflexivity). lra.
Qed.
Lemma norm_under v : fin3b v = true -> rnorm (Rval3 v) <= bpow radix2 400 -> nlt (nlit 1 100000) (vnorm v) = false -> rnorm (Rval3 v) <= 1002 / 100000000.
Proof.
  intros F HU HL. destruct lit_val as [Fl Vl]. pose proof eps_tiny as SE. destruct (Rle_lt_dec (bpow radix2 (-30)) (rnorm (Rval3 v))) as [A|A].
  - destruct (norm_ap F) as [FN EN]. { split; [apply Rle_trans with (2 := A); apply bpow_le; lia|exact HU]. } rewrite (blt_spec Fl FN) in HL. revert HL. case Rlt_bool_spec; [discriminate|]. intros H _. apply abs_le in EN. pose proof (rnorm_pos (Rval3 v)). nra.
  - change (bpow radix2 (-30)) with (/ 1073741824) in A. lra.
Qed.
(** a matrix of doubles applied to a point *)
Lemma image_ap D m X r Q (a : V3 b64) (A : V3 R) : 0 < X -> 0 <= D <= 1 / 100 -> 0 <= m <= X / 1000 -> close33 D r Q -> orthogonal Q -> close3 m a A -> coords_le X A ->
  (forall k, 1 <= k <= 16 -> mid (k * X)) -> close3 (3 * (D * X) + 4 * m + 13 * (eps * X)) (mapply r a) (rapply Q A).
Proof.
  intros PX HD Hm (R0 & R1 & R2) O CA (LA0 & LA1 & LA2) MM. pose proof eps_pos as PE. pose proof eps_small as SE. destruct (rrow_le O) as (Q0 & Q1 & Q2).
  apply nr3_close in CA. destruct CA as (A0 & A1 & A2).
  assert (DX : D * X <= / 100 * X) by (apply Rmult_le_compat_r; lra). assert (DX0 : 0 <= D * X) by nra. assert (Dm : D * m <= / 100 * m) by (apply Rmult_le_compat_r; lra). assert (Dm0 : 0 <= D * m) by nra. assert (EX : 0 <= eps * X) by nra. assert (EX1 : eps * X <= / 1000 * X) by (apply Rmult_le_compat_r; lra).
  assert (ROW : forall row Row, close3 D row Row -> coords_le 1 Row -> nr (3 * (D * X) + 4 * m + 13 * (eps * X)) (vdot row a) (rdot Row A)).
  { intros row Row CR (L0 & L1 & L2). apply nr3_close in CR. destruct CR as (N0 & N1 & N2).
    pose proof (nr_mul (B := 11 / 10 * X) N0 A0 L0 LA0 ltac:(lra) (MM (11 / 10) ltac:(lra))) as T0. pose proof (nr_mul (B := 11 / 10 * X) N1 A1 L1 LA1 ltac:(lra) (MM (11 / 10) ltac:(lra))) as T1. pose proof (nr_mul (B := 11 / 10 * X) N2 A2 L2 LA2 ltac:(lra) (MM (11 / 10) ltac:(lra))) as T2.
    assert (U0 : Rabs (c0 Row * c0 A) <= X) by (replace X with (1 * X) by ring; apply mul_bound; lra). assert (U1 : Rabs (c1 Row * c1 A) <= X) by (replace X with (1 * X) by ring; apply mul_bound; lra). assert (U2 : Rabs (c2 Row * c2 A) <= X) by (replace X with (1 * X) by ring; apply mul_bound; lra).
    set (p := D * X + m * (1 + D) + eps * (11 / 10 * X)) in *. assert (HP : p <= D * X + 101 / 100 * m + 11 / 10 * (eps * X)) by (unfold p; lra).
    pose proof (nr_add (B := 22 / 10 * X) T0 T1 U0 U1 ltac:(lra) (MM (22 / 10) ltac:(lra))) as S1. assert (U3 : Rabs (c0 Row * c0 A + c1 Row * c1 A) <= 2 * X) by (apply abs_le in U0, U1; apply abs_le; lra).
    pose proof (nr_add (B := 33 / 10 * X) S1 T2 U3 U2 ltac:(lra) (MM (33 / 10) ltac:(lra))) as S2. eapply nr_weak; [|exact S2]. lra. }
  apply nr_close; [exact (ROW _ _ R0 Q0)|exact (ROW _ _ R1 Q1)|exact (ROW _ _ R2 Q2)].
Qed.
(** heights over the plane become second coordinates *)
Lemma cauchy a b : Rabs (rdot a b) <= rnorm a * rnorm b.
Proof.
  pose proof (rnorm_pos a) as PA. pose proof (rnorm_pos b) as PB. pose proof (rnorm_sq a) as EA. pose proof (rnorm_sq b) as EB. assert (L : rdot a b * rdot a b <= rnorm a * rnorm b * (rnorm a * rnorm b)).
  { replace (rnorm a * rnorm b * (rnorm a * rnorm b)) with (rnorm a * rnorm a * (rnorm b * rnorm b)) by ring. rewrite EA, EB. destruct a as [a0 a1 a2], b as [b0 b1 b2]. unfold rdot. cbn [c0 c1 c2]. clear. pose proof (Rle_0_sqr (a0 * b1 - a1 * b0)). pose proof (Rle_0_sqr (a0 * b2 - a2 * b0)). pose proof (Rle_0_sqr (a1 * b2 - a2 * b1)). unfold Rsqr in *. nra. }
  assert (0 <= rnorm a * rnorm b) by nra. apply abs_le. split; nra.
Qed.
Lemma height_ap m N e v : rotation m -> 0 <= e -> coords_le e (rsub (rapply m N) ey) -> Rabs (c1 (rapply m v) - rdot N v) <= 2 * e * rnorm v.
Proof.
  intros [O _] Pe (E0 & E1 & E2). replace (c1 (rapply m v) - rdot N v) with (- rdot (rsub (rapply m N) ey) (rapply m v)).
  - rewrite Rabs_Ropp. eapply Rle_trans; [apply cauchy|]. rewrite orthogonal_norm by exact O. apply Rmult_le_compat_r; [apply rnorm_pos|]. now apply rnorm_small.
  - rewrite <- (orthogonal_dot N v O). set (p := rapply m N). set (q := rapply m v). clearbody p q. destruct p as [p0 p1 p2], q as [q0 q1 q2]. unfold rdot, rsub, ey. cbn [c0 c1 c2]. ring.
Qed.
Lemma forall2_map A B C (P : A -> B -> Prop) (Q : A -> C -> Prop) (h : B -> C) l k : Forall2 P l k -> (forall x y, P x y -> Q x (h y)) -> Forall2 Q l (map h k).
Proof. intros H K. induction H; cbn; constructor; auto. Qed.
Lemma forall2_both A B (P : A -> Prop) (R Q : A -> B -> Prop) l k : Forall P l -> Forall2 R l k -> (forall x y, P x -> R x y -> Q x y) -> Forall2 Q l k.
Proof. intros HP H K. induction H; inversion_clear HP; constructor; auto. Qed.
Lemma images_of A B (P : A -> B -> Prop) (h : A -> B) l : Forall (fun x => P x (h x)) l -> Forall2 P l (map h l).
Proof. induction 1; constructor; auto. Qed.
Lemma moved_ap X (ps : list (V3 b64)) : bpow radix2 (-180) <= X <= bpow radix2 180 -> Forall (within X) ps -> ps <> [] -> (Z.of_nat (length ps) <= 2 ^ 30)%Z ->
  let n := INR (length ps) in let g := centroid (map Rval3 ps) in
  exists ts p0 o, (if nlt (nlit 1 100000) (vnorm (vmean ps)) then let (t, p) := translation ps None in (t, Some p) else (ps, None)) = (ts, p0) /\
    Forall2 (fun p t => close3 ((n + 5) * (eps * X)) t (radd (Rval3 p) o) /\ coords_le (2 * X) (radd (Rval3 p) o)) ps ts /\
    (p0 = None /\ o = rzero /\ rnorm g <= 1002 / 100000000 + 2 * ((n + 2) * (eps * X)) \/
     exists f, p0 = Some f /\ o = rscale (-1) g /\ close3 ((n + 2) * (eps * X)) f o /\ 998 / 100000000 - 2 * ((n + 2) * (eps * X)) <= rnorm g).
Proof.
  intros HX H NE HL n g. pose proof eps_pos as PE. pose proof eps_small as SE. assert (PX : 0 < X) by (destruct HX as [H1 _]; pose proof (bpow_gt_0 radix2 (-180)); lra).
  assert (HM : span_ok X) by (split; [apply Rle_trans with (bpow radix2 (-180)); [apply bpow_le; lia|apply HX]|apply Rle_trans with (bpow radix2 180); [apply HX|apply bpow_le; lia]]).
  assert (HP : (0 < length ps)%nat) by (destruct ps; [contradiction|cbn; lia]). destruct (vmean_ap HM H HP HL) as (C & G0 & G1 & G2). fold n g in C, G0, G1, G2. pose proof (eps_n HL) as EN. fold n in EN. pose proof (pos_INR (length ps)) as PN. fold n in PN.
  assert (P0 : 0 < eps * X) by (apply Rmult_lt_0_compat; lra). assert (K : 0 <= (n + 2) * (eps * X) <= / 100 * X). { split; [apply Rmult_le_pos; lra|]. replace ((n + 2) * (eps * X)) with ((n * eps + 2 * eps) * X) by ring. apply Rmult_le_compat_r; lra. }
  pose proof (close_norm (Logic.proj1 K) C) as CN. assert (FC : fin3b (vmean ps) = true) by apply C. assert (GN : rnorm g <= 2 * X) by (apply rnorm_small; auto; lra).
  assert (HU : rnorm (Rval3 (vmean ps)) <= bpow radix2 400). { apply abs_le in CN. apply Rle_trans with (4 * X); [lra|]. apply Rle_trans with (bpow radix2 2 * bpow radix2 180); [change (bpow radix2 2) with 4; lra|]. rewrite <- bpow_plus. apply bpow_le. lia. }
  apply abs_le in CN. destruct (nlt (nlit 1 100000) (vnorm (vmean ps))) eqn:T.
  - destruct (translate_ap HM H NE HL) as (Cf & Cq & _). fold n g in Cf, Cq. unfold translation. set (f := vopp (vmean ps)) in *. exists (map (fun p => vadd p f) ps), (Some f), (rscale (-1) g). split; [reflexivity|]. split.
    + assert (J : Forall (fun p => close3 ((n + 5) * (eps * X)) (vadd p f) (radd (Rval3 p) (rscale (-1) g)) /\ coords_le (2 * X) (radd (Rval3 p) (rscale (-1) g))) ps).
      { apply Forall_forall. intros p Ip. pose proof (Logic.proj1 (Forall_forall _ _) Cq p Ip) as B. pose proof (Logic.proj1 (Forall_forall _ _) H p Ip) as (Fp & B0 & B1 & B2). assert (RE : radd (Rval3 p) (rscale (-1) g) = rsub (Rval3 p) g) by (destruct g as [g0 g1 g2]; unfold radd, rsub, rscale; cbn [c0 c1 c2]; f_equal; ring). rewrite RE. split; [exact B|].
        apply abs_le in B0, B1, B2, G0, G1, G2. unfold coords_le, rsub, Rval3, map3. cbn [c0 c1 c2]. repeat split; apply abs_le; lra. }
      apply images_of. exact J.
    + right. exists f. split; [reflexivity|]. split; [reflexivity|]. split; [exact Cf|]. pose proof (norm_over FC HU T). lra.
  - exists ps, None, rzero. split; [reflexivity|]. split.
    + clearbody n. clear -H PX P0 PN. assert (W : 0 <= (n + 5) * (eps * X)) by (apply Rmult_le_pos; lra). induction H as [|p ps' (Fp & B0 & B1 & B2) _ IH]; constructor; [|exact IH]. assert (RE : radd (Rval3 p) rzero = Rval3 p) by (unfold radd, rzero, Rval3, map3; cbn [c0 c1 c2]; f_equal; ring). rewrite RE. split.
      * split; [exact Fp|]. unfold Rval3, map3. cbn [c0 c1 c2]. rewrite !Rminus_eq_0, !Rabs_R0. repeat split; exact W.
      * unfold coords_le, Rval3, map3. cbn [c0 c1 c2]. repeat split; lra.
    + left. split; [reflexivity|]. split; [reflexivity|]. pose proof (norm_under FC HU T). lra.
Qed.
