(** * Which data [find_rigid_transform] accepts in doubles: proofs for property C169. *)
From Coq Require Import Reals ZArith List Bool Lra Lia Psatz.
From Flocq Require Import Core IEEE754.BinarySingleNaN.
From Verif Require Import Num B64 BLemmas Vec RVec VLemmas NpList MVx MPlane MRotation MRigid SpecGeom SpecRotation SpecRigid SpecDouble SpecTransD SpecTrigD SpecRigidD PMat3 PRotation PRotation2 PErr PFar PNormB PSliceF PNormD PScaleD PLineD PLine2D PRodD PEulerD PRigid PRigid2 PSumD PMeanD PRigidD.
Import ListNotations.
Local Open Scope R_scope.
Set Implicit Arguments.
Unset Strict Implicit.
Local Notation eps := PErr.eps.

Section Form.
Context {F : Type} {N : Num F}.
Lemma transform_run svd a b c u s v : gram (map (fun p => vsub p (vmean a)) a) (map (fun p => vsub p (vmean b)) b) = Ok c -> svd c = Ok (u, s, v) ->
  find_rigid_transform svd (P3N a) (P3N b) =
  if nlt (mdet (mmul (mtrans v) (mtrans u))) n0 then
    if (neqb (c0 s) n0 || neqb (c1 s) n0 || neqb (c2 s) n0)%bool then Ok (turn_of u v, vsub (vmean b) (mapply (turn_of u v) (vmean a))) else Err ValueError
  else Ok (turn_of u v, vsub (vmean b) (mapply (turn_of u v) (vmean a))).
Proof.
  intros G E. unfold find_rigid_transform. cbn [as_columns bindr]. rewrite G. cbn [bindr]. rewrite E. cbn [bindr]. unfold turn_of. destruct (nlt _ _); [|reflexivity]. destruct (_ || _)%bool; reflexivity.
Qed.
End Form.
Definition entries_le (B : R) (m : M3 R) : Prop := coords_le B (c0 m) /\ coords_le B (c1 m) /\ coords_le B (c2 m).
Lemma triple_near B h x y z x' y' z' : 0 <= h <= B -> Rabs x <= B -> Rabs y <= B -> Rabs z <= B -> Rabs (x - x') <= h -> Rabs (y - y') <= h -> Rabs (z - z') <= h -> Rabs (x' * y' * z' - x * y * z) <= 7 * (B * B * h).
Proof.
  intros H X Y Z DX DY DZ. assert (Y' : Rabs y' <= 2 * B) by (apply abs_le in Y, DY; apply abs_le; lra). assert (Z' : Rabs z' <= 2 * B) by (apply abs_le in Z, DZ; apply abs_le; lra).
  rewrite Rabs_minus_sym in DX, DY, DZ.
  pose proof (@mul_bound _ _ (h * (2 * B)) (2 * B) ltac:(nra) ltac:(lra) (@mul_bound _ _ h (2 * B) ltac:(lra) ltac:(lra) DX Y') Z') as T1.
  pose proof (@mul_bound _ _ (B * h) (2 * B) ltac:(nra) ltac:(lra) (@mul_bound _ _ B h ltac:(lra) ltac:(lra) X DY) Z') as T2.
  pose proof (@mul_bound _ _ (B * B) h ltac:(nra) ltac:(lra) (@mul_bound _ _ B B ltac:(lra) ltac:(lra) X Y) DZ) as T3.
  apply abs_le in T1, T2, T3. apply abs_le. lra.
Qed.
Lemma rdet_le B G : 0 <= B -> entries_le B G -> Rabs (rdet G) <= 6 * (B * B * B).
Proof.
  intros P ((A0 & A1 & A2) & (B0 & B1 & B2) & (D0 & D1 & D2)). assert (K : forall x y z, Rabs x <= B -> Rabs y <= B -> Rabs z <= B -> - (B * B * B) <= x * y * z <= B * B * B).
  { intros x y z X Y Z. apply abs_le. exact (@mul_bound _ _ (B * B) B ltac:(nra) P (@mul_bound _ _ B B P P X Y) Z). }
  pose proof (K _ _ _ A0 B1 D2). pose proof (K _ _ _ A0 B2 D1). pose proof (K _ _ _ A1 B2 D0). pose proof (K _ _ _ A1 B0 D2). pose proof (K _ _ _ A2 B0 D1). pose proof (K _ _ _ A2 B1 D0). unfold rdet, rdot, rcross. cbn [c0 c1 c2]. apply abs_le. lra.
Qed.
Lemma rdet_near B h G C : 0 <= h <= B -> entries_le B G -> mnear h G C -> Rabs (rdet C - rdet G) <= 42 * (B * B * h).
Proof.
  intros H ((A0 & A1 & A2) & (B0 & B1 & B2) & (D0 & D1 & D2)) M. destruct G as [[a0 a1 a2] [b0 b1 b2] [e0 e1 e2]], C as [[f0 f1 f2] [g0 g1 g2] [h0 h1 h2]]. unfold mnear, coords_le, rsub in M. unfold rdet, rdot, rcross. cbn [c0 c1 c2] in *. destruct M as ((X0 & X1 & X2) & (Y0 & Y1 & Y2) & (Z0 & Z1 & Z2)).
  pose proof (triple_near H A0 B1 D2 X0 Y1 Z2) as T1. pose proof (triple_near H A0 B2 D1 X0 Y2 Z1) as T2. pose proof (triple_near H A1 B2 D0 X1 Y2 Z0) as T3. pose proof (triple_near H A1 B0 D2 X1 Y0 Z2) as T4. pose proof (triple_near H A2 B0 D1 X2 Y0 Z1) as T5. pose proof (triple_near H A2 B1 D0 X2 Y1 Z0) as T6.
  apply abs_le in T1, T2, T3, T4, T5, T6. apply abs_le. lra.
Qed.
Lemma svd_det C U s V : svd_of C U s V -> rdet C = rdet (base U V) * (c0 s * c1 s * c2 s).
Proof.
  intros (_ & _ & _ & _ & _ & ->). unfold base. rewrite !rdet_mul, !rdet_trans. replace (rdet (rdiag s)) with (c0 s * c1 s * c2 s); [ring|]. unfold rdiag, rdet, rdot, rcross. cbn [c0 c1 c2]. ring.
Qed.
Lemma gram_le Y (A B : list (V3 R)) : 0 <= Y -> Forall (coords_le Y) A -> Forall (coords_le Y) B -> length A = length B -> entries_le (INR (length A) * (Y * Y)) (cross_gram A B).
Proof.
  intros P HA HB EL. assert (K : forall f g : V3 R -> R, (forall v, coords_le Y v -> Rabs (f v) <= Y) -> (forall v, coords_le Y v -> Rabs (g v) <= Y) -> Rabs (rsum (map (fun pq => f (fst pq) * g (snd pq)) (combine A B))) <= INR (length A) * (Y * Y)).
  { intros f g Hf Hg. revert B HB EL. induction HA as [|p A Hp _ IH]; intros [|q B] HB EL; try discriminate EL; [cbn; rewrite Rabs_R0; lra|]. inversion HB; subst. cbn [combine map rsum fst snd]. change (length (p :: A)) with (S (length A)). rewrite S_INR.
    assert (I : Rabs (rsum (map (fun pq => f (fst pq) * g (snd pq)) (combine A B))) <= INR (length A) * (Y * Y)) by (apply IH; [assumption|now injection EL]). pose proof (@mul_bound _ _ Y Y P P (Hf p Hp) (Hg q ltac:(assumption))) as M. apply abs_le in I, M. apply abs_le. lra. }
  unfold entries_le, cross_gram. cbv zeta. repeat split; cbn [c0 c1 c2]; apply K; intros w (W0 & W1 & W2); assumption.
Qed.
Section Data.
Context (svd : @svd_t b64) (d tau X : R) (ps qs : list (V3 b64)).
Context (D : 0 <= d <= 1 / 1000) (PT : 0 <= tau) (HS : accurate_svd d tau svd) (HX : bpow radix2 (-180) <= X <= bpow radix2 180) (Wp : Forall (within X) ps) (Wq : Forall (within X) qs) (EL : length ps = length qs) (NE : ps <> []) (HL : (Z.of_nat (length ps) <= 2 ^ 30)%Z).
Let n := INR (length ps).
Let G := cross_gram (centred (map Rval3 ps)) (centred (map Rval3 qs)).
Lemma data_gram : exists c, gram (map (fun p => vsub p (vmean ps)) ps) (map (fun p => vsub p (vmean qs)) qs) = Ok c /\ (fin3b (c0 c) = true /\ fin3b (c1 c) = true /\ fin3b (c2 c) = true) /\ entries_le (4 * (n * (X * X))) G /\
  forall u s v, svd c = Ok (u, s, v) -> exists U V C, svd_of C U (Rval3 s) V /\ close33 d u U /\ close33 d v V /\ fin3b s = true /\ mnear (n * (X * X) * (404 / 100 * tau + 9 * (n + 5) * eps)) G C.
Proof.
  pose proof eps_pos as PE. pose proof eps_small as SE. assert (PX : 0 < X) by (destruct HX as [H1 _]; pose proof (bpow_gt_0 radix2 (-180)); lra).
  assert (NEq : qs <> []) by (destruct ps, qs; [contradiction|discriminate EL|discriminate EL|discriminate]). assert (HLq : (Z.of_nat (length qs) <= 2 ^ 30)%Z) by (rewrite <- EL; exact HL).
  pose proof (centre_ap HX Wp NE HL) as CP. pose proof (centre_ap HX Wq NEq HLq) as CQ. rewrite <- EL in CQ. cbv zeta in CP, CQ. fold n in CP, CQ.
  pose proof (pos_INR (length ps)) as PN. fold n in PN. pose proof (eps_n HL) as EN. fold n in EN. assert (PXX : 0 < X * X) by (apply Rmult_lt_0_compat; lra).
  set (e := (n + 5) * (eps * X)) in *. assert (He : 0 <= e <= 2 * X / 1000). { unfold e. split; [apply Rmult_le_pos; nra|]. replace ((n + 5) * (eps * X)) with ((n * eps + 5 * eps) * X) by ring. replace (2 * X / 1000) with (2 / 1000 * X) by field. apply Rmult_le_compat_r; lra. }
  assert (HY : bpow radix2 (-190) <= 2 * X <= bpow radix2 190).
  { split; [apply Rle_trans with (bpow radix2 (-180)); [apply bpow_le; lia|lra]|]. apply Rle_trans with (bpow radix2 1 * bpow radix2 180); [change (bpow radix2 1) with 2; lra|rewrite <- bpow_plus; apply bpow_le; lia]. }
  set (a := map (fun p => vsub p (vmean ps)) ps) in *. set (b := map (fun p => vsub p (vmean qs)) qs) in *. assert (La : length a = length ps) by apply map_length. assert (Lb : length b = length qs) by apply map_length.
  assert (EG : entries_le (4 * (n * (X * X))) G).
  { replace (4 * (n * (X * X))) with (INR (length (centred (map Rval3 ps))) * (2 * X * (2 * X))) by (unfold centred; rewrite !map_length; fold n; ring). apply gram_le; [lra| | |unfold centred; rewrite !map_length; exact EL].
    - clear -CP. induction CP as [|x y l k [_ H] _ IH]; constructor; auto.
    - clear -CQ. induction CQ as [|x y l k [_ H] _ IH]; constructor; auto. }
  destruct (@gram_ap e (2 * X) a b _ _ HY He ltac:(rewrite La; exact HL) ltac:(congruence) CP CQ) as (c & EGc & CG & W0 & W1 & W2). rewrite La in CG, W0, W1, W2. fold n in CG, W0, W1, W2. fold G in CG.
  exists c. split; [exact EGc|]. split; [destruct CG as ((? & _) & (? & _) & (? & _)); auto|]. split; [exact EG|]. intros u s v ES.
  set (g := n * (n + 3) * (eps * (2 * X * (2 * X))) + n * (201 / 100 * e * (2 * X))) in *.
  assert (EGV : g = n * (X * X) * ((4 * (n + 3) + 402 / 100 * (n + 5)) * eps)) by (unfold g, e; field). assert (PnX : 0 <= n * (X * X)) by nra. assert (Pg : 0 <= g) by (rewrite EGV; apply Rmult_le_pos; nra).
  assert (G9 : g <= 9 * (n * (X * X) * ((n + 5) * eps))). { rewrite EGV. replace (9 * (n * (X * X) * ((n + 5) * eps))) with (n * (X * X) * ((9 * (n + 5)) * eps)) by ring. apply Rmult_le_compat_l; [exact PnX|]. apply Rmult_le_compat_r; lra. }
  assert (G1 : g <= / 25 * (n * (X * X))). { eapply Rle_trans; [exact G9|]. replace (9 * (n * (X * X) * ((n + 5) * eps))) with ((9 * (n * eps) + 45 * eps) * (n * (X * X))) by ring. apply Rmult_le_compat_r; lra. }
  destruct (HS ES) as (U & V & C & SO & CU & CV & FS & HC). specialize (HC _ W0 W1 W2). exists U, V, C. split; [exact SO|]. split; [exact CU|]. split; [exact CV|]. split; [exact FS|].
  assert (Z : tau * (n * (2 * X * (2 * X)) + g) <= 404 / 100 * (tau * (n * (X * X)))) by (replace (404 / 100 * (tau * (n * (X * X)))) with (tau * (404 / 100 * (n * (X * X)))) by ring; apply Rmult_le_compat_l; lra).
  pose proof (near_near HC CG) as NN. assert (LE : tau * (n * (2 * X * (2 * X)) + g) + g <= n * (X * X) * (404 / 100 * tau + 9 * (n + 5) * eps)) by lra.
  destruct NN as ((N0 & N1 & N2) & (N3 & N4 & N5) & (N6 & N7 & N8)). repeat split; eapply Rle_trans; try eassumption.
Qed.
Let K := (n * (X * X)) * (n * (X * X)) * (n * (X * X)) * (2800 * tau + 6100 * (n + 5) * eps).
Lemma det_kept c u s v U V C : svd c = Ok (u, s, v) -> K < Rabs (rdet G) -> entries_le (4 * (n * (X * X))) G -> svd_of C U (Rval3 s) V -> mnear (n * (X * X) * (404 / 100 * tau + 9 * (n + 5) * eps)) G C -> Rabs (rdet C - rdet G) < Rabs (rdet G).
Proof.
  intros _ HK HG _ HM. pose proof eps_pos as PE. assert (PX : 0 < X) by (destruct HX as [H1 _]; pose proof (bpow_gt_0 radix2 (-180)); lra). assert (N1 : 1 <= n) by (unfold n; change 1 with (INR 1); apply le_INR; destruct ps; [contradiction|cbn; lia]).
  set (B := n * (X * X)) in *. assert (PB : 0 < B) by (unfold B; apply Rmult_lt_0_compat; nra). set (k := 404 / 100 * tau + 9 * (n + 5) * eps) in *. assert (Pk : 0 <= k) by (unfold k; assert (0 <= (n + 5) * eps) by nra; lra).
  assert (BBB : 0 < B * B * B) by exact (Rmult_lt_0_compat _ _ (Rmult_lt_0_compat _ _ PB PB) PB). assert (K1 : 672 * (B * B * B * k) <= K).
  { unfold K. replace (672 * (B * B * B * k)) with (B * B * B * (672 * k)) by ring. apply Rmult_le_compat_l; [lra|]. unfold k. assert (0 <= (n + 5) * eps) by nra. lra. }
  assert (Hk : k <= 4).
  { destruct (Rle_dec k 4) as [L|L]; [exact L|exfalso]. assert (B4 : 0 <= 4 * B) by lra. pose proof (rdet_le B4 HG) as U0. assert (B * B * B * 4 <= B * B * B * k) by (apply Rmult_le_compat_l; lra). lra. }
  assert (Hh : 0 <= B * k <= 4 * B) by (split; [apply Rmult_le_pos; lra|rewrite (Rmult_comm 4); apply Rmult_le_compat_l; lra]).
  pose proof (rdet_near Hh HG HM) as R1. assert (E42 : 42 * (4 * B * (4 * B) * (B * k)) = 672 * (B * B * B * k)) by ring. lra.
Qed.
Lemma data_accepts : K < rdet G -> (forall c, fin3b (c0 c) = true -> fin3b (c1 c) = true -> fin3b (c2 c) = true -> exists r, svd c = Ok r) -> exists r t, find_rigid_transform svd (P3N ps) (P3N qs) = Ok (r, t).
Proof.
  intros HK HT. destruct data_gram as (c & EG & (F0 & F1 & F2) & HG & HC). destruct (HT c F0 F1 F2) as [[[u s] v] ES]. destruct (HC u s v ES) as (U & V & C & SO & CU & CV & FS & NN). pose proof SO as (OU & OV & S0 & S1 & S2 & _).
  assert (K0 : 0 <= K). { pose proof eps_pos. assert (0 <= n) by apply pos_INR. unfold K. assert (PX : 0 < X) by (destruct HX as [H1 _]; pose proof (bpow_gt_0 radix2 (-180)); lra). apply Rmult_le_pos; [repeat apply Rmult_le_pos; lra|]. assert (0 <= (n + 5) * eps) by nra. lra. }
  assert (DK : Rabs (rdet C - rdet G) < Rabs (rdet G)) by (eapply det_kept; try eassumption; rewrite Rabs_pos_eq by lra; exact HK). rewrite (Rabs_pos_eq (rdet G)) in DK by lra. apply Rabs_def2 in DK. rewrite (svd_det SO) in DK.
  rewrite (transform_run EG ES). rewrite (core_sign D OU OV CU CV). destruct (base_det OU OV) as [B|B].
  - rewrite Rlt_bool_false by lra. eauto.
  - exfalso. rewrite B in DK. assert (0 <= c0 (Rval3 s) * c1 (Rval3 s) * c2 (Rval3 s)) by (repeat apply Rmult_le_pos; lra). lra.
Qed.
Lemma data_refuses : rdet G < - K -> forall r, find_rigid_transform svd (P3N ps) (P3N qs) <> Ok r.
Proof.
  intros HK r HR. destruct data_gram as (c & EG & (F0 & F1 & F2) & HG & HC).
  assert (K0 : 0 <= K). { pose proof eps_pos. assert (0 <= n) by apply pos_INR. unfold K. assert (PX : 0 < X) by (destruct HX as [H1 _]; pose proof (bpow_gt_0 radix2 (-180)); lra). apply Rmult_le_pos; [repeat apply Rmult_le_pos; lra|]. assert (0 <= (n + 5) * eps) by nra. lra. }
  destruct r as [r t]. pose proof (transform_form HR) as (a' & b' & c' & u & s & v & EA & EB & EG' & ES & _ & _ & EZ). cbn [as_columns] in EA, EB. injection EA as <-. injection EB as <-. rewrite EG in EG'. injection EG' as <-.
  destruct (HC u s v ES) as (U & V & C & SO & CU & CV & FS & NN). pose proof SO as (OU & OV & S0 & S1 & S2 & _).
  assert (DK : Rabs (rdet C - rdet G) < Rabs (rdet G)) by (eapply det_kept; try eassumption; rewrite Rabs_left by lra; lra). rewrite (Rabs_left (rdet G)) in DK by lra. apply Rabs_def2 in DK. rewrite (svd_det SO) in DK.
  assert (SP : 0 <= c0 (Rval3 s) * c1 (Rval3 s) * c2 (Rval3 s)) by (repeat apply Rmult_le_pos; lra). rewrite (core_sign D OU OV CU CV) in EZ. destruct (base_det OU OV) as [B|B]; rewrite B in *; [lra|].
  rewrite Rlt_bool_true in EZ by lra. rewrite (zero_third FS S0 S1 S2 (EZ eq_refl)) in DK. lra.
Qed.
End Data.
