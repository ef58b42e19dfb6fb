(** * line_intersect in binary64: the 2x2 system solved by elimination with pivoting. *)
From Coq Require Import Reals ZArith List Bool Lra Lia Psatz.
From Flocq Require Import Core IEEE754.BinarySingleNaN.
From Verif Require Import Num B64 BLemmas Vec RVec MPlane MSegment MSegmentD SpecDouble PErr PNormD PPlaneD PLineD PXsecD.
Local Open Scope R_scope.
Set Implicit Arguments.
Unset Strict Implicit.

Definition fair (B : R) : Prop := bpow radix2 (-450) <= B <= bpow radix2 450.
Lemma fair_pos B : fair B -> 0 < B.
Proof. intros [H _]. pose proof (bpow_gt_0 radix2 (-450)). lra. Qed.
Lemma fair_mid B k : fair B -> 1 <= k <= 1000 -> mid (k * B).
Proof. intros [H1 H2] Hk. apply rel_mid; [|exact Hk]. split; [apply Rle_trans with (2 := H1)|apply Rle_trans with (1 := H2)]; apply bpow_le; lia. Qed.
Lemma fair_mul a b : bpow radix2 (-225) <= a <= bpow radix2 225 -> bpow radix2 (-225) <= b <= bpow radix2 225 -> fair (a * b).
Proof. intros [A1 A2] [B1 B2]. pose proof (bpow_gt_0 radix2 (-225)). unfold fair. change (-450)%Z with (-225 + -225)%Z. change 450%Z with (225 + 225)%Z. rewrite !bpow_plus. split; apply Rmult_le_compat; lra. Qed.
(** a quotient, however it is formed *)
Definition quot_ok (q : b64 -> b64 -> b64) : Prop := forall a p B, bfin a = true -> bfin p = true -> fair (Rabs (Bval p)) -> fair B -> Rabs (Bval a / Bval p) <= B ->
  bfin (q a p) = true /\ Rabs (Bval (q a p) - Bval a / Bval p) <= 3 * (eps * B).
Lemma abs_nz x : 0 < Rabs x -> x <> 0.
Proof. intros H Z. rewrite Z, Rabs_R0 in H. lra. Qed.
Lemma div_quot : quot_ok ndiv.
Proof.
  intros a p B Fa Fp Hp HB H. pose proof (fair_pos HB) as PB. pose proof eps_pos as P0. destruct (@div_ap a p (1 * B) Fa) as [F D]; [apply fair_mid; [exact HB|lra]|apply abs_nz, fair_pos, Hp|lra|]. split; [exact F|]. apply Rle_trans with (1 := D). assert (0 < eps * B) by (apply Rmult_lt_0_compat; lra). lra.
Qed.
Lemma recip_quot : quot_ok reciprocal_quotient.
Proof.
  intros a p B Fa Fp Hp HB H. pose proof (fair_pos HB) as PB. pose proof eps_pos as P0. pose proof eps_small as S0. pose proof (fair_pos Hp) as Pp. pose proof (abs_nz Pp) as Np. destruct (int_val (z := 1)) as [F1 V1]; [lia|].
  set (P := Rabs (Bval p)) in *. assert (FI : fair (/ P)).
  { destruct Hp as [H1 H2]. split; [change (-450)%Z with (Z.opp 450)|change 450%Z with (Z.opp (-450))]; rewrite bpow_opp; apply Rinv_le; auto. apply bpow_gt_0. }
  assert (PI : 0 < / P) by now apply Rinv_0_lt_compat.
  destruct (@div_ap (nofZ 1) p (1 * / P) F1) as [Fi Ei]; [apply fair_mid; [exact FI|lra]|exact Np|rewrite V1; unfold Rdiv; rewrite !Rmult_1_l, Rabs_inv; apply Rle_refl|]. rewrite V1 in Ei. unfold reciprocal_quotient. set (i := ndiv (nofZ 1) p) in *.
  assert (Ha : Rabs (Bval a) = Rabs (Bval a / Bval p) * P) by (unfold P; rewrite <- Rabs_mult; f_equal; field; exact Np).
  assert (Q : Rabs (Bval a * Bval i - Bval a / Bval p) <= eps * B).
  { replace (Bval a * Bval i - Bval a / Bval p) with (Bval a * (Bval i - 1 / Bval p)) by (field; exact Np). rewrite Rabs_mult, Ha.
    apply Rle_trans with (B * P * (eps * (1 * / P))); [apply Rmult_le_compat; [apply Rmult_le_pos; [apply Rabs_pos|lra]|apply Rabs_pos|apply Rmult_le_compat_r; lra|exact Ei]|]. right. field. lra. }
  assert (EB : eps * B <= B / 1000000) by (apply Rle_trans with (/ 1000000000000 * B); [apply Rmult_le_compat_r; lra|lra]). apply abs_le in Q, H.
  destruct (@mul_ap a i (101 / 100 * B) Fa Fi) as [Fm Em]; [apply fair_mid; [exact HB|lra]|apply abs_le; lra|]. split; [exact Fm|]. apply abs_le in Em. apply abs_le. assert (0 < eps * B) by (apply Rmult_lt_0_compat; lra). lra.
Qed.

Section Elim.
Context (E M X : R) (HE : bpow radix2 (-150) <= E <= bpow radix2 150) (HM : bpow radix2 (-150) <= M <= bpow radix2 150) (HX : 0 <= X <= bpow radix2 200).
Let Y := M + X.
Context (quo1 quo2 : b64 -> b64 -> b64) (Q1 : quot_ok quo1) (Q2 : quot_ok quo2).
Context (p00 p01 p10 p11 r0 r1 : b64) (F00 : bfin p00 = true) (F01 : bfin p01 = true) (F10 : bfin p10 = true) (F11 : bfin p11 = true) (G0 : bfin r0 = true) (G1 : bfin r1 = true).
Let E' := 101 / 100 * E.
Let E'' := 10001 / 10000 * E.
Context (B00 : Rabs (Bval p00) <= E'') (B01 : Rabs (Bval p01) <= E'') (B10 : Rabs (Bval p10) <= E'') (B11 : Rabs (Bval p11) <= E'') (C0 : Rabs (Bval r0) <= 201 / 100 * (M * E)) (C1 : Rabs (Bval r1) <= 201 / 100 * (M * E)).
Context (PV : Rabs (Bval p10) <= Rabs (Bval p00)).
Let W := Bval p00 * Bval p11 - Bval p10 * Bval p01.
Context (D : R) (PD : bpow radix2 (-20) * (E * E) <= D <= 2 * (E * E)) (LW : 999 / 1000 * D <= Rabs W).
Context (x0 x1 d0 d1 : R) (S0 : Bval p00 * x0 + Bval p01 * x1 = Bval r0 + d0) (S1 : Bval p10 * x0 + Bval p11 * x1 = Bval r1 + d1).
Context (D0 : Rabs d0 <= 10 * (eps * (E * Y))) (D1 : Rabs d1 <= 10 * (eps * (E * Y))) (X0 : Rabs x0 <= X) (X1 : Rabs x1 <= X).
Let K := E * E / D.

Lemma e_pos : 0 < E /\ 0 < M /\ 0 < Y /\ M <= Y /\ X <= Y /\ 0 < D /\ E * E <= 1048576 * D /\ 0 < E * E.
Proof.
  pose proof (bpow_gt_0 radix2 (-150)). assert (0 < E * E) by (apply Rmult_lt_0_compat; lra). change (bpow radix2 (-20)) with (/ 1048576) in PD. unfold Y. repeat split; lra.
Qed.
Lemma e_K : / 2 <= K <= 1048576 /\ E * E = K * D.
Proof.
  destruct e_pos as (PE & PM & PY & MY & XY & PD' & LD & PEE). assert (V : E * E = K * D) by (unfold K; field; lra). split; [|exact V]. split; [apply Rmult_le_reg_r with D; [exact PD'|]|unfold K; apply div_le; lra]. rewrite <- V. lra.
Qed.
(** the pivot is not small *)
Lemma e_pivot : D <= 201 / 100 * (Rabs (Bval p00) * E) /\ Bval p00 <> 0 /\ fair (Rabs (Bval p00)).
Proof.
  destruct e_pos as (PE & PM & PY & MY & XY & PD' & LD & PEE). set (a := Rabs (Bval p00)) in *. assert (Pa : 0 <= a) by apply Rabs_pos.
  assert (A1 : Rabs (Bval p00 * Bval p11) <= a * E'') by (rewrite Rabs_mult; apply Rmult_le_compat; auto using Rabs_pos; apply Rle_refl).
  assert (A2 : Rabs (Bval p10 * Bval p01) <= a * E'') by (rewrite Rabs_mult; apply Rmult_le_compat; auto using Rabs_pos).
  assert (L : D <= 201 / 100 * (a * E)) by (unfold E'' in *; apply abs_le in A1, A2; assert (Rabs W <= 2 * (a * (10001 / 10000 * E))) by (apply abs_le; unfold W; lra); lra).
  split; [exact L|]. assert (PA : / 4194304 * E <= a) by (apply Rmult_le_reg_r with E; [exact PE|]; nra).
  assert (PA0 : 0 < a) by lra. split; [now apply abs_nz|]. pose proof (bpow_gt_0 radix2 (-150)). split.
  - apply Rle_trans with (bpow radix2 (-22) * bpow radix2 (-150)); [rewrite <- bpow_plus; apply bpow_le; lia|change (bpow radix2 (-22)) with (/ 4194304); lra].
  - apply Rle_trans with (bpow radix2 1 * bpow radix2 150); [change (bpow radix2 1) with 2; unfold E'' in B00; lra|rewrite <- bpow_plus; apply bpow_le; lia].
Qed.
Lemma fair_one : fair 1.
Proof. change 1 with (bpow radix2 0). split; apply bpow_le; lia. Qed.
Let l := quo1 p10 p00.
Let l' := Bval p10 / Bval p00.
Lemma e_l : bfin l = true /\ Rabs (Bval l - l') <= 3 * eps /\ Rabs l' <= 1.
Proof.
  destruct e_pivot as (_ & NZ & FP). assert (L : Rabs l' <= 1) by (apply quot_le; [exact NZ|lra]).
  destruct (Q1 F10 F00 FP fair_one L) as [F H]. rewrite Rmult_1_r in H. auto.
Qed.
Lemma fair_E k : 1 <= k <= 1000 -> mid (k * E).
Proof. apply fair_mid. destruct HE as [H1 H2]. split; [apply Rle_trans with (2 := H1)|apply Rle_trans with (1 := H2)]; apply bpow_le; lia. Qed.
Lemma Y_range : bpow radix2 (-225) <= Y <= bpow radix2 225.
Proof.
  destruct e_pos as (PE & PM & PY & MY & XY & _). destruct HM as [M1 M2], HX as [_ X2]. split; [apply Rle_trans with (2 := MY); apply Rle_trans with (2 := M1); apply bpow_le; lia|].
  assert (bpow radix2 150 <= bpow radix2 200) by (apply bpow_le; lia). apply Rle_trans with (bpow radix2 1 * bpow radix2 200); [change (bpow radix2 1) with 2; unfold Y; lra|rewrite <- bpow_plus; apply bpow_le; lia].
Qed.
Lemma E_range : bpow radix2 (-225) <= E <= bpow radix2 225.
Proof. destruct HE as [H1 H2]. split; [apply Rle_trans with (2 := H1)|apply Rle_trans with (1 := H2)]; apply bpow_le; lia. Qed.
Lemma M_range : bpow radix2 (-225) <= M <= bpow radix2 225.
Proof. destruct HM as [H1 H2]. split; [apply Rle_trans with (2 := H1)|apply Rle_trans with (1 := H2)]; apply bpow_le; lia. Qed.
(** the second pivot *)
Let u := nsub p11 (nmul l p01).
Let u' := Bval p11 - l' * Bval p01.
Lemma e_u : bfin u = true /\ Rabs (Bval u - u') <= 63 / 10 * (eps * E) /\ u' * Bval p00 = W.
Proof.
  destruct e_pos as (PE & PM & PY & MY & XY & PD' & LD & PEE). destruct e_l as (Fl & El & Ll). destruct e_pivot as (_ & NZ & _). pose proof eps_pos as P0. pose proof eps_small as Z0. unfold E'' in *.
  assert (A1 : Rabs ((Bval l - l') * Bval p01) <= 3 * eps * (10001 / 10000 * E)) by (apply mul_bound; lra). assert (A2 : Rabs (l' * Bval p01) <= 1 * (10001 / 10000 * E)) by (apply mul_bound; lra).
  assert (EE : 0 < eps * E) by (apply Rmult_lt_0_compat; lra). assert (EE2 : eps * E <= E / 1000000) by (apply Rle_trans with (/ 1000000000000 * E); [apply Rmult_le_compat_r; lra|lra]).
  assert (V : Bval l * Bval p01 = (Bval l - l') * Bval p01 + l' * Bval p01) by ring. apply abs_le in A1, A2.
  destruct (@mul_ap l p01 (101 / 100 * E) Fl F01) as [Fm Em]; [apply fair_E; lra|apply abs_le; lra|]. apply abs_le in Em. pose proof B11 as B. apply abs_le in B.
  destruct (@sub_ap p11 (nmul l p01) (202 / 100 * E) F11 Fm) as [Fu Eu]; [apply fair_E; lra|apply abs_le; lra|]. apply abs_le in Eu. split; [exact Fu|]. split; [apply abs_le; unfold u, u'; lra|]. unfold u', l', W. field. exact NZ.
Qed.
Lemma e_u_low : 99 / 100 * D <= Rabs (Bval u) * E /\ Bval u <> 0 /\ fair (Rabs (Bval u)).
Proof.
  destruct e_pos as (PE & PM & PY & MY & XY & PD' & LD & PEE). destruct e_u as (Fu & Eu & Vu). pose proof eps_pos as P0. pose proof eps_val as Z0.
  assert (L1 : 998 / 1000 * D <= Rabs u' * E).
  { assert (A : Rabs W <= Rabs u' * E'') by (rewrite <- Vu, Rabs_mult; apply Rmult_le_compat_l; [apply Rabs_pos|exact B00]). unfold E'' in A. assert (0 <= Rabs u' * E) by (apply Rmult_le_pos; [apply Rabs_pos|lra]). lra. }
  assert (L2 : Rabs u' - 63 / 10 * (eps * E) <= Rabs (Bval u)) by (apply abs_le in Eu; unfold Rabs; destruct (Rcase_abs u'), (Rcase_abs (Bval u)); lra).
  assert (L3 : (Rabs u' - 63 / 10 * (eps * E)) * E <= Rabs (Bval u) * E) by (apply Rmult_le_compat_r; lra).
  assert (S : 63 / 10 * (eps * E) * E <= / 1000 * D) by (rewrite Z0; lra). assert (L : 99 / 100 * D <= Rabs (Bval u) * E) by lra. split; [exact L|].
  assert (PU : / 2097152 * E <= Rabs (Bval u)) by (apply Rmult_le_reg_r with E; [exact PE|]; lra). assert (PU0 : 0 < Rabs (Bval u)) by lra. split; [now apply abs_nz|]. pose proof (bpow_gt_0 radix2 (-150)). split.
  - apply Rle_trans with (bpow radix2 (-21) * bpow radix2 (-150)); [rewrite <- bpow_plus; apply bpow_le; lia|change (bpow radix2 (-21)) with (/ 2097152); lra].
  - assert (UU : Rabs (Bval u) <= 3 * E).
    { destruct e_l as (_ & _ & Ll). unfold E'' in *. assert (A2 : Rabs (l' * Bval p01) <= 1 * (10001 / 10000 * E)) by (apply mul_bound; lra). apply abs_le in A2, Eu. pose proof B11 as B. apply abs_le in B. pose proof eps_small. assert (eps * E <= E / 1000000) by (apply Rle_trans with (/ 1000000000000 * E); [apply Rmult_le_compat_r; lra|lra]). apply abs_le. unfold u' in *. lra. }
    apply Rle_trans with (bpow radix2 2 * bpow radix2 150); [change (bpow radix2 2) with 4; lra|rewrite <- bpow_plus; apply bpow_le; lia].
Qed.
(** the last unknown *)
Let z := nsub r1 (nmul l r0).
Lemma e_z : bfin z = true /\ Rabs (Bval z - u' * x1) <= 33 * (eps * (E * Y)).
Proof.
  destruct e_pos as (PE & PM & PY & MY & XY & PD' & LD & PEE). destruct e_l as (Fl & El & Ll). destruct e_pivot as (_ & NZ & _). pose proof eps_pos as P0. pose proof eps_small as Z0.
  set (V := M * E) in *. assert (PV' : 0 < V) by (apply Rmult_lt_0_compat; lra). assert (VY : V <= E * Y) by (unfold V; rewrite Rmult_comm; apply Rmult_le_compat_l; lra).
  assert (FV : forall k, 1 <= k <= 1000 -> mid (k * V)) by (intros k; apply fair_mid; apply fair_mul; [exact M_range|exact E_range]).
  assert (EV : 0 < eps * V) by (apply Rmult_lt_0_compat; lra). assert (EV2 : eps * V <= V / 1000000) by (apply Rle_trans with (/ 1000000000000 * V); [apply Rmult_le_compat_r; lra|lra]). assert (EVY : eps * V <= eps * (E * Y)) by (apply Rmult_le_compat_l; lra).
  assert (A1 : Rabs ((Bval l - l') * Bval r0) <= 3 * eps * (201 / 100 * V)) by (apply mul_bound; lra). assert (A2 : Rabs (l' * Bval r0) <= 1 * (201 / 100 * V)) by (apply mul_bound; lra).
  assert (VV : Bval l * Bval r0 = (Bval l - l') * Bval r0 + l' * Bval r0) by ring. apply abs_le in A1, A2. pose proof C1 as C. apply abs_le in C.
  destruct (@mul_ap l r0 (202 / 100 * V) Fl G0) as [Fm Em]; [apply FV; lra|apply abs_le; lra|]. apply abs_le in Em.
  destruct (@sub_ap r1 (nmul l r0) (404 / 100 * V) G1 Fm) as [Fz Ez]; [apply FV; lra|apply abs_le; lra|]. apply abs_le in Ez. split; [exact Fz|].
  assert (A3 : Rabs (l' * d0) <= 1 * (10 * (eps * (E * Y)))) by (apply mul_bound; auto; try lra; apply Rle_trans with (2 := D0); apply Rabs_pos). apply abs_le in A3. pose proof D1 as D1'. apply abs_le in D1'.
  assert (I : u' * x1 = Bval r1 - l' * Bval r0 + d1 - l' * d0).
  { replace (Bval r1 - l' * Bval r0 + d1 - l' * d0) with ((Bval r1 + d1) - l' * (Bval r0 + d0)) by ring. rewrite <- S0, <- S1. unfold u', l'. field. exact NZ. }
  rewrite I. apply abs_le. unfold z. lra.
Qed.
Let y1 := quo2 z u.
Lemma e_x1 : bfin y1 = true /\ Rabs (Bval y1 - x1) <= 47 * (eps * (K * Y)).
Proof.
  destruct e_pos as (PE & PM & PY & MY & XY & PD' & LD & PEE). destruct e_K as ([K1 K2] & KV). destruct e_u as (Fu & Eu & _). destruct e_u_low as (Lu & Nu & FU). destruct e_z as [Fz Ez]. pose proof eps_pos as P0. pose proof eps_val as Z0.
  assert (KY : 0 < eps * (K * Y)) by (apply Rmult_lt_0_compat; [lra|apply Rmult_lt_0_compat; lra]).
  assert (A : Rabs (Bval z / Bval u - x1) <= 401 / 10 * (eps * (K * Y))).
  { replace (Bval z / Bval u - x1) with ((Bval z - u' * x1 + (u' - Bval u) * x1) / Bval u) by (field; exact Nu). apply quot_le; [exact Nu|].
    assert (A1 : Rabs ((u' - Bval u) * x1) <= 63 / 10 * (eps * E) * Y) by (apply mul_bound; [apply Rmult_le_pos; [lra|apply Rmult_le_pos; lra]|lra|apply abs_le in Eu; apply abs_le; lra|lra]).
    apply abs_le in A1, Ez. assert (A2 : Rabs (Bval z - u' * x1 + (u' - Bval u) * x1) <= 393 / 10 * (eps * (E * Y))) by (apply abs_le; lra). apply Rle_trans with (1 := A2).
    apply Rmult_le_reg_r with E; [exact PE|]. apply Rle_trans with (401 / 10 * (eps * (K * Y)) * (99 / 100 * D)).
    - replace (393 / 10 * (eps * (E * Y)) * E) with (393 / 10 * (eps * Y) * (E * E)) by ring. rewrite KV. assert (0 < eps * Y * (K * D)) by (apply Rmult_lt_0_compat; [apply Rmult_lt_0_compat; lra|rewrite <- KV; exact PEE]).
      replace (401 / 10 * (eps * (K * Y)) * (99 / 100 * D)) with (401 / 10 * (99 / 100) * (eps * Y * (K * D))) by ring. lra.
    - apply Rle_trans with (401 / 10 * (eps * (K * Y)) * (Rabs (Bval u) * E)); [apply Rmult_le_compat_l; [lra|exact Lu]|right; ring]. }
  assert (SM : eps * (K * Y) <= Y / 1000000). { rewrite Z0. assert (K * Y <= 1048576 * Y) by (apply Rmult_le_compat_r; lra). lra. }
  assert (EY : eps * Y <= 2 * (eps * (K * Y))). { replace (2 * (eps * (K * Y))) with (eps * (2 * K * Y)) by ring. apply Rmult_le_compat_l; [lra|]. assert (1 * Y <= 2 * K * Y) by (apply Rmult_le_compat_r; lra). lra. }
  apply abs_le in A. pose proof X1 as X1'. apply abs_le in X1'.
  destruct (Q2 (a := z) (p := u) (B := 101 / 100 * Y)) as [F H]; auto.
  - destruct Y_range as [R1 R2]. split; [apply Rle_trans with (bpow radix2 (-225)); [apply bpow_le; lia|lra]|apply Rle_trans with (bpow radix2 1 * bpow radix2 225); [change (bpow radix2 1) with 2; lra|rewrite <- bpow_plus; apply bpow_le; lia]].
  - apply abs_le. lra.
  - split; [exact F|]. apply abs_le in H. apply abs_le. unfold y1. lra.
Qed.
(** the first one *)
Let w := nsub r0 (nmul p01 y1).
Lemma e_w : bfin w = true /\ Rabs (Bval w - Bval p00 * x0) <= 77 * (eps * (E * (K * Y))).
Proof.
  destruct e_pos as (PE & PM & PY & MY & XY & PD' & LD & PEE). destruct e_K as ([K1 K2] & KV). destruct e_x1 as [Fy Ey]. pose proof eps_pos as P0. pose proof eps_val as Z0.
  set (V := E * Y) in *. assert (PV' : 0 < V) by (apply Rmult_lt_0_compat; lra). assert (MV : M * E <= V) by (unfold V; rewrite Rmult_comm; apply Rmult_le_compat_l; lra).
  assert (FV : forall k, 1 <= k <= 1000 -> mid (k * V)) by (intros k; apply fair_mid; apply fair_mul; [exact E_range|exact Y_range]).
  assert (SM : eps * (K * Y) <= Y / 1000000). { rewrite Z0. assert (K * Y <= 1048576 * Y) by (apply Rmult_le_compat_r; lra). lra. }
  assert (EY : eps * V <= 2 * (eps * (E * (K * Y)))). { replace (2 * (eps * (E * (K * Y)))) with (eps * (E * (2 * K * Y))) by ring. apply Rmult_le_compat_l; [lra|]. apply Rmult_le_compat_l; [lra|]. assert (1 * Y <= 2 * K * Y) by (apply Rmult_le_compat_r; lra). lra. }
  assert (EV : 0 < eps * V) by (apply Rmult_lt_0_compat; lra). assert (EV2 : eps * V <= V / 1000000) by (rewrite Z0; lra).
  apply abs_le in Ey. pose proof X1 as X1'. apply abs_le in X1'. pose proof C0 as C. apply abs_le in C. pose proof D0 as D0'. apply abs_le in D0'. unfold E'' in *.
  assert (A1 : Rabs (Bval p01 * Bval y1) <= 10001 / 10000 * E * (101 / 100 * Y)) by (apply mul_bound; try lra; apply abs_le; lra). apply abs_le in A1.
  assert (A2 : Rabs (Bval p01 * (Bval y1 - x1)) <= 10001 / 10000 * E * (47 * (eps * (K * Y)))) by (apply mul_bound; try lra; apply abs_le; lra). apply abs_le in A2.
  destruct (@mul_ap p01 y1 (102 / 100 * V) F01 Fy) as [Fm Em]; [apply FV; lra|apply abs_le; unfold V; lra|]. apply abs_le in Em.
  destruct (@sub_ap r0 (nmul p01 y1) (310 / 100 * V) G0 Fm) as [Fw Ew]; [apply FV; lra|apply abs_le; unfold V in *; lra|]. apply abs_le in Ew. split; [exact Fw|].
  assert (I : Bval p00 * x0 = Bval r0 + d0 - Bval p01 * x1) by lra. rewrite I. replace (10001 / 10000 * E * (47 * (eps * (K * Y)))) with (10001 / 10000 * 47 * (eps * (E * (K * Y)))) in A2 by ring. apply abs_le. unfold w, V in *. lra.
Qed.
Let y0 := quo2 w p00.
Lemma e_x0 : bfin y0 = true /\ Rabs (Bval y0 - x0) <= 170 * (eps * (K * K * Y)).
Proof.
  destruct e_pos as (PE & PM & PY & MY & XY & PD' & LD & PEE). destruct e_K as ([K1 K2] & KV). destruct e_pivot as (Lp & Np & FP). destruct e_w as [Fw Ew]. pose proof eps_pos as P0. pose proof eps_val as Z0.
  assert (KK : 0 < K * K * Y) by (apply Rmult_lt_0_compat; [apply Rmult_lt_0_compat|]; lra). assert (KY : 0 < eps * (K * K * Y)) by (apply Rmult_lt_0_compat; lra).
  assert (A : Rabs (Bval w / Bval p00 - x0) <= 157 * (eps * (K * K * Y))).
  { replace (Bval w / Bval p00 - x0) with ((Bval w - Bval p00 * x0) / Bval p00) by (field; exact Np). apply quot_le; [exact Np|]. apply Rle_trans with (1 := Ew).
    apply Rmult_le_reg_r with E; [exact PE|]. replace (77 * (eps * (E * (K * Y))) * E) with (77 * (eps * (K * Y)) * (E * E)) by ring. rewrite KV.
    replace (77 * (eps * (K * Y)) * (K * D)) with (77 * (eps * (K * K * Y)) * D) by ring. apply Rle_trans with (77 * (eps * (K * K * Y)) * (201 / 100 * (Rabs (Bval p00) * E))); [apply Rmult_le_compat_l; lra|].
    assert (0 <= eps * (K * K * Y) * (Rabs (Bval p00) * E)) by (apply Rmult_le_pos; [lra|apply Rmult_le_pos; [apply Rabs_pos|lra]]). lra. }
  assert (K4 : K * K <= 1048576 * 1048576) by (apply Rmult_le_compat; lra). assert (SM : eps * (K * K * Y) <= Y / 4000). { rewrite Z0. assert (K * K * Y <= 1048576 * 1048576 * Y) by (apply Rmult_le_compat_r; lra). lra. }
  assert (EY : eps * Y <= 4 * (eps * (K * K * Y))). { replace (4 * (eps * (K * K * Y))) with (eps * (4 * (K * K) * Y)) by ring. apply Rmult_le_compat_l; [lra|]. assert (1 * Y <= 4 * (K * K) * Y) by (apply Rmult_le_compat_r; [lra|nra]). lra. }
  apply abs_le in A. pose proof X0 as X0'. apply abs_le in X0'.
  destruct (Q2 (a := w) (p := p00) (B := 105 / 100 * Y)) as [F H]; auto.
  - destruct Y_range as [R1 R2]. split; [apply Rle_trans with (bpow radix2 (-225)); [apply bpow_le; lia|lra]|apply Rle_trans with (bpow radix2 1 * bpow radix2 225); [change (bpow radix2 1) with 2; lra|rewrite <- bpow_plus; apply bpow_le; lia]].
  - apply abs_le. lra.
  - split; [exact F|]. apply abs_le in H. apply abs_le. unfold y0. lra.
Qed.
Lemma elim_ap : neqb p00 n0 = false /\ neqb u n0 = false /\ bfin y0 = true /\ bfin y1 = true /\ Rabs (Bval y0 - x0) <= 170 * (eps * (K * K * Y)) /\ Rabs (Bval y1 - x1) <= 170 * (eps * (K * K * Y)).
Proof.
  destruct e_pos as (PE & PM & PY & MY & XY & PD' & LD & PEE). destruct e_pivot as (_ & Np & _). destruct e_u as (Fu & _ & _). destruct e_u_low as (_ & Nu & _). destruct e_x0 as [F0 H0]. destruct e_x1 as [F1 H1]. destruct e_K as ([K1 K2] & _). pose proof eps_pos as P0.
  split; [rewrite beq_spec by (auto; reflexivity); now apply Req_bool_false|]. split; [rewrite beq_spec by (auto; reflexivity); now apply Req_bool_false|]. split; [exact F0|]. split; [exact F1|]. split; [exact H0|].
  apply Rle_trans with (1 := H1). assert (eps * (K * Y) <= 2 * (eps * (K * K * Y))). { replace (2 * (eps * (K * K * Y))) with (eps * (2 * K * (K * Y))) by ring. apply Rmult_le_compat_l; [lra|]. assert (0 < K * Y) by (apply Rmult_lt_0_compat; lra). assert (1 * (K * Y) <= 2 * K * (K * Y)) by (apply Rmult_le_compat_r; lra). lra. }
  assert (0 < K * Y) by (apply Rmult_lt_0_compat; lra). assert (0 < eps * (K * Y)) by (apply Rmult_lt_0_compat; lra). lra.
Qed.
End Elim.

Lemma opp_val (s : b64) : bfin (nopp s) = bfin s /\ Bval (nopp s) = - Bval s.
Proof. change (nopp s) with (Bopp s). split; [apply is_finite_Bopp|]. unfold Bval. now rewrite B2R_Bopp. Qed.
(** one row of the system: the line through (p, p') with direction (dx, dy) *)
Section Row.
Context (E M X : R) (HE : bpow radix2 (-150) <= E <= bpow radix2 150) (HM : bpow radix2 (-150) <= M <= bpow radix2 150) (HX : 0 <= X <= bpow radix2 200).
Let Y := M + X.
Context (px py qx qy : b64) (Fpx : bfin px = true) (Fpy : bfin py = true) (Fqx : bfin qx = true) (Fqy : bfin qy = true) (Mx : Rabs (Bval px) <= M) (My : Rabs (Bval py) <= M) (Ex : Rabs (Bval qx - Bval px) <= E) (Ey : Rabs (Bval qy - Bval py) <= E).
Context (x0 x1 : R) (X0 : Rabs x0 <= X) (X1 : Rabs x1 <= X) (On : (Bval qx - Bval px) * (x1 - Bval py) = (Bval qy - Bval py) * (x0 - Bval px)).
Let dy := nsub qy py.
Let dx := nsub qx px.
Let r := nsub (nmul py dx) (nmul dy px).
Lemma row_ap : bfin (nopp dy) = true /\ bfin dx = true /\ bfin r = true /\ Rabs (Bval (nopp dy) - - (Bval qy - Bval py)) <= eps * E /\ Rabs (Bval dx - (Bval qx - Bval px)) <= eps * E
  /\ Rabs (Bval (nopp dy)) <= 10001 / 10000 * E /\ Rabs (Bval dx) <= 10001 / 10000 * E /\ Rabs (Bval r) <= 201 / 100 * (M * E)
  /\ exists d, Bval (nopp dy) * x0 + Bval dx * x1 = Bval r + d /\ Rabs d <= 10 * (eps * (E * Y)).
Proof.
  pose proof (bpow_gt_0 radix2 (-150)) as Pb. assert (PE : 0 < E) by lra. assert (PM : 0 < M) by lra. pose proof eps_pos as P0. pose proof eps_small as Z0.
  assert (RE : bpow radix2 (-225) <= E <= bpow radix2 225) by (destruct HE as [H1 H2]; split; [apply Rle_trans with (2 := H1)|apply Rle_trans with (1 := H2)]; apply bpow_le; lia).
  assert (RM : bpow radix2 (-225) <= M <= bpow radix2 225) by (destruct HM as [H1 H2]; split; [apply Rle_trans with (2 := H1)|apply Rle_trans with (1 := H2)]; apply bpow_le; lia).
  assert (FE : fair (1 * E)) by (rewrite Rmult_1_l; destruct RE as [H1 H2]; split; [apply Rle_trans with (2 := H1)|apply Rle_trans with (1 := H2)]; apply bpow_le; lia).
  set (V := M * E). assert (FV : forall k, 1 <= k <= 1000 -> mid (k * V)) by (intros k; apply fair_mid; apply fair_mul; auto). assert (PV : 0 < V) by (apply Rmult_lt_0_compat; lra). assert (EV : 0 < eps * V) by (apply Rmult_lt_0_compat; lra).
  assert (EE : 0 < eps * E) by (apply Rmult_lt_0_compat; lra). assert (EE2 : eps * E <= E / 1000000) by (apply Rle_trans with (/ 1000000000000 * E); [apply Rmult_le_compat_r; lra|lra]). assert (EV2 : eps * V <= V / 1000000) by (apply Rle_trans with (/ 1000000000000 * V); [apply Rmult_le_compat_r; lra|lra]).
  destruct (@sub_ap qy py (1 * (1 * E)) Fqy Fpy) as [Fy Hy]; [apply fair_mid; [exact FE|lra]|lra|]. destruct (@sub_ap qx px (1 * (1 * E)) Fqx Fpx) as [Fx Hx]; [apply fair_mid; [exact FE|lra]|lra|]. fold dy in Fy, Hy. fold dx in Fx, Hx. rewrite !Rmult_1_l in Hy, Hx.
  destruct (opp_val dy) as [Fo Vo]. rewrite Vo, Fo. pose proof Hy as Hy'. pose proof Hx as Hx'. apply abs_le in Hy', Hx'. pose proof Ex as Ex'. pose proof Ey as Ey'. apply abs_le in Ex', Ey'.
  assert (By : Rabs (Bval dy) <= 10001 / 10000 * E) by (apply abs_le; lra). assert (Bx : Rabs (Bval dx) <= 10001 / 10000 * E) by (apply abs_le; lra).
  assert (P1 : Rabs (Bval py * Bval dx) <= M * (10001 / 10000 * E)) by (apply mul_bound; lra). assert (P2 : Rabs (Bval dy * Bval px) <= 10001 / 10000 * E * M) by (apply mul_bound; lra).
  destruct (@mul_ap py dx (10001 / 10000 * V) Fpy Fx) as [F1 H1]; [apply FV; lra|unfold V; lra|]. destruct (@mul_ap dy px (10001 / 10000 * V) Fy Fpx) as [F2 H2]; [apply FV; lra|unfold V; lra|].
  apply abs_le in P1, P2, H1, H2. destruct (@sub_ap (nmul py dx) (nmul dy px) (2001 / 1000 * V) F1 F2) as [Fr Hr]; [apply FV; lra|apply abs_le; unfold V in *; lra|]. fold r in Fr, Hr. apply abs_le in Hr.
  split; [exact Fy|]. split; [exact Fx|]. split; [exact Fr|]. split; [apply abs_le; lra|]. split; [exact Hx|]. split; [rewrite Rabs_Ropp; exact By|]. split; [exact Bx|]. split; [apply abs_le; unfold V in *; lra|].
  exists (- Bval dy * x0 + Bval dx * x1 - Bval r). split; [ring|].
  assert (PY : M <= Y /\ 0 < Y) by (unfold Y; lra). assert (VY : eps * V <= eps * (E * Y)) by (apply Rmult_le_compat_l; [lra|]; unfold V; rewrite Rmult_comm; apply Rmult_le_compat_l; lra).
  pose proof Mx as Mx'. pose proof My as My'. pose proof X0 as X0'. pose proof X1 as X1'. apply abs_le in Mx', My', X0', X1'.
  assert (T1 : Rabs ((Bval dy - (Bval qy - Bval py)) * (x0 - Bval px)) <= eps * E * Y) by (apply mul_bound; [lra|lra|exact Hy|apply abs_le; unfold Y; lra]).
  assert (T2 : Rabs ((Bval dx - (Bval qx - Bval px)) * (x1 - Bval py)) <= eps * E * Y) by (apply mul_bound; [lra|lra|exact Hx|apply abs_le; unfold Y; lra]). apply abs_le in T1, T2.
  assert (I : - Bval dy * x0 + Bval dx * x1 - (Bval py * Bval dx - Bval dy * Bval px) = (Bval dx - (Bval qx - Bval px)) * (x1 - Bval py) - (Bval dy - (Bval qy - Bval py)) * (x0 - Bval px)).
  { apply Rminus_diag_uniq. transitivity ((Bval qx - Bval px) * (x1 - Bval py) - (Bval qy - Bval py) * (x0 - Bval px)); [ring|rewrite On; ring]. }
  assert (0 < eps * (E * Y)) by (apply Rmult_lt_0_compat; [lra|apply Rmult_lt_0_compat; lra]). apply abs_le. unfold V in *. lra.
Qed.
End Row.

Lemma blt_val x y : bfin x = true -> bfin y = true -> nlt (nabs x) (nabs y) = Rlt_bool (Rabs (Bval x)) (Rabs (Bval y)).
Proof. intros Fx Fy. destruct (abs_val Fx) as [A1 A2], (abs_val Fy) as [B1 B2]. rewrite blt_spec by assumption. now rewrite A2, B2. Qed.

Section Line2.
Context (E M X : R) (HE : bpow radix2 (-150) <= E <= bpow radix2 150) (HM : bpow radix2 (-150) <= M <= bpow radix2 150) (HX : 0 <= X <= bpow radix2 200).
Context (quo1 quo2 : b64 -> b64 -> b64) (Q1 : quot_ok quo1) (Q2 : quot_ok quo2).
Context (px py qx qy sx sy tx ty : b64).
Context (Fpx : bfin px = true) (Fpy : bfin py = true) (Fqx : bfin qx = true) (Fqy : bfin qy = true) (Fsx : bfin sx = true) (Fsy : bfin sy = true) (Ftx : bfin tx = true) (Fty : bfin ty = true).
Context (Mpx : Rabs (Bval px) <= M) (Mpy : Rabs (Bval py) <= M) (Msx : Rabs (Bval sx) <= M) (Msy : Rabs (Bval sy) <= M).
Context (Epx : Rabs (Bval qx - Bval px) <= E) (Epy : Rabs (Bval qy - Bval py) <= E) (Esx : Rabs (Bval tx - Bval sx) <= E) (Esy : Rabs (Bval ty - Bval sy) <= E).
Let D := (Bval qx - Bval px) * (Bval ty - Bval sy) - (Bval qy - Bval py) * (Bval tx - Bval sx).
Context (LD : bpow radix2 (-20) * (E * E) <= Rabs D).
Context (x0 x1 : R) (X0 : Rabs x0 <= X) (X1 : Rabs x1 <= X) (OnP : (Bval qx - Bval px) * (x1 - Bval py) = (Bval qy - Bval py) * (x0 - Bval px)) (OnS : (Bval tx - Bval sx) * (x1 - Bval sy) = (Bval ty - Bval sy) * (x0 - Bval sx)).
Let K := E * E / Rabs D.
Lemma line2_ap : exists y0 y1, line_intersect_with quo1 quo2 (px, py) (qx, qy) (sx, sy) (tx, ty) = (y0, y1) /\ bfin y0 = true /\ bfin y1 = true
  /\ Rabs (Bval y0 - x0) <= 170 * (eps * (K * K * (M + X))) /\ Rabs (Bval y1 - x1) <= 170 * (eps * (K * K * (M + X))).
Proof.
  pose proof (bpow_gt_0 radix2 (-150)) as Pb. assert (PE : 0 < E) by lra. assert (PEE : 0 < E * E) by (apply Rmult_lt_0_compat; lra). pose proof eps_pos as P0. pose proof eps_val as Z0.
  destruct (row_ap HE HM HX Fpx Fpy Fqx Fqy Mpx Mpy Epx Epy X0 X1 OnP) as (A1 & A2 & A3 & A4 & A5 & A6 & A7 & A8 & d0 & A9 & A10).
  destruct (row_ap HE HM HX Fsx Fsy Ftx Fty Msx Msy Esx Esy X0 X1 OnS) as (C1 & C2 & C3 & C4 & C5 & C6 & C7 & C8 & d1 & C9 & C10).
  unfold line_intersect_with, solve2_with. cbn [fst snd].
  set (a00 := nopp (nsub qy py)) in *. set (a01 := nsub qx px) in *. set (a10 := nopp (nsub ty sy)) in *. set (a11 := nsub tx sx) in *. set (b0 := nsub (nmul py a01) (nmul (nsub qy py) px)) in *. set (b1 := nsub (nmul sy a11) (nmul (nsub ty sy) sx)) in *. clearbody a00 a01 a10 a11 b0 b1.
  assert (UD : Rabs D <= 2 * (E * E)).
  { assert (T1 : Rabs ((Bval qx - Bval px) * (Bval ty - Bval sy)) <= E * E) by (apply mul_bound; lra). assert (T2 : Rabs ((Bval qy - Bval py) * (Bval tx - Bval sx)) <= E * E) by (apply mul_bound; lra). apply abs_le in T1, T2. apply abs_le. unfold D. lra. }
  assert (DW : Rabs (Bval a00 * Bval a11 - Bval a10 * Bval a01 - D) <= / 1000 * Rabs D).
  { set (e00 := - (Bval qy - Bval py)) in *. set (e01 := Bval qx - Bval px) in *. set (e10 := - (Bval ty - Bval sy)) in *. set (e11 := Bval tx - Bval sx) in *.
    assert (I : Bval a00 * Bval a11 - Bval a10 * Bval a01 - D = (Bval a00 - e00) * Bval a11 + e00 * (Bval a11 - e11) - (Bval a10 - e10) * Bval a01 - e10 * (Bval a01 - e01)) by (unfold D, e00, e01, e10, e11; ring).
    assert (0 <= eps * E) by (apply Rmult_le_pos; lra). assert (G0 : Rabs e00 <= E) by (unfold e00; rewrite Rabs_Ropp; exact Epy). assert (G1 : Rabs e10 <= E) by (unfold e10; rewrite Rabs_Ropp; exact Esy).
    assert (T1 : Rabs ((Bval a00 - e00) * Bval a11) <= eps * E * (10001 / 10000 * E)) by (apply mul_bound; lra). assert (T2 : Rabs (e00 * (Bval a11 - e11)) <= E * (eps * E)) by (apply mul_bound; lra).
    assert (T3 : Rabs ((Bval a10 - e10) * Bval a01) <= eps * E * (10001 / 10000 * E)) by (apply mul_bound; lra). assert (T4 : Rabs (e10 * (Bval a01 - e01)) <= E * (eps * E)) by (apply mul_bound; lra). apply abs_le in T1, T2, T3, T4.
    assert (Rabs (Bval a00 * Bval a11 - Bval a10 * Bval a01 - D) <= 5 * (eps * (E * E))) by (rewrite I; apply abs_le; lra). change (bpow radix2 (-20)) with (/ 1048576) in LD. rewrite Z0 in *. lra. }
  assert (LW : 999 / 1000 * Rabs D <= Rabs (Bval a00 * Bval a11 - Bval a10 * Bval a01)) by (apply abs_le in DW; revert DW; unfold Rabs; destruct (Rcase_abs D), (Rcase_abs (Bval a00 * Bval a11 - Bval a10 * Bval a01)); lra).
  rewrite blt_val by assumption. destruct (Rlt_bool_spec (Rabs (Bval a00)) (Rabs (Bval a10))) as [Hlt|Hge].
  - destruct (@elim_ap E M X HE HM HX quo1 quo2 Q1 Q2 a10 a11 a00 a01 b1 b0) with (D := Rabs D) (x0 := x0) (x1 := x1) (d0 := d1) (d1 := d0) as (N1 & N2 & F0 & F1 & H0 & H1); auto; [lra|match goal with |- _ <= Rabs ?a => replace a with (- (Bval a00 * Bval a11 - Bval a10 * Bval a01)) by ring end; rewrite Rabs_Ropp; exact LW|].
    rewrite N1, N2. cbn [orb]. eexists. eexists. split; [reflexivity|]. auto.
  - destruct (@elim_ap E M X HE HM HX quo1 quo2 Q1 Q2 a00 a01 a10 a11 b0 b1) with (D := Rabs D) (x0 := x0) (x1 := x1) (d0 := d0) (d1 := d1) as (N1 & N2 & F0 & F1 & H0 & H1); auto.
    rewrite N1, N2. cbn [orb]. eexists. eexists. split; [reflexivity|]. auto.
Qed.
End Line2.

(** lines along an axis *)
Lemma sub_same (a b : b64) : bfin a = true -> bfin b = true -> Bval a = Bval b -> bfin (nsub a b) = true /\ Bval (nsub a b) = 0.
Proof.
  intros Fa Fb H. destruct (@bsub_val a b Fa Fb) as [V F]; [rewrite H, Rminus_diag_eq, Rabs_R0 by reflexivity; apply bpow_ge_0|]. rewrite H, Rminus_diag_eq, rnd64_0 in V by reflexivity. split; assumption.
Qed.
Lemma sub_fin (a b : b64) : bfin a = true -> bfin b = true -> Rabs (Bval a) <= bpow radix2 900 -> Rabs (Bval b) <= bpow radix2 900 -> bfin (nsub a b) = true.
Proof.
  intros Fa Fb Ha Hb. destruct (@bsub_val a b Fa Fb) as [V F]; [|exact F]. apply abs_le in Ha, Hb. apply Rle_trans with (bpow radix2 1 * bpow radix2 900); [change (bpow radix2 1) with 2; apply abs_le; lra|rewrite <- bpow_plus; apply bpow_le; lia].
Qed.
Lemma solve_zero_column (a00 a01 a10 a11 b0 b1 : b64) : bfin a00 = true -> bfin a10 = true -> bfin a01 = true -> bfin a11 = true -> (Bval a00 = 0 /\ Bval a10 = 0 \/ Bval a01 = 0 /\ Bval a11 = 0) -> solve2 a00 a01 a10 a11 b0 b1 = Err LinAlgError.
Proof.
  assert (Z : forall x : b64, bfin x = true -> Bval x = 0 -> neqb x n0 = true) by (intros x F H; rewrite beq_spec by (auto; reflexivity); rewrite H; apply Req_bool_true; reflexivity).
  assert (G : forall p00 p01 p10 p11 : b64, bfin p00 = true -> bfin p10 = true -> bfin p01 = true -> bfin p11 = true -> Rabs (Bval p10) <= Rabs (Bval p00) -> Bval p01 = 0 -> Bval p11 = 0 -> neqb p00 n0 || neqb (nsub p11 (nmul (ndiv p10 p00) p01)) n0 = true).
  { intros p00 p01 p10 p11 F00 F10 F01 F11 L Z1 Z2. destruct (Req_dec (Bval p00) 0) as [E|E]; [rewrite (Z _ F00 E); reflexivity|]. apply orb_true_iff. right.
    destruct (@bdiv_val p10 p00 F10 E) as [_ FL]; [apply Rle_trans with 1; [apply quot_le; [exact E|lra]|change 1 with (bpow radix2 0); apply bpow_le; lia]|].
    destruct (@bmul_val (bdiv p10 p00) p01 FL F01) as [VM FM]; [rewrite Z1, Rmult_0_r, Rabs_R0; apply bpow_ge_0|]. rewrite Z1, Rmult_0_r, rnd64_0 in VM. destruct (@sub_same p11 (bmul (bdiv p10 p00) p01) F11 FM) as [FS VS]; [congruence|]. apply Z; [exact FS|exact VS]. }
  intros F00 F10 F01 F11 H. unfold solve2. rewrite blt_val by assumption. destruct H as [[H1 H2]|[H1 H2]].
  - rewrite H1, H2. rewrite Rlt_bool_false by apply Rle_refl. rewrite (Z _ F00 H1). reflexivity.
  - destruct (Rlt_bool_spec (Rabs (Bval a00)) (Rabs (Bval a10))) as [L|L]; [rewrite (G a10 a11 a00 a01) by (auto; lra)|rewrite (G a00 a01 a10 a11) by auto]; reflexivity.
Qed.
Lemma axis_parallel px py qx qy sx sy tx ty : bfin px = true -> bfin py = true -> bfin qx = true -> bfin qy = true -> bfin sx = true -> bfin sy = true -> bfin tx = true -> bfin ty = true ->
  Rabs (Bval px) <= bpow radix2 900 -> Rabs (Bval py) <= bpow radix2 900 -> Rabs (Bval qx) <= bpow radix2 900 -> Rabs (Bval qy) <= bpow radix2 900 -> Rabs (Bval sx) <= bpow radix2 900 -> Rabs (Bval sy) <= bpow radix2 900 -> Rabs (Bval tx) <= bpow radix2 900 -> Rabs (Bval ty) <= bpow radix2 900 ->
  (Bval qx = Bval px /\ Bval tx = Bval sx \/ Bval qy = Bval py /\ Bval ty = Bval sy) -> line_intersect (px, py) (qx, qy) (sx, sy) (tx, ty) = (nnan, nnan).
Proof.
  intros. unfold line_intersect. cbn [fst snd]. destruct (opp_val (nsub qy py)) as [O1 W1]. destruct (opp_val (nsub ty sy)) as [O2 W2].
  rewrite solve_zero_column; [reflexivity|rewrite O1; now apply sub_fin|rewrite O2; now apply sub_fin|now apply sub_fin|now apply sub_fin|].
  rewrite W1, W2. match goal with H : _ /\ _ \/ _ |- _ => destruct H as [[A B]|[A B]] end.
  - right. split; apply sub_same; assumption.
  - left. split; [destruct (@sub_same qy py) as [_ ->]|destruct (@sub_same ty sy) as [_ ->]]; auto; lra.
Qed.
