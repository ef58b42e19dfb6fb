(** * Products of 4 by 4 matrices of doubles. *)
From Coq Require Import Reals ZArith List Bool Lra Lia.
From Flocq Require Import Core IEEE754.BinarySingleNaN.
From Verif Require Import Num B64 BLemmas Vec RVec NpList MVx MUnits MRotation MComposite PCompositeB SpecDouble SpecTransD PErr.
Import ListNotations.
Local Open Scope R_scope.
Set Implicit Arguments.
Unset Strict Implicit.

Definition tame (X : R) : Prop := X = 0 \/ rel X.
Lemma tame_nonneg X : tame X -> 0 <= X.
Proof. intros [->|H]; [lra|]. pose proof (rel_pos H). lra. Qed.
Lemma mul_tame x y X k : bfin x = true -> bfin y = true -> tame X -> 1 <= k <= 1000 -> Rabs (Bval x * Bval y) <= k * X ->
  bfin (nmul x y) = true /\ Rabs (Bval (nmul x y) - Bval x * Bval y) <= eps * (k * X).
Proof.
  intros Fx Fy [->|HX] K H; [|now apply mul_ap; [| |apply rel_mid|]].
  rewrite Rmult_0_r in *. assert (Z : Bval x * Bval y = 0) by (destruct (Req_dec (Bval x * Bval y) 0) as [|N]; [assumption|apply Rabs_pos_lt in N; lra]).
  change (nmul x y) with (bmul x y). destruct (@bmul_val x y) as [-> ->]; auto; [rewrite Z; apply small0|]. rewrite Z, rnd64_0, Rminus_0_r, Rabs_R0. lra.
Qed.
Lemma add_tame x y X k : bfin x = true -> bfin y = true -> tame X -> 1 <= k <= 1000 -> Rabs (Bval x + Bval y) <= k * X ->
  bfin (nadd x y) = true /\ Rabs (Bval (nadd x y) - (Bval x + Bval y)) <= eps * (k * X).
Proof.
  intros Fx Fy [->|HX] K H; [|now apply add_ap; [| |apply rel_mid|]].
  rewrite Rmult_0_r in *. assert (Z : Bval x + Bval y = 0) by (destruct (Req_dec (Bval x + Bval y) 0) as [|N]; [assumption|apply Rabs_pos_lt in N; lra]).
  change (nadd x y) with (badd x y). destruct (@badd_val x y) as [-> ->]; auto; [rewrite Z; apply small0|]. rewrite Z, rnd64_0, Rminus_0_r, Rabs_R0. lra.
Qed.
Definition dot4 (r c : V4 b64) : R := Bval (d0 r) * Bval (d0 c) + Bval (d1 r) * Bval (d1 c) + Bval (d2 r) * Bval (d2 c) + Bval (d3 r) * Bval (d3 c).
Definition dot4abs (r c : V4 b64) : R := Rabs (Bval (d0 r) * Bval (d0 c)) + Rabs (Bval (d1 r) * Bval (d1 c)) + Rabs (Bval (d2 r) * Bval (d2 c)) + Rabs (Bval (d3 r) * Bval (d3 c)).
Lemma dot4_ap r c X : fin_v4 r -> fin_v4 c -> tame X -> dot4abs r c <= 103 / 100 * X ->
  bfin (vdot4 r c) = true /\ Rabs (Bval (vdot4 r c) - dot4 r c) <= 8 * (eps * X).
Proof.
  intros (R0 & R1 & R2 & R3) (C0 & C1 & C2 & C3) HX. unfold dot4, dot4abs, vdot4.
  set (p0 := Bval (d0 r) * Bval (d0 c)). set (p1 := Bval (d1 r) * Bval (d1 c)). set (p2 := Bval (d2 r) * Bval (d2 c)). set (p3 := Bval (d3 r) * Bval (d3 c)). intros H.
  pose proof (Rabs_pos p0) as A0. pose proof (Rabs_pos p1) as A1. pose proof (Rabs_pos p2) as A2. pose proof (Rabs_pos p3) as A3.
  pose proof (tame_nonneg HX) as PX. pose proof eps_pos as PE. pose proof eps_small as SE.
  assert (EX : 0 <= eps * X) by nra. assert (EX' : eps * X <= X / 1000000) by nra.
  destruct (@mul_tame (d0 r) (d0 c) X (103 / 100) R0 C0 HX ltac:(lra)) as [P0 E0]; [fold p0; lra|].
  destruct (@mul_tame (d1 r) (d1 c) X (103 / 100) R1 C1 HX ltac:(lra)) as [P1 E1]; [fold p1; lra|].
  destruct (@mul_tame (d2 r) (d2 c) X (103 / 100) R2 C2 HX ltac:(lra)) as [P2 E2]; [fold p2; lra|].
  destruct (@mul_tame (d3 r) (d3 c) X (103 / 100) R3 C3 HX ltac:(lra)) as [P3 E3]; [fold p3; lra|].
  fold p0 in E0. fold p1 in E1. fold p2 in E2. fold p3 in E3.
  assert (I : forall p, - Rabs p <= p <= Rabs p) by (intros p; apply abs_le; lra).
  pose proof (I p0). pose proof (I p1). pose proof (I p2). pose proof (I p3). apply abs_le in E0, E1, E2, E3.
  destruct (@add_tame _ _ X (104 / 100) P0 P1 HX ltac:(lra)) as [S1 E4]; [apply abs_le; lra|]. apply abs_le in E4.
  destruct (@add_tame _ _ X (104 / 100) S1 P2 HX ltac:(lra)) as [S2 E5]; [apply abs_le; lra|]. apply abs_le in E5.
  destruct (@add_tame _ _ X (104 / 100) S2 P3 HX ltac:(lra)) as [S3 E6]; [apply abs_le; lra|]. apply abs_le in E6.
  split; [exact S3|]. apply abs_le. lra.
Qed.

(** ** Row sums *)
Lemma abs_sum_pos v : 0 <= abs_sum v.
Proof. unfold abs_sum. pose proof (Rabs_pos (c0 v)). pose proof (Rabs_pos (c1 v)). pose proof (Rabs_pos (c2 v)). lra. Qed.
Lemma abs_sum_add v w : abs_sum (radd v w) <= abs_sum v + abs_sum w.
Proof. unfold abs_sum, radd. cbn [c0 c1 c2]. pose proof (Rabs_triang (c0 v) (c0 w)). pose proof (Rabs_triang (c1 v) (c1 w)). pose proof (Rabs_triang (c2 v) (c2 w)). lra. Qed.
Lemma rows_pos a A : rows_le a A -> 0 <= a.
Proof. intros [H _]. pose proof (abs_sum_pos (c0 A)). lra. Qed.
Lemma coords_pos s t : coords_le s t -> 0 <= s.
Proof. intros [H _]. pose proof (Rabs_pos (c0 t)). lra. Qed.
Definition dotabs (v w : V3 R) : R := Rabs (c0 v * c0 w) + Rabs (c1 v * c1 w) + Rabs (c2 v * c2 w).
Lemma dotabs_le v w s : coords_le s w -> dotabs v w <= abs_sum v * s.
Proof.
  intros (H0 & H1 & H2). unfold dotabs, abs_sum. rewrite !Rabs_mult.
  pose proof (Rmult_le_compat_l _ _ _ (Rabs_pos (c0 v)) H0). pose proof (Rmult_le_compat_l _ _ _ (Rabs_pos (c1 v)) H1). pose proof (Rmult_le_compat_l _ _ _ (Rabs_pos (c2 v)) H2). lra.
Qed.
Lemma rdot_abs v w : Rabs (rdot v w) <= dotabs v w.
Proof. unfold rdot, dotabs. eapply Rle_trans; [apply Rabs_triang|]. apply Rplus_le_compat_r. apply Rabs_triang. Qed.
Lemma rdot_le v w s : coords_le s w -> Rabs (rdot v w) <= abs_sum v * s.
Proof. intros H. eapply Rle_trans; [apply rdot_abs|]. now apply dotabs_le. Qed.
Lemma rowmul_le v M m : rows_le m M -> abs_sum (rapply (rtrans M) v) <= abs_sum v * m.
Proof.
  intros (H0 & H1 & H2). unfold rapply, rtrans, rcol0, rcol1, rcol2. unfold abs_sum at 1. cbn [c0 c1 c2].
  pose proof (rdot_abs (mk3 (c0 (c0 M)) (c0 (c1 M)) (c0 (c2 M))) v) as A0. pose proof (rdot_abs (mk3 (c1 (c0 M)) (c1 (c1 M)) (c1 (c2 M))) v) as A1. pose proof (rdot_abs (mk3 (c2 (c0 M)) (c2 (c1 M)) (c2 (c2 M))) v) as A2.
  unfold dotabs in A0, A1, A2. cbn [c0 c1 c2] in A0, A1, A2. rewrite !Rabs_mult in A0, A1, A2. unfold abs_sum in H0, H1, H2.
  pose proof (Rmult_le_compat_l _ _ _ (Rabs_pos (c0 v)) H0). pose proof (Rmult_le_compat_l _ _ _ (Rabs_pos (c1 v)) H1). pose proof (Rmult_le_compat_l _ _ _ (Rabs_pos (c2 v)) H2). unfold abs_sum. lra.
Qed.

(** ** Matrices near an exact map *)
Definition row4 (v : V4 b64) : V3 R := mk3 (Bval (d0 v)) (Bval (d1 v)) (Bval (d2 v)).
Definition lin (m : M4 b64) : M3 R := mk3 (row4 (d0 m)) (row4 (d1 m)) (row4 (d2 m)).
Definition off (m : M4 b64) : V3 R := mk3 (Bval (d3 (d0 m))) (Bval (d3 (d1 m))) (Bval (d3 (d2 m))).
Definition rmsub (A B : M3 R) : M3 R := mk3 (rsub (c0 A) (c0 B)) (rsub (c1 A) (c1 B)) (rsub (c2 A) (c2 B)).
Definition near (e l s : R) (m : M4 b64) (f : rigid) : Prop :=
  fin_m4 m /\ lrow m /\ rows_le l (fst f) /\ coords_le s (snd f) /\ rows_le (e * l) (rmsub (lin m) (fst f)) /\ coords_le (e * s) (rsub (off m) (snd f)).
Lemma near_rows e l s m f : near e l s m f -> rows_le ((1 + e) * l) (lin m).
Proof.
  intros (_ & _ & (A0 & A1 & A2) & _ & (B0 & B1 & B2) & _). unfold rmsub in B0, B1, B2. cbn [c0 c1 c2] in B0, B1, B2.
  assert (G : forall v w, abs_sum w <= l -> abs_sum (rsub v w) <= e * l -> abs_sum v <= (1 + e) * l).
  { intros v w H K. replace v with (radd (rsub v w) w); [eapply Rle_trans; [apply abs_sum_add|lra]|]. destruct v, w. unfold radd, rsub. cbn. f_equal; ring. }
  exact (conj (G _ _ A0 B0) (conj (G _ _ A1 B1) (G _ _ A2 B2))).
Qed.
Lemma near_coords e l s m f : near e l s m f -> coords_le ((1 + e) * s) (off m).
Proof.
  intros (_ & _ & _ & (A0 & A1 & A2) & _ & (B0 & B1 & B2)). unfold rsub in B0, B1, B2. cbn [c0 c1 c2] in B0, B1, B2.
  assert (G : forall v w, Rabs w <= s -> Rabs (v - w) <= e * s -> Rabs v <= (1 + e) * s).
  { intros v w H K. replace v with ((v - w) + w) by ring. eapply Rle_trans; [apply Rabs_triang|lra]. }
  exact (conj (G _ _ A0 B0) (conj (G _ _ A1 B1) (G _ _ A2 B2))).
Qed.
Lemma coords_of_rows a M : rows_le a M -> coords_le a (rcol0 M) /\ coords_le a (rcol1 M) /\ coords_le a (rcol2 M).
Proof.
  intros (H0 & H1 & H2). unfold abs_sum in *. unfold coords_le, rcol0, rcol1, rcol2. cbn [c0 c1 c2].
  pose proof (Rabs_pos (c0 (c0 M))). pose proof (Rabs_pos (c1 (c0 M))). pose proof (Rabs_pos (c2 (c0 M))).
  pose proof (Rabs_pos (c0 (c1 M))). pose proof (Rabs_pos (c1 (c1 M))). pose proof (Rabs_pos (c2 (c1 M))).
  pose proof (Rabs_pos (c0 (c2 M))). pose proof (Rabs_pos (c1 (c2 M))). pose proof (Rabs_pos (c2 (c2 M))). repeat split; lra.
Qed.
Definition rowmul (v : V3 R) (M : M3 R) : V3 R := rapply (rtrans M) v.
Lemma rowmul_diff p a Q B : rsub (rowmul p Q) (rowmul a B) = radd (rowmul (rsub p a) Q) (rowmul a (rmsub Q B)).
Proof.
  destruct p, a, Q as [[? ? ?] [? ? ?] [? ? ?]], B as [[? ? ?] [? ? ?] [? ? ?]].
  unfold rowmul, rapply, rtrans, rcol0, rcol1, rcol2, rmsub, rsub, radd, rdot. cbn. f_equal; ring.
Qed.
Section Row.
Context (e1 e2 l1 s1 l2 s2 : R) (p : V4 b64) (a : V3 R) (ta : R) (Q : M4 b64) (B : M3 R) (tb : V3 R).
Context (Fp : fin_v4 p) (Pa : abs_sum (rsub (row4 p) a) <= e1 * l1) (Pt : Rabs (Bval (d3 p) - ta) <= e1 * s1) (Sa : abs_sum a <= l1) (St : Rabs ta <= s1).
Context (NQ : near e2 l2 s2 Q (B, tb)) (E1 : 0 <= e1 <= / 100) (E2 : 0 <= e2 <= / 100) (T : tame (l1 * l2)) (U : tame (l1 * s2 + s1)).
Let r : V4 b64 := map4 (vdot4 p) (m4trans Q).
Lemma l1_pos : 0 <= l1. Proof. pose proof (abs_sum_pos a). lra. Qed.
Lemma l2_pos : 0 <= l2. Proof. destruct NQ as (_ & _ & H & _). exact (rows_pos H). Qed.
Lemma s1_pos : 0 <= s1. Proof. pose proof (Rabs_pos ta). lra. Qed.
Lemma s2_pos : 0 <= s2. Proof. destruct NQ as (_ & _ & _ & H & _). exact (coords_pos H). Qed.
Lemma p_size : abs_sum (row4 p) <= (1 + e1) * l1.
Proof.
  replace (row4 p) with (radd (rsub (row4 p) a) a); [eapply Rle_trans; [apply abs_sum_add|lra]|]. destruct a. unfold radd, rsub, row4. cbn. f_equal; ring.
Qed.
Lemma scale_bound x y X Y : 0 <= X -> 0 <= Y -> x <= (1 + e1) * X -> 0 <= x -> y <= (1 + e2) * Y -> 0 <= y -> x * y <= 103 / 100 * (X * Y).
Proof.
  intros HX HY Hx Px Hy Py. apply Rle_trans with (((1 + e1) * X) * ((1 + e2) * Y)); [now apply Rmult_le_compat|].
  replace ((1 + e1) * X * ((1 + e2) * Y)) with (((1 + e1) * (1 + e2)) * (X * Y)) by ring. apply Rmult_le_compat_r; nra.
Qed.
Lemma col_ap q (w : V3 R) : fin_v4 q -> Bval (d3 q) = 0 -> row4 q = w -> coords_le ((1 + e2) * l2) w ->
  bfin (vdot4 p q) = true /\ Rabs (Bval (vdot4 p q) - rdot w (row4 p)) <= 8 * (eps * (l1 * l2)).
Proof.
  intros Fq Z E C. subst w. destruct (dot4_ap Fp Fq T) as [F K].
  - unfold dot4abs. rewrite Z, Rmult_0_r, Rabs_R0, Rplus_0_r. change (dotabs (row4 p) (row4 q) <= 103 / 100 * (l1 * l2)).
    eapply Rle_trans; [apply (dotabs_le _ C)|]. apply scale_bound; auto using l1_pos, l2_pos, p_size, abs_sum_pos. lra. exact (coords_pos C).
  - split; [exact F|]. replace (rdot (row4 q) (row4 p)) with (dot4 p q); [exact K|]. unfold dot4, rdot, row4. cbn [c0 c1 c2]. rewrite Z. ring.
Qed.
Lemma row_ap : fin_v4 r /\ abs_sum (rsub (row4 r) (rowmul a B)) <= (e1 + e2 + e1 * e2 + 24 * eps) * (l1 * l2) /\
  Rabs (Bval (d3 r) - (rdot a tb + ta)) <= (e1 + e2 + e1 * e2 + 24 * eps) * (l1 * s2 + s1).
Proof.
  pose proof l1_pos as L1. pose proof l2_pos as L2. pose proof s1_pos as S1. pose proof s2_pos as S2. pose proof eps_pos as PE.
  pose proof (near_rows NQ) as RQ. pose proof (near_coords NQ) as CQ. destruct (coords_of_rows RQ) as (W0 & W1 & W2).
  destruct NQ as (FQ & LQ & RB & CB & RD & CD). cbn [fst snd] in *. pose proof (fin_trans FQ) as (T0 & T1 & T2 & T3). destruct LQ as (Z0 & Z1 & Z2 & Z3).
  destruct (@col_ap (d0 (m4trans Q)) (rcol0 (lin Q)) T0 Z0 eq_refl W0) as [F0 K0].
  destruct (@col_ap (d1 (m4trans Q)) (rcol1 (lin Q)) T1 Z1 eq_refl W1) as [F1 K1].
  destruct (@col_ap (d2 (m4trans Q)) (rcol2 (lin Q)) T2 Z2 eq_refl W2) as [F2 K2].
  assert (E3 : dot4 p (d3 (m4trans Q)) = rdot (row4 p) (off Q) + Bval (d3 p)).
  { unfold dot4. change (Bval (d3 (d3 (m4trans Q)))) with (Bval (d3 (d3 Q))). rewrite Z3. unfold rdot, row4, off, m4trans, map4. cbn [c0 c1 c2 d0 d1 d2 d3]. ring. }
  assert (P3 : Rabs (Bval (d3 p)) <= (1 + e1) * s1).
  { replace (Bval (d3 p)) with ((Bval (d3 p) - ta) + ta) by ring. eapply Rle_trans; [apply Rabs_triang|]. lra. }
  destruct (@dot4_ap p (d3 (m4trans Q)) (l1 * s2 + s1) Fp T3 U) as [F3 K3].
  { unfold dot4abs. change (Bval (d3 (d3 (m4trans Q)))) with (Bval (d3 (d3 Q))). rewrite Z3, Rmult_1_r.
    assert (D : dotabs (row4 p) (off Q) <= 103 / 100 * (l1 * s2)).
    { eapply Rle_trans; [apply (dotabs_le _ CQ)|]. apply scale_bound; auto using p_size, abs_sum_pos. lra. exact (coords_pos CQ). }
    unfold dotabs, row4, off in D. cbn [c0 c1 c2] in D. unfold m4trans, map4. cbn [d0 d1 d2 d3]. nra. }
  split; [|split].
  - exact (conj F0 (conj F1 (conj F2 F3))).
  - replace (rsub (row4 r) (rowmul a B)) with (radd (rsub (row4 r) (rowmul (row4 p) (lin Q))) (rsub (rowmul (row4 p) (lin Q)) (rowmul a B))).
    2:{ unfold radd, rsub. cbn [c0 c1 c2]. f_equal; ring. }
    eapply Rle_trans; [apply abs_sum_add|]. rewrite rowmul_diff.
    pose proof (abs_sum_add (rowmul (rsub (row4 p) a) (lin Q)) (rowmul a (rmsub (lin Q) B))) as H1.
    pose proof (rowmul_le (rsub (row4 p) a) RQ) as H2. pose proof (rowmul_le a RD) as H3. fold (rowmul (rsub (row4 p) a) (lin Q)) in H2. fold (rowmul a (rmsub (lin Q) B)) in H3.
    assert (H4 : abs_sum (rsub (row4 p) a) * ((1 + e2) * l2) <= e1 * l1 * ((1 + e2) * l2)) by (apply Rmult_le_compat_r; [nra|exact Pa]).
    assert (H5 : abs_sum a * (e2 * l2) <= l1 * (e2 * l2)) by (apply Rmult_le_compat_r; [nra|exact Sa]).
    assert (H6 : abs_sum (rsub (row4 r) (rowmul (row4 p) (lin Q))) <= 24 * (eps * (l1 * l2))).
    { change (Rabs (Bval (vdot4 p (d0 (m4trans Q))) - rdot (rcol0 (lin Q)) (row4 p)) + Rabs (Bval (vdot4 p (d1 (m4trans Q))) - rdot (rcol1 (lin Q)) (row4 p)) +
        Rabs (Bval (vdot4 p (d2 (m4trans Q))) - rdot (rcol2 (lin Q)) (row4 p)) <= 24 * (eps * (l1 * l2))). lra. }
    lra.
  - replace (Bval (d3 r) - (rdot a tb + ta)) with ((Bval (d3 r) - (rdot (row4 p) (off Q) + Bval (d3 p))) + ((rdot (rsub (row4 p) a) (off Q) + rdot a (rsub (off Q) tb)) + (Bval (d3 p) - ta))).
    2:{ unfold rdot, rsub. cbn [c0 c1 c2]. ring. }
    rewrite E3 in K3. eapply Rle_trans; [apply Rabs_triang|].
    pose proof (Rabs_triang (rdot (rsub (row4 p) a) (off Q) + rdot a (rsub (off Q) tb)) (Bval (d3 p) - ta)) as H0.
    pose proof (Rabs_triang (rdot (rsub (row4 p) a) (off Q)) (rdot a (rsub (off Q) tb))) as H1.
    pose proof (rdot_le (rsub (row4 p) a) CQ) as H2. pose proof (rdot_le a CD) as H3.
    assert (H4 : abs_sum (rsub (row4 p) a) * ((1 + e2) * s2) <= e1 * l1 * ((1 + e2) * s2)) by (apply Rmult_le_compat_r; [nra|exact Pa]).
    assert (H5 : abs_sum a * (e2 * s2) <= l1 * (e2 * s2)) by (apply Rmult_le_compat_r; [nra|exact Sa]).
    change (Bval (d3 r)) with (Bval (vdot4 p (d3 (m4trans Q)))).
    assert (0 <= e1 * e2 * s1) by (repeat apply Rmult_le_pos; lra). assert (0 <= e2 * s1) by (apply Rmult_le_pos; lra).
    assert (0 <= l1 * s2 + s1) by (pose proof (Rmult_le_pos _ _ L1 S2); lra). assert (0 <= eps * (l1 * s2 + s1)) by (apply Rmult_le_pos; lra). lra.
Qed.
End Row.
Definition after_ (f g : rigid) : rigid := (rmmul (fst f) (fst g), radd (rapply (fst f) (snd g)) (snd f)).
Lemma move_after f g x : move (after_ f g) x = move f (move g x).
Proof.
  destruct f as [[[? ? ?] [? ? ?] [? ? ?]] [? ? ?]], g as [[[? ? ?] [? ? ?] [? ? ?]] [? ? ?]], x. unfold move, after_, rmmul, rapply, radd, rdot, rcol0, rcol1, rcol2. cbn. f_equal; ring.
Qed.
Lemma rowmul_rows A B : rmmul A B = mk3 (rowmul (c0 A) B) (rowmul (c1 A) B) (rowmul (c2 A) B).
Proof. destruct A as [[? ? ?] [? ? ?] [? ? ?]], B as [[? ? ?] [? ? ?] [? ? ?]]. unfold rmmul, rowmul, rapply, rtrans, rcol0, rcol1, rcol2, rdot. cbn. f_equal; f_equal; ring. Qed.
Lemma rowmul_size a B l1 l2 : abs_sum a <= l1 -> rows_le l2 B -> abs_sum (rowmul a B) <= l1 * l2.
Proof. intros H K. eapply Rle_trans; [apply (rowmul_le a K)|]. apply Rmult_le_compat_r; [exact (rows_pos K)|exact H]. Qed.
Lemma move_size a t l1 s1 x s : abs_sum a <= l1 -> Rabs t <= s1 -> coords_le s x -> Rabs (rdot a x + t) <= l1 * s + s1.
Proof.
  intros H K C. eapply Rle_trans; [apply Rabs_triang|]. apply Rplus_le_compat; [|exact K]. eapply Rle_trans; [apply (rdot_le a C)|]. apply Rmult_le_compat_r; [exact (coords_pos C)|exact H].
Qed.
Lemma mul_near e1 e2 l1 s1 l2 s2 P Q f g : near e1 l1 s1 P f -> near e2 l2 s2 Q g -> 0 <= e1 <= / 100 -> 0 <= e2 <= / 100 -> tame (l1 * l2) -> tame (l1 * s2 + s1) ->
  near (e1 + e2 + e1 * e2 + 24 * eps) (l1 * l2) (l1 * s2 + s1) (m4mul P Q) (after_ f g).
Proof.
  intros NP NQ E1 E2 T U. pose proof NP as (FP & LP & (A0 & A1 & A2) & (B0 & B1 & B2) & (C0 & C1 & C2) & (D0 & D1 & D2)).
  pose proof FP as (P0 & P1 & P2 & P3). pose proof NQ as (FQ & LQ & RQ & CQ & _).
  destruct f as [A t], g as [B tb]. cbn [fst snd] in *.
  destruct (row_ap P0 C0 D0 A0 B0 NQ E1 E2 T U) as (G0 & H0 & K0).
  destruct (row_ap P1 C1 D1 A1 B1 NQ E1 E2 T U) as (G1 & H1 & K1).
  destruct (row_ap P2 C2 D2 A2 B2 NQ E1 E2 T U) as (G2 & H2 & K2).
  split; [|split; [|split; [|split; [|split]]]].
  - split; [exact G0|]. split; [exact G1|]. split; [exact G2|]. pose proof (fin_trans FQ) as (T0 & T1 & T2 & T3). pose proof LQ as (Z0 & Z1 & Z2 & Z3).
    split; [exact (Logic.proj2 (@dot_row _ (d0 (m4trans Q)) P3 T0 LP (le1_0 Z0)))|]. split; [exact (Logic.proj2 (@dot_row _ (d1 (m4trans Q)) P3 T1 LP (le1_0 Z1)))|].
    split; [exact (Logic.proj2 (@dot_row _ (d2 (m4trans Q)) P3 T2 LP (le1_0 Z2)))|exact (Logic.proj2 (@dot_row _ (d3 (m4trans Q)) P3 T3 LP (le1_1 Z3)))].
  - now apply mul_lrow.
  - cbn [after_ fst snd]. rewrite rowmul_rows. split; [|split]; cbn [c0 c1 c2]; now apply rowmul_size.
  - cbn [after_ fst snd]. split; [|split]; cbn [radd rapply c0 c1 c2]; now apply move_size.
  - cbn [after_ fst snd]. rewrite rowmul_rows. split; [exact H0|]. split; [exact H1|exact H2].
  - cbn [after_ fst snd]. split; [exact K0|]. split; [exact K1|exact K2].
Qed.
Lemma near_mono e e' l s m f : e <= e' -> near e l s m f -> near e' l s m f.
Proof.
  intros H (F & L & R & C & (A0 & A1 & A2) & (B0 & B1 & B2)). pose proof (rows_pos R) as Pl. pose proof (coords_pos C) as Ps.
  pose proof (Rmult_le_compat_r _ _ _ Pl H). pose proof (Rmult_le_compat_r _ _ _ Ps H).
  split; [exact F|]. split; [exact L|]. split; [exact R|]. split; [exact C|]. split; (split; [|split]); lra.
Qed.
Lemma near_grow e l s l' s' m f : 0 <= e -> l <= l' -> s <= s' -> near e l s m f -> near e l' s' m f.
Proof.
  intros E H K (F & L & (R0 & R1 & R2) & (C0 & C1 & C2) & (A0 & A1 & A2) & (B0 & B1 & B2)).
  pose proof (Rmult_le_compat_l _ _ _ E H). pose proof (Rmult_le_compat_l _ _ _ E K).
  split; [exact F|]. split; [exact L|]. repeat split; lra.
Qed.
(** ** the order of the factors of a product does not matter *)
Lemma bmul_comm x y : bmul x y = bmul y x.
Proof.
  destruct x as [s|s| |s m e B], y as [s'|s'| |s' m' e' B']; try reflexivity; cbn; try (f_equal; apply xorb_comm).
  apply B2SF_inj. rewrite !B2SF_SF2B. rewrite (xorb_comm s s'), (Pos.mul_comm m m'), (Z.add_comm e e'). reflexivity.
Qed.
Lemma vdot4_comm (r c : V4 b64) : vdot4 r c = vdot4 c r.
Proof. unfold vdot4. cbn [nmul nadd b64_num]. rewrite (bmul_comm (d0 r)), (bmul_comm (d1 r)), (bmul_comm (d2 r)), (bmul_comm (d3 r)). reflexivity. Qed.
Lemma mul_trans (a b : M4 b64) : m4mul (m4trans a) (m4trans b) = m4trans (m4mul b a).
Proof.
  unfold m4mul. unfold m4trans at 3. unfold map4. cbn [d0 d1 d2 d3].
  assert (T : forall m : M4 b64, m4trans (m4trans m) = m) by (intros [[? ? ? ?] [? ? ? ?] [? ? ? ?] [? ? ? ?]]; reflexivity).
  rewrite T. rewrite !(vdot4_comm (d0 (m4trans a))), !(vdot4_comm (d1 (m4trans a))), !(vdot4_comm (d2 (m4trans a))), !(vdot4_comm (d3 (m4trans a))). reflexivity.
Qed.
Lemma fold_trans (ms : list (M4 b64)) : forall m, fold_left m4mul (map m4trans ms) (m4trans m) = m4trans (fold_left (fun acc a => m4mul a acc) ms m).
Proof. induction ms as [|a ms IH]; intros m; cbn [map fold_left]; [reflexivity|]. rewrite mul_trans. apply IH. Qed.

(** ** the whole product *)
Definition piece := (M4 b64 * rigid)%type.
Definition piece_near (x : piece) (b : R * R) : Prop := near (5 * eps) (fst b) (snd b) (fst x) (snd x).
Definition prod_with (f : M4 b64 -> M4 b64 -> M4 b64) (xs : list piece) : M4 b64 :=
  match map fst xs with [] => m4eye | m :: ms => fold_left f ms m end.
Lemma ordinary_tame x : ordinary x -> tame x.
Proof. intros [A B]. right. split; [eapply Rle_trans; [|exact A]|eapply Rle_trans; [exact B|]]; apply bpow_le; lia. Qed.
Lemma ordinary0_tame x : x = 0 \/ ordinary x -> tame x.
Proof. intros [->|H]; [now left|now apply ordinary_tame]. Qed.
Lemma reach_ne bs l s : reach bs l s -> bs <> [].
Proof. intros []; [discriminate|]. now destruct bs0. Qed.
Lemma reach_back_ne bs l s : reach_back bs l s -> bs <> [].
Proof. intros []; [discriminate|]. now destruct bs0. Qed.
Lemma moves_app fs gs x : moves (fs ++ gs) x = moves gs (moves fs x).
Proof. apply fold_left_app. Qed.
Lemma prod_snoc f xs x : xs <> [] -> prod_with f (xs ++ [x]) = f (prod_with f xs) (fst x).
Proof. destruct xs as [|y xs]; [tauto|]. intros _. unfold prod_with. rewrite map_app. cbn [map app]. now rewrite fold_left_app. Qed.
Lemma snoc_inv (A B : Type) (P : A -> B -> Prop) l k b : Forall2 P l (k ++ [b]) -> exists l' a, l = l' ++ [a] /\ Forall2 P l' k /\ P a b.
Proof.
  intros H. apply Forall2_app_inv_r in H as (l1 & l2 & H1 & H2 & ->). inversion H2 as [|a ? ? ? Pa N]; subst. inversion N; subst. eauto.
Qed.
Lemma step_err e : 0 <= e <= / 100 -> 5 * eps + e + 5 * eps * e + 24 * eps <= e + 30 * eps.
Proof. intros H. pose proof eps_pos. assert (5 * eps * e <= 5 * eps * / 100) by (apply Rmult_le_compat_l; lra). lra. Qed.
Lemma eps5 : 0 <= 5 * eps <= / 100.
Proof. pose proof eps_pos. pose proof eps_small. lra. Qed.
Lemma fwd_near bs l s : reach bs l s -> forall xs, Forall2 piece_near xs bs -> 30 * INR (length xs) * eps <= / 100 ->
  exists g, near (30 * INR (length xs) * eps - 25 * eps) l s (prod_with (fun acc a => m4mul a acc) xs) g /\ forall p, move g p = moves (map snd xs) p.
Proof.
  pose proof eps_pos as PE. induction 1 as [a s Ha Hs|bs a s l t H IH Ha Hs Hal Hts]; intros xs F N.
  - inversion F as [|x ? ? ? Hx Hn]; subst. inversion Hn; subst. exists (snd x). split; [|reflexivity]. cbn [length INR]. eapply near_mono; [|exact Hx]. lra.
  - apply snoc_inv in F as (xs' & x & -> & F & Hx). rewrite app_length, plus_INR in *. cbn [length INR] in *.
    assert (P : 0 <= INR (length xs')) by apply pos_INR. assert (Q : 0 <= 30 * INR (length xs') * eps) by (apply Rmult_le_pos; lra).
    assert (Ne : xs' <> []) by (intros ->; inversion F; subst; now apply (reach_ne H)).
    destruct (IH xs' F) as (g & G & Mg); [lra|]. exists (after_ (snd x) g). split.
    + rewrite prod_snoc by exact Ne. assert (L1 : 1 <= INR (length xs')) by (destruct xs'; [tauto|]; change 1 with (INR 1); apply le_INR; cbn; lia).
      assert (E2 : 0 <= 30 * INR (length xs') * eps - 25 * eps <= / 100) by (split; [nra|lra]).
      unfold piece_near in Hx. cbn [fst snd] in Hx. pose proof (mul_near Hx G eps5 E2 (ordinary_tame Hal) (ordinary0_tame Hts)) as K. eapply near_mono; [|exact K].
      pose proof (step_err E2). lra.
    + intros p. rewrite move_after, Mg, map_app, moves_app. reflexivity.
Qed.
Lemma bwd_near bs l s : reach_back bs l s -> forall xs, Forall2 piece_near xs bs -> 30 * INR (length xs) * eps <= / 100 ->
  exists g, near (30 * INR (length xs) * eps - 25 * eps) l s (prod_with m4mul xs) g /\ forall p, move g p = moves (rev (map snd xs)) p.
Proof.
  pose proof eps_pos as PE. induction 1 as [a s Ha Hs|bs a s l t H IH Ha Hs Hal Hts]; intros xs F N.
  - inversion F as [|x ? ? ? Hx Hn]; subst. inversion Hn; subst. exists (snd x). split; [|reflexivity]. cbn [length INR]. eapply near_mono; [|exact Hx]. lra.
  - apply snoc_inv in F as (xs' & x & -> & F & Hx). rewrite app_length, plus_INR in *. cbn [length INR] in *.
    assert (P : 0 <= INR (length xs')) by apply pos_INR. assert (Q : 0 <= 30 * INR (length xs') * eps) by (apply Rmult_le_pos; lra).
    assert (Ne : xs' <> []) by (intros ->; inversion F; subst; now apply (reach_back_ne H)).
    destruct (IH xs' F) as (g & G & Mg); [lra|]. exists (after_ g (snd x)). split.
    + rewrite prod_snoc by exact Ne. assert (L1 : 1 <= INR (length xs')) by (destruct xs'; [tauto|]; change 1 with (INR 1); apply le_INR; cbn; lia).
      assert (E2 : 0 <= 30 * INR (length xs') * eps - 25 * eps <= / 100) by (split; [nra|lra]).
      unfold piece_near in Hx. cbn [fst snd] in Hx. pose proof (mul_near G Hx E2 eps5 (ordinary_tame Hal) (ordinary0_tame Hts)) as K. eapply near_mono; [|exact K].
      pose proof (step_err E2). lra.
    + intros p. rewrite move_after, Mg, map_app, rev_app_distr. cbn [rev map app moves fold_left]. reflexivity.
Qed.
(** ** applying it to points *)
Lemma row_apply e l s p a t M x : fin_v4 p -> abs_sum (rsub (row4 p) a) <= e * l -> Rabs (Bval (d3 p) - t) <= e * s -> abs_sum a <= l -> Rabs t <= s ->
  0 <= e <= / 100 -> rel (l * M + s) -> within M x ->
  bfin (vdot4 p (pad1 x)) = true /\ Rabs (Bval (vdot4 p (pad1 x)) - (rdot a (Rval3 x) + t)) <= (e + 8 * eps) * (l * M + s).
Proof.
  intros Fp Pa Pt Sa St E T W. pose proof (abs_sum_pos a). pose proof (Rabs_pos t). destruct (within_fin W) as (X0 & X1 & X2). destruct W as (_ & W0 & W1 & W2).
  assert (C : coords_le M (Rval3 x)) by exact (conj W0 (conj W1 W2)). pose proof (coords_pos C) as PM.
  assert (Sp : abs_sum (row4 p) <= (1 + e) * l).
  { replace (row4 p) with (radd (rsub (row4 p) a) a); [eapply Rle_trans; [apply abs_sum_add|lra]|]. destruct a. unfold radd, rsub, row4. cbn. f_equal; ring. }
  assert (P3 : Rabs (Bval (d3 p)) <= (1 + e) * s).
  { replace (Bval (d3 p)) with ((Bval (d3 p) - t) + t) by ring. eapply Rle_trans; [apply Rabs_triang|]. lra. }
  destruct (@dot4_ap p (pad1 x) (l * M + s) Fp) as [F K].
  - repeat split; cbn; auto.
  - now right.
  - unfold dot4abs. cbn [pad1 d0 d1 d2 d3]. rewrite one_val, Rmult_1_r.
    assert (D : dotabs (row4 p) (Rval3 x) <= (1 + e) * l * M) by (eapply Rle_trans; [apply (dotabs_le _ C)|]; now apply Rmult_le_compat_r).
    unfold dotabs, row4, Rval3, map3 in D. cbn [c0 c1 c2] in D. assert (0 <= l * M) by (apply Rmult_le_pos; lra).
    assert (e * (l * M) <= / 100 * (l * M)) by (apply Rmult_le_compat_r; lra). assert (e * s <= / 100 * s) by (apply Rmult_le_compat_r; lra). lra.
  - split; [exact F|].
    assert (E4 : dot4 p (pad1 x) = rdot (row4 p) (Rval3 x) + Bval (d3 p)).
    { unfold dot4. cbn [pad1 d0 d1 d2 d3]. rewrite one_val. unfold rdot, row4, Rval3, map3. cbn [c0 c1 c2]. ring. }
    rewrite E4 in K. replace (Bval (vdot4 p (pad1 x)) - (rdot a (Rval3 x) + t)) with ((Bval (vdot4 p (pad1 x)) - (rdot (row4 p) (Rval3 x) + Bval (d3 p))) + (rdot (rsub (row4 p) a) (Rval3 x) + (Bval (d3 p) - t))).
    2:{ unfold rdot, rsub. cbn [c0 c1 c2]. ring. }
    eapply Rle_trans; [apply Rabs_triang|]. pose proof (Rabs_triang (rdot (rsub (row4 p) a) (Rval3 x)) (Bval (d3 p) - t)).
    pose proof (rdot_le (rsub (row4 p) a) C). assert (abs_sum (rsub (row4 p) a) * M <= e * l * M) by (now apply Rmult_le_compat_r). lra.
Qed.
Lemma apply_near e l s m f M xs : near e l s m f -> 0 <= e <= / 100 -> rel (l * M + s) -> Forall (within M) xs ->
  exists ys, apply_homogeneous xs m = Ok ys /\ Forall2 (fun x y => close3 ((e + 8 * eps) * (l * M + s)) y (move f (Rval3 x))) xs ys.
Proof.
  intros (Fm & L & (A0 & A1 & A2) & (B0 & B1 & B2) & (C0 & C1 & C2) & (D0 & D1 & D2)) E T W.
  destruct (@apply_ok m xs Fm L) as (ys & Ey & _).
  { eapply Forall_impl; [|exact W]. intros x Wx. exact (within_fin Wx). }
  exists ys. split; [exact Ey|]. unfold apply_homogeneous, unpad in Ey. destruct (forallb _ _); [|discriminate]. injection Ey as <-. unfold pad_with_ones. rewrite !map_map.
  destruct Fm as (F0 & F1 & F2 & _). clear - W E T A0 A1 A2 B0 B1 B2 C0 C1 C2 D0 D1 D2 F0 F1 F2. induction W as [|x xs Wx W IH]; cbn [map]; constructor; [|exact IH].
  destruct (row_apply F0 C0 D0 A0 B0 E T Wx) as [G0 H0]. destruct (row_apply F1 C1 D1 A1 B1 E T Wx) as [G1 H1]. destruct (row_apply F2 C2 D2 A2 B2 E T Wx) as [G2 H2].
  split; [|exact (conj H0 (conj H1 H2))]. unfold fin3b. cbn [unpad1 m4apply map4 c0 c1 c2 d0 d1 d2]. now rewrite G0, G1, G2.
Qed.
