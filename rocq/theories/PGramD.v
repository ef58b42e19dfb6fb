(** * Gram-Schmidt on two rows of doubles: proofs for property C162. *)
From Coq Require Import Reals ZArith List Bool Lra Lia Psatz.
From Flocq Require Import Core IEEE754.BinarySingleNaN.
From Verif Require Import Num B64 BLemmas NpList Vec SpecGeom RList PRList SpecDouble MNumerics PErr PNormD PSumD PMeanD PSliceF PNormalsD.
Import ListNotations.
Local Open Scope R_scope.
Set Implicit Arguments.
Unset Strict Implicit.
Local Notation eps := PErr.eps.

Definition near100 (X : R) : Prop := bpow radix2 (-100) <= X <= bpow radix2 100.
Lemma near_pos X : near100 X -> 0 < X.
Proof. intros [H _]. pose proof (bpow_gt_0 radix2 (-100)). lra. Qed.
Lemma near_mul X Y : near100 X -> near100 Y -> bpow radix2 (-200) <= X * Y <= bpow radix2 200.
Proof. intros [L U] [L' U']. pose proof (bpow_gt_0 radix2 (-100)). change (-200)%Z with (-100 + -100)%Z. change 200%Z with (100 + 100)%Z. rewrite !bpow_plus. split; apply Rmult_le_compat; lra. Qed.
Lemma near_div X Y : near100 X -> near100 Y -> bpow radix2 (-200) <= Y / X <= bpow radix2 200.
Proof.
  intros HX HY. pose proof (near_pos HX) as PX. destruct HX as [L U], HY as [L' U']. pose proof (bpow_gt_0 radix2 (-100)) as P. pose proof (bpow_gt_0 radix2 100). change (-200)%Z with (-100 + -100)%Z. change 200%Z with (100 + 100)%Z. rewrite !bpow_plus.
  assert (B : bpow radix2 (-100) * bpow radix2 100 = 1) by (rewrite <- bpow_plus; reflexivity). split; apply Rmult_le_reg_r with X; auto; unfold Rdiv; rewrite ?Rmult_assoc, ?Rinv_l, ?Rmult_1_r by lra.
  - apply Rle_trans with (bpow radix2 (-100) * 1); [apply Rmult_le_compat_l; [lra|rewrite <- B; apply Rmult_le_compat_l; lra]|lra].
  - apply Rle_trans with (bpow radix2 100 * 1); [lra|]. apply Rmult_le_compat_l; [lra|]. rewrite <- B, Rmult_comm. apply Rmult_le_compat_l; lra.
Qed.
(** [k * z] for a factor up to 2^22 *)
Lemma mid_k k z : 1 <= k <= bpow radix2 30 -> bpow radix2 (-200) <= z <= bpow radix2 200 -> mid (k * z).
Proof.
  intros [K1 K2] [L U]. pose proof (bpow_gt_0 radix2 (-200)). split.
  - apply Rle_trans with (bpow radix2 (-200)); [apply bpow_le; lia|]. nra.
  - apply Rle_trans with (bpow radix2 30 * bpow radix2 200); [apply Rmult_le_compat; lra|rewrite <- bpow_plus; apply bpow_le; lia].
Qed.
Definition pairs (X Y : R) (a b : b64) : Prop := bfin a = true /\ bfin b = true /\ Rabs (Bval a) <= X /\ Rabs (Bval b) <= Y.
Lemma prods X Y u w : near100 X -> near100 Y -> Forall2 (pairs X Y) u w ->
  let n := INR (length u) in let ps := map2 nmul u w in
  length ps = length u /\ Forall (fun x => bfin x = true /\ Rabs (Bval x) <= 1001 / 1000 * (X * Y)) ps /\
  Rabs (rsum (map Bval ps) - ldot (map Bval u) (map Bval w)) <= n * (eps * (X * Y)) /\ Rabs (ldot (map Bval u) (map Bval w)) <= n * (X * Y).
Proof.
  intros HX HY H. pose proof (near_pos HX) as PX. pose proof (near_pos HY) as PY. pose proof eps_pos as PE. pose proof eps_small as SE. assert (PXY : 0 < X * Y) by (apply Rmult_lt_0_compat; lra). cbv zeta.
  induction H as [|a b u w (Fa & Fb & Ba & Bb) _ (IL & IF & ID & IB)].
  - split; [reflexivity|]. split; [constructor|]. cbn. rewrite Rminus_0_r, Rabs_R0. lra.
  - rewrite map2_cons. cbn [length map rsum]. rewrite S_INR, ldot_cons. assert (Q : Rabs (Bval a * Bval b) <= X * Y) by (apply mul_bound; lra).
    destruct (@mul_ap a b (X * Y) Fa Fb) as [F E]; [rewrite <- (Rmult_1_l (X * Y)); apply mid_k; [split; [lra|change 1 with (bpow radix2 0); apply bpow_le; lia]|now apply near_mul]|exact Q|].
    apply abs_le in Q, E, ID, IB. assert (eps * (X * Y) <= 1 / 1000 * (X * Y)) by (apply Rmult_le_compat_r; lra). split; [now rewrite IL|]. split; [constructor; [split; [exact F|apply abs_le; lra]|exact IF]|]. split; apply abs_le; lra.
Qed.
Lemma gdot_ap X Y u w : near100 X -> near100 Y -> Forall2 (pairs X Y) u w -> (1 <= Z.of_nat (length u) <= 2 ^ 20)%Z -> let n := INR (length u) in
  bfin (gdot u w) = true /\ Rabs (Bval (gdot u w) - ldot (map Bval u) (map Bval w)) <= 23 / 10 * (n * n * eps) * (X * Y) /\ Rabs (ldot (map Bval u) (map Bval w)) <= n * (X * Y).
Proof.
  intros HX HY H HN n. destruct (prods HX HY H) as (L & F & D & B). fold n in D, B. unfold gdot. set (ps := map2 nmul u w) in *. pose proof (near_pos HX) as PX. pose proof (near_pos HY) as PY. pose proof eps_pos as PE. assert (PXY : 0 < X * Y) by (apply Rmult_lt_0_compat; lra).
  destruct (@nsum_ap (1001 / 1000 * (X * Y)) ps) as (Fs & Es & _); [|exact F|rewrite L; lia|].
  - destruct (near_mul HX HY) as [A1 A2]. split; [apply Rle_trans with (bpow radix2 (-200)); [apply bpow_le; lia|lra]|apply Rle_trans with (bpow radix2 1 * bpow radix2 200); [change (bpow radix2 1) with 2; lra|rewrite <- bpow_plus; apply bpow_le; lia]].
  - rewrite L in Es. fold n in Es. assert (N1 : 1 <= n) by (change 1 with (INR 1); apply le_INR; lia). split; [exact Fs|]. split; [|exact B].
    assert (Q : 6 / 10 * (eps * (n * (n + 1) * (1001 / 1000 * (X * Y)))) + n * (eps * (X * Y)) <= 23 / 10 * (n * n * eps) * (X * Y)).
    { replace (6 / 10 * (eps * (n * (n + 1) * (1001 / 1000 * (X * Y)))) + n * (eps * (X * Y))) with ((6006 / 10000 * (n * (n + 1)) + n) * (eps * (X * Y))) by field. replace (23 / 10 * (n * n * eps) * (X * Y)) with ((23 / 10 * (n * n)) * (eps * (X * Y))) by ring. apply Rmult_le_compat_r; [apply Rmult_le_pos; lra|nra]. }
    apply abs_le in Es, D. apply abs_le. lra.
Qed.
Lemma pairs_self X Y u w : Forall2 (pairs X Y) u w -> Forall2 (pairs X X) u u.
Proof. induction 1 as [|a b u w (Fa & Fb & Ba & Bb) _ IH]; [constructor|]. constructor; [repeat split; assumption|exact IH]. Qed.
Lemma pairs_in X Y u w a : Forall2 (pairs X Y) u w -> In a u -> Rabs (Bval a) <= X.
Proof. induction 1 as [|a' b u w (_ & _ & P & _) _ IH]; [intros []|intros [<-|Q]; auto]. Qed.
Lemma pairs_sub X Y u w : Forall2 (pairs X Y) u w -> map2 nsub u (repeat n0 (length u)) = u.
Proof. induction 1 as [|a b u w (Fa & _) _ IH]; [reflexivity|]. cbn [length repeat]. rewrite map2_cons, IH. f_equal. destruct a as [s|s| |s m ? ?]; try discriminate Fa; [destruct s; reflexivity|reflexivity]. Qed.
Section Two.
Context (X Y : R) (HX : near100 X) (HY : near100 Y) (u w : list b64) (H : Forall2 (pairs X Y) u w) (HN : (1 <= Z.of_nat (length u) <= 2 ^ 20)%Z) (HU : X * X <= ldot (map Bval u) (map Bval u)).
Let n := INR (length u).
Let K := n * n * eps.
Let D := ldot (map Bval u) (map Bval w).
Let U := ldot (map Bval u) (map Bval u).
Let q := ndiv (gdot u w) (gdot u u).
Lemma n_bounds : 1 <= n <= 1048576 /\ 0 < K /\ K <= / 4096 /\ n * eps <= K /\ eps <= K.
Proof.
  assert (N1 : 1 <= n) by (change 1 with (INR 1); apply le_INR; lia). assert (N2 : n <= 1048576) by (unfold n; rewrite INR_IZR_INZ; apply (IZR_le _ (2 ^ 20)); lia). pose proof eps_pos as PE. split; [lra|]. unfold K. assert (NN : n <= n * n) by nra. assert (NM : n * n <= 1048576 * 1048576) by (apply Rmult_le_compat; lra). split; [apply Rmult_lt_0_compat; lra|]. split; [rewrite eps_val; lra|]. split; [apply Rmult_le_compat_r; lra|]. rewrite <- (Rmult_1_l eps) at 1. apply Rmult_le_compat_r; lra.
Qed.
Let self_pairs : Forall2 (pairs X X) u u := pairs_self H.
Lemma q_ap : bfin q = true /\ Rabs (Bval q * U - D) <= 562 / 100 * (K * n) * (X * Y) /\ Rabs (Bval q) <= 1004 / 1000 * n * (Y / X) /\ X * X <= U <= n * (X * X) /\ Rabs D <= n * (X * Y).
Proof.
  destruct n_bounds as (N & PK & SK & NK & EK). destruct (gdot_ap HX HY H HN) as (F1 & E1 & B1). destruct (gdot_ap HX HX self_pairs HN) as (F2 & E2 & B2). fold n K D U in E1, B1, E2, B2. pose proof (near_pos HX) as PX. pose proof (near_pos HY) as PY. pose proof eps_pos as PE.
  assert (PXY : 0 < X * Y) by (apply Rmult_lt_0_compat; lra). assert (PXX : 0 < X * X) by (apply Rmult_lt_0_compat; lra). fold U in HU. set (g1 := gdot u w) in *. set (g2 := gdot u u) in *.
  apply abs_le in E1, E2. pose proof B1 as B1'. apply abs_le in B1, B2. assert (KXY : K * (X * Y) <= / 4096 * (X * Y)) by (apply Rmult_le_compat_r; lra). assert (KXX : K * (X * X) <= / 4096 * (X * X)) by (apply Rmult_le_compat_r; lra). assert (nXY : X * Y <= n * (X * Y)) by nra. assert (KU : K * (X * X) <= K * U) by (apply Rmult_le_compat_l; lra).
  assert (G2 : 999 / 1000 * (X * X) <= Bval g2) by lra. assert (PG2 : 0 < Bval g2) by lra. assert (G1 : Rabs (Bval g1) <= 1001 / 1000 * (n * (X * Y))) by (apply abs_le; lra).
  assert (QB : Rabs (Bval g1 / Bval g2) <= 1003 / 1000 * n * (Y / X)).
  { unfold Rdiv at 1. rewrite Rabs_mult, (Rabs_pos_eq (/ Bval g2)) by (apply Rlt_le, Rinv_0_lt_compat; exact PG2). apply Rmult_le_reg_r with (Bval g2); [exact PG2|]. rewrite Rmult_assoc, Rinv_l, Rmult_1_r by lra. eapply Rle_trans; [exact G1|].
    apply Rle_trans with (1003 / 1000 * n * (Y / X) * (999 / 1000 * (X * X))); [|apply Rmult_le_compat_l; [apply Rmult_le_pos; [lra|apply Rlt_le, Rdiv_lt_0_compat; lra]|exact G2]]. replace (1003 / 1000 * n * (Y / X) * (999 / 1000 * (X * X))) with (1001997 / 1000000 * (n * (X * Y))) by (field; lra). lra. }
  destruct (@div_ap g1 g2 (1003 / 1000 * n * (Y / X)) F1) as [Fq Eq]; [apply mid_k; [split; [lra|change (bpow radix2 30) with 1073741824; lra]|now apply near_div]|lra|exact QB|]. fold q in Fq, Eq. apply abs_le in Eq. apply abs_le in QB.
  assert (PYX : 0 < Y / X) by (apply Rdiv_lt_0_compat; lra). assert (PnYX : 0 < n * (Y / X)) by (apply Rmult_lt_0_compat; lra). split; [exact Fq|]. split; [|split; [apply abs_le; assert (eps * (1003 / 1000 * n * (Y / X)) <= 1 / 10000 * (n * (Y / X))) by (pose proof eps_small; assert (eps * (n * (Y / X)) <= / 1000000000000 * (n * (Y / X))) by (apply Rmult_le_compat_r; lra); lra); lra|split; [lra|exact B1']]].
  set (r := Bval g1 / Bval g2) in *. assert (R : r * Bval g2 = Bval g1) by (unfold r; field; lra).
  assert (A1 : Rabs ((Bval q - r) * U) <= eps * (1003 / 1000 * n * (Y / X)) * (n * (X * X))) by (apply mul_bound; [apply Rmult_le_pos; lra|apply Rmult_le_pos; lra|apply abs_le; lra|rewrite Rabs_pos_eq; lra]).
  replace (eps * (1003 / 1000 * n * (Y / X)) * (n * (X * X))) with (1003 / 1000 * (K * (X * Y))) in A1 by (unfold K; field; lra).
  assert (A2 : Rabs (r * U - D) <= 4605 / 1000 * (K * n) * (X * Y)).
  { replace (r * U - D) with (/ (Bval g2 / U) * ((Bval g1 - D) + D / U * (U - Bval g2))) by (unfold r; field; lra). assert (PT : 9994 / 10000 <= Bval g2 / U). { apply Rmult_le_reg_r with U; [lra|]. replace (Bval g2 / U * U) with (Bval g2) by (field; lra). lra. }
    assert (T1 : Rabs (D / U * (U - Bval g2)) <= n * Y / X * (23 / 10 * K * (X * X))).
    { replace (D / U * (U - Bval g2)) with (D * ((U - Bval g2) / U)) by (field; lra). assert (Z : Rabs ((U - Bval g2) / U) <= 23 / 10 * K). { unfold Rdiv. rewrite Rabs_mult, (Rabs_pos_eq (/ U)) by (apply Rlt_le, Rinv_0_lt_compat; lra). apply Rmult_le_reg_r with U; [lra|]. rewrite Rmult_assoc, Rinv_l, Rmult_1_r by lra. apply abs_le. lra. }
      replace (n * Y / X * (23 / 10 * K * (X * X))) with (n * (X * Y) * (23 / 10 * K)) by (field; lra). apply mul_bound; [apply Rmult_le_pos; lra|lra|apply abs_le; lra|exact Z]. }
    replace (n * Y / X * (23 / 10 * K * (X * X))) with (23 / 10 * (K * n * (X * Y))) in T1 by (field; lra). assert (KN : K * (X * Y) <= K * n * (X * Y)) by (rewrite Rmult_assoc; apply Rmult_le_compat_l; lra).
    rewrite Rabs_mult, (Rabs_pos_eq (/ (Bval g2 / U))) by (apply Rlt_le, Rinv_0_lt_compat; lra). apply Rmult_le_reg_l with (Bval g2 / U); [lra|]. rewrite <- Rmult_assoc, Rinv_r, Rmult_1_l by lra.
    apply Rle_trans with (46 / 10 * (K * n * (X * Y))); [apply abs_le in T1; apply abs_le; lra|]. assert (PKn : 0 < K * n * (X * Y)) by (apply Rmult_lt_0_compat; [apply Rmult_lt_0_compat; lra|lra]). apply Rle_trans with (9994 / 10000 * (4605 / 1000 * (K * n) * (X * Y))); [lra|]. apply Rmult_le_compat_r; lra. }
  assert (KN : K * (X * Y) <= K * n * (X * Y)) by (rewrite Rmult_assoc; apply Rmult_le_compat_l; lra). apply abs_le in A1, A2. apply abs_le. replace (Bval q * U - D) with ((Bval q - r) * U + (r * U - D)) by ring. lra.
Qed.
Let e := 301 / 100 * (n * eps) * Y.
Definition step (a b : b64) : b64 := nsub b (nadd n0 (nmul q a)).
Lemma step_ap a b : pairs X Y a b -> bfin (step a b) = true /\ Rabs (Bval (step a b) - (Bval b - Bval q * Bval a)) <= e.
Proof.
  intros (Fa & Fb & Ba & Bb). destruct q_ap as (Fq & _ & Bq & _). destruct n_bounds as (N & _ & _ & _ & _). pose proof (near_pos HX) as PX. pose proof (near_pos HY) as PY. pose proof eps_pos as PE. pose proof eps_small as SE.
  assert (PnY : 0 < n * Y) by (apply Rmult_lt_0_compat; lra). assert (YnY : Y <= n * Y) by nra. assert (EnY : eps * (n * Y) <= / 1000000 * (n * Y)) by (apply Rmult_le_compat_r; lra). pose proof (Rmult_lt_0_compat _ _ PE PnY) as PEN.
  assert (R : forall k, 1 <= k <= 3 -> mid (k * (n * Y))).
  { intros k Hk. rewrite <- Rmult_assoc. apply mid_k; [split; [nra|change (bpow radix2 30) with 1073741824; nra]|]. destruct HY as [A1 A2]. split; [eapply Rle_trans; [|exact A1]|eapply Rle_trans; [exact A2|]]; apply bpow_le; lia. }
  assert (M0 : Rabs (Bval q * Bval a) <= 1004 / 1000 * (n * Y)).
  { replace (1004 / 1000 * (n * Y)) with (1004 / 1000 * n * (Y / X) * X) by (field; lra). apply mul_bound; [apply Rmult_le_pos; [lra|apply Rlt_le, Rdiv_lt_0_compat; lra]|lra|exact Bq|exact Ba]. }
  destruct (@mul_ap q a (1004 / 1000 * (n * Y)) Fq Fa) as [Fm Em]; [apply R; lra|exact M0|]. apply abs_le in Em, M0, Bb. unfold step. assert (Z1 : bfin (n0 : b64) = true) by reflexivity. assert (Z2 : Bval (n0 : b64) = 0) by reflexivity. destruct (add_0l Z1 Z2 Fm) as [[Fz Ez] _].
  destruct (@sub_ap b (nadd n0 (nmul q a)) (2005 / 1000 * (n * Y)) Fb Fz) as [Fs Es]; [apply R; lra|rewrite Ez; apply abs_le; lra|]. rewrite Ez in Es. split; [exact Fs|]. apply abs_le in Es. apply abs_le. unfold e. lra.
Qed.
Lemma steps_ap u' w' : Forall2 (pairs X Y) u' w' ->
  let o := map2 nsub w' (map2 nadd (repeat n0 (length w')) (map (nmul q) u')) in
  length o = length u' /\ Forall (fun x => bfin x = true) o /\
  Rabs (ldot (map Bval u') (map Bval o) - (ldot (map Bval u') (map Bval w') - Bval q * ldot (map Bval u') (map Bval u'))) <= INR (length u') * (X * e) /\
  (forall i a b, nth_error u' i = Some a -> nth_error w' i = Some b -> exists c, nth_error o i = Some c /\ Rabs (Bval c - (Bval b - Bval q * Bval a)) <= e).
Proof.
  intros HP. assert (Pe : 0 <= e). { destruct n_bounds as (N & _). pose proof (near_pos HY). pose proof eps_pos. unfold e. apply Rmult_le_pos; [|lra]. apply Rmult_le_pos; [lra|]. apply Rmult_le_pos; lra. }
  cbv zeta. induction HP as [|a b u' w' P _ (IL & IF & ID & II)].
  - split; [reflexivity|]. split; [constructor|]. split; [cbn; rewrite Rabs_pos_eq; lra|intros [|i] a b E; discriminate E].
  - cbn [length repeat map]. rewrite !map2_cons. fold (step a b). destruct (step_ap P) as [Fs Es]. cbn [length map]. rewrite !ldot_cons, S_INR. split; [now rewrite IL|]. split; [now constructor|]. split.
    + destruct P as (_ & _ & Ba & _). assert (M : Rabs (Bval a * (Bval (step a b) - (Bval b - Bval q * Bval a))) <= X * e) by (apply mul_bound; [apply Rlt_le, near_pos; exact HX|exact Pe|exact Ba|exact Es]). apply abs_le in M, ID. apply abs_le. lra.
    + intros [|i] a' b' E1 E2; cbn in E1, E2 |- *; [injection E1 as <-; injection E2 as <-; now exists (step a b)|now apply II].
Qed.
Lemma two_rows : let o := map2 nsub w (map2 nadd (repeat n0 (length w)) (map (nmul q) u)) in
  length o = length u /\ Forall (fun x => bfin x = true) o /\ Rabs (ldot (map Bval u) (map Bval o)) <= 9 * (K * n) * (X * Y) /\
  (forall i a b, nth_error u i = Some a -> nth_error w i = Some b -> exists c, nth_error o i = Some c /\ Rabs (Bval c - (Bval b - D / U * Bval a)) <= 9 * (K * n) * Y).
Proof.
  intros o. destruct (steps_ap H) as (L & F & E & I). fold o in L, F, E, I. fold n D U in E. destruct q_ap as (Fq & Eq & _ & BU & _). destruct n_bounds as (N & PK & SK & NK & EK). pose proof (near_pos HX) as PX. pose proof (near_pos HY) as PY. pose proof eps_pos as PE.
  assert (PXY : 0 < X * Y) by (apply Rmult_lt_0_compat; lra). assert (PXX : 0 < X * X) by (apply Rmult_lt_0_compat; lra). assert (KN : K <= K * n) by nra.
  split; [exact L|]. split; [exact F|]. split.
  - replace (n * (X * e)) with (301 / 100 * K * (X * Y)) in E by (unfold e, K; ring). assert (KX : K * (X * Y) <= K * n * (X * Y)) by (apply Rmult_le_compat_r; lra). apply abs_le in E, Eq. apply abs_le. assert (0 < K * n * (X * Y)) by (apply Rmult_lt_0_compat; [apply Rmult_lt_0_compat; lra|lra]). lra.
  - intros i a b A B. destruct (I i a b A B) as (c & Ec & Dc). exists c. split; [exact Ec|].
    assert (Ba : Rabs (Bval a) <= X). { assert (Q : In a u) by (eapply nth_error_In; exact A). exact (pairs_in H Q). }
    assert (QD : Rabs ((Bval q - D / U) * Bval a) <= 562 / 100 * (K * n) * Y).
    { replace ((Bval q - D / U) * Bval a) with ((Bval q * U - D) * (Bval a / U)) by (field; lra). replace (562 / 100 * (K * n) * Y) with (562 / 100 * (K * n) * (X * Y) * / X) by (field; lra). apply mul_bound; [apply Rmult_le_pos; [apply Rmult_le_pos; [lra|apply Rmult_le_pos; lra]|lra]|apply Rlt_le, Rinv_0_lt_compat; lra|exact Eq|].
      unfold Rdiv. rewrite Rabs_mult, (Rabs_pos_eq (/ U)) by (apply Rlt_le, Rinv_0_lt_compat; lra). apply Rmult_le_reg_r with U; [lra|]. rewrite Rmult_assoc, Rinv_l, Rmult_1_r by lra. eapply Rle_trans; [exact Ba|]. replace X with (/ X * (X * X)) at 1 by (field; lra). apply Rmult_le_compat_l; [apply Rlt_le, Rinv_0_lt_compat; lra|lra]. }
    assert (E1 : e <= 301 / 100 * (K * n) * Y) by (unfold e; apply Rmult_le_compat_r; lra). assert (0 < K * n * Y) by (apply Rmult_lt_0_compat; [apply Rmult_lt_0_compat; lra|lra]). apply abs_le in Dc, QD. apply abs_le. lra.
Qed.
Lemma gram_two : orthogonalize [u; w] = [u; map2 nsub w (map2 nadd (repeat n0 (length w)) (map (nmul q) u))].
Proof.
  assert (Z : map2 nsub u (repeat n0 (length u)) = u).
  { exact (pairs_sub H). }
  unfold orthogonalize, rows_sum, gproj. cbn [fold_left app map]. rewrite Z. reflexivity.
Qed.
End Two.
