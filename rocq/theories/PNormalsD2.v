(** * Vertex normals that are not normalised, on doubles: proofs for property C171. *)
From Coq Require Import Reals ZArith List Bool Lra Lia Psatz.
From Flocq Require Import Core IEEE754.BinarySingleNaN.
From Verif Require Import Num B64 BLemmas Vec RVec VLemmas PMat3 SpecGeom SpecDouble SpecNormals NpList MVx MNormals PErr PNormD PPlaneD PSliceF PFar PCrossD PSumD PLine2D PMeanD PRodD PAngleD PNormals PNormals2 PNormals3 PNormals4 PNormalsD PNormB PRigidD PRigidD3.
Import ListNotations.
Local Open Scope R_scope.
Set Implicit Arguments.
Unset Strict Implicit.
Local Notation eps := PErr.eps.

(** ** a vector divided by the root of its length *)
Definition root_row (p : V3 b64) : V3 b64 := vdivs p (nsqrt (vnorm p)).
Lemma root_exact d A B x y : 0 < A -> 0 < B -> 0 <= d -> 4096 * d <= A -> Rabs (A - B) <= 2 * d -> Rabs (x - y) <= d -> Rabs y <= A -> Rabs (x / sqrt B - y / sqrt A) <= 21 / 10 * (d / sqrt A).
Proof.
  intros PA PB Pd LT D Hxy Hy. pose proof (sqrt_lt_R0 A PA) as Pa. pose proof (sqrt_lt_R0 B PB) as Pb. pose proof (sqrt_sqrt A (Rlt_le _ _ PA)) as EA. pose proof (sqrt_sqrt B (Rlt_le _ _ PB)) as EB. set (a := sqrt A) in *. set (b := sqrt B) in *. apply abs_le in D.
  assert (AB : 999 / 1000 * a <= b). { apply Rnot_lt_le. intros L. assert (b * b <= 999 / 1000 * a * (999 / 1000 * a)) by (apply Rmult_le_compat; lra). nra. }
  replace (x / b - y / a) with ((x - y) / b + y / a * ((a - b) / b)) by (field; lra).
  assert (Y : Rabs (y / a) <= a). { unfold Rdiv. rewrite Rabs_mult, (Rabs_pos_eq (/ a)) by (apply Rlt_le, Rinv_0_lt_compat; exact Pa). apply Rmult_le_reg_r with a; [exact Pa|]. rewrite Rmult_assoc, Rinv_l by lra. lra. }
  assert (W : Rabs (a - b) <= 2 * d / (1999 / 1000 * a)).
  { assert (Q : (a - b) * (a + b) = A - B) by (rewrite <- EA, <- EB; ring). apply Rmult_le_reg_r with (1999 / 1000 * a); [lra|]. replace (2 * d / (1999 / 1000 * a) * (1999 / 1000 * a)) with (2 * d) by (field; lra).
    apply Rle_trans with (Rabs (a - b) * (a + b)); [apply Rmult_le_compat_l; [apply Rabs_pos|lra]|]. rewrite <- (Rabs_pos_eq (a + b)) by lra. rewrite <- Rabs_mult, Q. apply abs_le. lra. }
  assert (X1 : Rabs ((x - y) / b) <= d / (999 / 1000 * a)).
  { unfold Rdiv at 1. rewrite Rabs_mult, (Rabs_pos_eq (/ b)) by (apply Rlt_le, Rinv_0_lt_compat; exact Pb). unfold Rdiv. apply Rmult_le_compat; [apply Rabs_pos|apply Rlt_le, Rinv_0_lt_compat; exact Pb|exact Hxy|apply Rinv_le_contravar; lra]. }
  assert (X2 : Rabs ((a - b) / b) <= 2 * d / (1999 / 1000 * a) / (999 / 1000 * a)).
  { unfold Rdiv at 1. rewrite Rabs_mult, (Rabs_pos_eq (/ b)) by (apply Rlt_le, Rinv_0_lt_compat; exact Pb). unfold Rdiv at 2. apply Rmult_le_compat; [apply Rabs_pos|apply Rlt_le, Rinv_0_lt_compat; exact Pb|exact W|apply Rinv_le_contravar; lra]. }
  eapply Rle_trans; [apply Rabs_triang|]. rewrite Rabs_mult. assert (X3 : Rabs (y / a) * Rabs ((a - b) / b) <= a * (2 * d / (1999 / 1000 * a) / (999 / 1000 * a))) by (apply Rmult_le_compat; auto; apply Rabs_pos).
  replace (a * (2 * d / (1999 / 1000 * a) / (999 / 1000 * a))) with (2 * (1000 / 1999) * (1000 / 999) * (d / a)) in X3 by (field; lra). replace (d / (999 / 1000 * a)) with (1000 / 999 * (d / a)) in X1 by (field; lra).
  assert (0 <= d / a) by (apply Rmult_le_pos; [lra|apply Rlt_le, Rinv_0_lt_compat; exact Pa]). lra.
Qed.
Lemma root_coord (x D : b64) B : bfin x = true -> bpow radix2 (-800) <= B <= bpow radix2 800 -> Rabs (Bval x) <= B -> Rabs (Bval D - sqrt B) <= 102 / 10 * eps * sqrt B ->
  bfin (ndiv x D) = true /\ Rabs (Bval (ndiv x D) - Bval x / sqrt B) <= 115 / 10 * eps * sqrt B.
Proof.
  intros Fx [HL HU] Hx HD. pose proof eps_pos as PE. pose proof eps_small as SE. pose proof (bpow_gt_0 radix2 (-800)) as P8. assert (PB : 0 < B) by lra. pose proof (sqrt_lt_R0 B PB) as Pb. pose proof (sqrt_sqrt B (Rlt_le _ _ PB)) as EB.
  assert (L4 : bpow radix2 (-400) <= sqrt B) by (rewrite <- (sqrt_square (bpow radix2 (-400))) by apply bpow_ge_0; apply sqrt_le_1_alt; rewrite <- bpow_plus; exact HL). assert (U4 : sqrt B <= bpow radix2 400) by (rewrite <- (sqrt_square (bpow radix2 400)) by apply bpow_ge_0; apply sqrt_le_1_alt; rewrite <- bpow_plus; exact HU).
  set (b := sqrt B) in *. apply abs_le in HD. assert (E1 : 102 / 10 * eps * b <= / 1000000 * b) by (apply Rmult_le_compat_r; lra). set (D' := Bval D) in *. assert (PD : 0 < D') by lra.
  assert (X : Rabs (Bval x / D' - Bval x / b) <= 103 / 10 * eps * b).
  { replace (Bval x / D' - Bval x / b) with (Bval x / b * ((b - D') / D')) by (field; lra). rewrite Rabs_mult.
    assert (X1 : Rabs (Bval x / b) <= b). { unfold Rdiv. rewrite Rabs_mult, (Rabs_pos_eq (/ b)) by (apply Rlt_le, Rinv_0_lt_compat; exact Pb). apply Rmult_le_reg_r with b; [exact Pb|]. rewrite Rmult_assoc, Rinv_l by lra. lra. }
    assert (X2 : Rabs ((b - D') / D') <= 103 / 10 * eps). { unfold Rdiv. rewrite Rabs_mult, (Rabs_pos_eq (/ D')) by (apply Rlt_le, Rinv_0_lt_compat; exact PD). apply Rmult_le_reg_r with D'; [exact PD|]. rewrite Rmult_assoc, Rinv_l, Rmult_1_r by lra. apply abs_le.
      assert (102 / 10 * eps * b <= 103 / 10 * eps * D'). { replace (102 / 10 * eps * b) with (eps * (102 / 10 * b)) by ring. replace (103 / 10 * eps * D') with (eps * (103 / 10 * D')) by ring. apply Rmult_le_compat_l; lra. } lra. }
    replace (103 / 10 * eps * b) with (b * (103 / 10 * eps)) by ring. apply Rmult_le_compat; auto; apply Rabs_pos. }
  assert (Xb : Rabs (Bval x / b) <= b). { unfold Rdiv. rewrite Rabs_mult, (Rabs_pos_eq (/ b)) by (apply Rlt_le, Rinv_0_lt_compat; exact Pb). apply Rmult_le_reg_r with b; [exact Pb|]. rewrite Rmult_assoc, Rinv_l by lra. lra. }
  apply abs_le in X, Xb. assert (E2 : 103 / 10 * eps * b <= / 1000000 * b) by (apply Rmult_le_compat_r; lra).
  assert (M : mid (11 / 10 * b)) by (apply rel_mid; [|lra]; split; [eapply Rle_trans; [|exact L4]|eapply Rle_trans; [exact U4|]]; apply bpow_le; lia).
  destruct (@div_ap x D (11 / 10 * b) Fx M) as [G E]; [fold D'; lra|fold D'; apply abs_le; lra|]. split; [exact G|]. fold D' in E. apply abs_le in E. apply abs_le. lra.
Qed.
Lemma root_gen d n N : 0 < d -> close3 d n N -> 4096 * d <= rnorm N -> bpow radix2 (-390) <= rnorm N <= bpow radix2 390 ->
  close3 (116 / 10 * eps * sqrt (rnorm N) + 21 / 10 * (d / sqrt (rnorm N))) (root_row n) (rscale (/ sqrt (rnorm N)) N).
Proof.
  intros Pd C LT [L U]. set (A := rnorm N) in *. pose proof (@close_norm d n N ltac:(lra) C) as D. fold A in D. set (B := rnorm (Rval3 n)) in *. apply abs_le in D. pose proof eps_pos as PE. pose proof eps_small as SE.
  assert (PA : 0 < A) by lra. assert (PB : 0 < B) by lra. pose proof (bpow_gt_0 radix2 (-400)) as Q4. pose proof (bpow_gt_0 radix2 390) as Q3.
  assert (HB : bpow radix2 (-400) <= B <= bpow radix2 400).
  { assert (Z1 : bpow radix2 (-390) = 1024 * bpow radix2 (-400)) by (change 1024 with (bpow radix2 10); rewrite <- bpow_plus; reflexivity). assert (Z2 : bpow radix2 400 = 1024 * bpow radix2 390) by (change 1024 with (bpow radix2 10); rewrite <- bpow_plus; reflexivity). split; lra. }
  destruct C as (Fn & C0 & C1 & C2). destruct (norm_ap Fn HB) as [FN EN]. fold B in EN. apply abs_le in EN. assert (E9 : 9 * eps * B <= / 1000000 * B) by (apply Rmult_le_compat_r; lra). assert (PN : 0 < Bval (vnorm n)) by lra.
  destruct (bsqrt_val FN PN) as [VD FD]. pose proof (sqrt_lt_R0 B PB) as Pb. pose proof (sqrt_sqrt B (Rlt_le _ _ PB)) as EB. pose proof (sqrt_lt_R0 A PA) as Pa. pose proof (sqrt_sqrt A (Rlt_le _ _ PA)) as EA.
  assert (SD : Rabs (sqrt (Bval (vnorm n)) - sqrt B) <= 9 * eps * sqrt B) by (apply sqrt_diff; [exact Pb|lra|rewrite EB; apply abs_le; lra|lra]). apply abs_le in SD. assert (E9b : 9 * eps * sqrt B <= / 1000000 * sqrt B) by (apply Rmult_le_compat_r; lra).
  assert (L4 : bpow radix2 (-200) <= sqrt B) by (rewrite <- (sqrt_square (bpow radix2 (-200))) by apply bpow_ge_0; apply sqrt_le_1_alt; rewrite <- bpow_plus; apply HB).
  assert (RD : Rabs (rnd64 (sqrt (Bval (vnorm n))) - sqrt (Bval (vnorm n))) <= eps * (12 / 10 * sqrt B)) by (apply rnd_err; [apply Rle_trans with (bpow radix2 (-200)); [apply bpow_le; lia|lra]|apply abs_le; lra]). rewrite <- VD in RD. apply abs_le in RD.
  assert (DD : Rabs (Bval (nsqrt (vnorm n)) - sqrt B) <= 102 / 10 * eps * sqrt B) by (apply abs_le; lra).
  assert (HB8 : bpow radix2 (-800) <= B <= bpow radix2 800) by (split; [apply Rle_trans with (bpow radix2 (-400)); [apply bpow_le; lia|apply HB]|apply Rle_trans with (bpow radix2 400); [apply HB|apply bpow_le; lia]]).
  destruct (fin3b_all Fn) as (F0 & F1 & F2). destruct (comp_le (Rval3 n)) as (V0 & V1 & V2). fold B in V0, V1, V2. unfold Rval3, map3 in V0, V1, V2. cbn [c0 c1 c2] in V0, V1, V2. destruct (comp_le N) as (N0 & N1 & N2). fold A in N0, N1, N2.
  assert (AB : sqrt B <= 1001 / 1000 * sqrt A). { apply Rnot_lt_le. intros G. assert (1001 / 1000 * sqrt A * (1001 / 1000 * sqrt A) <= sqrt B * sqrt B) by (apply Rmult_le_compat; lra). nra. }
  assert (ED : 115 / 10 * eps * sqrt B <= 116 / 10 * eps * sqrt A). { replace (115 / 10 * eps * sqrt B) with (eps * (115 / 10 * sqrt B)) by ring. replace (116 / 10 * eps * sqrt A) with (eps * (116 / 10 * sqrt A)) by ring. apply Rmult_le_compat_l; lra. }
  assert (ONE : forall x y, bfin x = true -> Rabs (Bval x) <= B -> Rabs (Bval x - y) <= d -> Rabs y <= A -> bfin (ndiv x (nsqrt (vnorm n))) = true /\ Rabs (Bval (ndiv x (nsqrt (vnorm n))) - / sqrt A * y) <= 116 / 10 * eps * sqrt A + 21 / 10 * (d / sqrt A)).
  { intros x y Fx Bx Hxy Hy. destruct (root_coord Fx HB8 Bx DD) as [G E]. split; [exact G|]. assert (X := @root_exact d A B (Bval x) y PA PB ltac:(lra) LT ltac:(apply abs_le; lra) Hxy Hy). apply abs_le in E, X. replace (/ sqrt A * y) with (y / sqrt A) by (unfold Rdiv; ring). apply abs_le. lra. }
  destruct (ONE _ _ F0 V0 C0 N0) as [G0 X0]. destruct (ONE _ _ F1 V1 C1 N1) as [G1 X1]. destruct (ONE _ _ F2 V2 C2 N2) as [G2 X2]. unfold root_row, vdivs, map3, close3, fin3b, rscale. cbn [c0 c1 c2]. rewrite G0, G1, G2. auto.
Qed.
(** ** the mean of the normals at a vertex *)
Definition srow (f : list (V3 Z)) (q : b64) (x : list b64) (i : nat) : list b64 := map (fun e => nmul q (nth (snd (fst e)) x n0)) (filter (fun e => Nat.eqb (fst (fst e)) i) (fbv_ents f)).
Definition count_of (f : list (V3 Z)) (i : nat) : b64 := nsum (row_at f (repeat (nofZ 1) (3 * length f)) i).
Definition weight (f : list (V3 Z)) (i : nat) : b64 := nmul (ndiv (nofZ 1) (count_of f i)) (nofZ 1).
Definition vmean_at (v : list (V3 b64)) (f : list (V3 Z)) (w : nat) : V3 b64 :=
  let x := ravel3 (map (bnormal v) f) in let s i := nsum (srow f (weight f i) x i) in mk3 (s (3 * w)%nat) (s (3 * w + 1)%nat) (s (3 * w + 2)%nat).
Lemma ents_row (f : list (V3 Z)) (g : nat -> b64) x i :
  map (fun e => nmul (snd e) (nth (snd (fst e)) x n0)) (filter (fun e => Nat.eqb (fst (fst e)) i) (map (fun e : nat * nat * R => (fst e, g (fst (fst e)))) (fbv_ents f))) = srow f (g i) x i.
Proof.
  unfold srow. induction (fbv_ents f) as [|[[a b] r] l IH]; [reflexivity|]. cbn [map filter fst snd]. destruct (Nat.eqb_spec a i) as [->|]; [|exact IH]. cbn [map fst snd]. now rewrite IH.
Qed.
Lemma scaled_gen (v : list (V3 b64)) f : in_range (length v) f -> vert_normals v f false = Ok (map (fun w => root_row (vmean_at v f w)) (seq 0 (length v))).
Proof.
  intros H. unfold vert_normals. rewrite faces_gen by exact H. cbn [bindr]. unfold graph_value. rewrite tri_gen by exact H. cbn [bindr]. unfold sp_dot at 1. cbn [sp_rows sp_cols sp_entries]. rewrite repeat_length, Nat.eqb_refl. cbn [bindr]. set (test := map _ (seq 0 (3 * length v))).
  unfold sp_dot. cbn [sp_rows sp_cols sp_entries]. assert (L : length (ravel3 (map (bnormal v) f)) = (3 * length f)%nat) by (unfold ravel3; rewrite (@flat_map_length_const _ _ _ 3), map_length; [lia|reflexivity]). rewrite L, Nat.eqb_refl. cbn [bindr]. set (x := ravel3 (map (bnormal v) f)) in *.
  assert (T : forall i, (i < 3 * length v)%nat -> nth i test n0 = count_of f i).
  { intros i I. unfold test. match goal with |- nth _ (map ?h _) _ = _ => rewrite nth_indep with (d' := h 0%nat) by (now rewrite map_length, seq_length); rewrite (map_nth h), seq_nth by exact I end. cbn [Nat.add]. unfold count_of. f_equal. exact (@ents_row f (fun _ => nofZ 1) _ i). }
  rewrite (map_ext_in _ (fun i => nsum (srow f (weight f i) x i))).
  - rewrite rows_gen. rewrite reshape_ravel. cbn [bindr]. rewrite map_map. reflexivity.
  - intros i I. apply in_seq in I. f_equal. rewrite map_map. cbn [fst snd]. rewrite (@ents_row f (fun i => nmul (ndiv (nofZ 1) (nth i test n0)) (nofZ 1)) x i). rewrite T by lia. reflexivity.
Qed.
Section Vertex.
Context (E : R) (HE : bpow radix2 (-150) <= E <= bpow radix2 150) (v : list (V3 b64)) (f : list (V3 Z)).
Context (HR : in_range (length v) f) (HF : Forall (fun p => fin3b p = true) v) (HS : Forall (short E v) f).
Let T := eps * (E * E).
Let S w := rvsum (normals_at (map Rval3 v) f (Z.of_nat w)).
Lemma row_exact x M i : M <= bpow radix2 1000 -> (forall j, bfin (nth j x n0) = true /\ Rabs (Bval (nth j x n0)) <= M) ->
  Forall (fun y => bfin y = true /\ Rabs (Bval y) <= M) (row_at f x i) /\ rsum (map Bval (row_at f x i)) = rowsum (fbv_ents f) (map Bval x) i.
Proof.
  intros HM RF. unfold row_at, rowsum. pose proof (fbv_ones f) as O. induction O as [|e l O1 _ IH]; [split; [constructor|reflexivity]|]. cbn [filter]. destruct (Nat.eqb (fst (fst e)) i); [|exact IH]. destruct IH as [I1 I2]. cbn [map rsum].
  destruct (RF (snd (fst e))) as [F1 B1]. destruct (@mul_1 (nth (snd (fst e)) x n0) F1 ltac:(lra)) as [F2 V2]. split; [constructor; [now rewrite V2|exact I1]|]. rewrite I2, V2, O1, Rmult_1_l. f_equal. change 0 with (Bval n0) at 1. now rewrite map_nth.
Qed.
Lemma NN2 : nonneg f.
Proof. intros t i It Ii. now apply (HR It Ii). Qed.
Lemma count_ap w k : (k < 3)%nat -> (1 <= Z.of_nat (count_at f w) <= 2 ^ 30)%Z -> let n := INR (count_at f w) in nr (6 / 10 * (n + 1) * eps * n) (count_of f (3 * w + k)) n.
Proof.
  intros K HC n. unfold count_of. destruct (@int_val 1) as [F1 V1]; [lia|]. set (x := repeat (nofZ 1) (3 * length f)).
  assert (RF : forall j, bfin (nth j x n0) = true /\ Rabs (Bval (nth j x n0)) <= 1).
  { intros j. destruct (nth_in_or_default j x n0) as [I| ->]; [apply repeat_spec in I; rewrite I, V1, Rabs_R1; split; [exact F1|lra]|]. split; [reflexivity|]. change (Bval n0) with 0. rewrite Rabs_R0. lra. }
  destruct (@row_exact x 1 (3 * w + k)%nat) as [RA RB]; [change 1 with (bpow radix2 0); apply bpow_le; lia|exact RF|].
  assert (SP : span_ok 1) by (split; change 1 with (bpow radix2 0); apply bpow_le; lia).
  destruct (nsum_ap SP RA) as (Fs & Es & _); [rewrite row_count; [lia|exact NN2|exact K]|]. rewrite row_count in Es by (exact NN2 || exact K). fold n in Es. rewrite RB in Es.
  assert (MB : map Bval x = repeat 1 (3 * length f)) by (unfold x; generalize (3 * length f)%nat; intros m; induction m as [|m IH]; [reflexivity|]; cbn [repeat map]; now rewrite V1, IH). rewrite MB, (count_rowsum w NN2 K) in Es. fold n in Es. split; [exact Fs|]. eapply Rle_trans; [exact Es|]. right. ring.
Qed.
Lemma weight_ap w k : (k < 3)%nat -> (1 <= Z.of_nat (count_at f w) <= 2 ^ 30)%Z -> let n := INR (count_at f w) in nr ((13 / 10 * n + 4) * eps * / n) (weight f (3 * w + k)) (/ n).
Proof.
  intros K HC n. pose proof (count_ap K HC) as C. cbv zeta in C. fold n in C. assert (N1 : 1 <= n) by (change 1 with (INR 1); apply le_INR; lia). pose proof eps_pos as PE. pose proof eps_small as SE. assert (EN : n * eps <= / 1000000) by (apply eps_n; lia). pose proof (@len_real (count_at f w) ltac:(lia)) as NB. fold n in NB.
  destruct (@int_val 1) as [F1 V1]; [lia|]. set (e := 6 / 10 * (n + 1) * eps) in *. assert (He : 0 <= e <= / 1000) by (unfold e; split; [apply Rmult_le_pos; lra|lra]).
  assert (I1 : nr 0 (nofZ 1) 1) by (split; [exact F1|rewrite V1, Rminus_eq_0, Rabs_R0; lra]). assert (PI : 0 < / n) by (apply Rinv_0_lt_compat; lra). assert (NI : / n * n = 1) by (field; lra).
  assert (MI : forall j, 1 <= j <= 2 -> mid (j * / n)). { intros j Hj. apply rel_mid; [|lra]. split; [|apply Rle_trans with (bpow radix2 0); [change (bpow radix2 0) with 1; apply Rmult_le_reg_r with n; [lra|rewrite NI; lra]|apply bpow_le; lia]]. apply Rle_trans with (bpow radix2 (-30)); [apply bpow_le; lia|]. change (bpow radix2 (-30)) with (/ 1073741824). apply Rinv_le_contravar; [lra|]. change (bpow radix2 30) with 1073741824 in NB. lra. }
  assert (Q : nr ((21 / 10 * e + 11 / 10 * eps) * (1 / n)) (ndiv (nofZ 1) (count_of f (3 * w + k))) (1 / n)).
  { apply quot_ap; [exact He|lra|lra|unfold Rdiv; rewrite Rmult_1_l; apply MI; lra|eapply nr_weak; [|exact I1]; lra|exact C]. }
  replace (1 / n) with (/ n) in Q by (unfold Rdiv; ring). unfold weight. replace (/ n) with (/ n * 1) by ring. eapply nr_weak; [|apply (nr_mul Q I1 (P := / n) (Q := 1) (B := 11 / 10 * / n)); [rewrite Rabs_pos_eq; lra|rewrite Rabs_R1; lra| |apply MI; lra]].
  - unfold e. assert (0 <= eps * / n) by nra. assert (0 <= n * (eps * / n)) by nra. lra.
  - assert ((21 / 10 * e + 11 / 10 * eps) * / n <= / 100 * / n) by (apply Rmult_le_compat_r; lra). lra.
Qed.
Lemma rowsum_scale (X : list R) i c : rsum (map (fun e : nat * nat * R => c * (snd e * nth (snd (fst e)) X 0)) (filter (fun e => Nat.eqb (fst (fst e)) i) (fbv_ents f))) = c * rowsum (fbv_ents f) X i.
Proof. unfold rowsum. induction (filter _ _) as [|e l IH]; [cbn [map rsum]; ring|]. cbn [map rsum]. rewrite IH. ring. Qed.
Lemma mean_entry w k : (k < 3)%nat -> (1 <= Z.of_nat (count_at f w) <= 2 ^ 30)%Z -> let n := INR (count_at f w) in let i := (3 * w + k)%nat in
  nr ((21 + 4 * n) * T) (nsum (srow f (weight f i) (ravel3 (map (bnormal v) f)) i)) (/ n * coord (Z.of_nat k) (S w)).
Proof.
  intros K HC n i. set (x := ravel3 (map (bnormal v) f)) in *. destruct (T_pos HE) as (P2 & PT & ST). fold T in PT, ST. pose proof (weight_ap K HC) as W. cbv zeta in W. fold n in W. set (q := weight f i) in *. fold i in W.
  assert (HC' : Forall (fun t => close3 (9 * T) (bnormal v t) (face_normal (map Rval3 v) t) /\ coords3 (2 * (E * E)) (face_normal (map Rval3 v) t)) f).
  { apply Forall_forall. intros t I. rewrite Forall_forall in HS. destruct (face_ap HE HF (HS t I)) as (C & _ & B). auto. }
  pose proof (@ravel_close _ (bnormal v) (face_normal (map Rval3 v)) (9 * T) (2 * (E * E)) f ltac:(lra) ltac:(lra) HC') as RC. fold x in RC.
  assert (RF : forall j, bfin (nth j x n0) = true).
  { intros j. unfold x. revert j. apply ravel_nth with (P := fun y => bfin y = true); [reflexivity|]. rewrite Forall_map. eapply Forall_impl; [|exact HC']. intros t ((Fn & _) & _). now apply fin3b_all. }
  set (X := rflat (map (face_normal (map Rval3 v)) f)) in *. assert (N1 : 1 <= n) by (change 1 with (INR 1); apply le_INR; lia). pose proof eps_pos as PE. pose proof eps_small as SE. assert (EN : n * eps <= / 1000000) by (apply eps_n; lia). pose proof (@len_real (count_at f w) ltac:(lia)) as NB. fold n in NB. assert (PI : 0 < / n) by (apply Rinv_0_lt_compat; lra). assert (NI : / n * n = 1) by (field; lra).
  assert (I30 : bpow radix2 (-30) <= / n) by (change (bpow radix2 (-30)) with (/ 1073741824); apply Rinv_le_contravar; [lra|]; change (bpow radix2 30) with 1073741824 in NB; lra). assert (I1 : / n <= 1) by (apply Rmult_le_reg_r with n; [lra|rewrite NI; lra]).
  assert (SZ : bpow radix2 (-330) <= / n * (E * E) <= bpow radix2 300).
  { destruct (EE_span HE) as [L U]. split; [change (-330)%Z with (-30 + -300)%Z; rewrite bpow_plus; apply Rmult_le_compat; try apply bpow_ge_0; lra|]. rewrite <- (Rmult_1_l (bpow radix2 300)). apply Rmult_le_compat; lra. }
  set (y := / n * (E * E)) in *. assert (Py : 0 < y) by (unfold y; nra). assert (EY : eps * y = / n * T) by (unfold y, T; ring).
  assert (TERM : forall j, nr ((192 / 10 + 26 / 10 * n) * (/ n * T)) (nmul q (nth j x n0)) (/ n * nth j X 0) /\ Rabs (Bval (nmul q (nth j x n0))) <= 22 / 10 * y).
  { intros j. destruct (RC j) as [C B]. assert (Nx : nr (9 * T) (nth j x n0) (nth j X 0)). { split; [apply RF|]. replace (Bval (nth j x n0)) with (nth j (map Bval x) 0) by (change 0 with (Bval n0); now rewrite map_nth). exact C. }
    set (a := (13 / 10 * n + 4) * eps * / n) in *. assert (Ha : 0 <= a <= / 1000 * / n) by (unfold a; split; [apply Rmult_le_pos; [apply Rmult_le_pos; lra|lra]|apply Rmult_le_compat_r; lra]).
    assert (Bd : (/ n + a) * (2 * (E * E) + 9 * T) <= 21 / 10 * y). { apply Rle_trans with (1001 / 1000 * / n * (2001 / 1000 * (E * E))); [apply Rmult_le_compat; lra|unfold y; nra]. }
    assert (Md : mid (21 / 10 * y)) by (apply rel_mid; [|lra]; split; [eapply Rle_trans; [|apply SZ]|eapply Rle_trans; [apply SZ|]]; apply bpow_le; lia).
    assert (M1 := nr_mul W Nx (P := / n) (Q := 2 * (E * E)) (B := 21 / 10 * y) ltac:(rewrite Rabs_pos_eq; lra) B Bd Md).
    assert (R : nr ((192 / 10 + 26 / 10 * n) * (/ n * T)) (nmul q (nth j x n0)) (/ n * nth j X 0)).
    { eapply nr_weak; [|exact M1]. replace (eps * (21 / 10 * y)) with (21 / 10 * (/ n * T)) by (rewrite <- EY; ring). assert (9 * T * (/ n + a) <= 9 * T * (1001 / 1000 * / n)) by (apply Rmult_le_compat_l; lra). assert (a * (2 * (E * E)) = (26 / 10 * n + 8) * (/ n * T)) by (unfold a, T; field; lra). assert (0 <= / n * T) by nra. lra. }
    split; [exact R|]. destruct R as [_ R]. apply abs_le in R. assert (Z : (192 / 10 + 26 / 10 * n) * (/ n * T) <= / 1000 * y). { rewrite <- EY. rewrite <- Rmult_assoc. apply Rmult_le_compat_r; lra. }
    assert (Z2 : Rabs (/ n * nth j X 0) <= 2 * y) by (rewrite Rabs_mult, Rabs_pos_eq by lra; apply Rle_trans with (/ n * (2 * (E * E))); [apply Rmult_le_compat_l; lra|unfold y; lra]). apply abs_le in Z2. apply abs_le. lra. }
  assert (SUM : Forall (fun z => bfin z = true /\ Rabs (Bval z) <= 22 / 10 * y) (srow f q x i) /\ Rabs (rsum (map Bval (srow f q x i)) - / n * rowsum (fbv_ents f) X i) <= INR (length (srow f q x i)) * ((192 / 10 + 26 / 10 * n) * (/ n * T))).
  { rewrite <- rowsum_scale. unfold srow. pose proof (fbv_ones f) as O. induction O as [|e l O1 _ IH]; [split; [constructor|cbn [filter map rsum length INR]; rewrite Rminus_eq_0, Rabs_R0; lra]|]. cbn [filter]. destruct (Nat.eqb (fst (fst e)) i); [|exact IH]. destruct IH as [J1 J2]. cbn [map rsum length]. rewrite S_INR.
    destruct (TERM (snd (fst e))) as [[F1 E1] B1]. split; [constructor; [auto|exact J1]|]. rewrite O1, Rmult_1_l. apply abs_le in E1, J2. apply abs_le. lra. }
  destruct SUM as [SA SB]. assert (LN : length (srow f q x i) = count_at f w) by (rewrite <- (@row_count f x w k NN2 K); unfold srow, row_at; now rewrite !map_length). rewrite LN in SB. fold n in SB.
  assert (SP : span_ok (22 / 10 * y)). { destruct SZ as [L U]. split; [apply Rle_trans with (bpow radix2 (-330)); [apply bpow_le; lia|lra]|apply Rle_trans with (bpow radix2 2 * bpow radix2 300); [change (bpow radix2 2) with 4; lra|rewrite <- bpow_plus; apply bpow_le; lia]]. }
  destruct (nsum_ap SP SA) as (Fs & Es & _); [rewrite LN; lia|]. rewrite LN in Es. fold n in Es. replace (6 / 10 * (eps * (n * (n + 1) * (22 / 10 * y)))) with (132 / 100 * (n + 1) * T) in Es by (unfold y, T; field; lra).
  replace (n * ((192 / 10 + 26 / 10 * n) * (/ n * T))) with ((192 / 10 + 26 / 10 * n) * T) in SB by (field; lra).
  assert (HR' : in_range (length (map Rval3 v)) f) by now rewrite map_length. unfold X, i in SB; rewrite (@vertex_rows f (map Rval3 v) w k HR' K) in SB. fold i in SB. fold (S w) in SB. split; [exact Fs|]. assert (0 <= n * T) by nra. apply abs_le in SB, Es. apply abs_le. lra.
Qed.
Lemma vmean_ap w : (1 <= Z.of_nat (count_at f w) <= 2 ^ 30)%Z -> let n := INR (count_at f w) in close3 ((21 + 4 * n) * T) (vmean_at v f w) (rscale (/ n) (S w)).
Proof.
  intros HC n. pose proof (@mean_entry w 0 ltac:(lia) HC) as M0. pose proof (@mean_entry w 1 ltac:(lia) HC) as M1. pose proof (@mean_entry w 2 ltac:(lia) HC) as M2. cbv zeta in M0, M1, M2. fold n in M0, M1, M2. rewrite Nat.add_0_r in M0.
  apply nr_close; unfold vmean_at, rscale; cbv zeta; cbn [c0 c1 c2]; destruct (S w) as [a b c]; assumption.
Qed.
Lemma vert_root w : (1 <= Z.of_nat (count_at f w) <= 2 ^ 30)%Z -> let n := INR (count_at f w) in let m := rscale (/ n) (S w) in 131072 * n * T <= rnorm m ->
  close3 ((80 + 9 * n) * (T / sqrt (rnorm m))) (root_row (vmean_at v f w)) (rscale (/ sqrt (rnorm m)) m).
Proof.
  intros HC n m H. pose proof (vmean_ap HC) as C. cbv zeta in C. fold n in C. fold m in C. destruct (T_pos HE) as (P2 & PT & ST). fold T in PT, ST. destruct (EE_span HE) as [EL EU]. assert (N1 : 1 <= n) by (change 1 with (INR 1); apply le_INR; lia). assert (NT : T <= n * T) by nra. pose proof eps_pos as PE.
  assert (UP : rnorm m <= 3 * (E * E)).
  { unfold m. rewrite rnorm_scale, Rabs_pos_eq by (apply Rlt_le, Rinv_0_lt_compat; lra). pose proof (@sum_norm E HE v f HF HS w) as U. fold n in U. change (rvsum (normals_at (map Rval3 v) f (Z.of_nat w))) with (S w) in U. apply Rle_trans with (/ n * (3 * n * (E * E))); [apply Rmult_le_compat_l; [apply Rlt_le, Rinv_0_lt_compat; lra|exact U]|]. right. field. lra. }
  assert (PA : 0 < rnorm m) by lra. pose proof (sqrt_lt_R0 _ PA) as Pa. pose proof (sqrt_sqrt _ (Rlt_le _ _ PA)) as EA.
  destruct (@root_gen ((21 + 4 * n) * T) (vmean_at v f w) m) as (G & G0 & G1 & G2); [apply Rmult_lt_0_compat; lra|exact C|lra| |].
  - split.
    + apply Rle_trans with (bpow radix2 16 * T); [|change (bpow radix2 16) with 65536; lra]. unfold T, PErr.eps. rewrite <- Rmult_assoc, <- bpow_plus. apply Rle_trans with (bpow radix2 (16 + -52) * bpow radix2 (-300)); [rewrite <- bpow_plus; apply bpow_le; lia|apply Rmult_le_compat_l; [apply bpow_ge_0|exact EL]].
    + apply Rle_trans with (bpow radix2 2 * bpow radix2 300); [change (bpow radix2 2) with 4; lra|rewrite <- bpow_plus; apply bpow_le; lia].
  - assert (B : 116 / 10 * eps * sqrt (rnorm m) + 21 / 10 * ((21 + 4 * n) * T / sqrt (rnorm m)) <= (80 + 9 * n) * (T / sqrt (rnorm m))).
    { set (a := sqrt (rnorm m)) in *. assert (Q : eps * a <= 3 * (T / a)). { apply Rmult_le_reg_r with a; [exact Pa|]. replace (3 * (T / a) * a) with (3 * T) by (field; lra). rewrite Rmult_assoc, EA. unfold T. apply Rle_trans with (eps * (3 * (E * E))); [apply Rmult_le_compat_l; lra|lra]. }
      replace ((21 + 4 * n) * T / a) with ((21 + 4 * n) * (T / a)) by (field; lra). assert (0 <= T / a) by (apply Rlt_le, Rdiv_lt_0_compat; lra). assert (0 <= n * (T / a)) by (apply Rmult_le_pos; lra). lra. }
    split; [exact G|]. split; [|split]; lra.
Qed.
End Vertex.
Lemma root_nan (p : V3 b64) : Rval3 p = rzero -> fin3b p = true -> root_row p = mk3 B754_nan B754_nan B754_nan.
Proof.
  intros Z Fv. destruct p as [x y z]. unfold fin3b in Fv. cbn [c0 c1 c2] in Fv. apply andb_prop in Fv. destruct Fv as [F Fz]. apply andb_prop in F. destruct F as [Fx Fy].
  unfold Rval3, map3, rzero in Z. cbn [c0 c1 c2] in Z. injection Z as Vx Vy Vz. destruct (zero_inv Fx Vx) as [s ->]. destruct (zero_inv Fy Vy) as [t ->]. destruct (zero_inv Fz Vz) as [w ->]. destruct s, t, w; reflexivity.
Qed.
