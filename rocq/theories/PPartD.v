(** * Dividing segments in binary64: error bounds. *)
From Coq Require Import Reals ZArith List Bool Lra Lia Psatz Sorting.Sorted.
From Flocq Require Import Core IEEE754.BinarySingleNaN.
From Verif Require Import Num B64 BLemmas Vec RVec VLemmas NpList SpecPoly MSegment MPolyline PPolyline PPolyline2 SpecDouble PErr PFar PNormB PSliceF PNormD.
Import ListNotations.
Local Open Scope R_scope.
Set Implicit Arguments.
Unset Strict Implicit.

(** ** the ceiling of a double *)
Lemma ceil_pow m e : zceil_pow m e = Zceil (IZR m * bpow radix2 e).
Proof.
  unfold zceil_pow. destruct (Z.leb_spec 0 e) as [H|H].
  - rewrite <- (IZR_Zpower radix2) by lia. rewrite <- mult_IZR. symmetry. apply Zceil_IZR.
  - unfold Zceil. f_equal. replace (- (IZR m * bpow radix2 e)) with (IZR (- m) / IZR (2 ^ (- e))).
    + symmetry. apply Zfloor_div. pose proof (Z.pow_pos_nonneg 2 (- e)). lia.
    + rewrite opp_IZR. change (2 ^ (- e))%Z with (radix2 ^ (- e))%Z. rewrite IZR_Zpower by lia. replace e with (- - e)%Z at 2 by lia. rewrite (bpow_opp radix2 (- e)). unfold Rdiv. ring.
Qed.
Lemma bceil_val (x : b64) : bfin x = true -> nceil x = Some (Zceil (Bval x)).
Proof.
  intros F. destruct x as [s|s| |s m e H]; try discriminate F; cbn [nceil b64_num b64_int].
  - change (Bval (B754_zero s)) with 0. now rewrite (Zceil_IZR 0).
  - rewrite ceil_pow. reflexivity.
Qed.

Lemma last_map A B (f : A -> B) (vs : list A) d d' : vs <> [] -> last (map f vs) d' = f (last vs d).
Proof. induction vs as [|x [|y t] IH]; intros H; [congruence|reflexivity|]. exact (IH ltac:(discriminate)). Qed.
Lemma last_in A (vs : list A) d : vs <> [] -> In (last vs d) vs.
Proof. induction vs as [|x [|y t] IH]; intros H; [congruence|now left|]. right. exact (IH ltac:(discriminate)). Qed.

Section Size.
Context (M : R) (HM : bpow radix2 (-300) <= M <= bpow radix2 300).
Let T := eps * M.
Lemma size_scale : scale_ok M.
Proof. destruct HM. split; [apply Rle_trans with (bpow radix2 (-300))|apply Rle_trans with (bpow radix2 300)]; auto; apply bpow_le; lia. Qed.
Lemma size_pos : 0 < M.
Proof. apply (scale_pos size_scale). Qed.
Lemma size_T : 0 < T /\ T <= M / 1000000.
Proof. pose proof size_pos. pose proof eps_pos. pose proof eps_small. unfold T. split; nra. Qed.

(** one coordinate of one point of a divided segment *)
Lemma sample_ap a b t tau : bfin a = true -> bfin b = true -> bfin t = true -> Rabs (Bval a) <= M -> Rabs (Bval b) <= M ->
  0 <= tau <= 1 -> Rabs (Bval t - tau) <= 3 * eps ->
  let q := nadd (nmul (nsub b a) t) a in bfin q = true /\ Rabs (Bval q - (Bval a + tau * (Bval b - Bval a))) <= 19 * T.
Proof.
  intros Fa Fb Ft Ha Hb [T0 T1] Ht q. pose proof size_pos as PM. destruct size_T as [PT ST]. pose proof eps_pos as PE. pose proof eps_small as SE. destruct (one_sub size_scale Fb Fa Hb Ha) as (Fd & Ed & Hd). fold T in Ed.
  set (d := nsub b a) in *. assert (TB : Rabs (Bval t) <= 1 + 3 * eps) by (apply abs_le in Ht; apply abs_le; lra).
  assert (Q1 : Rabs (Bval d * Bval t) <= 3 * M * (1 + 3 * eps)) by (apply mul_bound; auto; lra).
  assert (Q2 : Rabs ((Bval d - (Bval b - Bval a)) * Bval t) <= 2 * T * (1 + 3 * eps)) by (apply mul_bound; auto; lra).
  assert (Q3 : Rabs ((Bval b - Bval a) * (Bval t - tau)) <= 2 * M * (3 * eps)) by (apply mul_bound; auto; try lra; apply abs_le in Ha, Hb; apply abs_le; lra).
  assert (B1 : 3 * M * (1 + 3 * eps) <= 4 * M) by nra. assert (B2 : 2 * T * (1 + 3 * eps) <= 3 * T) by nra. assert (B3 : 2 * M * (3 * eps) = 6 * T) by (unfold T; ring). rewrite B3 in Q3.
  assert (Q1' : Rabs (Bval d * Bval t) <= 4 * M) by lra. assert (Q2' : Rabs ((Bval d - (Bval b - Bval a)) * Bval t) <= 3 * T) by lra. clear Q1 Q2 B1 B2.
  destruct (@mul_ap d t (4 * M) Fd Ft) as [Fm Em]; [apply scale_mid; [apply size_scale|lra]|exact Q1'|]. replace (eps * (4 * M)) with (4 * T) in Em by (unfold T; ring). apply abs_le in Q1', Q2', Q3, Em, Ha.
  destruct (@add_ap (nmul d t) a (6 * M) Fm Fa) as [Fs Es]; [apply scale_mid; [apply size_scale|lra]|apply abs_le; lra|]. replace (eps * (6 * M)) with (6 * T) in Es by (unfold T; ring). apply abs_le in Es. fold q in Fs, Es.
  split; [exact Fs|]. apply abs_le. lra.
Qed.
Lemma point_ap a b t tau : within M a -> within M b -> bfin t = true -> 0 <= tau <= 1 -> Rabs (Bval t - tau) <= 3 * eps ->
  close3 (19 * T) (vadd (map3 (fun x => nmul x t) (vsub b a)) a) (lerp tau (Rval3 a) (Rval3 b)).
Proof.
  intros Wa Wb Ft Tau Ht. destruct (within_fin Wa) as (A0 & A1 & A2). destruct (within_fin Wb) as (B0 & B1 & B2). destruct Wa as (_ & a0 & a1 & a2), Wb as (_ & b0 & b1 & b2).
  destruct (sample_ap A0 B0 Ft a0 b0 Tau Ht) as [F0 E0]. destruct (sample_ap A1 B1 Ft a1 b1 Tau Ht) as [F1 E1]. destruct (sample_ap A2 B2 Ft a2 b2 Tau Ht) as [F2 E2].
  unfold close3, fin3b, vadd, vsub, zip3, map3, lerp, radd, rscale, rsub, Rval3, map3. cbn [c0 c1 c2]. rewrite F0, F1, F2. auto.
Qed.
Lemma bzero_mul (d : b64) : bfin d = true -> Bval d = Bval d -> bfin (nmul d (nofZ 0)) = true /\ Bval (nmul d (nofZ 0)) = 0.
Proof. intros F _. destruct d as [s|s| |s m e H]; try discriminate F; split; reflexivity. Qed.
Lemma point_0 a b t : within M a -> within M b -> bfin t = true -> Bval t = 0 -> Rval3 (vadd (map3 (fun x => nmul x t) (vsub b a)) a) = Rval3 a.
Proof.
  intros Wa Wb Ft Ht. destruct (within_fin Wa) as (A0 & A1 & A2). destruct (within_fin Wb) as (B0 & B1 & B2). destruct Wa as (_ & a0 & a1 & a2), Wb as (_ & b0 & b1 & b2).
  assert (K : forall x y, bfin x = true -> bfin y = true -> Rabs (Bval x) <= M -> Rabs (Bval y) <= M -> Bval (nadd (nmul (nsub y x) t) x) = Bval x).
  { intros x y Fx Fy Hx Hy. destruct (one_sub size_scale Fy Fx Hy Hx) as (Fd & _ & _). set (d := nsub y x) in *.
    assert (V : Bval (bmul d t) = 0 /\ bfin (bmul d t) = true).
    { destruct (@bmul_val d t) as [-> ->]; auto; rewrite Ht, Rmult_0_r; [rewrite Rabs_R0; apply bpow_ge_0|]. split; [apply rnd64_0|reflexivity]. }
    destruct V as [V FV]. change (nadd (nmul d t) x) with (badd (bmul d t) x). destruct (@badd_val (bmul d t) x) as [-> _]; auto; rewrite V, Rplus_0_l.
    - apply Rle_trans with (1 := Hx). apply Rle_trans with (bpow radix2 300); [apply HM|apply bpow_le; lia].
    - apply rnd64_B. }
  apply V3_eq; unfold Rval3, vadd, vsub, zip3, map3; cbn [c0 c1 c2]; apply K; auto.
Qed.

(** the parameters [np.linspace] computes *)
Lemma param_ap k i : (1 <= k <= 2 ^ 50)%Z -> (i <= Z.to_nat k)%nat ->
  let t := nmul (nofZ (Z.of_nat i)) (ndiv (nofZ 1) (nofZ k)) : b64 in
  bfin t = true /\ Rabs (Bval t - INR i / IZR k) <= 3 * eps /\ 0 <= INR i / IZR k <= 1 /\ (i = 0%nat -> Bval t = 0).
Proof.
  intros K I t. pose proof eps_pos as PE. pose proof eps_small as SE. destruct (int_val (z := k)) as [Fk Vk]; [lia|]. destruct (int_val (z := 1)) as [F1 V1]; [lia|]. destruct (int_val (z := Z.of_nat i)) as [Fi Vi]; [lia|]. rewrite <- INR_IZR_INZ in Vi.
  assert (K2 : 1 <= IZR k) by (apply IZR_le; lia). assert (KU : IZR k <= bpow radix2 50) by (rewrite <- (IZR_Zpower radix2) by lia; apply IZR_le; apply K).
  assert (IK : 0 <= INR i <= IZR k) by (split; [apply pos_INR|rewrite INR_IZR_INZ; apply IZR_le; lia]).
  set (B := / IZR k) in *. assert (PB : 0 < B) by (apply Rinv_0_lt_compat; lra).
  assert (MB : mid B).
  { split; [apply Rle_trans with (bpow radix2 (-50)); [apply bpow_le; lia|change (-50)%Z with (Z.opp 50); rewrite bpow_opp; apply Rinv_le; lra]|apply Rle_trans with 1; [unfold B; rewrite <- Rinv_1; apply Rinv_le; lra|change 1 with (bpow radix2 0); apply bpow_le; lia]]. }
  destruct (@div_ap (nofZ 1) (nofZ k) B F1 MB) as [Fs Es]; [rewrite Vk; lra|rewrite V1, Vk; unfold Rdiv; rewrite Rmult_1_l; fold B; rewrite Rabs_pos_eq; lra|]. rewrite V1, Vk in Es. unfold Rdiv in Es. rewrite Rmult_1_l in Es. fold B in Es.
  set (s := ndiv (nofZ 1) (nofZ k)) in *. assert (IB : 0 <= INR i * B <= 1).
  { split; [apply Rmult_le_pos; lra|]. replace 1 with (IZR k * B) by (unfold B; field; lra). apply Rmult_le_compat_r; lra. }
  assert (Q : Rabs (INR i * (Bval s - B)) <= eps).
  { rewrite Rabs_mult, (Rabs_pos_eq (INR i)) by lra. apply Rle_trans with (INR i * (eps * B)); [apply Rmult_le_compat_l; lra|]. replace (INR i * (eps * B)) with (eps * (INR i * B)) by ring. nra. }
  apply abs_le in Q. destruct (@mul_ap (nofZ (Z.of_nat i)) s 2 Fi Fs) as [Ft Et]; [split; change 2 with (bpow radix2 1); apply bpow_le; lia|rewrite Vi; apply abs_le; lra|]. rewrite Vi in Et. fold t in Ft, Et. apply abs_le in Et.
  split; [exact Ft|]. unfold Rdiv. fold B. split; [apply abs_le; lra|]. split; [exact IB|]. intros ->. change t with (bmul (nofZ 0) s). destruct (@bmul_val (nofZ 0) s) as [-> _]; auto; change (Bval (nofZ 0)) with 0; rewrite Rmult_0_l; [rewrite Rabs_R0; apply bpow_ge_0|apply rnd64_0].
Qed.
Lemma segment_ap a b k : within M a -> within M b -> (2 <= k <= 2 ^ 50)%Z -> exists d, partition_segment a b (IntArg k) false = Ok d /\
  Forall2 (close3 (19 * T)) d (chunk (Z.to_nat k) (Rval3 a, Rval3 b)) /\ exists y l, d = y :: l /\ Rval3 y = Rval3 a.
Proof.
  intros Wa Wb K. unfold partition_segment. destruct (Z.ltb_spec k 2) as [|_]; [lia|]. eexists. split; [reflexivity|]. unfold linspace01, narange. rewrite Nat.sub_0_r, Z2Nat.id by lia. rewrite !map_map. split.
  - unfold chunk. cbn [fst snd]. assert (G : Forall (fun i => (i < Z.to_nat k)%nat) (seq 0 (Z.to_nat k))) by (apply Forall_forall; intros i I; apply in_seq in I; lia).
    induction G as [|i l Hi G IH]; cbn [map]; constructor; auto. destruct (@param_ap k i) as (F & E & B & _); [lia|lia|]. rewrite (INR_IZR_INZ (Z.to_nat k)), Z2Nat.id by lia. now apply point_ap.
  - destruct (Z.to_nat k) as [|n] eqn:En; [lia|]. cbn [seq map]. do 2 eexists. split; [reflexivity|]. destruct (@param_ap k 0) as (F & _ & _ & Z0); [lia|lia|]. apply point_0; auto.
Qed.

Lemma segment_end_ap a b k : within M a -> within M b -> (2 <= k <= 2 ^ 50)%Z -> exists d, partition_segment a b (IntArg k) true = Ok d /\
  Forall2 (close3 (19 * T)) d (map (fun i => lerp (INR i / IZR (k - 1)) (Rval3 a) (Rval3 b)) (seq 0 (Z.to_nat k))) /\ exists y l, d = y :: l /\ Rval3 y = Rval3 a.
Proof.
  intros Wa Wb K. unfold partition_segment. destruct (Z.ltb_spec k 2) as [|_]; [lia|]. eexists. split; [reflexivity|]. unfold linspace01, narange. rewrite Nat.sub_0_r, Z2Nat.id by lia.
  destruct (Z.to_nat k) as [|[|n]] eqn:En; try lia. rewrite (seq_S (S n)), !map_app. cbn [map].
  rewrite removelast_last, !map_map. split.
  - apply Forall2_app.
    + assert (G : Forall (fun i => (i <= Z.to_nat (k - 1))%nat) (seq 0 (S n))) by (apply Forall_forall; intros i I; apply in_seq in I; lia).
      induction G as [|i l Hi G IH]; cbn [map]; constructor; auto. destruct (@param_ap (k - 1) i) as (F & E & B & _); [lia|lia|]. now apply point_ap.
    + constructor; [|constructor]. destruct (int_val (z := 1)) as [F1 V1]; [lia|]. rewrite Nat.add_0_l. apply point_ap; auto; replace (INR (S n) / IZR (k - 1)) with 1; try lra.
      * rewrite INR_IZR_INZ. replace (Z.of_nat (S n)) with (k - 1)%Z by lia. field. apply not_0_IZR. lia.
      * rewrite V1. replace (1 - 1) with 0 by ring. rewrite Rabs_R0. pose proof eps_pos. lra.
      * rewrite INR_IZR_INZ. replace (Z.of_nat (S n)) with (k - 1)%Z by lia. field. apply not_0_IZR. lia.
  - cbn [seq map app]. do 2 eexists. split; [reflexivity|]. destruct (@param_ap (k - 1) 0) as (F & _ & _ & Z0); [lia|lia|]. apply point_0; auto.
Qed.

(** the length of a segment *)
Lemma small_norm v : fin3b v = true -> rnorm (Rval3 v) <= bpow radix2 (-400) -> bfin (vnorm v) = true /\ 0 <= Bval (vnorm v) <= bpow radix2 (-399).
Proof.
  intros Fv HX. unfold fin3b in Fv. apply andb_prop in Fv. destruct Fv as [Fv F2]. apply andb_prop in Fv. destruct Fv as [F0 F1]. destruct (comp_le (Rval3 v)) as (L0 & L1 & L2). unfold Rval3, map3 in L0, L1, L2. cbn [c0 c1 c2] in L0, L1, L2. fold (map3 Bval v) in L0, L1, L2. fold (Rval3 v) in L0, L1, L2.
  assert (S : forall x, bfin x = true -> Rabs (Bval x) <= bpow radix2 (-400) -> bfin (nmul x x) = true /\ 0 <= Bval (nmul x x) <= bpow radix2 (-800)).
  { intros x F H. assert (E : Bval x * Bval x = Rabs (Bval x) * Rabs (Bval x)) by (rewrite <- Rabs_mult, Rabs_pos_eq; [reflexivity|nra]). pose proof (Rabs_pos (Bval x)) as P.
    assert (B : Rabs (Bval x * Bval x) <= bpow radix2 (-800)).
    { rewrite E, Rabs_pos_eq by nra. replace (bpow radix2 (-800)) with (bpow radix2 (-400) * bpow radix2 (-400)) by (rewrite <- bpow_plus; reflexivity). apply Rmult_le_compat; auto. }
    change (nmul x x) with (bmul x x). destruct (@bmul_val x x) as [-> ->]; auto; [apply Rle_trans with (1 := B); apply bpow_le; lia|]. split; [reflexivity|]. split; [rewrite <- rnd64_0; apply rnd64_le; nra|]. apply Rle_trans with (1 := Rle_abs _). apply rnd64_pow; [lia|exact B]. }
  destruct (S _ F0) as [A0 B0]; [lra|]. destruct (S _ F1) as [A1 B1]; [lra|]. destruct (S _ F2) as [A2 B2]; [lra|].
  assert (D : forall x y e, bfin x = true -> bfin y = true -> (-1000 <= e <= 900)%Z -> 0 <= Bval x <= bpow radix2 e -> 0 <= Bval y <= bpow radix2 e -> bfin (nadd x y) = true /\ 0 <= Bval (nadd x y) <= bpow radix2 (e + 1)).
  { intros x y e Fx Fy He Hx Hy. assert (E2 : bpow radix2 (e + 1) = 2 * bpow radix2 e) by (rewrite bpow_plus; change (bpow radix2 1) with 2; ring).
    assert (B : Rabs (Bval x + Bval y) <= bpow radix2 (e + 1)) by (rewrite E2; apply abs_le; lra).
    change (nadd x y) with (badd x y). destruct (@badd_val x y) as [-> ->]; auto; [apply Rle_trans with (1 := B); apply bpow_le; lia|]. split; [reflexivity|]. split; [rewrite <- rnd64_0; apply rnd64_le; lra|]. apply Rle_trans with (1 := Rle_abs _). apply rnd64_pow; [lia|exact B]. }
  destruct (D _ _ (-800)%Z A0 A1) as [S1 C1]; auto; [lia|]. destruct (D _ _ (-799)%Z S1 A2) as [S2 C2]; auto; [lia|split; [lra|apply Rle_trans with (1 := proj2 B2); apply bpow_le; lia]|].
  change (vnorm v) with (nsqrt (nadd (nadd (nmul (c0 v) (c0 v)) (nmul (c1 v) (c1 v))) (nmul (c2 v) (c2 v)))). set (s := nadd (nadd (nmul (c0 v) (c0 v)) (nmul (c1 v) (c1 v))) (nmul (c2 v) (c2 v))) in *. clearbody s.
  destruct (Rle_lt_or_eq_dec 0 (Bval s)) as [P|Z]; [lra| |].
  - destruct (bsqrt_val S2 P) as [-> ->]. split; [reflexivity|]. split; [rewrite <- rnd64_0; apply rnd64_le, sqrt_pos|]. apply Rle_trans with (1 := Rle_abs _). apply rnd64_pow; [lia|]. rewrite Rabs_pos_eq by apply sqrt_pos.
    rewrite <- (sqrt_square (bpow radix2 (-399))) by apply bpow_ge_0. rewrite <- bpow_plus. apply sqrt_le_1_alt. exact (proj2 C2).
  - destruct s as [b|b| |b m e H]; try discriminate S2; [split; [reflexivity|change (0 <= 0 <= bpow radix2 (-399)); split; [lra|apply bpow_ge_0]]|]. exfalso. cbn in Z. symmetry in Z. apply eq_0_F2R in Z. now destruct b.
Qed.

(** one segment *)
Context (m : b64) (Fm : bfin m = true) (Hm : bpow radix2 (-40) * M <= Bval m <= bpow radix2 400).
Lemma m_low : bpow radix2 (-340) <= Bval m.
Proof. apply Rle_trans with (2 := proj1 Hm). replace (bpow radix2 (-340)) with (bpow radix2 (-40) * bpow radix2 (-300)) by (rewrite <- bpow_plus; reflexivity). apply Rmult_le_compat_l; [apply bpow_ge_0|apply HM]. Qed.
Lemma close_self e v : 0 <= e -> fin3b v = true -> close3 e v (Rval3 v).
Proof. intros He F. split; [exact F|]. unfold Rval3, map3. cbn [c0 c1 c2]. unfold Rminus. rewrite !Rplus_opp_r, Rabs_R0. auto. Qed.
Lemma diff_ap a b : within M a -> within M b -> close3 (2 * T) (vsub b a) (rsub (Rval3 b) (Rval3 a)) /\ within (3 * M) (vsub b a).
Proof.
  intros Wa Wb. destruct (within_fin Wa) as (A0 & A1 & A2). destruct (within_fin Wb) as (B0 & B1 & B2). destruct Wa as (_ & a0 & a1 & a2), Wb as (_ & b0 & b1 & b2). pose proof size_scale as SC.
  destruct (one_sub SC B0 A0 b0 a0) as (F0 & E0 & U0). destruct (one_sub SC B1 A1 b1 a1) as (F1 & E1 & U1). destruct (one_sub SC B2 A2 b2 a2) as (F2 & E2 & U2). fold T in E0, E1, E2.
  unfold close3, within, fin3b, vsub, zip3, rsub, Rval3, map3. cbn [c0 c1 c2]. rewrite F0, F1, F2. auto 10.
Qed.
Lemma chunk_1 ab : chunk 1 ab = [fst ab].
Proof. destruct (@chunk_cons 1 ab) as [l E]; [lia|]. rewrite E. apply (f_equal (@length _)) in E. unfold chunk in E. rewrite map_length, seq_length in E. destruct l; [reflexivity|discriminate]. Qed.
(** the fewest pieces no longer than [L], up to [e] *)
Definition about_fewest (L e : R) (ab : V3 R * V3 R) (k : nat) : Prop :=
  (1 <= k)%nat /\ seglen ab <= INR k * L + e /\ ((1 < k)%nat -> INR (k - 1) * L < seglen ab + e).
Lemma about_enough L e ss ks : 0 <= e -> Forall2 (about_fewest L e) ss ks -> Forall2 (enough (L + e)) ss ks.
Proof. intros He. induction 1 as [|ab k ss ks (K & B & _) _ IH]; constructor; auto. split; [exact K|]. apply le_INR in K. cbn in K. nra. Qed.
Lemma rnd_high z : bpow radix2 (-1022) <= z -> rnd64 z <= (1 + eps) * z.
Proof. intros H. pose proof (bpow_gt_0 radix2 (-1022)). assert (E : Rabs (rnd64 z - z) <= eps * z) by (apply rnd_err; [auto|rewrite Rabs_pos_eq; lra]). apply abs_le in E. lra. Qed.
Lemma subdivide_ap a b : within M a -> within M b -> exists k d, subdivide a b (ndiv (vnorm (vsub b a)) m) = Ok d /\
  about_fewest (Bval m) (65 * T) (Rval3 a, Rval3 b) k /\ Forall2 (close3 (19 * T)) d (chunk k (Rval3 a, Rval3 b)) /\ exists y l, d = y :: l /\ Rval3 y = Rval3 a.
Proof.
  intros Wa Wb. destruct (diff_ap Wa Wb) as [CD WD]. set (v := vsub b a) in *. pose proof size_pos as PM. destruct size_T as [PT ST]. pose proof eps_pos as PE. pose proof eps_small as SE. pose proof m_low as ML. destruct Hm as [HmL HmU].
  pose proof (bpow_gt_0 radix2 (-340)) as P340. assert (Pm : 0 < Bval m) by lra.
  pose proof (@close_norm (2 * T) _ _ ltac:(lra) CD) as NL. assert (EL : rnorm (rsub (Rval3 b) (Rval3 a)) = seglen (Rval3 a, Rval3 b)).
  { unfold seglen, rdist. cbn [fst snd]. replace (rsub (Rval3 a) (Rval3 b)) with (rscale (-1) (rsub (Rval3 b) (Rval3 a))) by (apply V3_eq; unfold rscale, rsub; cbn [c0 c1 c2]; ring). rewrite rnorm_scale, Rabs_left by lra. ring. }
  rewrite EL in NL. set (L := seglen (Rval3 a, Rval3 b)) in *. apply abs_le in NL. unfold subdivide.
  assert (ONE : L <= Bval m + 65 * T -> about_fewest (Bval m) (65 * T) (Rval3 a, Rval3 b) 1 /\ Forall2 (close3 (19 * T)) [a] (chunk 1 (Rval3 a, Rval3 b)) /\ exists y l, [a] = y :: l /\ Rval3 y = Rval3 a).
  { intros HL. split; [split; [lia|]; fold L; split; [cbn; lra|lia]|]. rewrite chunk_1. split; [|eauto]. constructor; [|constructor]. apply close_self; [lra|apply Wa]. }
  destruct (Rle_lt_dec (rnorm (Rval3 v)) (bpow radix2 (-400))) as [C|C].
  - destruct (small_norm (proj1 CD) C) as [Fl Vl]. set (l := vnorm v) in *.
    assert (Q : 0 <= Bval l / Bval m <= bpow radix2 0).
    { split; [apply Rmult_le_pos; [lra|apply Rlt_le, Rinv_0_lt_compat; lra]|]. apply Rmult_le_reg_r with (Bval m); [lra|]. unfold Rdiv. rewrite Rmult_assoc, Rinv_l by lra. change (bpow radix2 0) with 1. assert (bpow radix2 (-399) <= bpow radix2 (-340)) by (apply bpow_le; lia). lra. }
    assert (QA : Rabs (Bval l / Bval m) <= bpow radix2 0) by (rewrite Rabs_pos_eq by lra; lra).
    change (ndiv l m) with (bdiv l m). destruct (@bdiv_val l m) as [V F]; auto; [lra|apply Rle_trans with (1 := QA); apply bpow_le; lia|]. rewrite bceil_val by exact F. rewrite V.
    destruct (Z.leb_spec (Zceil (rnd64 (Bval l / Bval m))) 1) as [K|K].
    + exists 1%nat, [a]. split; [reflexivity|]. apply ONE. assert (bpow radix2 (-400) <= bpow radix2 (-340)) by (apply bpow_le; lia). lra.
    + exfalso. apply (Z.lt_irrefl 1). apply Z.lt_le_trans with (1 := K). apply Zceil_glb. apply Rle_trans with (1 := Rle_abs _). change 1 with (bpow radix2 0). apply rnd64_pow; [lia|exact QA].
  - assert (U6 : rnorm (Rval3 v) <= 6 * M) by (replace (6 * M) with (2 * (3 * M)) by ring; destruct WD as (_ & D0 & D1 & D2); apply rnorm_small; auto; lra).
    assert (SP : span_ok (rnorm (Rval3 v))).
    { split; [lra|]. apply Rle_trans with (1 := U6). apply Rle_trans with (8 * bpow radix2 300); [destruct HM; lra|]. change 8 with (bpow radix2 3). rewrite <- bpow_plus. apply bpow_le. lia. }
    destruct (norm_ap (proj1 CD) SP) as [Fl El]. set (l := vnorm v) in *. set (L' := rnorm (Rval3 v)) in *.
    assert (E54 : 9 * eps * L' <= 54 * T) by (unfold T; nra). apply abs_le in El.
    pose proof (bpow_gt_0 radix2 (-400)) as P400. assert (Ll : L' / 2 <= Bval l) by (assert (eps * L' <= L' / 1000) by nra; lra). assert (Ul : Bval l <= 7 * M) by lra.
    assert (Q1 : 0 < Bval l / Bval m) by (apply Rmult_lt_0_compat; [lra|apply Rinv_0_lt_compat; lra]).
    assert (Q2 : Bval l / Bval m <= bpow radix2 43).
    { apply Rmult_le_reg_r with (Bval m); [lra|]. unfold Rdiv. rewrite Rmult_assoc, Rinv_l by lra. rewrite Rmult_1_r. apply Rle_trans with (1 := Ul). apply Rle_trans with (8 * M); [lra|].
      replace (8 * M) with (bpow radix2 43 * (bpow radix2 (-40) * M)) by (rewrite <- Rmult_assoc, <- bpow_plus; reflexivity). apply Rmult_le_compat_l; [apply bpow_ge_0|exact HmL]. }
    assert (Q3 : bpow radix2 (-1022) <= Bval l / Bval m).
    { apply Rmult_le_reg_r with (Bval m); [lra|]. unfold Rdiv. rewrite Rmult_assoc, Rinv_l by lra. rewrite Rmult_1_r. apply Rle_trans with (bpow radix2 (-1022) * bpow radix2 400); [apply Rmult_le_compat_l; [apply bpow_ge_0|exact HmU]|]. rewrite <- bpow_plus.
      apply Rle_trans with (bpow radix2 (-401)); [apply bpow_le; lia|]. replace (bpow radix2 (-401)) with (bpow radix2 (-400) * / 2) by (change (/ 2) with (bpow radix2 (-1)); rewrite <- bpow_plus; reflexivity). lra. }
    assert (QA : Rabs (Bval l / Bval m) <= bpow radix2 43) by (rewrite Rabs_pos_eq by lra; lra).
    change (ndiv l m) with (bdiv l m). destruct (@bdiv_val l m) as [V F]; auto; [lra|apply Rle_trans with (1 := QA); apply bpow_le; lia|]. rewrite bceil_val by exact F. rewrite V.
    pose proof (rnd_low Q3) as LW. pose proof (rnd_high Q3) as HW. set (x := rnd64 (Bval l / Bval m)) in *. assert (UX : x <= bpow radix2 43) by (apply Rle_trans with (1 := Rle_abs _); apply rnd64_pow; [lia|exact QA]).
    assert (PX : 0 < x) by (assert (eps * (Bval l / Bval m) <= (Bval l / Bval m) / 2) by nra; lra).
    pose proof (Zceil_ub x) as UB. set (k := Zceil x) in *. assert (K1 : (0 < k)%Z) by (apply lt_IZR; lra).
    assert (K2 : (k <= 2 ^ 43)%Z) by (apply Zceil_glb; change (2 ^ 43)%Z with (radix2 ^ 43)%Z; rewrite IZR_Zpower by lia; exact UX).
    assert (HL : L <= IZR k * Bval m + 65 * T).
    { assert (A : (1 - eps) * Bval l <= IZR k * Bval m).
      { replace ((1 - eps) * Bval l) with ((1 - eps) * (Bval l / Bval m) * Bval m) by (field; lra). apply Rmult_le_compat_r; lra. }
      assert (B : eps * Bval l <= 7 * T) by (unfold T; nra). lra. }
    destruct (Z.leb_spec k 1) as [K|K].
    + exists 1%nat, [a]. split; [reflexivity|]. apply ONE. replace k with 1%Z in HL by lia. lra.
    + destruct (@segment_ap a b k Wa Wb) as (d & Ed & Cd & Hd); [lia|]. exists (Z.to_nat k), d. split; [exact Ed|]. split; [|auto]. split; [lia|]. fold L. split; [rewrite INR_IZR_INZ, Z2Nat.id by lia; exact HL|]. intros _.
      assert (KX : IZR (k - 1) < x) by (apply Rnot_le_lt; intros J; apply Zceil_glb in J; fold k in J; lia).
      rewrite INR_IZR_INZ, Nat2Z.inj_sub, Z2Nat.id by lia. change (Z.of_nat 1) with 1%Z.
      assert (A : IZR (k - 1) * Bval m < (1 + eps) * Bval l).
      { replace ((1 + eps) * Bval l) with ((1 + eps) * (Bval l / Bval m) * Bval m) by (field; lra). apply Rmult_lt_compat_r; lra. }
      assert (B : eps * Bval l <= 7 * T) by (unfold T; nra). lra.
Qed.

(** all the segments *)
Lemma loop_ap (ss : list (V3 b64 * V3 b64)) : Forall (fun ab => within M (fst ab) /\ within M (snd ab)) ss ->
  exists ks ds, Forall2 (about_fewest (Bval m) (65 * T)) (map (fun ab => (Rval3 (fst ab), Rval3 (snd ab))) ss) ks /\
    Forall2 (fun ab d => exists y l, d = y :: l /\ Rval3 y = Rval3 (fst ab)) ss ds /\
    Forall2 (close3 (19 * T)) (concat ds) (concat (map (fun kab => chunk (snd kab) (fst kab)) (combine (map (fun ab => (Rval3 (fst ab), Rval3 (snd ab))) ss) ks))) /\
    forall nv idx, partition_loop ss (map (fun l => ndiv l m) (map (fun ab => vnorm (vsub (snd ab) (fst ab))) ss)) nv idx = Ok (nv ++ concat ds, idx ++ offsets (length nv) ds).
Proof.
  induction 1 as [|[a b] ss [Wa Wb] _ (ks & ds & H1 & H2 & H3 & H4)].
  - exists [], []. split; [constructor|]. split; [constructor|]. split; [constructor|]. intros nv idx. cbn. now rewrite !app_nil_r.
  - cbn [fst snd] in *. destruct (subdivide_ap Wa Wb) as (k & d & E & Hk & Cd & Hd). exists (k :: ks), (d :: ds). split; [constructor; auto|]. split; [constructor; auto|].
    split; [cbn [map combine concat fst snd]; now apply Forall2_app|]. intros nv idx. cbn [map partition_loop fst snd]. rewrite E. cbn [bindr]. rewrite H4. rewrite app_length, <- !app_assoc. reflexivity.
Qed.

Lemma segs_Rval c (vs : list (V3 b64)) : segs c (map Rval3 vs) = map (fun ab => (Rval3 (fst ab), Rval3 (snd ab))) (segs c vs).
Proof. apply segs_map. Qed.
Lemma close_numeric e (ws : list (V3 b64)) ys : Forall2 (close3 e) ws ys -> numeric ws = true.
Proof.
  induction 1 as [|w y ws ys (F & _) _ IH]; [reflexivity|]. unfold numeric in *. cbn [forallb]. rewrite IH, andb_true_r. exact F.
Qed.
Lemma walk_Forall2 A B (P : A -> B -> Prop) c l m' : Forall2 P l m' -> Forall2 P (walk c l) (walk c m').
Proof. intros H. unfold walk. destruct c; [|exact H]. apply Forall2_app; [exact H|]. destruct H; cbn; auto. Qed.
Lemma segs_Forall2 A B (P : A -> B -> Prop) c l m' : Forall2 P l m' -> Forall2 (fun x y => P (fst x) (fst y) /\ P (snd x) (snd y)) (segs c l) (segs c m').
Proof.
  intros H. apply (walk_Forall2 c) in H. unfold segs. induction H as [|x y l' m'' H H' IH]; [constructor|]. cbn [tl]. destruct H' as [|x' y' l2 m2 H2 H']; cbn [combine]; constructor; auto.
Qed.
Lemma close_dist e a b x y : 0 <= e -> close3 e a x -> close3 e b y -> rdist (Rval3 a) (Rval3 b) <= rdist x y + 4 * e.
Proof.
  intros He (_ & A0 & A1 & A2) (_ & B0 & B1 & B2). unfold rdist.
  replace (rsub (Rval3 a) (Rval3 b)) with (radd (rsub x y) (radd (rsub (Rval3 a) x) (rsub y (Rval3 b)))) by (apply V3_eq; unfold radd, rsub; cbn [c0 c1 c2]; ring).
  eapply Rle_trans; [apply rnorm_tri|]. apply Rplus_le_compat_l. eapply Rle_trans; [apply rnorm_tri|].
  assert (rnorm (rsub (Rval3 a) x) <= 2 * e) by (apply rnorm_small; auto). assert (rnorm (rsub y (Rval3 b)) <= 2 * e) by (apply rnorm_small; auto; unfold rsub; cbn [c0 c1 c2]; rewrite Rabs_minus_sym; auto). lra.
Qed.
Theorem partition_ap c (vs : list (V3 b64)) : vs <> [] -> Forall (within M) vs ->
  exists ks idx ws, partition_by_length (poly c vs) m = (poly c ws, Ok idx) /\
    Forall2 (about_fewest (Bval m) (65 * T)) (segs c (map Rval3 vs)) ks /\
    Forall2 (close3 (19 * T)) ws (subdivided c (map Rval3 vs) ks) /\
    Forall (fun ab => rdist (Rval3 (fst ab)) (Rval3 (snd ab)) <= Bval m + 141 * T) (segs c ws) /\
    length idx = length vs /\ StronglySorted lt idx /\
    (forall i x, nth_error vs i = Some x -> exists j y, nth_error idx i = Some j /\ nth_error ws j = Some y /\ Rval3 y = Rval3 x).
Proof.
  intros Hv HW. destruct size_T as [PT ST].
  assert (HS : Forall (fun ab => within M (fst ab) /\ within M (snd ab)) (segs c vs)).
  { apply Forall_forall. intros [a b] I. apply segs_in in I as [I J]. rewrite Forall_forall in HW. cbn [fst snd]. auto. }
  destruct (loop_ap HS) as (ks & ds & H1 & H2 & H3 & H4). rewrite <- segs_Rval in H1, H3.
  exists ks. set (tl := if c then [] else [last vs (hd (mk3 n0 n0 n0) vs)]). exists (offsets 0 (ds ++ map (fun x => [x]) tl)), (concat ds ++ tl).
  assert (E4 := H4 [] []). cbn [app length] in E4.
  assert (CL : Forall2 (close3 (19 * T)) (concat ds ++ tl) (subdivided c (map Rval3 vs) ks)).
  { unfold subdivided. apply Forall2_app; [exact H3|]. unfold tl. destruct c; [constructor|]. constructor; [|constructor].
    assert (EQ : last (map Rval3 vs) rzero = Rval3 (last vs (hd (mk3 n0 n0 n0) vs))) by (now apply last_map).
    rewrite EQ. apply close_self; [lra|]. assert (I : In (last vs (hd (mk3 n0 n0 n0) vs)) vs) by (now apply last_in).
    rewrite Forall_forall in HW. apply (HW _ I). }
  assert (NU : numeric (concat ds ++ tl) = true) by exact (close_numeric CL).
  assert (HD : Forall2 (fun d x => exists y l, d = y :: l /\ Rval3 y = Rval3 x) (ds ++ map (fun x => [x]) tl) vs).
  { assert (G : Forall2 (fun d x => exists y l, d = y :: l /\ Rval3 y = Rval3 x) ds (map fst (segs c vs))).
    { clear - H2. induction H2 as [|ab d ss ds H _ IH]; cbn [map]; constructor; auto. }
    unfold tl. destruct c; cbn [map].
    - rewrite app_nil_r. now rewrite map_fst_segs_closed in G.
    - destruct vs as [|x w]; [congruence|]. cbn [hd]. rewrite <- (map_fst_segs_open x w x) at 2. apply Forall2_app; auto. constructor; [|constructor]. eauto. }
  assert (LD : length (ds ++ map (fun x => [x]) tl) = length vs) by (clear - HD; induction HD; cbn; auto).
  split; [|split; [exact H1|split; [exact CL|split; [|split; [|split]]]]].
  - unfold partition_by_length. assert (EL : segment_lengths (poly c vs) = Ok (map (fun ab => vnorm (vsub (snd ab) (fst ab))) (segs c vs))) by (unfold segment_lengths; cbn [poly p_e]; fold (poly c vs); rewrite segments_poly; reflexivity).
    rewrite EL. cbn [bindr]. change (p_e (poly c vs)) with (Some (chain_edges (length vs) c)). cbn match. rewrite segments_poly. cbn [bindr]. rewrite E4. cbn [bindr]. change (p_closed (poly c vs)) with c. change (p_v (poly c vs)) with (Some vs).
    unfold tl in *. destruct c; cbn [map] in *.
    + rewrite !app_nil_r in *. rewrite set_points_some by exact NU. change (p_closed (poly true vs)) with true. replace (Nat.eqb (length (concat ds)) 0) with false; [reflexivity|]. symmetry. apply Nat.eqb_neq.
      destruct HD as [|d x ds' vs' (y & l & -> & _) _]; [congruence|]. cbn. lia.
    + destruct vs as [|h t]; [congruence|]. cbn [hd] in *. rewrite set_points_some by exact NU. change (p_closed (poly false (h :: t))) with false. cbn [andb mapr]. rewrite offsets_app. cbn [offsets]. rewrite Nat.add_0_l. reflexivity.
  - assert (NE : map Rval3 vs <> []) by (destruct vs; [congruence|discriminate]). pose proof (enough_bound NE (@about_enough (Bval m) (65 * T) _ _ ltac:(lra) H1)) as B. apply (segs_Forall2 c) in CL. clear - CL B PT. revert B.
    induction CL as [|[a b] [x y] l1 l2 [C1 C2] _ IH]; intros B; constructor; inversion_clear B as [|? ? B1 B2]; auto. cbn [fst snd] in *. unfold seglen in B1. cbn [fst snd] in B1. pose proof (@close_dist (19 * T) _ _ _ _ ltac:(lra) C1 C2). lra.
  - now rewrite offsets_length.
  - apply offsets_sorted. clear - HD. induction HD as [|d x ds' vs' (y & l & -> & _)]; constructor; auto. discriminate.
  - intros i x Hi. assert (Hd : exists y l, nth_error (ds ++ map (fun x => [x]) tl) i = Some (y :: l) /\ Rval3 y = Rval3 x).
    { clear - HD Hi. revert i Hi. induction HD as [|d z ds' vs' (y & l & -> & E) _ IH]; intros [|i] Hi; try discriminate; cbn [nth_error] in *; [injection Hi as <-; eauto|auto]. }
    destruct Hd as (y & l & Hd & E). destruct (offsets_heads 0 Hd) as (j & E1 & E2). exists j, y. split; [exact E1|]. split; [|exact E]. rewrite <- E2. rewrite concat_app. f_equal. f_equal.
    clear. induction tl as [|z t IH]; cbn; [reflexivity|]. now f_equal.
Qed.
End Size.
