(** * Proofs about Box, surface_normal and the generated solids. *)
From Coq Require Import Reals ZArith List Bool Lra Lia Permutation.
From Flocq Require Import Core.Raux Core.Zaux Core.Generic_fmt IEEE754.BinarySingleNaN.
From Verif Require Import Num B64 XLemmas BLemmas Vec RVec VLemmas SpecGeom SpecSolid NpList MVx MPlane PVx PPlane MSolids.
Import ListNotations.
Local Open Scope R_scope.
Set Implicit Arguments.
Unset Strict Implicit.

(** ** Box, exact *)
Definition nonneg (s : V3 R) : Prop := 0 <= c0 s /\ 0 <= c1 s /\ 0 <= c2 s.
Lemma as_triple_fin v : as_triple (Triple (fin3 v)) = Ok (fin3 v).
Proof. reflexivity. Qed.
Lemma as_triple_inv (a : triple_in xr) : (exists v, a = Triple (fin3 v)) \/ as_triple a = Err ValueError.
Proof.
  destruct a as [[x y z]|]; [|now right]. destruct x as [x|]; [|now right]. destruct y as [y|]; [|now right].
  destruct z as [z|]; [|now right]. left. now exists (mk3 x y z).
Qed.
Lemma mk_box_fin o s : nonneg s -> mk_box (Triple (fin3 o)) (Triple (fin3 s)) = Ok (mkbox (fin3 o) (fin3 s)).
Proof.
  intros (H0&H1&H2). unfold mk_box. rewrite !as_triple_fin. cbn [bindr]. unfold any3, map3, fin3, n0. cbn [c0 c1 c2 map3]. xs. rewrite !Rlt_bool_false by auto. reflexivity.
Qed.
Lemma mk_box_neg o s : ~ nonneg s -> mk_box (Triple (fin3 o)) (Triple (fin3 s)) = Err ValueError.
Proof.
  intros H. unfold mk_box. rewrite !as_triple_fin. cbn [bindr]. unfold any3, map3, fin3, n0. cbn [c0 c1 c2 map3]. xs.
  destruct (Rlt_bool_spec (c0 s) 0); auto. destruct (Rlt_bool_spec (c1 s) 0); auto.
  destruct (Rlt_bool_spec (c2 s) 0); auto. elim H. now repeat split.
Qed.
Lemma box_accepts (a b : triple_in xr) :
  (exists o s, a = Triple (fin3 o) /\ b = Triple (fin3 s) /\ nonneg s /\ mk_box a b = Ok (mkbox (fin3 o) (fin3 s))) \/
  ((forall o s, a = Triple (fin3 o) -> b = Triple (fin3 s) -> ~ nonneg s) /\ mk_box a b = Err ValueError).
Proof.
  destruct (as_triple_inv a) as [[o ->]|E].
  - destruct (as_triple_inv b) as [[s ->]|E].
    + assert (D : nonneg s \/ ~ nonneg s).
      { unfold nonneg. destruct (Rle_dec 0 (c0 s)), (Rle_dec 0 (c1 s)), (Rle_dec 0 (c2 s)); tauto. }
      destruct D as [D|D].
      * left. exists o, s. rewrite mk_box_fin; auto.
      * right. split; [|now apply mk_box_neg]. intros o' s' _ E2.
        assert (s = s') as <- by (apply fin3_inj; congruence). auto.
    + right. split; [|unfold mk_box; rewrite as_triple_fin; cbn; now rewrite E].
      intros o' s' _ ->. now rewrite as_triple_fin in E.
  - right. split; [|unfold mk_box; now rewrite E].
    intros o' s' -> _. now rewrite as_triple_fin in E.
Qed.
Lemma ranges_axis x d : 0 <= d ->
  (nmin2 (Fin x) (nadd (Fin x) (Fin d)), nmax2 (Fin x) (nadd (Fin x) (Fin d))) = (Fin x, Fin (x + d)).
Proof.
  intros H. unfold nmin2, nmax2. xs. rewrite Rlt_bool_false by lra.
  destruct (Rlt_bool_spec x (x + d)); auto. do 2 f_equal. lra.
Qed.
Lemma box_exact o s : nonneg s ->
  let b := mkbox (fin3 o) (fin3 s) in
  exists mid center floor,
    box_min b = fin3 o /\ box_mid b = fin3 mid /\ box_max b = fin3 (radd o s) /\ box_dims b = fin3 s /\
    ranges b = mk3 (Fin (c0 o), Fin (c0 o + c0 s)) (Fin (c1 o), Fin (c1 o + c1 s)) (Fin (c2 o), Fin (c2 o + c2 s)) /\
    radd o s = rsub (rscale 2 mid) o /\ in_box o s mid /\
    center_point b = fin3 center /\ center = mid /\
    floor_point b = fin3 floor /\ floor = mk3 (c0 mid) (c1 o) (c2 mid) /\ in_box o s floor /\
    volume b = Fin (c0 s * c1 s * c2 s) /\ 0 <= c0 s * c1 s * c2 s /\
    surface_area b = Fin (2 * (c0 s * c1 s) + 2 * (c1 s * c2 s) + 2 * (c0 s * c2 s)) /\
    0 <= 2 * (c0 s * c1 s) + 2 * (c1 s * c2 s) + 2 * (c0 s * c2 s).
Proof.
  intros (H0&H1&H2) b. destruct o as [ox oy oz], s as [sx sy sz]. cbn [c0 c1 c2] in *.
  exists (mk3 (ox + sx / 2) (oy + sy / 2) (oz + sz / 2)), (mk3 (ox + sx / 2) (oy + sy / 2) (oz + sz / 2)),
    (mk3 (ox + sx / 2) oy (oz + sz / 2)).
  assert (P1 : 0 <= sx * sy) by nra. assert (P2 : 0 <= sy * sz) by nra. assert (P3 : 0 <= sx * sz) by nra.
  split; [reflexivity|]. split; [|].
  { unfold box_mid, b, fin3, map3. cbn [c0 c1 c2 b_origin b_shape]. rewrite xofZ, !xdivE by lra. reflexivity. }
  split; [reflexivity|]. split; [reflexivity|]. split; [|].
  { unfold ranges, b, vadd, zip3, fin3, map3. cbn [c0 c1 c2 b_origin b_shape]. rewrite !ranges_axis by auto. reflexivity. }
  split; [unfold radd, rsub, rscale; cbn [c0 c1 c2]; f_equal; field|].
  split; [unfold in_box; cbn [c0 c1 c2]; lra|]. split; [|].
  { unfold center_point, b, fin3, map3, vadd, vscale, zip3, map3. cbn [c0 c1 c2 b_origin b_shape]. xs. do 2 f_equal; field. }
  split; [reflexivity|]. split; [|].
  { unfold floor_point, b, fin3, map3, vadd, vmul, zip3, n0. cbn [c0 c1 c2 b_origin b_shape]. xs. do 2 f_equal; field. }
  split; [reflexivity|].
  split; [unfold in_box; cbn [c0 c1 c2]; lra|]. split; [reflexivity|]. split; [nra|]. split; [|nra].
  unfold surface_area, b, fin3, map3. cbn [c0 c1 c2 b_origin b_shape]. xs. f_equal. ring.
Qed.

(** ** Box, IEEE doubles *)
Definition bmax := bpow radix2 1024.
Lemma Bplus_cases (x y : b64) : bfin x = true -> bfin y = true ->
  (Rabs (rnd64 (Bval x + Bval y)) < bmax /\ bfin (badd x y) = true /\ Bval (badd x y) = rnd64 (Bval x + Bval y)) \/
  (bmax <= Rabs (rnd64 (Bval x + Bval y)) /\ badd x y = B754_infinity (Bsign x)).
Proof.
  intros Fx Fy. unfold badd, Bval, bfin in *.
  pose proof (@Bplus_correct 53 1024 prec_gt_0_53 prec_lt_emax_53 mode_NE x y Fx Fy) as C.
  rewrite round_eq in C. destruct (Rlt_bool_spec (Rabs (rnd64 (B2R x + B2R y))) (bpow radix2 1024)).
  - left. destruct C as (C1&C2&C3). auto.
  - right. split; auto. destruct C as [C1 C2].
    destruct (Bplus mode_NE x y); cbn in C1; unfold binary_overflow in C1; cbn in C1; congruence.
Qed.
Lemma Bval_lt (x : b64) : Rabs (Bval x) < bmax.
Proof. apply (@abs_B2R_lt_emax 53 1024). Qed.
Lemma Bsign_pos (x : b64) : bfin x = true -> 0 < Bval x -> Bsign x = false.
Proof.
  destruct x as [s|s| |s m e h]; cbn; intros F H; try discriminate; try lra.
  destruct s; auto. exfalso. revert H. unfold Defs.F2R. cbn.
  intros. assert (IZR (Z.neg m) < 0) by (apply IZR_lt; lia). pose proof (bpow_gt_0 radix2 e). nra.
Qed.
(** overflow only upwards when a non-negative number is added *)
Lemma overflow_up (x y : b64) : bfin x = true -> bfin y = true -> 0 <= Bval y ->
  bmax <= Rabs (rnd64 (Bval x + Bval y)) -> badd x y = B754_infinity false /\ bmax <= rnd64 (Bval x + Bval y).
Proof.
  intros Fx Fy Hy Ho. pose proof (Bval_lt x) as Lx. pose proof (Bval_lt y) as Ly.
  apply Rabs_def2 in Lx, Ly.
  assert (L1 : Bval x <= rnd64 (Bval x + Bval y)) by (rewrite <- (rnd64_B x) at 1; apply rnd64_le; lra).
  assert (L2 : bmax <= rnd64 (Bval x + Bval y)).
  { destruct (Rcase_abs (rnd64 (Bval x + Bval y))) as [n|n];
      [rewrite Rabs_left in Ho by lra|rewrite Rabs_right in Ho by lra]; lra. }
  split; auto. destruct (Bplus_cases Fx Fy) as [(C&_)|(_&C)]; [lra|]. rewrite C. f_equal.
  apply Bsign_pos; auto. destruct (Rlt_le_dec 0 (Bval x)) as [p|p]; auto. exfalso.
  assert (rnd64 (Bval x + Bval y) <= Bval y); [|lra]. rewrite <- (rnd64_B y) at 2. apply rnd64_le. lra.
Qed.
Lemma ble_inf (x : b64) : nfinite x = true \/ x = B754_infinity false -> nle x (B754_infinity false) = true.
Proof. destruct x as [s|s| |s m e h]; cbn; intros [H|H]; try discriminate; auto; try (injection H as ->; reflexivity); destruct s; auto. Qed.
Lemma badd_ge (x y : b64) : bfin x = true -> bfin y = true -> 0 <= Bval y -> nle x (badd x y) = true.
Proof.
  intros Fx Fy Hy. destruct (Bplus_cases Fx Fy) as [(_&F&V)|(O&_)].
  - rewrite ble_spec by auto. rewrite V. apply Rle_bool_true. rewrite <- (rnd64_B x) at 1. apply rnd64_le. lra.
  - destruct (overflow_up Fx Fy Hy O) as [-> _]. apply ble_inf. now left.
Qed.
Lemma badd_mono (x y z : b64) : bfin x = true -> bfin y = true -> bfin z = true -> 0 <= Bval y <= Bval z ->
  nle (badd x y) (badd x z) = true.
Proof.
  intros Fx Fy Fz [H0 H1]. assert (Hz : 0 <= Bval z) by lra.
  assert (M : rnd64 (Bval x + Bval y) <= rnd64 (Bval x + Bval z)) by (apply rnd64_le; lra).
  destruct (Bplus_cases Fx Fz) as [(C&F&V)|(O&_)].
  - destruct (Bplus_cases Fx Fy) as [(_&F'&V')|(O'&_)].
    + rewrite ble_spec by auto. rewrite V, V'. now apply Rle_bool_true.
    + destruct (overflow_up Fx Fy H0 O') as [_ L]. apply Rabs_def2 in C. lra.
  - destruct (overflow_up Fx Fz Hz O) as [-> _]. apply ble_inf.
    destruct (Bplus_cases Fx Fy) as [(_&F'&_)|(O'&_)]; [left; exact F'|].
    right. now destruct (overflow_up Fx Fy H0 O') as [-> _].
Qed.
Lemma B2_val : Bval (nofZ 2) = 2.
Proof. rewrite (@Bval_me _ 4503599627370496 (-51)); [cbn; lra|]. reflexivity. Qed.
Lemma Bhalf_val : Bval (nlit 1 2) = / 2.
Proof. rewrite (@Bval_me _ 4503599627370496 (-53)); [cbn; lra|]. vm_compute. reflexivity. Qed.
Lemma half_lt s : 0 <= s -> 0 <= rnd64 (s / 2).
Proof. intros. rewrite <- rnd64_0. apply rnd64_le. lra. Qed.
Lemma bhalf_div (s : b64) : bfin s = true -> 0 <= Bval s ->
  bfin (ndiv s (nofZ 2)) = true /\ 0 <= Bval (ndiv s (nofZ 2)) <= Bval s.
Proof.
  intros Fs Hs. assert (L : 0 <= rnd64 (Bval s / 2) <= Bval s).
  { split; [now apply half_lt|]. rewrite <- (rnd64_B s) at 2. apply rnd64_le. lra. }
  assert (Z2 : B2R (bofZ 2) <> 0) by (change (Bval (nofZ 2) <> 0); rewrite B2_val; lra).
  pose proof (@Bdiv_correct 53 1024 prec_gt_0_53 prec_lt_emax_53 mode_NE s (bofZ 2) Z2) as C.
  rewrite round_eq in C. change (B2R (bofZ 2)) with (Bval (nofZ 2)) in C. rewrite B2_val in C.
  change (B2R s) with (Bval s) in C. rewrite Rlt_bool_true in C.
  - destruct C as (C1&C2&_). change (ndiv s (nofZ 2)) with (bdiv s (bofZ 2)). unfold bdiv, Bval, bfin in *.
    rewrite C1, C2. auto.
  - rewrite Rabs_pos_eq by lra. pose proof (Bval_lt s) as B. apply Rabs_def2 in B. unfold bmax in B. lra.
Qed.
Lemma bhalf_mul (s : b64) : bfin s = true -> 0 <= Bval s ->
  bfin (nmul (nlit 1 2) s) = true /\ 0 <= Bval (nmul (nlit 1 2) s) <= Bval s.
Proof.
  intros Fs Hs. assert (L : 0 <= rnd64 (/ 2 * Bval s) <= Bval s).
  { split; [replace (/ 2 * Bval s) with (Bval s / 2) by lra; now apply half_lt|].
    rewrite <- (rnd64_B s) at 2. apply rnd64_le. lra. }
  pose proof (@Bmult_correct 53 1024 prec_gt_0_53 prec_lt_emax_53 mode_NE (blit 1 2) s) as C.
  rewrite round_eq in C. change (B2R (blit 1 2)) with (Bval (nlit 1 2)) in C. rewrite Bhalf_val in C.
  change (B2R s) with (Bval s) in C. rewrite Rlt_bool_true in C.
  - destruct C as (C1&C2&_). change (nmul (nlit 1 2) s) with (bmul (blit 1 2) s). unfold bmul, Bval, bfin in *.
    rewrite C1, C2. split; auto.
  - rewrite Rabs_pos_eq by lra. pose proof (Bval_lt s) as B. apply Rabs_def2 in B. unfold bmax in B. lra.
Qed.
Lemma bzero_mul (s : b64) : bfin s = true -> bfin (nmul n0 s) = true /\ Bval (nmul n0 s) = 0.
Proof.
  intros Fs. destruct s as [x|x| |x m e h]; try discriminate; cbn; auto.
Qed.
Lemma bnonneg (s : b64) : bfin s = true -> nlt s n0 = false -> 0 <= Bval s.
Proof.
  intros F H. rewrite blt_spec in H by auto. destruct (Rlt_bool_spec (Bval s) (Bval (@n0 b64 _))) as [L|L]; [discriminate|].
  replace (Bval n0) with 0 in L by reflexivity. auto.
Qed.
Lemma ble_trans_eq (x y : b64) : bfin x = true -> (bfin y = true \/ y = B754_infinity false) -> nle x y = true ->
  nlt y x = false /\ (nlt x y = true \/ neqb y x = true).
Proof.
  intros Fx [Fy| ->] L.
  - rewrite ble_spec in L by auto. rewrite !blt_spec, beq_spec by auto.
    destruct (Rle_bool_spec (Bval x) (Bval y)); [|discriminate]. rewrite Rlt_bool_false by lra. split; auto.
    destruct (Rlt_bool_spec (Bval x) (Bval y)); auto. right. apply Req_bool_true. lra.
  - destruct x as [s|s| |s m e h]; try discriminate; cbn; auto; destruct s; auto.
Qed.
Lemma beq_refl (x : b64) : bfin x = true -> neqb x x = true.
Proof. intros F. rewrite beq_spec by auto. now apply Req_bool_true. Qed.
Lemma badd_shape (x y : b64) : bfin x = true -> bfin y = true -> 0 <= Bval y ->
  bfin (badd x y) = true \/ badd x y = B754_infinity false.
Proof.
  intros Fx Fy Hy. destruct (Bplus_cases Fx Fy) as [(_&F&_)|(O&_)]; auto. right. now destruct (overflow_up Fx Fy Hy O).
Qed.
(** one axis *)
Lemma axis_double (o s : b64) : nfinite o = true -> nfinite s = true -> nlt s n0 = false ->
  nle o (nadd o (ndiv s (nofZ 2))) = true /\ nle (nadd o (ndiv s (nofZ 2))) (nadd o s) = true /\
  nle o (nadd o (nmul (nlit 1 2) s)) = true /\ nle (nadd o (nmul (nlit 1 2) s)) (nadd o s) = true /\
  nle o (nadd o (nmul n0 s)) = true /\ nle (nadd o (nmul n0 s)) (nadd o s) = true /\
  nle o (nadd o s) = true /\
  neqb (nmin2 o (nadd o s)) o = true /\ neqb (nmax2 o (nadd o s)) (nadd o s) = true.
Proof.
  intros Fo Fs Hs. apply bnonneg in Hs; auto. change (bfin o = true) in Fo. change (bfin s = true) in Fs.
  destruct (bhalf_div Fs Hs) as [F1 [L1 L1']]. destruct (bhalf_mul Fs Hs) as [F2 [L2 L2']].
  destruct (bzero_mul Fs) as [F3 V3].
  pose proof (badd_ge Fo Fs Hs) as G. destruct (ble_trans_eq Fo (badd_shape Fo Fs Hs) G) as [N1 N2].
  repeat match goal with |- _ /\ _ => split end; try (apply badd_ge; auto; lra); try (apply badd_mono; auto; lra); try exact G.
  - unfold nmin2. change (@nadd b64 b64_num) with badd. rewrite N1. now apply beq_refl.
  - unfold nmax2. change (@nadd b64 b64_num) with badd. destruct (nlt o (badd o s)) eqn:E.
    + destruct (badd_shape Fo Fs Hs) as [H| ->]; [now apply beq_refl|reflexivity].
    + destruct N2 as [N2|N2]; [discriminate|]. destruct (badd_shape Fo Fs Hs) as [H|H].
      * rewrite beq_spec in * by auto. destruct (Req_bool_spec (Bval (badd o s)) (Bval o)); [|discriminate].
        apply Req_bool_true. auto.
      * rewrite H in E. destruct o as [x|x| |x m e h]; try discriminate; destruct x; discriminate.
Qed.

(** ** surface_normal *)
Definition rnormal (t : triangle R) : V3 R := let '(a, b, c) := t in rcross (rsub b a) (rsub c a).
Lemma surface_raw t : surface_normal1 (fin_tri t) false = fin3 (rnormal t).
Proof. destruct t as [[a b] c]. unfold surface_normal1, fin_tri. now rewrite !fsub, fcross. Qed.
Lemma surface_unit t : rnormal t <> rzero -> surface_normal1 (fin_tri t) true = fin3 (runit (rnormal t)).
Proof. destruct t as [[a b] c]. intros H. unfold surface_normal1, fin_tri. rewrite !fsub, fcross. now apply normalize1_fin. Qed.
Lemma rdist_sq a b : (rdist a b) ^ 2 = rdot (rsub b a) (rsub b a).
Proof.
  unfold rdist. cbn. rewrite Rmult_1_r. rewrite rnorm_sq. vring.
Qed.
Lemma heron_identity a b c :
  4 * rdot (rsub b a) (rsub b a) * rdot (rsub c a) (rsub c a) -
   (rdot (rsub b a) (rsub b a) + rdot (rsub c a) (rsub c a) - rdot (rsub c b) (rsub c b)) ^ 2 =
  4 * rdot (rcross (rsub b a) (rsub c a)) (rcross (rsub b a) (rsub c a)).
Proof. vring. Qed.
Lemma normal_area a b c : rnorm (rcross (rsub b a) (rsub c a)) = 2 * triangle_area a b c.
Proof.
  unfold triangle_area. rewrite !rdist_sq, heron_identity. unfold rnorm.
  rewrite sqrt_mult by (try lra; apply rdot_self_pos). replace 4 with (2 * 2) at 1 by lra. rewrite sqrt_square by lra. lra.
Qed.
Lemma normal_perp a b c :
  rdot (rcross (rsub b a) (rsub c a)) (rsub b a) = 0 /\ rdot (rcross (rsub b a) (rsub c a)) (rsub c a) = 0 /\
  rdot (rcross (rsub b a) (rsub c a)) (rsub c b) = 0.
Proof. split; [|split]; vring. Qed.
Lemma normal_swap a b c : rcross (rsub c a) (rsub b a) = rscale (-1) (rcross (rsub b a) (rsub c a)).
Proof. vring. Qed.
Lemma normal_swap' a b c : rcross (rsub a b) (rsub c b) = rscale (-1) (rcross (rsub b a) (rsub c a)).
Proof. vring. Qed.
Lemma normal_cycle a b c : rcross (rsub c b) (rsub a b) = rcross (rsub b a) (rsub c a).
Proof. vring. Qed.
(** positively oriented: the three vectors edge, edge, normal are right-handed *)
Lemma normal_right_handed a b c : let n := rcross (rsub b a) (rsub c a) in
  rdot (rcross (rsub b a) (rsub c a)) n = rnorm n * rnorm n.
Proof. cbn. now rewrite rnorm_sq. Qed.

(** ** Solids *)
Definition tri_at (vs : list (V3 R)) (f : face) : triangle R :=
  let '(i, j, k) := f in (nth i vs rzero, nth j vs rzero, nth k vs rzero).
Definition in_range (n : nat) (f : face) : Prop := let '(i, j, k) := f in (i < n /\ j < n /\ k < n)%nat.
Lemma getitem_map vs i : (i < length vs)%nat -> getitem (map fin3 vs) i = Ok (fin3 (nth i vs rzero)).
Proof.
  intros H. unfold getitem. rewrite nth_error_map. rewrite (nth_error_nth' vs rzero) by auto. reflexivity.
Qed.
Lemma flatten_ok vs fs : Forall (in_range (length vs)) fs ->
  flatten (map fin3 vs) fs = Ok (map fin_tri (map (tri_at vs) fs)).
Proof.
  induction 1 as [|[[i j] k] fs (Hi&Hj&Hk) _ IH]; auto.
  unfold flatten in *. cbn [traverse map]. rewrite !getitem_map by auto. cbn [bindr]. rewrite IH. reflexivity.
Qed.
Lemma closed_perm fs fs' : Permutation fs fs' -> closed_surface fs -> closed_surface fs'.
Proof.
  intros P [H1 H2]. assert (Q : Permutation (flat_map tri_edges fs) (flat_map tri_edges fs')) by now apply Permutation_flat_map.
  split.
  - now apply (Permutation_NoDup Q).
  - intros i j I. apply (Permutation_in _ Q), H2, (Permutation_in _ (Permutation_sym Q)), I.
Qed.
Definition pair_eqb (a b : nat * nat) : bool := Nat.eqb (fst a) (fst b) && Nat.eqb (snd a) (snd b).
Fixpoint nodupb (l : list (nat * nat)) : bool :=
  match l with [] => true | x :: l' => negb (existsb (pair_eqb x) l') && nodupb l' end.
Definition closedb (fs : list face) : bool :=
  let es := flat_map tri_edges fs in nodupb es && forallb (fun e => existsb (pair_eqb (snd e, fst e)) es) es.
Lemma pair_eqb_ok a b : pair_eqb a b = true <-> a = b.
Proof.
  destruct a, b. unfold pair_eqb. cbn. rewrite andb_true_iff, !Nat.eqb_eq. split; [intros [-> ->]; auto|intros [= -> ->]; auto].
Qed.
Lemma existsb_pair a l : existsb (pair_eqb a) l = true <-> In a l.
Proof.
  rewrite existsb_exists. split; [intros (x&I&E); apply pair_eqb_ok in E as ->; auto|].
  intros I. exists a. split; auto. now apply pair_eqb_ok.
Qed.
Lemma nodupb_ok l : nodupb l = true -> NoDup l.
Proof.
  induction l as [|x l IH]; cbn; intros H; constructor; apply andb_true_iff in H as [H1 H2]; auto.
  intros I. apply existsb_pair in I. now rewrite I in H1.
Qed.
Lemma closedb_ok fs : closedb fs = true -> closed_surface fs.
Proof.
  unfold closedb, closed_surface. intros H. apply andb_true_iff in H as [H1 H2]. split; [now apply nodupb_ok|].
  intros i j I. rewrite forallb_forall in H2. apply H2 in I. now apply existsb_pair in I.
Qed.
Lemma rsum_perm l l' : Permutation l l' -> rsum l = rsum l'.
Proof. induction 1; cbn; lra. Qed.
Lemma volume_perm l l' : Permutation l l' -> signed_volume l = signed_volume l'.
Proof. intros P. unfold signed_volume. apply rsum_perm. now apply Permutation_map. Qed.

Definition rprism_vertices (o s : V3 R) : list (V3 R) :=
  [ o; mk3 (c0 o + c0 s) (c1 o) (c2 o); mk3 (c0 o + c0 s) (c1 o) (c2 o + c2 s); mk3 (c0 o) (c1 o) (c2 o + c2 s);
    mk3 (c0 o) (c1 o + c1 s) (c2 o); mk3 (c0 o + c0 s) (c1 o + c1 s) (c2 o);
    mk3 (c0 o + c0 s) (c1 o + c1 s) (c2 o + c2 s); mk3 (c0 o) (c1 o + c1 s) (c2 o + c2 s) ].
Lemma prism_vertices_fin o s : prism_vertices (fin3 o) (fin3 s) = map fin3 (rprism_vertices o s).
Proof.
  destruct o as [a b c], s as [d e f]. unfold prism_vertices, rprism_vertices, fin3, map3, vadd, zip3, n0.
  cbn [map app c0 c1 c2]. xs. repeat (f_equal; try ring).
Qed.
Lemma corners o s x : In x (rprism_vertices o s) <-> corner o s x.
Proof.
  destruct o as [a b c], s as [d e f], x as [x y z]. unfold rprism_vertices, corner. cbn [In c0 c1 c2]. split.
  - intros H. repeat destruct H as [H|H]; try (injection H as <- <- <-); tauto.
  - intros ([-> | ->]&[-> | ->]&[-> | ->]); tauto.
Qed.
Lemma rect_split vs q ts a e f : quad_split q ts ->
  (let '(i, j, k, l) := q in nth i vs rzero = a /\ nth j vs rzero = radd a e /\
     nth k vs rzero = radd (radd a e) f /\ nth l vs rzero = radd a f) ->
  (forall x, Forall (behind x) (map (tri_at vs) ts) <-> rdot (rcross e f) (rsub x a) <= 0) /\
  signed_volume (map (tri_at vs) ts) = rdot a (rcross e f) / 3.
Proof.
  destruct 1 as [i j k l|i j k l]; intros (Ea&Eb&Ec&Ed); cbn [map tri_at]; rewrite Ea, Eb, Ec, Ed; clear.
  - split.
    + intros x. rewrite !Forall_cons_iff. unfold behind.
      replace (rdot (rcross (rsub (radd a e) a) (rsub (radd (radd a e) f) a)) (rsub x a)) with (rdot (rcross e f) (rsub x a)) by vring.
      replace (rdot (rcross (rsub (radd (radd a e) f) a) (rsub (radd a f) a)) (rsub x a)) with (rdot (rcross e f) (rsub x a)) by vring.
      intuition constructor.
    + unfold signed_volume. cbn [map rsum].
      replace (rdot a (rcross (radd a e) (radd (radd a e) f))) with (rdot a (rcross e f)) by vring.
      replace (rdot a (rcross (radd (radd a e) f) (radd a f))) with (rdot a (rcross e f)) by vring. lra.
  - split.
    + intros x. rewrite !Forall_cons_iff. unfold behind.
      replace (rdot (rcross (rsub (radd a e) a) (rsub (radd a f) a)) (rsub x a)) with (rdot (rcross e f) (rsub x a)) by vring.
      replace (rdot (rcross (rsub (radd (radd a e) f) (radd a e)) (rsub (radd a f) (radd a e))) (rsub x (radd a e)))
        with (rdot (rcross e f) (rsub x a)) by vring.
      intuition constructor.
    + unfold signed_volume. cbn [map rsum].
      replace (rdot a (rcross (radd a e) (radd a f))) with (rdot a (rcross e f)) by vring.
      replace (rdot (radd a e) (rcross (radd (radd a e) f) (radd a f))) with (rdot a (rcross e f)) by vring. lra.
Qed.
Lemma signed_volume_app l k : signed_volume (l ++ k) = signed_volume l + signed_volume k.
Proof. unfold signed_volume. rewrite map_app. induction (map _ l); cbn; lra. Qed.
Lemma splits_closed tss : Forall2 quad_split prism_quads tss ->
  closedb (concat tss) = true /\ Forall (in_range 8) (concat tss).
Proof.
  intros H. unfold prism_quads in H.
  repeat match goal with
  | H : Forall2 _ (_ :: _) _ |- _ => inversion H; clear H; subst
  | H : Forall2 _ [] _ |- _ => inversion H; clear H; subst
  end.
  repeat match goal with H : quad_split _ _ |- _ => inversion H; clear H; subst end;
  (split; [vm_compute; reflexivity|repeat constructor; unfold in_range; lia]).
Qed.
Lemma prism_core tss o s : Forall2 quad_split prism_quads tss ->
  (forall x, Forall (behind x) (map (tri_at (rprism_vertices o s)) (concat tss)) <->
     0 <= c0 s * c2 s * (c1 x - c1 o) /\ 0 <= c0 s * c2 s * (c1 o + c1 s - c1 x) /\
     0 <= c0 s * c1 s * (c2 x - c2 o) /\ 0 <= c0 s * c1 s * (c2 o + c2 s - c2 x) /\
     0 <= c1 s * c2 s * (c0 x - c0 o) /\ 0 <= c1 s * c2 s * (c0 o + c0 s - c0 x)) /\
  signed_volume (map (tri_at (rprism_vertices o s)) (concat tss)) = c0 s * c1 s * c2 s.
Proof.
  intros H. destruct o as [a b c], s as [d e f]. set (vs := rprism_vertices _ _).
  unfold prism_quads in H.
  repeat match goal with
  | H : Forall2 _ (_ :: _) _ |- _ => inversion H; clear H; subst
  | H : Forall2 _ [] _ |- _ => inversion H; clear H; subst
  end.
  repeat match goal with
  | H : quad_split (0, 1, 2, 3)%nat _ |- _ =>
      apply (@rect_split vs _ _ (mk3 a b c) (mk3 d 0 0) (mk3 0 0 f)) in H;
      [|cbn; unfold radd; cbn; repeat split; f_equal; ring]
  | H : quad_split (7, 6, 5, 4)%nat _ |- _ =>
      apply (@rect_split vs _ _ (mk3 a (b + e) (c + f)) (mk3 d 0 0) (mk3 0 0 (- f))) in H;
      [|cbn; unfold radd; cbn; repeat split; f_equal; ring]
  | H : quad_split (4, 5, 1, 0)%nat _ |- _ =>
      apply (@rect_split vs _ _ (mk3 a (b + e) c) (mk3 d 0 0) (mk3 0 (- e) 0)) in H;
      [|cbn; unfold radd; cbn; repeat split; f_equal; ring]
  | H : quad_split (5, 6, 2, 1)%nat _ |- _ =>
      apply (@rect_split vs _ _ (mk3 (a + d) (b + e) c) (mk3 0 0 f) (mk3 0 (- e) 0)) in H;
      [|cbn; unfold radd; cbn; repeat split; f_equal; ring]
  | H : quad_split (6, 7, 3, 2)%nat _ |- _ =>
      apply (@rect_split vs _ _ (mk3 (a + d) (b + e) (c + f)) (mk3 (- d) 0 0) (mk3 0 (- e) 0)) in H;
      [|cbn; unfold radd; cbn; repeat split; f_equal; ring]
  | H : quad_split (3, 7, 4, 0)%nat _ |- _ =>
      apply (@rect_split vs _ _ (mk3 a b (c + f)) (mk3 0 e 0) (mk3 0 0 (- f))) in H;
      [|cbn; unfold radd; cbn; repeat split; f_equal; ring]
  end.
  repeat match goal with H : _ /\ _ |- _ => destruct H end.
  cbn [concat]. rewrite !map_app, !app_nil_r. split.
  - intros [px py pz]. rewrite !Forall_app.
    repeat match goal with H : forall x, Forall _ _ <-> _ |- _ => rewrite H; clear H end.
    unfold rdot, rcross, rsub. cbn [c0 c1 c2].
    split; intros; repeat match goal with H : _ /\ _ |- _ => destruct H end; repeat split; try lra.
  - rewrite !signed_volume_app. unfold triangle, face in *.
    repeat match goal with H : signed_volume _ = _ |- _ => rewrite H; clear H end.
    unfold rdot, rcross, rsub. cbn [c0 c1 c2]. field.
Qed.
Lemma pos_mult_nonneg k x : 0 < k -> 0 <= k * x -> 0 <= x.
Proof. intros. nra. Qed.
Lemma rectangular_prism_spec q2t o s : splits_quads q2t ->
  exists vs fs tris, rectangular_prism q2t (fin3 o) (fin3 s) = (map fin3 vs, fs) /\
    closed_surface fs /\ flatten (map fin3 vs) fs = Ok (map fin_tri tris) /\
    nth 0 vs rzero = o /\ nth 6 vs rzero = radd o s /\ length vs = 8%nat /\
    (forall x, In x vs <-> corner o s x) /\
    signed_volume tris = c0 s * c1 s * c2 s /\
    (nonneg s -> forall x, in_box o s x -> Forall (behind x) tris) /\
    (0 < c0 s -> 0 < c1 s -> 0 < c2 s -> forall x, in_box o s x <-> Forall (behind x) tris).
Proof.
  intros Q. destruct (Q prism_quads) as (tss&S&P).
  destruct (splits_closed S) as [C R8]. destruct (prism_core o s S) as [G V].
  assert (PM : Permutation (map (tri_at (rprism_vertices o s)) (q2t prism_quads)) (map (tri_at (rprism_vertices o s)) (concat tss)))
    by now apply Permutation_map.
  exists (rprism_vertices o s), (q2t prism_quads), (map (tri_at (rprism_vertices o s)) (q2t prism_quads)).
  split; [unfold rectangular_prism; now rewrite prism_vertices_fin|].
  split; [apply (closed_perm (Permutation_sym P)), closedb_ok, C|].
  split; [apply flatten_ok; eapply Permutation_Forall; [apply Permutation_sym, P|exact R8]|].
  split; [now destruct o|]. split; [now destruct o|]. split; [reflexivity|].
  split; [intros x; apply corners|].
  split; [rewrite <- V; now apply volume_perm|].
  assert (D : nonneg s -> forall x, in_box o s x -> Forall (behind x) (map (tri_at (rprism_vertices o s)) (q2t prism_quads))).
  { intros (S0&S1&S2) x (B0&B1&B2). eapply Permutation_Forall; [apply Permutation_sym, PM|]. apply G.
    repeat split; apply Rmult_le_pos; try lra; now apply Rmult_le_pos. }
  split; [exact D|]. intros S0 S1 S2 x. split; [apply D; unfold nonneg; lra|]. intros B.
  eapply Permutation_Forall in B; [|exact PM]. apply G in B as (B1&B2&B3&B4&B5&B6).
  assert (K1 : 0 < c0 s * c2 s) by now apply Rmult_lt_0_compat.
  assert (K2 : 0 < c0 s * c1 s) by now apply Rmult_lt_0_compat.
  assert (K3 : 0 < c1 s * c2 s) by now apply Rmult_lt_0_compat.
  apply (pos_mult_nonneg K1) in B1, B2. apply (pos_mult_nonneg K2) in B3, B4. apply (pos_mult_nonneg K3) in B5, B6.
  unfold in_box. lra.
Qed.
Lemma cube_is_prism q2t o (d : R) : cube q2t (fin3 o) (Fin d) = rectangular_prism q2t (fin3 o) (fin3 (mk3 d d d)).
Proof. reflexivity. Qed.
Lemma simple_splitter : splits_quads (flat_map (fun q => let '(a, b, c, d) := q in [(a, b, c); (a, c, d)])).
Proof.
  intros qs. exists (map (fun q : nat * nat * nat * nat => let '(a, b, c, d) := q in [(a, b, c); (a, c, d)]) qs). split.
  - induction qs as [|[[[a b] c] d] qs IH]; cbn; constructor; auto. constructor.
  - rewrite flat_map_concat_map. apply Permutation_refl.
Qed.

(** ** Triangular prism *)
Lemma prism_basis e1 e2 w : let c := rcross e1 e2 in
  rscale (rdot c c) w =
  radd (radd (rscale (rdot (rcross w e2) c) e1) (rscale (rdot (rcross e1 w) c) e2)) (rscale (rdot w c) c).
Proof. cbn. destruct e1 as [a b c], e2 as [d e f], w as [x y z]. vunf. cbn [c0 c1 c2]. f_equal; ring. Qed.
Definition tprism (p1 e1 e2 u : V3 R) (h : R) : list (V3 R) :=
  [p1; radd p1 e1; radd p1 e2; rsub p1 (rscale h u); rsub (radd p1 e1) (rscale h u); rsub (radd p1 e2) (rscale h u)].
(** a point in prism coordinates *)
Definition pc (p1 e1 e2 u : V3 R) (h b g t : R) : V3 R := rsub (radd (radd p1 (rscale b e1)) (rscale g e2)) (rscale (t * h) u).
Lemma tface_id p e1 e2 k h b g t : let c := rcross e1 e2 in let u := rscale k c in let x := pc p e1 e2 u h b g t in
  let v i := nth i (tprism p e1 e2 u h) rzero in
  let D i j l := rdot (rcross (rsub (v j) (v i)) (rsub (v l) (v i))) (rsub x (v i)) in
  D 0%nat 1%nat 2%nat = - (k * h * rdot c c) * t /\
  D 0%nat 3%nat 4%nat = - (k * h * rdot c c) * g /\
  D 0%nat 4%nat 1%nat = - (k * h * rdot c c) * g /\
  D 1%nat 4%nat 5%nat = - (k * h * rdot c c) * (1 - b - g) /\
  D 1%nat 5%nat 2%nat = - (k * h * rdot c c) * (1 - b - g) /\
  D 2%nat 5%nat 3%nat = - (k * h * rdot c c) * b /\
  D 2%nat 3%nat 0%nat = - (k * h * rdot c c) * b /\
  D 5%nat 4%nat 3%nat = - (k * h * rdot c c) * (1 - t).
Proof.
  destruct e1 as [a1 a2 a3], e2 as [d1 d2 d3], p as [x y z]. cbn [nth tprism]. unfold pc. vunf. cbn [c0 c1 c2].
  repeat split; ring.
Qed.
Lemma tprism_behind p e1 e2 k h b g t : let c := rcross e1 e2 in 0 < k * h * rdot c c ->
  Forall (behind (pc p e1 e2 (rscale k c) h b g t)) (map (tri_at (tprism p e1 e2 (rscale k c) h)) triangular_faces) <->
  0 <= b /\ 0 <= g /\ b + g <= 1 /\ 0 <= t <= 1.
Proof.
  intros c K. destruct (tface_id p e1 e2 k h b g t) as (D1&D2&D3&D4&D5&D6&D7&D8). cbv zeta in *. fold c in D1, D2, D3, D4, D5, D6, D7, D8.
  unfold triangular_faces. cbn [map tri_at]. rewrite !Forall_cons_iff. unfold behind at 1 2 3 4 5 6 7 8.
  rewrite D1, D2, D3, D4, D5, D6, D7, D8. clear D1 D2 D3 D4 D5 D6 D7 D8. set (M := k * h * rdot c c) in *.
  assert (Z : forall y, - M * y <= 0 <-> 0 <= y) by (intros y; split; intros; nra).
  rewrite !Z. split; [intros (A1&A2&A3&A4&A5&A6&A7&A8&A9); lra|]. intros (A1&A2&A3&A4). repeat (split; [lra|]). constructor.
Qed.
Lemma pc_in_prism p e1 e2 u h b g t :
  0 <= b /\ 0 <= g /\ b + g <= 1 /\ 0 <= t <= 1 -> in_prism p (radd p e1) (radd p e2) u h (pc p e1 e2 u h b g t).
Proof.
  intros (A1&A2&A3&A4). exists (1 - b - g), b, g, t. repeat (split; [lra|]). unfold pc. vring.
Qed.
Lemma in_prism_pc p p2 p3 u h x : in_prism p p2 p3 u h x ->
  exists b g t, (0 <= b /\ 0 <= g /\ b + g <= 1 /\ 0 <= t <= 1) /\ x = pc p (rsub p2 p) (rsub p3 p) u h b g t.
Proof.
  intros (a&b&g&t&A1&A2&A3&A4&A5&->). exists b, g, t. split; [lra|]. unfold pc.
  assert (a = 1 - b - g) as -> by lra. vring.
Qed.
Lemma pc_total p e1 e2 k h x : let c := rcross e1 e2 in rdot c c <> 0 -> k * h <> 0 ->
  exists b g t, x = pc p e1 e2 (rscale k c) h b g t.
Proof.
  intros c C K. set (w := rsub x p).
  exists (rdot (rcross w e2) c / rdot c c), (rdot (rcross e1 w) c / rdot c c), (- (rdot w c / rdot c c) / (k * h)).
  assert (k <> 0) by (intros ->; lra). assert (h <> 0) by (intros ->; lra).
  pose proof (prism_basis e1 e2 w) as B. cbv zeta in B. fold c in B.
  assert (E : x = radd p w) by (unfold w; clear; vring).
  assert (E2 : w = rscale (/ rdot c c) (rscale (rdot c c) w)) by (rewrite rscale_scale, Rinv_l, rscale_1; auto).
  transitivity (radd p (rscale (/ rdot c c) (rscale (rdot c c) w))); [now rewrite <- E2|]. rewrite B. clear E E2 B. unfold pc.
  set (n := rdot c c) in *. set (s1 := rdot (rcross w e2) c). set (s2 := rdot (rcross e1 w) c). set (s3 := rdot w c).
  unfold radd, rsub, rscale. cbn [c0 c1 c2]. f_equal; field; auto.
Qed.
Lemma tprism_volume p e1 e2 u h : signed_volume (map (tri_at (tprism p e1 e2 u h)) triangular_faces) = h * rdot u (rcross e1 e2) / 2.
Proof.
  unfold triangular_faces, tprism, signed_volume. cbn [map tri_at nth rsum].
  destruct e1 as [a1 a2 a3], e2 as [d1 d2 d3], p as [x y z], u as [u1 u2 u3]. vunf. cbn [c0 c1 c2]. field.
Qed.
Lemma scaled_unit (u c : V3 R) t : rnorm u = 1 -> 0 < t -> u = rscale t c -> t * rnorm c = 1 /\ rdot c c = rnorm c * rnorm c /\ 0 < rnorm c.
Proof.
  intros N T ->. rewrite rnorm_scale, Rabs_pos_eq in N by lra. rewrite rnorm_sq. split; auto. split; auto.
  pose proof (rnorm_pos c). destruct (Req_dec (rnorm c) 0) as [E|E]; [rewrite E in N; lra|lra].
Qed.
Lemma triangular_prism_spec p1 p2 p3 h : let c := rcross (rsub p2 p1) (rsub p3 p1) in
  (tiny c -> triangular_prism (fin3 p1) (fin3 p2) (fin3 p3) (Fin h) = Err ValueError) /\
  (~ tiny c -> exists u q1 q2 q3 fs tris, rnorm u = 1 /\ (exists t, 0 < t /\ u = rscale t c) /\
    let vs := [p1; p2; p3; q1; q2; q3] in
    triangular_prism (fin3 p1) (fin3 p2) (fin3 p3) (Fin h) = Ok (map fin3 vs, fs) /\
    closed_surface fs /\ flatten (map fin3 vs) fs = Ok (map fin_tri tris) /\
    q1 = rsub p1 (rscale h u) /\ q2 = rsub p2 (rscale h u) /\ q3 = rsub p3 (rscale h u) /\
    Forall (fun q => sdist p1 c q = - h) [q1; q2; q3] /\
    signed_volume tris = h * triangle_area p1 p2 p3 /\
    (0 < h -> forall x, in_prism p1 p2 p3 u h x <-> Forall (behind x) tris)).
Proof.
  intros c. destruct (from_points_spec p1 p2 p3) as [S1 S2]. fold c in S1, S2. split.
  { intros T. unfold triangular_prism. now rewrite S1. }
  intros T. destruct (S2 T) as (pl&u&E1&_&_&_&_&En&Nu&t&Ht&Eu). clear S1 S2.
  set (e1 := rsub p2 p1) in *. set (e2 := rsub p3 p1) in *.
  assert (X2 : p2 = radd p1 e1) by (unfold e1; clear; vring). assert (X3 : p3 = radd p1 e2) by (unfold e2; clear; vring).
  destruct (scaled_unit Nu Ht Eu) as (N1&N2&N3).
  exists u, (rsub p1 (rscale h u)), (rsub p2 (rscale h u)), (rsub p3 (rscale h u)), triangular_faces,
    (map (tri_at (tprism p1 e1 e2 u h)) triangular_faces).
  split; [auto|]. split; [eauto|]. cbv zeta.
  split.
  { unfold triangular_prism. rewrite E1. cbn [bindr]. rewrite En, fopp, fscale. cbn [map app]. rewrite !fadd.
    do 2 f_equal. cbn [map]. repeat (f_equal; try (clear; vring)). }
  split; [apply closedb_ok; reflexivity|].
  split.
  { replace [p1; p2; p3; rsub p1 (rscale h u); rsub p2 (rscale h u); rsub p3 (rscale h u)] with (tprism p1 e1 e2 u h)
      by (unfold tprism; now rewrite <- X2, <- X3).
    apply flatten_ok. unfold triangular_faces. repeat constructor; unfold in_range; cbn; lia. }
  do 3 (split; [auto|]).
  assert (Q : forall p, rdot (rsub p p1) c = 0 -> sdist p1 c (rsub p (rscale h u)) = - h).
  { intros p Hp. unfold sdist.
    replace (rdot (rsub (rsub p (rscale h u)) p1) c) with (rdot (rsub p p1) c - h * rdot u c) by (clear; vring).
    rewrite Hp, Eu, rdot_scale_l, N2. replace (0 - h * (t * (rnorm c * rnorm c))) with (- h * (t * rnorm c) * rnorm c) by ring.
    rewrite N1. field. lra. }
  split.
  { repeat constructor; apply Q; unfold c, e1, e2; clear; vring. }
  split.
  { rewrite tprism_volume. fold c. pose proof (normal_area p1 p2 p3) as A. fold e1 e2 c in A.
    rewrite Eu, rdot_scale_l, N2. replace (triangle_area p1 p2 p3) with (rnorm c / 2) by lra.
    replace (h * (t * (rnorm c * rnorm c)) / 2) with (h * (t * rnorm c) * (rnorm c / 2)) by field. rewrite N1. lra. }
  intros Hh x. assert (K : 0 < t * h * rdot c c).
  { rewrite N2. replace (t * h * (rnorm c * rnorm c)) with (h * (t * rnorm c) * rnorm c) by ring. rewrite N1. nra. }
  rewrite Eu. split.
  - intros I. apply in_prism_pc in I as (b&g&s&B&->). fold e1 e2. now apply tprism_behind.
  - assert (H1 : rdot c c <> 0) by nra. assert (H2 : t * h <> 0) by nra.
    destruct (@pc_total p1 e1 e2 t h x H1 H2) as (b&g&s&->). fold c. intros I. apply tprism_behind in I; auto.
    rewrite X2, X3. now apply pc_in_prism.
Qed.
Lemma horizontal_spec : exists vs tris, horizontal_plane = (map fin3 vs, [(0, 1, 2); (3, 1, 0)]%nat) /\
  flatten (map fin3 vs) [(0, 1, 2); (3, 1, 0)]%nat = Ok (map fin_tri tris) /\
  Forall (fun v => c1 v = 0) vs /\ Forall (fun t => rnormal t = mk3 0 2 0) tris.
Proof.
  set (vs := [mk3 1 0 0; mk3 (-1) 0 0; mk3 0 0 1; mk3 0 0 (-1)]).
  exists vs, (map (tri_at vs) [(0, 1, 2); (3, 1, 0)]%nat). split; [reflexivity|]. split.
  - apply flatten_ok. repeat constructor; cbn; lia.
  - split; [repeat constructor|]. repeat constructor; cbn; unfold rcross, rsub; cbn; f_equal; ring.
Qed.
