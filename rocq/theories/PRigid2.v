(** * Proofs about [find_rigid_rotation]. *)
From Coq Require Import Reals ZArith List Bool Lra Lia Psatz.
From Flocq Require Import Core.
From Verif Require Import Num XLemmas Vec RVec VLemmas PMat3 SpecGeom PPlane2 SpecRotation MRotation PRotation PRotation2 NpList MRigid SpecRigid PRigid.
Import ListNotations.
Local Open Scope R_scope.
Set Implicit Arguments.
Unset Strict Implicit.

(** the common part of [find_rigid_rotation], after the extra column is added *)
Definition rotation_core (svd : @svd_t xr) (a b : list (V3 xr)) (sc : bool) : res (M3 xr) :=
  let* c := gram a b in
  let* (u, _, v) := svd c in
  let v := mtrans v in
  let R := mmul v (mtrans u) in
  let R := if nlt (mdet R) n0 then mmul (flip_third_column v) (mtrans u) else R in
  if sc then Ok (mscale (ndiv (frobenius b) (frobenius a)) R) else Ok R.
Lemma rotation_core_fin svd ps qs : length ps = length qs -> svd_ok svd (cross_gram ps qs) ->
  exists q, rotation q /\
    (forall q', rotation q' -> pres (rapply q) (combine ps qs) <= pres (rapply q') (combine ps qs)) /\
    forall sc, rotation_core svd (map fin3 ps) (map fin3 qs) sc =
      if sc then Ok (mscale (ndiv (frobenius (map fin3 qs)) (frobenius (map fin3 ps))) (finm q)) else Ok (finm q).
Proof.
  intros L (u & s & v & E & D). pose proof D as (U & V & _).
  change (cross_gram ps qs) with (pgram (combine ps qs)) in D. set (l := combine ps qs) in *.
  assert (X : forall sc, rotation_core svd (map fin3 ps) (map fin3 qs) sc =
    let q := if Rlt_bool (rdet (base u v)) 0 then flipped u v else base u v in
    if sc then Ok (mscale (ndiv (frobenius (map fin3 qs)) (frobenius (map fin3 ps))) (finm q)) else Ok (finm q)).
  { intros sc. unfold rotation_core. rewrite gram_fin by auto. cbn [bindr]. rewrite E. cbn [bindr]. cbv zeta. rewrite !ftrans, fmmul, fdet, flip_fin, fmmul, xlt0.
    fold (base u v) (flipped u v). now destruct (Rlt_bool _ 0). }
  cbv zeta in X. destruct (base_det U V) as [B|B].
  - rewrite Rlt_bool_false in X by lra. exists (base u v). split; [split; auto; now apply base_orth|]. split; auto.
    intros q' Q. rewrite !pres_gain by (auto using base_orth; apply Q). pose proof (gain_le D (proj1 Q)). lra.
  - rewrite Rlt_bool_true in X by lra. exists (flipped u v). split; [split; [now apply flipped_orth|rewrite flipped_det; lra]|]. split; auto.
    intros q' Q. rewrite !pres_gain by (auto using flipped_orth; apply Q). pose proof (gain_rot_le D Q B). cbv beta zeta in *. lra.
Qed.
Lemma rotation_many svd a b sc : length a <> 1%nat ->
  find_rigid_rotation svd (P3N a) (P3N b) sc = rotation_core svd a b sc.
Proof. intros L. destruct a as [|p [|p' a]]; try reflexivity. now elim L. Qed.
Lemma rotation_single svd p q sc :
  find_rigid_rotation svd (P3N [p]) (P3N [q]) sc = rotation_core svd [p; vcross p q] [q; vcross p q] sc.
Proof. reflexivity. Qed.

(** ** one pair of points *)
Lemma frame_rot n a : rdot n n = 1 -> rdot a a = 1 -> rdot n a = 0 -> rotation (mk3 a (rcross n a) n).
Proof.
  intros N A NA. assert (T : rdot (rcross n a) (rcross n a) = 1) by (rewrite lagrange, N, A, NA; ring).
  apply rotation_intro; auto.
  - clear. destruct n as [x y z], a as [x' y' z']. unfold rdot, rcross. cbn [c0 c1 c2]. ring.
  - now rewrite rdot_sym.
  - clear. destruct n as [x y z], a as [x' y' z']. unfold rdot, rcross. cbn [c0 c1 c2]. ring.
  - transitivity (rdot a a * rdot n n - rdot n a * rdot n a); [|rewrite N, A, NA; ring].
    clear. destruct n as [x y z], a as [x' y' z']. unfold rdot, rcross. cbn [c0 c1 c2]. ring.
Qed.
Lemma frame_apply n a m : rotation (mk3 a m n) -> rapply (mk3 a m n) a = mk3 1 0 0 /\ rapply (mk3 a m n) n = mk3 0 0 1.
Proof. intros H. apply rotation_facts in H. destruct H. cbn [c0 c1 c2] in *. unfold rapply. cbn [c0 c1 c2]. rewrite (rdot_sym m a), (rdot_sym n a). split; f_equal; auto. Qed.
Lemma frame_turn n a b : rdot n n = 1 -> rdot a a = 1 -> rdot n a = 0 -> rdot b b = 1 -> rdot n b = 0 ->
  exists q, rotation q /\ rapply q a = b /\ rapply q n = n.
Proof.
  intros N A NA B NB. pose proof (frame_rot N A NA) as RA. pose proof (frame_rot N B NB) as RB.
  exists (rmmul (rtrans (mk3 b (rcross n b) n)) (mk3 a (rcross n a) n)). split; [apply rotation_mul; auto using rotation_trans|].
  rewrite !rapply_mul. destruct (frame_apply RA) as [-> ->]. clear. destruct n as [x y z], b as [x' y' z']. unfold rapply, rtrans, rcol0, rcol1, rcol2, rdot, rcross. cbn [c0 c1 c2]. split; f_equal; ring.
Qed.
Lemma unit_scale a : a <> rzero -> rdot (rscale (/ rnorm a) a) (rscale (/ rnorm a) a) = 1.
Proof.
  intros H. pose proof (rnorm_gt0 _ H). transitivity (/ rnorm a * / rnorm a * rdot a a); [unfold rdot, rscale; cbn [c0 c1 c2]; ring|].
  rewrite <- rnorm_sq. field. lra.
Qed.
Lemma cross_zero_l b : rcross rzero b = rzero.
Proof. unfold rcross, rzero. cbn [c0 c1 c2]. f_equal; ring. Qed.
Lemma cross_zero_r a : rcross a rzero = rzero.
Proof. unfold rcross, rzero. cbn [c0 c1 c2]. f_equal; ring. Qed.
Lemma turn_exists p q : rcross p q <> rzero ->
  exists m, rotation m /\ rapply m p = rscale (rnorm p / rnorm q) q /\ rapply m (rcross p q) = rcross p q.
Proof.
  intros X. assert (P : p <> rzero) by (intros ->; apply X, cross_zero_l). assert (Q : q <> rzero) by (intros ->; apply X, cross_zero_r).
  destruct (@frame_turn (rscale (/ rnorm (rcross p q)) (rcross p q)) (rscale (/ rnorm p) p) (rscale (/ rnorm q) q)) as (m & M & E1 & E2); auto using unit_scale.
  - clear. generalize (/ rnorm (rcross p q)) (/ rnorm p). intros k k'. destruct p as [x y z], q as [x' y' z']. unfold rdot, rcross, rscale. cbn [c0 c1 c2]. ring.
  - clear. generalize (/ rnorm (rcross p q)) (/ rnorm q). intros k k'. destruct p as [x y z], q as [x' y' z']. unfold rdot, rcross, rscale. cbn [c0 c1 c2]. ring.
  - exists m. split; auto. pose proof (rnorm_gt0 _ X). pose proof (rnorm_gt0 _ P). pose proof (rnorm_gt0 _ Q).
    rewrite rapply_scale in E1, E2. split.
    + apply (f_equal (rscale (rnorm p))) in E1. rewrite !rscale_scale in E1. replace (rnorm p * / rnorm p) with 1 in E1 by (field; lra). rewrite rscale_1 in E1. exact E1.
    + apply (f_equal (rscale (rnorm (rcross p q)))) in E2. rewrite !rscale_scale in E2. replace (rnorm (rcross p q) * / rnorm (rcross p q)) with 1 in E2 by (field; lra). now rewrite !rscale_1 in E2.
Qed.
Lemma dist_sq_ge m p q : orthogonal m -> (rnorm p - rnorm q) * (rnorm p - rnorm q) <= rdot (rsub (rapply m p) q) (rsub (rapply m p) q).
Proof.
  intros M. pose proof (cauchy (rapply m p) q) as C. rewrite (orthogonal_norm _ M) in C. apply Rabs_le_inv in C.
  autorewrite with rdot. rewrite (orthogonal_dot _ _ M), <- !rnorm_sq, (rdot_sym q). lra.
Qed.
Lemma single_pres f p q : pres f (combine [p; rcross p q] [q; rcross p q]) =
  rdot (rsub (f p) q) (rsub (f p) q) + rdot (rsub (f (rcross p q)) (rcross p q)) (rsub (f (rcross p q)) (rcross p q)).
Proof. unfold pres, psum. cbn [combine map rsum fst snd]. ring. Qed.
Lemma rsub_diag a : rdot (rsub a a) (rsub a a) = 0.
Proof. unfold rdot, rsub. cbn [c0 c1 c2]. ring. Qed.
Lemma single_best p q m : rotation m ->
  (forall m', rotation m' -> pres (rapply m) (combine [p; rcross p q] [q; rcross p q]) <= pres (rapply m') (combine [p; rcross p q] [q; rcross p q])) ->
  rapply m (rcross p q) = rcross p q /\
  (rcross p q <> rzero -> rapply m p = rscale (rnorm p / rnorm q) q) /\
  forall m', rotation m' -> rdot (rsub (rapply m p) q) (rsub (rapply m p) q) <= rdot (rsub (rapply m' p) q) (rsub (rapply m' p) q).
Proof.
  intros M H.
  assert (D : rcross p q = rzero \/ rcross p q <> rzero).
  { destruct (Req_dec (rnorm (rcross p q)) 0) as [Z|Z]; [left; now apply rnorm_0|right; intros C; apply Z; now apply rnorm_0]. }
  assert (Z : forall m', rapply m' rzero = rzero) by (intros m'; unfold rapply, rzero, rdot; cbn [c0 c1 c2]; f_equal; ring).
  destruct D as [X|X].
  - split; [rewrite X; apply Z|]. split; [now intros|]. intros m' M'. specialize (H m' M'). rewrite !single_pres, X, !Z, !rsub_diag in H. lra.
  - destruct (turn_exists X) as (k & K & E1 & E2). pose proof (H k K) as HK. rewrite !single_pres, E1, E2, rsub_diag in HK.
    assert (Q : q <> rzero) by (intros ->; apply X, cross_zero_r). pose proof (rnorm_gt0 _ Q).
    assert (S : rdot (rsub (rscale (rnorm p / rnorm q) q) q) (rsub (rscale (rnorm p / rnorm q) q) q) = (rnorm p - rnorm q) * (rnorm p - rnorm q)).
    { transitivity ((rnorm p / rnorm q - 1) * (rnorm p / rnorm q - 1) * rdot q q); [unfold rdot, rsub, rscale; cbn [c0 c1 c2]; ring|]. rewrite <- rnorm_sq. field. lra. }
    rewrite S in HK. pose proof (dist_sq_ge p q (proj1 M)) as G.
    pose proof (rdot_nonneg (rsub (rapply m (rcross p q)) (rcross p q))) as G'.
    assert (A : rapply m (rcross p q) = rcross p q) by (apply rsub_self_0; lra). split; auto. split.
    + intros _. assert (EQ : rdot (rsub (rapply m p) q) (rsub (rapply m p) q) = (rnorm p - rnorm q) * (rnorm p - rnorm q)) by lra.
      apply rsub_self_0. autorewrite with rdot in *. rewrite !(orthogonal_dot _ _ (proj1 M)), !(rdot_sym q (rapply m p)) in *.
      assert (C : rdot (rapply m p) q = rnorm p * rnorm q). { rewrite <- !rnorm_sq in EQ. lra. }
      rewrite ?C, <- !rnorm_sq. field. lra.
    + intros m' M'. pose proof (dist_sq_ge p q (proj1 M')). lra.
Qed.

(** ** the theorems *)
Lemma residual_one f p q : residual f [p] [q] = rdot (rsub (f p) q) (rsub (f p) q).
Proof. unfold residual. cbn [combine map rsum fst snd]. unfold rdist. rewrite rnorm_sq. ring. Qed.
Lemma rotation_any svd ps qs : length ps = length qs ->
  svd_ok svd (let '(a, b) := with_cross ps qs in cross_gram a b) ->
  exists q, rotation q /\
    (forall q', rotation q' -> residual (rapply q) ps qs <= residual (rapply q') ps qs) /\
    (forall p o, ps = [p] -> qs = [o] -> rapply q (rcross p o) = rcross p o /\ (rcross p o <> rzero -> rapply q p = rscale (rnorm p / rnorm o) o)) /\
    forall sc, find_rigid_rotation svd (P3N (map fin3 ps)) (P3N (map fin3 qs)) sc =
      if sc then Ok (mscale (ndiv (frobenius (map fin3 (snd (with_cross ps qs)))) (frobenius (map fin3 (fst (with_cross ps qs))))) (finm q)) else Ok (finm q).
Proof.
  intros L S. destruct (Nat.eq_dec (length ps) 1) as [L1|L1].
  - destruct ps as [|p [|]]; try discriminate L1. destruct qs as [|o [|]]; try discriminate L. cbn [with_cross] in *.
    destruct (@rotation_core_fin svd [p; rcross p o] [o; rcross p o] eq_refl S) as (q & Q & B & E). exists q. split; auto.
    destruct (single_best Q B) as (F1 & F2 & F3). split; [intros q' Q'; rewrite !residual_one; auto|]. split; [intros ? ? [= <-] [= <-]; auto|].
    intros sc. cbn [map fst snd]. rewrite rotation_single, fcross. apply (E sc).
  - assert (W : with_cross ps qs = (ps, qs)) by (destruct ps as [|p [|]]; try reflexivity; now elim L1). rewrite W in *.
    destruct (@rotation_core_fin svd ps qs L S) as (q & Q & B & E). exists q. split; auto. split; [intros q' Q'; rewrite !residual_pres; auto|].
    split; [intros p o -> _; now elim L1|]. intros sc. rewrite rotation_many by now rewrite map_length. apply E.
Qed.
(** scaling *)
Definition sumsq (ps : list (V3 R)) : R := rsum (map (fun p => rdot p p) ps).
Lemma sumsq_nonneg ps : 0 <= sumsq ps.
Proof. unfold sumsq. induction ps as [|p ps IH]; cbn [map rsum]; [lra|]. pose proof (rdot_nonneg p). lra. Qed.
Lemma frobenius_fin ps : frobenius (map fin3 ps) = Fin (sqrt (sumsq ps)).
Proof.
  unfold frobenius. rewrite map_map. assert (E : map (fun p => vdot (fin3 p) (fin3 p)) ps = map Fin (map (fun p => rdot p p) ps)) by (rewrite map_map; apply map_ext; intros p; apply fdot).
  rewrite E, nsum_fin. apply xsqrtE. apply sumsq_nonneg.
Qed.
Lemma mscale_fin k m : mscale (Fin k) (finm m) = finm (map3 (rscale k) m).
Proof. reflexivity. Qed.
Lemma rapply_mscale k m p : rapply (map3 (rscale k) m) p = rscale k (rapply m p).
Proof. destruct m as [[a00 a01 a02] [a10 a11 a12] [a20 a21 a22]], p as [x y z]. unfold rapply, map3, rscale, rdot. cbn [c0 c1 c2]. f_equal; ring. Qed.
Lemma sumsq_scaled k m ps : rotation m -> sumsq (map (fun p => rscale k (rapply m p)) ps) = k * k * sumsq ps.
Proof.
  intros M. unfold sumsq. induction ps as [|p ps IH]; cbn [map rsum]; [ring|]. rewrite IH.
  assert (rdot (rscale k (rapply m p)) (rscale k (rapply m p)) = k * k * rdot p p); [|lra].
  rewrite <- (orthogonal_dot p p (proj1 M)). generalize (rapply m p). intros w. unfold rdot, rscale. cbn [c0 c1 c2]. ring.
Qed.
Lemma frob_ratio ps qs k : 0 <= k -> 0 < sumsq ps -> sumsq qs = k * k * sumsq ps ->
  ndiv (frobenius (map fin3 qs)) (frobenius (map fin3 ps)) = Fin k.
Proof.
  intros K P E. rewrite !frobenius_fin. assert (0 < sqrt (sumsq ps)) by now apply sqrt_lt_R0. rewrite xdivE by lra. f_equal.
  rewrite E, sqrt_mult, sqrt_square by (auto; nra). field. lra.
Qed.
(** best rotation onto scaled data *)
Lemma scaled_pres k m q ps : rotation m -> rotation q -> 0 < k ->
  (forall q', rotation q' -> residual (rapply q) ps (map (fun p => rscale k (rapply m p)) ps) <= residual (rapply q') ps (map (fun p => rscale k (rapply m p)) ps)) ->
  forall p, In p ps -> rapply q p = rapply m p.
Proof.
  intros M Q K H p I. specialize (H m M). rewrite !residual_pres in H. rewrite !pres_gain in H by (apply Q || apply M). rewrite !trace_pgram in H.
  assert (G : psum (fun pq => rdot (rapply m (fst pq)) (snd pq)) (combine ps (map (fun p => rscale k (rapply m p)) ps)) <=
              psum (fun pq => rdot (rapply q (fst pq)) (snd pq)) (combine ps (map (fun p => rscale k (rapply m p)) ps))) by lra. clear H.
  assert (T : forall f l, psum f (combine l (map (fun p => rscale k (rapply m p)) l)) = rsum (map (fun p => f (p, rscale k (rapply m p))) l)).
  { intros f l. unfold psum. induction l as [|x l IH]; [reflexivity|]. cbn [map combine rsum]. now rewrite IH. }
  rewrite !T in G. cbn [fst snd] in G. clear T.
  assert (LE : forall p, rdot (rapply q p) (rscale k (rapply m p)) <= rdot (rapply m p) (rscale k (rapply m p)) /\
     (rdot (rapply q p) (rscale k (rapply m p)) = rdot (rapply m p) (rscale k (rapply m p)) -> rapply q p = rapply m p)).
  { intros x. assert (A : rdot (rapply q x) (rapply q x) = rdot (rapply m x) (rapply m x)) by now rewrite (orthogonal_dot _ _ (proj1 M)), (orthogonal_dot _ _ (proj1 Q)).
    set (y := rapply q x) in *. set (z := rapply m x) in *. clearbody y z. pose proof (rdot_nonneg (rsub y z)) as P. autorewrite with rdot in P. rewrite (rdot_sym z y) in P.
    assert (KY : rdot y (rscale k z) = k * rdot y z) by (unfold rdot, rscale; cbn [c0 c1 c2]; ring). assert (KZ : rdot z (rscale k z) = k * rdot z z) by (unfold rdot, rscale; cbn [c0 c1 c2]; ring).
    rewrite KY, KZ. split; [apply Rmult_le_compat_l; lra|]. intros E. apply Rmult_eq_reg_l in E; [|lra]. apply rsub_self_0. autorewrite with rdot. rewrite (rdot_sym z y). lra. }
  revert p I. induction ps as [|x ps IH]; [now intros|]. cbn [map rsum] in G. destruct (LE x) as [LX EX].
  assert (GS : rsum (map (fun p => rdot (rapply q p) (rscale k (rapply m p))) ps) <= rsum (map (fun p => rdot (rapply m p) (rscale k (rapply m p))) ps)).
  { clear -LE. induction ps as [|y ps IH]; cbn [map rsum]; [lra|]. destruct (LE y). lra. }
  intros p [<-|I]; [apply EX; lra|]. apply IH; auto. lra.
Qed.
Theorem scaled_exact svd ps m k : length ps <> 1%nat -> (exists p, In p ps /\ p <> rzero) -> rotation m -> 0 < k ->
  let qs := map (fun p => rscale k (rapply m p)) ps in
  svd_ok svd (cross_gram ps qs) ->
  exists r, find_rigid_rotation svd (P3N (map fin3 ps)) (P3N (map fin3 qs)) true = Ok (finm r) /\
    forall p, In p ps -> rapply r p = rscale k (rapply m p).
Proof.
  intros L1 NZ M K qs S. assert (L : length ps = length qs) by (unfold qs; now rewrite map_length).
  assert (W : with_cross ps qs = (ps, qs)) by (destruct ps as [|p [|]]; try reflexivity; now elim L1).
  assert (S' : svd_ok svd (let '(a, b) := with_cross ps qs in cross_gram a b)) by now rewrite W.
  destruct (rotation_any L S') as (q & Q & B & _ & E). rewrite W in E. cbn [fst snd] in E.
  assert (P : 0 < sumsq ps).
  { destruct NZ as (p & I & N). clear -I N. unfold sumsq. induction ps as [|x ps IH]; [easy|]. cbn [map rsum]. pose proof (rdot_nonneg x). destruct I as [->|I].
    - pose proof (sumsq_nonneg ps) as H0. unfold sumsq in H0. pose proof (rnorm_gt0 _ N). rewrite <- rnorm_sq. nra.
    - specialize (IH I). lra. }
  exists (map3 (rscale k) q). split.
  - rewrite E, (@frob_ratio ps qs k); auto; [lra|]. unfold qs. now apply sumsq_scaled.
  - intros p I. rewrite rapply_mscale. f_equal. exact (scaled_pres M Q K B I).
Qed.
(** a single pair of points: the extra column enters the ratio *)
Theorem scaled_single svd p q : rcross p q <> rzero ->
  svd_ok svd (cross_gram [p; rcross p q] [q; rcross p q]) ->
  exists r, find_rigid_rotation svd (P3N [fin3 p]) (P3N [fin3 q]) true = Ok (finm r) /\
    (rapply r p = q <-> rnorm p = rnorm q).
Proof.
  intros X S. destruct (@rotation_any svd [p] [q] eq_refl S) as (m & M & B & C & E). cbn [with_cross fst snd] in E.
  assert (P : p <> rzero) by (intros ->; apply X, cross_zero_l). assert (Q : q <> rzero) by (intros ->; apply X, cross_zero_r).
  pose proof (rnorm_gt0 _ X) as HX. pose proof (rnorm_gt0 _ P) as HP. pose proof (rnorm_gt0 _ Q) as HQ.
  destruct (C p q eq_refl eq_refl) as [_ F]. specialize (F X).
  specialize (E true). cbv iota in E. rewrite !frobenius_fin in E.
  assert (SP : forall x, sumsq [x; rcross p q] = rnorm x * rnorm x + rnorm (rcross p q) * rnorm (rcross p q)) by (intros x; unfold sumsq; cbn [map rsum]; rewrite !rnorm_sq; ring).
  rewrite !SP in E. set (n := rnorm (rcross p q)) in *. set (x := rnorm p) in *. set (y := rnorm q) in *.
  assert (D1 : 0 < sqrt (x * x + n * n)) by (apply sqrt_lt_R0; nra). assert (D2 : 0 < sqrt (y * y + n * n)) by (apply sqrt_lt_R0; nra).
  rewrite xdivE in E by lra. rewrite mscale_fin in E. exists (map3 (rscale (sqrt (y * y + n * n) / sqrt (x * x + n * n))) m). split; [exact E|].
  rewrite rapply_mscale, F, rscale_scale. set (k := _ * _ : R).
  assert (KE : rscale k q = q <-> k = 1).
  { split; [|intros ->; apply rscale_1]. intros G. apply (f_equal (rdot q)) in G.
    assert (rdot q (rscale k q) = k * rdot q q) by (unfold rdot, rscale; cbn [c0 c1 c2]; ring). rewrite H, <- rnorm_sq in G. fold y in G. apply Rmult_eq_reg_r with (y * y); nra. }
  rewrite KE. unfold k. clearbody n x y. clear -D1 D2 HX HP HQ. split.
  - intros G. assert (G1 : sqrt (y * y + n * n) * x = sqrt (x * x + n * n) * y). { transitivity (sqrt (y * y + n * n) / sqrt (x * x + n * n) * (x / y) * (sqrt (x * x + n * n) * y)); [field; lra|rewrite G; ring]. }
    apply (f_equal (fun w => w * w)) in G1. cbv beta in G1.
    assert (R1 : sqrt (y * y + n * n) * sqrt (y * y + n * n) = y * y + n * n) by (apply sqrt_sqrt; nra). assert (R2 : sqrt (x * x + n * n) * sqrt (x * x + n * n) = x * x + n * n) by (apply sqrt_sqrt; nra).
    assert (G1' : sqrt (y * y + n * n) * sqrt (y * y + n * n) * (x * x) = sqrt (x * x + n * n) * sqrt (x * x + n * n) * (y * y)) by lra. rewrite R1, R2 in G1'.
    assert (G2 : (x - y) * ((x + y) * (n * n)) = 0) by lra. apply Rmult_integral in G2. destruct G2 as [|G2]; [lra|]. exfalso. assert (0 < (x + y) * (n * n)) by (apply Rmult_lt_0_compat; nra). lra.
  - intros ->. field. lra.
Qed.
