(** * Proofs about segment.py, barycentric.py and apex.py. *)
From Coq Require Import Reals ZArith List Bool Lra Lia Psatz.
From Flocq Require Import Core.Raux.
From Verif Require Import Num XLemmas Vec RVec SpecGeom VLemmas NpList MVx PVx MPlane PPlane PPlane2 MSegment.
Import ListNotations.
Local Open Scope R_scope.
Set Implicit Arguments.
Unset Strict Implicit.

Lemma narange_fin a b : narange a b = map (fun k => Fin (INR k)) (seq a (b - a)).
Proof. unfold narange. apply map_ext. intros k. now rewrite xofZ, <- INR_IZR_INZ. Qed.
Lemma removelast_map A B (f : A -> B) l : removelast (map f l) = map f (removelast l).
Proof. induction l as [|x [|y l] IH]; auto. cbn [map removelast] in *. now rewrite IH. Qed.
Lemma seq_last n : removelast (seq 0 (S n)) = seq 0 n.
Proof. rewrite seq_S. rewrite removelast_app by discriminate. cbn. now rewrite app_nil_r. Qed.
(** the sample parameters *)
Lemma linspace_fin n ep : (2 <= n)%nat ->
  linspace01 n ep = map (fun k => Fin (INR k / INR (if ep then n - 1 else n))) (seq 0 n).
Proof.
  intros L. unfold linspace01. rewrite narange_fin, Nat.sub_0_r.
  assert (E : nofZ (if ep then (Z.of_nat n - 1)%Z else Z.of_nat n) = Fin (INR (if ep then n - 1 else n))).
  { rewrite xofZ, INR_IZR_INZ. do 2 f_equal. destruct ep; lia. }
  rewrite E. set (d := INR (if ep then (n - 1)%nat else n)). assert (D : d <> 0) by (unfold d; apply not_0_INR; destruct ep; lia).
  rewrite xofZ, xdivE, map_map by auto.
  rewrite (map_ext _ (fun k => Fin (INR k / d))) by (intros; xs; f_equal; field; auto).
  destruct ep; auto. destruct n as [|n]; [lia|]. rewrite removelast_map, seq_last.
  rewrite seq_S, map_app. cbn [map Nat.add]. do 2 f_equal. f_equal. unfold d in *.
  replace (S n - 1)%nat with n in * by lia. field. auto.
Qed.
Lemma partition_segment_spec p1 p2 n ep :
  partition_segment (fin3 p1) (fin3 p2) NotInt ep = Err TypeError /\
  ((n < 2)%Z -> partition_segment (fin3 p1) (fin3 p2) (IntArg n) ep = Err ValueError) /\
  ((2 <= n)%Z -> partition_segment (fin3 p1) (fin3 p2) (IntArg n) ep =
     Ok (map (fun k => fin3 (lerp (INR k / IZR (if ep then n - 1 else n)) p1 p2)) (seq 0 (Z.to_nat n)))).
Proof.
  split; [reflexivity|]. unfold partition_segment. split; intros H.
  - now rewrite (proj2 (Z.ltb_lt n 2)).
  - rewrite (proj2 (Z.ltb_ge n 2)) by lia. f_equal. rewrite linspace_fin by lia. rewrite map_map. apply map_ext. intros k.
    rewrite fsub. unfold lerp, fin3, map3, vadd, zip3, radd, rscale, rsub. cbn [c0 c1 c2]. xs.
    replace (INR (if ep then (Z.to_nat n - 1)%nat else Z.to_nat n)) with (IZR (if ep then (n - 1)%Z else n))
      by (rewrite INR_IZR_INZ; f_equal; destruct ep; lia).
    f_equal; f_equal; ring.
Qed.
Lemma rdist_pos a b : a <> b -> 0 < rdist a b.
Proof.
  intros H. apply rnorm_gt0. intros E. apply H. destruct a, b. unfold rsub, rzero in E. cbn in E. injection E. intros. f_equal; lra.
Qed.
Lemma rdist_sym a b : rdist a b = rdist b a.
Proof. unfold rdist, rnorm. f_equal. vring. Qed.
Lemma partition_segment_old_spec p1 p2 n :
  partition_segment_old (fin3 p1) (fin3 p2) NotInt = Err TypeError /\
  ((n < 2)%Z -> partition_segment_old (fin3 p1) (fin3 p2) (IntArg n) = Err ValueError) /\
  ((2 <= n)%Z -> p1 <> p2 -> partition_segment_old (fin3 p1) (fin3 p2) (IntArg n) =
     Ok (map (fun k => fin3 (lerp (INR k / IZR n) p1 p2)) (seq 1 (Z.to_nat n - 1)))).
Proof.
  split; [reflexivity|]. unfold partition_segment_old. split; intros H.
  - now rewrite (proj2 (Z.ltb_lt n 2)).
  - intros Hp. rewrite (proj2 (Z.ltb_ge n 2)) by lia. f_equal. apply rdist_pos in Hp.
    rewrite !fsub, fnorm. fold (rdist p1 p2). rewrite fdivs by lra. rewrite xofZ.
    assert (Hn : IZR n <> 0) by (apply not_0_IZR; lia).
    rewrite xdivE by auto. rewrite narange_fin, !map_map. apply map_ext. intros k.
    unfold lerp, fin3, map3, vadd, zip3, radd, rscale, rsub. cbn [c0 c1 c2]. xs.
    f_equal; f_equal; field; split; auto; lra.
Qed.
Lemma flat_map_map A B C (f : B -> list C) (g : A -> B) l : flat_map f (map g l) = flat_map (fun x => f (g x)) l.
Proof. induction l; cbn; congruence. Qed.
Lemma removelast_combine_tl A (v : list A) x : map fst (combine (x :: v) v) = removelast (x :: v).
Proof. revert x. induction v as [|y v IH]; intros x; [reflexivity|]. cbn [combine map fst removelast]. f_equal. exact (IH y). Qed.
Lemma map2_flat A B C D (h : B -> C -> D) (f : A -> list B) (g : A -> list C) l :
  (forall x, In x l -> length (f x) = length (g x)) ->
  map2 h (flat_map f l) (flat_map g l) = flat_map (fun x => map2 h (f x) (g x)) l.
Proof.
  induction l as [|x l IH]; intros H; [reflexivity|]. cbn [flat_map]. rewrite <- IH by (intros; apply H; now right).
  specialize (H x (or_introl eq_refl)). clear IH. revert H. generalize (f x) (g x). 
  intros a. induction a as [|y a IH]; intros [|z b] H; try discriminate; cbn; auto. f_equal. apply IH. now injection H.
Qed.
Lemma map2_repeat A B C (h : A -> B -> C) a l : map2 h (repeat a (length l)) l = map (h a) l.
Proof. induction l; [reflexivity|]. unfold map2 in *. cbn. f_equal. exact IHl. Qed.
Lemma map2_map A B C X Y (h : A -> B -> C) (f : X -> A) (g : Y -> B) l m : map2 h (map f l) (map g m) = map2 (fun x y => h (f x) (g y)) l m.
Proof. revert m. induction l; intros [|y m]; cbn; auto. f_equal. apply IHl. Qed.
Lemma map2_diag A C (h : A -> A -> C) l : map2 h l l = map (fun x => h x x) l.
Proof. induction l; [reflexivity|]. unfold map2 in *. cbn. f_equal. exact IHl. Qed.
Lemma map2_sym A B C (h : A -> B -> C) l m : map2 h l m = map (fun p => h (snd p) (fst p)) (combine m l).
Proof. revert m. induction l; intros [|y m]; cbn; auto. f_equal. apply IHl. Qed.
Lemma partition_spec v k : (1 <= k)%nat -> v <> [] -> Forall (fun ab => fst ab <> snd ab) (combine v (tl v)) ->
  partition (map fin3 v) k =
  Ok (map fin3 (flat_map (fun ab => map (fun i => lerp (INR i / INR k) (fst ab) (snd ab)) (seq 0 k)) (combine v (tl v)) ++ [last v rzero])).
Proof.
  intros Hk Hv HD. destruct v as [|x0 v]; [congruence|]. clear Hv. cbn [tl] in *.
  set (es := combine (x0 :: v) v) in *.
  unfold partition. cbn [map tl]. change (fin3 x0 :: map fin3 v) with (map fin3 (x0 :: v)).
  assert (Hd : map2 (fun b a => vsub b a) (map fin3 v) (map fin3 (x0 :: v)) = map (fun ab => fin3 (rsub (snd ab) (fst ab))) es).
  { rewrite map2_map, map2_sym. apply map_ext. intros ab. now rewrite fsub. }
  rewrite Hd. clear Hd. rewrite map_map.
  rewrite (map_ext _ (fun ab => Fin (rdist (snd ab) (fst ab)))).
  2:{ intros ab. rewrite fdot, xsqrtE by apply rdot_self_pos. reflexivity. }
  rewrite map2_map, map2_diag.
  rewrite (map_ext_in (fun ab => vdivs _ _) (fun ab => fin3 (rscale (/ rdist (snd ab) (fst ab)) (rsub (snd ab) (fst ab))))).
  2:{ intros ab Hab. rewrite fdivs; auto. rewrite Forall_forall in HD. apply HD in Hab. apply not_eq_sym, rdist_pos in Hab. lra. }
  rewrite xofZ, <- INR_IZR_INZ. assert (HK : INR k <> 0) by (apply not_0_INR; lia).
  rewrite map_map.
  rewrite (map_ext _ (fun ab => Fin (rdist (snd ab) (fst ab) / INR k))) by (intros; now rewrite xdivE).
  rewrite removelast_map, <- removelast_combine_tl. fold es. rewrite map_map.
  rewrite !flat_map_map. rewrite map2_flat by (intros; rewrite repeat_length, map_length, narange_fin, map_length, seq_length; lia).
  rewrite map2_flat.
  2:{ intros ab _. unfold map2. rewrite repeat_length, map_length, combine_length, repeat_length, map_length, narange_fin, map_length, seq_length. lia. }
  cbn [map]. f_equal. rewrite map_app. f_equal.
  - rewrite !flat_map_concat_map, concat_map, map_map. f_equal. apply map_ext_in. intros [a b] Hab. cbn [fst snd].
    rewrite Forall_forall in HD. specialize (HD _ Hab). cbn in HD. apply not_eq_sym, rdist_pos in HD.
    rewrite narange_fin, Nat.sub_0_r, !map_map.
    match goal with |- map2 ?h (repeat ?p k) (map2 ?h2 (repeat ?u k) ?l) = _ =>
      replace (repeat u k) with (repeat u (length l)) by (now rewrite map_length, seq_length);
      rewrite (map2_repeat h2 u l);
      replace (repeat p k) with (repeat p (length (map (h2 u) l))) by (now rewrite !map_length, seq_length);
      rewrite (map2_repeat h p (map (h2 u) l)) end.
    rewrite !map_map. apply map_ext. intros i.
    unfold lerp, fin3, map3, vadd, zip3, radd, rscale, rsub. cbn [c0 c1 c2]. xs. f_equal; f_equal; field; split; auto; lra.
  - cbn [map]. f_equal. change (fin3 x0 :: map fin3 v) with (map fin3 (x0 :: v)).
    clear. generalize x0 at 1 3. revert x0. induction v as [|y v IH]; intros x0 d; [reflexivity|]. cbn [map last]. exact (IH x0 y).
Qed.

(** ** line_intersect *)
Definition elim2 (p00 p01 p10 p11 q0 q1 : xr) : res (xr * xr) :=
  (let l := p10 / p00 in
   let u11 := p11 - l * p01 in
   if (p00 =? n0) || (u11 =? n0) then Err LinAlgError
   else let x1 := (q1 - l * q0) / u11 in Ok ((q0 - p01 * x1) / p00, x1))%num.
Lemma elim_fin a b c d e f : (a = 0 -> c = 0) ->
  (a * d - b * c = 0 -> elim2 (Fin a) (Fin b) (Fin c) (Fin d) (Fin e) (Fin f) = Err LinAlgError) /\
  (a * d - b * c <> 0 -> elim2 (Fin a) (Fin b) (Fin c) (Fin d) (Fin e) (Fin f) =
     Ok (Fin ((e * d - b * f) / (a * d - b * c)), Fin ((a * f - c * e) / (a * d - b * c)))).
Proof.
  intros P. unfold elim2, n0. rewrite xofZ, xeqb. destruct (Req_bool_spec a 0) as [A|A].
  - specialize (P A). subst. split; [reflexivity|]. intros D. exfalso. apply D. ring.
  - rewrite xdivE by auto. xs. cbn [orb]. assert (U : d - c / a * b = (a * d - b * c) / a) by (field; auto).
    split; intros D.
    + rewrite Req_bool_true; auto. rewrite U, D. unfold Rdiv. ring.
    + assert (U0 : d - c / a * b <> 0).
      { rewrite U. intros Z. apply D. apply (Rmult_eq_reg_r (/ a)); [unfold Rdiv in Z; lra|now apply Rinv_neq_0_compat]. }
      rewrite Req_bool_false by auto. rewrite xdivE by auto. xs. rewrite xdivE by auto. do 3 f_equal; rewrite U; field; auto.
Qed.
Lemma solve2_fin a b c d e f :
  (a * d - b * c = 0 -> solve2 (Fin a) (Fin b) (Fin c) (Fin d) (Fin e) (Fin f) = Err LinAlgError) /\
  (a * d - b * c <> 0 -> solve2 (Fin a) (Fin b) (Fin c) (Fin d) (Fin e) (Fin f) =
     Ok (Fin ((e * d - b * f) / (a * d - b * c)), Fin ((a * f - c * e) / (a * d - b * c)))).
Proof.
  unfold solve2. rewrite !xabs, xlt.
  change (if Rlt_bool (Rabs a) (Rabs c) then _ else _) with
    (if Rlt_bool (Rabs a) (Rabs c) then elim2 (Fin c) (Fin d) (Fin a) (Fin b) (Fin f) (Fin e) else elim2 (Fin a) (Fin b) (Fin c) (Fin d) (Fin e) (Fin f)).
  destruct (Rlt_bool_spec (Rabs a) (Rabs c)) as [L|L].
  - assert (P : c = 0 -> a = 0). { intros ->. rewrite Rabs_R0 in L. pose proof (Rabs_pos a). lra. }
    destruct (elim_fin d b f e P) as [E1 E2]. split; intros D.
    + apply E1. lra.
    + rewrite E2 by lra. do 3 f_equal; field; split; lra.
  - assert (P : a = 0 -> c = 0).
    { intros ->. rewrite Rabs_R0 in L. pose proof (Rabs_pos c). assert (Z : Rabs c = 0) by lra. now apply Rabs_eq_R0 in Z. }
    now apply elim_fin.
Qed.
Definition fin2 (p : R * R) : xr * xr := (Fin (fst p), Fin (snd p)).
Lemma line_intersect_spec p0 q0 p1 q1 :
  (cross2 p0 q0 p1 q1 = 0 -> line_intersect (fin2 p0) (fin2 q0) (fin2 p1) (fin2 q1) = (NaN, NaN)) /\
  (cross2 p0 q0 p1 q1 <> 0 -> exists x, line_intersect (fin2 p0) (fin2 q0) (fin2 p1) (fin2 q1) = fin2 x /\
     on_line2 p0 q0 x /\ on_line2 p1 q1 x /\ forall y, on_line2 p0 q0 y -> on_line2 p1 q1 y -> y = x).
Proof.
  destruct p0 as [a0 b0], q0 as [a1 b1], p1 as [a2 b2], q1 as [a3 b3]. unfold cross2, line_intersect, fin2. cbn [fst snd]. xs.
  destruct (solve2_fin (- (b1 - b0)) (a1 - a0) (- (b3 - b2)) (a3 - a2) (b0 * (a1 - a0) - (b1 - b0) * a0) (b2 * (a3 - a2) - (b3 - b2) * a2)) as [E1 E2].
  split; intros D.
  - rewrite E1 by lra. unfold nnan. now rewrite xofZ, xdiv0.
  - rewrite E2 by lra. set (d := (a1 - a0) * (b3 - b2) - (b1 - b0) * (a3 - a2)) in *.
    replace (- (b1 - b0) * (a3 - a2) - (a1 - a0) * - (b3 - b2)) with d by (unfold d; ring).
    set (s := ((a2 - a0) * (b3 - b2) - (b2 - b0) * (a3 - a2)) / d).
    set (t := ((a2 - a0) * (b1 - b0) - (b2 - b0) * (a1 - a0)) / d).
    assert (X1 : ((b0 * (a1 - a0) - (b1 - b0) * a0) * (a3 - a2) - (a1 - a0) * (b2 * (a3 - a2) - (b3 - b2) * a2)) / d = a0 + s * (a1 - a0)).
    { unfold s, d. field. exact D. }
    assert (X2 : (- (b1 - b0) * (b2 * (a3 - a2) - (b3 - b2) * a2) - - (b3 - b2) * (b0 * (a1 - a0) - (b1 - b0) * a0)) / d = b0 + s * (b1 - b0)).
    { unfold s, d. field. exact D. }
    eexists (_, _). cbn [fst snd]. split; [reflexivity|]. rewrite X1, X2. split; [|split].
    + exists s. cbn. auto.
    + exists t. cbn. split; unfold s, t, d; field; exact D.
    + intros [y0 y1] (u&U1&U2) (w&W1&W2). cbn in *.
      assert (K : u * d = s * d).
      { unfold s. replace (((a2 - a0) * (b3 - b2) - (b2 - b0) * (a3 - a2)) / d * d) with ((a2 - a0) * (b3 - b2) - (b2 - b0) * (a3 - a2)) by (field; exact D).
        rewrite U1 in W1. rewrite U2 in W2. unfold d.
        pose proof (f_equal (Rmult (b3 - b2)) W1). pose proof (f_equal (Rmult (a3 - a2)) W2). lra. }
      apply Rmult_eq_reg_r in K; [|exact D]. subst. reflexivity.
Qed.

(** ** line_intersect3 *)
Lemma veqb_fin a b : veqb (fin3 a) (fin3 b) = true <-> a = b.
Proof.
  destruct a as [a0 a1 a2], b as [b0 b1 b2]. unfold veqb, all3, zip3, fin3, map3. cbn [c0 c1 c2]. xs. rewrite !andb_true_iff.
  assert (E : forall x y, Req_bool x y = true <-> x = y).
  { intros x y. destruct (Req_bool_spec x y); split; intros; auto; discriminate || contradiction. }
  rewrite !E. split; [intros [[-> ->] ->]; auto|]. intros [= -> -> ->]; auto.
Qed.
Lemma veqb_fin_false a b : a <> b -> veqb (fin3 a) (fin3 b) = false.
Proof. intros H. apply not_true_iff_false. now rewrite veqb_fin. Qed.
Lemma cross_zero_parallel f v : f <> rzero -> rcross f v = rzero -> exists t, v = rscale t f.
Proof.
  intros Hf H. assert (D : rdot f f <> 0) by now apply dot_self_neq.
  exists (rdot f v / rdot f f).
  assert (K : rscale (rdot f f) v = rscale (rdot f v) f).
  { assert (B : rsub (rscale (rdot f f) v) (rscale (rdot f v) f) = rscale (-1) (rcross f (rcross f v))) by (clear; vring).
    rewrite H in B. destruct f as [f0 f1 f2], v as [v0 v1 v2]. unfold rsub, rscale, rcross, rzero in B |- *. cbn [c0 c1 c2] in *.
    injection B as B0 B1 B2. f_equal; lra. }
  apply (f_equal (rscale (/ rdot f f))) in K. rewrite !rscale_scale, Rinv_l, rscale_1 in K by auto.
  etransitivity; [exact K|]. f_equal. unfold Rdiv. ring.
Qed.
(** In space: lines through p0,q0 and p1,q1, not parallel, with common point x. *)
Lemma line_intersect3_core p0 q0 p1 q1 x :
  p0 <> p1 -> p0 <> q1 -> q0 <> p1 ->
  rcross (rsub p1 q1) (rsub p0 q0) <> rzero ->
  on_line p0 q0 x -> on_line p1 q1 x ->
  line_intersect3 (fin3 p0) (fin3 q0) (fin3 p1) (fin3 q1) =
    if Req_bool (rnorm (rcross (rsub p1 q1) (rsub p0 p1))) 0 then None else Some (fin3 x).
Proof.
  intros N1 N2 N3 K [s Hs] [t Ht]. unfold line_intersect3. rewrite !veqb_fin_false by auto. cbn [orb].
  rewrite !fsub, !fcross, !fnorm. set (e := rsub p0 q0) in *. set (f := rsub p1 q1) in *. set (g := rsub p0 p1) in *.
  set (h := rcross f g) in *. set (k := rcross f e) in *. unfold n0. rewrite xofZ, !xeqb.
  pose proof (rnorm_gt0 _ K) as K'. rewrite (Req_bool_false (rnorm k)) by lra. rewrite orb_false_r.
  destruct (Req_bool_spec (rnorm h) 0) as [H|H]; auto.
  assert (Hh : h <> rzero) by (intros E; apply H; apply rnorm_0; auto). pose proof (rnorm_gt0 _ Hh) as H'.
  assert (E : h = rscale s k).
  { assert (C : rsub (radd p0 (rscale s (rsub q0 p0))) p1 = rscale (- t) f).
    { rewrite Hs in Ht. unfold lerp in Ht. rewrite Ht. unfold f. clear. vring. }
    assert (C2 : rcross f (rsub (radd p0 (rscale s (rsub q0 p0))) p1) = rzero).
    { rewrite C. clear. generalize f. vring. }
    assert (C3 : rcross f (rsub (radd p0 (rscale s (rsub q0 p0))) p1) = rsub h (rscale s k)).
    { unfold h, k, g, e. clear. generalize f. vring. }
    rewrite C3 in C2. clear - C2. destruct h as [h0 h1 h2], k as [k0 k1 k2]. unfold rsub, rscale, rzero in *. cbn in *. injection C2. intros. f_equal; lra. }
  rewrite xdivE by lra. rewrite fscale. rewrite !fdivs by lra.
  assert (Es : rnorm h = Rabs s * rnorm k) by (rewrite E; apply rnorm_scale).
  assert (Hs0 : s <> 0). { intros ->. rewrite Rabs_R0 in Es. lra. }
  assert (SG : veqb (fin3 (rscale (/ rnorm h) h)) (fin3 (rscale (/ rnorm k) k)) = if Rlt_bool 0 s then true else false).
  { destruct (Rlt_bool_spec 0 s).
    - apply veqb_fin. rewrite Es, E, rscale_scale, Rabs_pos_eq by lra. f_equal. field. split; lra.
    - apply veqb_fin_false. intros X. rewrite Es, E, rscale_scale, Rabs_left in X by lra.
      apply (f_equal (fun v => rdot v k)) in X. rewrite !rdot_scale_l, <- rnorm_sq in X.
      replace (/ (- s * rnorm k) * s * (rnorm k * rnorm k)) with (- rnorm k) in X by (field; split; lra).
      replace (/ rnorm k * (rnorm k * rnorm k)) with (rnorm k) in X by (field; lra). lra. }
  rewrite SG. rewrite Hs.
  assert (Q : rnorm h / rnorm k = Rabs s) by (rewrite Es; field; lra). rewrite Q.
  destruct (Rlt_bool_spec 0 s); rewrite xofZ, fscale, fadd; do 2 f_equal; unfold lerp, e.
  - rewrite Rabs_pos_eq by lra. clear. vring.
  - rewrite Rabs_left by lra. clear. vring.
Qed.
Lemma on_line_unique p0 q0 p1 q1 x y : rcross (rsub p1 q1) (rsub p0 q0) <> rzero ->
  on_line p0 q0 x -> on_line p1 q1 x -> on_line p0 q0 y -> on_line p1 q1 y -> x = y.
Proof.
  intros K [s ->] [t Ht] [s' ->] [t' Ht'].
  assert (C : rscale (s' - s) (rcross (rsub p1 q1) (rsub p0 q0)) = rzero).
  { assert (A : rcross (rsub p1 q1) (rsub (lerp s p0 q0) (lerp s' p0 q0)) = rzero) by (rewrite Ht, Ht'; clear; vring).
    rewrite <- A. clear. vring. }
  destruct (Req_dec s s') as [->|D]; auto. exfalso. apply K.
  apply (f_equal (rscale (/ (s' - s)))) in C. rewrite rscale_scale, Rinv_l, rscale_1 in C by lra. rewrite C. vring.
Qed.
Lemma line_intersect3_meets p0 q0 p1 q1 x :
  rcross (rsub p1 q1) (rsub p0 q0) <> rzero -> on_line p0 q0 x -> on_line p1 q1 x ->
  (on_line p1 q1 p0 -> p0 = p1 \/ p0 = q1) ->
  line_intersect3 (fin3 p0) (fin3 q0) (fin3 p1) (fin3 q1) = Some (fin3 x).
Proof.
  intros K H0 H1 HP.
  assert (R0 : forall a b, on_line a b a) by (intros a b; exists 0; vring).
  assert (R1 : forall a b, on_line a b b) by (intros a b; exists 1; vring).
  assert (Hf : rsub p1 q1 <> rzero). { intros E. apply K. rewrite E. vring. }
  assert (Dec : forall a b : V3 R, a = b \/ a <> b).
  { intros a b. destruct (veqb (fin3 a) (fin3 b)) eqn:E; [left; now apply veqb_fin|right].
    intros X. apply veqb_fin in X. congruence. }
  destruct (Dec p0 p1) as [E|N1].
  { subst p1. assert (X : p0 = x) by (eapply on_line_unique; eauto). subst x.
    unfold line_intersect3. rewrite (proj2 (veqb_fin p0 p0) eq_refl). reflexivity. }
  destruct (Dec p0 q1) as [E|N2].
  { subst q1. assert (X : p0 = x) by (eapply on_line_unique; eauto). subst x.
    unfold line_intersect3. rewrite (proj2 (veqb_fin p0 p0) eq_refl), orb_true_r. reflexivity. }
  destruct (Dec q0 p1) as [E|N3].
  { subst p1. assert (X : q0 = x) by (eapply on_line_unique; eauto). subst x.
    unfold line_intersect3. rewrite (proj2 (veqb_fin q0 q0) eq_refl). rewrite !veqb_fin_false by auto. reflexivity. }
  rewrite (line_intersect3_core N1 N2 N3 K H0 H1). rewrite Req_bool_false; auto.
  intros Z. apply rnorm_0 in Z. apply cross_zero_parallel in Z as [t Ht]; auto.
  destruct HP as [E|E]; try contradiction. exists (- t). unfold lerp.
  assert (X : p0 = radd p1 (rscale t (rsub p1 q1))) by (rewrite <- Ht; clear; vring). rewrite X at 1. clear. vring.
Qed.
Lemma line_intersect3_on_first p0 q0 p1 q1 :
  rcross (rsub p1 q1) (rsub p0 q0) <> rzero -> on_line p1 q1 p0 -> p0 <> p1 -> p0 <> q1 -> q0 <> p1 ->
  line_intersect3 (fin3 p0) (fin3 q0) (fin3 p1) (fin3 q1) = None.
Proof.
  intros K H1 N1 N2 N3. assert (H0 : on_line p0 q0 p0) by (exists 0; vring).
  rewrite (line_intersect3_core N1 N2 N3 K H0 H1). rewrite Req_bool_true; auto. apply rnorm_0.
  destruct H1 as [t Ht]. rewrite Ht. vring.
Qed.
Lemma line_intersect3_parallel p0 q0 p1 q1 :
  rcross (rsub p1 q1) (rsub p0 q0) = rzero -> (forall x, on_line p0 q0 x -> ~ on_line p1 q1 x) ->
  line_intersect3 (fin3 p0) (fin3 q0) (fin3 p1) (fin3 q1) = None.
Proof.
  intros K HD.
  assert (R0 : forall a b, on_line a b a) by (intros a b; exists 0; vring).
  assert (R1 : forall a b, on_line a b b) by (intros a b; exists 1; vring).
  assert (p0 <> p1) by (intros ->; eapply HD; eauto). assert (p0 <> q1) by (intros ->; eapply HD; eauto).
  assert (q0 <> p1) by (intros E; apply (HD q0); [auto|rewrite E; auto]).
  unfold line_intersect3. rewrite !veqb_fin_false by auto. cbn [orb]. rewrite !fsub, !fcross, !fnorm, K.
  unfold n0. rewrite xofZ, !xeqb. rewrite (Req_bool_true (rnorm rzero)) by (now apply rnorm_0). now rewrite orb_true_r.
Qed.

(** ** barycentric coordinates *)
Lemma barycentric_fin p q u v : let n := rcross u v in n <> rzero ->
  barycentric1 (fin3 p) (fin3 q) (fin3 u) (fin3 v) =
  fin3 (mk3 (1 - rdot (rcross (rsub p q) v) n / rdot n n - rdot (rcross u (rsub p q)) n / rdot n n)
            (rdot (rcross (rsub p q) v) n / rdot n n) (rdot (rcross u (rsub p q)) n / rdot n n)).
Proof.
  intros n Hn. assert (D : rdot n n <> 0) by now apply dot_self_neq.
  unfold barycentric1. rewrite !fsub, !fcross, !fdot. fold n. unfold n0. rewrite !xofZ, xeqb, Req_bool_false by auto.
  rewrite xdivE by auto. xs. unfold fin3, map3. cbn [c0 c1 c2]. f_equal; f_equal; field; auto.
Qed.
Lemma barycentric_spec p q u v : rcross u v <> rzero ->
  exists b, barycentric1 (fin3 p) (fin3 q) (fin3 u) (fin3 v) = fin3 b /\
    c0 b + c1 b + c2 b = 1 /\
    let y := radd (radd (rscale (c0 b) q) (rscale (c1 b) (radd q u))) (rscale (c2 b) (radd q v)) in
    on_plane q (rcross u v) y /\ exists t, rsub p y = rscale t (rcross u v).
Proof.
  intros Hn. rewrite (barycentric_fin p q Hn). set (n := rcross u v) in *. assert (D : rdot n n <> 0) by now apply dot_self_neq.
  eexists. split; [reflexivity|]. cbn [c0 c1 c2]. split; [ring|]. set (w := rsub p q).
  set (b1 := rdot (rcross w v) n / rdot n n). set (b2 := rdot (rcross u w) n / rdot n n).
  assert (Ey : radd (radd (rscale (1 - b1 - b2) q) (rscale b1 (radd q u))) (rscale b2 (radd q v)) = radd q (radd (rscale b1 u) (rscale b2 v))).
  { clearbody b1 b2. clear. vring. }
  cbv zeta. rewrite Ey. split.
  - unfold on_plane, n. clearbody b1 b2. clear. vring.
  - exists (rdot w n / rdot n n).
    assert (K : rscale (rdot n n) w = radd (radd (rscale (rdot (rcross w v) n) u) (rscale (rdot (rcross u w) n) v)) (rscale (rdot w n) n)).
    { unfold n. clear. generalize w. clear w. intros w. vring. }
    apply (f_equal (rscale (/ rdot n n))) in K. rewrite rscale_scale, Rinv_l, rscale_1 in K by auto. rewrite lin3 in K.
    replace (rsub p (radd q (radd (rscale b1 u) (rscale b2 v)))) with (rsub w (radd (rscale b1 u) (rscale b2 v))) by (unfold w; clearbody b1 b2; clear; vring).
    rewrite K at 1. fold (Rdiv (rdot (rcross w v) n) (rdot n n)). fold (Rdiv (rdot (rcross u w) n) (rdot n n)). fold (Rdiv (rdot w n) (rdot n n)).
    fold b1 b2. clearbody b1 b2. generalize (rdot w n / rdot n n) n. clear. vring.
Qed.
Lemma barycentric_sum p q u v : exists b, barycentric1 (fin3 p) (fin3 q) (fin3 u) (fin3 v) = fin3 b /\ c0 b + c1 b + c2 b = 1.
Proof.
  assert (Dec : rcross u v = rzero \/ rcross u v <> rzero).
  { destruct (veqb (fin3 (rcross u v)) (fin3 rzero)) eqn:E; [left; now apply veqb_fin|right].
    intros X. apply veqb_fin in X. congruence. }
  destruct Dec as [E|Hn]; [|destruct (barycentric_spec p q Hn) as (b&E&S&_); eauto].
  unfold barycentric1. rewrite !fsub, !fcross, !fdot, E. unfold n0. rewrite !xofZ, xeqb, rdot_zero, Req_bool_true by auto.
  rewrite xlit, xdivE by lra. xs. eexists (mk3 _ _ _). split; [reflexivity|]. cbn. ring.
Qed.
Lemma barycentric_vertices q u v : rcross u v <> rzero ->
  barycentric1 (fin3 q) (fin3 q) (fin3 u) (fin3 v) = fin3 (mk3 1 0 0) /\
  barycentric1 (fin3 (radd q u)) (fin3 q) (fin3 u) (fin3 v) = fin3 (mk3 0 1 0) /\
  barycentric1 (fin3 (radd q v)) (fin3 q) (fin3 u) (fin3 v) = fin3 (mk3 0 0 1).
Proof.
  intros Hn. rewrite !barycentric_fin by auto. set (n := rcross u v) in *. assert (D : rdot n n <> 0) by now apply dot_self_neq.
  replace (rsub q q) with rzero by (clear; vring). replace (rsub (radd q u) q) with u by (clear; vring). replace (rsub (radd q v) q) with v by (clear; vring).
  fold n. replace (rcross rzero v) with rzero by (clear; vring). replace (rcross u rzero) with rzero by (clear; vring).
  replace (rcross u u) with rzero by (clear; vring). replace (rcross v v) with rzero by (clear; vring).
  replace (rdot rzero n) with 0 by (generalize n; clear; vring).
  repeat split; f_equal; f_equal; field; auto.
Qed.

(** ** argmax *)
Definition rbetter (x best : xr) : bool := (if best =? best then (best <? x) || negb (x =? x) else false)%num.
Lemma rbetter_fin x b : rbetter (Fin x) (Fin b) = Rlt_bool b x.
Proof. unfold rbetter. xs. rewrite !Req_bool_true by auto. cbn. now rewrite orb_false_r. Qed.
(** the running maximum: [best] at position [bi] is the first maximum of [pre] *)
Lemma argbest_inv pre l best bi :
  nth_error pre bi = Some best ->
  (forall j y, nth_error pre j = Some y -> y <= best) -> (forall j y, (j < bi)%nat -> nth_error pre j = Some y -> y < best) ->
  exists m, nth_error (pre ++ l) (argbest_from rbetter (Fin best) bi (length pre) (map Fin l)) = Some m /\
    (forall j y, nth_error (pre ++ l) j = Some y -> y <= m) /\
    (forall j y, (j < argbest_from rbetter (Fin best) bi (length pre) (map Fin l))%nat -> nth_error (pre ++ l) j = Some y -> y < m).
Proof.
  revert pre best bi. induction l as [|x l IH]; intros pre best bi H1 H2 H3; cbn [map argbest_from].
  - rewrite app_nil_r. eauto.
  - replace (pre ++ x :: l) with ((pre ++ [x]) ++ l) by (rewrite <- app_assoc; auto).
    replace (S (length pre)) with (length (pre ++ [x])) by (rewrite app_length; cbn; lia).
    assert (NB : forall j y, nth_error (pre ++ [x]) j = Some y -> (j < length pre)%nat /\ nth_error pre j = Some y \/ j = length pre /\ y = x).
    { intros j y Hj. destruct (Nat.lt_ge_cases j (length pre)); [rewrite nth_error_app1 in Hj by auto; auto|].
      rewrite nth_error_app2 in Hj by auto. destruct (j - length pre)%nat as [|[|m]] eqn:E; cbn in Hj; try discriminate.
      injection Hj as <-. right. split; [lia|auto]. }
    assert (Lb : (bi < length pre)%nat) by (apply nth_error_Some; congruence).
    rewrite rbetter_fin. destruct (Rlt_bool_spec best x) as [L|L]; apply IH.
    + rewrite nth_error_app2, Nat.sub_diag; auto.
    + intros j y Hj. apply NB in Hj as [[_ Hj]|[_ ->]]; [|lra]. apply H2 in Hj. lra.
    + intros j y Hlt Hj. apply NB in Hj as [[_ Hj]|[-> _]]; [|lia]. apply H2 in Hj. lra.
    + rewrite nth_error_app1; auto.
    + intros j y Hj. apply NB in Hj as [[_ Hj]|[_ ->]]; [|lra]. eauto.
    + intros j y Hlt Hj. apply NB in Hj as [[_ Hj]|[-> _]]; [eauto|lia].
Qed.
Lemma argmax_spec l : l <> [] -> exists i m, argmax (map Fin l) = Ok i /\ nth_error l i = Some m /\
  (forall j y, nth_error l j = Some y -> y <= m) /\ (forall j y, (j < i)%nat -> nth_error l j = Some y -> y < m).
Proof.
  destruct l as [|x l]; [congruence|]. intros _. unfold argmax. cbn [map argbest].
  destruct (@argbest_inv [x] l x 0%nat) as (m&H1&H2&H3).
  - reflexivity.
  - intros [|[|j]] y Hj; cbn in Hj; try discriminate. injection Hj as <-. lra.
  - intros j y Hj. lia.
  - eexists. exists m. split; [reflexivity|]. auto.
Qed.
Lemma apex_spec ps axis :
  (ps = [] -> apex (map fin3 ps) (fin3 axis) = Err ValueError) /\
  (ps <> [] -> exists i p, nth_error ps i = Some p /\ apex (map fin3 ps) (fin3 axis) = Ok (fin3 p) /\
     (forall q, In q ps -> rdot q axis <= rdot p axis) /\
     (forall j q, (j < i)%nat -> nth_error ps j = Some q -> rdot q axis < rdot p axis)).
Proof.
  split; [intros ->; reflexivity|]. intros H. unfold apex. rewrite map_map.
  rewrite (map_ext _ (fun x => Fin (rdot x axis))) by (intros; apply fdot). rewrite <- (map_map (fun x => rdot x axis) Fin).
  destruct (@argmax_spec (map (fun x => rdot x axis) ps)) as (i&m&E&H1&H2&H3); [destruct ps; [congruence|discriminate]|].
  rewrite E. cbn [bindr]. rewrite nth_error_map in H1. destruct (nth_error ps i) as [p|] eqn:Ep; [|discriminate]. injection H1 as <-.
  exists i, p. split; auto. unfold getitem. rewrite nth_error_map, Ep. split; [reflexivity|]. split.
  - intros q Hq. apply In_nth_error in Hq as [j Hj]. apply (H2 j). now rewrite nth_error_map, Hj.
  - intros j q Hj Hq. apply (H3 j); auto. now rewrite nth_error_map, Hq.
Qed.
Lemma farthest_spec from ps :
  (ps = [] -> farthest (fin3 from) (map fin3 ps) = Err ValueError) /\
  (ps <> [] -> exists i p, nth_error ps i = Some p /\ farthest (fin3 from) (map fin3 ps) = Ok (fin3 p, i) /\
     (forall q, In q ps -> rdist q from <= rdist p from) /\
     (forall j q, (j < i)%nat -> nth_error ps j = Some q -> rdist q from < rdist p from)).
Proof.
  split; [intros ->; reflexivity|]. intros H. unfold farthest. rewrite map_map.
  rewrite (map_ext _ (fun x => Fin (rdist x from))) by (intros; rewrite fsub, fnorm; reflexivity). rewrite <- (map_map (fun x => rdist x from) Fin).
  destruct (@argmax_spec (map (fun x => rdist x from) ps)) as (i&m&E&H1&H2&H3); [destruct ps; [congruence|discriminate]|].
  rewrite E. cbn [bindr]. rewrite nth_error_map in H1. destruct (nth_error ps i) as [p|] eqn:Ep; [|discriminate]. injection H1 as <-.
  exists i, p. split; auto. unfold getitem. rewrite nth_error_map, Ep. split; [reflexivity|]. split.
  - intros q Hq. apply In_nth_error in Hq as [j Hj]. apply (H2 j). now rewrite nth_error_map, Hj.
  - intros j q Hj Hq. apply (H3 j); auto. now rewrite nth_error_map, Hq.
Qed.
Lemma barycentric_rows (ps qs us vs : list (V3 xr)) i p q u v :
  nth_error ps i = Some p -> nth_error qs i = Some q -> nth_error us i = Some u -> nth_error vs i = Some v ->
  nth_error (barycentric ps qs us vs) i = Some (barycentric1 p q u v).
Proof.
  unfold barycentric. revert qs us vs i. induction ps as [|p' ps IH]; intros [|q' qs] [|u' us] [|v' vs] [|i] H1 H2 H3 H4; cbn in *; try discriminate.
  - congruence.
  - eauto.
Qed.
Lemma partition_vertices v k : (1 <= k)%nat -> v <> [] -> Forall (fun ab => fst ab <> snd ab) (combine v (tl v)) ->
  exists out, partition (map fin3 v) k = Ok (map fin3 out) /\
    length out = (k * (length v - 1) + 1)%nat /\
    forall i x, nth_error v i = Some x -> nth_error out (k * i) = Some x.
Proof.
  intros Hk Hv HD. eexists. split; [now apply partition_spec|]. clear HD.
  destruct v as [|x0 v]; [congruence|]. clear Hv. cbn [tl].
  revert x0. induction v as [|y v IH]; intros x0.
  - cbn. split; [lia|]. intros [|i] x H; cbn in H; [|destruct i; discriminate]. rewrite Nat.mul_0_r. cbn. congruence.
  - destruct (IH y) as [L E]. change (combine (x0 :: y :: v) (y :: v)) with ((x0, y) :: combine (y :: v) v). cbn [flat_map]. cbn [length] in *.
    set (seg := map (fun i => lerp (INR i / INR k) (fst (x0, y)) (snd (x0, y))) (seq 0 k)).
    assert (Ls : length seg = k) by (unfold seg; now rewrite map_length, seq_length).
    change (last (x0 :: y :: v) rzero) with (last (y :: v) rzero).
    rewrite <- app_assoc, app_length, L, Ls. split; [lia|].
    intros [|i] x H.
    + rewrite Nat.mul_0_r, nth_error_app1 by lia. cbn in H. injection H as <-. unfold seg. destruct k; [lia|]. cbn.
      f_equal. unfold Rdiv. rewrite Rmult_0_l. unfold lerp. rewrite rscale_0. destruct x0. unfold radd, rzero. cbn. f_equal; ring.
    + rewrite nth_error_app2 by lia. replace (k * S i - length seg)%nat with (k * i)%nat by lia. apply E. exact H.
Qed.
