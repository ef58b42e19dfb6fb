(** * Proofs about Plane: intersections, fitting, face selection. *)
From Coq Require Import Reals ZArith List Bool Lra Lia Psatz.
From Flocq Require Import Core.Raux.
From Verif Require Import Num XLemmas Vec RVec SpecGeom VLemmas NpList MVx PVx MPlane PPlane.
Import ListNotations.
Local Open Scope R_scope.
Set Implicit Arguments.
Unset Strict Implicit.

(** ** one line *)
Lemma line_xsection_fin p n pl pt ray : mk_plane (fin3 p) (fin3 n) = Ok pl ->
  (rdot ray n = 0 -> line_xsection pl (fin3 pt) (fin3 ray) = None) /\
  (rdot ray n <> 0 -> line_xsection pl (fin3 pt) (fin3 ray) =
     Some (fin3 (radd pt (rscale (rdot (rsub p pt) n / rdot ray n) ray)))).
Proof.
  intros H. apply mk_plane_ok in H as [Hn ->]. pose proof (rnorm_gt0 _ Hn) as K.
  unfold line_xsection. cbn [pl_r0 pl_n]. rewrite fsub, !fdot, !runit_dot. unfold n0. rewrite xofZ, xeqb.
  split; intros Hr.
  - rewrite Req_bool_true; auto. rewrite Hr. unfold Rdiv. ring.
  - assert (rdot ray n / rnorm n <> 0).
    { intros E. apply Hr. apply (Rmult_eq_compat_r (rnorm n)) in E. unfold Rdiv in E. rewrite Rmult_assoc, Rinv_l in E; lra. }
    rewrite Req_bool_false by auto. rewrite xdivE by auto. rewrite fscale, fadd. do 2 f_equal.
    rewrite radd_comm. do 2 f_equal. field. split; auto; lra.
Qed.
Lemma line_xsection_spec p n pl pt ray : mk_plane (fin3 p) (fin3 n) = Ok pl ->
  (line_xsection pl (fin3 pt) (fin3 ray) = None <-> rdot ray n = 0) /\
  (rdot ray n <> 0 -> exists y, line_xsection pl (fin3 pt) (fin3 ray) = Some (fin3 y) /\ on_plane p n y /\
     (exists t, y = radd pt (rscale t ray)) /\
     forall z, on_plane p n z -> (exists t, z = radd pt (rscale t ray)) -> z = y).
Proof.
  intros H. destruct (line_xsection_fin pt ray H) as [H1 H2]. split.
  - split; auto. intros E. destruct (Req_dec (rdot ray n) 0) as [|Hr]; auto. rewrite (H2 Hr) in E. discriminate.
  - intros Hr. eexists. split; [now apply H2|]. unfold on_plane. split; [|split; [eauto|]].
    + match goal with |- rdot (rsub (radd pt ?a) p) n = 0 =>
        replace (rsub (radd pt a) p) with (rsub a (rsub p pt)) by (generalize a; vring) end.
      rewrite rdot_sub_l, rdot_scale_l. field. auto.
    + intros z Hz [t ->]. do 2 f_equal.
      replace (rsub (radd pt (rscale t ray)) p) with (rsub (rscale t ray) (rsub p pt)) in Hz by vring.
      rewrite rdot_sub_l, rdot_scale_l in Hz. apply (Rmult_eq_reg_r (rdot ray n)); auto. field_simplify; auto. lra.
Qed.

(** ** one segment *)
Lemma oob_fin y a b : out_of_bounds (fin3 y) (fin3 a) (fin3 b) = true <->
  (c0 a < c0 y /\ c0 b < c0 y) \/ (c1 a < c1 y /\ c1 b < c1 y) \/ (c2 a < c2 y /\ c2 b < c2 y) \/
  (c0 y < c0 a /\ c0 y < c0 b) \/ (c1 y < c1 a /\ c1 y < c1 b) \/ (c2 y < c2 a /\ c2 y < c2 b).
Proof.
  assert (L : forall s t, Rlt_bool s t = true <-> s < t).
  { intros s t. destruct (Rlt_bool_spec s t); split; intros; auto; try discriminate; lra. }
  unfold out_of_bounds, any3, zip3, fin3, map3. cbn [c0 c1 c2]. xs.
  rewrite !orb_true_iff, !andb_true_iff, !L. tauto.
Qed.
Lemma oob_lerp t a b : a <> b -> out_of_bounds (fin3 (lerp t a b)) (fin3 a) (fin3 b) = false <-> 0 <= t <= 1.
Proof.
  intros Hab. rewrite <- not_true_iff_false, oob_fin. unfold lerp, radd, rscale, rsub. destruct a as [a0 a1 a2], b as [b0 b1 b2]. cbn [c0 c1 c2].
  split.
  - intros H. apply Decidable.not_or in H as [H0 H]. apply Decidable.not_or in H as [H1 H].
    apply Decidable.not_or in H as [H2 H]. apply Decidable.not_or in H as [H3 H]. apply Decidable.not_or in H as [H4 H5].
    assert (D : forall x y, x <> y -> ~ (x < x + t * (y - x) /\ y < x + t * (y - x)) -> ~ (x + t * (y - x) < x /\ x + t * (y - x) < y) -> 0 <= t <= 1).
    { intros x y Hxy G1 G2. destruct (Rtotal_order x y) as [L|[L|L]]; [|contradiction|];
      destruct (Rlt_le_dec t 0); try (exfalso; first [apply G1; split; nra|apply G2; split; nra]);
      destruct (Rle_lt_dec t 1); try lra; exfalso; first [apply G1; split; nra|apply G2; split; nra]. }
    destruct (Req_dec a0 b0) as [->|]; [|eapply D; eauto].
    destruct (Req_dec a1 b1) as [->|]; [|eapply D; eauto].
    destruct (Req_dec a2 b2) as [->|]; [congruence|eapply D; eauto].
  - intros Ht.
    assert (D : forall x y, ~ (x < x + t * (y - x) /\ y < x + t * (y - x)) /\ ~ (x + t * (y - x) < x /\ x + t * (y - x) < y)).
    { intros x y. assert (P : 0 <= t * (1 - t)) by (apply Rmult_le_pos; lra).
      destruct (Rle_lt_dec x y) as [L|L].
      - pose proof (Rmult_le_pos t (y - x) ltac:(lra) ltac:(lra)). pose proof (Rmult_le_pos (1 - t) (y - x) ltac:(lra) ltac:(lra)).
        split; intros []; lra.
      - pose proof (Rmult_le_pos t (x - y) ltac:(lra) ltac:(lra)). pose proof (Rmult_le_pos (1 - t) (x - y) ltac:(lra) ltac:(lra)).
        split; intros []; lra. }
    pose proof (D a0 b0). pose proof (D a1 b1). pose proof (D a2 b2). tauto.
Qed.
Definition crossing_param p n a b := rdot (rsub p a) n / rdot (rsub b a) n.
Lemma segment_fin p n pl a b : mk_plane (fin3 p) (fin3 n) = Ok pl ->
  let t := crossing_param p n a b in
  line_segment_xsection pl (fin3 a) (fin3 b) =
    if Req_bool (rdot (rsub b a) n) 0 then None
    else if Rle_bool 0 t && Rle_bool t 1 then Some (fin3 (lerp t a b)) else None.
Proof.
  intros H t. unfold line_segment_xsection. rewrite fsub. destruct (line_xsection_fin a (rsub b a) H) as [H1 H2].
  destruct (Req_bool_spec (rdot (rsub b a) n) 0) as [E|E]; [rewrite H1; auto|].
  rewrite (H2 E). fold (crossing_param p n a b). fold t. fold (lerp t a b).
  assert (Hab : a <> b).
  { intros ->. apply E. vring. }
  pose proof (oob_lerp t Hab) as O. destruct (out_of_bounds (fin3 (lerp t a b)) (fin3 a) (fin3 b)).
  - destruct (Rle_bool_spec 0 t), (Rle_bool_spec t 1); cbn; auto. exfalso. assert (true = false) by (apply O; auto). discriminate.
  - destruct O as [O _]. specialize (O eq_refl). rewrite !Rle_bool_true by lra. reflexivity.
Qed.
Lemma sdist_sub p n a b : sdist p n b - sdist p n a = rdot (rsub b a) n / rnorm n.
Proof. unfold sdist. replace (rsub b a) with (rsub (rsub b p) (rsub a p)) by vring. rewrite (rdot_sub_l (rsub b p)). unfold Rdiv. ring. Qed.
Lemma crossing_param_sdist p n a b : n <> rzero -> rdot (rsub b a) n <> 0 ->
  crossing_param p n a b = sdist p n a / (sdist p n a - sdist p n b).
Proof.
  intros Hn Hd. apply rnorm_gt0 in Hn. unfold crossing_param.
  replace (sdist p n a - sdist p n b) with (- (rdot (rsub b a) n / rnorm n)) by (rewrite <- (sdist_sub p); ring).
  unfold sdist. replace (rdot (rsub p a) n) with (- rdot (rsub a p) n) by vring. field. split; auto; lra.
Qed.
Lemma param_range x y : x <> y -> 0 <= x / (x - y) <= 1 <-> ~ (0 < x /\ 0 < y) /\ ~ (x < 0 /\ y < 0).
Proof.
  intros H. assert (D : x - y <> 0) by lra. set (t := x / (x - y)).
  assert (E : x = t * (x - y)) by (unfold t; field; auto).
  assert (E1 : x - t * (x - y) = 0) by lra. assert (E2 : y = (t - 1) * (x - y)) by lra.
  clearbody t. split.
  - intros Ht. split; intros []; nra.
  - intros [G1 G2]. destruct (Rlt_le_dec 0 (x - y)).
    + split; [apply Rnot_lt_le; intros L; apply G2; split; nra|apply Rnot_lt_le; intros L; apply G1; split; nra].
    + assert (x - y < 0) by lra. split; [apply Rnot_lt_le; intros L; apply G1; split; nra|apply Rnot_lt_le; intros L; apply G2; split; nra].
Qed.
Lemma segment_spec p n pl a b : mk_plane (fin3 p) (fin3 n) = Ok pl ->
  ((exists w, line_segment_xsection pl (fin3 a) (fin3 b) = Some w) <->
     sdist p n a <> sdist p n b /\ ~ (0 < sdist p n a /\ 0 < sdist p n b) /\ ~ (sdist p n a < 0 /\ sdist p n b < 0)) /\
  (forall w, line_segment_xsection pl (fin3 a) (fin3 b) = Some w ->
     exists y, w = fin3 y /\ on_plane p n y /\ on_segment a b y /\
       forall z, on_plane p n z -> on_segment a b z -> z = y).
Proof.
  intros H. pose proof (segment_fin a b H) as E. destruct (line_xsection_spec a (rsub b a) H) as [L1 L2].
  destruct (line_xsection_fin a (rsub b a) H) as [_ L3]. apply mk_plane_ok in H as [Hn _]. pose proof (rnorm_gt0 _ Hn) as K.
  assert (EQ : sdist p n a = sdist p n b <-> rdot (rsub b a) n = 0).
  { pose proof (sdist_sub p n a b). split; intros G.
    - rewrite G in H. apply (Rmult_eq_reg_r (/ rnorm n)); [unfold Rdiv in H; lra|]. apply Rinv_neq_0_compat. lra.
    - rewrite G in H. unfold Rdiv in H. lra. }
  cbv zeta in E. destruct (Req_bool_spec (rdot (rsub b a) n) 0) as [Z|Z]; rewrite E; clear E.
  - split; [|discriminate]. split; [intros [? ?]; discriminate|]. intros [G _]. tauto.
  - rewrite (crossing_param_sdist p Hn Z). assert (D : sdist p n a <> sdist p n b) by tauto.
    pose proof (param_range D) as PR.
    destruct (Rle_bool_spec 0 (sdist p n a / (sdist p n a - sdist p n b))) as [G1|G1];
    destruct (Rle_bool_spec (sdist p n a / (sdist p n a - sdist p n b)) 1) as [G2|G2]; cbn [andb].
    1:{ split.
      + split; eauto. intros _. tauto.
      + intros w [= <-]. eexists. split; [reflexivity|]. destruct (L2 Z) as (y&E1&E2&_&E3).
        rewrite (L3 Z) in E1. fold (crossing_param p n a b) in E1. fold (lerp (crossing_param p n a b) a b) in E1.
        rewrite (crossing_param_sdist p Hn Z) in E1. apply (f_equal (fun o => match o with Some v => v | None => fin3 a end)) in E1. apply fin3_inj in E1. subst y.
        split; auto. split; [eexists; split; [|reflexivity]; auto|].
        intros z Hz (t&_&->). apply E3; auto. exists t. reflexivity. }
    all: split; [|discriminate]; split; [intros [? ?]; discriminate|]; intros (_&G3); apply PR in G3; lra.
Qed.

(** ** arrays agree with scalars, in any arithmetic *)
Section Any.
Context {F : Type} {N : Num F}.
Lemma lxs_cons (p : plane F) q pts r rays :
  line_xsections p (q :: pts) (r :: rays) =
  let (P, V) := line_xsections p pts rays in
  let d := vdot r (pl_n p) in
  (vadd (vscale (vdot (vsub (pl_r0 p) q) (pl_n p) / (if d =? n0 then nnan else d)) r) q :: P, negb (d =? n0) :: V)%num.
Proof. reflexivity. Qed.
Lemma lxs_rows (p : plane F) pts rays : length pts = length rays ->
  length (fst (line_xsections p pts rays)) = length pts /\ length (snd (line_xsections p pts rays)) = length pts /\
  forall k q r, nth_error pts k = Some q -> nth_error rays k = Some r ->
    match line_xsection p q r with
    | Some y => nth_error (fst (line_xsections p pts rays)) k = Some y /\ nth_error (snd (line_xsections p pts rays)) k = Some true
    | None => nth_error (snd (line_xsections p pts rays)) k = Some false
    end.
Proof.
  revert rays. induction pts as [|q pts IH]; intros [|r rays]; try discriminate.
  - intros _. repeat split; auto. intros [|k] ? ?; discriminate.
  - intros [= L]. destruct (IH _ L) as (L1&L2&H). rewrite lxs_cons. destruct (line_xsections p pts rays) as [P V].
    cbn [fst snd length] in *. split; [now rewrite L1|]. split; [now rewrite L2|].
    intros [|k] q' r'; cbn [nth_error].
    + intros [= <-] [= <-]. unfold line_xsection. destruct (vdot r (pl_n p) =? n0)%num; cbn; auto.
    + apply H.
Qed.
Lemma lsxs_cons (p : plane F) x a y b :
  line_segment_xsections p (x :: a) (y :: b) =
  let (P, V) := line_segment_xsections p a b in
  match line_segment_xsection p x y with
  | Some w => (w :: P, true :: V)
  | None => (vnan :: P, false :: V)
  end.
Proof.
  unfold line_segment_xsections. change (map2 vsub (y :: b) (x :: a)) with (vsub y x :: map2 vsub b a).
  rewrite lxs_cons. unfold line_segment_xsection, line_xsection.
  destruct (line_xsections p a (map2 vsub b a)) as [P V].
  destruct (vdot (vsub y x) (pl_n p) =? n0)%num; cbn [negb].
  - reflexivity.
  - cbn. destruct (out_of_bounds _ x y); reflexivity.
Qed.
Lemma lsxs_rows (p : plane F) a b : length a = length b ->
  line_segment_xsections p a b =
  (map (fun xy => match line_segment_xsection p (fst xy) (snd xy) with Some w => w | None => vnan end) (combine a b),
   map (fun xy => match line_segment_xsection p (fst xy) (snd xy) with Some w => true | None => false end) (combine a b)).
Proof.
  revert b. induction a as [|x a IH]; intros [|y b]; try discriminate.
  - reflexivity.
  - intros [= L]. rewrite lsxs_cons, (IH _ L). cbn [combine map fst snd].
    destruct (line_segment_xsection p x y); reflexivity.
Qed.
End Any.

(** ** sums *)
Lemma nsum_acc l acc : fold_left nadd (map Fin l) (Fin acc) = Fin (acc + rsum l).
Proof. revert acc. induction l as [|x l IH]; intros acc; cbn [map fold_left rsum]; [f_equal; ring|]. rewrite xadd, IH. f_equal. ring. Qed.
Lemma nsum_fin l : nsum (map Fin l) = Fin (rsum l).
Proof. unfold nsum, n0. rewrite xofZ, nsum_acc. f_equal. ring. Qed.
Lemma vsum_acc l acc : fold_left vadd (map fin3 l) (fin3 acc) =
  fin3 (radd acc (mk3 (rsum (map c0 l)) (rsum (map c1 l)) (rsum (map c2 l)))).
Proof.
  revert acc. induction l as [|x l IH]; intros acc; cbn [map fold_left rsum].
  - f_equal. vring.
  - rewrite fadd, IH. f_equal. unfold radd. cbn. f_equal; ring.
Qed.
Lemma INR_pos_len A (l : list A) : l <> [] -> 0 < INR (length l).
Proof. destruct l; [congruence|]. intros _. cbn [length]. apply lt_0_INR. lia. Qed.
Lemma vmean_fin ps : ps <> [] -> vmean (map fin3 ps) = fin3 (centroid ps).
Proof.
  intros H. pose proof (INR_pos_len H). unfold vmean, vsum. rewrite fzero, vsum_acc, map_length.
  rewrite xofZ, <- INR_IZR_INZ, fdivs by lra. f_equal. unfold rscale, radd, rzero, centroid. cbn [c0 c1 c2]. f_equal; field; lra.
Qed.
Lemma cov_fin ps : (2 <= length ps)%nat -> covariance (map fin3 ps) = finm (rcov ps).
Proof.
  intros L. assert (Hne : ps <> []) by (intros ->; cbn in L; lia).
  unfold covariance. rewrite vmean_fin, map_length by auto.
  assert (E : forall f g (f' g' : V3 R -> R), (forall v, f (fin3 v) = Fin (f' v)) -> (forall v, g (fin3 v) = Fin (g' v)) ->
    (nsum (map (fun c => f c * g c) (map (fun p => vsub p (fin3 (centroid ps))) (map fin3 ps))) / nofZ (Z.of_nat (length ps) - 1) = Fin (scatter f' g' ps))%num).
  { intros f g f' g' Hf Hg. rewrite !map_map.
    rewrite (map_ext _ (fun p => Fin (f' (rsub p (centroid ps)) * g' (rsub p (centroid ps))))) by (intros; rewrite fsub, Hf, Hg; reflexivity).
    rewrite <- (map_map _ Fin), nsum_fin, xofZ, minus_IZR, <- INR_IZR_INZ.
    rewrite xdivE; [reflexivity|]. apply le_INR in L. cbn in L. lra. }
  rewrite (E c0 c0 c0 c0), (E c0 c1 c0 c1), (E c0 c2 c0 c2), (E c1 c0 c1 c0), (E c1 c1 c1 c1), (E c1 c2 c1 c2), (E c2 c0 c2 c0), (E c2 c1 c2 c1), (E c2 c2 c2 c2) by reflexivity.
  reflexivity.
Qed.

(** ** least squares *)
Lemma rsum_add A (f g : A -> R) l : rsum (map (fun x => f x + g x) l) = rsum (map f l) + rsum (map g l).
Proof. induction l; cbn; [ring|]. rewrite IHl. ring. Qed.
Lemma rsum_scale A (f : A -> R) k l : rsum (map (fun x => k * f x) l) = k * rsum (map f l).
Proof. induction l; cbn; [ring|]. rewrite IHl. ring. Qed.
Lemma rsum_const A (k : R) (l : list A) : rsum (map (fun _ => k) l) = INR (length l) * k.
Proof. induction l; cbn [map rsum length]; [cbn; ring|]. rewrite IHl, S_INR. ring. Qed.
Lemma rsum_ext A (f g : A -> R) l : (forall x, f x = g x) -> rsum (map f l) = rsum (map g l).
Proof. intros H. f_equal. now apply map_ext. Qed.
Lemma centered_zero ps n : ps <> [] -> rsum (map (fun x => rdot (rsub x (centroid ps)) n) ps) = 0.
Proof.
  intros H. apply INR_pos_len in H.
  set (m := centroid ps).
  rewrite (@rsum_ext _ _ (fun x => c0 n * c0 x + (c1 n * c1 x + (c2 n * c2 x + - rdot m n)))) by (intros; unfold rdot, rsub; cbn; ring).
  rewrite rsum_add, rsum_scale, rsum_add, rsum_scale, rsum_add, rsum_scale, rsum_const.
  unfold m, centroid, rdot. cbn [c0 c1 c2]. field. lra.
Qed.
Lemma shift_error ps p n : ps <> [] ->
  rsum (map (fun x => rdot (rsub x p) n * rdot (rsub x p) n) ps) =
  rsum (map (fun x => rdot (rsub x (centroid ps)) n * rdot (rsub x (centroid ps)) n) ps) +
  INR (length ps) * (rdot (rsub (centroid ps) p) n * rdot (rsub (centroid ps) p) n).
Proof.
  intros H. set (m := centroid ps). set (d := rdot (rsub m p) n).
  rewrite (@rsum_ext _ _ (fun x => rdot (rsub x m) n * rdot (rsub x m) n + (2 * d * rdot (rsub x m) n + d * d))).
  2:{ intros x. unfold d. replace (rsub x p) with (radd (rsub x m) (rsub m p)) by vring. rewrite rdot_add_l. ring. }
  rewrite rsum_add, rsum_add, rsum_scale, rsum_const. unfold m at 3. rewrite centered_zero by auto. ring.
Qed.
Lemma quad_cov ps n : (2 <= length ps)%nat ->
  rsum (map (fun x => rdot (rsub x (centroid ps)) n * rdot (rsub x (centroid ps)) n) ps) =
  (INR (length ps) - 1) * rdot n (rapply (rcov ps) n).
Proof.
  intros L. apply le_INR in L. cbn [INR] in L. set (m := centroid ps).
  assert (E : forall f g, scatter f g ps * (INR (length ps) - 1) = rsum (map (fun x => f (rsub x m) * g (rsub x m)) ps)).
  { intros. unfold scatter. fold m. field. lra. }
  unfold rdot at 3, rapply, rcov, rdot. cbn [c0 c1 c2].
  transitivity (c0 n * c0 n * (scatter c0 c0 ps * (INR (length ps) - 1)) + (c0 n * c1 n * (scatter c0 c1 ps * (INR (length ps) - 1)) + (c0 n * c2 n * (scatter c0 c2 ps * (INR (length ps) - 1)) +
    (c1 n * c0 n * (scatter c1 c0 ps * (INR (length ps) - 1)) + (c1 n * c1 n * (scatter c1 c1 ps * (INR (length ps) - 1)) + (c1 n * c2 n * (scatter c1 c2 ps * (INR (length ps) - 1)) +
    (c2 n * c0 n * (scatter c2 c0 ps * (INR (length ps) - 1)) + (c2 n * c1 n * (scatter c2 c1 ps * (INR (length ps) - 1)) + c2 n * c2 n * (scatter c2 c2 ps * (INR (length ps) - 1)))))))))); [|ring].
  rewrite !E. rewrite <- !rsum_scale, <- !rsum_add. apply rsum_ext. intros x. unfold rdot. ring.
Qed.

(** ** spectral part *)
Definition symm (m : M3 R) : Prop := rtrans m = m.
Lemma symm_dot m x y : symm m -> rdot (rapply m x) y = rdot x (rapply m y).
Proof.
  intros H. unfold symm in H. rewrite <- H at 1. clear H. vring.
Qed.
Lemma rcov_symm ps : symm (rcov ps).
Proof.
  unfold symm, rtrans, rcov, rcol0, rcol1, rcol2. cbn [c0 c1 c2].
  assert (S : forall f g, scatter f g ps = scatter g f ps).
  { intros. unfold scatter. f_equal. apply rsum_ext. intros; ring. }
  rewrite (S c1 c0), (S c2 c0), (S c2 c1). reflexivity.
Qed.
Lemma lin3 k x y z a b n : rscale k (radd (radd (rscale x a) (rscale y b)) (rscale z n)) =
  radd (radd (rscale (x * k) a) (rscale (y * k) b)) (rscale (z * k) n).
Proof. vring. Qed.
(** coordinates in the basis (a, b, a x b) *)
Lemma basis_expand a b u : rcross a b <> rzero ->
  exists x y z, u = radd (radd (rscale x a) (rscale y b)) (rscale z (rcross a b)).
Proof.
  intros H. set (n := rcross a b) in *. assert (D : rdot n n <> 0) by now apply dot_self_neq.
  exists (rdot (rcross u b) n / rdot n n), (rdot (rcross a u) n / rdot n n), (rdot u n / rdot n n).
  assert (K : rscale (rdot n n) u = radd (radd (rscale (rdot (rcross u b) n) a) (rscale (rdot (rcross a u) n) b)) (rscale (rdot u n) n)).
  { unfold n. clear. vring. }
  apply (f_equal (rscale (/ rdot n n))) in K. rewrite rscale_scale, Rinv_l, rscale_1 in K by auto.
  etransitivity; [exact K|]. apply lin3.
Qed.
Lemma quad_min m w1 w2 w3 q1 q2 q3 u :
  symm m -> eigenpair m w1 q1 -> eigenpair m w2 q2 -> eigenpair m w3 q3 ->
  rdot (rcross q1 q2) q3 <> 0 -> w3 <= w1 -> w3 <= w2 ->
  rapply m (rcross q1 q2) = rscale w3 (rcross q1 q2) /\ w3 * rdot u u <= rdot u (rapply m u).
Proof.
  intros S E1 E2 E3 D L1 L2. unfold eigenpair in *. set (n := rcross q1 q2) in *.
  assert (Hn : n <> rzero). { intros E. apply D. rewrite E. vring. }
  assert (Dn : rdot n n <> 0) by now apply dot_self_neq.
  assert (O1 : rdot n q1 = 0) by (unfold n; vring). assert (O2 : rdot n q2 = 0) by (unfold n; vring).
  assert (P1 : rdot (rapply m n) q1 = 0) by (rewrite symm_dot, E1, rdot_scale_r, O1 by auto; ring).
  assert (P2 : rdot (rapply m n) q2 = 0) by (rewrite symm_dot, E2, rdot_scale_r, O2 by auto; ring).
  assert (En : rapply m n = rscale w3 n).
  { destruct (basis_expand (rapply m n) Hn) as (x&y&z&E). fold n in E.
    (* m n is orthogonal to q1, q2, hence a multiple of n *)
    set (v := radd (rscale x q1) (rscale y q2)) in E.
    assert (Hv : rdot v v = 0).
    { assert (A : rdot (rapply m n) v = 0).
      { unfold v. rewrite rdot_add_r, !rdot_scale_r, P1, P2. ring. }
      rewrite E in A. assert (B : rdot n v = 0) by (unfold v; rewrite rdot_add_r, !rdot_scale_r, O1, O2; ring).
      rewrite rdot_add_l, rdot_scale_l, B in A. lra. }
    apply rdot_self_0 in Hv. rewrite Hv in E.
    assert (E' : rapply m n = rscale z n) by (rewrite E; generalize n; vring).
    assert (Z : z = w3).
    { apply (Rmult_eq_reg_r (rdot n q3)); auto. rewrite <- rdot_scale_l, <- E', symm_dot, E3, rdot_scale_r by auto. ring. }
    now rewrite <- Z. }
  split; auto.
  destruct (basis_expand u Hn) as (x&y&z&E). fold n in E.
  assert (M : rapply m u = radd (radd (rscale (x * w1) q1) (rscale (y * w2) q2)) (rscale (z * w3) n)).
  { rewrite E. replace (rapply m _) with (radd (radd (rscale x (rapply m q1)) (rscale y (rapply m q2))) (rscale z (rapply m n)))
      by (clear; generalize n; vring).
    rewrite E1, E2, En. clear. generalize n. vring. }
  assert (X : (w1 - w2) * rdot q1 q2 = 0).
  { assert (A : rdot (rapply m q1) q2 = rdot q1 (rapply m q2)) by now apply symm_dot.
    rewrite E1, E2, rdot_scale_l, rdot_scale_r in A. lra. }
  rewrite M, E. autorewrite with rdot. rewrite (rdot_sym q1 n), (rdot_sym q2 n), (rdot_sym q2 q1), O1, O2.
  pose proof (rdot_self_pos q1) as Q1. pose proof (rdot_self_pos q2) as Q2.
  destruct (Req_dec w1 w2) as [->|Hw].
  - (* (w2 - w3) |x q1 + y q2|^2 *)
    pose proof (rdot_self_pos (radd (rscale x q1) (rscale y q2))) as Q. autorewrite with rdot in Q. rewrite (rdot_sym q2 q1) in Q.
    assert (0 <= (w2 - w3) * (x * (x * rdot q1 q1) + x * (y * rdot q1 q2) + (y * (x * rdot q1 q2) + y * (y * rdot q2 q2)))) by (apply Rmult_le_pos; lra).
    lra.
  - assert (X0 : rdot q1 q2 = 0). { apply Rmult_integral in X as [X|X]; auto. lra. }
    rewrite X0. assert (0 <= (w1 - w3) * (x * x * rdot q1 q1)) by (apply Rmult_le_pos; [lra|apply Rmult_le_pos; nra]).
    assert (0 <= (w2 - w3) * (y * y * rdot q2 q2)) by (apply Rmult_le_pos; [lra|apply Rmult_le_pos; nra]).
    lra.
Qed.
(** argsort of three numbers *)
Lemma argsort3_cases w : exists i j k, argsort3 (fin3 w) = [i; j; k] /\
  let g m := match m with 0%nat => c0 w | 1%nat => c1 w | _ => c2 w end in
  g i <= g j /\ g j <= g k /\
  ((i, j, k) = (0, 1, 2) \/ (i, j, k) = (0, 2, 1) \/ (i, j, k) = (1, 0, 2) \/ (i, j, k) = (1, 2, 0) \/ (i, j, k) = (2, 0, 1) \/ (i, j, k) = (2, 1, 0))%nat.
Proof.
  destruct w as [a b c]. unfold argsort3, fin3, map3. cbn [c0 c1 c2 fold_left ins_idx fst]. xs.
  destruct (Rlt_bool_spec b a); cbn [ins_idx fst]; xs.
  - destruct (Rlt_bool_spec c b); cbn [ins_idx fst map snd]; xs.
    + exists 2%nat, 1%nat, 0%nat. cbn. intuition lra.
    + destruct (Rlt_bool_spec c a); cbn [ins_idx fst map snd]; xs.
      * exists 1%nat, 2%nat, 0%nat. cbn. intuition lra.
      * exists 1%nat, 0%nat, 2%nat. cbn. intuition lra.
  - destruct (Rlt_bool_spec c a); cbn [ins_idx fst map snd]; xs.
    + exists 2%nat, 0%nat, 1%nat. cbn. intuition lra.
    + destruct (Rlt_bool_spec c b); cbn [ins_idx fst map snd]; xs.
      * exists 0%nat, 2%nat, 1%nat. cbn. intuition lra.
      * exists 0%nat, 1%nat, 2%nat. cbn. intuition lra.
Qed.

Lemma plane_error_runit p n ps :
  plane_error p n ps = rsum (map (fun x => rdot (rsub x p) (runit n) * rdot (rsub x p) (runit n)) ps).
Proof. unfold plane_error. apply rsum_ext. intros x. now rewrite sdist_runit. Qed.
Lemma fit_core eig ps w Q i j k :
  (2 <= length ps)%nat ->
  eig (covariance (map fin3 ps)) = (fin3 w, finm Q) ->
  argsort3 (fin3 w) = [i; j; k] ->
  fit_from_points eig (map fin3 ps) = mk_plane (fin3 (centroid ps)) (vcross (column (finm Q) k) (column (finm Q) j)).
Proof.
  intros L E A. assert (Hne : ps <> []) by (intros ->; cbn in L; lia).
  unfold fit_from_points. rewrite E, A. cbn [rev app nth]. now rewrite vmean_fin.
Qed.
Lemma fit_min ps w1 w2 w3 q1 q2 q3 : (2 <= length ps)%nat ->
  eigenpair (rcov ps) w1 q1 -> eigenpair (rcov ps) w2 q2 -> eigenpair (rcov ps) w3 q3 ->
  rdot (rcross q1 q2) q3 <> 0 -> w3 <= w1 -> w3 <= w2 ->
  forall p n, n <> rzero -> plane_error (centroid ps) (rcross q1 q2) ps <= plane_error p n ps.
Proof.
  intros L E1 E2 E3 D L1 L2 p n Hn. assert (Hne : ps <> []) by (intros ->; cbn in L; lia).
  set (c := rcross q1 q2) in *.
  assert (Hc : c <> rzero). { intros E. apply D. rewrite E. vring. }
  rewrite !plane_error_runit.
  rewrite (shift_error p (runit n) Hne). rewrite !quad_cov by auto.
  destruct (quad_min (runit n) (rcov_symm ps) E1 E2 E3 D L1 L2) as [Ec Q]. fold c in Ec.
  rewrite runit_self in Q by auto.
  assert (Eu : rdot (runit c) (rapply (rcov ps) (runit c)) = w3).
  { unfold runit at 2. replace (rapply (rcov ps) (rscale (/ rnorm c) c)) with (rscale (/ rnorm c) (rapply (rcov ps) c))
      by (clear; generalize (rcov ps), c, (/ rnorm c); vring).
    rewrite Ec. rewrite !rdot_scale_r. replace (/ rnorm c * (w3 * rdot (runit c) c)) with (w3 * rdot (runit c) (runit c)).
    - rewrite runit_self by auto. ring.
    - unfold runit at 2. rewrite rdot_scale_r. ring. }
  rewrite Eu. pose proof (le_INR _ _ L) as L'. cbn [INR] in L'.
  assert (0 <= (INR (length ps) - 1) * (rdot (runit n) (rapply (rcov ps) (runit n)) - w3)) by (apply Rmult_le_pos; lra).
  assert (0 <= INR (length ps) * (rdot (rsub (centroid ps) p) (runit n) * rdot (rsub (centroid ps) p) (runit n)))
    by (apply Rmult_le_pos; [lra|apply Rle_0_sqr]).
  lra.
Qed.
Lemma plane_error_unit p n ps : n <> rzero -> plane_error p (runit n) ps = plane_error p n ps.
Proof.
  intros Hn. rewrite !plane_error_runit. apply rsum_ext. intros x.
  replace (runit (runit n)) with (runit n); auto. unfold runit at 2. rewrite runit_norm, Rinv_1, rscale_1; auto.
Qed.
Lemma fit_spec eig ps w Q :
  (2 <= length ps)%nat ->
  eig (covariance (map fin3 ps)) = (fin3 w, finm Q) ->
  eigenpair (rcov ps) (c0 w) (rcol0 Q) -> eigenpair (rcov ps) (c1 w) (rcol1 Q) -> eigenpair (rcov ps) (c2 w) (rcol2 Q) ->
  rdet Q <> 0 ->
  (forall pl, fit_from_points eig (map fin3 ps) = Ok pl ->
     reference_point pl = fin3 (centroid ps) /\ exists u, normal pl = fin3 u /\ rnorm u = 1 /\
       forall p n, n <> rzero -> plane_error (centroid ps) u ps <= plane_error p n ps) /\
  (orthogonal Q -> exists pl, fit_from_points eig (map fin3 ps) = Ok pl).
Proof.
  intros L E E0 E1 E2 D.
  destruct (argsort3_cases w) as (i&j&k&A&G1&G2&P).
  rewrite (fit_core L E A).
  assert (C0 : column (finm Q) 0 = fin3 (rcol0 Q)) by reflexivity.
  assert (C1 : column (finm Q) 1 = fin3 (rcol1 Q)) by reflexivity.
  assert (C2 : column (finm Q) 2 = fin3 (rcol2 Q)) by reflexivity.
  assert (X : exists q1 q2 q3 w1 w2 w3, vcross (column (finm Q) k) (column (finm Q) j) = fin3 (rcross q1 q2) /\
    eigenpair (rcov ps) w1 q1 /\ eigenpair (rcov ps) w2 q2 /\ eigenpair (rcov ps) w3 q3 /\
    rdot (rcross q1 q2) q3 <> 0 /\ w3 <= w1 /\ w3 <= w2 /\
    (orthogonal Q -> rdot q1 q1 = 1 /\ rdot q2 q2 = 1 /\ rdot q1 q2 = 0)).
  { assert (OQ : orthogonal Q -> rdot (rcol0 Q) (rcol0 Q) = 1 /\ rdot (rcol1 Q) (rcol1 Q) = 1 /\ rdot (rcol2 Q) (rcol2 Q) = 1 /\
       rdot (rcol0 Q) (rcol1 Q) = 0 /\ rdot (rcol0 Q) (rcol2 Q) = 0 /\ rdot (rcol1 Q) (rcol2 Q) = 0 /\
       rdot (rcol1 Q) (rcol0 Q) = 0 /\ rdot (rcol2 Q) (rcol0 Q) = 0 /\ rdot (rcol2 Q) (rcol1 Q) = 0).
    { intros [_ O]. unfold rmmul, rtrans, reye in O. cbn [c0 c1 c2] in O. injection O. intros.
      repeat match goal with |- _ /\ _ => split end; assumption. }
    assert (DD : rdot (rcross (rcol0 Q) (rcol1 Q)) (rcol2 Q) = rdet Q /\ rdot (rcross (rcol1 Q) (rcol0 Q)) (rcol2 Q) = - rdet Q /\
      rdot (rcross (rcol0 Q) (rcol2 Q)) (rcol1 Q) = - rdet Q /\ rdot (rcross (rcol2 Q) (rcol0 Q)) (rcol1 Q) = rdet Q /\
      rdot (rcross (rcol1 Q) (rcol2 Q)) (rcol0 Q) = rdet Q /\ rdot (rcross (rcol2 Q) (rcol1 Q)) (rcol0 Q) = - rdet Q).
    { clear. repeat split; vring. }
    cbv zeta in G1, G2.
    destruct P as [P|[P|[P|[P|[P|P]]]]]; injection P as -> -> ->; cbv iota in G1, G2; rewrite ?C0, ?C1, ?C2, fcross.
    - exists (rcol2 Q), (rcol1 Q), (rcol0 Q), (c2 w), (c1 w), (c0 w). split; [auto|]. do 3 (split; [assumption|]). split; [lra|]. split; [lra|]. split; [lra|]. intros O. specialize (OQ O). tauto.
    - exists (rcol1 Q), (rcol2 Q), (rcol0 Q), (c1 w), (c2 w), (c0 w). split; [auto|]. do 3 (split; [assumption|]). split; [lra|]. split; [lra|]. split; [lra|]. intros O. specialize (OQ O). tauto.
    - exists (rcol2 Q), (rcol0 Q), (rcol1 Q), (c2 w), (c0 w), (c1 w). split; [auto|]. do 3 (split; [assumption|]). split; [lra|]. split; [lra|]. split; [lra|]. intros O. specialize (OQ O). tauto.
    - exists (rcol0 Q), (rcol2 Q), (rcol1 Q), (c0 w), (c2 w), (c1 w). split; [auto|]. do 3 (split; [assumption|]). split; [lra|]. split; [lra|]. split; [lra|]. intros O. specialize (OQ O). tauto.
    - exists (rcol1 Q), (rcol0 Q), (rcol2 Q), (c1 w), (c0 w), (c2 w). split; [auto|]. do 3 (split; [assumption|]). split; [lra|]. split; [lra|]. split; [lra|]. intros O. specialize (OQ O). tauto.
    - exists (rcol0 Q), (rcol1 Q), (rcol2 Q), (c0 w), (c1 w), (c2 w). split; [auto|]. do 3 (split; [assumption|]). split; [lra|]. split; [lra|]. split; [lra|]. intros O. specialize (OQ O). tauto. }
  destruct X as (q1&q2&q3&w1&w2&w3&EX&H1&H2&H3&HD&HL1&HL2&HO). rewrite EX. split.
  - intros pl Hpl. apply mk_plane_ok in Hpl as [Hn ->]. split; [reflexivity|]. exists (runit (rcross q1 q2)).
    split; [reflexivity|]. split; [now apply runit_norm|]. intros p n Hp. rewrite plane_error_unit by auto.
    eapply fit_min; eauto.
  - intros O. specialize (HO O) as (O1&O2&O3). eexists. apply mk_plane_unit.
    unfold rnorm. rewrite lagrange, O1, O2, O3. transitivity (sqrt 1); [f_equal; ring|apply sqrt_1].
Qed.

(** ** face selection *)
Lemma traverse_ok A B (f : A -> res B) (g : A -> B) l : (forall x, In x l -> f x = Ok (g x)) -> traverse f l = Ok (map g l).
Proof.
  induction l as [|x l IH]; intros H; [reflexivity|]. cbn [traverse map]. rewrite H by (left; auto). cbn [bindr].
  rewrite IH; [reflexivity|]. intros y Hy. apply H. now right.
Qed.
Lemma compress_filter A (g : A -> bool) l : compress (map g l) l = filter g l.
Proof. induction l; cbn; auto. destruct (g a); rewrite IHl; auto. Qed.
Lemma getitem_map A B (f : A -> B) l i d : (i < length l)%nat -> getitem (map f l) i = Ok (f (nth i l d)).
Proof. intros H. unfold getitem. rewrite nth_error_map, (nth_error_nth' _ d H). reflexivity. Qed.
Definition in_range {A} (xs : list A) (f : face) : Prop :=
  let '(i, j, k) := f in (i < length xs /\ j < length xs /\ k < length xs)%nat.
Lemma sign_sum a b c : exists s, (nsign (Fin a) + nsign (Fin b) + nsign (Fin c))%num = Fin s /\
  (Rabs s = 3 <-> (0 < a /\ 0 < b /\ 0 < c) \/ (a < 0 /\ b < 0 /\ c < 0)).
Proof.
  destruct (nsign_cases a) as [[Ha ->]|[[Ha ->]|[Ha ->]]]; destruct (nsign_cases b) as [[Hb ->]|[[Hb ->]|[Hb ->]]];
  destruct (nsign_cases c) as [[Hc ->]|[[Hc ->]|[Hc ->]]]; eexists; (split; [xs; reflexivity|]);
  (split; intros K; [|try lra; unfold Rabs; destruct (Rcase_abs _); lra]); unfold Rabs in K; destruct (Rcase_abs _); try lra; tauto.
Qed.
Definition keep_face (p n : V3 R) (xs : list (V3 R)) (f : face) : bool :=
  let '(i, j, k) := f in
  negb (match (nsign (Fin (sdist p n (nth i xs rzero))) + nsign (Fin (sdist p n (nth j xs rzero))) + nsign (Fin (sdist p n (nth k xs rzero))))%num
        with Fin s => Req_bool (Rabs s) 3 | NaN => false end).
Lemma keep_face_spec p n xs i j k : keep_face p n xs (i, j, k) = true <->
  straddles p n (nth i xs rzero) (nth j xs rzero) (nth k xs rzero).
Proof.
  unfold keep_face, straddles.
  destruct (sign_sum (sdist p n (nth i xs rzero)) (sdist p n (nth j xs rzero)) (sdist p n (nth k xs rzero))) as (s&E&H).
  rewrite E, negb_true_iff. destruct (Req_bool_spec (Rabs s) 3); split; intros; try discriminate; try tauto; auto.
Qed.
Lemma faces_fin p n pl xs fs : mk_plane (fin3 p) (fin3 n) = Ok pl ->
  Forall (in_range xs) fs ->
  mesh_intersecting_faces pl (mkmesh (map fin3 xs) fs) = Ok (filter (keep_face p n xs) fs).
Proof.
  intros H HR. rewrite Forall_forall in HR. unfold mesh_intersecting_faces. cbn [m_v m_f].
  destruct (signed_distance_spec xs H) as [E _]. rewrite E, map_map.
  pose (g := fun f : face => let '(i, j, k) := f in
    (nsign (Fin (sdist p n (nth i xs rzero))) + nsign (Fin (sdist p n (nth j xs rzero))) + nsign (Fin (sdist p n (nth k xs rzero))))%num).
  rewrite (@traverse_ok _ _ _ g).
  - cbn [bindr]. rewrite map_map, compress_filter. f_equal. apply filter_ext. intros [[i j] k]. unfold g, keep_face.
    destruct (sign_sum (sdist p n (nth i xs rzero)) (sdist p n (nth j xs rzero)) (sdist p n (nth k xs rzero))) as (s&->&_). reflexivity.
  - intros [[i j] k] Hf. specialize (HR _ Hf) as (R1&R2&R3). unfold face_sign_sum, g.
    rewrite !(getitem_map _ rzero) by auto. reflexivity.
Qed.
Lemma faces_bad F (N : Num F) (pl : plane F) v fs :
  ~ Forall (in_range v) fs -> mesh_intersecting_faces pl (mkmesh v fs) = Err IndexError.
Proof.
  intros H. unfold mesh_intersecting_faces. cbn [m_v m_f].
  set (s := map nsign (signed_distance pl v)). assert (Ls : length s = length v) by (unfold s, signed_distance; now rewrite !map_length).
  assert (K : forall f, in_range v f \/ face_sign_sum s f = Err IndexError).
  { intros [[i j] k]. unfold in_range, face_sign_sum, getitem.
    destruct (Nat.lt_ge_cases i (length v)) as [Li|Li]; [|right; rewrite (proj2 (nth_error_None s i)) by lia; reflexivity].
    destruct (nth_error s i) eqn:Ei; [|apply nth_error_None in Ei; lia].
    destruct (Nat.lt_ge_cases j (length v)) as [Lj|Lj]; [|right; rewrite (proj2 (nth_error_None s j)) by lia; reflexivity].
    destruct (nth_error s j) eqn:Ej; [|apply nth_error_None in Ej; lia].
    destruct (Nat.lt_ge_cases k (length v)) as [Lk|Lk]; [auto|right; rewrite (proj2 (nth_error_None s k)) by lia; reflexivity]. }
  replace (traverse (face_sign_sum s) fs) with (@Err (list F) IndexError); [reflexivity|].
  induction fs as [|f fs IH]; [exfalso; apply H; constructor|]. cbn [traverse].
  destruct (K f) as [Kf|Kf].
  - destruct (face_sign_sum s f) as [a|e] eqn:Ef; cbn [bindr].
    + rewrite <- IH; [reflexivity|]. intros G. apply H. constructor; auto.
    + destruct f as [[i j] k]. destruct Kf as (Li&Lj&Lk). unfold face_sign_sum, getitem in Ef.
      destruct (nth_error s i) eqn:Ei; [|apply nth_error_None in Ei; lia].
      destruct (nth_error s j) eqn:Ej; [|apply nth_error_None in Ej; lia].
      destruct (nth_error s k) eqn:Ek; [|apply nth_error_None in Ek; lia]. discriminate.
  - rewrite Kf. reflexivity.
Qed.
