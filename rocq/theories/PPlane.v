(** * Proofs about Plane. *)
From Coq Require Import Reals ZArith List Bool Lra Lia Psatz Sorted.
From Flocq Require Import Core.Raux.
From Verif Require Import Num XLemmas Vec RVec SpecGeom VLemmas NpList MVx PVx MPlane.
Import ListNotations.
Local Open Scope R_scope.
Set Implicit Arguments.
Unset Strict Implicit.

Lemma default_atol_xr : default_atol = Fin (1 / 100000000). Proof. reflexivity. Qed.
Lemma tiny_zero : tiny rzero.
Proof. unfold tiny. cbn. rewrite Rabs_R0. lra. Qed.
Lemma mk_plane_dec p n :
  (tiny n /\ mk_plane (fin3 p) (fin3 n) = Err ValueError) \/
  (~ tiny n /\ n <> rzero /\ mk_plane (fin3 p) (fin3 n) = Ok (mkpl (fin3 p) (fin3 (runit n)))).
Proof.
  unfold mk_plane. rewrite default_atol_xr. pose proof (almost_zero_fin n (1 / 100000000)) as H.
  destruct (almost_zero (fin3 n) _) eqn:E; [left|right].
  - split; auto. now apply H.
  - assert (Ht : ~ tiny n) by (intros Ht; apply H in Ht; congruence).
    assert (Hn : n <> rzero) by (intros ->; apply Ht, tiny_zero).
    split; auto. split; auto. now rewrite normalize1_fin.
Qed.
Lemma mk_plane_ok p n pl : mk_plane (fin3 p) (fin3 n) = Ok pl ->
  n <> rzero /\ pl = mkpl (fin3 p) (fin3 (runit n)).
Proof. intros H. destruct (mk_plane_dec p n) as [[_ E]|(_&H1&E)]; rewrite E in H; inversion H; subst; auto. Qed.
Lemma mk_plane_unit p n : rnorm n = 1 -> mk_plane (fin3 p) (fin3 n) = Ok (mkpl (fin3 p) (fin3 n)).
Proof.
  intros H. destruct (mk_plane_dec p n) as [[T _]|(_&_&E)].
  - exfalso. assert (D : rdot n n = 1) by (rewrite <- rnorm_sq, H; ring).
    destruct T as (T0&T1&T2). unfold rdot in D. apply Rabs_le_inv in T0, T1, T2. nra.
  - rewrite E. do 3 f_equal. unfold runit. rewrite H, Rinv_1. apply rscale_1.
Qed.

(** ** signed distance *)
Lemma runit_dot n x : rdot x (runit n) = rdot x n / rnorm n.
Proof. unfold runit. autorewrite with rdot. unfold Rdiv. ring. Qed.
Lemma sdist_runit p n x : sdist p n x = rdot (rsub x p) (runit n).
Proof. unfold sdist. now rewrite runit_dot. Qed.
Lemma sd1_fin p u x : signed_distance1 (mkpl (fin3 p) (fin3 u)) (fin3 x) = Fin (rdot (rsub x p) u).
Proof.
  unfold signed_distance1, equation. cbn [pl_r0 pl_n d0 d1 d2 d3].
  rewrite fdot. change (mk3 (c0 (fin3 u)) (c1 (fin3 u)) (c2 (fin3 u))) with (fin3 u).
  rewrite fdot. xs. f_equal. rewrite rdot_sub_l. ring.
Qed.
Lemma sd1_sdist p n x : signed_distance1 (mkpl (fin3 p) (fin3 (runit n))) (fin3 x) = Fin (sdist p n x).
Proof. now rewrite sd1_fin, sdist_runit. Qed.
Lemma on_plane_sdist p n x : n <> rzero -> on_plane p n x <-> sdist p n x = 0.
Proof.
  intros H. apply rnorm_gt0 in H. unfold on_plane, sdist. split; intros E.
  - rewrite E. unfold Rdiv. ring.
  - apply (Rmult_eq_compat_r (rnorm n)) in E. unfold Rdiv in E. rewrite Rmult_assoc, Rinv_l in E by lra. lra.
Qed.
Lemma equation_spec p n pl : mk_plane (fin3 p) (fin3 n) = Ok pl ->
  exists A B C D, equation pl = fin4 (mk4 A B C D) /\
    forall x, A * c0 x + B * c1 x + C * c2 x + D = 0 <-> on_plane p n x.
Proof.
  intros H. apply mk_plane_ok in H as [Hn ->].
  exists (c0 (runit n)), (c1 (runit n)), (c2 (runit n)), (- rdot p (runit n)). split.
  - reflexivity.
  - intros x. rewrite (on_plane_sdist p x Hn), sdist_runit, rdot_sub_l. unfold rdot. split; intros; lra.
Qed.
Lemma construct_spec p n pl : mk_plane (fin3 p) (fin3 n) = Ok pl ->
  reference_point pl = fin3 p /\ exists u, normal pl = fin3 u /\ rnorm u = 1 /\ n = rscale (rnorm n) u.
Proof.
  intros H. apply mk_plane_ok in H as [Hn ->]. split; [reflexivity|]. exists (runit n).
  split; [reflexivity|]. split; [now apply runit_norm|now apply runit_scale].
Qed.
Lemma construct_rejects p n :
  (mk_plane (fin3 p) (fin3 n) = Err ValueError <-> tiny n) /\
  (~ tiny n -> exists pl, mk_plane (fin3 p) (fin3 n) = Ok pl).
Proof.
  destruct (mk_plane_dec p n) as [[T E]|(T&_&E)]; rewrite E; split; intuition (try congruence); eauto.
Qed.
Lemma pos_multiple n u : n = rscale (rnorm n) u -> n <> rzero -> exists t, 0 < t /\ u = rscale t n.
Proof.
  intros E H. apply rnorm_gt0 in H. exists (/ rnorm n). split; [now apply Rinv_0_lt_compat|].
  rewrite E at 2. rewrite rscale_scale, Rinv_l by lra. now rewrite rscale_1.
Qed.
Lemma from_points_spec p1 p2 p3 :
  let c := rcross (rsub p2 p1) (rsub p3 p1) in
  (tiny c -> from_points (fin3 p1) (fin3 p2) (fin3 p3) = Err ValueError) /\
  (~ tiny c -> exists pl u, from_points (fin3 p1) (fin3 p2) (fin3 p3) = Ok pl /\
     mk_plane (fin3 p1) (fin3 c) = Ok pl /\
     on_plane p1 c p1 /\ on_plane p1 c p2 /\ on_plane p1 c p3 /\
     normal pl = fin3 u /\ rnorm u = 1 /\ exists t, 0 < t /\ u = rscale t c).
Proof.
  intros c. unfold from_points. rewrite !fsub, fcross. fold c.
  destruct (mk_plane_dec p1 c) as [[T E]|(T&Hn&E)]; split; try tauto. intros _.
  destruct (construct_spec E) as (_&u&E1&E2&E3).
  exists (mkpl (fin3 p1) (fin3 (runit c))), u. do 2 (split; [exact E|]).
  unfold on_plane, c. split; [vring|]. split; [vring|]. split; [vring|]. split; [auto|]. split; [auto|].
  now apply pos_multiple.
Qed.
Lemma from_points_and_vector_spec p1 p2 v :
  let c := rcross (rsub p2 p1) v in
  (tiny c -> from_points_and_vector (fin3 p1) (fin3 p2) (fin3 v) = Err ValueError) /\
  (~ tiny c -> exists pl, from_points_and_vector (fin3 p1) (fin3 p2) (fin3 v) = Ok pl /\
     mk_plane (fin3 p1) (fin3 c) = Ok pl /\ reference_point pl = fin3 p1 /\
     on_plane p1 c p1 /\ on_plane p1 c p2 /\ forall t, on_plane p1 c (radd p2 (rscale t v))).
Proof.
  intros c. unfold from_points_and_vector. rewrite !fsub, fcross. fold c.
  destruct (mk_plane_dec p1 c) as [[T E]|(T&Hn&E)]; split; try tauto. intros _.
  eexists. do 2 (split; [exact E|]). split; [reflexivity|].
  unfold on_plane, c. split; [vring|]. split; [vring|]. intros; vring.
Qed.

Lemma signed_distance_spec p n pl xs : mk_plane (fin3 p) (fin3 n) = Ok pl ->
  signed_distance pl (map fin3 xs) = map (fun x => Fin (sdist p n x)) xs /\
  distance pl (map fin3 xs) = map (fun x => Fin (Rabs (sdist p n x))) xs.
Proof.
  intros H. apply mk_plane_ok in H as [Hn ->].
  assert (E : signed_distance (mkpl (fin3 p) (fin3 (runit n))) (map fin3 xs) = map (fun x => Fin (sdist p n x)) xs).
  { unfold signed_distance. rewrite map_map. apply map_ext. intros x. apply sd1_sdist. }
  split; auto. unfold distance. rewrite E, map_map. reflexivity.
Qed.
Definition foot (p n x : V3 R) : V3 R := rsub x (rscale (sdist p n x) (runit n)).
Lemma foot_on p n x : n <> rzero -> on_plane p n (foot p n x).
Proof.
  intros H. rewrite on_plane_sdist by auto. unfold foot. rewrite sdist_runit at 1.
  replace (rsub (rsub x (rscale (sdist p n x) (runit n))) p) with
    (rsub (rsub x p) (rscale (sdist p n x) (runit n))) by vring.
  rewrite rdot_sub_l, rdot_scale_l, runit_self by auto. rewrite sdist_runit. ring.
Qed.
Lemma foot_dist p n x : n <> rzero -> rdist x (foot p n x) = Rabs (sdist p n x).
Proof.
  intros H. unfold rdist, foot. replace (rsub x (rsub x (rscale (sdist p n x) (runit n)))) with (rscale (sdist p n x) (runit n)) by vring.
  rewrite rnorm_scale, runit_norm by auto. ring.
Qed.
Lemma sdist_le p n x y : n <> rzero -> on_plane p n y -> Rabs (sdist p n x) <= rdist x y.
Proof.
  intros H Hy. assert (E : sdist p n x = rdot (rsub x y) (runit n)).
  { apply on_plane_sdist in Hy; auto. rewrite sdist_runit in *.
    replace (rsub x p) with (radd (rsub x y) (rsub y p)) by vring. rewrite rdot_add_l. lra. }
  rewrite E. unfold rdist. eapply Rle_trans; [apply cauchy|]. rewrite runit_norm by auto. lra.
Qed.
Lemma sdist_is_distance p n x : n <> rzero ->
  (exists y, on_plane p n y /\ rdist x y = Rabs (sdist p n x)) /\
  (forall y, on_plane p n y -> Rabs (sdist p n x) <= rdist x y) /\
  (forall t, 0 < t -> on_plane p n x -> 0 < sdist p n (radd x (rscale t n)) /\ sdist p n (rsub x (rscale t n)) < 0).
Proof.
  intros H. split; [exists (foot p n x); split; [now apply foot_on|now apply foot_dist]|].
  split; [intros y Hy; now apply sdist_le|]. intros t Ht Hx.
  assert (K : rnorm n > 0) by now apply rnorm_gt0.
  unfold on_plane in Hx. unfold sdist.
  replace (rdot (rsub (radd x (rscale t n)) p) n) with (t * (rnorm n * rnorm n) + rdot (rsub x p) n) by (rewrite rnorm_sq; vring).
  replace (rdot (rsub (rsub x (rscale t n)) p) n) with (- (t * (rnorm n * rnorm n)) + rdot (rsub x p) n) by (rewrite rnorm_sq; vring).
  rewrite Hx. replace ((t * (rnorm n * rnorm n) + 0) / rnorm n) with (t * rnorm n) by (field; lra).
  replace ((- (t * (rnorm n * rnorm n)) + 0) / rnorm n) with (- (t * rnorm n)) by (field; lra).
  assert (0 < t * rnorm n) by (apply Rmult_lt_0_compat; lra). lra.
Qed.

(** ** sign and selection *)
Lemma sign_spec p n pl xs : mk_plane (fin3 p) (fin3 n) = Ok pl ->
  exists ss, sign pl (map fin3 xs) = map Fin ss /\
    Forall2 (fun x s => (0 < sdist p n x /\ s = 1) \/ (sdist p n x = 0 /\ s = 0) \/ (sdist p n x < 0 /\ s = -1)) xs ss.
Proof.
  intros H. pose proof (signed_distance_spec xs H) as [E _]. unfold sign. rewrite E.
  clear. induction xs as [|x xs (ss&E&IH)]; [exists []; split; [reflexivity|constructor]|].
  cbn [map]. rewrite E. destruct (nsign_cases (sdist p n x)) as [[Hs Es]|[[Hs Es]|[Hs Es]]]; rewrite Es.
  - exists (-1 :: ss). split; [reflexivity|]. constructor; auto.
  - exists (0 :: ss). split; [reflexivity|]. constructor; auto.
  - exists (1 :: ss). split; [reflexivity|]. constructor; auto.
Qed.
Definition keeps (inverted : bool) (r : R) : bool := if inverted then leb0 r else geb0 r.
Lemma front_mask_spec p n pl xs inv : mk_plane (fin3 p) (fin3 n) = Ok pl ->
  front_mask pl (map fin3 xs) inv = map (fun x => keeps inv (sdist p n x)) xs.
Proof.
  intros H. pose proof (signed_distance_spec xs H) as [E _]. unfold front_mask, sign. rewrite E.
  assert (K : forall r, (nsign (Fin r) <=? n0)%num = leb0 r /\ (n0 <=? nsign (Fin r))%num = geb0 r).
  { intros r. unfold n0, leb0, geb0. destruct (nsign_cases r) as [[Hs Es]|[[Hs Es]|[Hs Es]]]; rewrite Es; xs;
      destruct (Rle_dec r 0); try lra; destruct (Rle_dec 0 r); try lra; split;
      match goal with |- Rle_bool ?a ?b = _ => destruct (Rle_bool_spec a b); auto; lra end. }
  destruct inv; rewrite !map_map; apply map_ext; intros x; apply K.
Qed.
Lemma flatnonzero_take A B (f : A -> B) (g : A -> bool) xs pre :
  take (map f (pre ++ xs)) (flatnonzero (length pre) (map g xs)) = Ok (map f (filter g xs)).
Proof.
  revert pre. induction xs as [|x xs IH]; intros pre; [reflexivity|].
  specialize (IH (pre ++ [x])). rewrite app_length in IH. cbn [length] in IH.
  rewrite <- app_assoc in IH. cbn [app] in IH. rewrite Nat.add_1_r in IH.
  cbn [map flatnonzero filter]. destruct (g x); auto.
  unfold take. cbn [traverse]. unfold getitem at 1.
  rewrite map_app, nth_error_app2, map_length, Nat.sub_diag by (rewrite map_length; lia). cbn [map nth_error bindr].
  unfold take in IH. rewrite map_app in IH. cbn [map] in IH. rewrite IH. reflexivity.
Qed.
Lemma flatnonzero_in m k i : In i (flatnonzero k m) <-> (k <= i)%nat /\ nth_error m (i - k) = Some true.
Proof.
  revert k. induction m as [|b m IH]; intros k; cbn [flatnonzero].
  - split; [intros []|]. intros [_ H]. destruct (i - k)%nat; discriminate.
  - assert (E : In i (flatnonzero (S k) m) <-> (k < i)%nat /\ nth_error (b :: m) (i - k) = Some true).
    { rewrite IH. destruct (Nat.lt_ge_cases k i) as [L|L].
      - replace (i - k)%nat with (S (i - S k)) by lia. cbn. intuition lia.
      - split; intros []; lia. }
    destruct b; cbn [In]; rewrite E.
    + split.
      * intros [->|[]]; [rewrite Nat.sub_diag; split; auto|split; auto; lia].
      * intros [Hk Hn]. destruct (Nat.eq_dec k i); auto. right. split; auto. lia.
    + split; intros [Hk Hn]; split; auto; try lia.
      destruct (Nat.eq_dec k i); [|lia]. subst. rewrite Nat.sub_diag in Hn. discriminate.
Qed.
Lemma flatnonzero_sorted m k : StronglySorted lt (flatnonzero k m).
Proof.
  revert k. induction m as [|b m IH]; intros k; cbn [flatnonzero]; [constructor|].
  destruct b; auto. constructor; auto. apply Forall_forall. intros i Hi. apply flatnonzero_in in Hi as []. lia.
Qed.
Lemma points_in_front_spec p n pl xs inv : mk_plane (fin3 p) (fin3 n) = Ok pl ->
  points_in_front pl (map fin3 xs) inv = Ok (map fin3 (filter (fun x => keeps inv (sdist p n x)) xs)).
Proof.
  intros H. unfold points_in_front, front_indices. rewrite (front_mask_spec xs inv H).
  exact (flatnonzero_take fin3 (fun x => keeps inv (sdist p n x)) xs []).
Qed.
Lemma front_indices_spec p n pl xs inv : mk_plane (fin3 p) (fin3 n) = Ok pl ->
  StronglySorted lt (front_indices pl (map fin3 xs) inv) /\
  forall i, In i (front_indices pl (map fin3 xs) inv) <->
    exists x, nth_error xs i = Some x /\ if inv then sdist p n x <= 0 else 0 <= sdist p n x.
Proof.
  intros H. unfold front_indices. rewrite (front_mask_spec xs inv H). split; [apply flatnonzero_sorted|].
  intros i. rewrite flatnonzero_in, Nat.sub_0_r, nth_error_map.
  destruct (nth_error xs i) as [x|]; cbn.
  - unfold keeps, leb0, geb0. split.
    + intros [_ [= Hx]]. exists x. split; auto. destruct inv; [destruct (Rle_dec _ _)|destruct (Rle_dec _ _)]; auto; discriminate.
    + intros (y&[= <-]&Hy). split; [lia|]. f_equal. destruct inv; destruct (Rle_dec _ _); auto; contradiction.
  - split; [intros [_ Hc]; discriminate|intros (y&Hc&_); discriminate].
Qed.
Lemma runit_opp n : runit (rscale (-1) n) = rscale (-1) (runit n).
Proof.
  unfold runit. rewrite rnorm_scale. replace (Rabs (-1)) with 1 by (rewrite Rabs_left; lra).
  rewrite Rmult_1_l, !rscale_scale. f_equal. ring.
Qed.
Lemma sdist_opp p n x : sdist p (rscale (-1) n) x = - sdist p n x.
Proof.
  unfold sdist. rewrite rdot_scale_r, rnorm_scale. replace (Rabs (-1)) with 1 by (rewrite Rabs_left; lra).
  rewrite Rmult_1_l. unfold Rdiv. ring.
Qed.
Lemma flipped_spec p n pl : mk_plane (fin3 p) (fin3 n) = Ok pl ->
  exists fl, flipped pl = Ok fl /\ fl = mkpl (fin3 p) (fin3 (runit (rscale (-1) n))) /\
    reference_point fl = fin3 p /\
    (forall xs, signed_distance fl (map fin3 xs) = map (fun x => Fin (- sdist p n x)) xs) /\
    (forall xs inv, points_in_front fl (map fin3 xs) inv = points_in_front pl (map fin3 xs) (negb inv)).
Proof.
  intros H. destruct (mk_plane_ok H) as [Hn E]. rewrite E. unfold flipped. cbn [pl_n pl_r0].
  replace (map3 _ (fin3 (runit n))) with (fin3 (runit (rscale (-1) n))).
  2:{ rewrite runit_opp. unfold fin3, map3, rscale. cbn. now rewrite !(Rmult_comm (-1)). }
  rewrite mk_plane_unit.
  2:{ rewrite runit_opp, rnorm_scale, runit_norm by auto. rewrite Rabs_left; lra. }
  eexists. split; [reflexivity|]. split; [reflexivity|]. split; [reflexivity|].
  assert (E2 : forall x, signed_distance1 (mkpl (fin3 p) (fin3 (runit (rscale (-1) n)))) (fin3 x) = Fin (- sdist p n x)).
  { intros x. now rewrite sd1_sdist, sdist_opp. }
  split.
  - intros xs. unfold signed_distance. rewrite map_map. apply map_ext. auto.
  - intros xs inv.
    assert (E3 : mk_plane (fin3 p) (fin3 (runit (rscale (-1) n))) = Ok (mkpl (fin3 p) (fin3 (runit (rscale (-1) n))))).
    { apply mk_plane_unit. rewrite runit_opp, rnorm_scale, runit_norm by auto. rewrite Rabs_left; lra. }
    rewrite (points_in_front_spec xs inv E3). rewrite <- E, (points_in_front_spec xs (negb inv) H).
    do 2 f_equal. apply filter_ext. intros x.
    assert (E4 : sdist p (runit (rscale (-1) n)) x = - sdist p n x).
    { rewrite runit_opp, sdist_opp. f_equal. unfold sdist at 1. rewrite runit_norm by auto.
      rewrite runit_dot. unfold sdist. field. apply rnorm_gt0 in Hn. lra. }
    rewrite E4. unfold keeps, geb0, leb0. destruct inv; cbn; repeat destruct (Rle_dec _ _); auto; lra.
Qed.

(** ** projection and canonical point *)
Lemma project_fin p n pl x : mk_plane (fin3 p) (fin3 n) = Ok pl ->
  project_point pl (fin3 x) = fin3 (foot p n x).
Proof.
  intros H. apply mk_plane_ok in H as [Hn ->]. unfold project_point. cbn [pl_n].
  now rewrite sd1_sdist, fscale, fsub.
Qed.
Lemma project_spec p n pl x : mk_plane (fin3 p) (fin3 n) = Ok pl ->
  exists y, project_point pl (fin3 x) = fin3 y /\ on_plane p n y /\ (exists t, rsub x y = rscale t n) /\
    (forall z, on_plane p n z -> rdist x y <= rdist x z) /\
    (forall z, on_plane p n z -> rdist x z <= rdist x y -> z = y) /\
    project_point pl (fin3 y) = fin3 y.
Proof.
  intros H. pose proof H as H'. apply mk_plane_ok in H' as [Hn _].
  exists (foot p n x). split; [now apply project_fin|]. split; [now apply foot_on|]. split; [|split; [|split]].
  - exists (sdist p n x * / rnorm n). unfold foot, runit. rewrite rscale_scale. vring.
  - intros z Hz. rewrite foot_dist by auto. now apply sdist_le.
  - intros z Hz Hd.
    (* Pythagoras *)
    assert (Hf := foot_on p x Hn). unfold on_plane in Hz, Hf.
    set (y := foot p n x) in *.
    assert (Hxy : exists t, rsub x y = rscale t n).
    { exists (sdist p n x * / rnorm n). unfold y, foot, runit. rewrite rscale_scale. vring. }
    destruct Hxy as [t Et].
    assert (Ez : rdot n (rsub y z) = 0).
    { replace (rdot n (rsub y z)) with (rdot (rsub y p) n - rdot (rsub z p) n) by vring. lra. }
    assert (P : rdot (rsub x z) (rsub x z) = rdot (rsub x y) (rsub x y) + rdot (rsub y z) (rsub y z)).
    { replace (rsub x z) with (radd (rsub x y) (rsub y z)) by vring.
      rewrite !rdot_add_l, !rdot_add_r, Et, !rdot_scale_l, !rdot_scale_r, Ez.
      rewrite (rdot_sym (rsub y z) n), Ez. ring. }
    unfold rdist in Hd. pose proof (rnorm_sq (rsub x z)). pose proof (rnorm_sq (rsub x y)).
    pose proof (rnorm_pos (rsub x z)). pose proof (rnorm_pos (rsub x y)). pose proof (rdot_self_pos (rsub y z)).
    assert (Z0 : rdot (rsub y z) (rsub y z) = 0) by nra. apply rdot_self_0 in Z0.
    clear - Z0. destruct y, z. unfold rsub, rzero in Z0. cbn in Z0. injection Z0. intros. f_equal; lra.
  - rewrite (project_fin _ H). f_equal. unfold foot at 1.
    assert (Z : sdist p n (foot p n x) = 0) by (apply on_plane_sdist; auto; now apply foot_on).
    rewrite Z. generalize (foot p n x) (runit n). vring.
Qed.
Lemma canonical_fin p n pl : mk_plane (fin3 p) (fin3 n) = Ok pl ->
  canonical_point pl = fin3 (rscale (rdot p (runit n)) (runit n)).
Proof. intros H. apply mk_plane_ok in H as [Hn ->]. unfold canonical_point. cbn [pl_n pl_r0]. now rewrite fdot, fscale. Qed.
Lemma canonical_foot p n : rscale (rdot p (runit n)) (runit n) = foot p n rzero.
Proof.
  unfold foot. rewrite sdist_runit. replace (rsub rzero p) with (rscale (-1) p) by vring. rewrite rdot_scale_l. vring.
Qed.
Lemma canonical_spec p n pl : mk_plane (fin3 p) (fin3 n) = Ok pl ->
  exists c, canonical_point pl = fin3 c /\ on_plane p n c /\
    (forall z, on_plane p n z -> rdist rzero c <= rdist rzero z) /\
    (forall q m pl', mk_plane (fin3 q) (fin3 m) = Ok pl' ->
       (forall x, on_plane q m x <-> on_plane p n x) -> canonical_point pl' = canonical_point pl).
Proof.
  intros H. pose proof H as H'. apply mk_plane_ok in H' as [Hn _].
  rewrite (canonical_fin H), canonical_foot. eexists. split; [reflexivity|].
  split; [now apply foot_on|]. split.
  - intros z Hz. rewrite foot_dist by auto. now apply sdist_le.
  - intros q m pl' H2 Hsame. pose proof H2 as H'. apply mk_plane_ok in H' as [Hm _].
    rewrite (canonical_fin H2), canonical_foot. f_equal.
    destruct (project_spec rzero H) as (y&E&_&_&_&U&_). rewrite (project_fin _ H) in E. apply fin3_inj in E. subst y.
    apply U; [apply Hsame; now apply foot_on|].
    rewrite (foot_dist q rzero Hm). apply sdist_le; auto. apply Hsame. now apply foot_on.
Qed.
Lemma flipped_normal p n pl : mk_plane (fin3 p) (fin3 n) = Ok pl ->
  exists fl u, flipped pl = Ok fl /\ normal pl = fin3 u /\ normal fl = fin3 (rscale (-1) u) /\
    reference_point fl = fin3 p /\
    (forall xs, signed_distance fl (map fin3 xs) = map (fun x => Fin (- sdist p n x)) xs) /\
    (forall xs inv, points_in_front fl (map fin3 xs) inv = points_in_front pl (map fin3 xs) (negb inv)).
Proof.
  intros H. destruct (flipped_spec H) as (fl&E&Efl&H1). exists fl, (runit n). split; auto.
  destruct (mk_plane_ok H) as [_ ->]. split; [reflexivity|]. split; auto. rewrite Efl. cbn [normal pl_n]. now rewrite runit_opp.
Qed.
