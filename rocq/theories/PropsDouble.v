(** * Properties C103-C106: unit vectors and planes in double precision. *)
From Coq Require Import Reals ZArith List Bool Lra Lia Psatz.
From Flocq Require Import Core.
From Verif Require Import Num B64 BLemmas Vec RVec VLemmas NpList MVx MPlane SpecDouble PErr PNormB PSliceF PNormD PPlaneD PPlane MPolyline MMesh SpecSlice PropsGraph PropsSlice.
Import ListNotations.
Local Open Scope R_scope.

(** ** Vocabulary *)
(** [u] is [2^-52], the gap between 1 and the next double *)
Definition u : R := bpow radix2 (-52).
(** a length a square of which neither underflows nor overflows *)
Definition ordinary_length (L : R) : Prop := bpow radix2 (-400) <= L <= bpow radix2 400.
(** a bound on coordinates *)
Definition ordinary_bound (M : R) : Prop := bpow radix2 (-800) <= M <= bpow radix2 800.
Definition int3 (a b c : Z) : V3 b64 := mk3 (nofZ a) (nofZ b) (nofZ c).
Definition tenths (a b c : Z) : V3 b64 := mk3 (nlit a 10) (nlit b 10) (nlit c 10).

(** ** C103 *)
Theorem C103_magnitude : forall v : V3 b64, fin3b v = true -> ordinary_length (rnorm (Rval3 v)) ->
  exists m, magnitude (One v) = Ok (One1 m) /\ bfin m = true /\ Rabs (Bval m - rnorm (Rval3 v)) <= 9 * u * rnorm (Rval3 v).
Proof. intros v F H. exists (vnorm v). split; [reflexivity|]. exact (norm_ap F H). Qed.
Print Assumptions C103_magnitude.
Theorem C103_normalize : forall v : V3 b64, fin3b v = true -> ordinary_length (rnorm (Rval3 v)) ->
  exists w, normalize (One v) = Ok (One w) /\ close3 (12 * u) w (unit_of (Rval3 v)) /\ Rabs (rnorm (Rval3 w) - 1) <= 24 * u.
Proof.
  intros v F H. exists (normalize1 v). split; [reflexivity|]. pose proof (normalize_ap F H) as C. split; [exact C|]. pose proof eps_pos.
  pose proof (@close_norm (12 * eps) _ _ ltac:(lra) C) as N. rewrite unit_norm in N by (apply (span_pos H)). replace (24 * u) with (2 * (12 * eps)) by (change u with eps; ring). exact N.
Qed.
Print Assumptions C103_normalize.
Theorem C103_rows : forall vs : list (V3 b64), Forall (fun v => fin3b v = true /\ ordinary_length (rnorm (Rval3 v))) vs ->
  exists ws, normalize (Many vs) = Ok (Many ws) /\ Forall2 (fun v w => close3 (12 * u) w (unit_of (Rval3 v))) vs ws.
Proof.
  intros vs H. exists (map normalize1 vs). split; [reflexivity|]. induction H as [|v vs [F L] _ IH]; constructor; auto. exact (normalize_ap F L).
Qed.
Print Assumptions C103_rows.
(** Outside that range the squares underflow or overflow: the "unit vector" of a finite,
    nonzero vector is the zero vector, or has infinite and NaN entries. *)
Theorem C112_normalize_long_refuted : exists v : V3 b64, fin3b v = true /\ rnorm (Rval3 v) > 0 /\ exists w, normalize (One v) = Ok (One w) /\ fin3b w = true /\ Rval3 w = rzero.
Proof.
  exists (int3 (2 ^ 520) 0 0). split; [vm_compute; reflexivity|]. split.
  - apply rnorm_gt0. intros E. apply (f_equal c0) in E. unfold Rval3, int3, map3 in E. cbn [c0] in E. rewrite (@Bval_me _ (2 ^ 52)%Z 468%Z) in E by (vm_compute; reflexivity). pose proof (bpow_gt_0 radix2 468). assert (0 < IZR (2 ^ 52)) by (apply IZR_lt; reflexivity). unfold rzero in E. cbn [c0] in E. nra.
  - eexists. split; [reflexivity|]. split; [vm_compute; reflexivity|].
    assert (Z : forall x : b64, bfin x = true -> neqb x n0 = true -> Bval x = 0) by (intros x F H; rewrite beq_spec in H by auto; change (Bval n0) with 0 in H; revert H; case Req_bool_spec; [auto|discriminate]).
    apply V3_eq; apply Z; vm_compute; reflexivity.
Qed.
Print Assumptions C112_normalize_long_refuted.
Theorem C112_normalize_short_refuted : exists v : V3 b64, fin3b v = true /\ rnorm (Rval3 v) > 0 /\ exists w, normalize (One v) = Ok (One w) /\ nfinite (c0 w) = false /\ neqb (c1 w) (c1 w) = false /\ neqb (c2 w) (c2 w) = false.
Proof.
  exists (mk3 (nlit 1 (2 ^ 600)) (nofZ 0) (nofZ 0)). split; [vm_compute; reflexivity|]. split.
  - apply rnorm_gt0. intros E. apply (f_equal c0) in E. unfold Rval3, map3 in E. cbn [c0] in E. rewrite (@Bval_me _ (2 ^ 52)%Z (-652)%Z) in E by (vm_compute; reflexivity). pose proof (bpow_gt_0 radix2 (-652)). assert (0 < IZR (2 ^ 52)) by (apply IZR_lt; reflexivity). unfold rzero in E. cbn [c0] in E. nra.
  - eexists. split; [reflexivity|]. repeat split; vm_compute; reflexivity.
Qed.
Print Assumptions C112_normalize_short_refuted.

(** ** C104 *)
(** the hypotheses the results about planes share: the plane could be made, the points and the
    normal are finite and of ordinary size *)
Definition plane_of (M : R) (r n : V3 b64) (p : plane b64) : Prop :=
  ordinary_bound M /\ within M r /\ fin3b n = true /\ rnorm (Rval3 n) <= bpow radix2 400 /\ mk_plane r n = Ok p.
Theorem C104_distance : forall M r n p xs, plane_of M r n p -> Forall (within M) xs ->
  Forall2 (fun x d => bfin d = true /\ Rabs (Bval d - plane_distance r n x) <= 130 * (u * M)) xs (signed_distance p xs) /\
  Forall2 (fun x d => bfin d = true /\ Rabs (Bval d - Rabs (plane_distance r n x)) <= 130 * (u * M)) xs (distance p xs).
Proof.
  intros M r n p xs (HM & Wr & Fn & Un & HP) H. unfold distance, signed_distance. rewrite map_map. split.
  - induction H as [|x xs W _ IH]; constructor; auto. exact (plane_dist HM Wr Fn Un HP W).
  - induction H as [|x xs W _ IH]; constructor; auto. destruct (plane_dist HM Wr Fn Un HP W) as [F E]. set (s := signed_distance1 p x) in *.
    destruct (abs_val F) as [FA VA].
    split; [exact FA|]. rewrite VA. change u with eps. apply Rle_trans with (2 := E). apply Rabs_triang_inv2.
Qed.
Print Assumptions C104_distance.
(** every point farther from the plane than the error bound is on the side it should be *)
Theorem C104_sign : forall M r n p x, plane_of M r n p -> within M x ->
  (130 * (u * M) < plane_distance r n x -> sign p [x] = [nofZ 1]) /\
  (plane_distance r n x < - (130 * (u * M)) -> sign p [x] = [nofZ (-1)]).
Proof.
  intros M r n p x (HM & Wr & Fn & Un & HP) W. unfold sign, signed_distance. cbn [map]. split; intros H; f_equal.
  - exact (plane_front HM Wr Fn Un HP W H).
  - exact (plane_back HM Wr Fn Un HP W H).
Qed.
Print Assumptions C104_sign.
Definition mask (p : plane b64) (inverted : bool) (x : V3 b64) : bool :=
  if inverted then nle (nsign (signed_distance1 p x)) n0 else nle n0 (nsign (signed_distance1 p x)).
Lemma front_filter p xs inv : points_in_front p xs inv = Ok (filter (mask p inv) xs).
Proof.
  unfold points_in_front, front_indices. replace (front_mask p xs inv) with (map (mask p inv) xs) by (unfold front_mask, sign, signed_distance; destruct inv; rewrite !map_map; reflexivity).
  pose proof (flatnonzero_take (fun x => x) (mask p inv) xs []) as H. cbn [app length] in H. rewrite !map_id in H. exact H.
Qed.
Theorem C104_points_in_front : forall M r n p xs, plane_of M r n p -> Forall (within M) xs ->
  exists front back, points_in_front p xs false = Ok front /\ points_in_front p xs true = Ok back /\
    incl front xs /\ incl back xs /\
    forall x, In x xs ->
      (130 * (u * M) < plane_distance r n x -> In x front /\ ~ In x back) /\
      (plane_distance r n x < - (130 * (u * M)) -> In x back /\ ~ In x front).
Proof.
  intros M r n p xs (HM & Wr & Fn & Un & HP) H. exists (filter (mask p false) xs), (filter (mask p true) xs). rewrite !front_filter. split; [reflexivity|]. split; [reflexivity|].
  split; [intros x I; apply filter_In in I; tauto|]. split; [intros x I; apply filter_In in I; tauto|]. intros x I. rewrite Forall_forall in H. specialize (H x I). rewrite !filter_In. unfold mask. split; intros D.
  - rewrite (plane_front HM Wr Fn Un HP H D). split; [split; [exact I|vm_compute; reflexivity]|]. intros [_ C]. revert C. vm_compute. discriminate.
  - rewrite (plane_back HM Wr Fn Un HP H D). split; [split; [exact I|vm_compute; reflexivity]|]. intros [_ C]. revert C. vm_compute. discriminate.
Qed.
Print Assumptions C104_points_in_front.
(** With a long enough normal the plane is accepted but has no normal left: every point is at
    distance zero, and in front of it and behind it. *)
Theorem C112_plane_long_normal_refuted : exists r n p x, fin3b n = true /\ mk_plane r n = Ok p /\ plane_distance r n x = 5 /\ sign p [x] = [n0].
Proof.
  exists (int3 0 0 0), (int3 (2 ^ 520) 0 0), (mkpl (int3 0 0 0) (normalize1 (int3 (2 ^ 520) 0 0))), (int3 5 0 0). split; [vm_compute; reflexivity|].
  split; [unfold mk_plane; replace (almost_zero (int3 (2 ^ 520) 0 0) default_atol) with false by (vm_compute; reflexivity); reflexivity|].
  split.
  - assert (V : Rval3 (int3 (2 ^ 520) 0 0) = mk3 (bpow radix2 520) 0 0).
    { apply V3_eq; unfold Rval3, int3, map3; cbn [c0 c1 c2]; [|reflexivity|reflexivity]. rewrite (@Bval_me _ (2 ^ 52)%Z 468%Z) by (vm_compute; reflexivity). change (2 ^ 52)%Z with (Zpower radix2 52). rewrite IZR_Zpower by lia. rewrite <- bpow_plus. reflexivity. }
    assert (V5 : Rval3 (int3 5 0 0) = mk3 5 0 0).
    { apply V3_eq; unfold Rval3, int3, map3; cbn [c0 c1 c2]; [|reflexivity|reflexivity]. rewrite (@Bval_me _ (5 * 2 ^ 50)%Z (-50)%Z) by (vm_compute; reflexivity). change (bpow radix2 (-50)) with (/ IZR (2 ^ 50)). change (5 * 2 ^ 50)%Z with 5629499534213120%Z. change (2 ^ 50)%Z with 1125899906842624%Z. lra. }
    assert (V0 : Rval3 (int3 0 0 0) = mk3 0 0 0) by reflexivity.
    unfold plane_distance, unit_of. rewrite V, V5, V0. pose proof (bpow_gt_0 radix2 520) as P. set (b := bpow radix2 520) in *.
    assert (N : rnorm (mk3 b 0 0) = b) by (unfold rnorm, rdot; cbn [c0 c1 c2]; replace (b * b + 0 * 0 + 0 * 0) with (b * b) by ring; apply sqrt_square; lra). rewrite N.
    unfold rdot, rsub, rscale. cbn [c0 c1 c2]. field. lra.
  - unfold sign, signed_distance. cbn [map]. f_equal.
Qed.
Print Assumptions C112_plane_long_normal_refuted.

(** A plane that meets the hypotheses, with points on both sides of it. *)
Lemma int3_val a b c : (Z.abs a <= 16)%Z -> (Z.abs b <= 16)%Z -> (Z.abs c <= 16)%Z -> within 16 (int3 a b c) /\ Rval3 (int3 a b c) = mk3 (IZR a) (IZR b) (IZR c).
Proof.
  intros A B C. destruct (int_val (z := a)) as [F0 V0]; [lia|]. destruct (int_val (z := b)) as [F1 V1]; [lia|]. destruct (int_val (z := c)) as [F2 V2]; [lia|].
  unfold within, fin3b, Rval3, int3, map3. cbn [c0 c1 c2]. rewrite F0, F1, F2, V0, V1, V2, <- !abs_IZR. split; [|reflexivity]. repeat split; apply IZR_le; assumption.
Qed.
Lemma ok16 : ordinary_bound 16.
Proof. change 16 with (bpow radix2 4). split; apply bpow_le; lia. Qed.
Lemma plane122 : plane_of 16 (int3 1 2 3) (int3 1 2 2) (mkpl (int3 1 2 3) (normalize1 (int3 1 2 2))) /\ rnorm (Rval3 (int3 1 2 2)) = 3.
Proof.
  destruct (@int3_val 1 2 3) as [W1 V1]; try lia. destruct (@int3_val 1 2 2) as [W2 V2]; try lia.
  assert (N : rnorm (Rval3 (int3 1 2 2)) = 3) by (rewrite V2; unfold rnorm, rdot; cbn [c0 c1 c2]; replace (1 * 1 + 2 * 2 + 2 * 2) with (3 * 3) by ring; apply sqrt_square; lra). split; [|exact N].
  split; [exact ok16|]. split; [exact W1|]. split; [apply W2|]. split; [rewrite N; apply Rle_trans with (bpow radix2 2); [change (bpow radix2 2) with 4; lra|apply bpow_le; lia]|].
  unfold mk_plane. replace (almost_zero (int3 1 2 2) default_atol) with false by (vm_compute; reflexivity). reflexivity.
Qed.
Example ex104 : exists p, plane_of 16 (int3 1 2 3) (int3 1 2 2) p /\ Forall (within 16) [int3 2 4 5; int3 0 2 3] /\
  130 * (u * 16) < plane_distance (int3 1 2 3) (int3 1 2 2) (int3 2 4 5) /\ plane_distance (int3 1 2 3) (int3 1 2 2) (int3 0 2 3) < - (130 * (u * 16)).
Proof.
  destruct plane122 as [P N]. eexists. split; [exact P|]. destruct (@int3_val 2 4 5) as [W1 V1]; try lia. destruct (@int3_val 0 2 3) as [W2 V2]; try lia. destruct (@int3_val 1 2 3) as [W3 V3]; try lia. destruct (@int3_val 1 2 2) as [W4 V4]; try lia.
  split; [auto|]. unfold plane_distance, unit_of. rewrite N, V1, V2, V3, V4. unfold rdot, rsub, rscale. cbn [c0 c1 c2]. change u with eps. rewrite eps_val. split; lra.
Qed.

(** ** C105 *)
(** [foot] is the point of the exact plane nearest to [x] *)
Definition foot (r n x : V3 b64) : V3 R := rsub (Rval3 x) (rscale (plane_distance r n x) (unit_of (Rval3 n))).
Theorem C105_project : forall M r n p x, plane_of M r n p -> within M x ->
  close3 (210 * (u * M)) (project_point p x) (foot r n x) /\ Rabs (plane_distance r n (project_point p x)) <= 420 * (u * M).
Proof.
  intros M r n p x (HM & Wr & Fn & Un & HP) W. split; [exact (project_ap HM Wr Fn Un HP W)|exact (project_dist HM Wr Fn Un HP W)].
Qed.
Print Assumptions C105_project.
(** It need not be on the plane as [sign] sees it, and projecting again may move it. *)
Theorem C112_project_refuted : exists r n p x, mk_plane r n = Ok p /\ sign p [project_point p x] = [nofZ 1] /\
  neqb (c1 (project_point p (project_point p x))) (c1 (project_point p x)) = false.
Proof.
  set (r := tenths 0 4 (-9)). set (n := int3 0 2 2). set (x := tenths (-3) 3 (-3)). exists r, n, (mkpl r (normalize1 n)), x.
  split; [unfold mk_plane; replace (almost_zero n default_atol) with false by (vm_compute; reflexivity); reflexivity|].
  assert (S : forall s : b64, nlt n0 s = true -> nlt s n0 = false -> nsign s = nofZ 1) by (intros s A B; unfold nsign; now rewrite A, B).
  split; [|vm_compute; reflexivity]. unfold sign, signed_distance. cbn [map]. apply (f_equal (fun y => [y])). apply S; vm_compute; reflexivity.
Qed.
Print Assumptions C112_project_refuted.

(** ** C106 *)
Theorem C106_flipped : forall M r n p f, plane_of M r n p -> flipped p = Ok f ->
  reference_point f = r /\ close3 (50 * u) (normal f) (rscale (-1) (unit_of (Rval3 n))) /\
  forall x, within M x -> exists s, signed_distance f [x] = [s] /\ bfin s = true /\ Rabs (Bval s - - plane_distance r n x) <= 358 * (u * M).
Proof.
  intros M r n p f (HM & Wr & Fn & Un & HP) HF. destruct (flip_fields Fn Un HP HF) as [E C]. split; [exact E|]. split; [exact C|]. intros x W.
  destruct (flip_dist HM Wr Fn Un HP HF W) as [F D]. eexists. split; [reflexivity|]. split; [exact F|]. replace (Bval (signed_distance1 f x) - - plane_distance r n x) with (Bval (signed_distance1 f x) + plane_distance r n x) by ring. exact D.
Qed.
Print Assumptions C106_flipped.
Theorem C106_sides_swap : forall M r n p f x, plane_of M r n p -> flipped p = Ok f -> within M x -> 358 * (u * M) < Rabs (plane_distance r n x) ->
  (sign p [x] = [nofZ 1] /\ sign f [x] = [nofZ (-1)]) \/ (sign p [x] = [nofZ (-1)] /\ sign f [x] = [nofZ 1]).
Proof.
  intros M r n p f x P HF W D. destruct (C104_sign M r n p x P W) as [S1 S2]. destruct P as (HM & Wr & Fn & Un & HP). destruct (flip_dist HM Wr Fn Un HP HF W) as [F E]. apply abs_le in E. change u with eps in *.
  assert (PT : 0 < eps * M) by (pose proof eps_pos; pose proof (scale_pos HM); nra). unfold sign at 2 4. unfold signed_distance. cbn [map]. revert D. unfold Rabs. destruct (Rcase_abs _); intros D.
  - right. split; [apply S2; lra|]. f_equal. apply sign_pos; auto. lra.
  - left. split; [apply S1; lra|]. f_equal. apply sign_neg; auto. lra.
Qed.
Print Assumptions C106_sides_swap.
(** Within the margin the claim is false: a point strictly in front of the plane and strictly
    in front of the flipped plane. *)
Theorem C112_flipped_refuted : exists r n p f x, mk_plane r n = Ok p /\ flipped p = Ok f /\ sign p [x] = [nofZ 1] /\ sign f [x] = [nofZ 1].
Proof.
  set (r := tenths (-7) (-7) 2). set (n := int3 (-6) 7 3). set (x := tenths (-8) (-4) (-7)). set (p := mkpl r (normalize1 n)). set (m := map3 (fun y : b64 => (y * nofZ (-1))%num) (pl_n p)).
  exists r, n, p, (mkpl r (normalize1 m)), x.
  split; [unfold mk_plane; replace (almost_zero n default_atol) with false by (vm_compute; reflexivity); reflexivity|].
  split; [unfold flipped, mk_plane; fold m; replace (almost_zero m default_atol) with false by (vm_compute; reflexivity); reflexivity|].
  assert (S : forall s : b64, nlt n0 s = true -> nlt s n0 = false -> nsign s = nofZ 1) by (intros s A B; unfold nsign; now rewrite A, B).
  unfold sign, signed_distance. cbn [map]. split; apply (f_equal (fun y => [y])); apply S; vm_compute; reflexivity.
Qed.
Print Assumptions C112_flipped_refuted.
Example ex106 : exists p f, plane_of 16 (int3 1 2 3) (int3 1 2 2) p /\ flipped p = Ok f /\ within 16 (int3 2 4 5) /\ 358 * (u * 16) < Rabs (plane_distance (int3 1 2 3) (int3 1 2 2) (int3 2 4 5)).
Proof.
  destruct plane122 as [P N]. set (p := mkpl (int3 1 2 3) (normalize1 (int3 1 2 2))) in *. set (m := map3 (fun y : b64 => (y * nofZ (-1))%num) (pl_n p)). exists p, (mkpl (int3 1 2 3) (normalize1 m)). split; [exact P|].
  split; [unfold flipped, mk_plane; fold m; replace (almost_zero m default_atol) with false by (vm_compute; reflexivity); reflexivity|].
  destruct (@int3_val 2 4 5) as [W1 V1]; try lia. destruct (@int3_val 1 2 3) as [W3 V3]; try lia. destruct (@int3_val 1 2 2) as [W4 V4]; try lia. split; [exact W1|].
  unfold plane_distance, unit_of. rewrite N, V1, V3, V4. unfold rdot, rsub, rscale. cbn [c0 c1 c2]. change u with eps. rewrite eps_val. rewrite Rabs_pos_eq; lra.
Qed.

(** ** C98 against the exact plane *)
(** the vertices [a] and [b] are on different sides of the exact plane *)
Definition apart (r n : V3 b64) (vs : list (V3 b64)) (a b : nat) : Prop :=
  exists A B, nth_error vs a = Some A /\ nth_error vs b = Some B /\ plane_distance r n A * plane_distance r n B < 0.
Theorem C98_exact_plane : forall sch M r n pl vs fs, possible sch -> plane_of M r n pl -> Forall (within M) vs -> Forall (in_mesh vs) fs ->
  Forall (fun v => bpow radix2 (-39) * M <= Rabs (plane_distance r n v)) vs ->
  exists polys,
    (forall fuel, (2 * length fs + 2 <= fuel)%nat -> mesh_xsections sch fuel pl (mkmesh vs fs) None = Some (Ok polys)) /\
    (forall P, In P polys -> exists ws, p_v P = Some ws /\ ws <> [] /\ forall x, In x ws -> within M x /\ Rabs (plane_distance r n x) <= bpow radix2 (-42) * M /\
      exists f a b A B, In f fs /\ In (a, b) (sides f) /\ apart r n vs a b /\ nth_error vs a = Some A /\ nth_error vs b = Some B /\ between3 (Rval3 A) (Rval3 B) (Rval3 x)) /\
    (forall f, In f fs -> (exists a b, In (a, b) (sides f) /\ apart r n vs a b) ->
      exists P ws, In P polys /\ p_v P = Some ws /\ forall a b, In (a, b) (sides f) -> apart r n vs a b ->
        exists x y, (meets_at pl vs a b x \/ meets_at pl vs b a x) /\ In y ws /\ Rval3 y = Rval3 x).
Proof.
  intros sch M r n pl vs fs Fr P WV FR CV. pose proof P as (HM & Wr & Fn & Un & HP). pose proof eps_pos as PE. pose proof (scale_pos HM) as PM. assert (PT : 0 < eps * M) by nra.
  assert (E39 : bpow radix2 (-39) = 8192 * eps) by (change 8192 with (bpow radix2 13); unfold eps; rewrite <- bpow_plus; reflexivity).
  assert (E40 : bpow radix2 (-40) = 4096 * eps) by (change 4096 with (bpow radix2 12); unfold eps; rewrite <- bpow_plus; reflexivity).
  assert (E43 : bpow radix2 (-43) = 512 * eps) by (change 512 with (bpow radix2 9); unfold eps; rewrite <- bpow_plus; reflexivity).
  assert (E42 : bpow radix2 (-42) = 1024 * eps) by (change 1024 with (bpow radix2 10); unfold eps; rewrite <- bpow_plus; reflexivity).
  rewrite E39 in CV. rewrite E42. pose proof WV as WV'. pose proof CV as CV'. rewrite Forall_forall in WV', CV'.
  assert (D : forall v, In v vs -> 0 < plane_distance r n v * Bval (signed_distance1 pl v) /\ 4096 * eps * M <= Rabs (Bval (signed_distance1 pl v))).
  { intros v I. destruct (plane_dist HM Wr Fn Un HP (WV' v I)) as [_ E]. specialize (CV' v I). set (d := plane_distance r n v) in *. set (s := Bval (signed_distance1 pl v)) in *. apply abs_le in E. revert CV'. unfold Rabs at 1. destruct (Rcase_abs d) as [N|N]; intros C.
    - assert (S : s < 0) by lra. split; [nra|]. rewrite Rabs_left by exact S. lra.
    - assert (S : 0 < s) by lra. split; [nra|]. rewrite Rabs_pos_eq by lra. lra. }
  assert (ST : forall a b, apart r n vs a b <-> straddles pl vs a b).
  { assert (K : forall x y s t : R, 0 < x * s -> 0 < y * t -> (x * y < 0 <-> s * t < 0)).
    { intros x y s t A B. assert (Q : 0 < (x * y) * (s * t)) by (replace ((x * y) * (s * t)) with ((x * s) * (y * t)) by ring; nra). split; intros; nra. }
    intros a b. split; intros (A & B & EA & EB & H); exists A, B; (split; [exact EA|]); (split; [exact EB|]); destruct (D A (nth_error_In _ _ EA)) as [DA _]; destruct (D B (nth_error_In _ _ EB)) as [DB _]; now apply (K _ _ _ _ DA DB). }
  assert (Wn : within (bpow radix2 400) n) by (destruct (comp_le (Rval3 n)) as (L0 & L1 & L2); split; [exact Fn|]; repeat split; (eapply Rle_trans; [|exact Un]); assumption).
  destruct (C98_clear_of_the_plane sch r n pl vs fs M Fr HP Wn HM Wr WV FR) as (polys & R1 & R2 & R3).
  { apply Forall_forall. intros v I. rewrite E40. apply (D v I). }
  exists polys. split; [exact R1|]. split.
  - intros Q IQ. destruct (R2 Q IQ) as (ws & E & NE & H). exists ws. split; [exact E|]. split; [exact NE|]. intros x Ix. destruct (H x Ix) as (Wx & Dx & f & a & b & A & B & I1 & I2 & S & I3). split; [exact Wx|]. split.
    + rewrite E43 in Dx. destruct (plane_fields Fn Un HP) as [E0 C]. unfold exact_distance in Dx. rewrite E0 in Dx.
      destruct C as (_ & A0 & A1 & A2). destruct Wx as (_ & X0 & X1 & X2). pose proof Wr as (_ & T0 & T1 & T2). apply abs_le in X0, X1, X2, T0, T1, T2.
      assert (Z : forall s v w z, - M <= s <= M -> - M <= v <= M -> Rabs (w - z) <= 12 * eps -> Rabs ((s - v) * (w - z)) <= 2 * M * (12 * eps)) by (intros; apply mul_bound; try nra; apply abs_le; lra).
      pose proof (Z _ _ _ _ X0 T0 A0) as Q0. pose proof (Z _ _ _ _ X1 T1 A1) as Q1. pose proof (Z _ _ _ _ X2 T2 A2) as Q2. apply abs_le in Q0, Q1, Q2, Dx. apply abs_le.
      unfold plane_distance. set (N := unit_of (Rval3 n)) in *. unfold rdot, rsub, Rval3, map3 in *. cbn [c0 c1 c2] in *. lra.
    + exists f, a, b, A, B. rewrite ST. auto.
  - intros f If (a & b & Ab & S). destruct (R3 f If) as (Q & ws & IQ & E & H); [exists a, b; rewrite <- ST; auto|]. exists Q, ws. split; [exact IQ|]. split; [exact E|]. intros c d I S'. apply H; [exact I|]. now apply ST.
Qed.
Print Assumptions C98_exact_plane.
