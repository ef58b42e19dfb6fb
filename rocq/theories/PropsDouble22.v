(** * Property C172: [rotate_to_xz_plane] in double precision. *)
From Coq Require Import Reals ZArith List Bool Lra Lia.
From Flocq Require Import Core IEEE754.BinarySingleNaN.
From Verif Require Import Num B64 BLemmas Vec RVec VLemmas SpecGeom SpecRotation SpecDouble SpecTransD SpecTrigD SpecXzD MVx MRotation PMat3 PRotation PErr PNormD PRodD PMeanD PRigidD PXzD PXzD2 PropsDouble PropsDouble6 PropsDouble7 PropsDouble11 PropsDouble13.
Import ListNotations.
Local Open Scope R_scope.

(** ** C172.  [k] points with coordinates up to [X]; [m] is an exact rotation, [o] the exact offset. *)
Theorem C172_rotate_to_xz_plane : forall (T : Trans b64) d cv2 pca X (ps : list (V3 b64)) n arg, accurate_trig T -> accurate_acos T -> 0 <= d <= 1 / 100 -> accurate_rodrigues d cv2 ->
  bpow radix2 (-180) <= X <= bpow radix2 180 -> Forall (within X) ps -> ps <> [] -> (Z.of_nat (length ps) <= 2 ^ 30)%Z ->
  nearly_unit n -> Rabs (Bval (c1 n)) <= 1 -> arg = NList n \/ arg = NNone /\ estimate_normal pca ps = n ->
  let k := INR (length ps) in let g := centroid (map Rval3 ps) in let t := acos (Bval (c1 n)) in
  exists qs R p0 m o, rotate_to_xz_plane pca cv2 (Some ps) arg = Ok (qs, R, p0) /\ rotation m /\ close33 d R m /\
    (* the normal goes to the y axis *)
    coords_le (3 / 100000) (rsub (rapply m (Rval3 n)) ey) /\
    (2 / 100000 <= t <= PI - 2 / 100000 -> coords_le (1500 * ulp_1 / sin t) (rsub (rapply m (Rval3 n)) ey)) /\
    (* heights over the plane become y coordinates *)
    (forall v, Rabs (c1 (rapply m v) - rdot (Rval3 n) v) <= 6 / 100000 * rnorm v) /\
    (2 / 100000 <= t <= PI - 2 / 100000 -> forall v, Rabs (c1 (rapply m v) - rdot (Rval3 n) v) <= 3000 * ulp_1 / sin t * rnorm v) /\
    (* the points are centred unless they already are, then turned *)
    (p0 = None /\ o = rzero /\ rnorm g <= 1002 / 100000000 + 2 * ((k + 2) * (ulp_1 * X)) \/
     exists f, p0 = Some f /\ o = rscale (-1) g /\ close3 ((k + 2) * (ulp_1 * X)) f o /\ 998 / 100000000 - 2 * ((k + 2) * (ulp_1 * X)) <= rnorm g) /\
    Forall2 (fun p q => close3 (X * (6 * d + (4 * k + 46) * ulp_1)) q (rapply m (radd (Rval3 p) o))) ps qs.
Proof.
  intros T d cv2 pca X ps n arg HT HA HD HC HX HP NE HL [Fn Un] Hy HN k g t. change ulp_1 with PErr.eps in *. destruct (moved_ap HX HP NE HL) as (ts & p0 & o & EM & FM & CM). fold k g in FM, CM.
  destruct (core_ap HT HA Fn Un Hy HC) as (m & RM & CR & W & WF). fold t in WF. pose proof eps_pos as PE. pose proof eps_small as SE.
  assert (PX : 0 < X) by (destruct HX as [H1 _]; pose proof (bpow_gt_0 radix2 (-180)); lra). match type of CR with close33 _ ?r _ => set (R := r) in * end.
  exists (map (mapply R) ts), R, p0, m, o. split.
  { unfold rotate_to_xz_plane. destruct ps as [|p ps]; [contradiction|]. rewrite EM. replace (match arg with NNone => Ok (estimate_normal pca (p :: ps)) | NList v => Ok v | NArray _ => Err ValueError end) with (@Ok (V3 b64) n) by (destruct HN as [->|[-> ->]]; reflexivity). reflexivity. }
  split; [exact RM|]. split; [exact CR|]. split; [exact W|]. split; [exact WF|]. split; [|split; [|split; [exact CM|]]].
  - intros v. replace (6 / 100000) with (2 * (3 / 100000)) by field. apply height_ap; [exact RM|lra|exact W].
  - intros Q v. assert (G : 0 < sin t) by (apply sin_gt_0; lra). replace (3000 * PErr.eps / sin t) with (2 * (1500 * PErr.eps / sin t)) by (field; lra). apply height_ap; [exact RM| |exact (WF Q)]. apply Rlt_le, Rdiv_lt_0_compat; lra.
  - pose proof (eps_n HL) as EN. fold k in EN. pose proof (pos_INR (length ps)) as PK. fold k in PK. assert (P0 : 0 < PErr.eps * X) by (apply Rmult_lt_0_compat; lra).
    assert (K : 0 <= (k + 5) * (PErr.eps * X) <= 2 * X / 1000). { split; [apply Rmult_le_pos; lra|]. replace ((k + 5) * (PErr.eps * X)) with ((k * PErr.eps + 5 * PErr.eps) * X) by ring. apply Rle_trans with (/ 1000 * X); [apply Rmult_le_compat_r; lra|lra]. }
    apply forall2_map with (P := fun p t => close3 ((k + 5) * (PErr.eps * X)) t (radd (Rval3 p) o) /\ coords_le (2 * X) (radd (Rval3 p) o)); [exact FM|]. intros p q [C L].
    assert (I : close3 (3 * (d * (2 * X)) + 4 * ((k + 5) * (PErr.eps * X)) + 13 * (PErr.eps * (2 * X))) (mapply R q) (rapply m (radd (Rval3 p) o))).
    { apply image_ap; auto; [lra|apply RM|]. intros j J. replace (j * (2 * X)) with (2 * j * X) by ring. apply span_mid; [|lra]. split; [apply Rle_trans with (2 := Logic.proj1 HX)|apply Rle_trans with (1 := Logic.proj2 HX)]; apply bpow_le; lia. }
    eapply close3_weak; [|exact I]. lra.
Qed.
Print Assumptions C172_rotate_to_xz_plane.
(** the estimated normal has that length *)
Theorem C172_estimated_normal : forall pca (ps : list (V3 b64)), fin3b (pca ps) = true -> ordinary (rnorm (Rval3 (pca ps))) -> nearly_unit (estimate_normal pca ps).
Proof.
  intros pca ps F H. pose proof eps_pos as PE. pose proof (normalize_ap F H) as C. change (normalize1 (pca ps)) with (estimate_normal pca ps) in C. split; [apply C|]. assert (N : rnorm (SpecDouble.unit_of (Rval3 (pca ps))) = 1) by (apply unit_norm, span_pos, H).
  pose proof (close_norm (e := 12 * PErr.eps) ltac:(lra) C) as Q. rewrite N in Q. change ulp_1 with PErr.eps. lra.
Qed.
Print Assumptions C172_estimated_normal.
(** blmath's own rodrigues would do in place of [cv2.Rodrigues] *)
Theorem C172_own_rodrigues : forall T : Trans b64, accurate_trig T -> accurate_rodrigues (200 * ulp_1) rodrigues_vec.
Proof.
  intros T HT r k m0 F H4 K ER TA. assert (P : 0 < ulp_1) by apply eps_pos. eapply close33_weak; [|apply (C154_rodrigues T r k m0 HT F); auto].
  - nra.
  - apply Rle_trans with (1 := H4). change 4 with (bpow radix2 2). apply bpow_le. lia.
Qed.
Print Assumptions C172_own_rodrigues.
(** ** What fails: a normal whose second coordinate is one rounding above 1.  [np.arccos] has no value
    there and the Rodrigues function is handed three NaNs. *)
Theorem C172_above_one_refuted : forall T : Trans b64, (forall x, bfin x = true -> 1 < Bval x -> exists e, nacos x = Err e) ->
  exists n, nearly_unit n /\ forall pca cv2 ps, ps <> [] -> exists qs p0, rotate_to_xz_plane pca cv2 (Some ps) (NList n) = Ok (qs, cv2 (mk3 B754_nan B754_nan B754_nan), p0).
Proof.
  intros T HA. set (y := nadd (nofZ 1) (nlit 1 (2 ^ 52)) : b64). assert (Fy : bfin y = true) by (vm_compute; reflexivity). assert (Vy : Bval y = 4503599627370497 / 4503599627370496). { rewrite (@Bval_me y 4503599627370497%Z (-52)%Z) by (vm_compute; reflexivity). change (bpow radix2 (-52)) with (/ 4503599627370496). lra. }
  exists (mk3 n0 y n0). split.
  - split; [vm_compute; reflexivity|]. assert (N : rnorm (Rval3 (mk3 n0 y n0)) = Bval y). { unfold rnorm, rdot, Rval3, map3. cbn [c0 c1 c2]. change (Bval n0) with 0. replace (0 * 0 + Bval y * Bval y + 0 * 0) with (Bval y * Bval y) by ring. apply sqrt_square. lra. }
    rewrite N, Vy. unfold ulp_1. change (bpow radix2 (-52)) with (/ 4503599627370496). apply abs_le. lra.
  - intros pca cv2 ps NE. unfold rotate_to_xz_plane. destruct ps as [|p ps]; [contradiction|]. destruct (if nlt _ _ then _ else _) as [ts p0]. cbn [bindr]. exists (map (mapply (cv2 (mk3 B754_nan B754_nan B754_nan))) ts), p0.
    assert (E : arccos (vdot (mk3 n0 (nofZ 1) n0) (mk3 n0 y n0)) = (B754_nan : b64)).
    { unfold arccos. destruct (HA (vdot (mk3 n0 (nofZ 1) n0) (mk3 n0 y n0))) as [e ->]; [vm_compute; reflexivity| |reflexivity]. rewrite (@Bval_me _ 4503599627370497%Z (-52)%Z) by (vm_compute; reflexivity). change (bpow radix2 (-52)) with (/ 4503599627370496). lra. }
    rewrite E. change (nsub (B754_nan : b64) npi) with (B754_nan : b64). match goal with |- context [cv2 ?r] => assert (R : r = mk3 B754_nan B754_nan B754_nan) by (vm_compute; reflexivity) end. rewrite R. reflexivity.
Qed.
Print Assumptions C172_above_one_refuted.
(** the hypotheses are met, with a normal that needs rounding *)
Definition tilted : V3 b64 := mk3 (ndiv (nofZ 3) (nofZ 5)) n0 (ndiv (nofZ 4) (nofZ 5)).
Example C172_example : accurate_trig rounded_trig /\ accurate_acos rounded_trig /\ accurate_rodrigues (200 * ulp_1) (@rodrigues_vec _ _ rounded_trig) /\
  (forall x, bfin x = true -> 1 < Bval x -> exists e, @nacos _ rounded_trig x = Err e) /\ nearly_unit tilted /\ Rabs (Bval (c1 tilted)) <= 1 /\ acos (Bval (c1 tilted)) = PI / 2 /\ Forall (within 8) [int3 1 2 3; int3 4 5 6; int3 7 8 0].
Proof.
  split; [exact rounded_accurate|]. split; [exact rounded_acos|]. split; [apply C172_own_rodrigues; exact rounded_accurate|]. split; [intros x _ H; cbn [nacos rounded_trig]; destruct (Rle_dec (Rabs (Bval x)) 1) as [N|_]; [apply abs_le in N; lra|eexists; reflexivity]|]. assert (Z : Bval (c1 tilted) = 0) by reflexivity. split; [|split; [rewrite Z, Rabs_R0; lra|split; [rewrite Z; exact acos_0|apply C159_example]]].
  split; [vm_compute; reflexivity|]. assert (A : Bval (c0 tilted) = 5404319552844595 / 9007199254740992). { rewrite (@Bval_me _ 5404319552844595%Z (-53)%Z) by (vm_compute; reflexivity). change (bpow radix2 (-53)) with (/ 9007199254740992). lra. }
  assert (B : Bval (c2 tilted) = 7205759403792794 / 9007199254740992). { rewrite (@Bval_me _ 7205759403792794%Z (-53)%Z) by (vm_compute; reflexivity). change (bpow radix2 (-53)) with (/ 9007199254740992). lra. }
  pose proof (rnorm_sq (Rval3 tilted)) as E. pose proof (rnorm_pos (Rval3 tilted)) as P. unfold rdot, Rval3, map3 in E. cbn [c0 c1 c2] in E. fold (map3 Bval tilted) in E. fold (Rval3 tilted) in E. rewrite A, B, Z in E. set (w := rnorm (Rval3 tilted)) in *. clearbody w. clear A B Z.
  unfold ulp_1. change (bpow radix2 (-52)) with (/ 4503599627370496). assert (W : Rabs (w * w - 1) <= / 4503599627370496) by (rewrite E; apply abs_le; lra). apply abs_le in W. apply abs_le. split; nra.
Qed.
