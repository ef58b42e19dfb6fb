(** * Property C69: convexify_planar_curve. *)
From Coq Require Import Reals ZArith List Bool Lra Lia.
From Verif Require Import Num XLemmas Vec RVec VLemmas PMat3 SpecGeom PPlane2 NpList MPlane MSegment PSegment MPolyline PPolyline PPolyline2 PropsPolyline MRotation SpecRotation PRotation2 MConvexify SpecHull PApex PHull.
Import ListNotations.
Local Open Scope R_scope.

(** The normal used: the argument, or the estimate. *)
Definition uses_normal (pca : list (V3 xr) -> V3 xr) (vs : list (V3 R)) (arg : normal_arg xr) (n : V3 R) : Prop :=
  arg = NList (fin3 n) \/ arg = NArray (fin3 n) \/ (arg = NNone /\ estimate_normal pca (map fin3 vs) = fin3 n).
(** the orthogonal projection to the plane through [g] with unit normal [q] *)
Definition projection (g q x : V3 R) : V3 R := rsub x (rscale (rdot (rsub x g) q) q).

(** Without flattening: whatever positions the hull routine returns, the result is the
    polyline of the input points at these positions, closed like the input. *)
Theorem C69_convexify : forall pca cv2 inv3 (hull : list (xr * xr) -> res (list nat)) c vs P want arg n,
  is_polyline c vs P -> (2 <= length vs)%nat -> uses_normal pca vs arg n ->
  exists d, dropped n d /\
    (forall is, hull (map fin2 (map (rkeep d) vs)) = Ok is -> (forall i, In i is -> (i < length vs)%nat) -> is <> [] ->
       exists Q, convexify_planar_curve pca cv2 inv3 hull P false want arg = Ok (Q, if want then Some is else None) /\
         is_polyline c (pick rzero vs is) Q) /\
    (forall e, hull (map fin2 (map (rkeep d) vs)) = Err e -> convexify_planar_curve pca cv2 inv3 hull P false want arg = Err e).
Proof.
  intros pca cv2 inv3 hull c vs P want arg n HP L U. destruct (is_polyline_inv HP) as [-> _]. destruct (drop_spec n) as (d & D & DD). exists d. split; [auto|].
  assert (K : map (keep d) (map fin3 vs) = map fin2 (map (rkeep d) vs)) by (rewrite !map_map; apply map_ext; intros p; apply keep_fin).
  assert (E : forall r, hull (map fin2 (map (rkeep d) vs)) = r -> convexify_planar_curve pca cv2 inv3 hull (fpoly c vs) false want arg =
    (let* hv := r in let* vv := take (map fin3 vs) hv in let* q := init_points (Some vv) c in Ok (returned q want hv))).
  { intros r R. unfold convexify_planar_curve, convexify, fpoly. cbn [poly p_v p_closed]. rewrite map_length. replace (Nat.leb (length vs) 1) with false by (symmetry; apply Nat.leb_gt; lia).
    replace (match arg with NNone => estimate_normal pca (map fin3 vs) | NList n => n | NArray n => n end) with (fin3 n) by (destruct U as [->|[->|[-> ->]]]; reflexivity).
    cbv zeta. rewrite D. cbn [bindr]. rewrite K, R. reflexivity. }
  split.
  - intros is H B NE. rewrite (E _ H). cbn [bindr]. rewrite (@in_take _ _ (fin3 rzero)) by (rewrite map_length; auto). cbn [bindr]. rewrite (@pick_map _ _ fin3 rzero) by auto.
    assert (Q : is_polyline c (pick rzero vs is) (fpoly c (pick rzero vs is))) by (apply is_polyline_fpoly; intros [_ Z]; destruct is; [congruence|discriminate Z]).
    exists (fpoly c (pick rzero vs is)). split; [|exact Q]. unfold is_polyline in Q. rewrite Q. reflexivity.
  - intros e H. now rewrite (E _ H).
Qed.
Print Assumptions C69_convexify.
(** If the points lie in a plane with that normal and the routine returns a convex hull
    of its argument, then every input point is a convex combination of the vertices of the
    result (in space); and if no hull point is a convex combination of the others, no vertex
    of the result is one. *)
Theorem C69_hull : forall pca cv2 inv3 (hull : list (xr * xr) -> res (list nat)) c vs P want arg n k R hs,
  is_polyline c vs P -> (2 <= length vs)%nat -> uses_normal pca vs arg n -> n <> rzero -> Forall (fun p => rdot p n = k) vs ->
  (forall ps is, hull (map fin2 ps) = Ok is -> hull_of ps is /\ corners2 (pick (0, 0) ps is)) ->
  convexify_planar_curve pca cv2 inv3 hull P false want arg = Ok (R, hs) ->
  exists is ws, ws = pick rzero vs is /\ is_polyline c ws R /\ hs = (if want then Some is else None) /\
    Forall (in_hull ws) vs /\ corners ws.
Proof.
  intros pca cv2 inv3 hull c vs P want arg n k Rr hs HP L U NZ PL HO E. destruct (C69_convexify pca cv2 inv3 hull c vs P want arg n HP L U) as (d & D & H1 & H2).
  destruct (hull (map fin2 (map (rkeep d) vs))) as [is|e] eqn:H; [|rewrite (H2 e eq_refl) in E; discriminate E]. destruct (HO _ _ H) as [(NE & B & HH) CO]. rewrite map_length in B.
  destruct (H1 is eq_refl B NE) as (Q & E' & PQ). rewrite E in E'. injection E' as -> ->. exists is, (pick rzero vs is). split; [reflexivity|]. split; [auto|]. split; [reflexivity|].
  rewrite (@pick_map _ _ (rkeep d) rzero) in HH, CO by auto. split.
  - apply Forall_forall. intros x Ix. rewrite Forall_forall in PL. apply (@lift_hull d n k).
    + now apply dropped_ne.
    + intros p Ip. unfold pick in Ip. apply in_map_iff in Ip. destruct Ip as (i & <- & Ii). apply PL, nth_In. auto.
    + auto.
    + apply HH. now apply in_map.
  - now apply corners_lift with (d := d).
Qed.
Print Assumptions C69_hull.
(** With flattening, for a unit normal: each vertex of the result is the orthogonal
    projection of an input point to the plane through the centroid with unit normal [q];
    [q] is the given normal, up to the special case of a normal within 1e-5 of vertical. *)
Theorem C69_flatten : forall pca cv2 inv3 (hull : list (xr * xr) -> res (list nat)) c vs P want arg n,
  is_polyline c vs P -> (2 <= length vs)%nat -> cv2_rodrigues_ok cv2 -> inverts_rotations inv3 -> rdot n n = 1 ->
  arg = NList (fin3 n) \/ (arg = NNone /\ estimate_normal pca (map fin3 vs) = fin3 n) ->
  (forall ps is, hull (map fin2 ps) = Ok is -> hull_of ps is) ->
  exists q, rdot q q = 1 /\ (1/100000 <= acos (c1 n) <= PI - 1/100000 \/ c1 n = 1 \/ c1 n = -1 -> q = n) /\
    forall Q hs, convexify_planar_curve pca cv2 inv3 hull P true want arg = Ok (Q, hs) ->
      exists is, (forall i, In i is -> (i < length vs)%nat) /\ hs = (if want then Some is else None) /\
        let ws := map (projection (centroid vs) q) (pick rzero vs is) in
        is_polyline c ws Q /\ forall x, In x vs -> in_hull ws (projection (centroid vs) q x).
Proof.
  intros pca cv2 inv3 hull c vs P want arg n HP L C I U A HO. destruct (is_polyline_inv HP) as [-> NEc].
  destruct (@flatten_ok cv2 inv3 pca hull c vs n arg want C I U L A) as (m & o & M & G & H). exists (c1 m).
  assert (Q1 : c1 m = rapply (rtrans m) (mk3 0 1 0)) by (destruct m as [[m00 m01 m02] [m10 m11 m12] [m20 m21 m22]]; unfold rapply, rtrans, rcol0, rcol1, rcol2, rdot; cbn [c0 c1 c2]; f_equal; ring).
  split; [|split].
  - rewrite Q1, orthogonal_dot by apply orthogonal_trans, M. unfold rdot. cbn [c0 c1 c2]. ring.
  - intros K. rewrite Q1, <- (G K). apply rotation_inv_l, M.
  - cbv zeta in H. intros Q hs E. unfold convexify_planar_curve, fpoly in E.
    destruct (hull (map fin2 (map (fun p => rkeep 1 (rapply m (radd p o))) vs))) as [is|e] eqn:HU.
    + destruct (HO _ _ HU) as (NE & B & HH). rewrite map_length in B. rewrite (H (Ok is) eq_refl) in E by (intros ? [= <-]; auto). cbn [bindr] in E. injection E as <- <-.
      exists is. split; [auto|]. split; [reflexivity|]. split.
      * apply is_polyline_fpoly. intros [_ Z]. destruct is; [congruence|discriminate Z].
      * exact (@flatten_hull m o (centroid vs) vs is M (HO _ _ HU)).
    + rewrite (H (Err e) eq_refl) in E by discriminate. discriminate E.
Qed.
Print Assumptions C69_flatten.
(** it raises only what the hull routine raises *)
Theorem C69_flatten_total : forall pca cv2 inv3 (hull : list (xr * xr) -> res (list nat)) c vs P want arg n,
  is_polyline c vs P -> (2 <= length vs)%nat -> cv2_rodrigues_ok cv2 -> inverts_rotations inv3 -> rdot n n = 1 ->
  arg = NList (fin3 n) \/ (arg = NNone /\ estimate_normal pca (map fin3 vs) = fin3 n) ->
  (forall ps is, hull (map fin2 ps) = Ok is -> hull_of ps is) ->
  (forall e, convexify_planar_curve pca cv2 inv3 hull P true want arg = Err e ->
     exists ps, length ps = length vs /\ hull (map fin2 ps) = Err e).
Proof.
  intros pca cv2 inv3 hull c vs P want arg n HP L C I U A HO e E. destruct (is_polyline_inv HP) as [-> NEc].
  destruct (@flatten_ok cv2 inv3 pca hull c vs n arg want C I U L A) as (m & o & M & G & H). cbv zeta in H. unfold convexify_planar_curve, fpoly in E.
  exists (map (fun p => rkeep 1 (rapply m (radd p o))) vs). split; [apply map_length|].
  destruct (hull (map fin2 (map (fun p => rkeep 1 (rapply m (radd p o))) vs))) as [is|e'] eqn:HU.
  - destruct (HO _ _ HU) as (NE & B & HH). rewrite map_length in B. rewrite (H (Ok is) eq_refl) in E by (intros ? [= <-]; auto). discriminate E.
  - rewrite (H (Err e') eq_refl) in E by discriminate. cbn [bindr] in E. congruence.
Qed.
Print Assumptions C69_flatten_total.
(** ** Corner cases: a polyline of at most one point comes back as it is, without indices;
    one without points raises TypeError; flattening rejects a normal given as an array,
    which the other branch accepts. *)
Theorem C69_short : forall pca cv2 inv3 (hull : list (xr * xr) -> res (list nat)) c vs P flat want arg,
  is_polyline c vs P -> (length vs <= 1)%nat -> convexify_planar_curve pca cv2 inv3 hull P flat want arg = Ok (P, None).
Proof.
  intros pca cv2 inv3 hull c vs P flat want arg HP L. destruct (is_polyline_inv HP) as [-> _]. unfold convexify_planar_curve, convexify_and_flatten, convexify, fpoly. cbn [poly p_v]. rewrite map_length.
  replace (Nat.leb (length vs) 1) with true by (symmetry; now apply Nat.leb_le). now destruct flat.
Qed.
Print Assumptions C69_short.
Theorem C69_no_points : forall pca cv2 inv3 (hull : list (xr * xr) -> res (list nat)) c P flat want arg,
  init_points None c = Ok P -> convexify_planar_curve pca cv2 inv3 hull P flat want arg = Err TypeError.
Proof. intros pca cv2 inv3 hull c P flat want arg [= <-]. now destruct flat. Qed.
Print Assumptions C69_no_points.
Theorem C69_rejects : forall pca cv2 inv3 (hull : list (xr * xr) -> res (list nat)) c vs P want n,
  is_polyline c vs P -> (2 <= length vs)%nat ->
  convexify_planar_curve pca cv2 inv3 hull P true want (NArray (fin3 n)) = Err ValueError.
Proof.
  intros pca cv2 inv3 hull c vs P want n HP L. destruct (is_polyline_inv HP) as [-> _]. unfold convexify_planar_curve, convexify_and_flatten, fpoly. cbn [poly p_v]. rewrite map_length.
  replace (Nat.leb (length vs) 1) with false by (symmetry; apply Nat.leb_gt; lia). destruct vs as [|v vs]; [cbn in L; lia|]. unfold rotate_to_xz_plane. cbn [map]. destruct (_ <? _)%num; [destruct (translation _ _)|]; reflexivity.
Qed.
Print Assumptions C69_rejects.

(** ** The hypotheses are met: three corners of a triangle and a point inside it. *)
Definition tri2 : list (R * R) := [(0, 0); (2, 0); (0, 2); (1/2, 1/2)].
Definition tri3 : list (V3 R) := [mk3 0 5 0; mk3 2 5 0; mk3 0 5 2; mk3 (1/2) 5 (1/2)].
Definition xr_dec : forall a b : xr, {a = b} + {a <> b}.
Proof. intros [a|] [b|]; try (right; discriminate); [|now left]. destruct (Req_EM_T a b) as [->|H]; [now left|right; congruence]. Defined.
Definition xr2_dec : forall a b : xr * xr, {a = b} + {a <> b}.
Proof. intros [a b] [c d]. destruct (xr_dec a c) as [->|H]; [|right; congruence]. destruct (xr_dec b d) as [->|H]; [now left|right; congruence]. Defined.
Definition tri_hull (l : list (xr * xr)) : res (list nat) :=
  if list_eq_dec xr2_dec l (map fin2 tri2) then Ok [0; 1; 2]%nat else Err OtherException.
Lemma fin2_inj ps qs : map fin2 ps = map fin2 qs -> ps = qs.
Proof.
  revert qs. induction ps as [|[a b] ps IH]; intros [|[c d] qs] H; try discriminate H; [reflexivity|]. unfold fin2 in H. cbn [map fst snd] in H. injection H as -> -> H. f_equal. now apply IH.
Qed.
Example C69_example_hull : forall ps is, tri_hull (map fin2 ps) = Ok is -> hull_of ps is /\ corners2 (pick (0, 0) ps is).
Proof.
  intros ps is. unfold tri_hull. destruct list_eq_dec as [E|]; [|discriminate]. apply fin2_inj in E as ->. intros [= <-]. split; [split; [discriminate|split]|].
  - cbn. intros i [<-|[<-|[<-|[]]]]; lia.
  - intros x I. cbn [pick tri2 map nth].
    assert (W : forall a b c, 0 <= a -> 0 <= b -> 0 <= c -> a + b + c = 1 -> fst x = 2 * b -> snd x = 2 * c -> in_hull2 [(0, 0); (2, 0); (0, 2)] x).
    { intros a b c A B C S E0 E1. exists [a; b; c]. unfold weights, mix. cbn [length map combine rsum fst snd]. repeat split; auto; lra. }
    destruct I as [<-|[<-|[<-|[<-|[]]]]].
    + apply (W 1 0 0); cbn [fst snd]; lra.
    + apply (W 0 1 0); cbn [fst snd]; lra.
    + apply (W 0 0 1); cbn [fst snd]; lra.
    + apply (W (1/2) (1/4) (1/4)); cbn [fst snd]; lra.
  - intros i L (ws & (Lw & Pw & Sw) & E0 & E1). cbn [pick tri2 map nth length] in L.
    destruct i as [|[|[|i]]]; try lia; cbn in Lw; destruct ws as [|a [|b [|w ws]]]; try discriminate Lw; unfold mix in E0, E1; cbn in E0, E1, Sw;
      apply Forall_cons_iff in Pw; destruct Pw as [A Pw]; apply Forall_cons_iff in Pw; destruct Pw as [B _]; lra.
Qed.
Example C69_example : exists P, is_polyline true tri3 P /\ (2 <= length tri3)%nat /\ mk3 0 1 0 <> rzero /\ Forall (fun p => rdot p (mk3 0 1 0) = 5) tri3 /\
  forall pca cv2 inv3, exists Q, convexify_planar_curve pca cv2 inv3 tri_hull P false true (NList (fin3 (mk3 0 1 0))) = Ok (Q, Some [0; 1; 2]%nat).
Proof.
  assert (HP : is_polyline true tri3 (fpoly true tri3)) by (apply is_polyline_fpoly; intros [_ Z]; discriminate Z).
  exists (fpoly true tri3). split; [exact HP|]. split; [cbn; lia|]. split; [intros E; injection E; lra|]. split; [repeat constructor; unfold rdot; cbn [c0 c1 c2]; ring|].
  intros pca cv2 inv3. destruct (@C69_convexify pca cv2 inv3 tri_hull true tri3 _ true (NList (fin3 (mk3 0 1 0))) (mk3 0 1 0) HP ltac:(cbn; lia) ltac:(now left)) as (d & (D & H0 & H1 & H2) & H & _).
  cbn [c0 c1 c2] in H0, H1, H2. rewrite Rabs_R1 in H1. assert (d = 1%nat) as -> by (destruct d as [|[|[|d]]]; cbn [nthc c0 c1 c2] in H1; rewrite ?Rabs_R0 in H1; try lra; try reflexivity; lia).
  destruct (H [0; 1; 2]%nat) as (Q & E & _).
  - unfold tri_hull. destruct list_eq_dec as [|NE]; [reflexivity|]. destruct NE. reflexivity.
  - cbn. intros i [<-|[<-|[<-|[]]]]; lia.
  - discriminate.
  - exists Q. exact E.
Qed.
Example C69_example_inverse : exists inv3, inverts_rotations inv3.
Proof. exists (fun m => Ok (mtrans m)). intros m [O _]. exists (rtrans m). split; [now rewrite ftrans|]. apply O. Qed.
