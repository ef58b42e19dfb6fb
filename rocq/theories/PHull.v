(** * Proofs about convex combinations and convexify. *)
From Coq Require Import Reals ZArith List Bool Lra Lia.
From Flocq Require Import Core.
From Verif Require Import Num XLemmas Vec RVec VLemmas PMat3 SpecGeom PPlane2 NpList MPlane MSegment PSegment MPolyline PPolyline MRotation SpecRotation PRotation2 MConvexify SpecHull PApex.
Import ListNotations.
Local Open Scope R_scope.
Set Implicit Arguments.
Unset Strict Implicit.

Lemma mix_affine {A} (f g h : A -> R) a b c k ws (ps : list A) : length ws = length ps -> rsum ws = 1 ->
  mix ws (map (fun p => a * f p + b * g p + c * h p + k) ps) = a * mix ws (map f ps) + b * mix ws (map g ps) + c * mix ws (map h ps) + k.
Proof.
  intros L S. transitivity (a * mix ws (map f ps) + b * mix ws (map g ps) + c * mix ws (map h ps) + k * rsum ws); [|rewrite S; ring]. clear S. unfold mix. revert ps L. induction ws as [|w ws IH]; intros [|p ps] L; try discriminate L; cbn [map combine rsum fst snd]; [ring|].
  injection L as L. rewrite IH by auto. ring.
Qed.
Lemma mix_affine2 {A} (f g : A -> R) a b k ws (ps : list A) : length ws = length ps -> rsum ws = 1 ->
  mix ws (map (fun p => a * f p + b * g p + k) ps) = a * mix ws (map f ps) + b * mix ws (map g ps) + k.
Proof.
  intros L S. pose proof (@mix_affine A f g f a b 0 k ws ps L S) as H. transitivity (a * mix ws (map f ps) + b * mix ws (map g ps) + 0 * mix ws (map f ps) + k); [|ring].
  rewrite <- H. f_equal. apply map_ext. intros p. ring.
Qed.
(** affine maps preserve convex combinations *)
Lemma in_hull_affine m t ps x : in_hull ps x -> in_hull (map (fun p => radd (rapply m p) t) ps) (radd (rapply m x) t).
Proof.
  intros (ws & (L & P & S) & E0 & E1 & E2). exists ws. split; [split; [now rewrite map_length|auto]|]. rewrite !map_map. unfold radd, rapply, rdot. cbn [c0 c1 c2].
  rewrite !mix_affine by auto. rewrite E0, E1, E2. repeat split; reflexivity.
Qed.
(** the coordinate of a plane with [n_d <> 0] is an affine function of the two others *)
Definition rkeep (d : nat) (p : V3 R) : R * R := match d with 0%nat => (c1 p, c2 p) | 1%nat => (c0 p, c2 p) | _ => (c0 p, c1 p) end.
Definition nthc (d : nat) (p : V3 R) : R := match d with 0%nat => c0 p | 1%nat => c1 p | _ => c2 p end.
Lemma lift_hull d n k ps x : nthc d n <> 0 -> (forall p, In p ps -> rdot p n = k) -> rdot x n = k -> in_hull2 (map (rkeep d) ps) (rkeep d x) -> in_hull ps x.
Proof.
  intros N H X (ws & (L & P & S) & E0 & E1). rewrite map_length in L. exists ws. split; [split; auto|]. rewrite !map_map in E0, E1.
  assert (D : nthc d x = mix ws (map (nthc d) ps)).
  { destruct d as [|[|d]]; cbn [nthc rkeep fst snd] in *.
    - change (c0 x = mix ws (map c0 ps)). replace (map c0 ps) with (map (fun p => - (c1 n / c0 n) * c1 p + - (c2 n / c0 n) * c2 p + k / c0 n) ps).
      + rewrite (mix_affine2 c1 c2) by auto. change (mix ws (map c1 ps)) with (mix ws (map (fun x => c1 x) ps)). change (mix ws (map c2 ps)) with (mix ws (map (fun x => c2 x) ps)). rewrite <- E0, <- E1. rewrite <- X. unfold rdot. field. auto.
      + apply map_ext_in. intros p I. rewrite <- (H p I). unfold rdot. field. auto.
    - change (c1 x = mix ws (map c1 ps)). replace (map c1 ps) with (map (fun p => - (c0 n / c1 n) * c0 p + - (c2 n / c1 n) * c2 p + k / c1 n) ps).
      + rewrite (mix_affine2 c0 c2) by auto. change (mix ws (map c0 ps)) with (mix ws (map (fun x => c0 x) ps)). change (mix ws (map c2 ps)) with (mix ws (map (fun x => c2 x) ps)). rewrite <- E0, <- E1. rewrite <- X. unfold rdot. field. auto.
      + apply map_ext_in. intros p I. rewrite <- (H p I). unfold rdot. field. auto.
    - change (c2 x = mix ws (map c2 ps)). replace (map c2 ps) with (map (fun p => - (c0 n / c2 n) * c0 p + - (c1 n / c2 n) * c1 p + k / c2 n) ps).
      + rewrite (mix_affine2 c0 c1) by auto. change (mix ws (map c0 ps)) with (mix ws (map (fun x => c0 x) ps)). change (mix ws (map c1 ps)) with (mix ws (map (fun x => c1 x) ps)). rewrite <- E0, <- E1. rewrite <- X. unfold rdot. field. auto.
      + apply map_ext_in. intros p I. rewrite <- (H p I). unfold rdot. field. auto. }
  destruct d as [|[|d]]; cbn [nthc rkeep fst snd] in *; auto.
Qed.
Lemma drop_hull d ps x : in_hull ps x -> in_hull2 (map (rkeep d) ps) (rkeep d x).
Proof.
  intros (ws & (L & P & S) & E0 & E1 & E2). exists ws. split; [split; [now rewrite map_length|auto]|]. rewrite !map_map. destruct d as [|[|d]]; cbn [rkeep fst snd]; auto.
Qed.
Lemma pick_map {A B} (f : A -> B) d e l is : (forall i, In i is -> (i < length l)%nat) -> pick e (map f l) is = map f (pick d l is).
Proof.
  intros H. unfold pick. rewrite map_map. apply map_ext_in. intros i I. rewrite (nth_indep _ _ (f d)) by (rewrite map_length; auto). apply map_nth.
Qed.
Lemma without_map {A B} (f : A -> B) i l : without i (map f l) = map f (without i l).
Proof. unfold without. now rewrite map_app, firstn_map, skipn_map. Qed.
Lemma corners_lift d ps : corners2 (map (rkeep d) ps) -> corners ps.
Proof.
  intros H i I C. apply (H i); [now rewrite map_length|]. rewrite without_map, (nth_indep _ _ (rkeep d rzero)), map_nth by now rewrite map_length. now apply drop_hull.
Qed.

(** ** the code *)
Definition fin2 (p : R * R) : xr * xr := (Fin (fst p), Fin (snd p)).
Lemma keep_fin d p : keep d (fin3 p) = fin2 (rkeep d p).
Proof. destruct d as [|[|d]]; reflexivity. Qed.
Definition dropped (n : V3 R) (d : nat) : Prop := (d < 3)%nat /\ Rabs (c0 n) <= Rabs (nthc d n) /\ Rabs (c1 n) <= Rabs (nthc d n) /\ Rabs (c2 n) <= Rabs (nthc d n).
Lemma drop_spec n : exists d, argmax [nabs (c0 (fin3 n)); nabs (c1 (fin3 n)); nabs (c2 (fin3 n))] = Ok d /\ dropped n d.
Proof.
  destruct (@argmax_spec [Rabs (c0 n); Rabs (c1 n); Rabs (c2 n)] ltac:(discriminate)) as (i & m & E & H1 & H2 & _). exists i. split; [exact E|].
  assert (L : (i < 3)%nat). { assert (i < length [Rabs (c0 n); Rabs (c1 n); Rabs (c2 n)])%nat by (apply nth_error_Some; congruence). exact H. }
  split; [exact L|]. assert (M : m = Rabs (nthc i n)). { destruct i as [|[|[|i]]]; try lia; cbn in H1; injection H1 as <-; reflexivity. }
  rewrite <- M. repeat split; [apply (H2 0%nat)|apply (H2 1%nat)|apply (H2 2%nat)]; reflexivity.
Qed.
Lemma dropped_ne n d : n <> rzero -> dropped n d -> nthc d n <> 0.
Proof.
  intros N (_ & H0 & H1 & H2) E. rewrite E, Rabs_R0 in *. apply N. destruct n as [x y z]. cbn [c0 c1 c2] in *. unfold rzero.
  assert (Z : forall r, Rabs r <= 0 -> r = 0). { intros r Hr. pose proof (Rabs_pos r). destruct (Req_dec r 0); [auto|]. pose proof (Rabs_pos_lt r H3). lra. }
  f_equal; now apply Z.
Qed.
(** ** flattening *)
Definition flat_to (g q x : V3 R) : V3 R := rsub x (rscale (rdot (rsub x g) q) q).
Definition level (m : M3 R) (o : V3 R) (H : R) (p : V3 R) : V3 R := let y := rapply m (radd p o) in mk3 (c0 y) H (c2 y).
Lemma mean_height q o vs : vs <> [] -> rsum (map (fun p => rdot q (radd p o)) vs) / INR (length vs) = rdot q (radd (centroid vs) o).
Proof.
  intros NE. pose proof (INR_pos_len NE) as P.
  assert (E : rsum (map (fun p => rdot q (radd p o)) vs) = c0 q * rsum (map c0 vs) + c1 q * rsum (map c1 vs) + c2 q * rsum (map c2 vs) + INR (length vs) * rdot q o).
  { clear. induction vs as [|v vs IH]; [cbn; ring|]. cbn [map rsum]. rewrite IH. cbn [length]. rewrite S_INR. unfold rdot, radd. cbn [c0 c1 c2]. ring. }
  rewrite E. unfold centroid, rdot, radd. cbn [c0 c1 c2]. field. lra.
Qed.
Lemma level_back m o g p : rotation m -> radd (rapply (rtrans m) (level m o (rdot (c1 m) (radd g o)) p)) (rscale (-1) o) = flat_to g (c1 m) p.
Proof.
  intros M. unfold level. cbv zeta. set (y := radd p o). set (q := c1 m).
  assert (E : mk3 (c0 (rapply m y)) (rdot q (radd g o)) (c2 (rapply m y)) = radd (rapply m y) (rscale (rdot q (radd g o) - rdot q y) (mk3 0 1 0))).
  { unfold rapply. fold q. unfold radd at 2, rscale. cbn [c0 c1 c2]. f_equal; ring. }
  rewrite E. clear E. rewrite rapply_add, rapply_scale, rotation_inv_l by apply M.
  replace (rapply (rtrans m) (mk3 0 1 0)) with q by (unfold q; destruct m as [[m00 m01 m02] [m10 m11 m12] [m20 m21 m22]]; unfold rapply, rtrans, rcol0, rcol1, rcol2, rdot; cbn [c0 c1 c2]; f_equal; ring).
  unfold flat_to, y. clearbody q. unfold radd, rsub, rscale, rdot. cbn [c0 c1 c2]. f_equal; ring.
Qed.
Definition inverts_rotations (inv3 : M3 xr -> res (M3 xr)) : Prop :=
  forall m, rotation m -> exists k, inv3 (finm m) = Ok (finm k) /\ rmmul m k = reye.
Lemma inv_rot inv3 m : inverts_rotations inv3 -> rotation m -> inv3 (mtrans (finm m)) = Ok (finm m).
Proof.
  intros I M. rewrite ftrans. destruct (I (rtrans m) (rotation_trans M)) as (k & E & K). rewrite E. do 2 f_equal.
  rewrite <- (rmmul_eye_l k). destruct M as [[O _] _]. rewrite <- O, rmmul_assoc, K. apply rmmul_eye_r.
Qed.
Lemma in_take {A} (l : list A) d is : (forall i, In i is -> (i < length l)%nat) -> take l is = Ok (pick d l is).
Proof. apply take_ok. Qed.
Lemma flatten_ok cv2 inv3 pca (hull : list (xr * xr) -> res (list nat)) c vs n arg want : cv2_rodrigues_ok cv2 -> inverts_rotations inv3 -> rdot n n = 1 -> (2 <= length vs)%nat ->
  arg = NList (fin3 n) \/ arg = NNone /\ estimate_normal pca (map fin3 vs) = fin3 n ->
  exists m o, rotation m /\
    (1/100000 <= acos (c1 n) <= PI - 1/100000 \/ c1 n = 1 \/ c1 n = -1 -> rapply m n = mk3 0 1 0) /\
    let pts := map (fun p => rkeep 1 (rapply m (radd p o))) vs in
    forall r, hull (map fin2 pts) = r -> (forall is, r = Ok is -> is <> [] /\ forall i, In i is -> (i < length vs)%nat) ->
      convexify_and_flatten pca cv2 inv3 hull (poly c (map fin3 vs)) want arg =
        let* is := r in Ok (poly c (map fin3 (map (flat_to (centroid vs) (c1 m)) (pick rzero vs is))), if want then Some is else None).
Proof.
  intros C I U L A. assert (NE : vs <> []) by (destruct vs; cbn in L; [lia|discriminate]).
  destruct (@xz_spec cv2 pca vs n arg C U NE A) as (m & p0 & E & M & G & Ep). exists m, (offset p0). split; [auto|]. split; [exact G|]. cbv zeta. intros r HU RI.
  unfold convexify_and_flatten. cbn [poly p_v p_closed]. rewrite map_length. replace (Nat.leb (length vs) 1) with false by (symmetry; apply Nat.leb_gt; lia). rewrite E. cbn [bindr].
  set (o := offset p0) in *.
  assert (HH : ndiv (nsum (map c1 (map fin3 (map (fun p => rapply m (radd p o)) vs)))) (nofZ (Z.of_nat (length (map fin3 (map (fun p => rapply m (radd p o)) vs))))) = Fin (rdot (c1 m) (radd (centroid vs) o))).
  { rewrite !map_length, !map_map. replace (map (fun x => c1 (fin3 (rapply m (radd x o)))) vs) with (map Fin (map (fun p => rdot (c1 m) (radd p o)) vs)) by (rewrite map_map; reflexivity).
    rewrite nsum_fin, xofZ, <- INR_IZR_INZ. pose proof (INR_pos_len NE). rewrite xdivE by lra. f_equal. now apply mean_height. }
  cbv zeta. rewrite HH. set (H := rdot (c1 m) (radd (centroid vs) o)).
  replace (map (fun q => mk3 (c0 q) (Fin H) (c2 q)) (map fin3 (map (fun p => rapply m (radd p o)) vs))) with (map fin3 (map (level m o H) vs)) by (rewrite !map_map; reflexivity).
  replace (map (fun q => (c0 q, c2 q)) (map fin3 (map (level m o H) vs))) with (map fin2 (map (fun p => rkeep 1 (rapply m (radd p o))) vs)) by (rewrite !map_map; reflexivity).
  rewrite HU. destruct r as [is|e]; [|reflexivity]. destruct (RI is eq_refl) as [NI B]. cbn [bindr]. rewrite (@in_take _ _ (fin3 (level m o H rzero))) by now rewrite !map_length. cbn [bindr]. rewrite (inv_rot I M). cbn [bindr].
  rewrite map_map. rewrite (@pick_map _ _ (fun x => fin3 (level m o H x)) rzero) by auto. rewrite ftrans.
  set (back := fun p => radd (rapply (rtrans m) (level m o H p)) (rscale (-1) o)).
  assert (CH : match option_map fin3 p0 with
    | Some p1 => fst (translation (map (fun q => mapply (finm (rtrans m)) q) (map (fun x => fin3 (level m o H x)) (pick rzero vs is))) (Some (vopp p1)))
    | None => map (fun q => mapply (finm (rtrans m)) q) (map (fun x => fin3 (level m o H x)) (pick rzero vs is))
    end = map fin3 (map back (pick rzero vs is))).
  { unfold o in *. destruct p0 as [p1|]; cbn [option_map offset].
    - unfold translation. cbn [fst]. rewrite !map_map. apply map_ext. intros p. rewrite fmap_apply. unfold back. cbn [offset].
      replace (vopp (fin3 p1)) with (fin3 (rscale (-1) p1)) by (unfold vopp, fin3, rscale, map3; cbn [c0 c1 c2]; repeat f_equal; cbn; f_equal; ring). now rewrite fadd.
    - rewrite !map_map. apply map_ext. intros p. rewrite fmap_apply. unfold back. cbn [offset]. f_equal. unfold radd, rscale, rzero. cbn [c0 c1 c2]. destruct (rapply (rtrans m) _) as [x y z]. cbn. f_equal; ring. }
  rewrite CH. rewrite init_points_some by apply numeric_fin.
  replace (c && Nat.eqb (length (map fin3 (map back (pick rzero vs is)))) 0) with false.
  2:{ symmetry. apply andb_false_iff. right. apply Nat.eqb_neq. unfold pick. rewrite !map_length. destruct is; [congruence|discriminate]. }
  cbn [bindr]. unfold returned. do 3 f_equal. f_equal. apply map_ext. intros p. unfold back, H. now apply level_back.
Qed.
Lemma flatten_hull m o g ps is : rotation m -> hull_of (map (fun p => rkeep 1 (rapply m (radd p o))) ps) is -> forall x, In x ps ->
  in_hull (map (flat_to g (c1 m)) (pick rzero ps is)) (flat_to g (c1 m) x).
Proof.
  intros M (NE & B & H) x I. rewrite map_length in B. set (K := rdot (c1 m) (radd g o)).
  assert (Hx : in_hull (map (level m o K) (pick rzero ps is)) (level m o K x)).
  { apply (@lift_hull 1 (mk3 0 1 0) K).
    - cbn. lra.
    - intros p Ip. apply in_map_iff in Ip. destruct Ip as (y & <- & _). unfold level, rdot. cbn [c0 c1 c2]. ring.
    - unfold level, rdot. cbn [c0 c1 c2]. ring.
    - specialize (H (rkeep 1 (rapply m (radd x o))) (in_map _ _ _ I)).
      rewrite (@pick_map _ _ (fun p => rkeep 1 (rapply m (radd p o))) rzero) in H by auto. rewrite map_map. exact H. }
  apply (@in_hull_affine (rtrans m) (rscale (-1) o)) in Hx. rewrite map_map in Hx. unfold K in Hx. rewrite level_back in Hx by auto.
  erewrite map_ext; [exact Hx|]. intros p. symmetry. now apply level_back.
Qed.
