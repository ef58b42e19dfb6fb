(** * Properties C107-C111: dividing, scaling, extreme points and projection in double precision. *)
From Coq Require Import Reals ZArith List Bool Lra Lia Psatz Sorting.Sorted.
From Flocq Require Import Core.
From Verif Require Import Num B64 BLemmas Vec RVec VLemmas NpList SpecGeom SpecPoly MVx MSegment MPolyline MNumerics PPolyline PPolyline2 SpecDouble PErr PNormB PSliceF PNormD PPlaneD PPartD PScaleD PProjD PropsDouble.
Import ListNotations.
Local Open Scope R_scope.

(** a bound on coordinates whose square is far from underflow and overflow *)
Definition ordinary_size (M : R) : Prop := bpow radix2 (-300) <= M <= bpow radix2 300.
(** the points dividing the segment [ab] into [k] equal pieces, without its end *)
Definition cuts (k : nat) (ab : V3 R * V3 R) : list (V3 R) := map (fun i => lerp (INR i / INR k) (fst ab) (snd ab)) (seq 0 k).

(** ** C107.  partition_by_length for doubles: in every segment as many pieces as the exact length calls for, up to
    [65 u M]; every new vertex within [19 u M] of its exact place; no segment longer than max_length + [141 u M]; the old
    vertices keep their values and stand at the returned indices. *)
Theorem C107_partition_by_length : forall M c (vs : list (V3 b64)) P m, ordinary_size M -> vs <> [] -> Forall (within M) vs -> init_points (Some vs) c = Ok P ->
  bfin m = true -> bpow radix2 (-40) * M <= Bval m <= bpow radix2 400 ->
  exists ks idx ws Q, partition_by_length P m = (Q, Ok idx) /\ init_points (Some ws) c = Ok Q /\
    Forall2 (fun ab k => (1 <= k)%nat /\ seglen ab <= INR k * Bval m + 65 * (u * M) /\ ((1 < k)%nat -> INR (k - 1) * Bval m < seglen ab + 65 * (u * M)))
      (segs c (map Rval3 vs)) ks /\
    Forall2 (close3 (19 * (u * M))) ws (flat_map (fun kab => cuts (snd kab) (fst kab)) (combine (segs c (map Rval3 vs)) ks) ++ (if c then [] else [last (map Rval3 vs) rzero])) /\
    Forall (fun ab => rdist (Rval3 (fst ab)) (Rval3 (snd ab)) <= Bval m + 141 * (u * M)) (segs c ws) /\
    length idx = length vs /\ StronglySorted lt idx /\
    (forall i x, nth_error vs i = Some x -> exists j y, nth_error idx i = Some j /\ nth_error ws j = Some y /\ Rval3 y = Rval3 x).
Proof.
  intros M c vs P m HM Hv HW HP Fm Hm.
  assert (Hn : numeric vs = true) by (unfold init_points, set_points in HP; destruct (numeric vs); [reflexivity|discriminate HP]).
  rewrite init_points_some in HP by auto. assert (EP : P = poly c vs) by (destruct (c && _); [discriminate HP|now injection HP]). subst P. clear HP.
  destruct (partition_ap HM Hm c Hv HW) as (ks & idx & ws & E & K & C & L & I1 & I2 & I3). exists ks, idx, ws, (poly c ws). split; [exact E|]. split.
  - rewrite init_points_some by exact (close_numeric C). replace (Nat.eqb (length ws) 0) with false; [now destruct c|]. symmetry. apply Nat.eqb_neq.
    destruct vs as [|x vs]; [congruence|]. destruct (I3 0%nat x eq_refl) as (j & y & _ & N & _). apply nth_error_In in N. destruct ws; [inversion N|discriminate].
  - split; [exact K|]. split; [|auto]. rewrite flat_map_concat_map. exact C.
Qed.
Print Assumptions C107_partition_by_length.
(** Exactly, the bound fails: 0.4 divided by 0.1 has a segment computed as longer than 0.1, and a second call divides again. *)
Theorem C112_partition_by_length_refuted : let m := nlit 1 10 in exists P, init_points (Some [int3 0 0 0; tenths 4 0 0]) false = Ok P /\
  let Q := fst (partition_by_length P m) in
  snd (partition_by_length P m) = Ok [0; 4]%nat /\
  (exists ls, segment_lengths Q = Ok ls /\ existsb (fun l => nlt m l) ls = true) /\
  snd (partition_by_length Q m) = Ok [0; 1; 2; 4; 5]%nat.
Proof.
  exists (poly false [int3 0 0 0; tenths 4 0 0]). split; [rewrite init_points_some by (vm_compute; reflexivity); reflexivity|]. split; [vm_compute; reflexivity|]. split; [|vm_compute; reflexivity].
  assert (E : match segment_lengths (fst (partition_by_length (poly false [int3 0 0 0; tenths 4 0 0]) (nlit 1 10))) with Ok ls => existsb (fun l => nlt (nlit 1 10) l) ls | Err _ => false end = true) by (vm_compute; reflexivity).
  destruct (segment_lengths _) as [ls|]; [|discriminate E]. eauto.
Qed.
Print Assumptions C112_partition_by_length_refuted.
Lemma size16 : ordinary_size 16.
Proof. change 16 with (bpow radix2 4). split; apply bpow_le; lia. Qed.
Example C107_example : exists P, ordinary_size 16 /\ Forall (within 16) [int3 1 2 3; int3 4 5 6; int3 7 8 0] /\ init_points (Some [int3 1 2 3; int3 4 5 6; int3 7 8 0]) true = Ok P /\
  bfin (nofZ 2) = true /\ bpow radix2 (-40) * 16 <= Bval (nofZ 2) <= bpow radix2 400.
Proof.
  destruct (@int3_val 1 2 3) as [W1 _]; try lia. destruct (@int3_val 4 5 6) as [W2 _]; try lia. destruct (@int3_val 7 8 0) as [W3 _]; try lia. destruct (int_val (z := 2)) as [F2 V2]; [lia|].
  eexists. split; [exact size16|]. split; [auto|]. split; [rewrite init_points_some by (vm_compute; reflexivity); reflexivity|]. split; [exact F2|]. rewrite V2. change 16 with (bpow radix2 4). change 2 with (bpow radix2 1). rewrite <- bpow_plus. split; apply bpow_le; lia.
Qed.

(** ** C108.  partition_segment for doubles *)
Theorem C108_partition_segment : forall M p1 p2 n ep, ordinary_size M -> within M p1 -> within M p2 -> (2 <= n <= 2 ^ 50)%Z ->
  exists ps, partition_segment p1 p2 (IntArg n) ep = Ok ps /\
    Forall2 (close3 (19 * (u * M))) ps (map (fun k => lerp (INR k / IZR (if ep then n - 1 else n)) (Rval3 p1) (Rval3 p2)) (seq 0 (Z.to_nat n))) /\
    (exists q l, ps = q :: l /\ Rval3 q = Rval3 p1).
Proof.
  intros M p1 p2 n ep HM W1 W2 K. destruct ep.
  - exact (segment_end_ap HM W1 W2 K).
  - destruct (segment_ap HM W1 W2 K) as (d & E & C & H). exists d. split; [exact E|]. split; [|exact H]. revert C. unfold chunk. cbn [fst snd]. rewrite (INR_IZR_INZ (Z.to_nat n)), Z2Nat.id by lia. auto.
Qed.
Print Assumptions C108_partition_segment.
(** With the endpoint included the last point need not be p2: from -0.9 to -0.3 it is greater. *)
Theorem C112_last_point_refuted : exists p1 p2 ps, within 1 p1 /\ within 1 p2 /\ partition_segment p1 p2 (IntArg 2) true = Ok ps /\
  length ps = 2%nat /\ Rval3 (last ps p2) <> Rval3 p2.
Proof.
  set (p1 := tenths (-9) 0 0). set (p2 := tenths (-3) 0 0). exists p1, p2, (map (fun t => vadd (map3 (fun x => nmul x t) (vsub p2 p1)) p1) (linspace01 2 true)).
  assert (W : forall a, (-9 <= a <= 0)%Z -> nle (nofZ (-1)) (nlit a 10) = true -> nle (nlit a 10) (nofZ 1) = true -> bfin (nlit a 10) = true -> bfin (nlit 0 10) = true -> nle (nofZ (-1)) (nlit 0 10) = true -> nle (nlit 0 10) (nofZ 1) = true -> within 1 (tenths a 0 0)).
  { intros a _ L U F F0 L0 U0. destruct (int_val (z := 1)) as [G1 V1]; [lia|]. destruct (int_val (z := -1)) as [G2 V2]; [lia|].
    rewrite ble_spec in L, U, L0, U0 by auto. rewrite V1 in *. rewrite V2 in *.
    revert L U L0 U0. do 4 (case Rle_bool_spec; [|discriminate]; intros ? _).
    split; [unfold fin3b; cbn [c0 c1 c2 tenths]; now rewrite F, F0|]. cbn [c0 c1 c2 tenths]. repeat split; apply abs_le; lra. }
  split; [apply W; try lia; vm_compute; reflexivity|]. split; [apply W; try lia; vm_compute; reflexivity|]. split; [reflexivity|]. split; [reflexivity|]. intros E.
  set (ps := map _ _) in E. apply (f_equal (@c0 R)) in E. unfold Rval3, map3 in E. cbn [c0] in E.
  assert (B : bfin (c0 (last ps p2)) = true /\ bfin (c0 p2) = true /\ neqb (c0 (last ps p2)) (c0 p2) = false) by (vm_compute; auto).
  destruct B as (B1 & B2 & B3). rewrite beq_spec, E, Req_bool_true in B3 by auto. discriminate.
Qed.
Print Assumptions C112_last_point_refuted.
Example C108_example : ordinary_size 16 /\ within 16 (int3 1 2 3) /\ within 16 (int3 4 (-5) 6) /\ (2 <= 7 <= 2 ^ 50)%Z.
Proof. split; [exact size16|]. split; [now apply int3_val|]. split; [now apply int3_val|lia]. Qed.

(** ** C109.  scale_to_range for doubles *)
Theorem C109_scale_to_range : forall R0 (a : list b64) mn mx lo hi, bpow radix2 (-400) <= R0 <= bpow radix2 400 ->
  bfin lo = true -> bfin hi = true -> Rabs (Bval lo) <= R0 -> Rabs (Bval hi) <= R0 ->
  In mn a -> In mx a -> Forall (fun x => bfin x = true /\ Bval mn <= Bval x <= Bval mx) a -> bpow radix2 (-500) <= Bval mx - Bval mn <= bpow radix2 500 ->
  exists out, scale_to_range a lo hi = Ok out /\
    Forall2 (fun x y => bfin y = true /\
      Rabs (Bval y - ((Bval hi - Bval lo) * ((Bval x - Bval mn) / (Bval mx - Bval mn)) + Bval lo)) <= 24 * (u * R0) /\
      (Bval x = Bval mn -> Bval y = Bval lo)) a out.
Proof. intros R0 a mn mx lo hi HR Fl Fh Bl Bh. exact (scale_ap HR Fl Fh Bl Bh (a := a) (mn := mn) (mx := mx)). Qed.
Print Assumptions C109_scale_to_range.
(** The result need not stay in the range: 0 and 3 scaled to the range 0 .. 0.1 give a value above 0.1. *)
Theorem C112_range_refuted : exists out, scale_to_range [nofZ 0; nofZ 3] (nofZ 0) (nlit 1 10) = Ok out /\ existsb (fun y => nlt (nlit 1 10) y) out = true.
Proof.
  assert (E : match scale_to_range [nofZ 0; nofZ 3] (nofZ 0) (nlit 1 10) with Ok out => existsb (fun y => nlt (nlit 1 10) y) out | Err _ => false end = true) by (vm_compute; reflexivity).
  destruct (scale_to_range _ _ _) as [out|]; [|discriminate E]. eauto.
Qed.
Print Assumptions C112_range_refuted.
Example C109_example : Rabs (Bval (nofZ 10)) <= 16 /\ Rabs (Bval (nofZ (-2))) <= 16 /\
  Forall (fun x : b64 => bfin x = true /\ Bval (nofZ 1) <= Bval x <= Bval (nofZ 4)) [nofZ 3; nofZ 1; nofZ 4] /\ bpow radix2 (-500) <= Bval (nofZ 4) - Bval (nofZ 1) <= bpow radix2 500.
Proof.
  destruct (int_val (z := 1)) as [F1 V1]; [lia|]. destruct (int_val (z := 3)) as [F3 V3]; [lia|]. destruct (int_val (z := 4)) as [F4 V4]; [lia|]. destruct (int_val (z := 10)) as [F10 V10]; [lia|]. destruct (int_val (z := -2)) as [F2 V2]; [lia|].
  rewrite V10, V2. split; [apply abs_le; lra|]. split; [apply abs_le; lra|]. split.
  - repeat constructor; auto; rewrite ?V1, ?V3, ?V4; lra.
  - rewrite V1, V4. assert (bpow radix2 (-500) <= bpow radix2 0) by (apply bpow_le; lia). assert (bpow radix2 2 <= bpow radix2 500) by (apply bpow_le; lia). change (bpow radix2 0) with 1 in *. change (bpow radix2 2) with 4 in *. lra.
Qed.

(** ** C110.  apex and farthest for doubles *)
Theorem C110_apex : forall X Y (ps : list (V3 b64)) a, 0 < X -> 0 < Y -> bpow radix2 (-900) <= X * Y <= bpow radix2 900 -> ps <> [] -> Forall (within X) ps -> within Y a ->
  exists p, In p ps /\ apex ps a = Ok p /\ forall q, In q ps -> rdot (Rval3 q) (Rval3 a) <= rdot (Rval3 p) (Rval3 a) + 20 * (u * (X * Y)).
Proof. intros X Y ps a PX PY HZ HN HW Wa. exact (apex_ap HZ PX PY HN HW Wa). Qed.
Print Assumptions C110_apex.
Theorem C110_farthest : forall M from (ps : list (V3 b64)), ordinary_size M -> within M from -> ps <> [] -> Forall (within M) ps ->
  exists i p, nth_error ps i = Some p /\ farthest from ps = Ok (p, i) /\
    forall q, In q ps -> rdist (Rval3 q) (Rval3 from) <= rdist (Rval3 p) (Rval3 from) + 120 * (u * M).
Proof. intros M from ps HM Wf HN HW. exact (farthest_ap HM Wf HN HW). Qed.
Print Assumptions C110_farthest.

(** Exactly, apex may return a lower point: of (2^53, 0, 0) and (2^53, 1, 0) along (1, 1, 0) it returns the first. *)
Theorem C112_apex_refuted : let p := int3 (2 ^ 53) 0 0 in let q := int3 (2 ^ 53) 1 0 in let a := int3 1 1 0 in
  apex [p; q] a = Ok p /\ rdot (Rval3 p) (Rval3 a) < rdot (Rval3 q) (Rval3 a).
Proof.
  intros p q a. split.
  - unfold apex. assert (E : argmax (map (fun x => vdot x a) [p; q]) = Ok 0%nat) by (vm_compute; reflexivity). rewrite E. reflexivity.
  - destruct (int_val (z := 2 ^ 53)) as [_ V]; [lia|]. destruct (int_val (z := 1)) as [_ V1]; [lia|]. destruct (int_val (z := 0)) as [_ V0]; [lia|].
    unfold p, q, a, Rval3, int3, map3, rdot. cbn [c0 c1 c2]. rewrite V, V1, V0. lra.
Qed.
Print Assumptions C112_apex_refuted.
Example C110_example : bpow radix2 (-900) <= 16 * 16 <= bpow radix2 900 /\ Forall (within 16) [int3 1 2 3; int3 4 5 6] /\ within 16 (int3 0 1 0).
Proof. split; [replace (16 * 16) with (bpow radix2 8) by (cbn; lra); split; apply bpow_le; lia|]. split; [constructor; [|constructor; [|constructor]]; now apply int3_val|now apply int3_val]. Qed.

(** ** C111.  proj and reject for doubles *)
Theorem C111_proj_reject : forall M v onto, ordinary_bound M -> within M v -> fin3b onto = true -> ordinary_length (rnorm (Rval3 onto)) ->
  let N := unit_of (Rval3 onto) in let along := rscale (rdot (Rval3 v) N) N in
  exists p r, proj (One v) onto = Ok (One p) /\ reject (One v) onto = Ok (One r) /\
    close3 (86 * (u * M)) p along /\ close3 (90 * (u * M)) r (rsub (Rval3 v) along) /\ Rabs (rdot (Rval3 r) N) <= 180 * (u * M).
Proof.
  intros M v onto HM W F S N along. exists (MVx.proj1 v onto), (reject1 v onto). split; [reflexivity|]. split; [reflexivity|].
  split; [exact (proj_ap HM F S W)|]. split; [exact (reject_ap HM F S W)|exact (reject_dot HM F S W)].
Qed.
Print Assumptions C111_proj_reject.
(** Exactly, a vector is not its own projection: for (1, 1, 0) proj is smaller and reject is not zero. *)
Theorem C112_own_projection_refuted : let v := int3 1 1 0 in exists p r, proj (One v) v = Ok (One p) /\ reject (One v) v = Ok (One r) /\
  nlt (c0 p) (nofZ 1) = true /\ nlt (nofZ 0) (c0 r) = true.
Proof. intros v. exists (MVx.proj1 v v), (reject1 v v). split; [reflexivity|]. split; [reflexivity|]. split; vm_compute; reflexivity. Qed.
Print Assumptions C112_own_projection_refuted.
Example C111_example : ordinary_bound 16 /\ within 16 (int3 5 6 7) /\ fin3b (int3 1 2 2) = true /\ ordinary_length (rnorm (Rval3 (int3 1 2 2))).
Proof.
  destruct plane122 as [P N]. destruct P as (HM & _ & Fn & _). split; [exact HM|]. split; [now apply int3_val|]. split; [exact Fn|]. rewrite N. split; [apply Rle_trans with (bpow radix2 0); [apply bpow_le; lia|cbn; lra]|apply Rle_trans with (bpow radix2 2); [cbn; lra|apply bpow_le; lia]].
Qed.
