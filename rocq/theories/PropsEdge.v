(** * Properties C99 and C100: a Polyline without points, and reindexing by any integer. *)
From Coq Require Import Reals ZArith List Bool Lra Lia Permutation.
From Verif Require Import Num Vec RVec SpecGeom SpecPoly NpList MVx MPlane MSegment MPolyline VLemmas XLemmas PVx PPlane PPlane2 PSegment
  PPolyline PPolyline2 PPolyline3 PropsPolyline.
Import ListNotations.
Set Implicit Arguments.
Unset Strict Implicit.

(** ** C99.  A polyline made with [v=None] can be copied, measured, opened, closed and given
    points; everything else raises the exception listed, and leaves it as it was. *)
Theorem C99_without_points : forall F (N : Num F) c (p : polyline F), init (@InNone F) c = Ok p ->
  p_v p = None /\ p_e p = None /\ p_closed p = c /\ copy p = Ok p /\
  segment_lengths p = Ok [] /\ total_length p = Ok (nofZ 0) /\
  (forall c', exists q, set_closed p c' = (q, Ok tt) /\ init (@InNone F) c' = Ok q) /\
  (forall a q, init a c = Ok q -> set_v p a = (q, Ok tt)) /\
  poly_len p = Err TypeError /\ segments p = Err TypeError /\ segment_vectors p = Err TypeError /\
  flip p = (p, Err ValueError) /\
  (forall i, reindexed p i = Err (if c then TypeError else ValueError)) /\
  (forall axis, poly_apex p axis = Err AttributeError) /\
  (forall pl, intersect_plane p pl = Err TypeError /\ cut_by_plane p pl = Err TypeError) /\
  (c = false -> forall m, partition_by_length p m = (p, Err TypeError)).
Proof.
  intros F N c p H. injection H as <-. repeat (split; [reflexivity|]).
  split; [intros c'; eexists; split; reflexivity|].
  split. { intros a q. unfold init. change (mkpoly None c None) with (mkpoly (F := F) None c None). destruct (set_v _ a) as [q' [[]|e]]; cbn [bindr]; intros [= <-]. reflexivity. }
  repeat (split; [reflexivity|]).
  split. { intros i. unfold reindexed. cbn. destruct c; reflexivity. }
  split; [reflexivity|]. split; [split; reflexivity|]. intros -> m. reflexivity.
Qed.
Print Assumptions C99_without_points.
(** Not so when it is closed and asked to be partitioned: that raises IndexError and leaves
    an array without rows for [v], and no edges. *)
Theorem C120_partition_refuted : forall F (N : Num F) (p : polyline F) m, init (@InNone F) true = Ok p ->
  exists q, partition_by_length p m = (q, Err IndexError) /\ q <> p /\ p_v q = Some [] /\ p_e q = None.
Proof. intros F N p m H. injection H as <-. eexists. split; [reflexivity|]. split; [discriminate|]. repeat split. Qed.
Print Assumptions C120_partition_refuted.

(** ** C100.  [reindexed] by any integer: the vertices from Python's slice position on come
    first; nothing about the shape changes. *)
Definition slice_start (n : nat) (i : Z) : nat := Z.to_nat (if (i <? 0)%Z then Z.max 0 (Z.of_nat n + i) else Z.min i (Z.of_nat n)).
Theorem C100_any_index : forall vs P i, is_polyline true vs P ->
  exists Q mapping, reindexed P i = Ok (Q, mapping) /\ let s := slice_start (length vs) i in
    is_polyline true (skipn s vs ++ firstn s vs) Q /\ total_length Q = total_length P /\
    Permutation (segs true (skipn s vs ++ firstn s vs)) (segs true vs) /\
    (forall k, (k < length vs)%nat -> nth_error (segs true (skipn s vs ++ firstn s vs)) k = nth_error (segs true vs) ((s + k) mod length vs)) /\
    (- Z.of_nat (length vs) <= i < Z.of_nat (length vs) -> forall k, (k < length vs)%nat -> Z.modulo (nth k mapping 0) (Z.of_nat (length vs)) = Z.of_nat ((s + k) mod length vs))%Z /\
    Z.of_nat (length mapping) = (Z.max (Z.of_nat (length vs) - i) 0 + Z.max i 0)%Z.
Proof.
  intros vs P i HP. destruct (is_polyline_inv HP) as [-> Hv]. assert (Hv' : vs <> []) by (intros ->; now apply Hv).
  set (n := length vs). assert (Hn : (0 < n)%nat) by (unfold n; destruct vs; [congruence|cbn; lia]).
  set (s := slice_start n i). assert (Hs : (s <= n)%nat) by (unfold s, slice_start; destruct (Z.ltb_spec i 0); lia).
  assert (Hperm : Permutation (segs true (skipn s vs ++ firstn s vs)) (segs true vs)).
  { transitivity (segs true (firstn s vs ++ skipn s vs)); [apply closed_segs_perm|]. now rewrite firstn_skipn. }
  exists (fpoly true (skipn s vs ++ firstn s vs)), (zarange i (Z.of_nat n) ++ zarange 0 i).
  assert (Hne : skipn s vs ++ firstn s vs <> []).
  { intros E. apply Hv'. apply app_eq_nil in E as [E1 E2]. rewrite <- (firstn_skipn s vs), E1, E2. reflexivity. }
  split; [|split; [|split; [|split; [|split; [|split]]]]].
  - unfold reindexed, fpoly. cbn [poly p_closed p_v]. unfold slice_from, slice_to. assert (E : slice_pos (map fin3 vs) i = s) by (unfold slice_pos, s, slice_start, n; now rewrite map_length).
    rewrite E, map_length, skipn_map, firstn_map, <- map_app. fold n. assert (HQ : is_polyline true (skipn s vs ++ firstn s vs) (fpoly true (skipn s vs ++ firstn s vs))) by (apply is_polyline_fpoly; tauto).
    unfold is_polyline in HQ. rewrite HQ. reflexivity.
  - apply is_polyline_fpoly. tauto.
  - rewrite !total_length_fin. do 2 f_equal. unfold chain_length. apply rsum_perm. now apply Permutation_map.
  - exact Hperm.
  - intros k Hk. rewrite rot_segs by exact Hs.
    assert (Ls : length (segs true vs) = n) by apply closed_segs_length.
    assert (D : (s = n \/ s < n)%nat) by lia. destruct D as [->|D].
    + replace (skipn n (segs true vs)) with (@nil (V3 R * V3 R)) by (symmetry; apply skipn_all2; lia).
      rewrite firstn_all2 by lia. cbn [app]. f_equal. rewrite <- (Nat.mul_1_l n) at 1. rewrite Nat.add_comm, Nat.mod_add by lia. symmetry. now apply Nat.mod_small.
    + destruct (Nat.lt_ge_cases (s + k) n) as [L|L].
      * rewrite Nat.mod_small by auto. rewrite nth_error_app1 by (rewrite skipn_length; lia).
        rewrite <- (firstn_skipn s (segs true vs)) at 2. rewrite nth_error_app2 by (rewrite firstn_length; lia). f_equal. rewrite firstn_length. lia.
      * replace (s + k)%nat with (s + k - n + 1 * n)%nat by lia. rewrite Nat.mod_add, Nat.mod_small by lia.
        rewrite nth_error_app2 by (rewrite skipn_length; lia). rewrite skipn_length, Ls. replace (k - (n - s))%nat with (s + k - n)%nat by lia.
        rewrite <- (firstn_skipn s (segs true vs)) at 2. now rewrite nth_error_app1 by (rewrite firstn_length; lia).
  - intros Hi k Hk. assert (Zn : (s + k) mod n = Z.to_nat ((i + Z.of_nat k) mod Z.of_nat n)).
    { apply Nat2Z.inj. rewrite Nat2Z.inj_mod, Z2Nat.id by (apply Z.mod_pos_bound; lia). rewrite Nat2Z.inj_add.
      unfold s, slice_start. destruct (Z.ltb_spec i 0) as [L|L].
      - rewrite Z.max_r, Z2Nat.id by lia. rewrite <- (Z.mod_add (i + Z.of_nat k) 1) by lia. f_equal. lia.
      - rewrite Z.min_l, Z2Nat.id by lia. reflexivity. }
    rewrite Zn, Z2Nat.id by (apply Z.mod_pos_bound; lia).
    unfold zarange. destruct (Nat.lt_ge_cases k (Z.to_nat (Z.of_nat n - i))) as [L|L].
    + rewrite app_nth1 by (rewrite map_length, seq_length; exact L). rewrite nth_indep with (d' := (i + Z.of_nat 0)%Z) by (rewrite map_length, seq_length; exact L).
      rewrite (map_nth (fun k => (i + Z.of_nat k)%Z)), seq_nth by exact L. reflexivity.
    + rewrite app_nth2 by (rewrite map_length, seq_length; exact L). rewrite map_length, seq_length.
      assert (L2 : (k - Z.to_nat (Z.of_nat n - i) < Z.to_nat (i - 0))%nat) by lia.
      rewrite nth_indep with (d' := (0 + Z.of_nat 0)%Z) by (rewrite map_length, seq_length; exact L2).
      rewrite (map_nth (fun k => (0 + Z.of_nat k)%Z)), seq_nth by exact L2. cbn [Nat.add]. rewrite Z.add_0_l, Nat2Z.inj_sub, Z2Nat.id by lia.
      rewrite <- (Z.mod_add (Z.of_nat k - (Z.of_nat n - i)) 1) by lia. f_equal. lia.
  - unfold zarange. rewrite app_length, !map_length, !seq_length. fold n. lia.
Qed.
Print Assumptions C100_any_index.
(** The edge mapping has one entry per edge for an index from 0 to the number of vertices,
    and too many entries for every other integer, although a negative index is accepted. *)
Theorem C121_mapping_length_refuted : forall vs P i, is_polyline true vs P -> (i < 0 \/ Z.of_nat (length vs) < i)%Z ->
  exists Q mapping, reindexed P i = Ok (Q, mapping) /\ (length (segs true vs) < length mapping)%nat.
Proof.
  intros vs P i HP Hi. destruct (C100_any_index i HP) as (Q & mapping & E & _ & _ & _ & _ & _ & L). exists Q, mapping. split; [exact E|].
  rewrite closed_segs_length. lia.
Qed.
Print Assumptions C121_mapping_length_refuted.
Example C100_example : exists P Q, is_polyline true square P /\ reindexed P (-1) = Ok (Q, [-1; 0; 1; 2; 3]%Z) /\
  is_polyline true [mk3 0 1 0; mk3 0 0 0; mk3 1 0 0; mk3 1 1 0]%R Q.
Proof. do 2 eexists. repeat split. Qed.
