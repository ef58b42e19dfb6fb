(** * Properties C97, C98: slicing a mesh of doubles. *)
From Coq Require Import Reals ZArith List Bool Lra Lia Psatz.
From Flocq Require Import Core.
From Verif Require Import Num B64 BLemmas Vec RVec NpList MVx MPlane MPolyline PPolyline MMesh SpecSlice SpecDouble PErr PFar PSliceF PNormB PSliceM PMeshF PropsGraph.
Import ListNotations.
Local Open Scope R_scope.

(** ** Specification *)
(** no vertex is on the plane, as [sign] computes it *)
Definition none_on (p : plane b64) (vs : list (V3 b64)) : Prop := Forall (fun s => neqb s n0 = false) (sign p vs).
(** the vertices [u] and [v] are on different sides, as [signed_distance] computes it *)
Definition straddles (p : plane b64) (vs : list (V3 b64)) (u v : nat) : Prop :=
  exists A B, nth_error vs u = Some A /\ nth_error vs v = Some B /\ Bval (signed_distance1 p A) * Bval (signed_distance1 p B) < 0.
Definition in_mesh (vs : list (V3 b64)) (f : nat * nat * nat) : Prop := let '(a, b, c) := f in (a < length vs /\ b < length vs /\ c < length vs)%nat.

(** ** C97 *)
(** The claim is false of doubles: a tetrahedron none of whose vertices is on the plane, yet
    slicing it raises TypeError whatever the iteration orders.  The reason: an edge whose ends
    are on different sides but on which [line_segment_xsection] finds no point, in either
    direction. *)
Definition dec (m : Z) (d : positive) : b64 := nlit m d.
Definition p97 : V3 b64 := mk3 (dec 5 10) (dec 3 10) (dec 1 10).
Definition n97 : V3 b64 := mk3 (dec 1 1) (dec 1 1) (dec (-1) 1).
Definition v97 : list (V3 b64) := [mk3 (dec 3 10) (dec 0 1) (dec 1 10); mk3 (dec 6 10) (dec 0 1) (dec 0 1); mk3 (dec 0 1) (dec 4 10) (dec 0 1); mk3 (dec 1 10) (dec 6 10) (dec 0 1)].
Definition f97 : list (nat * nat * nat) := [(0, 1, 2); (0, 3, 1); (0, 2, 3); (1, 3, 2)]%nat.
Lemma bools_forall {A} (f : A -> bool) l : forallb (fun x => negb (f x)) l = true -> Forall (fun x => f x = false) l.
Proof. intros H. apply Forall_forall. intros x I. rewrite forallb_forall in H. specialize (H x I). now destruct (f x). Qed.
Theorem C97_refuted : exists r n pl vs fs, mk_plane r n = Ok pl /\ numeric vs = true /\ Forall (in_mesh vs) fs /\ none_on pl vs /\
  forall sch fuel, mesh_xsections sch fuel pl (mkmesh vs fs) None = Some (Err TypeError).
Proof.
  exists p97, n97, (mkpl p97 (normalize1 n97)), v97, f97.
  split; [unfold mk_plane; replace (almost_zero n97 default_atol) with false by (vm_compute; reflexivity); reflexivity|].
  split; [vm_compute; reflexivity|]. split; [repeat constructor; cbn; lia|].
  split; [apply bools_forall; vm_compute; reflexivity|].
  intros sch fuel. vm_compute. reflexivity.
Qed.
Print Assumptions C97_refuted.
Theorem C97_lost_crossing : exists r n pl a b, mk_plane r n = Ok pl /\ numeric [a; b] = true /\
  nlt (signed_distance1 pl a) n0 = true /\ nlt n0 (signed_distance1 pl b) = true /\
  line_segment_xsection pl a b = None /\ line_segment_xsection pl b a = None.
Proof.
  exists p97, n97, (mkpl p97 (normalize1 n97)), (nth 1 v97 p97), (nth 3 v97 p97).
  split; [unfold mk_plane; replace (almost_zero n97 default_atol) with false by (vm_compute; reflexivity); reflexivity|].
  repeat split; vm_compute; reflexivity.
Qed.
Print Assumptions C97_lost_crossing.
(** When exactly it raises TypeError: when some face that is not all on one side has fewer
    than two edges on which a point is found. *)
Theorem C97_raises : forall sch (pl : plane b64) vs fs cut f, mesh_intersecting_faces pl (mkmesh vs fs) = Ok cut -> In f cut -> ~ two_found pl vs cut f ->
  forall fuel nb, mesh_xsections sch fuel pl (mkmesh vs fs) nb = Some (Err TypeError).
Proof.
  intros sch pl vs fs cut f HS If NF fuel nb. unfold mesh_xsections. rewrite (slice_raises HS (pl_r0 pl)) by eauto. reflexivity.
Qed.
Print Assumptions C97_raises.
Theorem C97_returns : forall sch (pl : plane b64) vs fs cut, possible sch -> mesh_intersecting_faces pl (mkmesh vs fs) = Ok cut -> (forall f, In f cut -> two_found pl vs cut f) ->
  exists chains,
    (forall fuel, (2 * length fs + 2 <= fuel)%nat -> mesh_xsections sch fuel pl (mkmesh vs fs) None = Some (traverse (fun c => init_points (Some (fst c)) (snd c)) chains)) /\
    Forall (fun c => fst c <> [] /\ forall x, In x (fst c) -> exists f u v, In f cut /\ In (u, v) (sides f) /\ meets_at pl vs u v x) chains /\
    (forall f, In f cut -> exists c k1 k2 u1 v1 u2 v2, In c chains /\ k1 <> k2 /\ nth_error (sides f) k1 = Some (u1, v1) /\ nth_error (sides f) k2 = Some (u2, v2) /\
      met_on pl vs u1 v1 (fst c) /\ met_on pl vs u2 v2 (fst c)).
Proof.
  intros sch pl vs fs cut Fr HS T. destruct (slice_returns HS (pl_r0 pl) T Fr) as (comps & R & G & Cp). exists comps. split; [|split; [exact G|exact Cp]].
  intros fuel L. unfold mesh_xsections. now rewrite (R fuel L).
Qed.
Print Assumptions C97_returns.

(** the tetrahedron of [C97_refuted] meets the condition of [C97_raises]; the one of
    [C98_example] below meets that of [C97_returns] *)
Lemma init_not_type (vs : list (V3 b64)) c : init_points (Some vs) c <> Err TypeError.
Proof.
  destruct (numeric vs) eqn:E; [rewrite init_points_some by exact E; destruct (c && _); discriminate|].
  unfold init_points, set_points. rewrite E. discriminate.
Qed.
Example C97_raises_example : exists cut, mesh_intersecting_faces (mkpl p97 (normalize1 n97)) (mkmesh v97 f97) = Ok cut /\ ~ (forall f, In f cut -> two_found (mkpl p97 (normalize1 n97)) v97 cut f).
Proof.
  set (pl := mkpl p97 (normalize1 n97)).
  assert (T : mesh_xsections plain (2 * length f97 + 2) pl (mkmesh v97 f97) None = Some (Err TypeError)) by (vm_compute; reflexivity).
  destruct (mesh_intersecting_faces pl (mkmesh v97 f97)) as [cut|e] eqn:E.
  - exists cut. split; [reflexivity|]. intros H. destruct (C97_returns plain pl v97 f97 cut C28_example_schedule E H) as (chains & R & _). specialize (R (2 * length f97 + 2)%nat (Nat.le_refl _)). assert (T2 : Some (@Err (list (polyline b64)) TypeError) = Some (traverse (fun c => init_points (Some (fst c)) (snd c)) chains)) by exact (eq_trans (eq_sym T) R). clear T R. rename T2 into T. symmetry in T.
    injection T as T. clear - T. induction chains as [|c chains IH]; [discriminate|]. cbn [traverse] in T. pose proof (init_not_type (fst c) (snd c)) as N. destruct (init_points (Some (fst c)) (snd c)) as [P|e]; cbn [bindr] in T; [|congruence].
    destruct (traverse _ chains) as [Ps|e]; [discriminate|]. cbn [bindr] in T. auto.
  - exfalso. assert (B : (match mesh_intersecting_faces pl (mkmesh v97 f97) with Ok _ => true | Err _ => false end) = true) by (vm_compute; reflexivity). rewrite E in B. discriminate.
Qed.

(** ** C98 *)
(** [M] bounds the coordinates of the mesh and of the plane's point; every vertex is at a
    computed distance of at least [2^-40 * M] from the plane (for a mesh of metres within a
    kilometre: a nanometre).  Then slicing never raises, whatever the faces; the vertices of
    the polylines are finite, in the box of an edge whose ends are on different sides, and
    within [2^-43 * M] of the plane; and for every face there is a polyline on which all its
    crossings lie. *)
Theorem C98_clear_of_the_plane : forall sch r n pl vs fs M, possible sch -> mk_plane r n = Ok pl -> within (bpow radix2 400) n ->
  bpow radix2 (-800) <= M <= bpow radix2 800 -> within M r -> Forall (within M) vs -> Forall (in_mesh vs) fs ->
  Forall (fun v => bpow radix2 (-40) * M <= Rabs (Bval (signed_distance1 pl v))) vs ->
  exists polys,
    (forall fuel, (2 * length fs + 2 <= fuel)%nat -> mesh_xsections sch fuel pl (mkmesh vs fs) None = Some (Ok polys)) /\
    (forall P, In P polys -> exists ws, p_v P = Some ws /\ ws <> [] /\ forall x, In x ws -> within M x /\ Rabs (exact_distance pl x) <= bpow radix2 (-43) * M /\
      exists f u v A B, In f fs /\ In (u, v) (sides f) /\ straddles pl vs u v /\ nth_error vs u = Some A /\ nth_error vs v = Some B /\ between3 (Rval3 A) (Rval3 B) (Rval3 x)) /\
    (forall f, In f fs -> (exists u v, In (u, v) (sides f) /\ straddles pl vs u v) ->
      exists P ws, In P polys /\ p_v P = Some ws /\ forall u v, In (u, v) (sides f) -> straddles pl vs u v ->
        exists x y, (meets_at pl vs u v x \/ meets_at pl vs v u x) /\ In y ws /\ Rval3 y = Rval3 x).
Proof.
  intros sch r n pl vs fs M Fr Hpl Wn HM Wr WV FR CV. destruct (plane_normal Hpl Wn) as [Er Wn']. rewrite <- Er in Wr.
  assert (E40 : bpow radix2 (-40) = 4096 * eps) by (change 4096 with (bpow radix2 12); unfold eps; rewrite <- bpow_plus; reflexivity).
  assert (E43 : bpow radix2 (-43) = 512 * eps) by (change 512 with (bpow radix2 9); unfold eps; rewrite <- bpow_plus; reflexivity).
  assert (CV' : Forall (clear_of M pl) vs).
  { refine (Forall_impl _ _ CV). intros v H. unfold clear_of. rewrite E40 in H. lra. }
  assert (FR' : forall a b c, In (a, b, c) fs -> (a < length vs /\ b < length vs /\ c < length vs)%nat).
  { intros a b c I. rewrite Forall_forall in FR. exact (FR _ I). }
  destruct (clear_sections HM Wr Wn' WV CV' FR' Fr) as (S & comps & HS & IS & R & G & Cp).
  exists (map (fun c => poly (snd c) (fst c)) comps). split; [exact R|]. split.
  - intros P I. apply in_map_iff in I. destruct I as (c & <- & I). rewrite Forall_forall in G. destruct (G c I) as [NE H]. exists (fst c). split; [reflexivity|]. split; [exact NE|].
    intros x Ix. destruct (H x Ix) as (f & u & v & A & B & If & Is & Eu & Ev & O & W & Bt & D). split; [exact W|]. split.
    + rewrite E43. pose proof (bpow_gt_0 radix2 (-800)). pose proof eps_pos. assert (0 < eps * M) by (apply Rmult_lt_0_compat; lra). lra.
    + exists f, u, v, A, B. split; [exact (IS _ If)|]. split; [exact Is|]. split; [exists A, B; auto|]. auto.
  - intros f If (u0 & v0 & Is0 & A0 & B0 & E1 & E2 & O). destruct (Cp f If) as (c & Ic & H); [exists u0, v0, A0, B0; auto|].
    exists (poly (snd c) (fst c)), (fst c). split; [apply in_map_iff; eauto|]. split; [reflexivity|]. intros u v Is (A & B & Eu & Ev & Op). exact (H u v A B Is Eu Ev Op).
Qed.
Print Assumptions C98_clear_of_the_plane.
(** A crossing of two such points, and no crossing if they are on the same side. *)
Theorem C98_edge : forall r n pl a b M, mk_plane r n = Ok pl -> within (bpow radix2 400) n -> bpow radix2 (-800) <= M <= bpow radix2 800 -> within M r ->
  within M a -> within M b -> bpow radix2 (-40) * M <= Rabs (Bval (signed_distance1 pl a)) -> bpow radix2 (-40) * M <= Rabs (Bval (signed_distance1 pl b)) ->
  (Bval (signed_distance1 pl a) * Bval (signed_distance1 pl b) < 0 ->
    exists x, line_segment_xsection pl a b = Some x /\ within M x /\ between3 (Rval3 a) (Rval3 b) (Rval3 x) /\ Rabs (exact_distance pl x) <= bpow radix2 (-43) * M) /\
  (0 < Bval (signed_distance1 pl a) * Bval (signed_distance1 pl b) -> line_segment_xsection pl a b = None).
Proof.
  intros r n pl a b M Hpl Wn HM Wr Wa Wb Ca Cb. destruct (plane_normal Hpl Wn) as [Er Wn']. rewrite <- Er in Wr.
  assert (E40 : bpow radix2 (-40) = 4096 * eps) by (change 4096 with (bpow radix2 12); unfold eps; rewrite <- bpow_plus; reflexivity).
  assert (E43 : bpow radix2 (-43) = 512 * eps) by (change 512 with (bpow radix2 9); unfold eps; rewrite <- bpow_plus; reflexivity).
  rewrite E40 in Ca, Cb. assert (Ca' : clear_of M pl a) by (unfold clear_of; lra). assert (Cb' : clear_of M pl b) by (unfold clear_of; lra).
  split; intros O.
  - destruct (crossing_found HM Wr Wn' Wa Wb Ca' Cb' O) as (x & E & W & Bt & D). exists x. split; [exact E|]. split; [exact W|]. split; [exact Bt|].
    rewrite E43. pose proof (bpow_gt_0 radix2 (-800)). pose proof eps_pos. assert (0 < eps * M) by (apply Rmult_lt_0_compat; destruct HM; lra). lra.
  - exact (no_crossing HM Wr Wn' Wa Wb Ca' Cb' O).
Qed.
Print Assumptions C98_edge.

(** ** Example: a tetrahedron cut below its top *)
Definition tetra98 : list (V3 b64) := [mk3 (dec 0 1) (dec 0 1) (dec 1 1); mk3 (dec 1 1) (dec 0 1) (dec (-1) 1); mk3 (dec (-1) 1) (dec 1 1) (dec (-1) 1); mk3 (dec (-1) 1) (dec (-1) 1) (dec (-1) 1)].
Definition faces98 : list (nat * nat * nat) := [(0, 1, 2); (0, 2, 3); (0, 3, 1); (1, 3, 2)]%nat.
Definition point98 : V3 b64 := mk3 (dec 0 1) (dec 0 1) (dec 3 10).
Definition normal98 : V3 b64 := mk3 (dec 0 1) (dec 1 10) (dec 2 1).
Definition plane98 : plane b64 := mkpl point98 (normalize1 normal98).
Lemma abs_ge (x l : b64) : bfin x = true -> bfin l = true -> nle l (nabs x) = true -> Bval l <= Rabs (Bval x).
Proof.
  intros F Fl H. assert (FA : bfin (nabs x) = true) by (change (BinarySingleNaN.is_finite (BinarySingleNaN.Babs x) = true); rewrite BinarySingleNaN.is_finite_Babs; exact F).
  rewrite ble_spec in H by auto. revert H. case Rle_bool_spec; [|discriminate]. intros H _. unfold Bval at 1. fold (Bval l). pose proof (@BinarySingleNaN.B2R_Babs 53 1024 x) as E. change (Bval (nabs x) = Rabs (Bval x)) in E. change (BinarySingleNaN.B2R l) with (Bval l) in *. change (BinarySingleNaN.B2R x) with (Bval x) in *. lra.
Qed.
Lemma abs_below (x l : b64) : bfin x = true -> bfin l = true -> nle (nabs x) l = true -> Rabs (Bval x) <= Bval l.
Proof.
  intros F Fl H. assert (FA : bfin (nabs x) = true) by (change (BinarySingleNaN.is_finite (BinarySingleNaN.Babs x) = true); rewrite BinarySingleNaN.is_finite_Babs; exact F).
  rewrite ble_spec in H by auto. revert H. case Rle_bool_spec; [|discriminate]. intros H _. unfold Bval at 1. fold (Bval l). pose proof (@BinarySingleNaN.B2R_Babs 53 1024 x) as E. change (Bval (nabs x) = Rabs (Bval x)) in E. change (BinarySingleNaN.B2R l) with (Bval l) in *. change (BinarySingleNaN.B2R x) with (Bval x) in *. lra.
Qed.
Lemma dec1 : Bval (dec 1 1) = 1.
Proof. rewrite (@Bval_me (dec 1 1) 4503599627370496%Z (-52)%Z) by (vm_compute; reflexivity). change 4503599627370496%Z with (Zpower radix2 52). rewrite IZR_Zpower by lia. rewrite <- bpow_plus. reflexivity. Qed.
Lemma dec4 : Bval (dec 4 1) = 4.
Proof. rewrite (@Bval_me (dec 4 1) 4503599627370496%Z (-50)%Z) by (vm_compute; reflexivity). change 4503599627370496%Z with (Zpower radix2 52). rewrite IZR_Zpower by lia. rewrite <- bpow_plus. reflexivity. Qed.
Definition small (l : b64) (v : V3 b64) : bool := fin3b v && nle (nabs (c0 v)) l && nle (nabs (c1 v)) l && nle (nabs (c2 v)) l.
Lemma small_within l v : bfin l = true -> small l v = true -> within (Bval l) v.
Proof.
  intros Fl H. unfold small in H. apply andb_prop in H. destruct H as [H H2]. apply andb_prop in H. destruct H as [H H1]. apply andb_prop in H. destruct H as [H H0].
  pose proof H as Q. unfold fin3b in Q. apply andb_prop in Q. destruct Q as [Q F2]. apply andb_prop in Q. destruct Q as [F0 F1]. split; [exact H|]. repeat split; apply abs_below; auto.
Qed.
Lemma within_le X Y v : X <= Y -> within X v -> within Y v.
Proof. intros L (F & A & B & C). split; [exact F|]. repeat split; lra. Qed.
Example C98_example : mk_plane point98 normal98 = Ok plane98 /\ within (bpow radix2 400) normal98 /\ bpow radix2 (-800) <= 1 <= bpow radix2 800 /\
  within 1 point98 /\ Forall (within 1) tetra98 /\ Forall (in_mesh tetra98) faces98 /\
  Forall (fun v => bpow radix2 (-40) * 1 <= Rabs (Bval (signed_distance1 plane98 v))) tetra98.
Proof.
  assert (K1 : bpow radix2 (-40) <= / 8) by (change (/ 8) with (bpow radix2 (-3)); apply bpow_le; lia).
  assert (KF : bfin (dec 1 1) = true) by (vm_compute; reflexivity).
  split; [unfold mk_plane; replace (almost_zero normal98 default_atol) with false by (vm_compute; reflexivity); reflexivity|].
  split; [apply within_le with (X := Bval (dec 4 1)); [rewrite dec4; change 4 with (bpow radix2 2); apply bpow_le; lia|apply small_within; vm_compute; reflexivity]|].
  split; [change 1 with (bpow radix2 0); split; apply bpow_le; lia|].
  rewrite <- dec1. split; [apply small_within; vm_compute; reflexivity|].
  split; [repeat (first [apply Forall_nil|apply Forall_cons]); apply small_within; vm_compute; reflexivity|]. split; [repeat constructor; cbn; lia|].
  assert (S : forall v, bfin (signed_distance1 plane98 v) && nle (dec 1 8) (nabs (signed_distance1 plane98 v)) = true -> bpow radix2 (-40) * Bval (dec 1 1) <= Rabs (Bval (signed_distance1 plane98 v))).
  { intros v H. apply andb_prop in H. destruct H as [F H]. apply abs_ge in H; [|exact F|vm_compute; reflexivity]. rewrite dec1.
    rewrite (@Bval_me (dec 1 8) 4503599627370496%Z (-55)%Z) in H by (vm_compute; reflexivity). change 4503599627370496%Z with (Zpower radix2 52) in H. rewrite IZR_Zpower in H by lia. rewrite <- bpow_plus in H. change (bpow radix2 (52 + -55)) with (/ 8) in H. lra. }
  repeat (first [apply Forall_nil|apply Forall_cons]); apply S; vm_compute; reflexivity.
Qed.
(** three faces of the tetrahedron are cut, and slicing it gives one closed triangle *)
Example C98_triangle : exists sch P ws, possible sch /\ mesh_xsections sch 20 plane98 (mkmesh tetra98 faces98) None = Some (Ok [P]) /\ p_v P = Some ws /\ length ws = 3%nat /\ p_closed P = true.
Proof.
  exists plain. assert (B : (match mesh_xsections plain 20 plane98 (mkmesh tetra98 faces98) None with Some (Ok [P]) => match p_v P with Some ws => Nat.eqb (length ws) 3 && p_closed P | None => false end | _ => false end) = true) by (vm_compute; reflexivity).
  destruct (mesh_xsections plain 20 plane98 (mkmesh tetra98 faces98) None) as [[[|P [|Q l]]|]|] eqn:E; try discriminate B. destruct (p_v P) as [ws|] eqn:Ep; [|discriminate B]. apply andb_prop in B. destruct B as [B1 B2]. apply Nat.eqb_eq in B1.
  exists P, ws. split; [exact C28_example_schedule|]. repeat split; auto.
Qed.
