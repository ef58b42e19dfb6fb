(** * Properties C30 - C36: Polyline. *)
From Coq Require Import Reals ZArith List Bool Lra Lia Permutation Sorted.
From Verif Require Import Num Vec RVec SpecGeom SpecPoly NpList MVx MPlane MSegment MPolyline VLemmas XLemmas PVx PPlane PPlane2 PSegment
  PPolyline PPolyline2 PPolyline3.
Import ListNotations.
Local Open Scope R_scope.
Set Implicit Arguments.
Unset Strict Implicit.

(** C30.  After every history the edges are [chain_edges] of the vertices, and a
    call that raises changes nothing, except when the polyline is closed and has
    an empty array of vertices; that case is C131. *)
Definition edges_match {F} (p : polyline F) : Prop :=
  match p_v p with
  | None => p_e p = None
  | Some v => p_e p = Some (chain_edges (length v) (p_closed p))
  end.
Definition closed_without_vertices {F} (p : polyline F) : Prop := p_closed p = true /\ p_v p = Some [].
Theorem C30_edges_match_after_any_history : forall F (N : Num F) (a : array_in F) c p0 (ops : list op),
  init a c = Ok p0 -> edges_match (run p0 ops) \/ closed_without_vertices (run p0 ops).
Proof. intros F N a c p0 ops H. exact (history ops H). Qed.
Print Assumptions C30_edges_match_after_any_history.
Theorem C30_failed_operation_changes_nothing : forall F (N : Num F) (p : polyline F) (o : op),
  snd (step p o) <> None -> ~ closed_without_vertices (fst (step p o)) -> fst (step p o) = p.
Proof. intros F N p o. apply atomic. Qed.
Print Assumptions C30_failed_operation_changes_nothing.
(** setting [closed] keeps the vertices; setting [v] installs the coerced
    array and keeps the closedness *)
Theorem C30_setters : forall F (N : Num F) (p : polyline F),
  (forall c, p_v (fst (step p (SetClosed c))) = p_v p /\ p_closed (fst (step p (SetClosed c))) = c) /\
  (forall a v, as_points a = Ok v -> match v with None => True | Some l => numeric l = true end -> p_v (fst (step p (SetV a))) = v /\ p_closed (fst (step p (SetV a))) = p_closed p) /\
  (forall a e, as_points a = Err e -> step p (SetV a) = (p, Some e)) /\
  (forall a l, as_points a = Ok (Some l) -> numeric l = false -> step p (SetV a) = (p, Some ValueError)).
Proof.
  intros F N p. repeat split; intros.
  - apply set_closed_keeps.
  - apply set_closed_keeps.
  - apply set_v_keeps; auto. destruct v; [exact H0|reflexivity].
  - apply (set_v_keeps p H). destruct v; [exact H0|reflexivity].
  - unfold step, set_v. now rewrite H.
  - unfold step, set_v, set_points. now rewrite H, H0.
Qed.
Print Assumptions C30_setters.
(** what the coerced array is: the rows of an (n, 3) array, the columns of a
    (3, n) array, None for None, and nothing else *)
Theorem C30_point_arrays : forall F (N : Num F) r c (at_ : nat -> nat -> F),
  as_points (@InNone F) = Ok None /\
  (c = 3%nat -> exists l, as_points (In2 r c at_) = Ok (Some l) /\ length l = r /\
     forall i d, (i < r)%nat -> nth i l d = mk3 (at_ i 0%nat) (at_ i 1%nat) (at_ i 2%nat)) /\
  (c <> 3%nat -> r = 3%nat -> exists l, as_points (In2 r c at_) = Ok (Some l) /\ length l = c /\
     forall j d, (j < c)%nat -> nth j l d = mk3 (at_ 0%nat j) (at_ 1%nat j) (at_ 2%nat j)) /\
  (c <> 3%nat -> r <> 3%nat -> as_points (In2 r c at_) = Err ValueError).
Proof.
  intros F N r c at_. split; [reflexivity|].
  assert (NT : forall (f : nat -> V3 F) n i d, (i < n)%nat -> nth i (map f (seq 0 n)) d = f i).
  { intros f n i d H. rewrite (nth_indep _ d (f 0%nat)) by (rewrite map_length, seq_length; lia). rewrite map_nth, seq_nth by lia. reflexivity. }
  split; [|split].
  - intros ->. eexists. split; [reflexivity|]. split; [now rewrite map_length, seq_length|]. intros i d H. now rewrite NT.
  - intros H ->. unfold as_points. apply Nat.eqb_neq in H. rewrite H. eexists. split; [reflexivity|]. split; [now rewrite map_length, seq_length|].
    intros i d L. now rewrite NT.
  - intros H1 H2. unfold as_points. apply Nat.eqb_neq in H1. apply Nat.eqb_neq in H2. now rewrite H1, H2.
Qed.
Print Assumptions C30_point_arrays.
Theorem C30_chain_edges : forall n,
  chain_edges n false = map (fun i => (i, S i)) (seq 0 (n - 1)) /\
  chain_edges (S n) true = map (fun i => (i, S i)) (seq 0 n) ++ [(n, 0%nat)].
Proof.
  intros n. split.
  - unfold chain_edges. apply open_segs_seq.
  - unfold chain_edges. cbn [seq]. rewrite closed_segs. change (0%nat :: seq 1 n ++ [0%nat]) with (seq 0 (S n) ++ [0%nat]).
    rewrite seq_S, <- app_assoc. cbn [app plus]. rewrite open_segs_snoc. change [n] with [(0 + n)%nat] at 1. rewrite <- seq_S, open_segs_seq.
    now replace (S n - 1)%nat with n by lia.
Qed.
Print Assumptions C30_chain_edges.
(** assigning an empty array to a closed polyline raises, and yet the vertices
    are gone and the edges still name them *)
Theorem C131_failed_assignment_refuted : forall (x y z : R) (at_ : nat -> nat -> xr),
  exists p0 p1, init (In2 3 3 (fun i j => Fin (nth j (nth i [[x;y;z];[y;z;x];[z;x;y]] []) x))) true = Ok p0 /\
    step p0 (SetV (In2 0 3 at_)) = (p1, Some IndexError) /\
    p1 <> p0 /\ p_v p1 = Some [] /\ p_e p1 = Some [(0,1);(1,2);(2,0)]%nat.
Proof. intros. eexists. eexists. split; [reflexivity|]. split; [reflexivity|]. split; [discriminate|]. split; reflexivity. Qed.
Print Assumptions C131_failed_assignment_refuted.
Example C30_example : exists p0, init (F:=xr) (In2 2 3 (fun i j => Fin (INR (i + j)))) false = Ok p0 /\
  p_e (run p0 [SetClosed true; Flip; SetV (In2 3 3 (fun i j => Fin (INR (i * j)))); SetV (InBad ValueError)]) = Some [(0,1);(1,2);(2,0)]%nat.
Proof. eexists. split; reflexivity. Qed.

(** a Polyline(vs, closed=c) object, as the constructor returns it *)
Definition is_polyline (c : bool) (vs : list (V3 R)) (P : polyline xr) : Prop := init_points (Some (map fin3 vs)) c = Ok P.
Lemma is_polyline_inv c vs P : is_polyline c vs P -> P = fpoly c vs /\ ~ (c = true /\ vs = []).
Proof.
  unfold is_polyline. rewrite init_points_some, map_length by apply numeric_fin. destruct c; cbn [andb].
  - destruct vs; cbn [length Nat.eqb]; [discriminate|]. intros [= <-]. split; [reflexivity|]. intros [_ H]. discriminate.
  - intros [= <-]. split; [reflexivity|]. intros [H _]. discriminate.
Qed.
Lemma is_polyline_fpoly c vs : ~ (c = true /\ vs = []) -> is_polyline c vs (fpoly c vs).
Proof.
  unfold is_polyline. rewrite init_points_some, map_length by apply numeric_fin. destruct c; cbn [andb]; [|reflexivity].
  destruct vs; [intros []; auto|reflexivity].
Qed.
Theorem C30_constructor : forall c vs, (c = true -> vs <> []) ->
  exists P, is_polyline c vs P /\ p_v P = Some (map fin3 vs) /\ p_closed P = c /\ p_e P = Some (chain_edges (length vs) c).
Proof.
  intros c vs H. exists (fpoly c vs). split.
  - apply is_polyline_fpoly. intros [H1 H2]. now apply H.
  - cbn. rewrite map_length. auto.
Qed.
Print Assumptions C30_constructor.

(** C31 *)
Theorem C31_intersect_plane : forall p n pl, mk_plane (fin3 p) (fin3 n) = Ok pl ->
  forall c vs P, is_polyline c vs P -> Forall (fun ab => ~ lies_in p n ab) (segs c vs) ->
  exists xs idx, intersect_plane P pl = Ok (map fin3 xs, idx) /\
    StronglySorted lt idx /\ (forall i, In i idx <-> exists ab, nth_error (segs c vs) i = Some ab /\ meets p n ab) /\
    Forall2 (fun i x => exists ab, nth_error (segs c vs) i = Some ab /\ on_plane p n x /\ on_segment (fst ab) (snd ab) x) idx xs.
Proof. intros p n pl Hpl c vs P HP. destruct (is_polyline_inv HP) as [-> _]. now apply intersect_spec. Qed.
Print Assumptions C31_intersect_plane.
Definition square : list (V3 R) := [mk3 0 0 0; mk3 1 0 0; mk3 1 1 0; mk3 0 1 0].
Example C31_example : Forall (fun ab => ~ lies_in (mk3 (1/2) 0 0) (mk3 1 0 0) ab) (segs true square) /\ exists P, is_polyline true square P.
Proof.
  split.
  - repeat constructor; unfold lies_in, on_plane, rdot, rsub; cbn; lra.
  - eexists. reflexivity.
Qed.

(** C32 *)
Theorem C32_cut_open : forall p n pl, mk_plane (fin3 p) (fin3 n) = Ok pl ->
  forall vs P, is_polyline false vs P -> Forall (fun ab => ~ lies_in p n ab) (segs false vs) -> crossings p n false vs = 1%nat ->
  exists ws Q, cut_by_plane P pl = Ok Q /\ is_polyline false ws Q /\
    (forall z, on_chain false ws z <-> on_chain false vs z /\ 0 <= sdist p n z) /\
    exists l1 a b l2 x, vs = l1 ++ a :: b :: l2 /\ on_plane p n x /\ on_segment a b x /\
      (sdist p n a < sdist p n b /\ ws = x :: b :: l2 \/ sdist p n b <= sdist p n a /\ ws = l1 ++ [a; x]).
Proof.
  intros p n pl Hpl vs P HP H1 H2. destruct (is_polyline_inv HP) as [-> _].
  destruct (cut_open_spec Hpl H1 H2) as (l1 & a & b & l2 & x & E & Hx & Hs & Hc & Hz).
  eexists. exists (fpoly false (if Rlt_dec (sdist p n a) (sdist p n b) then x :: b :: l2 else l1 ++ [a; x])).
  split; [exact Hc|]. split; [apply is_polyline_fpoly; intros [? ?]; discriminate|]. split; [exact Hz|].
  exists l1, a, b, l2, x. repeat (split; [assumption|]). destruct Rlt_dec; [left|right]; split; auto. lra.
Qed.
Print Assumptions C32_cut_open.
Theorem C32_cut_open_rejects : forall p n pl, mk_plane (fin3 p) (fin3 n) = Ok pl ->
  forall vs P, is_polyline false vs P -> crossings p n false vs <> 1%nat -> cut_by_plane P pl = Err ValueError.
Proof. intros p n pl Hpl vs P HP. destruct (is_polyline_inv HP) as [-> _]. now apply cut_open_rejects. Qed.
Print Assumptions C32_cut_open_rejects.
(** [crossings] counts the edges of C31 *)
Theorem C32_meetsb : forall p n ab, meetsb p n ab = true <-> meets p n ab.
Proof. exact meetsb_spec. Qed.
Print Assumptions C32_meetsb.
Lemma meets_ex (p n a b : V3 R) : sdist p n a * sdist p n b < 0 -> meetsb p n (a, b) = true.
Proof. intros H. apply meetsb_spec. unfold meets; cbn. split; intros [? ?]; nra. Qed.
Lemma meets_not (p n a b : V3 R) : 0 < sdist p n a * sdist p n b -> meetsb p n (a, b) = false.
Proof.
  intros H. destruct (meetsb p n (a, b)) eqn:E; [|reflexivity]. exfalso. apply meetsb_spec in E. unfold meets in E; cbn in E. destruct E as [E1 E2].
  destruct (Rtotal_order (sdist p n a) 0) as [K|[K|K]]; destruct (Rtotal_order (sdist p n b) 0) as [L|[L|L]]; try (apply E1; split; lra); try (apply E2; split; lra); nra.
Qed.
Lemma sdist_x a x : sdist (mk3 a 0 0) (mk3 1 0 0) x = c0 x - a.
Proof.
  destruct x as [x y z]. unfold sdist, rdot, rsub, rnorm; cbn [c0 c1 c2].
  replace (sqrt _) with 1; [field|]. transitivity (sqrt 1); [symmetry; apply sqrt_1|]. f_equal. unfold rdot; cbn; ring.
Qed.
Example C32_example : let vs := [mk3 0 0 0; mk3 1 0 0; mk3 2 5 0] in
  Forall (fun ab => ~ lies_in (mk3 (1/2) 0 0) (mk3 1 0 0) ab) (segs false vs) /\ crossings (mk3 (1/2) 0 0) (mk3 1 0 0) false vs = 1%nat.
Proof.
  cbn zeta. split.
  - repeat constructor; unfold lies_in, on_plane, rdot, rsub; cbn; lra.
  - unfold crossings, segs, walk. cbn [combine tl filter].
    rewrite meets_ex by (rewrite !sdist_x; cbn; lra). rewrite meets_not by (rewrite !sdist_x; cbn; lra). reflexivity.
Qed.

(** C33 *)
Theorem C33_cut_closed : forall p n pl, mk_plane (fin3 p) (fin3 n) = Ok pl ->
  forall vs P, is_polyline true vs P -> Forall (fun v => ~ on_plane p n v) vs -> crossings p n true vs = 2%nat ->
  exists fr ba x y Q,
    cut_by_plane P pl = Ok Q /\ is_polyline false (x :: fr ++ [y]) Q /\
    (** the vertices, from some starting point on, are front vertices, then back vertices *)
    (exists l1 l2, vs = l1 ++ l2 /\ l2 ++ l1 = fr ++ ba) /\ fr <> [] /\ ba <> [] /\
    Forall (fun v => 0 < sdist p n v) fr /\ Forall (fun v => sdist p n v < 0) ba /\
    on_plane p n x /\ on_segment (last ba rzero) (hd rzero fr) x /\
    on_plane p n y /\ on_segment (last fr rzero) (hd rzero ba) y /\
    (forall z, on_chain false (x :: fr ++ [y]) z <-> on_chain true vs z /\ 0 <= sdist p n z).
Proof.
  intros p n pl Hpl vs P HP H1 H2. destruct (is_polyline_inv HP) as [-> Hv].
  destruct (cut_closed_spec Hpl (vs:=vs)) as (ws & Hc & Ha); auto.
  pose proof (front_arc_points Hpl Ha) as Hz. destruct Ha as (l1 & l2 & f0 & fr & b0 & ba & x & y & E1 & E2 & F1 & F2 & X1 & X2 & Y1 & Y2 & ->).
  exists (f0 :: fr), (b0 :: ba), x, y. eexists. split; [exact Hc|]. split; [apply is_polyline_fpoly; intros [? ?]; discriminate|].
  split; [exists l1, l2; auto|]. split; [discriminate|]. split; [discriminate|].
  assert (L : forall (a : V3 R) l, last (a :: l) rzero = last (a :: l) a).
  { intros a l. destruct (exists_last (l := a :: l)) as (l'&w&->); [discriminate|]. now rewrite !last_last. }
  rewrite !L. cbn [hd]. repeat (split; [assumption|]). exact Hz.
Qed.
Print Assumptions C33_cut_closed.
Theorem C33_cut_closed_rejects : forall p n pl, mk_plane (fin3 p) (fin3 n) = Ok pl ->
  forall vs P, is_polyline true vs P -> crossings p n true vs <> 2%nat -> cut_by_plane P pl = Err ValueError.
Proof. intros p n pl Hpl vs P HP. destruct (is_polyline_inv HP) as [-> _]. now apply cut_closed_rejects. Qed.
Print Assumptions C33_cut_closed_rejects.
Example C33_example : Forall (fun v => ~ on_plane (mk3 (1/2) 0 0) (mk3 1 0 0) v) square /\ crossings (mk3 (1/2) 0 0) (mk3 1 0 0) true square = 2%nat.
Proof.
  split.
  - repeat constructor; unfold on_plane, rdot, rsub; cbn; lra.
  - unfold crossings, segs, walk, square. cbn [combine tl filter app firstn].
    rewrite (meets_ex (a:=mk3 0 0 0)) by (rewrite !sdist_x; cbn; lra). rewrite (meets_not (a:=mk3 1 0 0)) by (rewrite !sdist_x; cbn; lra).
    rewrite (meets_ex (a:=mk3 1 1 0)) by (rewrite !sdist_x; cbn; lra). rewrite (meets_not (a:=mk3 0 1 0)) by (rewrite !sdist_x; cbn; lra). reflexivity.
Qed.

(** C34.  [ks] says into how many equal pieces each edge is cut: the fewest
    that are not longer than [M]. *)
Definition pieces (k : nat) (ab : V3 R * V3 R) : list (V3 R) := map (fun i => lerp (INR i / INR k) (fst ab) (snd ab)) (seq 0 k).
Theorem C34_partition_by_length : forall c vs P M, is_polyline c vs P -> vs <> [] -> 0 < M ->
  exists ks idx ws Q,
    partition_by_length P (Fin M) = (Q, Ok idx) /\ is_polyline c ws Q /\
    Forall2 (fun ab k => (1 <= k)%nat /\ seglen ab <= INR k * M /\ ((1 < k)%nat -> INR (k - 1) * M < seglen ab)) (segs c vs) ks /\
    ws = flat_map (fun kab => pieces (snd kab) (fst kab)) (combine (segs c vs) ks) ++ (if c then [] else [last vs rzero]) /\
    Forall (fun ab => seglen ab <= M) (segs c ws) /\
    chain_length c ws = chain_length c vs /\
    length idx = length vs /\ StronglySorted lt idx /\
    (forall i x, nth_error vs i = Some x -> exists j, nth_error idx i = Some j /\ nth_error ws j = Some x).
Proof.
  intros c vs P M HP Hv HM. destruct (is_polyline_inv HP) as [-> _].
  destruct (@partition_poly c vs M Hv HM) as (ks & idx & Hk & Hp & ->).
  exists ks. eexists. exists (subdivided c vs ks), (fpoly c (subdivided c vs ks)). split; [exact Hp|].
  destruct (partition_indices Hv Hk) as (I1 & I2 & I3).
  split. { apply is_polyline_fpoly. intros [-> E]. destruct vs as [|v0 vs]; [congruence|].
    destruct (I3 0%nat v0 eq_refl) as (j & _ & J). rewrite E in J. destruct j; discriminate. }
  split; [exact Hk|]. split. { unfold subdivided. now rewrite flat_map_concat_map. }
  split; [now apply subdivided_bound|]. split; [now apply subdivided_length with M|]. auto.
Qed.
Print Assumptions C34_partition_by_length.
Example C34_example : square <> [] /\ exists P, is_polyline true square P.
Proof. split; [discriminate|]. eexists. reflexivity. Qed.

(** C35 *)
Theorem C35_reindexed : forall vs P i, is_polyline true vs P -> (i < length vs)%nat ->
  exists Q mapping, reindexed P (Z.of_nat i) = Ok (Q, map Z.of_nat mapping) /\
    is_polyline true (skipn i vs ++ firstn i vs) Q /\
    total_length Q = total_length P /\
    Permutation (segs true (skipn i vs ++ firstn i vs)) (segs true vs) /\
    length mapping = length vs /\
    forall k, (k < length vs)%nat -> nth_error (segs true (skipn i vs ++ firstn i vs)) k = nth_error (segs true vs) (nth k mapping 0%nat).
Proof.
  intros vs P i HP Hi. destruct (is_polyline_inv HP) as [-> Hv]. assert (Hv' : vs <> []) by auto.
  assert (Hperm : Permutation (segs true (skipn i vs ++ firstn i vs)) (segs true vs)).
  { transitivity (segs true (firstn i vs ++ skipn i vs)); [apply closed_segs_perm|]. now rewrite firstn_skipn. }
  exists (fpoly true (skipn i vs ++ firstn i vs)), (seq i (length vs - i) ++ seq 0 i). split.
  { assert (Hm : map fin3 vs <> []) by (intros K; apply Hv'; now destruct vs).
    assert (Hl : (i <= length (map fin3 vs))%nat) by (rewrite map_length; lia).
    unfold fpoly. rewrite (reindexed_poly (numeric_fin _) Hm Hl), map_length, !map_app, skipn_map, firstn_map. reflexivity. }
  split. { apply is_polyline_fpoly. intros [_ E]. apply app_eq_nil in E. destruct E as [E1 E2].
    apply Hv'. rewrite <- (firstn_skipn i vs), E1, E2. reflexivity. }
  split. { rewrite !total_length_fin. do 2 f_equal. unfold chain_length. apply rsum_perm. now apply Permutation_map. }
  split; [exact Hperm|]. split. { rewrite app_length, !seq_length. lia. }
  intros k Hk. rewrite rot_segs by lia. rewrite rot_nth by (rewrite closed_segs_length; lia). now rewrite closed_segs_length.
Qed.
Print Assumptions C35_reindexed.
Theorem C35_reindexed_open : forall F (N : Num F) (p : polyline F) i, p_closed p = false -> reindexed p i = Err ValueError.
Proof. exact reindexed_open. Qed.
Print Assumptions C35_reindexed_open.
Theorem C35_flip : forall c vs P, is_polyline c vs P ->
  exists Q, flip P = (Q, Ok tt) /\ is_polyline c (rev vs) Q /\ flip Q = (P, Ok tt) /\ total_length Q = total_length P.
Proof.
  intros c vs P HP. destruct (is_polyline_inv HP) as [-> Hv].
  assert (Hr : ~ (c = true /\ rev vs = [])).
  { intros [-> E]. apply Hv. split; [reflexivity|]. rewrite <- (rev_involutive vs), E. reflexivity. }
  assert (K : forall ws, ~ (c = true /\ ws = []) -> flip (fpoly c ws) = (fpoly c (rev ws), Ok tt)).
  { intros ws Hw. assert (Hm : ~ (c = true /\ map fin3 ws = [])) by (intros [-> E]; apply Hw; split; [reflexivity|now destruct ws]).
    unfold fpoly. rewrite (flip_poly (numeric_fin _) Hm). now rewrite map_rev. }
  exists (fpoly c (rev vs)). split; [now apply K|]. split; [now apply is_polyline_fpoly|]. split.
  - rewrite K by assumption. now rewrite rev_involutive.
  - now rewrite !total_length_fin, chain_length_rev.
Qed.
Print Assumptions C35_flip.
Theorem C35_total_length : forall c vs P, is_polyline c vs P -> total_length P = Ok (Fin (chain_length c vs)).
Proof. intros c vs P HP. destruct (is_polyline_inv HP) as [-> _]. apply total_length_fin. Qed.
Print Assumptions C35_total_length.
(** a polyline without vertices has no segments and length 0 *)
Theorem C35_no_vertices : forall F (N : Num F) c p, init (@InNone F) c = Ok p -> segment_lengths p = Ok [] /\ total_length p = Ok (nofZ 0).
Proof. intros F N c p H. injection H as <-. split; reflexivity. Qed.
Print Assumptions C35_no_vertices.
Example C35_example : exists P, is_polyline true square P /\ (2 < length square)%nat.
Proof. eexists. split; [reflexivity|]. cbn. lia. Qed.

(** C36: the mapping is from new edges to old ones, not as documented *)
Theorem C36_documented_direction_refuted : exists vs P Q mapping old,
  is_polyline true vs P /\ reindexed P 1 = Ok (Q, map Z.of_nat mapping) /\ (old < length mapping)%nat /\
  let new_edges := segs true (skipn 1 vs ++ firstn 1 vs) in
  is_polyline true (skipn 1 vs ++ firstn 1 vs) Q /\
  nth_error new_edges (nth old mapping 0%nat) <> nth_error (segs true vs) old.
Proof.
  exists [mk3 0 0 0; mk3 1 0 0; mk3 0 1 0]. eexists. eexists. exists [1;2;0]%nat, 0%nat.
  split; [reflexivity|]. split; [reflexivity|]. split; [cbn; lia|]. cbn zeta. split; [reflexivity|].
  cbn. intros [=]; lra.
Qed.
Print Assumptions C36_documented_direction_refuted.
