(** * Properties C37 - C41: segments, barycentric coordinates, extreme points. *)
From Coq Require Import Reals ZArith List Bool Lra Lia.
From Verif Require Import Num Vec RVec SpecGeom MVx MPlane MSegment VLemmas XLemmas PVx PPlane PPlane2 PSegment.
Import ListNotations.
Local Open Scope R_scope.

(** C37 *)
Theorem C37_partition_segment : forall p1 p2 n ep,
  partition_segment (fin3 p1) (fin3 p2) NotInt ep = Err TypeError /\
  ((n < 2)%Z -> partition_segment (fin3 p1) (fin3 p2) (IntArg n) ep = Err ValueError) /\
  ((2 <= n)%Z -> partition_segment (fin3 p1) (fin3 p2) (IntArg n) ep =
     Ok (map (fun k => fin3 (lerp (INR k / IZR (if ep then n - 1 else n)) p1 p2)) (seq 0 (Z.to_nat n)))).
Proof. exact partition_segment_spec. Qed.
Print Assumptions C37_partition_segment.
Theorem C37_partition_segment_old : forall p1 p2 n,
  partition_segment_old (fin3 p1) (fin3 p2) NotInt = Err TypeError /\
  ((n < 2)%Z -> partition_segment_old (fin3 p1) (fin3 p2) (IntArg n) = Err ValueError) /\
  ((2 <= n)%Z -> p1 <> p2 -> partition_segment_old (fin3 p1) (fin3 p2) (IntArg n) =
     Ok (map (fun k => fin3 (lerp (INR k / IZR n) p1 p2)) (seq 1 (Z.to_nat n - 1)))).
Proof. exact partition_segment_old_spec. Qed.
Print Assumptions C37_partition_segment_old.
Theorem C37_partition : forall v k, (1 <= k)%nat -> v <> [] -> Forall (fun ab => fst ab <> snd ab) (combine v (tl v)) ->
  partition (map fin3 v) k =
  Ok (map fin3 (flat_map (fun ab => map (fun i => lerp (INR i / INR k) (fst ab) (snd ab)) (seq 0 k)) (combine v (tl v)) ++ [last v rzero])).
Proof. exact partition_spec. Qed.
Print Assumptions C37_partition.
(** count, and the original vertices at every k-th place *)
Theorem C37_partition_keeps_vertices : forall v k, (1 <= k)%nat -> v <> [] ->
  Forall (fun ab => fst ab <> snd ab) (combine v (tl v)) ->
  exists out, partition (map fin3 v) k = Ok (map fin3 out) /\
    length out = (k * (length v - 1) + 1)%nat /\
    forall i x, nth_error v i = Some x -> nth_error out (k * i) = Some x.
Proof. exact partition_vertices. Qed.
Print Assumptions C37_partition_keeps_vertices.
Example C37_example : Forall (fun ab : V3 R * V3 R => fst ab <> snd ab)
  (let v := [mk3 0 0 0; mk3 1 0 0; mk3 1 3 0] in combine v (tl v)).
Proof. repeat constructor; cbn; intros [=]; lra. Qed.

(** C38 *)
Theorem C38_line_intersect : forall p0 q0 p1 q1,
  (cross2 p0 q0 p1 q1 = 0 -> line_intersect (fin2 p0) (fin2 q0) (fin2 p1) (fin2 q1) = (NaN, NaN)) /\
  (cross2 p0 q0 p1 q1 <> 0 -> exists x, line_intersect (fin2 p0) (fin2 q0) (fin2 p1) (fin2 q1) = fin2 x /\
     on_line2 p0 q0 x /\ on_line2 p1 q1 x /\ forall y, on_line2 p0 q0 y -> on_line2 p1 q1 y -> y = x).
Proof. exact line_intersect_spec. Qed.
Print Assumptions C38_line_intersect.
Example C38_example : cross2 (0, 0) (1, 1) (0, 1) (1, 0) <> 0 /\ cross2 (0, 0) (1, 1) (0, 1) (2, 3) = 0.
Proof. unfold cross2; cbn. lra. Qed.

(** C39.  Lines that are not parallel, with the common point x, give x, unless
    p0 itself is the common point without being p1 or q1; that case is C132. *)
Theorem C39_intersecting_lines : forall p0 q0 p1 q1 x,
  rcross (rsub p1 q1) (rsub p0 q0) <> rzero -> on_line p0 q0 x -> on_line p1 q1 x ->
  (on_line p1 q1 p0 -> p0 = p1 \/ p0 = q1) ->
  line_intersect3 (fin3 p0) (fin3 q0) (fin3 p1) (fin3 q1) = Some (fin3 x).
Proof. exact line_intersect3_meets. Qed.
Print Assumptions C39_intersecting_lines.
Theorem C132_first_point_on_second_line_refuted : forall p0 q0 p1 q1,
  rcross (rsub p1 q1) (rsub p0 q0) <> rzero -> on_line p1 q1 p0 -> p0 <> p1 -> p0 <> q1 -> q0 <> p1 ->
  on_line p0 q0 p0 /\ line_intersect3 (fin3 p0) (fin3 q0) (fin3 p1) (fin3 q1) = None.
Proof. intros p0 q0 p1 q1 K H1 H2 H3 H4. split; [exists 0; vring|]. now apply line_intersect3_on_first. Qed.
Print Assumptions C132_first_point_on_second_line_refuted.
Theorem C39_parallel_lines : forall p0 q0 p1 q1,
  rcross (rsub p1 q1) (rsub p0 q0) = rzero -> (forall x, on_line p0 q0 x -> ~ on_line p1 q1 x) ->
  line_intersect3 (fin3 p0) (fin3 q0) (fin3 p1) (fin3 q1) = None.
Proof. exact line_intersect3_parallel. Qed.
Print Assumptions C39_parallel_lines.
(** the hypotheses are met: two lines crossing at (1,0,0), and a T-junction for the refutation *)
Example C39_example : let p0 := mk3 1 (-1) 0 in let q0 := mk3 1 1 0 in let p1 := mk3 0 0 0 in let q1 := mk3 2 0 0 in
  rcross (rsub p1 q1) (rsub p0 q0) <> rzero /\ on_line p0 q0 (mk3 1 0 0) /\ on_line p1 q1 (mk3 1 0 0) /\ ~ on_line p1 q1 p0.
Proof.
  cbn zeta. split; [unfold rcross, rsub, rzero; cbn; intros [=]; lra|]. split; [|split].
  - exists (1/2). unfold lerp, radd, rscale, rsub; cbn. f_equal; lra.
  - exists (1/2). unfold lerp, radd, rscale, rsub; cbn. f_equal; lra.
  - intros [t H]. unfold lerp, radd, rscale, rsub in H; cbn in H. injection H. intros. lra.
Qed.
Example C39_refuted_example : let p0 := mk3 1 0 0 in let q0 := mk3 1 1 0 in let p1 := mk3 0 0 0 in let q1 := mk3 2 0 0 in
  line_intersect3 (fin3 p0) (fin3 q0) (fin3 p1) (fin3 q1) = None.
Proof.
  cbn zeta. apply line_intersect3_on_first; try (unfold rcross, rsub, rzero; cbn; intros [=]; lra).
  - exists (1/2). unfold lerp, radd, rscale, rsub; cbn. f_equal; lra.
Qed.

(** C40: triangle q, q+u, q+v *)
Theorem C40_sum_to_one : forall p q u v,
  exists b, barycentric1 (fin3 p) (fin3 q) (fin3 u) (fin3 v) = fin3 b /\ c0 b + c1 b + c2 b = 1.
Proof. exact barycentric_sum. Qed.
Print Assumptions C40_sum_to_one.
(** the weighted vertices give the foot y of the perpendicular from p *)
Theorem C40_reproduce_projection : forall p q u v, rcross u v <> rzero ->
  exists b, barycentric1 (fin3 p) (fin3 q) (fin3 u) (fin3 v) = fin3 b /\
    c0 b + c1 b + c2 b = 1 /\
    let y := radd (radd (rscale (c0 b) q) (rscale (c1 b) (radd q u))) (rscale (c2 b) (radd q v)) in
    on_plane q (rcross u v) y /\ exists t, rsub p y = rscale t (rcross u v).
Proof. exact barycentric_spec. Qed.
Print Assumptions C40_reproduce_projection.
Theorem C40_vertices : forall q u v, rcross u v <> rzero ->
  barycentric1 (fin3 q) (fin3 q) (fin3 u) (fin3 v) = fin3 (mk3 1 0 0) /\
  barycentric1 (fin3 (radd q u)) (fin3 q) (fin3 u) (fin3 v) = fin3 (mk3 0 1 0) /\
  barycentric1 (fin3 (radd q v)) (fin3 q) (fin3 u) (fin3 v) = fin3 (mk3 0 0 1).
Proof. exact barycentric_vertices. Qed.
Print Assumptions C40_vertices.
Theorem C40_rows_independent : forall (ps qs us vs : list (V3 xr)) i p q u v,
  nth_error ps i = Some p -> nth_error qs i = Some q -> nth_error us i = Some u -> nth_error vs i = Some v ->
  nth_error (barycentric ps qs us vs) i = Some (barycentric1 p q u v).
Proof. exact barycentric_rows. Qed.
Print Assumptions C40_rows_independent.
Example C40_example : rcross (mk3 1 0 0) (mk3 0 2 0) <> rzero.
Proof. unfold rcross, rzero; cbn; intros [=]; lra. Qed.

(** C41 *)
Theorem C41_apex : forall ps axis,
  (ps = [] -> apex (map fin3 ps) (fin3 axis) = Err ValueError) /\
  (ps <> [] -> exists i p, nth_error ps i = Some p /\ apex (map fin3 ps) (fin3 axis) = Ok (fin3 p) /\
     (forall q, In q ps -> rdot q axis <= rdot p axis) /\
     (forall j q, (j < i)%nat -> nth_error ps j = Some q -> rdot q axis < rdot p axis)).
Proof. exact apex_spec. Qed.
Print Assumptions C41_apex.
Theorem C41_farthest : forall from ps,
  (ps = [] -> farthest (fin3 from) (map fin3 ps) = Err ValueError) /\
  (ps <> [] -> exists i p, nth_error ps i = Some p /\ farthest (fin3 from) (map fin3 ps) = Ok (fin3 p, i) /\
     (forall q, In q ps -> rdist q from <= rdist p from) /\
     (forall j q, (j < i)%nat -> nth_error ps j = Some q -> rdist q from < rdist p from)).
Proof. exact farthest_spec. Qed.
Print Assumptions C41_farthest.
Example C41_example : [mk3 0 0 0; mk3 1 0 0; mk3 1 2 0] <> [].
Proof. discriminate. Qed.
