(** * Property C28: the slicer's path extraction, for every iteration order. *)
From Coq Require Import List Arith Bool Lia Permutation.
From Verif Require Import Num NpList MMesh SpecGraph PGraph PGraph2 PGraph3.
Import ListNotations.

(** ** Specification.  A schedule is possible if iterating a dict gives its keys in some
    order and [pop] gives an element of the set. *)
Definition possible (sch : schedule) : Prop :=
  (forall t keys, Permutation (key_order sch t keys) keys) /\ (forall t s, s <> [] -> In (pop_at sch t s) s).
Definition vertices_below (n : nat) (es : list (nat * nat)) : Prop := Forall (fun e => fst e < n /\ snd e < n) es.
(** the number of steps of a list of paths *)
Definition step_count (paths : list (list nat)) : nat := list_sum (map (fun p => length p - 1) paths).
Definition apart (p q : list nat) : Prop := forall x, In x p -> ~ In x q.

(** Whatever the graph and the schedule, extraction terminates without an exception (with a
    bound on the number of iterations); it makes one step for every edge; every edge is on
    one path, and every path stays in one component, with a component of its own. *)
Theorem C28_every_edge_consumed_once : forall sch n es, possible sch -> vertices_below n es ->
  exists g paths, add_edges (mkgraph n []) es = Ok g /\
    (forall fuel, 2 * length (distinct es) + 2 <= fuel -> extract sch fuel 0 (g_d g) = Some (Ok paths)) /\
    step_count paths = length (distinct es) /\ Forall (fun p => 2 <= length p) paths /\
    (forall u v, joined es u v -> exists p, In p paths /\ In u p /\ In v p) /\
    ForallOrdPairs apart paths /\ (forall p u v, In p paths -> In u p -> In v p -> connected es u v).
Proof.
  intros sch n es Fr B. destruct (build_ok B) as (d & Q & R). exists (mkgraph n d).
  destruct (@extract_spec sch Fr _ 0 d (distinct es) (Nat.le_refl _) R) as (paths & A0 & A1 & A2 & A3 & A4 & A5 & _). exists paths. split; [exact Q|]. split; [exact A0|]. split; [exact A1|]. split; [exact A2|]. split.
  - intros u v J. apply A3. apply (flat_joined _ _ (distinct_flat es)). now apply joined_distinct.
  - split; [exact A4|]. intros p u v Ip Iu Iv. apply connected_distinct. eauto.
Qed.
Print Assumptions C28_every_edge_consumed_once.
(** If no component has more than two vertices of odd degree (and no edge is a loop), the
    steps of the paths are the edges, each exactly once: every path is a trail. *)
Theorem C28_trails : forall sch n es, possible sch -> vertices_below n es -> loop_free es -> at_most_two_odd es ->
  exists g paths, add_edges (mkgraph n []) es = Ok g /\
    (forall fuel, 2 * length (distinct es) + 2 <= fuel -> extract sch fuel 0 (g_d g) = Some (Ok paths)) /\
    Permutation (map unordered (concat (map steps paths))) (distinct es) /\ Forall (fun p => 2 <= length p) paths.
Proof.
  intros sch n es Fr B LF A. destruct (build_ok B) as (d & Q & R). exists (mkgraph n d).
  destruct (@extract_spec sch Fr _ 0 d (distinct es) (Nat.le_refl _) R) as (paths & A0 & _ & A2 & _ & _ & _ & _ & A7). exists paths. split; [exact Q|]. split; [exact A0|]. split; [|exact A2].
  symmetry. apply A7; [now apply loops_distinct|now apply odd_distinct].
Qed.
Print Assumptions C28_trails.
(** Edges outside the declared size, and missing vertices, are refused. *)
Theorem C28_add_edge_rejects : forall g u v,
  (u >= g_size g \/ v >= g_size g -> add_edge g (Some u) (Some v) = Err AssertionError) /\
  add_edge g None (Some v) = Err TypeError /\ (u < g_size g -> add_edge g (Some u) None = Err TypeError).
Proof.
  intros g u v. split; [|split].
  - intros H. unfold add_edge. destruct (Nat.ltb_spec u (g_size g)); [|reflexivity]. destruct (Nat.ltb_spec v (g_size g)); [lia|reflexivity].
  - reflexivity.
  - intros H. unfold add_edge. now rewrite (proj2 (Nat.ltb_lt _ _) H).
Qed.
Print Assumptions C28_add_edge_rejects.
(** ** Examples: a schedule; a graph with a cycle and a path; one where a component has
    four odd vertices, and a path with a step that is no edge. *)
Definition plain : schedule := mksched (fun _ l => l) (fun _ s => hd 0 s).
Example C28_example_schedule : possible plain.
Proof. split; [intros t l; apply Permutation_refl|]. intros t [|x s] H; [congruence|now left]. Qed.
Definition ring : list (nat * nat) := [(0, 1); (1, 2); (2, 0); (3, 4); (4, 5)].
Example C28_example : vertices_below 6 ring /\ loop_free ring /\ at_most_two_odd ring.
Proof.
  split; [|split].
  - repeat constructor; cbn; lia.
  - intros u H. cbn in H. intuition congruence.
  - assert (D : forall x, Nat.odd (degree ring x) = true -> x = 3 \/ x = 5).
    { intros x. do 6 (destruct x as [|x]; [cbn; auto; discriminate|]). cbn. discriminate. }
    intros a b c Oa Ob Oc _ _. apply D in Oa, Ob, Oc. lia.
Qed.
Definition star : list (nat * nat) := [(0, 1); (0, 2); (0, 3)].
Theorem C28_star_is_no_trail : exists sch g paths, possible sch /\ add_edges (mkgraph 4 []) star = Ok g /\
  (forall fuel, 8 <= fuel -> extract sch fuel 0 (g_d g) = Some (Ok paths)) /\ exists p u v, In p paths /\ In (u, v) (steps p) /\ ~ joined star u v.
Proof.
  destruct (@build_ok 4 star) as (d & Q & R); [repeat constructor; cbn; lia|].
  destruct (@extract_spec plain C28_example_schedule _ 0 d (distinct star) (Nat.le_refl _) R) as (paths & A0 & _).
  exists plain, (mkgraph 4 d), paths. split; [exact C28_example_schedule|]. split; [exact Q|]. split; [exact A0|].
  specialize (A0 8 (Nat.le_refl _)). vm_compute in Q. injection Q as <-. vm_compute in A0. injection A0 as <-.
  cbn. match goal with |- exists p u v, (?q = p \/ _) /\ _ => exists q end. exists 2, 3.
  split; [now left|]. split; [cbn; auto|]. unfold joined. cbn. intuition congruence.
Qed.
Print Assumptions C28_star_is_no_trail.
