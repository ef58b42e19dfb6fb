(** * Properties C29, C78, C79: slicing a mesh by a plane. *)
From Coq Require Import Reals ZArith List Bool Lra Lia Psatz Permutation Relations.
From Verif Require Import Num XLemmas Vec RVec VLemmas SpecGeom SpecHull SpecMesh SpecPoly NpList PPlane PPlane2 MPlane MSegment PSegment PMesh.
From Verif Require Import MPolyline PPolyline PPolyline2 PropsPolyline MMesh SpecGraph PMesh2 PMesh3 PMesh4 PropsGraph.
Import ListNotations.
Local Open Scope R_scope.

(** ** Specification.  [possible] (PropsGraph): the iteration orders of dicts and sets.
    [is_polyline c ws P] (PropsPolyline): [P] is [Polyline(ws, closed=c)]. *)
Definition off_plane (p n : V3 R) (vs : list (V3 R)) : Prop := forall v, In v vs -> ~ on_plane p n v.
(** corners in range and distinct, no face twice, at most two faces at an edge *)
Definition manifold (vs : list (V3 R)) (fs : list (nat * nat * nat)) : Prop :=
  Forall (in_range vs) fs /\ Forall proper fs /\ no_repeats fs /\ two_faces_per_edge fs.

Lemma off_sdist p n pl vs : mk_plane (fin3 p) (fin3 n) = Ok pl -> off_plane p n vs -> forall v, In v vs -> sdist p n v <> 0.
Proof. intros H O v I E. apply (O v I). apply on_plane_sdist; [exact (n_nz H)|exact E]. Qed.
Lemma pcurve_is c : fst c <> [] -> is_polyline (snd c) (fst c) (pcurve c).
Proof. intros H. apply is_polyline_fpoly. tauto. Qed.
Lemma forall2_fst {A B} (T : A -> B -> Prop) (Q : A -> Prop) l m : (forall x y, T x y -> Q x) -> Forall2 T l m -> Forall Q l.
Proof. intros H. induction 1; constructor; eauto. Qed.
Lemma run_none sch fuel pl m comps : section_components sch fuel pl m = Some (Ok (map fpair comps)) -> Forall (fun c => fst c <> []) comps ->
  mesh_xsections sch fuel pl m None = Some (Ok (map pcurve comps)).
Proof. intros H NE. unfold mesh_xsections. rewrite H. now rewrite traverse_fpair. Qed.

(** Whatever the iteration orders, slicing terminates with polylines; the faces divide into
    those that miss the plane and one group per polyline; the edges of the polyline are, one
    for one, the sections of the faces of its group; a group is connected across cut edges,
    and no cut edge joins two groups. *)
Theorem C29_sections : forall sch p n pl vs fs, possible sch -> mk_plane (fin3 p) (fin3 n) = Ok pl -> manifold vs fs -> off_plane p n vs ->
  exists polys groups skipped,
    (forall fuel, (2 * length fs + 2 <= fuel)%nat -> mesh_xsections sch fuel pl (mkmesh (map fin3 vs) fs) None = Some (Ok polys)) /\
    Permutation fs (concat groups ++ skipped) /\
    Forall (fun f => misses p n (triangle vs f)) skipped /\
    Forall2 (fun P g => g <> [] /\ one_piece p n vs g /\
      exists c ws, is_polyline c ws P /\ Forall2 (fun f ab => is_section p n (triangle vs f) ab) g (segs c ws)) polys groups /\
    ForallOrdPairs (separate p n vs) groups.
Proof.
  intros sch p n pl vs fs Fr Hpl (FR & FP & NR & TW) O. pose proof (off_sdist _ _ _ _ Hpl O) as OFF.
  destruct (components_spec Fr Hpl OFF FR FP NR TW) as (comps & groups & skipped & A & B & C & D & E & _).
  exists (map pcurve comps), groups, skipped. split; [|split; [exact B|split; [exact C|split; [|exact E]]]].
  - intros fuel L. apply run_none; [exact (A fuel L)|]. refine (forall2_fst _ _ _ _ _ D). intros x y H. apply H.
  - clear - D. induction D as [|c g comps groups (H1 & H2 & H3 & H4) D IH]; constructor; [|exact IH]. split; [exact H2|]. split; [exact H4|]. exists (snd c), (fst c). split; [now apply pcurve_is|exact H3].
Qed.
Print Assumptions C29_sections.
(** If every edge belongs to exactly two faces, all the polylines are closed. *)
Theorem C29_watertight : forall sch p n pl vs fs, possible sch -> mk_plane (fin3 p) (fin3 n) = Ok pl -> manifold vs fs -> watertight fs -> off_plane p n vs ->
  exists polys, (forall fuel, (2 * length fs + 2 <= fuel)%nat -> mesh_xsections sch fuel pl (mkmesh (map fin3 vs) fs) None = Some (Ok polys)) /\
    Forall (fun P => p_closed P = true) polys.
Proof.
  intros sch p n pl vs fs Fr Hpl (FR & FP & NR & TW) WT O. pose proof (off_sdist _ _ _ _ Hpl O) as OFF.
  destruct (components_spec Fr Hpl OFF FR FP NR TW) as (comps & groups & skipped & A & _ & _ & D & _ & W).
  exists (map pcurve comps). split.
  - intros fuel L. apply run_none; [exact (A fuel L)|]. refine (forall2_fst _ _ _ _ _ D). intros x y H. apply H.
  - apply Forall_forall. intros P I. apply in_map_iff in I. destruct I as (c & <- & I). specialize (W WT). rewrite Forall_forall in W. exact (W c I).
Qed.
Print Assumptions C29_watertight.
(** Without any condition on the faces but valid indices: no exception, and every vertex of
    every polyline is on the plane and on an edge of a face. *)
Theorem C29_never_raises : forall sch p n pl vs fs, possible sch -> mk_plane (fin3 p) (fin3 n) = Ok pl -> Forall (in_range vs) fs -> off_plane p n vs ->
  exists polys,
    (forall fuel, (2 * length fs + 2 <= fuel)%nat -> mesh_xsections sch fuel pl (mkmesh (map fin3 vs) fs) None = Some (Ok polys)) /\
    Forall (fun P => exists c ws, is_polyline c ws P /\ ws <> [] /\ forall x, In x ws -> on_plane p n x /\
      exists f a b, In f fs /\ has_edge a b f = true /\ on_segment (nth a vs rzero) (nth b vs rzero) x) polys.
Proof.
  intros sch p n pl vs fs Fr Hpl FR O. destruct (components_total Fr Hpl (off_sdist _ _ _ _ Hpl O) FR) as (comps & A & B).
  exists (map pcurve comps). split.
  - intros fuel L. apply run_none; [exact (A fuel L)|]. refine (Forall_impl _ _ B). intros c H. apply H.
  - apply Forall_forall. intros P I. apply in_map_iff in I. destruct I as (c & <- & I). rewrite Forall_forall in B. destruct (B c I) as [H1 H2].
    exists (snd c), (fst c). split; [now apply pcurve_is|]. split; [exact H1|exact H2].
Qed.
Print Assumptions C29_never_raises.
(** With a neighborhood ([dist]: the distance to it): a single polyline is returned as it
    is; of several, one with the least mean distance of its vertices is returned, closed. *)
Theorem C29_neighborhood : forall sch p n pl vs fs query dist, possible sch -> mk_plane (fin3 p) (fin3 n) = Ok pl -> Forall (in_range vs) fs -> off_plane p n vs ->
  (forall x, query (fin3 x) = Fin (dist x)) ->
  exists polys, (forall fuel, (2 * length fs + 2 <= fuel)%nat -> mesh_xsections sch fuel pl (mkmesh (map fin3 vs) fs) None = Some (Ok polys)) /\
    ((length polys <= 1)%nat -> forall fuel, (2 * length fs + 2 <= fuel)%nat -> mesh_xsections sch fuel pl (mkmesh (map fin3 vs) fs) (Some query) = Some (Ok polys)) /\
    ((2 <= length polys)%nat -> exists i c ws P Q, nth_error polys i = Some P /\ is_polyline c ws P /\ is_polyline true ws Q /\
      (forall fuel, (2 * length fs + 2 <= fuel)%nat -> mesh_xsections sch fuel pl (mkmesh (map fin3 vs) fs) (Some query) = Some (Ok [Q])) /\
      (forall j c' ws' P', nth_error polys j = Some P' -> is_polyline c' ws' P' -> mean dist ws <= mean dist ws') /\
      (forall j c' ws' P', (j < i)%nat -> nth_error polys j = Some P' -> is_polyline c' ws' P' -> mean dist ws < mean dist ws')).
Proof.
  intros sch p n pl vs fs query dist Fr Hpl FR O Hq. destruct (components_total Fr Hpl (off_sdist _ _ _ _ Hpl O) FR) as (comps & A & B).
  assert (NE : Forall (fun c => fst c <> []) comps) by (refine (Forall_impl _ _ B); intros c H; apply H).
  exists (map pcurve comps). split; [|split].
  - intros fuel L. apply run_none; [exact (A fuel L)|exact NE].
  - rewrite map_length. intros Lc fuel L. pose proof (A fuel L) as E. fold fpair in E. unfold mesh_xsections. rewrite E, map_length. destruct comps as [|c [|c' comps]]; [reflexivity| |cbn in Lc; lia].
    cbn [length Nat.eqb]. now rewrite traverse_fpair.
  - rewrite map_length. intros Lc.
    destruct (nearest_spec (sch := sch) Hq (A (2 * length fs + 2)%nat (Nat.le_refl _)) NE Lc) as (i & ws & b & N & _ & M1 & M2).
    assert (Inv : forall j c' ws' P', nth_error (map pcurve comps) j = Some P' -> is_polyline c' ws' P' -> exists b', nth_error comps j = Some (ws', b')).
    { intros j c' ws' P' Hj HP. rewrite nth_error_map in Hj. destruct (nth_error comps j) as [[w b']|] eqn:Q; [|discriminate]. injection Hj as <-. destruct (is_polyline_inv HP) as [E _].
      unfold pcurve, fpoly, poly in E. cbn [fst snd] in E. injection E as E1 _ _. assert (w = ws') as ->; [|eauto].
      clear - E1. revert ws' E1. induction w as [|x w IH]; intros [|y ws'] E1; try discriminate; [reflexivity|]. assert (X : fin3 x = fin3 y) by exact (f_equal (hd (fin3 rzero)) E1). assert (Y : map fin3 w = map fin3 ws') by exact (f_equal (@tl _) E1).
      rewrite (IH _ Y). f_equal. destruct x as [x0 x1 x2], y as [y0 y1 y2]. unfold fin3, map3 in X. cbn in X. congruence. }
    exists i, b, ws, (fpoly b ws), (fpoly true ws). split; [now rewrite nth_error_map, N|].
    assert (NW : ws <> []) by (rewrite Forall_forall in NE; apply (NE (ws, b)), (nth_error_In _ _ N)).
    split; [apply is_polyline_fpoly; tauto|]. split; [apply is_polyline_fpoly; tauto|]. split; [|split].
    + intros fuel L. destruct (nearest_spec (sch := sch) Hq (A fuel L) NE Lc) as (i' & ws1 & b1 & N1 & R & M1' & M2').
      assert (i' = i). { destruct (Nat.lt_total i i') as [Lt|[Eq|Lt]]; [|auto|]; [specialize (M2' i ws b Lt N); specialize (M1 i' ws1 b1 N1)|specialize (M2 i' ws1 b1 Lt N1); specialize (M1' i ws b N)]; lra. }
      subst i'. assert (ws1 = ws) by congruence. now subst ws1.
    + intros j c' ws' P' Hj HP. destruct (Inv j c' ws' P' Hj HP) as (b' & Hb). exact (M1 j ws' b' Hb).
    + intros j c' ws' P' Lt Hj HP. destruct (Inv j c' ws' P' Hj HP) as (b' & Hb). exact (M2 j ws' b' Lt Hb).
Qed.
Print Assumptions C29_neighborhood.
(** [mesh_xsection] joins the vertices of the polylines into one closed polyline; with no
    polylines it returns the empty open one. *)
Theorem C29_joined : forall sch p n pl vs fs, possible sch -> mk_plane (fin3 p) (fin3 n) = Ok pl -> Forall (in_range vs) fs -> off_plane p n vs ->
  exists chains polys, 
    (forall fuel, (2 * length fs + 2 <= fuel)%nat -> mesh_xsections sch fuel pl (mkmesh (map fin3 vs) fs) None = Some (Ok polys)) /\
    Forall2 (fun c P => is_polyline (fst c) (snd c) P) chains polys /\
    exists Q, (forall fuel, (2 * length fs + 2 <= fuel)%nat -> mesh_xsection sch fuel pl (mkmesh (map fin3 vs) fs) None = Some (Ok Q)) /\
      (chains = [] -> p_v Q = None /\ p_closed Q = false) /\ (chains <> [] -> is_polyline true (concat (map snd chains)) Q).
Proof.
  intros sch p n pl vs fs Fr Hpl FR O. destruct (components_total Fr Hpl (off_sdist _ _ _ _ Hpl O) FR) as (comps & A & B).
  assert (NE : Forall (fun c => fst c <> []) comps) by (refine (Forall_impl _ _ B); intros c H; apply H).
  exists (map (fun c => (snd c, fst c)) comps), (map pcurve comps). assert (R : forall fuel, (2 * length fs + 2 <= fuel)%nat -> mesh_xsections sch fuel pl (mkmesh (map fin3 vs) fs) None = Some (Ok (map pcurve comps))) by (intros fuel L; apply run_none; [exact (A fuel L)|exact NE]).
  split; [exact R|]. split.
  { clear - NE. induction NE as [|c comps H _ IH]; constructor; [|exact IH]. cbn [fst snd]. now apply pcurve_is. }
  destruct comps as [|c comps].
  - exists (mkpoly None false None). split; [|split; [intros _; auto|intros H; destruct (H eq_refl)]]. intros fuel L. unfold mesh_xsection. rewrite (R fuel L). reflexivity.
  - exists (fpoly true (concat (map snd (map (fun c => (snd c, fst c)) (c :: comps))))). set (l := c :: comps) in *. split; [|split; [discriminate|]].
    + intros fuel L. unfold mesh_xsection. rewrite (R fuel L). unfold l at 1. cbn [map]. change (pcurve c :: map pcurve comps) with (map pcurve l).
      replace (concat (map (fun q => match p_v q with Some v => v | None => [] end) (map pcurve l))) with (map fin3 (concat (map snd (map (fun c => (snd c, fst c)) l)))).
      * f_equal. assert (I : is_polyline true (concat (map snd (map (fun c => (snd c, fst c)) l))) (fpoly true (concat (map snd (map (fun c => (snd c, fst c)) l))))); [|exact I].
        apply is_polyline_fpoly. intros [_ Q]. unfold l in Q. cbn [map concat snd] in Q. inversion NE as [|? ? H _]; subst. destruct (fst c); [congruence|discriminate].
      * rewrite concat_map, !map_map. reflexivity.
    + intros _. apply is_polyline_fpoly. intros [_ Q]. unfold l in Q. cbn [map concat snd] in Q. inversion NE as [|? ? H _]; subst. destruct (fst c); [congruence|discriminate].
Qed.
Print Assumptions C29_joined.

(** ** Examples *)
Lemma forall2_single {A B} (T : A -> B -> Prop) x l : Forall2 T [x] l -> exists y, l = [y] /\ T x y.
Proof. intros H. inversion H as [|? y ? m Hy Hm]; subst. inversion Hm; subst. eauto. Qed.
Lemma nodup_app_r {A} (l m : list A) : NoDup (l ++ m) -> NoDup m.
Proof. induction l as [|x l IH]; [auto|]. cbn. intros H. inversion H; auto. Qed.
Definition origin : V3 R := mk3 0 0 0.
Definition zaxis : V3 R := mk3 0 0 1.
Lemma zaxis_norm : rnorm zaxis = 1.
Proof. unfold rnorm, rdot, zaxis. cbn [c0 c1 c2]. replace (0 * 0 + 0 * 0 + 1 * 1) with (1 * 1) by ring. apply sqrt_square. lra. Qed.
Lemma zaxis_sdist x y z : sdist origin zaxis (mk3 x y z) = z.
Proof. unfold sdist. rewrite zaxis_norm. unfold rdot, rsub, origin, zaxis. cbn [c0 c1 c2]. field. Qed.
Lemma zaxis_on x y z : on_plane origin zaxis (mk3 x y z) <-> z = 0.
Proof. unfold on_plane, rdot, rsub, origin, zaxis. cbn [c0 c1 c2]. lra. Qed.
Lemma zaxis_plane : mk_plane (fin3 origin) (fin3 zaxis) = Ok (mkpl (fin3 origin) (fin3 zaxis)).
Proof. apply mk_plane_unit, zaxis_norm. Qed.
(** a tetrahedron cut near its top *)
Definition tetra : list (V3 R) := [mk3 0 0 1; mk3 1 0 (-1); mk3 (-1) 1 (-1); mk3 (-1) (-1) (-1)].
Definition tetra_faces : list (nat * nat * nat) := [(0, 1, 2); (0, 2, 3); (0, 3, 1); (1, 3, 2)]%nat.
Lemma not_same f g i : In i (corner_list f) -> ~ In i (corner_list g) -> ~ same_corners f g.
Proof. intros H N S. apply N, S, H. Qed.
Example C29_example : manifold tetra tetra_faces /\ watertight tetra_faces /\ off_plane origin zaxis tetra.
Proof.
  split; [split; [|split; [|split]]|split].
  - repeat constructor.
  - unfold tetra_faces, proper. repeat (constructor; [repeat constructor; cbn; lia|]). constructor.
  - unfold no_repeats, tetra_faces. repeat (constructor; [repeat constructor|]); try constructor.
    + apply (not_same _ _ 1%nat); cbn; lia.
    + apply (not_same _ _ 2%nat); cbn; lia.
    + apply (not_same _ _ 0%nat); cbn; lia.
    + apply (not_same _ _ 2%nat); cbn; lia.
    + apply (not_same _ _ 0%nat); cbn; lia.
    + apply (not_same _ _ 0%nat); cbn; lia.
  - intros a b N. destruct a as [|[|[|[|a]]]], b as [|[|[|[|b]]]]; try congruence; cbn; lia.
  - intros f a b I N H. cbn [tetra_faces In] in I. destruct I as [<-|[<-|[<-|[<-|[]]]]]; destruct a as [|[|[|[|a]]]], b as [|[|[|[|b]]]]; try congruence; cbn in H; try discriminate H; reflexivity.
  - intros v I. cbn [tetra In] in I. destruct I as [<-|[<-|[<-|[<-|[]]]]]; rewrite zaxis_on; lra.
Qed.
(** two separate triangles across the plane: a mesh with two open sections *)
Definition two_tri : list (V3 R) := [mk3 0 0 (-1); mk3 1 0 1; mk3 (-1) 0 1; mk3 0 5 (-1); mk3 1 5 1; mk3 (-1) 5 1].
Definition two_faces : list (nat * nat * nat) := [(0, 1, 2); (3, 4, 5)]%nat.
Lemma two_ok : manifold two_tri two_faces /\ off_plane origin zaxis two_tri.
Proof.
  split; [split; [|split; [|split]]|].
  - unfold two_faces. repeat (constructor; [cbn; lia|]). constructor.
  - unfold two_faces, proper. repeat (constructor; [repeat constructor; cbn; lia|]). constructor.
  - unfold no_repeats, two_faces. repeat constructor. apply (not_same _ _ 1%nat); cbn; lia.
  - intros a b N. unfold two_faces. cbn [filter]. destruct (has_edge a b (0, 1, 2)%nat), (has_edge a b (3, 4, 5)%nat); cbn; lia.
  - intros v I. cbn [two_tri In] in I. destruct I as [<-|[<-|[<-|[<-|[<-|[<-|[]]]]]]]; rewrite zaxis_on; lra.
Qed.
(** its sections are segments with two different end points *)
Lemma two_hits f : In f two_faces -> exists x y, x <> y /\ (in_hull (triangle two_tri f) x /\ on_plane origin zaxis x) /\ (in_hull (triangle two_tri f) y /\ on_plane origin zaxis y).
Proof.
  cbn [two_faces In]. intros [<-|[<-|[]]]; unfold triangle; cbn [corner_list map two_tri nth].
  - exists (mk3 (1/2) 0 0), (mk3 (-1/2) 0 0). split; [intros E; injection E; lra|]. rewrite !zaxis_on, !in_hull3. split; (split; [|reflexivity]).
    + exists (1/2), (1/2), 0. repeat split; try lra. unfold radd, rscale. cbn [c0 c1 c2]. f_equal; field.
    + exists (1/2), 0, (1/2). repeat split; try lra. unfold radd, rscale. cbn [c0 c1 c2]. f_equal; field.
  - exists (mk3 (1/2) 5 0), (mk3 (-1/2) 5 0). split; [intros E; injection E; lra|]. rewrite !zaxis_on, !in_hull3. split; (split; [|reflexivity]).
    + exists (1/2), (1/2), 0. repeat split; try lra. unfold radd, rscale. cbn [c0 c1 c2]. f_equal; field.
    + exists (1/2), 0, (1/2). repeat split; try lra. unfold radd, rscale. cbn [c0 c1 c2]. f_equal; field.
Qed.
Lemma two_apart f f' : In f two_faces -> In f' two_faces -> share_cut_edge origin zaxis two_tri f f' -> f = f'.
Proof.
  cbn [two_faces In]. intros [<-|[<-|[]]] [<-|[<-|[]]] (a & b & H & H' & _); try reflexivity; apply has_edge_in in H, H'; cbn [corner_list In] in H, H'; lia.
Qed.
(** C79, refuted: with a neighborhood, the polyline returned need not be one of those
    returned without: an open section comes back closed. *)
Theorem C79_refuted : exists p n pl vs fs, mk_plane (fin3 p) (fin3 n) = Ok pl /\ manifold vs fs /\ off_plane p n vs /\
  forall sch query dist, possible sch -> (forall x, query (fin3 x) = Fin (dist x)) ->
  exists polys Q, (forall fuel, (2 * length fs + 2 <= fuel)%nat -> mesh_xsections sch fuel pl (mkmesh (map fin3 vs) fs) None = Some (Ok polys)) /\
    (forall fuel, (2 * length fs + 2 <= fuel)%nat -> mesh_xsections sch fuel pl (mkmesh (map fin3 vs) fs) (Some query) = Some (Ok [Q])) /\ ~ In Q polys.
Proof.
  exists origin, zaxis, (mkpl (fin3 origin) (fin3 zaxis)), two_tri, two_faces. split; [exact zaxis_plane|]. destruct two_ok as [M O]. split; [exact M|]. split; [exact O|].
  intros sch query dist Fr Hq. destruct (C29_sections sch _ _ _ _ _ Fr zaxis_plane M O) as (polys & groups & skipped & R6 & Pm & Ms & F2 & Sep).
  destruct (C29_neighborhood sch _ _ _ _ _ query dist Fr zaxis_plane (proj1 M) O Hq) as (polys' & R' & _ & Near).
  assert (polys' = polys). { pose proof (R6 6%nat (Nat.le_refl 6)) as X. pose proof (R' 6%nat (Nat.le_refl 6)) as Y. pose proof (eq_trans (eq_sym Y) X) as W. now injection W. } subst polys'.
  assert (InF : forall f, In f (concat groups ++ skipped) -> In f two_faces) by (intros f; apply (Permutation_in _ (Permutation_sym Pm))).
  assert (skipped = []) as ->.
  { destruct skipped as [|f sk]; [reflexivity|exfalso]. inversion Ms as [|? ? H _]; subst. destruct (two_hits f) as (x & _ & _ & [H1 H2] & _); [apply InF, in_or_app; right; now left|]. exact (H x H1 H2). }
  rewrite app_nil_r in *.
  assert (One : forall P g, In (P, g) (combine polys groups) -> exists f x y, g = [f] /\ is_polyline false [x; y] P).
  { intros P g I. assert (Ig : In g groups) by (eapply in_combine_r, I).
    assert (H : g <> [] /\ one_piece origin zaxis two_tri g /\ exists c ws, is_polyline c ws P /\ Forall2 (fun f ab => is_section origin zaxis (triangle two_tri f) ab) g (segs c ws)).
    { clear - F2 I. induction F2 as [|P' g' ps gs H F IH]; cbn in I; [tauto|]. destruct I as [E|I]; [injection E as <- <-; exact H|auto]. }
    destruct H as (NE & OP & c & ws & HP & HS). destruct g as [|f g]; [congruence|].
    assert (Same : forall f', In f' (f :: g) -> f = f').
    { intros f' I'. assert (W := OP f f' (or_introl eq_refl) I'). clear - W InF Ig. induction W as [a b (Ia & Ib & S)|a|a b _ IH|a b d _ IH1 _ IH2]; try congruence. apply two_apart; [apply InF, in_concat; eauto|apply InF, in_concat; eauto|exact S]. }
    assert (ND : NoDup (concat groups)) by (refine (Permutation_NoDup Pm _); repeat constructor; cbn; intuition congruence).
    assert (g = []) as ->.
    { destruct g as [|f' g]; [reflexivity|exfalso]. assert (E := Same f' (or_intror (or_introl eq_refl))). subst f'. apply in_split in Ig. destruct Ig as (l1 & l2 & ->). rewrite concat_app in ND. apply nodup_app_r in ND. cbn [concat app] in ND. inversion ND as [|? ? N _]; subst. apply N. now left. }
    destruct (forall2_single _ _ _ HS) as (ab & H & Sec). exists f.
    destruct (two_hits f) as (u & v & NEuv & Hu & Hv); [apply InF, in_concat; exists [f]; split; [auto|now left]|]. apply (Sec u) in Hu. apply (Sec v) in Hv.
    assert (NEab : fst ab <> snd ab). { intros E. apply NEuv. destruct Hu as (t & _ & ->), Hv as (t' & _ & ->). rewrite <- E. unfold lerp, radd, rscale, rsub. cbn [c0 c1 c2]. f_equal; ring. }
    destruct ws as [|x1 ws]; [destruct c; discriminate H|]. destruct ws as [|y1 ws].
    - destruct c; [|discriminate H]. injection H as <-. cbn in NEab. congruence.
    - exists x1, y1. split; [reflexivity|]. destruct c; [destruct ws; discriminate H|]. destruct ws as [|z ws]; [exact HP|discriminate H]. }
  assert (LP : length polys = length groups) by (clear - F2; induction F2; cbn; congruence).
  assert (Each : forall P, In P polys -> exists x y, is_polyline false [x; y] P).
  { intros P I. apply In_nth_error in I. destruct I as (i & Hi). assert (Li : (i < length groups)%nat) by (rewrite <- LP; apply nth_error_Some; congruence).
    destruct (nth_error groups i) as [g|] eqn:Hg; [|apply nth_error_None in Hg; lia]. destruct (One P g) as (f & x & y & _ & H); [|eauto]. clear - Hi Hg. revert polys groups Hi Hg. induction i as [|i IH]; intros [|P' ps] [|g' gs] H1 H2; try discriminate; cbn in *; [left; congruence|right; eauto]. }
  assert (L2 : length polys = 2%nat).
  { rewrite LP. assert (Len : length (concat groups) = 2%nat) by (rewrite <- (Permutation_length Pm); reflexivity). rewrite <- Len. clear - One F2. induction F2 as [|P g ps gs H F IH]; [reflexivity|]. cbn [length concat]. destruct (One P g (or_introl eq_refl)) as (f & _ & _ & -> & _). cbn [app length]. f_equal. apply IH. intros; apply One; now right. }
  destruct (Near ltac:(lia)) as (i & c & ws & P & Q & Hi & HP & HQ & RQ & _). exists polys, Q. split; [exact R6|]. split; [exact RQ|].
  intros I. destruct (Each Q I) as (x & y & HF). destruct (is_polyline_inv HQ) as [E1 _]. destruct (is_polyline_inv HF) as [E2 _]. rewrite E1 in E2. discriminate E2.
Qed.
Print Assumptions C79_refuted.
(** C78, refuted: a face in the plane makes the slicer raise a TypeError ... *)
Lemma seg_none a b : sdist origin zaxis a = sdist origin zaxis b -> line_segment_xsection (mkpl (fin3 origin) (fin3 zaxis)) (fin3 a) (fin3 b) = None.
Proof.
  intros E. destruct (segment_spec a b zaxis_plane) as [H _]. destruct (line_segment_xsection _ _ _) as [w|]; [|reflexivity]. exfalso. destruct (proj1 H (ex_intro _ w eq_refl)) as [N _]. contradiction.
Qed.
Definition flat_tri : list (V3 R) := [mk3 0 0 0; mk3 1 0 0; mk3 0 1 0].
Theorem C78_refuted : exists p n pl vs fs, mk_plane (fin3 p) (fin3 n) = Ok pl /\ manifold vs fs /\
  forall sch fuel query, mesh_xsections sch fuel pl (mkmesh (map fin3 vs) fs) query = Some (Err TypeError).
Proof.
  exists origin, zaxis, (mkpl (fin3 origin) (fin3 zaxis)), flat_tri, [(0, 1, 2)]%nat. split; [exact zaxis_plane|].
  assert (FR : Forall (in_range flat_tri) [(0, 1, 2)]%nat) by (repeat constructor).
  split.
  { split; [exact FR|]. split; [|split].
    - repeat constructor; cbn; lia.
    - repeat constructor.
    - intros a b _. cbn [filter]. destruct (has_edge a b (0, 1, 2)%nat); cbn; lia. }
  intros sch fuel query. unfold mesh_xsections, section_components. rewrite (faces_fin zaxis_plane FR).
  assert (KF : keep_face origin zaxis flat_tri (0, 1, 2)%nat = true).
  { apply keep_face_spec. unfold straddles, flat_tri. cbn [nth]. rewrite !zaxis_sdist. lra. }
  cbn [filter]. rewrite KF. cbn [m_v face_edges map app fst snd flat_tri take traverse getitem nth_error bindr]. rewrite lsxs_rows by reflexivity. cbn [combine map fst snd].
  rewrite !seg_none by (rewrite !zaxis_sdist; reflexivity). reflexivity.
Qed.
Print Assumptions C78_refuted.
(** ... and a face with one corner in the plane and one on each side loses its section: the
    polyline returned is the corner alone. *)
Lemma seg_some a b x : on_plane origin zaxis x -> on_segment a b x -> sdist origin zaxis a <> sdist origin zaxis b ->
  line_segment_xsection (mkpl (fin3 origin) (fin3 zaxis)) (fin3 a) (fin3 b) = Some (fin3 x).
Proof.
  intros O S NE. destruct (segment_spec a b zaxis_plane) as [H1 H2]. destruct (line_segment_xsection _ _ _) as [w|].
  - destruct (H2 w eq_refl) as (y & -> & _ & _ & Un). f_equal. now rewrite (Un x O S).
  - exfalso. apply on_plane_sdist in O; [|exact (n_nz zaxis_plane)]. destruct S as (t & Ht & ->). rewrite sdist_lerp in O.
    destruct (proj2 H1) as (w & W); [|discriminate W]. split; [exact NE|]. split; intros [? ?]; nra.
Qed.
Definition corner_tri : list (V3 R) := [mk3 0 0 0; mk3 1 0 1; mk3 1 0 (-1)].
Theorem C78_corner_lost : exists p n pl vs f sch P x, mk_plane (fin3 p) (fin3 n) = Ok pl /\ manifold vs [f] /\ possible sch /\
  (forall fuel, (5 <= fuel)%nat -> mesh_xsections sch fuel pl (mkmesh (map fin3 vs) [f]) None = Some (Ok [P])) /\
  in_hull (triangle vs f) x /\ on_plane p n x /\ exists w, is_polyline true [w] P /\ ~ on_chain true [w] x.
Proof.
  exists origin, zaxis, (mkpl (fin3 origin) (fin3 zaxis)), corner_tri, (0, 1, 2)%nat, plain, (fpoly true [mk3 0 0 0]), (mk3 1 0 0). split; [exact zaxis_plane|].
  assert (FR : Forall (in_range corner_tri) [(0, 1, 2)]%nat) by (repeat constructor).
  split.
  { split; [exact FR|]. split; [|split].
    - repeat constructor; cbn; lia.
    - repeat constructor.
    - intros a b _. cbn [filter]. destruct (has_edge a b (0, 1, 2)%nat); cbn; lia. }
  split; [exact C28_example_schedule|]. split; [|split; [|split]].
  - intros fuel L. unfold mesh_xsections, section_components. rewrite (faces_fin zaxis_plane FR).
    assert (KF : keep_face origin zaxis corner_tri (0, 1, 2)%nat = true).
    { apply keep_face_spec. unfold straddles, corner_tri. cbn [nth]. rewrite !zaxis_sdist. lra. }
    cbn [filter]. rewrite KF. cbn [m_v face_edges map app fst snd corner_tri take traverse getitem nth_error bindr]. rewrite lsxs_rows by reflexivity. cbn [combine map fst snd].
    rewrite (seg_some (mk3 0 0 0) (mk3 1 0 1) (mk3 0 0 0)); [|now rewrite zaxis_on| |rewrite !zaxis_sdist; lra].
    2:{ exists 0. split; [lra|]. unfold lerp, radd, rscale, rsub. cbn [c0 c1 c2]. f_equal; ring. }
    rewrite (seg_some (mk3 1 0 1) (mk3 1 0 (-1)) (mk3 1 0 0)); [|now rewrite zaxis_on| |rewrite !zaxis_sdist; lra].
    2:{ exists (1/2). split; [lra|]. unfold lerp, radd, rscale, rsub. cbn [c0 c1 c2]. f_equal; field. }
    rewrite (seg_some (mk3 1 0 (-1)) (mk3 0 0 0) (mk3 0 0 0)); [|now rewrite zaxis_on| |rewrite !zaxis_sdist; lra].
    2:{ exists 1. split; [lra|]. unfold lerp, radd, rscale, rsub. cbn [c0 c1 c2]. f_equal; ring. }
    destruct fuel as [|[|[|[|[|fuel]]]]]; try lia.
    set (u := fin3 (mk3 0 0 0)). set (w := fin3 (mk3 1 0 0)).
    assert (V : veqb u u = true) by now apply veqb_fin.
    cbn -[u w veqb init_points]. idtac.
    rewrite V. cbn -[u w veqb init_points].
    change [u] with (map fin3 [mk3 0 0 0]). rewrite init_points_some by apply numeric_fin. reflexivity.
  - unfold triangle. cbn [corner_list map corner_tri nth]. apply in_hull3. exists 0, (1/2), (1/2). repeat split; try lra. unfold radd, rscale. cbn [c0 c1 c2]. f_equal; field.
  - now rewrite zaxis_on.
  - exists (mk3 0 0 0). split; [apply is_polyline_fpoly; intros [_ Q]; discriminate|]. intros (ab & I & t & _ & E). cbn in I. destruct I as [<-|[]]. unfold lerp, radd, rscale, rsub in E. cbn [fst snd c0 c1 c2] in E. injection E. intros _ _ E0. lra.
Qed.
Print Assumptions C78_corner_lost.
