(** * Slicing: meshes that are not manifold, the choice of a component, degenerate faces. *)
From Coq Require Import Reals ZArith List Bool Lra Lia Psatz Permutation Relations.
From Flocq Require Import Core.
From Verif Require Import Num XLemmas Vec RVec VLemmas SpecGeom SpecHull SpecMesh SpecPoly NpList PPlane PPlane2 MPlane MSegment PSegment PMesh.
From Verif Require Import PApex MPolyline PPolyline PPolyline2 MMesh SpecGraph PGraph PGraph2 PGraph3 PGraph4 PMesh2 PMesh3.
Import ListNotations.
Local Open Scope R_scope.
Set Implicit Arguments.
Unset Strict Implicit.

(** ** no condition on the mesh but that it avoids the plane with its vertices *)
Theorem components_total sch p n pl vs fs : fair sch -> mk_plane (fin3 p) (fin3 n) = Ok pl ->
  (forall v, In v vs -> sdist p n v <> 0) -> Forall (in_range vs) fs ->
  exists comps,
    (forall fuel, (2 * length fs + 2 <= fuel)%nat -> section_components sch fuel pl (mkmesh (map fin3 vs) fs) = Some (Ok (map (fun c => (map fin3 (fst c), snd c)) comps))) /\
    Forall (fun c => fst c <> [] /\ forall x, In x (fst c) -> on_plane p n x /\
      exists f a b, In f fs /\ has_edge a b f = true /\ on_segment (nth a vs rzero) (nth b vs rzero) x) comps.
Proof.
  intros Fr Hpl OFF FR. set (keep := keep_face p n vs). set (S := filter keep fs).
  assert (SI : forall f, In f S -> In f fs /\ keep f = true) by (intros f; apply filter_In).
  assert (SR : Forall (in_range vs) S) by (apply Forall_forall; intros f I; rewrite Forall_forall in FR; apply FR, SI, I).
  assert (SS : Forall (fun f => let '(a, b, c) := f in cross p n vs (a, b) = true \/ cross p n vs (a, c) = true) S).
  { apply Forall_forall. intros [[a b] c] I. rewrite Forall_forall in SR. destruct (SR _ I) as (La & Lb & Lc). apply straddle_cross; auto. apply keep_face_spec. now apply SI. }
  pose proof (faces_fin Hpl FR) as FF. fold keep in FF. fold S in FF.
  assert (Z : S = [] \/ S <> []) by (destruct S; [auto|right; discriminate]). destruct Z as [Z|NZ].
  { exists []. split; [|constructor]. intros fuel _. unfold section_components. rewrite FF, Z. reflexivity. }
  set (es := face_edges S).
  destruct (@em_fill_rep _ (fun e => fin3 (cutp p n vs e)) (filter (cross p n vs) es) (mkem [] []) [] (rep_nil _)) as (K & KR & KI0).
  assert (KI : forall e, In e K <-> In e (map unordered (filter (cross p n vs) es))) by (intros e; rewrite KI0; cbn; tauto). clear KI0.
  set (im := em_fill (mkem [] []) (map (fun e => (fin3 (cutp p n vs (unordered e)), e)) (filter (cross p n vs) es))) in *.
  pose proof (@link_below p n vs S SS K KI) as LB. destruct (build_ok LB) as (d & Bd & Rd).
  set (lk := link p n vs K) in *. set (E := distinct (map lk S)) in *.
  destruct (@extract_spec sch Fr _ 0%nat d E (Nat.le_refl _) Rd) as (paths & A0 & A1 & A2 & A3 & A4 & A5 & A6 & _).
  assert (LE : (length E <= length S)%nat).
  { unfold E, distinct. rewrite <- (map_length lk S), <- (map_length unordered (map lk S)). apply NoDup_incl_length; [apply NoDup_nodup|]. intros e. now rewrite nodup_In. }
  assert (LS : (length S <= length fs)%nat) by (unfold S; clear; induction fs as [|f fs IH]; cbn [filter]; [auto|destruct (keep f); cbn [length]; lia]).
  assert (Bq : forall q, In q paths -> Forall (fun i => (i < length K)%nat) q).
  { intros q Iq. apply Forall_forall. intros i Ii. destruct (A6 q i Iq Ii) as (u & Iu). unfold E, distinct in Iu. apply nodup_In, in_map_iff in Iu. destruct Iu as (e & Q & Ie). apply in_map_iff in Ie. destruct Ie as (f & <- & If).
    apply (@link_edge p n vs S SS K KI f i If). fold lk. destruct (lk f) as [a b]. fold (ue a b) in Q. apply ue_inj in Q. cbn [fst snd]. intuition congruence. }
  exists (map (pcomp p n vs K) paths). rewrite Forall_forall in A2. split.
  - intros fuel Lf. unfold section_components. rewrite FF. assert (C0 : exists f0 S0, S = f0 :: S0) by (clear - NZ; destruct S; [congruence|eauto]). destruct C0 as (f0 & S0 & ES0). rewrite ES0. cbv beta iota. rewrite <- ES0. fold es. cbn [m_v].
    destruct (@takes vs S SR) as [T1 T2]. fold es in T1, T2. rewrite T1, T2.
    assert (MC : let '(pts, valid) := line_segment_xsections pl (map (fun e => fin3 (nth (fst e) vs rzero)) es) (map (fun e => fin3 (nth (snd e) vs rzero)) es) in
      combine (compress valid pts) (compress valid es) = map (fun e => (fin3 (cutp p n vs (unordered e)), e)) (filter (cross p n vs) es)) by exact (@map_cut p n pl vs Hpl OFF S SR).
    destruct (line_segment_xsections pl (map (fun e => fin3 (nth (fst e) vs rzero)) es) (map (fun e => fin3 (nth (snd e) vs rzero)) es)) as [pts valid]. rewrite MC. fold im.
    rewrite (@link_faces_eq p n vs S SS im K KR KI _ S (incl_refl S)). assert (EV : em_values im = map (fun e => fin3 (cutp p n vs e)) K) by apply KR. rewrite EV, map_length. fold lk. rewrite Bd. cbn [g_d]. rewrite A0 by lia.
    do 2 f_equal. rewrite (@traverse_ok _ _ _ (fun q => (map fin3 (fst (pcomp p n vs K q)), snd (pcomp p n vs K q)))).
    + now rewrite map_map.
    + intros q Iq. apply component_eq; [specialize (A2 q Iq); lia|]. pose proof (Bq q Iq) as W. now rewrite Forall_forall in W.
  - apply Forall_forall. intros c Ic. apply in_map_iff in Ic. destruct Ic as (q & <- & Iq). pose proof (A2 q Iq) as Lq. pose proof (Bq q Iq) as B. rewrite Forall_forall in B.
    assert (IN : forall x, In x (fst (pcomp p n vs K q)) -> exists i, In i q /\ x = P p n vs K i).
    { intros x. unfold pcomp. destruct (map (P p n vs K) q) as [|y r] eqn:Q; [intros []|]. intros Ix. assert (Iy : In x (map (P p n vs K) q)) by (rewrite Q; destruct (veqb (fin3 y) (fin3 (last (y :: r) y))); cbn [fst] in Ix; [now right|exact Ix]).
      apply in_map_iff in Iy. destruct Iy as (i & <- & Ii). eauto. }
    split.
    + unfold pcomp. destruct q as [|i [|j q]]; [cbn in Lq; lia|cbn in Lq; lia|]. cbn [map]. destruct (veqb _ _); discriminate.
    + intros x Ix. destruct (IN x Ix) as (i & Ii & ->). pose proof (B i Ii) as Li. unfold P. set (e := nth i K (0, 0)%nat).
      destruct (@K_cross p n vs S SR K KI i Li) as (C & _ & L1 & L2). fold e in C, L1, L2. pose proof (@K_prod p n vs OFF S SR K KI i Li) as D. fold e in D. split.
      * apply on_plane_sdist; [exact (n_nz Hpl)|]. apply cut_sdist. exact (neg_ne D).
      * assert (Ie : In e K) by now apply nth_In. apply KI, in_map_iff in Ie. destruct Ie as (y & Q & Iy). apply filter_In in Iy. destruct Iy as [Iy _]. apply in_es in Iy. destruct Iy as (a & b & c & If & Hx).
        exists (a, b, c), (fst y), (snd y). split; [now apply SI|]. split.
        -- unfold has_edge. apply andb_true_iff. cbn [corner_list]. split; apply existsb_exists; eexists; (split; [|apply Nat.eqb_refl]); cbn [In]; destruct Hx as [->|[->| ->]]; cbn [fst snd]; auto.
        -- assert (Cy : cross p n vs y = true) by (rewrite <- cross_unord, Q; exact C). assert (Ly : (fst y < length vs)%nat /\ (snd y < length vs)%nat).
           { rewrite Forall_forall in SR. destruct (SR _ If) as (La & Lb & Lc). destruct Hx as [->|[->| ->]]; cbn; auto. }
           destruct Ly as [Ly1 Ly2]. rewrite <- Q, (cutp_unord OFF Ly1 Ly2 Cy). rewrite (surjective_pairing y) in Cy. pose proof (cross_prod OFF Ly1 Ly2 Cy) as Dy.
           eexists. split; [exact (neg_param Dy)|reflexivity].
Qed.

(** ** the choice of a component *)
Definition fpair (c : list (V3 R) * bool) : list (V3 xr) * bool := (map fin3 (fst c), snd c).
Definition pcurve (c : list (V3 R) * bool) : polyline xr := fpoly (snd c) (fst c).
Lemma init_fpair c b : fst c <> [] -> init_points (Some (fst (fpair c))) b = Ok (fpoly b (fst c)).
Proof.
  intros H. unfold fpair. cbn [fst]. rewrite init_points_some by apply numeric_fin. rewrite map_length. destruct (fst c); [congruence|]. cbn [length Nat.eqb]. now rewrite andb_false_r.
Qed.
Lemma traverse_fpair comps : Forall (fun c => fst c <> []) comps -> traverse (fun vc => init_points (Some (fst vc)) (snd vc)) (map fpair comps) = Ok (map pcurve comps).
Proof.
  induction 1 as [|c comps H _ IH]; [reflexivity|]. cbn [map traverse]. rewrite init_fpair by auto. cbn [bindr]. now rewrite IH.
Qed.
Lemma argmin_argmax l : argmin (map Fin l) = argmax (map Fin (map Ropp l)).
Proof.
  destruct l as [|x l]; [reflexivity|]. unfold argmin, argmax. cbn [map argbest]. f_equal.
  assert (G : forall l b i k, argbest_from (fun x best : xr => if (best =? best)%num then ((x <? best) || negb (x =? x))%num else false) (Fin b) i k (map Fin l) =
    argbest_from (fun x best : xr => if (best =? best)%num then ((best <? x) || negb (x =? x))%num else false) (Fin (- b)) i k (map Fin (map Ropp l))).
  { clear. induction l as [|x l IH]; intros b i k; [reflexivity|]. cbn [map argbest_from]. xs. rewrite !Req_bool_true by auto. cbn [negb]. rewrite !orb_false_r.
    destruct (Rlt_bool_spec x b), (Rlt_bool_spec (- b) (- x)); try lra; apply IH. }
  apply G.
Qed.
Lemma argmin_spec l : l <> [] -> exists i m, argmin (map Fin l) = Ok i /\ nth_error l i = Some m /\
  (forall j y, nth_error l j = Some y -> m <= y) /\ (forall j y, (j < i)%nat -> nth_error l j = Some y -> m < y).
Proof.
  intros H. rewrite argmin_argmax. destruct (@argmax_spec (map Ropp l)) as (i & m & E & N & A & B); [destruct l; [congruence|discriminate]|].
  rewrite nth_error_map in N. destruct (nth_error l i) as [x|] eqn:Q; [|discriminate]. injection N as <-. exists i, x. split; [auto|]. split; [auto|]. split.
  - intros j y Hj. specialize (A j (- y)). rewrite nth_error_map, Hj in A. specialize (A eq_refl). lra.
  - intros j y L Hj. specialize (B j (- y) L). rewrite nth_error_map, Hj in B. specialize (B eq_refl). lra.
Qed.
Definition mean (dist : V3 R -> R) (vs : list (V3 R)) : R := rsum (map dist vs) / INR (length vs).
Lemma mean_fin query dist vs : (forall x, query (fin3 x) = Fin (dist x)) -> vs <> [] ->
  (nsum (map query (map fin3 vs)) / nofZ (Z.of_nat (length (map fin3 vs))))%num = Fin (mean dist vs).
Proof.
  intros H NE. rewrite map_map, (map_ext _ (fun x => Fin (dist x))) by auto. rewrite <- (map_map dist Fin), PPlane2.nsum_fin, map_length, xofZ, <- INR_IZR_INZ.
  assert (0 < INR (length vs)) by (apply lt_0_INR; destruct vs; [congruence|cbn; lia]). rewrite xdivE by lra. reflexivity.
Qed.
Lemma nearest_spec sch fuel pl m query dist comps : (forall x, query (fin3 x) = Fin (dist x)) ->
  section_components sch fuel pl m = Some (Ok (map fpair comps)) -> Forall (fun c => fst c <> []) comps -> (2 <= length comps)%nat ->
  exists i ws b, nth_error comps i = Some (ws, b) /\ mesh_xsections sch fuel pl m (Some query) = Some (Ok [fpoly true ws]) /\
    (forall j ws' b', nth_error comps j = Some (ws', b') -> mean dist ws <= mean dist ws') /\
    (forall j ws' b', (j < i)%nat -> nth_error comps j = Some (ws', b') -> mean dist ws < mean dist ws').
Proof.
  intros Hq Hc NE L. destruct (@argmin_spec (map (fun c => mean dist (fst c)) comps)) as (i & mm & E & N & A & B); [destruct comps; [cbn in L; lia|discriminate]|].
  rewrite nth_error_map in N. destruct (nth_error comps i) as [[ws b]|] eqn:Q; [|discriminate]. injection N as <-.
  exists i, ws, b. split; [exact Q|]. split.
  - unfold mesh_xsections. rewrite Hc, map_length. destruct (length comps) as [|[|k]] eqn:Lc; [lia|lia|]. cbn [Nat.eqb].
    replace (map (fun vc => (nsum (map query (fst vc)) / nofZ (Z.of_nat (length (fst vc))))%num) (map fpair comps)) with (map Fin (map (fun c => mean dist (fst c)) comps)).
    + rewrite E. cbn [bindr]. unfold getitem. rewrite nth_error_map, Q. cbn [option_map bindr]. rewrite init_fpair; [reflexivity|]. rewrite Forall_forall in NE. apply (NE (ws, b)), (nth_error_In _ _ Q).
    + rewrite !map_map. apply map_ext_in. intros c Ic. unfold fpair. cbn [fst]. rewrite Forall_forall in NE. now rewrite (mean_fin Hq) by auto.
  - split.
    + intros j ws' b' Hj. apply (A j). now rewrite nth_error_map, Hj.
    + intros j ws' b' Lj Hj. apply (B j); [auto|]. now rewrite nth_error_map, Hj.
Qed.
