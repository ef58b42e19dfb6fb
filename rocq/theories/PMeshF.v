(** * Slicing in any number system: when it raises, and what it returns. *)
From Coq Require Import ZArith List Bool Arith Lia Permutation.
From Verif Require Import Num Vec NpList MPlane PPlane2 PApex MPolyline MMesh SpecSlice SpecMesh SpecGraph PGraph PGraph2 PGraph3 PGraph4 PMesh2.
Import ListNotations.
Set Implicit Arguments.
Unset Strict Implicit.

Section Any.
Context {F : Type} {N : Num F}.
(** the map after filling it with points *)
Definition repw (pes : list (V3 F * (nat * nat))) (m : @edge_map F) (K : edges) : Prop :=
  length (em_values m) = length K /\ (forall e, look m e = index_of e K) /\ NoDup K /\
  forall i x, nth_error (em_values m) i = Some x -> exists e, In (x, e) pes /\ nth_error K i = Some (unordered e).
Lemma em_fill_repw all pes : forall m K, incl pes all -> repw all m K ->
  exists K', repw all (em_fill m pes) K' /\ forall e, In e K' <-> In e K \/ In e (map (fun q => unordered (snd q)) pes).
Proof.
  induction pes as [|[x [u v]] pes IH]; intros m K I R.
  - exists K. cbn. tauto.
  - cbn [em_fill map snd]. fold (ue u v). destruct R as (V & L & ND & P). rewrite em_contains_look, L. destruct (index_of (ue u v) K) as [i|] eqn:Q.
    + destruct (IH m K) as (K' & R' & S); [intros y Hy; apply I; now right|repeat split; auto|]. exists K'. split; [exact R'|]. intros e. rewrite S. cbn [In]. apply index_some, nth_error_In in Q. split; [tauto|]. intros [|[<-|]]; auto.
    + destruct (IH (em_add m u v x) (K ++ [ue u v])) as (K' & R' & S).
      * intros y Hy. apply I. now right.
      * repeat split.
        -- rewrite em_add_values, !app_length, V. reflexivity.
        -- intros e. rewrite em_add_look, index_app, L, V. destruct (index_of e K) as [i|] eqn:Qe; [|reflexivity]. destruct (pair_dec (ue u v) e) as [<-|]; [congruence|reflexivity].
        -- apply (Permutation_NoDup (Permutation_app_comm [ue u v] K)). constructor; [now apply index_none|auto].
        -- intros i y. rewrite em_add_values. intros H. destruct (Nat.lt_ge_cases i (length (em_values m))) as [Li|Li].
           ++ rewrite nth_error_app1 in H by exact Li. destruct (P i y H) as (e & I1 & I2). exists e. split; [exact I1|]. rewrite nth_error_app1; [exact I2|]. now rewrite <- V.
           ++ rewrite nth_error_app2 in H by exact Li. destruct (i - length (em_values m)) as [|j] eqn:Q0; [|destruct j; discriminate H]. injection H as <-. exists (u, v). split; [apply I; now left|]. rewrite nth_error_app2 by (rewrite <- V; exact Li). rewrite <- V, Q0. reflexivity.
      * exists K'. split; [exact R'|]. intros e. rewrite S, in_app_iff. cbn [In]. tauto.
Qed.

Context (p : plane F) (vs : list (V3 F)) (fs : list face).
Lemma faces_range S : mesh_intersecting_faces p (mkmesh vs fs) = Ok S -> incl S fs /\ forall a b c, In (a, b, c) fs -> a < length vs /\ b < length vs /\ c < length vs.
Proof.
  unfold mesh_intersecting_faces. cbn [m_v m_f]. destruct (traverse _ fs) as [sums|] eqn:T; [|discriminate]. cbn [bindr]. intros [= <-]. split.
  - generalize (map (fun x => negb (neqb (nabs x) (nofZ 3))) sums). clear T. induction fs as [|f fs' IH]; intros m y; destruct m as [|[|] m]; cbn [compress]; intros H; try destruct H as [H|H]; try (now left); try (right; eapply IH; eauto); destruct H.
  - intros a b c I. revert sums T. induction fs as [|f fs' IH]; [destruct I|]. intros sums T. cbn [traverse] in T.
    assert (G : forall i (y : F), getitem (map nsign (signed_distance p vs)) i = Ok y -> i < length vs).
    { intros i y H. unfold getitem in H. destruct (nth_error _ i) eqn:E; [|discriminate]. assert (L : nth_error (map nsign (signed_distance p vs)) i <> None) by congruence. apply nth_error_Some in L. unfold signed_distance in L. now rewrite !map_length in L. }
    destruct (face_sign_sum _ f) as [s|] eqn:Ef; [|discriminate]. cbn [bindr] in T. destruct (traverse _ fs') as [ss|] eqn:T'; [|discriminate]. destruct I as [->|I]; [|exact (IH I ss eq_refl)].
    unfold face_sign_sum in Ef. destruct (getitem _ a) eqn:Ea; [|discriminate]. destruct (getitem _ b) eqn:Eb; [|discriminate]. destruct (getitem _ c) eqn:Ec; [|discriminate]. split; [exact (G _ _ Ea)|split; [exact (G _ _ Eb)|exact (G _ _ Ec)]].
Qed.

Context (S : list face) (HS : mesh_intersecting_faces p (mkmesh vs fs) = Ok S) (v0 : V3 F).
Let es := face_edges S.
Let V (i : nat) : V3 F := nth i vs v0.
Let hit (e : nat * nat) : bool := match line_segment_xsection p (V (fst e)) (V (snd e)) with Some _ => true | None => false end.
Let pt (e : nat * nat) : V3 F := match line_segment_xsection p (V (fst e)) (V (snd e)) with Some w => w | None => vnan end.
Lemma in_edges e : In e es <-> exists f, In f S /\ In e (sides f).
Proof.
  unfold es, face_edges. rewrite !in_app_iff, !in_map_iff. split.
  - intros [(f & <- & I)|[(f & <- & I)|(f & <- & I)]]; exists f; (split; [exact I|]); destruct f as [[a b] c]; cbn; auto.
  - intros ([[a b] c] & I & H). cbn [sides In] in H. destruct H as [<-|[<-|[<-|[]]]]; [left|right; left|right; right]; exists (a, b, c); auto.
Qed.
Lemma edges_range e : In e es -> fst e < length vs /\ snd e < length vs.
Proof.
  intros H. apply in_edges in H. destruct H as ([[a b] c] & I & H). destruct (faces_range HS) as [IN R]. destruct (R a b c (IN _ I)) as (La & Lb & Lc).
  cbn [sides In] in H. destruct H as [<-|[<-|[<-|[]]]]; cbn [fst snd]; auto.
Qed.
Lemma take_edges : take vs (map fst es) = Ok (map (fun e => V (fst e)) es) /\ take vs (map snd es) = Ok (map (fun e => V (snd e)) es).
Proof.
  split; rewrite (@take_ok _ _ v0).
  - now rewrite map_map.
  - intros i I. apply in_map_iff in I. destruct I as (e & <- & I). apply edges_range in I. tauto.
  - now rewrite map_map.
  - intros i I. apply in_map_iff in I. destruct I as (e & <- & I). apply edges_range in I. tauto.
Qed.
Lemma cut_edges : let '(pts, valid) := line_segment_xsections p (map (fun e => V (fst e)) es) (map (fun e => V (snd e)) es) in
  combine (compress valid pts) (compress valid es) = map (fun e => (pt e, e)) (filter hit es).
Proof.
  rewrite lsxs_rows by now rewrite !map_length. rewrite (combine_self (fun e => V (fst e)) (fun e => V (snd e)) es), !map_map. cbn [fst snd].
  change (combine (compress (map hit es) (map pt es)) (compress (map hit es) es) = map (fun e => (pt e, e)) (filter hit es)).
  rewrite (compress_maps hit pt es). rewrite <- (map_id es) at 3. rewrite (compress_maps hit (fun x => x) es). now rewrite combine_self.
Qed.
Lemma meets_hit u v x : meets_at p vs u v x -> hit (u, v) = true /\ pt (u, v) = x.
Proof.
  intros (A & B & EA & EB & H). unfold hit, pt, V. cbn [fst snd]. rewrite (nth_error_nth _ _ v0 EA), (nth_error_nth _ _ v0 EB), H. auto.
Qed.
Lemma hit_meets u v : u < length vs -> v < length vs -> hit (u, v) = true -> meets_at p vs u v (pt (u, v)).
Proof.
  intros Lu Lv H. exists (V u), (V v). unfold V. rewrite !(nth_error_nth' vs v0) by assumption. split; [reflexivity|]. split; [reflexivity|].
  unfold hit, pt, V in *. cbn [fst snd] in *. destruct (line_segment_xsection _ _ _); [reflexivity|discriminate].
Qed.
Lemma found_in a b : found p vs S a b <-> In (ue a b) (map unordered (filter hit es)).
Proof.
  rewrite in_map_iff. split.
  - intros (f & u & v & x & I & Is & E & M). exists (u, v). split.
    + fold (ue u v). destruct E as [[= -> ->]|[= -> ->]]; [reflexivity|apply ue_sym].
    + apply filter_In. split; [apply in_edges; eauto|]. exact (proj1 (meets_hit M)).
  - intros ([u v] & E & H). fold (ue u v) in E. apply filter_In in H. destruct H as [I H]. pose proof (edges_range I) as [Lu Lv]. apply in_edges in I. destruct I as (f & If & Is).
    exists f, u, v, (pt (u, v)). split; [exact If|]. split; [exact Is|]. apply ue_inj in E. split; [|now apply hit_meets].
    destruct E as [[-> ->]|[-> ->]]; auto.
Qed.

Let im := em_fill (mkem [] []) (map (fun e => (pt e, e)) (filter hit es)).
Lemma im_rep : exists K, repw (map (fun e => (pt e, e)) (filter hit es)) im K /\ forall a b, In (ue a b) K <-> found p vs S a b.
Proof.
  destruct (@em_fill_repw (map (fun e => (pt e, e)) (filter hit es)) (map (fun e => (pt e, e)) (filter hit es)) (mkem [] []) []) as (K & R & I).
  - intros x H. exact H.
  - repeat split; [constructor|]. intros [|i] x H; discriminate H.
  - exists K. split; [exact R|]. intros a b. rewrite I, found_in, map_map. cbn [In snd]. tauto.
Qed.
Lemma idx_found K : (forall e, look im e = index_of e K) -> (forall a b, In (ue a b) K <-> found p vs S a b) ->
  forall a b, (exists i, em_index im a b = Some i /\ i < length K /\ index_of (ue a b) K = Some i /\ found p vs S a b) \/ (em_index im a b = None /\ ~ found p vs S a b).
Proof.
  intros L I a b. rewrite em_index_look, L. destruct (index_of (ue a b) K) as [i|] eqn:Q.
  - left. exists i. split; [reflexivity|]. split; [exact (index_lt Q)|]. split; [reflexivity|]. apply I. apply index_some, nth_error_In in Q. exact Q.
  - right. split; [reflexivity|]. rewrite <- I. now apply index_none.
Qed.
(** the points with indices [i] and [j] are on two sides of the face *)
Definition ends (K : edges) (f : face) (e : nat * nat) : Prop := exists k1 k2 e1 e2, k1 <> k2 /\ nth_error (sides f) k1 = Some e1 /\ nth_error (sides f) k2 = Some e2 /\
  index_of (unordered e1) K = Some (fst e) /\ index_of (unordered e2) K = Some (snd e).
Lemma link_dec K : (forall e, look im e = index_of e K) -> (forall a b, In (ue a b) K <-> found p vs S a b) ->
  forall f, (two_found p vs S f /\ exists e, fst e < length K /\ snd e < length K /\ ends K f e /\ forall g, link_face im g f = add_edge g (Some (fst e)) (Some (snd e))) \/
    (~ two_found p vs S f /\ forall g, g_size g = length K -> link_face im g f = Err TypeError).
Proof.
  intros L I [[a b] c]. unfold two_found, link_face.
  destruct (idx_found L I a b) as [(i & Ei & Li & Ki & Fi)|(Ei & Fi)], (idx_found L I a c) as [(j & Ej & Lj & Kj & Fj)|(Ej & Fj)], (idx_found L I b c) as [(k & Ek & Lk & Kk & Fk)|(Ek & Fk)];
    rewrite ?Ei, ?Ej, ?Ek;
    try (rewrite ue_sym in Kj);
    try (left; split; [tauto|]; exists (i, j); cbn [fst snd]; split; [exact Li|]; split; [exact Lj|]; split; [exists 0, 2, (a, b), (c, a); cbn [sides nth_error fst snd]; auto|auto]; fail);
    try (left; split; [tauto|]; exists (i, k); cbn [fst snd]; split; [exact Li|]; split; [exact Lk|]; split; [exists 0, 1, (a, b), (b, c); cbn [sides nth_error fst snd]; auto|auto]; fail);
    try (left; split; [tauto|]; exists (j, k); cbn [fst snd]; split; [exact Lj|]; split; [exact Lk|]; split; [exists 2, 1, (c, a), (b, c); cbn [sides nth_error fst snd]; auto|auto]; fail);
    right; (split; [tauto|]); intros g Hg; cbn [add_edge]; rewrite ?Hg; try reflexivity;
    try (rewrite (proj2 (Nat.ltb_lt _ _) Li); reflexivity); try (rewrite (proj2 (Nat.ltb_lt _ _) Lj); reflexivity).
Qed.
Lemma link_all K : (forall e, look im e = index_of e K) -> (forall a b, In (ue a b) K <-> found p vs S a b) -> forall l,
  ((forall f, In f l -> two_found p vs S f) -> exists ls, length ls = length l /\ Forall (fun e => fst e < length K /\ snd e < length K) ls /\ (forall f, In f l -> exists e, In e ls /\ ends K f e) /\ forall g, link_faces im g l = add_edges g ls) /\
  ((exists f, In f l /\ ~ two_found p vs S f) -> forall g, g_size g = length K -> link_faces im g l = Err TypeError).
Proof.
  intros L I. induction l as [|f l [IH1 IH2]]; split.
  - intros _. exists []. repeat split; [constructor|]. intros f [].
  - intros (f & [] & _).
  - intros H. destruct (link_dec L I f) as [(_ & e & L1 & L2 & En & E)|(NF & _)]; [|exfalso; apply NF, H; now left].
    destruct IH1 as (ls & Ll & Fl & Gl & El); [intros h Hh; apply H; now right|]. exists (e :: ls). split; [cbn; congruence|]. split; [constructor; auto|]. split; [intros h [<-|Hh]; [exists e; split; [now left|exact En]|destruct (Gl h Hh) as (e' & I1 & I2); exists e'; split; [now right|exact I2]]|].
    intros g. cbn [link_faces add_edges]. destruct e as [e1 e2]. rewrite E. cbn [fst snd]. destruct (add_edge g (Some e1) (Some e2)); cbn [bindr]; [apply El|reflexivity].
  - intros (h & Hh & NF) g Hg. cbn [link_faces]. destruct (link_dec L I f) as [(T & e & L1 & L2 & _ & E)|(_ & E)]; [|now rewrite (E g Hg)].
    rewrite E. unfold add_edge. rewrite Hg. rewrite (proj2 (Nat.ltb_lt _ _) L1), (proj2 (Nat.ltb_lt _ _) L2). cbn [bindr].
    apply IH2; [|reflexivity]. destruct Hh as [->|Hh]; [contradiction|eauto].
Qed.

(** what [section_components] computes, once faces are selected *)
Lemma section_unfold sch fuel : S <> [] -> section_components sch fuel p (mkmesh vs fs) =
  match link_faces im (mkgraph (length (em_values im)) []) S with
  | Err e => Some (Err e)
  | Ok g => match extract sch fuel 0 (g_d g) with
            | None => None
            | Some (Err e) => Some (Err e)
            | Some (Ok paths) => Some (traverse (component (em_values im)) paths)
            end
  end.
Proof.
  intros NE. unfold section_components. rewrite HS. assert (C0 : exists f0 S0, S = f0 :: S0) by (clear - NE; destruct S; [congruence|eauto]). destruct C0 as (f0 & S0 & ES0). rewrite ES0. cbv beta iota. rewrite <- ES0. fold es. cbn [m_v].
  destruct take_edges as [T1 T2]. rewrite T1, T2. pose proof cut_edges as MC.
  destruct (line_segment_xsections p (map (fun e => V (fst e)) es) (map (fun e => V (snd e)) es)) as [pts valid]. rewrite MC. reflexivity.
Qed.
Lemma component_ok verts q : 2 <= length q -> (forall i, In i q -> i < length verts) ->
  exists c, component verts q = Ok c /\ fst c <> [] /\ (forall x, In x (fst c) -> In x verts) /\
    forall i x, In i q -> nth_error verts i = Some x -> In x (fst c) \/ exists y, In y (fst c) /\ veqb x y = true.
Proof.
  intros L R. unfold component. destruct q as [|i [|j q]]; cbn [length] in L; try lia. rewrite (@take_ok _ verts v0) by exact R. cbn [bindr map].
  assert (I : forall x, In x (map (fun i => nth i verts v0) (i :: j :: q)) -> In x verts).
  { intros x H. apply in_map_iff in H. destruct H as (k & <- & Hk). apply nth_In. auto. }
  assert (J : forall k x, In k (i :: j :: q) -> nth_error verts k = Some x -> In x (map (fun i => nth i verts v0) (i :: j :: q))).
  { intros k x Hk Hx. apply in_map_iff. exists k. split; [exact (nth_error_nth _ _ _ Hx)|exact Hk]. }
  destruct (veqb _ _) eqn:VE; eexists; (split; [reflexivity|]); cbn [fst]; (split; [discriminate|]).
  - split; [intros x H; apply I; now right|]. intros k x Hk Hx. destruct (J k x Hk Hx) as [<-|H]; [right|left; exact H]. eexists. split; [|exact VE].
    cbn [map last]. destruct q as [|k' q]; [now left|]. right. clear. revert k'. induction q as [|k2 q IH]; intros k'; [now left|]. right. apply IH.
  - split; [exact I|]. intros k x Hk Hx. left. exact (J k x Hk Hx).
Qed.
Theorem slice_raises : (exists f, In f S /\ ~ two_found p vs S f) -> forall sch fuel, section_components sch fuel p (mkmesh vs fs) = Some (Err TypeError).
Proof.
  intros (f & If & NF) sch fuel. rewrite section_unfold by (intros E; rewrite E in If; destruct If).
  destruct im_rep as (K & (LV & L & ND & PV) & I). destruct (link_all L I S) as [_ H]. rewrite H; eauto.
Qed.
Theorem slice_returns sch : (forall f, In f S -> two_found p vs S f) -> fair sch ->
  exists comps, (forall fuel, 2 * length fs + 2 <= fuel -> section_components sch fuel p (mkmesh vs fs) = Some (Ok comps)) /\
    Forall (fun c => fst c <> [] /\ forall x, In x (fst c) -> exists f u v, In f S /\ In (u, v) (sides f) /\ meets_at p vs u v x) comps /\
    (forall f, In f S -> exists c k1 k2 u1 v1 u2 v2, In c comps /\ k1 <> k2 /\ nth_error (sides f) k1 = Some (u1, v1) /\ nth_error (sides f) k2 = Some (u2, v2) /\ met_on p vs u1 v1 (fst c) /\ met_on p vs u2 v2 (fst c)).
Proof.
  intros T Fr. assert (Z : S = [] \/ S <> []) by (clear; destruct S; [auto|right; discriminate]). destruct Z as [Z|NZ].
  { exists []. split; [|split; [constructor|rewrite Z; intros f []]]. intros fuel _. unfold section_components. now rewrite HS, Z. }
  destruct im_rep as (K & (LV & L & ND & PV) & I). destruct (link_all L I S) as [H _]. destruct (H T) as (ls & Ll & Fl & Gl & El).
  destruct (build_ok Fl) as (d & Bd & Rd). destruct (@extract_spec sch Fr _ 0%nat d (distinct ls) (Nat.le_refl _) Rd) as (paths & A0 & _ & A2 & A3 & _ & _ & A6 & _).
  assert (LE : length (distinct ls) <= length S).
  { apply Nat.le_trans with (length ls); [|rewrite Ll; apply Nat.le_refl]. unfold distinct. rewrite <- (map_length unordered ls). apply NoDup_incl_length; [apply NoDup_nodup|]. intros e. now rewrite nodup_In. }
  assert (LS : length S <= length fs).
  { pose proof HS as Q. unfold mesh_intersecting_faces in Q. cbn [m_v m_f] in Q. destruct (traverse _ fs) as [sums|]; [|discriminate Q]. injection Q as <-. clear. generalize (map (fun x => negb (neqb (nabs x) (nofZ 3))) sums).
    induction fs as [|f l IH]; intros [|[|] m]; cbn [compress length]; try lia; specialize (IH m); lia. }
  assert (Bq : forall q i, In q paths -> In i q -> i < length (em_values im)).
  { intros q i Iq Ii. rewrite LV. destruct (A6 q i Iq Ii) as (u & Iu). unfold distinct in Iu. apply nodup_In, in_map_iff in Iu. destruct Iu as ([x y] & Q & Ie). fold (ue x y) in Q. apply ue_inj in Q.
    rewrite Forall_forall in Fl. destruct (Fl _ Ie) as [Fx Fy]. cbn [fst snd] in Fx, Fy. destruct Q as [[-> _]|[_ ->]]; auto. }
  rewrite Forall_forall in A2.
  assert (TC : exists comps, traverse (component (em_values im)) paths = Ok comps /\ Forall (fun c => fst c <> [] /\ forall x, In x (fst c) -> In x (em_values im)) comps /\
    forall q, In q paths -> exists c, In c comps /\ forall i x, In i q -> nth_error (em_values im) i = Some x -> In x (fst c) \/ exists y, In y (fst c) /\ veqb x y = true).
  { clear A0 A3 A6. induction paths as [|q paths IH]; [exists []; split; [reflexivity|split; [constructor|intros q []]]|].
    destruct (@component_ok (em_values im) q) as (c & Ec & Nc & Ic & Jc); [apply A2; now left|intros i; apply Bq; now left|].
    destruct IH as (cs & Ecs & Fcs & Gcs); [intros x Hx; apply A2; now right|intros x i Hx; apply Bq; now right|]. exists (c :: cs). cbn [traverse]. rewrite Ec. cbn [bindr]. rewrite Ecs. cbn [bindr]. split; [reflexivity|]. split; [constructor; auto|]. intros q' [<-|Hq]; [exists c; split; [now left|exact Jc]|]. destruct (Gcs q' Hq) as (c' & I1 & I2). exists c'. split; [now right|exact I2]. }
  destruct TC as (comps & Tc & Fc & Gc).
  assert (Hit : forall i x, nth_error (em_values im) i = Some x -> exists u v, In (u, v) es /\ meets_at p vs u v x /\ nth_error K i = Some (ue u v)).
  { intros i x Ei. destruct (PV i x Ei) as (e & Ie & Ke). apply in_map_iff in Ie. destruct Ie as ([u v] & Q & Ie). injection Q as Ex Ee. subst e. apply filter_In in Ie. destruct Ie as [Ie He]. pose proof (edges_range Ie) as [Lu Lv].
    exists u, v. split; [exact Ie|]. split; [rewrite <- Ex; now apply hit_meets|exact Ke]. }
  exists comps. split; [|split].
  - intros fuel Lf. rewrite section_unfold by exact NZ. rewrite LV, El, Bd. cbn [g_d]. rewrite A0 by lia. now rewrite Tc.
  - refine (Forall_impl _ _ Fc). intros c [Nc Ic]. split; [exact Nc|]. intros x Ix. apply Ic in Ix. apply In_nth_error in Ix. destruct Ix as (i & Ei). destruct (Hit i x Ei) as (u & v & Ie & Mt & _).
    apply in_edges in Ie. destruct Ie as (f & If & Is). exists f, u, v. auto.
  - intros f If. destruct (Gl f If) as ([i j] & Ie & k1 & k2 & [u1 v1] & [u2 v2] & Nk & N1 & N2 & I1 & I2). cbn [fst snd] in I1, I2.
    assert (Id : In (ue i j) (distinct ls)) by (unfold distinct; apply nodup_In, in_map_iff; exists (i, j); auto).
    destruct (A3 i j Id) as (q & Iq & Hi & Hj). destruct (Gc q Iq) as (c & Icc & Gq). exists c, k1, k2, u1, v1, u2, v2. split; [exact Icc|]. split; [exact Nk|]. split; [exact N1|]. split; [exact N2|].
    assert (Mo : forall k u v, In k q -> index_of (unordered (u, v)) K = Some k -> met_on p vs u v (fst c)).
    { intros k u v Hk Ik. assert (Lk : k < length (em_values im)) by (rewrite LV; exact (index_lt Ik)). destruct (nth_error (em_values im) k) as [x|] eqn:Ex; [|apply nth_error_None in Ex; lia].
      destruct (Hit k x Ex) as (u' & v' & _ & Mt & Kk). apply index_some in Ik. rewrite Ik in Kk. assert (Q : ue u v = ue u' v') by (unfold ue at 1; congruence). apply ue_inj in Q.
      exists x. split; [destruct Q as [[-> ->]|[-> ->]]; auto|exact (Gq k x Hk Ex)]. }
    split; eauto.
Qed.
End Any.
