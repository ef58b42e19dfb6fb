(** * From the mesh to the graph of its section. *)
From Coq Require Import Reals ZArith List Bool Lra Lia Psatz Permutation.
From Verif Require Import Num XLemmas Vec RVec VLemmas SpecGeom SpecHull SpecMesh SpecPoly NpList PPlane PPlane2 MPlane MSegment PSegment PMesh.
From Verif Require Import PApex MPolyline PPolyline PPolyline3 MMesh SpecGraph PGraph PGraph2 PGraph3 PGraph4.
Import ListNotations.
Local Open Scope R_scope.
Set Implicit Arguments.
Unset Strict Implicit.

Lemma combine_self {A B C} (f : A -> B) (g : A -> C) l : combine (map f l) (map g l) = map (fun x => (f x, g x)) l.
Proof. induction l; cbn; congruence. Qed.
Lemma compress_maps {A B} (g : A -> bool) (h : A -> B) l : compress (map g l) (map h l) = map h (filter g l).
Proof. apply PPolyline3.compress_map. Qed.
Lemma ordpairs_filter {A} (P : A -> A -> Prop) f l : ForallOrdPairs P l -> ForallOrdPairs P (filter f l).
Proof.
  induction 1 as [|x l H _ IH]; cbn [filter]; [constructor|]. destruct (f x); [|auto]. constructor; [|auto]. apply Forall_forall. intros y I. apply filter_In in I. rewrite Forall_forall in H. apply H, I.
Qed.
Lemma ordpairs_nodup {A B} (h : A -> B) l : ForallOrdPairs (fun x y => h x <> h y) l -> NoDup (map h l).
Proof.
  induction 1 as [|x l H _ IH]; cbn [map]; constructor; [|auto]. intros I. apply in_map_iff in I. destruct I as (y & E & I). rewrite Forall_forall in H. exact (H y I (eq_sym E)).
Qed.
Lemma ordpairs_impl {A} (P Q : A -> A -> Prop) l : (forall x y, In x l -> In y l -> P x y -> Q x y) -> ForallOrdPairs P l -> ForallOrdPairs Q l.
Proof.
  intros H F. induction F as [|x l G _ IH]; constructor.
  - apply Forall_forall. intros y I. apply H; [now left|now right|]. rewrite Forall_forall in G. auto.
  - apply IH. intros; apply H; [now right|now right|auto].
Qed.

Lemma neg_ne x y : x * y < 0 -> x <> y.
Proof. intros H E. subst y. nra. Qed.
Lemma neg_param x y : x * y < 0 -> 0 <= x / (x - y) <= 1.
Proof.
  intros H. assert (Nx : x <> 0) by nra. pose proof (neg_ne H) as NE.
  assert (P : 0 < / x * / x) by (rewrite <- Rinv_mult; apply Rinv_0_lt_compat; nra).
  assert (E : x / (x - y) = / ((x - y) / x)) by (field; lra). assert (H1 : 1 <= (x - y) / x) by (replace ((x - y) / x) with (1 - x * y * (/ x * / x)) by (field; auto); nra).
  rewrite E. split; [left; apply Rinv_0_lt_compat; lra|]. rewrite <- Rinv_1. apply Rinv_le_contravar; lra.
Qed.

Section Slice.
Context (p n : V3 R) (pl : plane xr) (vs : list (V3 R)).
Context (Hpl : mk_plane (fin3 p) (fin3 n) = Ok pl).
Context (OFF : forall v, In v vs -> sdist p n v <> 0).
Let V i := nth i vs rzero.
Let d i := sdist p n (V i).
Definition side i : bool := if Rlt_dec 0 (d i) then true else false.
Definition cross (e : nat * nat) : bool := xorb (side (fst e)) (side (snd e)).
Definition cutp (e : nat * nat) : V3 R := cut p n (V (fst e)) (V (snd e)).
Lemma n_nz : n <> rzero.
Proof. destruct (construct_spec Hpl) as (? & ? & H & _) || idtac. apply mk_plane_ok in Hpl. tauto. Qed.
Lemma d_nz i : (i < length vs)%nat -> d i <> 0.
Proof. intros L. apply OFF, nth_In, L. Qed.
Lemma side_spec i : (i < length vs)%nat -> (side i = true -> 0 < d i) /\ (side i = false -> d i < 0).
Proof. intros L. pose proof (d_nz L). unfold side. destruct Rlt_dec; split; intros; try discriminate; lra. Qed.
Lemma cross_sym a b : cross (a, b) = cross (b, a).
Proof. unfold cross. cbn [fst snd]. apply xorb_comm. Qed.
Lemma cross_unord e : cross (unordered e) = cross e.
Proof. unfold cross, unordered. cbn [fst snd]. destruct (Nat.le_ge_cases (fst e) (snd e)); [now rewrite Nat.min_l, Nat.max_r by auto|rewrite Nat.min_r, Nat.max_l by auto; apply xorb_comm]. Qed.
Lemma cross_prod a b : (a < length vs)%nat -> (b < length vs)%nat -> cross (a, b) = true -> d a * d b < 0.
Proof.
  intros La Lb. destruct (side_spec La), (side_spec Lb). unfold cross. cbn [fst snd]. destruct (side a), (side b); cbn; try discriminate; intros _.
  - specialize (H eq_refl). specialize (H2 eq_refl). nra.
  - specialize (H0 eq_refl). specialize (H1 eq_refl). nra.
Qed.
Lemma same_sign a b : (a < length vs)%nat -> (b < length vs)%nat -> cross (a, b) = false -> (0 < d a /\ 0 < d b) \/ (d a < 0 /\ d b < 0).
Proof.
  intros La Lb. destruct (side_spec La), (side_spec Lb). unfold cross. cbn [fst snd]. destruct (side a), (side b); cbn; try discriminate; intros _; auto.
Qed.
Lemma cutp_unord e : (fst e < length vs)%nat -> (snd e < length vs)%nat -> cross e = true -> cutp (unordered e) = cutp e.
Proof.
  intros La Lb C. destruct e as [a b]. cbn [fst snd] in *. pose proof (cross_prod La Lb C) as H. unfold cutp, unordered. cbn [fst snd].
  destruct (Nat.le_ge_cases a b); [now rewrite Nat.min_l, Nat.max_r by auto|]. rewrite Nat.min_r, Nat.max_l by auto. apply eq_sym, cut_sym. exact (neg_ne H).
Qed.
Lemma seg_cross a b : (a < length vs)%nat -> (b < length vs)%nat ->
  line_segment_xsection pl (fin3 (V a)) (fin3 (V b)) = if cross (a, b) then Some (fin3 (cutp (a, b))) else None.
Proof.
  intros La Lb. destruct (segment_spec (V a) (V b) Hpl) as [H1 H2]. fold (d a) (d b) in H1. destruct (cross (a, b)) eqn:C.
  - pose proof (cross_prod La Lb C) as H. destruct (proj2 H1) as (w & E); [split; [exact (neg_ne H)|split; intros [? ?]; nra]|]. rewrite E. destruct (H2 w E) as (y & -> & O & S & Un). do 2 f_equal. symmetry. apply Un.
    + apply on_plane_sdist; [apply n_nz|]. apply cut_sdist. exact (neg_ne H).
    + exists (d a / (d a - d b)). split; [|reflexivity]. exact (neg_param H).
  - destruct (line_segment_xsection pl (fin3 (V a)) (fin3 (V b))) as [w|] eqn:E; [exfalso|reflexivity]. destruct (proj1 H1 (ex_intro _ w eq_refl)) as (_ & N1 & N2). destruct (same_sign La Lb C); tauto.
Qed.
(** ** the crossing faces *)
Context (S : list face).
Context (SR : Forall (in_range vs) S) (SP : Forall proper S).
Context (SS : Forall (fun f => let '(a, b, c) := f in cross (a, b) = true \/ cross (a, c) = true) S).
Let es := face_edges S.
Lemma in_es e : In e es <-> exists a b c, In (a, b, c) S /\ (e = (a, b) \/ e = (b, c) \/ e = (c, a)).
Proof.
  unfold es, face_edges. rewrite !in_app_iff, !in_map_iff. split.
  - intros [(((a & b) & c) & <- & I)|[(((a & b) & c) & <- & I)|(((a & b) & c) & <- & I)]]; eauto 10.
  - intros (a & b & c & I & [->|[->| ->]]); [left|right; left|right; right]; exists (a, b, c); auto.
Qed.
Lemma es_range e : In e es -> (fst e < length vs)%nat /\ (snd e < length vs)%nat.
Proof.
  intros I. apply in_es in I. destruct I as (a & b & c & I & H). rewrite Forall_forall in SR. specialize (SR _ I). cbn in SR. destruct H as [->|[->| ->]]; cbn; tauto.
Qed.
Lemma map_cut : let '(pts, valid) := line_segment_xsections pl (map (fun e => fin3 (V (fst e))) es) (map (fun e => fin3 (V (snd e))) es) in
  combine (compress valid pts) (compress valid es) = map (fun e => (fin3 (cutp (unordered e)), e)) (filter cross es).
Proof.
  rewrite lsxs_rows by now rewrite !map_length. rewrite combine_self, !map_map. cbn [fst snd].
  assert (E : forall e, In e es -> line_segment_xsection pl (fin3 (V (fst e))) (fin3 (V (snd e))) = if cross e then Some (fin3 (cutp e)) else None).
  { intros e I. destruct (es_range I) as [La Lb]. destruct e as [a b]. now apply seg_cross. }
  rewrite (map_ext_in (fun e => match line_segment_xsection pl (fin3 (V (fst e))) (fin3 (V (snd e))) with Some _ => true | None => false end) cross).
  2:{ intros e I. rewrite (E e I). now destruct (cross e). }
  rewrite (map_ext_in _ (fun e => if cross e then fin3 (cutp e) else vnan)).
  2:{ intros e I. rewrite (E e I). now destruct (cross e). }
  rewrite compress_maps, compress_filter. rewrite <- (map_id (filter cross es)) at 2. rewrite combine_self. apply map_ext_in. intros e I. apply filter_In in I. destruct I as [I C]. rewrite C.
  destruct (es_range I). now rewrite cutp_unord.
Qed.
Lemma takes : take (map fin3 vs) (map fst es) = Ok (map (fun e => fin3 (V (fst e))) es) /\ take (map fin3 vs) (map snd es) = Ok (map (fun e => fin3 (V (snd e))) es).
Proof.
  split; rewrite (@take_ok _ _ (fin3 rzero)).
  - rewrite map_map. f_equal. apply map_ext. intros e. apply map_nth.
  - intros i I. apply in_map_iff in I. destruct I as (e & <- & I). rewrite map_length. now apply es_range.
  - rewrite map_map. f_equal. apply map_ext. intros e. apply map_nth.
  - intros i I. apply in_map_iff in I. destruct I as (e & <- & I). rewrite map_length. now apply es_range.
Qed.
(** ** the graph *)
Context (im : @edge_map xr) (K : edges).
Context (KR : rep (fun e => fin3 (cutp e)) im K) (KI : forall e, In e K <-> In e (map unordered (filter cross es))).
Definition idx (e : nat * nat) : nat := match index_of (unordered e) K with Some i => i | None => 0%nat end.
Lemma in_K a b c e : In (a, b, c) S -> e = (a, b) \/ e = (b, c) \/ e = (a, c) -> cross e = true -> In (unordered e) K.
Proof.
  intros I H C. apply KI, in_map_iff. destruct H as [->|[->| ->]].
  - exists (a, b). split; [reflexivity|]. apply filter_In. split; [|auto]. apply in_es. eauto 8.
  - exists (b, c). split; [reflexivity|]. apply filter_In. split; [|auto]. apply in_es. eauto 8.
  - exists (c, a). split; [apply ue_sym|]. apply filter_In. split; [|now rewrite cross_sym]. apply in_es. eauto 8.
Qed.
Lemma em_cross a b c e : In (a, b, c) S -> e = (a, b) \/ e = (b, c) \/ e = (a, c) ->
  em_index im (fst e) (snd e) = if cross e then Some (idx e) else None.
Proof.
  intros I H. rewrite em_index_look. destruct KR as (_ & L & _). rewrite L. unfold idx, ue. rewrite <- surjective_pairing. destruct (cross e) eqn:C.
  - destruct (index_of (unordered e) K) eqn:Q; [reflexivity|]. apply index_none in Q. exfalso. apply Q. exact (in_K I H C).
  - apply index_none. rewrite KI, in_map_iff. intros (x & E & Ix). apply filter_In in Ix. rewrite <- cross_unord, E, cross_unord in Ix. destruct Ix. congruence.
Qed.
Lemma idx_some a b c e : In (a, b, c) S -> e = (a, b) \/ e = (b, c) \/ e = (a, c) -> cross e = true -> nth_error K (idx e) = Some (unordered e).
Proof.
  intros I H C. unfold idx. destruct (index_of (unordered e) K) as [i|] eqn:Q; [now apply index_some|]. apply index_none in Q. exfalso. exact (Q (in_K I H C)).
Qed.
Definition link (f : face) : nat * nat :=
  let '(a, b, c) := f in
  if cross (a, b) then if cross (a, c) then (idx (a, b), idx (a, c)) else (idx (a, b), idx (b, c)) else (idx (a, c), idx (b, c)).
(** exactly two edges of a crossing face cross *)
Lemma face_cases a b c : In (a, b, c) S ->
  (cross (a, b) = true /\ cross (a, c) = true /\ cross (b, c) = false /\ link (a, b, c) = (idx (a, b), idx (a, c))) \/
  (cross (a, b) = true /\ cross (a, c) = false /\ cross (b, c) = true /\ link (a, b, c) = (idx (a, b), idx (b, c))) \/
  (cross (a, b) = false /\ cross (a, c) = true /\ cross (b, c) = true /\ link (a, b, c) = (idx (a, c), idx (b, c))).
Proof.
  intros I. rewrite Forall_forall in SS. specialize (SS _ I). cbn in SS. unfold link. unfold cross in *. cbn [fst snd] in *. destruct (side a), (side b), (side c); cbn in *; intuition discriminate.
Qed.
Lemma link_face_eq g a b c : In (a, b, c) S -> link_face im g (a, b, c) = add_edge g (Some (fst (link (a, b, c)))) (Some (snd (link (a, b, c)))).
Proof.
  intros I. unfold link_face. pose proof (@em_cross a b c (a, b) I ltac:(auto)) as E0. pose proof (@em_cross a b c (a, c) I ltac:(auto)) as E1. pose proof (@em_cross a b c (b, c) I ltac:(auto)) as E2. cbn [fst snd] in E0, E1, E2. rewrite E0, E1, E2.
  destruct (face_cases I) as [(A & B & C & ->)|[(A & B & C & ->)|(A & B & C & ->)]]; rewrite ?A, ?B, ?C; reflexivity.
Qed.
Lemma link_faces_eq g l : incl l S -> link_faces im g l = add_edges g (map link l).
Proof.
  revert g. induction l as [|[[a b] c] l IH]; intros g H; [reflexivity|]. cbn [link_faces map add_edges]. rewrite link_face_eq by (apply H; now left). destruct (link (a, b, c)) as [u v]. cbn [fst snd]. destruct (add_edge g (Some u) (Some v)) as [g'|]; [|reflexivity]. cbn [bindr]. apply IH. intros x Ix. apply H. now right.
Qed.
Definition ends (i : nat) : list nat := let e := nth i K (0%nat, 0%nat) in [fst e; snd e].
Lemma in_unord x e : In x [fst (unordered e); snd (unordered e)] <-> x = fst e \/ x = snd e.
Proof. unfold unordered. cbn [fst snd In]. destruct (Nat.le_ge_cases (fst e) (snd e)); [rewrite Nat.min_l, Nat.max_r by auto|rewrite Nat.min_r, Nat.max_l by auto]; intuition auto. Qed.
Lemma ends_idx a b c e x : In (a, b, c) S -> e = (a, b) \/ e = (b, c) \/ e = (a, c) -> cross e = true -> In x (ends (idx e)) <-> x = fst e \/ x = snd e.
Proof. intros I H C. unfold ends. rewrite (nth_error_nth _ _ _ (idx_some I H C)). apply in_unord. Qed.
Lemma link_corners f x : In f S -> In x (corner_list f) <-> In x (ends (fst (link f))) \/ In x (ends (snd (link f))).
Proof.
  destruct f as [[a b] c]. intros I. pose proof (fun e => @ends_idx a b c e x I) as E. cbn [corner_list In].
  destruct (face_cases I) as [(A & B & C & ->)|[(A & B & C & ->)|(A & B & C & ->)]]; cbn [fst snd]; rewrite !E by auto; cbn [fst snd]; intuition auto.
Qed.
Lemma link_edge f i : In f S -> i = fst (link f) \/ i = snd (link f) -> (i < length K)%nat /\ forall x, In x (ends i) -> In x (corner_list f).
Proof.
  intros I H. split.
  - destruct f as [[a b] c]. pose proof (fun e => @idx_some a b c e I) as E. apply nth_error_Some.
    destruct (face_cases I) as [(A & B & C & L)|[(A & B & C & L)|(A & B & C & L)]]; rewrite L in H; cbn [fst snd] in H; destruct H as [->| ->]; rewrite E by auto; discriminate.
  - intros x Hx. apply (link_corners x I). destruct H as [->| ->]; auto.
Qed.
Lemma link_loop : loop_free (map link S).
Proof.
  intros u H. apply in_map_iff in H. destruct H as ([[a b] c] & E & I). pose proof (fun e => @idx_some a b c e I) as Q. rewrite Forall_forall in SP. specialize (SP _ I). unfold proper in SP. cbn [corner_list] in SP.
  assert (D : a <> b /\ b <> c /\ a <> c) by (inversion SP as [|? ? H1 H2]; inversion H2 as [|? ? H3 H4]; subst; cbn in *; intuition congruence).
  destruct (face_cases I) as [(A & B & C & L)|[(A & B & C & L)|(A & B & C & L)]]; rewrite L in E; injection E as E1 E2.
  - pose proof (Q (a, b) ltac:(auto) A) as Q1. pose proof (Q (a, c) ltac:(auto) B) as Q2. rewrite E1 in Q1. rewrite E2 in Q2. rewrite Q1 in Q2. injection Q2 as W1 W2. assert (W : ue a b = ue a c) by (unfold ue, unordered; cbn [fst snd]; congruence). apply ue_inj in W. intuition congruence.
  - pose proof (Q (a, b) ltac:(auto) A) as Q1. pose proof (Q (b, c) ltac:(auto) C) as Q2. rewrite E1 in Q1. rewrite E2 in Q2. rewrite Q1 in Q2. injection Q2 as W1 W2. assert (W : ue a b = ue b c) by (unfold ue, unordered; cbn [fst snd]; congruence). apply ue_inj in W. intuition congruence.
  - pose proof (Q (a, c) ltac:(auto) B) as Q1. pose proof (Q (b, c) ltac:(auto) C) as Q2. rewrite E1 in Q1. rewrite E2 in Q2. rewrite Q1 in Q2. injection Q2 as W1 W2. assert (W : ue a c = ue b c) by (unfold ue, unordered; cbn [fst snd]; congruence). apply ue_inj in W. intuition congruence.
Qed.
Lemma link_below : Forall (fun e => (fst e < length K)%nat /\ (snd e < length K)%nat) (map link S).
Proof. apply Forall_forall. intros e I. apply in_map_iff in I. destruct I as (f & <- & I). split; apply (link_edge I); auto. Qed.
Lemma link_distinct : no_repeats S -> distinct (map link S) = map unordered (map link S).
Proof.
  intros NR. unfold distinct. apply nodup_fixed_point. rewrite map_map. apply ordpairs_nodup. refine (ordpairs_impl _ NR). intros f g If Ig NS E. apply NS. intros x. rewrite !link_corners by auto.
  destruct (link f) as [u v], (link g) as [u' v']. fold (ue u v) (ue u' v') in E. apply ue_inj in E. cbn [fst snd]. destruct E as [[-> ->]|[-> ->]]; tauto.
Qed.
Lemma filter_map_len {A B} (f : B -> bool) (g : A -> B) l : length (filter f (map g l)) = length (filter (fun x => f (g x)) l).
Proof. induction l as [|x l IH]; cbn [map filter]; [reflexivity|]. destruct (f (g x)); cbn [length]; congruence. Qed.
Lemma filter_len_le {A} (f g : A -> bool) l : (forall x, In x l -> f x = true -> g x = true) -> (length (filter f l) <= length (filter g l))%nat.
Proof.
  induction l as [|x l IH]; intros H; cbn [filter]; [auto|]. assert (IH' : (length (filter f l) <= length (filter g l))%nat) by (apply IH; intros; apply H; [now right|auto]).
  destruct (f x) eqn:Q; [rewrite (H x (or_introl eq_refl) Q); cbn [length]; lia|]. destruct (g x); cbn [length]; lia.
Qed.
Lemma link_degree : no_repeats S -> two_faces_per_edge S -> forall x, (degree (map link S) x <= 2)%nat.
Proof.
  intros NR TW x. unfold degree. rewrite (link_distinct NR), map_map, filter_map_len.
  assert (Inc : forall f, In f S -> incident x (unordered (link f)) = true -> x = fst (link f) \/ x = snd (link f)).
  { intros f I H. rewrite (surjective_pairing (link f)) in H. fold (ue (fst (link f)) (snd (link f))) in H. rewrite incident_ue in H. apply orb_true_iff in H. destruct H as [H|H]; apply Nat.eqb_eq in H; auto. }
  destruct (Nat.lt_ge_cases x (length K)) as [L|L].
  - destruct (nth x K (0%nat, 0%nat)) as [a b] eqn:E. assert (NE : a <> b).
    { assert (I : In (a, b) K) by (rewrite <- E; now apply nth_In). apply KI, in_map_iff in I. destruct I as (e & U & I). apply filter_In in I. destruct I as [_ C]. rewrite <- cross_unord, U in C. intros <-. unfold cross in C. cbn [fst snd] in C. rewrite xorb_nilpotent in C. discriminate. }
    etransitivity; [|exact (TW a b NE)]. apply filter_len_le. intros f If Hf. destruct (link_edge If (Inc f If Hf)) as [_ W]. unfold ends in W. rewrite E in W. cbn [fst snd] in W. unfold has_edge. apply andb_true_iff.
    split; apply existsb_exists; [exists a|exists b]; (split; [apply W; cbn; auto|apply Nat.eqb_refl]).
  - replace (filter (fun f => incident x (unordered (link f))) S) with (@nil face); [cbn; lia|]. symmetry. destruct (filter _ S) as [|f l] eqn:E; [reflexivity|exfalso].
    assert (I : In f (filter (fun f => incident x (unordered (link f))) S)) by (rewrite E; now left). apply filter_In in I. destruct I as [If Hf]. destruct (link_edge If (Inc f If Hf)). lia.
Qed.
(** the two points of a crossing face bound its section *)
Definition P (i : nat) : V3 R := cutp (nth i K (0%nat, 0%nat)).
Lemma P_idx a b c e : In (a, b, c) S -> e = (a, b) \/ e = (b, c) \/ e = (a, c) -> cross e = true -> P (idx e) = cutp e.
Proof.
  intros I H C. unfold P. rewrite (nth_error_nth _ _ _ (idx_some I H C)). rewrite Forall_forall in SR. specialize (SR _ I). cbn in SR. apply cutp_unord; [| |auto]; destruct H as [->|[->| ->]]; cbn; tauto.
Qed.
Lemma link_section f : In f S -> is_section p n (triangle vs f) (P (fst (link f)), P (snd (link f))).
Proof.
  destruct f as [[a b] c]. intros I. pose proof (fun e => @P_idx a b c e I) as E. rewrite Forall_forall in SR. pose proof (SR _ I) as (La & Lb & Lc). cbn in La, Lb, Lc. unfold triangle. cbn [corner_list map]. fold (V a) (V b) (V c).
  destruct (face_cases I) as [(A & B & C & ->)|[(A & B & C & ->)|(A & B & C & ->)]]; cbn [fst snd]; rewrite !E by auto; unfold cutp; cbn [fst snd].
  - apply section_lone; [apply n_nz|apply (cross_prod La Lb A)|apply (cross_prod La Lc B)].
  - (* b alone *) pose proof (cross_prod La Lb A) as Q. pose proof (cross_prod Lb Lc C) as Q'. rewrite (@cut_sym p n (V a) (V b)) by exact (neg_ne Q).
    apply section_perm, section_flip, section_lone; [apply n_nz|exact Q'|]. fold (d a) (d b). lra.
  - (* c alone *) pose proof (cross_prod La Lc B) as Q. pose proof (cross_prod Lb Lc C) as Q'. rewrite (@cut_sym p n (V a) (V c)) by exact (neg_ne Q). rewrite (@cut_sym p n (V b) (V c)) by exact (neg_ne Q').
    apply section_perm, section_perm, section_lone; [apply n_nz| |]; fold (d a) (d b) (d c); lra.
Qed.
End Slice.
