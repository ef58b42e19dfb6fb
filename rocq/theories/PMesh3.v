(** * From the graph of the section to its polylines. *)
From Coq Require Import Reals ZArith List Bool Lra Lia Psatz Permutation Relations.
From Verif Require Import Num XLemmas Vec RVec VLemmas SpecGeom SpecHull SpecMesh SpecPoly NpList PPlane PPlane2 MPlane MSegment PSegment PMesh.
From Verif Require Import PApex MPolyline PPolyline PPolyline2 MMesh SpecGraph PGraph PGraph2 PGraph3 PGraph4 PMesh2.
Import ListNotations.
Local Open Scope R_scope.
Set Implicit Arguments.
Unset Strict Implicit.

(** ** paths *)
Lemma dg_perm E E' x : Permutation E E' -> dg E x = dg E' x.
Proof.
  unfold dg. induction 1; cbn [filter]; auto; try congruence.
  - destruct (incident x x0); cbn; congruence.
  - destruct (incident x x0), (incident x y); reflexivity.
Qed.
Lemma dg_app E E' x : dg (E ++ E') x = (dg E x + dg E' x)%nat.
Proof. unfold dg. now rewrite filter_app, app_length. Qed.
Lemma steps_in q a b : In (a, b) (steps q) -> In a q /\ In b q.
Proof.
  induction q as [|x [|y q] IH]; cbn [steps]; [intros []|intros []|]. intros [H|H]; [injection H as <- <-; split; cbn; auto|]. destruct (IH H). split; now right.
Qed.
Lemma steps_len q : length (steps q) = (length q - 1)%nat.
Proof. induction q as [|x [|y q] IH]; cbn [steps length] in *; lia. Qed.
Lemma steps_parity y q x : loop_free (steps (y :: q)) -> Nat.odd (dg (U (steps (y :: q))) x) = xorb (Nat.eqb y x) (Nat.eqb (last (y :: q) 0%nat) x).
Proof.
  revert y. induction q as [|z q IH]; intros y LF; [cbn; now destruct (Nat.eqb y x)|].
  change (steps (y :: z :: q)) with ((y, z) :: steps (z :: q)) in *. cbn [map]. fold (ue y z). rewrite dg_cons, incident_ue.
  rewrite Nat.odd_add, IH by (intros u I; apply (LF u); now right). change (last (y :: z :: q) 0%nat) with (last (z :: q) 0%nat).
  assert (N : y <> z) by (intros E; apply (LF y); left; now rewrite E). generalize (Nat.eqb (last (z :: q) 0%nat) x). intros bq. destruct (Nat.eqb_spec y x), (Nat.eqb_spec z x); try congruence; destruct bq; reflexivity.
Qed.
Lemma open_steps {A} (f : nat -> A) q : segs false (map f q) = map (fun e => (f (fst e), f (snd e))) (steps q).
Proof. induction q as [|x [|y q] IH]; [reflexivity|reflexivity|]. change (map f (x :: y :: q)) with (f x :: f y :: map f q). rewrite open_segs_cons. cbn [steps map fst snd]. f_equal. exact IH. Qed.
Lemma closed_segs {A} (x y : A) l : last (y :: l) y = x -> segs true (y :: l) = segs false (y :: l) ++ [(x, y)].
Proof.
  intros E. change (segs true (y :: l)) with (segs false ((y :: l) ++ [y])).
  destruct (@exists_last _ (y :: l) ltac:(discriminate)) as (m & z & Q). rewrite Q in E |- *. rewrite last_last in E. subst z.
  rewrite <- app_assoc. cbn [app]. cbn [app]. apply open_segs_snoc.
Qed.
Lemma split_groups {A B} (g : A -> B) : forall (ls : list (list B)) l, map g l = concat ls -> exists gs, l = concat gs /\ Forall2 (fun x y => map g x = y) gs ls.
Proof.
  induction ls as [|b ls IH]; intros l H; cbn [concat] in H.
  - destruct l; [|discriminate]. exists []. auto.
  - apply map_eq_app in H. destruct H as (l1 & l2 & -> & E1 & E2). destruct (IH _ E2) as (gs & -> & F). exists (l1 :: gs). auto.
Qed.
Lemma ordpairs_forall2 {A B} (R : B -> B -> Prop) (R' : A -> A -> Prop) (T : A -> B -> Prop) gs qs :
  (forall g g' q q', T g q -> T g' q' -> R q q' -> R' g g') -> Forall2 T gs qs -> ForallOrdPairs R qs -> ForallOrdPairs R' gs.
Proof.
  intros H F. induction F as [|g q gs qs Tg F IH]; intros O; constructor; inversion O as [|? ? O1 O2]; subst; [|auto].
  clear IH O O2. induction F as [|g' q' gs qs Tg' F IH]; constructor; inversion O1; subst; eauto.
Qed.
Lemma forall2_map_r {A B C} (T : A -> C -> Prop) (h : B -> C) gs qs : Forall2 (fun g q => T g (h q)) gs qs <-> Forall2 T gs (map h qs).
Proof.
  split.
  - induction 1; cbn; constructor; auto.
  - revert gs. induction qs as [|q qs IH]; intros gs H; inversion H; subst; constructor; auto.
Qed.
Lemma dg_absent q x : ~ In x q -> dg (U (steps q)) x = 0%nat.
Proof.
  intros N. unfold dg. destruct (filter (incident x) (U (steps q))) as [|e l] eqn:E; [reflexivity|exfalso].
  assert (I : In e (filter (incident x) (U (steps q)))) by (rewrite E; now left). apply filter_In in I. destruct I as [I Q]. apply in_map_iff in I. destruct I as ([a b] & <- & I). fold (ue a b) in Q. rewrite incident_ue in Q. apply steps_in in I. apply orb_true_iff in Q. destruct Q as [Q|Q]; apply Nat.eqb_eq in Q; subst; tauto.
Qed.
Lemma dg_paths paths q x : ForallOrdPairs disjoint paths -> In q paths -> In x q -> dg (U (concat (map steps paths))) x = dg (U (steps q)) x.
Proof.
  induction 1 as [|p paths D O IH]; intros I Ix; [destruct I|]. cbn [map concat]. rewrite map_app, dg_app. rewrite Forall_forall in D. destruct I as [->|I].
  - assert (Z : forall l, (forall q', In q' l -> ~ In x q') -> dg (U (concat (map steps l))) x = 0%nat).
    { induction l as [|q' l IHl]; intros H; [reflexivity|]. cbn [map concat]. rewrite map_app, dg_app, dg_absent, IHl; [reflexivity|intros; apply H; now right|apply H; now left]. }
    rewrite Z; [lia|]. intros q' I'. apply (D q' I' x Ix).
  - rewrite dg_absent, IH; auto. intros J. exact (D q I x J Ix).
Qed.
Lemma last_map {A B} (f : A -> B) l d : last (map f l) (f d) = f (last l d).
Proof. induction l as [|x [|y l] IH]; [reflexivity|reflexivity|]. exact IH. Qed.
Lemma last_default {A} (x : A) l d d' : last (x :: l) d = last (x :: l) d'.
Proof. revert x. induction l as [|y l IH]; intros x; [reflexivity|]. exact (IH y). Qed.

Lemma one_piece_mono p n vs (g g' : list face) f f' : incl g g' -> clos_refl_sym_trans _ (fun a b => In a g /\ In b g /\ share_cut_edge p n vs a b) f f' ->
  clos_refl_sym_trans _ (fun a b => In a g' /\ In b g' /\ share_cut_edge p n vs a b) f f'.
Proof.
  intros I. induction 1 as [x y (A & B & C)|x|x y _ IH|x y z _ IH1 _ IH2]; [apply rst_step; auto|apply rst_refl|apply rst_sym; auto|eapply rst_trans; eauto].
Qed.

Section Paths.
Context (p n : V3 R) (pl : plane xr) (vs : list (V3 R)).
Context (Hpl : mk_plane (fin3 p) (fin3 n) = Ok pl).
Context (OFF : forall v, In v vs -> sdist p n v <> 0).
Context (S : list face).
Context (SR : Forall (in_range vs) S) (SP : Forall proper S).
Context (SS : Forall (fun f => let '(a, b, c) := f in cross p n vs (a, b) = true \/ cross p n vs (a, c) = true) S).
Context (K : edges) (KI : forall e, In e K <-> In e (map unordered (filter (cross p n vs) (face_edges S)))).
Context (KN : NoDup K).
Let link := link p n vs K.
Let P := P p n vs K.
Definition pcomp (q : list nat) : list (V3 R) * bool :=
  match map P q with
  | [] => ([], false)
  | x :: r => if veqb (fin3 x) (fin3 (last (x :: r) x)) then (r, true) else (x :: r, false)
  end.
Lemma component_eq q : (1 <= length q)%nat -> (forall i, In i q -> (i < length K)%nat) ->
  component (map (fun e => fin3 (cutp p n vs e)) K) q = Ok (map fin3 (fst (pcomp q)), snd (pcomp q)).
Proof.
  intros L H. unfold component. rewrite (@take_ok _ _ (fin3 (cutp p n vs (0%nat, 0%nat)))) by (intros i I; rewrite map_length; auto). cbn [bindr].
  rewrite (map_ext _ (fun i => fin3 (P i))) by (intros i; apply (map_nth (fun e => fin3 (cutp p n vs e)))). rewrite <- (map_map P fin3). unfold pcomp.
  destruct q as [|i q]; [cbn in L; lia|]. destruct (map P (i :: q)) as [|x r] eqn:E; [discriminate|]. cbn [map]. change (fin3 x :: map fin3 r) with (map fin3 (x :: r)) at 1. rewrite last_map.
  destruct (veqb (fin3 x) (fin3 (last (x :: r) x))); reflexivity.
Qed.
Definition follows (g : list face) (q : list nat) : Prop := map (fun f => unordered (link f)) g = U (steps q) /\ incl g S.
Lemma follows_sections g st : map (fun f => unordered (link f)) g = U st -> incl g S ->
  Forall2 (fun f s => is_section p n (triangle vs f) s) g (map (fun e => (P (fst e), P (snd e))) st).
Proof.
  revert st. induction g as [|f g IH]; intros [|[u v] st] E I; try discriminate; [constructor|]. cbn [map] in E |- *. injection E as E1 E2 E3.
  constructor; [|apply IH; [auto|intros x Ix; apply I; now right]]. cbn [fst snd]. pose proof (@link_section p n pl vs Hpl OFF S SR SS K KI f (I _ (or_introl eq_refl))) as Q. fold link in Q. fold P in Q.
  destruct (link f) as [a b]. cbn [fst snd] in *. assert (W : ue a b = ue u v) by (unfold ue, unordered; cbn [fst snd]; congruence). apply ue_inj in W. destruct W as [[-> ->]|[-> ->]]; [exact Q|now apply section_flip].
Qed.
Lemma cut_edge_link f a b : In f S -> has_edge a b f = true -> sdist p n (nth a vs rzero) * sdist p n (nth b vs rzero) < 0 ->
  idx K (a, b) = fst (link f) \/ idx K (a, b) = snd (link f).
Proof.
  destruct f as [[x y] z]. intros I H D. unfold has_edge in H. apply andb_true_iff in H. destruct H as [Ha Hb]. apply existsb_exists in Ha, Hb. destruct Ha as (a' & Ia & Ea), Hb as (b' & Ib & Eb). apply Nat.eqb_eq in Ea, Eb. subst a' b'. cbn [corner_list In] in Ia, Ib.
  rewrite Forall_forall in SR. pose proof (SR _ I) as (Lx & Ly & Lz). assert (La : (a < length vs)%nat) by (intuition congruence). assert (Lb : (b < length vs)%nat) by (intuition congruence).
  assert (C : cross p n vs (a, b) = true).
  { destruct (cross p n vs (a, b)) eqn:C; [reflexivity|exfalso]. pose proof (same_sign OFF La Lb C) as [[? ?]|[? ?]]; nra. }
  assert (NE : a <> b) by (intros ->; unfold cross in C; cbn in C; now rewrite xorb_nilpotent in C).
  assert (Sy : forall u v, idx K (u, v) = idx K (v, u)) by (intros u v; unfold idx; fold (ue u v) (ue v u); now rewrite ue_sym).
  assert (Cs : forall u v, cross p n vs (u, v) = cross p n vs (v, u)) by (intros; apply cross_sym).
  pose proof (@face_cases p n vs S SS K x y z I) as FC. fold link in FC.
  destruct Ia as [<-|[<-|[<-|[]]]], Ib as [<-|[<-|[<-|[]]]]; try congruence;
  destruct FC as [(A & B & D' & ->)|[(A & B & D' & ->)|(A & B & D' & ->)]]; cbn [fst snd]; auto; try congruence;
  rewrite Cs in C; try congruence; rewrite Sy; auto.
Qed.
Lemma follows_in g q f : follows g q -> In f g -> In (fst (link f)) q /\ In (snd (link f)) q.
Proof.
  intros [E _] I. apply (in_map (fun f => unordered (link f))) in I. rewrite E in I. apply in_map_iff in I. destruct I as ([u v] & Q & I). apply steps_in in I. destruct (link f) as [a b]. fold (ue u v) (ue a b) in Q. apply ue_inj in Q. cbn [fst snd]. intuition congruence.
Qed.
Lemma follows_separate g g' q q' : follows g q -> follows g' q' -> disjoint q q' -> separate p n vs g g'.
Proof.
  intros F F' D f f' I I' (a & b & H & H' & X). pose proof (cut_edge_link (proj2 F _ I) H X) as Y. pose proof (cut_edge_link (proj2 F' _ I') H' X) as Y'.
  destruct (follows_in F I) as [A B], (follows_in F' I') as [A' B']. apply (D (idx K (a, b))); [destruct Y as [->| ->]; auto|destruct Y' as [->| ->]; auto].
Qed.
Lemma K_cross i : (i < length K)%nat -> let e := nth i K (0%nat, 0%nat) in cross p n vs e = true /\ unordered e = e /\ (fst e < length vs)%nat /\ (snd e < length vs)%nat.
Proof.
  intros L e. assert (I : In e K) by now apply nth_In. apply KI, in_map_iff in I. destruct I as (x & Q & I). apply filter_In in I. destruct I as [I C]. rewrite <- Q. split; [now rewrite cross_unord|]. destruct (@es_range vs S SR x I).
  unfold unordered. cbn [fst snd]. split; [f_equal; lia|lia].
Qed.
Lemma K_prod i : (i < length K)%nat -> let e := nth i K (0%nat, 0%nat) in sdist p n (nth (fst e) vs rzero) * sdist p n (nth (snd e) vs rzero) < 0.
Proof. intros L e. destruct (K_cross L) as (C & _ & L1 & L2). fold e in C, L1, L2. rewrite (surjective_pairing e) in C. exact (cross_prod OFF L1 L2 C). Qed.
Lemma face_has f i : In f S -> i = fst (link f) \/ i = snd (link f) -> (i < length K)%nat /\ has_edge (fst (nth i K (0%nat, 0%nat))) (snd (nth i K (0%nat, 0%nat))) f = true.
Proof.
  intros I H. destruct (@link_edge p n vs S SS K KI f i I H) as [L W]. split; [auto|]. unfold ends in W. unfold has_edge. apply andb_true_iff.
  split; apply existsb_exists; eexists; (split; [apply W|apply Nat.eqb_refl]); cbn; auto.
Qed.
Lemma follows_piece q : forall g, follows g q -> one_piece p n vs g.
Proof.
  induction q as [|x [|y q] IH]; intros g [E I].
  - destruct g; [intros f f' []|discriminate].
  - destruct g; [intros f f' []|discriminate].
  - destruct g as [|f g]; [discriminate|]. cbn [steps map] in E. change (map unordered (steps (y :: q))) with (U (steps (y :: q))) in E.
    assert (E1 : unordered (link f) = ue x y) by exact (f_equal (hd (0, 0)%nat) E).
    assert (E2 : map (fun f => unordered (link f)) g = U (steps (y :: q))) by exact (f_equal (@tl _) E).
    assert (Ig : incl g S) by (intros z Iz; apply I; now right). pose proof (IH g (conj E2 Ig)) as OP.
    destruct g as [|h g]; [intros a b [<-|[]] [<-|[]]; apply rst_refl|].
    destruct q as [|z q]; [discriminate|].
    assert (E3 : unordered (link h) = ue y z) by exact (f_equal (hd (0, 0)%nat) E2).
    assert (Sh : share_cut_edge p n vs f h).
    { assert (Yf : y = fst (link f) \/ y = snd (link f)) by (destruct (link f) as [a b]; fold (ue a b) in E1; apply ue_inj in E1; cbn; intuition congruence).
      assert (Yh : y = fst (link h) \/ y = snd (link h)) by (destruct (link h) as [a b]; fold (ue a b) in E3; apply ue_inj in E3; cbn; intuition congruence).
      destruct (@face_has f y (I _ (or_introl eq_refl)) Yf) as [L Hf]. destruct (@face_has h y (Ig _ (or_introl eq_refl)) Yh) as [_ Hh].
      exists (fst (nth y K (0, 0)%nat)), (snd (nth y K (0, 0)%nat)). split; [exact Hf|]. split; [exact Hh|]. exact (K_prod L). }
    assert (Toh : forall a, In a (f :: h :: g) -> clos_refl_sym_trans _ (fun a b => In a (f :: h :: g) /\ In b (f :: h :: g) /\ share_cut_edge p n vs a b) a h).
    { intros a [<-|Ia]; [apply rst_step; cbn; auto|]. apply one_piece_mono with (h :: g); [intros w Iw; now right|]. apply OP; [auto|now left]. }
    intros a b Ia Ib. eapply rst_trans; [apply Toh, Ia|apply rst_sym, Toh, Ib].
Qed.
Lemma piece_perm g g' : Permutation g g' -> one_piece p n vs g -> one_piece p n vs g'.
Proof.
  intros Pm H f f' I I'. apply one_piece_mono with g; [intros w; apply (Permutation_in _ Pm)|]. apply H; apply (Permutation_in _ (Permutation_sym Pm)); auto.
Qed.
(** the faces in the order of the edges of the polyline *)
Definition arrange (q : list nat) (g : list face) : list face := if snd (pcomp q) then tl g ++ firstn 1 g else g.
Lemma arrange_perm q g : Permutation (arrange q g) g.
Proof. unfold arrange. destruct (snd (pcomp q)); [|reflexivity]. destruct g; [reflexivity|]. cbn [tl firstn]. apply Permutation_sym, Permutation_cons_append. Qed.
Lemma follows_poly g q : follows g q -> (2 <= length q)%nat ->
  fst (pcomp q) <> [] /\ g <> [] /\ Forall2 (fun f s => is_section p n (triangle vs f) s) (arrange q g) (segs (snd (pcomp q)) (fst (pcomp q))).
Proof.
  intros F L. destruct F as [E I]. pose proof (follows_sections E I) as Q. rewrite <- open_steps in Q. destruct q as [|i [|j q]]; [cbn in L; lia|cbn in L; lia|].
  unfold arrange, pcomp. change (map P (i :: j :: q)) with (P i :: P j :: map P q) in *.
  assert (NG : g <> []) by (intros ->; cbn in E; discriminate E).
  cbv beta iota. match goal with |- context [veqb ?a ?b] => destruct (veqb a b) eqn:V end; cbv beta iota; cbn [fst snd].
  - split; [discriminate|]. split; [auto|]. apply veqb_fin in V. rewrite (@closed_segs _ (P i)).
    + rewrite open_segs_cons in Q. destruct g as [|f g]; [congruence|]. inversion Q as [|? ? ? ? Q1 Q2]; subst. cbn [tl firstn]. apply Forall2_app; [exact Q2|]. constructor; [exact Q1|constructor].
    + symmetry. rewrite V at 1. change (last (P i :: P j :: map P q) (P i)) with (last (P j :: map P q) (P i)). apply last_default.
  - split; [discriminate|]. split; [auto|exact Q].
Qed.
Lemma closed_when_even q paths : Permutation (U (map link S)) (U (concat (map steps paths))) -> ForallOrdPairs disjoint paths -> In q paths -> (2 <= length q)%nat ->
  Forall (fun i => (i < length K)%nat) q ->
  (forall i, (i < length K)%nat -> length (filter (has_edge (fst (nth i K (0, 0)%nat)) (snd (nth i K (0, 0)%nat))) S) = 2%nat) ->
  snd (pcomp q) = true.
Proof.
  intros Pm D I L B W. destruct q as [|y r]; [cbn in L; lia|]. assert (Ly : (y < length K)%nat) by (inversion B; auto).
  assert (LF : loop_free (steps (y :: r))).
  { intros u Iu. pose proof (@link_loop p n vs S SP SS K KI) as LL. fold link in LL. assert (J : In (ue u u) (U (map link S))).
    { apply (Permutation_in _ (Permutation_sym Pm)). unfold ue. apply in_map. apply in_concat. exists (steps (y :: r)). split; [now apply in_map|auto]. }
    apply in_map_iff in J. destruct J as ([a b] & Q & J). fold (ue a b) in Q. apply ue_inj in Q. assert (a = u /\ b = u) as [-> ->] by (intuition congruence). exact (LL u J). }
  pose proof (@steps_parity y r y LF) as Od. rewrite <- (@dg_paths paths (y :: r) y D I (or_introl eq_refl)) in Od. rewrite <- (dg_perm y Pm) in Od.
  assert (D2 : dg (U (map link S)) y = 2%nat).
  { rewrite <- (W y Ly). unfold dg. rewrite map_map, filter_map_len. f_equal. apply filter_ext_in. intros f If. apply eq_true_iff_eq. split; intros H.
    - apply (@face_has f y If). destruct (link f) as [a b]. fold (ue a b) in H. rewrite incident_ue in H. apply orb_true_iff in H. cbn [fst snd]. destruct H as [H|H]; apply Nat.eqb_eq in H; auto.
    - pose proof (cut_edge_link If H (K_prod Ly)) as Y. rewrite <- surjective_pairing in Y. assert (Ey : idx K (nth y K (0, 0)%nat) = y).
      { unfold idx. rewrite (proj1 (proj2 (K_cross Ly))). destruct (index_of (nth y K (0, 0)%nat) K) as [j|] eqn:Q.
        - pose proof (index_lt Q) as Lj. apply index_some in Q. apply (proj1 (NoDup_nth K (0, 0)%nat) KN j y Lj Ly). now apply nth_error_nth.
        - apply index_none in Q. exfalso. apply Q. now apply nth_In. }
      rewrite Ey in Y. destruct (link f) as [a b]. fold (ue a b). rewrite incident_ue. cbn [fst snd] in Y. destruct Y as [<-| <-]; rewrite Nat.eqb_refl; auto using orb_true_r. }
  rewrite D2 in Od. rewrite Nat.eqb_refl in Od. cbn [Nat.odd Nat.even negb xorb] in Od. destruct (Nat.eqb_spec (last (y :: r) 0%nat) y) as [Q|Q]; [|discriminate Od].
  assert (EL : last (P y :: map P r) (P y) = P y).
  { change (P y :: map P r) with (map P (y :: r)). rewrite last_map. rewrite (last_default y r y 0%nat). now rewrite Q. }
  unfold pcomp. change (map P (y :: r)) with (P y :: map P r). cbv beta iota. rewrite EL. now rewrite (proj2 (veqb_fin _ _) eq_refl).
Qed.
End Paths.

Lemma straddle_cross p n vs a b c : (forall v, In v vs -> sdist p n v <> 0) -> (a < length vs)%nat -> (b < length vs)%nat -> (c < length vs)%nat ->
  straddles p n (nth a vs rzero) (nth b vs rzero) (nth c vs rzero) -> cross p n vs (a, b) = true \/ cross p n vs (a, c) = true.
Proof.
  intros OFF La Lb Lc [S1 S2]. destruct (cross p n vs (a, b)) eqn:C1; [auto|]. destruct (cross p n vs (a, c)) eqn:C2; [auto|exfalso].
  pose proof (same_sign OFF La Lb C1). pose proof (same_sign OFF La Lc C2). destruct H as [[? ?]|[? ?]], H0 as [[? ?]|[? ?]]; try lra; tauto.
Qed.
Lemma filter_filter_len {A} (f g : A -> bool) l : (forall x, In x l -> f x = true -> g x = true) -> filter f (filter g l) = filter f l.
Proof.
  induction l as [|x l IH]; intros H; [reflexivity|]. cbn [filter]. rewrite <- IH by (intros; apply H; [now right|auto]). specialize (H x (or_introl eq_refl)).
  destruct (g x); cbn [filter]; [reflexivity|]. destruct (f x); [now discriminate H|reflexivity].
Qed.
Lemma has_edge_in a b f : has_edge a b f = true -> In a (corner_list f) /\ In b (corner_list f).
Proof.
  unfold has_edge. intros H. apply andb_true_iff in H. destruct H as [Ha Hb]. apply existsb_exists in Ha, Hb. destruct Ha as (a' & Ia & Ea), Hb as (b' & Ib & Eb). apply Nat.eqb_eq in Ea, Eb. now subst.
Qed.
Theorem components_spec sch p n pl vs fs : fair sch -> mk_plane (fin3 p) (fin3 n) = Ok pl ->
  (forall v, In v vs -> sdist p n v <> 0) -> Forall (in_range vs) fs -> Forall proper fs -> no_repeats fs -> two_faces_per_edge fs ->
  exists comps groups skipped,
    (forall fuel, (2 * length fs + 2 <= fuel)%nat -> section_components sch fuel pl (mkmesh (map fin3 vs) fs) = Some (Ok (map (fun c => (map fin3 (fst c), snd c)) comps))) /\
    Permutation fs (concat groups ++ skipped) /\ Forall (fun f => misses p n (triangle vs f)) skipped /\
    Forall2 (fun c g => fst c <> [] /\ g <> [] /\ Forall2 (fun f s => is_section p n (triangle vs f) s) g (segs (snd c) (fst c)) /\ one_piece p n vs g) comps groups /\
    ForallOrdPairs (separate p n vs) groups /\
    (watertight fs -> Forall (fun c => snd c = true) comps).
Proof.
  intros Fr Hpl OFF FR FP NR TW. set (keep := keep_face p n vs). set (S := filter keep fs).
  assert (SI : forall f, In f S -> In f fs /\ keep f = true) by (intros f; apply filter_In).
  assert (SR : Forall (in_range vs) S) by (apply Forall_forall; intros f I; rewrite Forall_forall in FR; apply FR, SI, I).
  assert (SP : Forall proper S) by (apply Forall_forall; intros f I; rewrite Forall_forall in FP; apply FP, SI, I).
  assert (SS : Forall (fun f => let '(a, b, c) := f in cross p n vs (a, b) = true \/ cross p n vs (a, c) = true) S).
  { apply Forall_forall. intros [[a b] c] I. rewrite Forall_forall in SR. destruct (SR _ I) as (La & Lb & Lc). apply straddle_cross; auto. apply keep_face_spec. now apply SI. }
  assert (Miss : Forall (fun f => misses p n (triangle vs f)) (filter (fun f => negb (keep f)) fs)).
  { apply Forall_forall. intros [[a b] c] I. apply filter_In in I. destruct I as [I Q]. unfold triangle. cbn [corner_list map]. apply misses_side; [exact (n_nz Hpl)|].
    apply negb_true_iff in Q. assert (NS : ~ straddles p n (nth a vs rzero) (nth b vs rzero) (nth c vs rzero)) by (intros W; apply keep_face_spec in W; unfold keep in Q; congruence).
    unfold straddles in NS. rewrite Forall_forall in FR. destruct (FR _ I) as (La & Lb & Lc). pose proof (d_nz OFF La). pose proof (d_nz OFF Lb). pose proof (d_nz OFF Lc).
    destruct (Rlt_dec 0 (sdist p n (nth a vs rzero))), (Rlt_dec 0 (sdist p n (nth b vs rzero))), (Rlt_dec 0 (sdist p n (nth c vs rzero))); try (left; lra); right; repeat split; apply Rnot_le_lt; intros ?; apply NS; split; lra. }
  assert (Part : Permutation fs (S ++ filter (fun f => negb (keep f)) fs)).
  { unfold S. clear. induction fs as [|f fs IH]; cbn [filter]; [constructor|]. destruct (keep f); cbn [negb app]; [now constructor|]. etransitivity; [apply perm_skip, IH|]. apply Permutation_middle. }
  pose proof (faces_fin Hpl FR) as FF. fold keep in FF. fold S in FF.
  assert (Z : S = [] \/ S <> []) by (destruct S; [auto|right; discriminate]). destruct Z as [Z|NZ].
  { exists [], [], (filter (fun f => negb (keep f)) fs). split; [|split; [|split; [|split; [|split]]]]; auto; try (now constructor).
    - intros fuel _. unfold section_components. rewrite FF, Z. reflexivity.
    - rewrite Z in Part. exact Part. }
  set (es := face_edges S).
  destruct (@em_fill_rep _ (fun e => fin3 (cutp p n vs e)) (filter (cross p n vs) es) (mkem [] []) [] (rep_nil _)) as (K & KR & KI0).
  assert (KI : forall e, In e K <-> In e (map unordered (filter (cross p n vs) es))) by (intros e; rewrite KI0; cbn; tauto). clear KI0.
  set (im := em_fill (mkem [] []) (map (fun e => (fin3 (cutp p n vs (unordered e)), e)) (filter (cross p n vs) es))) in *.
  assert (NRS : no_repeats S) by (apply ordpairs_filter, NR).
  assert (TWS : two_faces_per_edge S).
  { intros a b N. etransitivity; [|exact (TW a b N)]. unfold S. clear. induction fs as [|f fs IH]; cbn [filter]; [auto|]. destruct (keep f); cbn [filter]; destruct (has_edge a b f); cbn [length]; lia. }
  pose proof (@link_below p n vs S SS K KI) as LB. destruct (build_ok LB) as (d & Bd & Rd). rewrite (@link_distinct p n vs S SS K KI NRS) in Rd.
  set (lk := link p n vs K) in *. set (E := U (map lk S)) in *.
  destruct (@extract_spec sch Fr _ 0%nat d E (Nat.le_refl _) Rd) as (paths & A0 & A1 & A2 & A3 & A4 & A5 & A6 & A7).
  assert (LF : loop_free (map lk S)) by exact (@link_loop p n vs S SP SS K KI).
  assert (Pm : Permutation E (U (concat (map steps paths)))).
  { assert (DE : distinct (map lk S) = E) by exact (@link_distinct p n vs S SS K KI NRS). rewrite <- DE in A7 |- *. apply A7; [now apply loops_distinct|]. apply odd_distinct. apply degree_two_odd; [auto|]. apply (@link_degree p n vs S SS K KI NRS TWS). }
  assert (LE : length E = length S) by (unfold E; now rewrite !map_length).
  assert (LS : (length S <= length fs)%nat) by (rewrite (Permutation_length Part), app_length; lia).
  (* the faces along the paths *)
  assert (PmM : Permutation (U (concat (map steps paths))) (map (fun f => unordered (lk f)) S)) by (rewrite <- (map_map lk unordered); fold E; now apply Permutation_sym).
  apply Permutation_map_inv in PmM. destruct PmM as (S' & ES & PS).
  assert (ES' : map (fun f => unordered (lk f)) S' = concat (map (fun q => U (steps q)) paths)).
  { rewrite <- ES, concat_map, map_map. reflexivity. }
  destruct (split_groups ES') as (gs & -> & F2). apply forall2_map_r in F2.
  assert (FO : Forall2 (follows p n vs S K) gs paths).
  { assert (IN : forall g, In g gs -> incl g S) by (intros g Ig f If; apply (Permutation_in _ (Permutation_sym PS)); apply in_concat; eauto). clear - F2 IN. induction F2 as [|g q gs qs H F IH]; constructor; [split; [exact H|apply IN; now left]|]. apply IH. intros; apply IN; now right. }
  assert (Bq : forall q, In q paths -> Forall (fun i => (i < length K)%nat) q).
  { intros q Iq. apply Forall_forall. intros i Ii. destruct (A6 q i Iq Ii) as (u & Iu). unfold E in Iu. apply in_map_iff in Iu. destruct Iu as (e & Q & Ie). apply in_map_iff in Ie. destruct Ie as (f & <- & If).
    apply (@link_edge p n vs S SS K KI f i If). fold lk. destruct (lk f) as [a b]. fold (ue a b) in Q. apply ue_inj in Q. cbn [fst snd]. intuition congruence. }
  exists (map (pcomp p n vs K) paths), (map (fun gq => arrange p n vs K (snd gq) (fst gq)) (combine gs paths)), (filter (fun f => negb (keep f)) fs).
  rewrite Forall_forall in A2. split; [|split; [|split; [|split; [|split]]]]; auto.
  - intros fuel Lf. unfold section_components. rewrite FF. assert (C0 : exists f0 S0, S = f0 :: S0) by (clear - NZ; destruct S; [congruence|eauto]). destruct C0 as (f0 & S0 & ES0). rewrite ES0. cbv beta iota. rewrite <- ES0. fold es. cbn [m_v].
    destruct (@takes vs S SR) as [T1 T2]. fold es in T1, T2. rewrite T1, T2. assert (MC : let '(pts, valid) := line_segment_xsections pl (map (fun e => fin3 (nth (fst e) vs rzero)) es) (map (fun e => fin3 (nth (snd e) vs rzero)) es) in
      combine (compress valid pts) (compress valid es) = map (fun e => (fin3 (cutp p n vs (unordered e)), e)) (filter (cross p n vs) es)) by exact (@map_cut p n pl vs Hpl OFF S SR).
    destruct (line_segment_xsections pl (map (fun e => fin3 (nth (fst e) vs rzero)) es) (map (fun e => fin3 (nth (snd e) vs rzero)) es)) as [pts valid]. rewrite MC. fold im.
    rewrite (@link_faces_eq p n vs S SS im K KR KI _ S (incl_refl S)). assert (EV : em_values im = map (fun e => fin3 (cutp p n vs e)) K) by apply KR. rewrite EV, map_length. fold lk. rewrite Bd. cbn [g_d]. rewrite A0 by lia.
    do 2 f_equal. rewrite (@traverse_ok _ _ _ (fun q => (map fin3 (fst (pcomp p n vs K q)), snd (pcomp p n vs K q)))).
    + now rewrite map_map.
    + intros q Iq. apply component_eq; [specialize (A2 q Iq); lia|]. pose proof (Bq q Iq) as W. now rewrite Forall_forall in W.
  - etransitivity; [exact Part|]. apply Permutation_app_tail. etransitivity; [exact PS|]. clear - FO. induction FO as [|g q gs qs H F IH]; [constructor|]. cbn [combine map concat fst snd]. apply Permutation_app; [apply Permutation_sym, arrange_perm|exact IH].
  - assert (Q2 : forall q, In q paths -> (2 <= length q)%nat) by exact A2. clear - FO Q2 Hpl OFF SR SS KI. induction FO as [|g q gs qs H F IH]; [constructor|]. cbn [combine map fst snd]. constructor; [|apply IH; intros; apply Q2; now right].
    destruct (@follows_poly p n pl vs Hpl OFF S SR SS K KI g q H (Q2 q (or_introl eq_refl))) as (X1 & X2 & X3). split; [exact X1|]. split; [|split; [exact X3|]].
    + intros Q. pose proof (arrange_perm p n vs K q g) as Y. rewrite Q in Y. apply Permutation_nil in Y. exact (X2 Y).
    + apply piece_perm with g; [apply Permutation_sym, arrange_perm|]. exact (@follows_piece p n vs OFF S SR SS K KI q g H).
  - apply (@ordpairs_forall2 _ _ disjoint (separate p n vs) (fun g q => exists g0, follows p n vs S K g0 q /\ Permutation g g0) _ paths).
    + intros g g' q q' (g0 & H & Y) (g0' & H' & Y') D f f' I I'. apply (@follows_separate p n vs OFF S SR SS K g0 g0' q q' H H' D); [apply (Permutation_in _ Y), I|apply (Permutation_in _ Y'), I'].
    + clear - FO. induction FO as [|g q gs qs H F IH]; [constructor|]. cbn [combine map fst snd]. constructor; [|exact IH]. exists g. split; [exact H|apply arrange_perm].
    + exact A4.
  - intros WT. apply Forall_forall. intros c Ic. apply in_map_iff in Ic. destruct Ic as (q & <- & Iq).
    apply (@closed_when_even p n vs OFF S SR SP SS K KI (proj2 (proj2 KR)) q paths Pm A4 Iq (A2 q Iq) (Bq q Iq)).
    intros i Li. set (e := nth i K (0, 0)%nat). destruct (@K_cross p n vs S SR K KI i Li) as (C & _ & L1 & L2). fold e in C, L1, L2.
    assert (NE : fst e <> snd e) by (intros Q; unfold cross in C; rewrite Q, xorb_nilpotent in C; discriminate).
    assert (Ie : In e K) by now apply nth_In. apply KI, in_map_iff in Ie. destruct Ie as (x & Q & Ix). apply filter_In in Ix. destruct Ix as [Ix _]. apply in_es in Ix. destruct Ix as (a & b & c & If & Hx).
    assert (HE : has_edge (fst e) (snd e) (a, b, c) = true).
    { rewrite <- Q. unfold has_edge. apply andb_true_iff. unfold unordered. cbn [fst snd corner_list]. split; apply existsb_exists; eexists; (split; [|apply Nat.eqb_refl]); cbn [In];
      destruct Hx as [->|[->| ->]]; cbn [fst snd]; (destruct (Nat.min_spec a b) as [[? ->]|[? ->]] || idtac); (destruct (Nat.min_spec b c) as [[? ->]|[? ->]] || idtac); (destruct (Nat.min_spec c a) as [[? ->]|[? ->]] || idtac);
      (destruct (Nat.max_spec a b) as [[? ->]|[? ->]] || idtac); (destruct (Nat.max_spec b c) as [[? ->]|[? ->]] || idtac); (destruct (Nat.max_spec c a) as [[? ->]|[? ->]] || idtac); auto. }
    rewrite <- (WT (a, b, c) (fst e) (snd e) (proj1 (SI _ If)) NE HE). f_equal. unfold S. apply filter_filter_len. intros [[u v] w] Ifs Hf.
    destruct (has_edge_in Hf) as [Iu Iv]. cbn [corner_list In] in Iu, Iv. apply keep_face_spec. rewrite (surjective_pairing e) in C. pose proof (cross_prod OFF L1 L2 C) as D. cbv beta in D.
    split; intros (X & Y & W); destruct Iu as [Iu|[Iu|[Iu|[]]]], Iv as [Iv|[Iv|[Iv|[]]]]; rewrite <- Iu, <- Iv in D; nra.
Qed.
