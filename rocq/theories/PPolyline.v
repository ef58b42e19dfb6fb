(** * Proofs about Polyline: structure, histories, lengths, partitioning. *)
From Coq Require Import Reals ZArith List Bool Lra Lia Psatz Permutation Sorted.
From Flocq Require Import Core.Raux.
From Verif Require Import Num XLemmas Vec RVec SpecGeom SpecPoly VLemmas NpList MVx PVx MPlane PPlane PPlane2 MSegment PSegment MPolyline.
Import ListNotations.
Local Open Scope R_scope.
Set Implicit Arguments.
Unset Strict Implicit.

(** ** segs *)
Lemma walk_map A B (f : A -> B) c l : walk c (map f l) = map f (walk c l).
Proof. unfold walk. destruct c; auto. rewrite map_app. destruct l; auto. Qed.
Lemma tl_map A B (f : A -> B) l : tl (map f l) = map f (tl l).
Proof. now destruct l. Qed.
Lemma combine_map A B C D (f : A -> B) (g : C -> D) l m :
  combine (map f l) (map g m) = map (fun p => (f (fst p), g (snd p))) (combine l m).
Proof. revert m. induction l; intros [|y m]; cbn; auto. f_equal. apply IHl. Qed.
Lemma segs_map A B (f : A -> B) c l : segs c (map f l) = map (fun p => (f (fst p), f (snd p))) (segs c l).
Proof. unfold segs. now rewrite walk_map, tl_map, combine_map. Qed.
Lemma open_segs_cons A (x y : A) l : segs false (x :: y :: l) = (x, y) :: segs false (y :: l).
Proof. reflexivity. Qed.
Lemma open_segs_seq n k : segs false (seq k n) = map (fun i => (i, S i)) (seq k (n - 1)).
Proof.
  revert k. induction n as [|[|n] IH]; intros k; [reflexivity|reflexivity|].
  change (seq k (S (S n))) with (k :: S k :: seq (S (S k)) n). rewrite open_segs_cons.
  change (S k :: seq (S (S k)) n) with (seq (S k) (S n)). rewrite IH. cbn [Nat.sub]. rewrite !Nat.sub_0_r. reflexivity.
Qed.
Lemma open_segs_snoc A (l : list A) (x y : A) : segs false (l ++ [x; y]) = segs false (l ++ [x]) ++ [(x, y)].
Proof.
  induction l as [|a l IH]; [reflexivity|]. destruct l as [|b l]; [reflexivity|].
  cbn [app] in *. rewrite !open_segs_cons, IH. reflexivity.
Qed.
Lemma make_edges_spec n c : make_edges n c = if c && Nat.eqb n 0 then Err IndexError else Ok (chain_edges n c).
Proof.
  unfold make_edges, chain_edges. destruct c; cbn [andb].
  - destruct n as [|n]; [reflexivity|]. cbn [Nat.eqb]. 
    assert (L : forall d, last (map (fun i : nat => (i, S i)) (seq 0 (S n))) d = (n, S n)).
    { intros d. rewrite seq_S, map_app. apply last_last. }
    destruct (map (fun i : nat => (i, S i)) (seq 0 (S n))) as [|e0 es] eqn:E; [discriminate|]. rewrite L. rewrite <- E, removelast_map, seq_last.
    f_equal. cbn [fst].
    change (segs true (seq 0 (S n))) with (segs false (seq 0 (S n) ++ [0%nat])).
    rewrite seq_S. rewrite <- app_assoc. cbn [app]. rewrite open_segs_snoc. f_equal.
    change (0 + n)%nat with n. replace (seq 0 n ++ [n]) with (seq 0 (S n)) by (now rewrite seq_S).
    rewrite open_segs_seq. cbn [Nat.sub]. now rewrite Nat.sub_0_r.
  - now rewrite open_segs_seq.
Qed.

Section Struct.
Context {F : Type} {N : Num F}.
Implicit Types (p q : polyline F).

(** the edge array matches the vertices and the flag *)
Definition consistent p : Prop :=
  match p_v p with
  | None => p_e p = None
  | Some v => p_e p = Some (chain_edges (length v) (p_closed p))
  end.
(** the exceptional state *)
Definition closed_empty p : Prop := p_closed p = true /\ p_v p = Some [].

Lemma update_edges_cases p : let q := fst (update_edges p) in
  (snd (update_edges p) = Ok tt /\ consistent q /\ ~ closed_empty q \/ snd (update_edges p) = Err IndexError /\ closed_empty q /\ q = p) /\
  p_v q = p_v p /\ p_closed q = p_closed p.
Proof.
  unfold update_edges, consistent, closed_empty. destruct p as [[v|] c e]; cbn [p_v p_closed p_e].
  - rewrite make_edges_spec. destruct (c && Nat.eqb (length v) 0) eqn:E; cbn.
    + apply andb_true_iff in E as [-> E]. apply Nat.eqb_eq in E. destruct v; [|discriminate]. split; [right; repeat split; reflexivity|auto].
    + split; [|auto]. left. split; [reflexivity|]. split; [reflexivity|]. intros [-> [= ->]]. discriminate.
  - split; [|auto]. left. split; [reflexivity|]. split; [reflexivity|]. intros [_ H]; discriminate.
Qed.
(** an operation: new state and whether it raised *)
Definition good_step p (r : polyline F * option exc) : Prop :=
  match snd r with
  | None => consistent (fst r)
  | Some _ => fst r = p \/ closed_empty (fst r)
  end.
Definition outcome {A} (r : res A) : option exc := match r with Ok _ => None | Err e => Some e end.
Lemma update_good p q : good_step q (fst (update_edges p), outcome (snd (update_edges p))).
Proof.
  destruct (update_edges_cases p) as [[(->&H&_)|(->&H&E)] _]; unfold good_step; cbn; auto.
Qed.
Lemma set_points_good p v : good_step p (fst (set_points p v), outcome (snd (set_points p v))).
Proof.
  unfold set_points. destruct (match v with None => true | Some l => numeric l end); [apply update_good|]. unfold good_step. cbn. auto.
Qed.
Inductive op := SetV (a : array_in F) | SetClosed (c : bool) | Flip | PartitionByLength (max_length : F).
Definition step p (o : op) : polyline F * option exc :=
  match o with
  | SetV a => let (q, r) := set_v p a in (q, outcome r)
  | SetClosed c => let (q, r) := set_closed p c in (q, outcome r)
  | Flip => let (q, r) := flip p in (q, outcome r)
  | PartitionByLength m => let (q, r) := partition_by_length p m in (q, outcome r)
  end.
Definition run p (ops : list op) : polyline F := fold_left (fun s o => fst (step s o)) ops p.
Lemma step_good p o : good_step p (step p o).
Proof.
  destruct o; cbn [step].
  - unfold set_v. destruct (as_points a) as [v|x]; [|unfold good_step; cbn; auto].
    pose proof (set_points_good p v) as G. now destruct (set_points _ _).
  - unfold set_closed. pose proof (update_good (mkpoly (p_v p) c (p_e p)) p) as G. now destruct (update_edges _).
  - unfold flip. destruct (p_v p) as [v|]; [|unfold good_step; cbn; auto].
    pose proof (set_points_good p (Some (rev v))) as G. now destruct (set_points _ _).
  - unfold partition_by_length. match goal with |- context [match ?b with Ok _ => _ | Err _ => _ end] => destruct b as [[nv idx]|x] end; [|unfold good_step; cbn; auto].
    pose proof (set_points_good p (Some nv)) as G. destruct (set_points _ _) as [q [u|x]]; exact G.
Qed.
Lemma init_consistent a c p : init a c = Ok p -> consistent p /\ p_closed p = c.
Proof.
  unfold init, set_v. destruct (as_points a) as [v|x]; [|discriminate]. unfold set_points.
  destruct (match v with None => true | Some l => numeric l end); [|discriminate].
  pose proof (update_edges_cases (mkpoly v c None)) as H. cbn in H. cbn [p_closed p_e].
  destruct (update_edges (mkpoly v c None)) as [q r]. cbn in *. destruct H as [[(->&H&_)|(->&H)] [H1 H2]]; cbn; [|discriminate].
  intros [= <-]. auto.
Qed.
Lemma history p0 a c ops : init a c = Ok p0 -> let p := run p0 ops in consistent p \/ closed_empty p.
Proof.
  intros H. apply init_consistent in H as [H _]. cbv zeta.
  assert (G : consistent p0 \/ closed_empty p0) by auto. clear H. revert p0 G. induction ops as [|o ops IH]; intros p0 G; [exact G|].
  cbn [run fold_left]. apply IH. pose proof (step_good p0 o) as S. unfold good_step in S. destruct (snd (step p0 o)); auto.
  destruct S as [->|S]; auto.
Qed.
Lemma atomic p o : snd (step p o) <> None -> ~ closed_empty (fst (step p o)) -> fst (step p o) = p.
Proof. intros H C. pose proof (step_good p o) as S. unfold good_step in S. destruct (snd (step p o)); [|congruence]. tauto. Qed.
(** without a raise, closedness changes only through SetClosed, and so on *)
Lemma set_closed_keeps p c : let q := fst (step p (SetClosed c)) in p_v q = p_v p /\ p_closed q = c.
Proof. cbn. unfold set_closed. destruct (update_edges_cases (mkpoly (p_v p) c (p_e p))) as [_ H]. now destruct (update_edges _). Qed.
Definition numeric_opt (v : option (list (V3 F))) : bool := match v with None => true | Some l => numeric l end.
Lemma set_v_keeps p a v : as_points a = Ok v -> numeric_opt v = true -> let q := fst (step p (SetV a)) in p_v q = v /\ p_closed q = p_closed p.
Proof.
  intros H Hn. cbn. unfold set_v. rewrite H. unfold set_points. unfold numeric_opt in Hn. rewrite Hn. destruct (update_edges_cases (mkpoly v (p_closed p) (p_e p))) as [_ K].
  now destruct (update_edges _).
Qed.

(** ** consistent polylines *)
Definition poly c (vs : list (V3 F)) : polyline F := mkpoly (Some vs) c (Some (chain_edges (length vs) c)).
Lemma init_points_some vs c : numeric vs = true -> init_points (Some vs) c = if c && Nat.eqb (length vs) 0 then Err IndexError else Ok (poly c vs).
Proof.
  intros Hn. unfold init_points, set_points, update_edges. rewrite Hn. cbn [p_v p_closed p_e]. rewrite make_edges_spec.
  destruct (c && Nat.eqb (length vs) 0); reflexivity.
Qed.
Lemma init_points_open vs : numeric vs = true -> init_points (Some vs) false = Ok (poly false vs).
Proof. intros Hn. now rewrite init_points_some. Qed.
Lemma set_points_some p vs : numeric vs = true -> set_points p (Some vs) =
  if p_closed p && Nat.eqb (length vs) 0 then (mkpoly (Some vs) (p_closed p) (p_e p), Err IndexError) else (poly (p_closed p) vs, Ok tt).
Proof.
  intros Hn. unfold set_points, update_edges. rewrite Hn. cbn [p_v p_closed p_e]. rewrite make_edges_spec.
  destruct (p_closed p && Nat.eqb (length vs) 0); reflexivity.
Qed.
Lemma consistent_poly p vs : consistent p -> p_v p = Some vs -> p = poly (p_closed p) vs.
Proof. destruct p as [v c e]. unfold consistent. cbn. intros H ->. unfold poly. now rewrite <- H. Qed.
Lemma getitem_nth A (l : list A) i d : (i < length l)%nat -> getitem l i = Ok (nth i l d).
Proof. intros H. unfold getitem. now rewrite (nth_error_nth' l d H). Qed.
Lemma seq_nth_map A (l : list A) d : map (fun i => nth i l d) (seq 0 (length l)) = l.
Proof.
  apply nth_ext with (d := nth 0 l d) (d' := d); [now rewrite map_length, seq_length|].
  intros i Hi. rewrite map_length, seq_length in Hi. rewrite (map_nth (fun i => nth i l d)). f_equal. now apply seq_nth.
Qed.
Lemma segs_in A c (l : list A) a b : In (a, b) (segs c l) -> In a l /\ In b l.
Proof.
  assert (W : forall x, In x (walk c l) -> In x l).
  { intros x. unfold walk. destruct c; auto. rewrite in_app_iff. intros [H|H]; auto. destruct l; cbn in *; tauto. }
  unfold segs. intros H. split; apply W.
  - eapply in_combine_l, H.
  - apply in_combine_r in H. destruct (walk c l); [destruct H|now right].
Qed.
Lemma take_pairs_chain A (v : list A) c : take_pairs v (chain_edges (length v) c) = Ok (segs c v).
Proof.
  destruct v as [|d v0]; [unfold chain_edges; now destruct c|]. set (v := d :: v0).
  assert (E : segs c v = map (fun e => (nth (fst e) v d, nth (snd e) v d)) (chain_edges (length v) c)).
  { unfold chain_edges. rewrite <- (segs_map (fun i => nth i v d)). now rewrite seq_nth_map. }
  rewrite E. unfold take_pairs. apply traverse_ok. intros [a b] H. apply segs_in in H as [Ha Hb].
  apply in_seq in Ha, Hb. cbn [fst snd]. rewrite (@getitem_nth _ v a d), (@getitem_nth _ v b d) by lia. reflexivity.
Qed.
Lemma segments_poly c vs : segments (poly c vs) = Ok (segs c vs).
Proof. unfold segments, poly. cbn [p_v p_e]. apply take_pairs_chain. Qed.
Lemma copy_poly c vs : numeric vs = true -> ~ (c = true /\ vs = []) -> copy (poly c vs) = Ok (poly c vs).
Proof.
  intros Hn H. unfold copy. cbn [poly p_v p_closed]. rewrite init_points_some by auto. destruct c; auto. destruct vs; auto. tauto.
Qed.
Lemma numeric_app (l m : list (V3 F)) : numeric (l ++ m) = numeric l && numeric m.
Proof. apply forallb_app. Qed.
Lemma numeric_incl (l m : list (V3 F)) : (forall x, In x l -> In x m) -> numeric m = true -> numeric l = true.
Proof. unfold numeric. rewrite !forallb_forall. auto. Qed.
End Struct.
Lemma numeric_fin vs : numeric (map fin3 vs) = true.
Proof. unfold numeric. apply forallb_forall. intros v H. apply in_map_iff in H as (w&<-&_). reflexivity. Qed.
