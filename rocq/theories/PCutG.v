(** * intersect_plane and cut_by_plane for any numbers: what is computed, edge by edge. *)
From Coq Require Import Reals ZArith List Bool Lia Sorted Permutation.
From Verif Require Import Num Vec RVec SpecGeom SpecPoly XLemmas VLemmas NpList MVx PVx MPlane PPlane PPlane2 MSegment PSegment MPolyline PPolyline PPolyline2 PPolyline3.
Import ListNotations.
Set Implicit Arguments.
Unset Strict Implicit.
Section Generic.
Context {F : Type} {N : Num F} (pl : plane F).
Local Open Scope num_scope.
Notation sd := (signed_distance1 pl).
(** the test for an edge, the point computed for it *)
Definition gcross (ab : V3 F * V3 F) : bool := negb (nabs (nsign (sd (fst ab)) + nsign (sd (snd ab))) =? nofZ 2).
Definition grow (ab : V3 F * V3 F) : V3 F :=
  let da := nabs (sd (fst ab)) in let db := nabs (sd (snd ab)) in
  vadd (vscale (nofZ 1 - da / (da + db)) (fst ab)) (vscale (nofZ 1 - db / (da + db)) (snd ab)).
Lemma g_intersect c vs : intersect_plane (poly c vs) pl = Ok (map grow (filter gcross (segs c vs)), flatnonzero 0 (map gcross (segs c vs))).
Proof.
  unfold intersect_plane. cbn [poly p_v p_e]. change (mkpoly _ _ _) with (poly c vs). unfold signed_distance. rewrite map_map.
  destruct vs as [|d vs0] eqn:Ev; [destruct c; reflexivity|]. rewrite <- Ev. clear vs0 Ev.
  set (es := chain_edges (length vs) c). rewrite segments_poly. cbn [bindr].
  set (sg := fun e : edge => (nth (fst e) vs d, nth (snd e) vs d)).
  assert (ES : segs c vs = map sg es).
  { unfold es, chain_edges, sg. rewrite <- (segs_map (fun i => nth i vs d)). now rewrite seq_nth_map. }
  assert (Rg : forall e, In e es -> (fst e < length vs)%nat /\ (snd e < length vs)%nat).
  { intros [i j] He. apply segs_in in He as [Hi Hj]. apply in_seq in Hi, Hj. cbn. lia. }
  assert (TP : forall (B : Type) (g : V3 F -> B) fs, (forall e, In e fs -> In e es) -> take_pairs (map g vs) fs = Ok (map (fun e => (g (fst (sg e)), g (snd (sg e)))) fs)).
  { intros B g fs Hf. apply traverse_ok. intros e He. destruct (Rg e (Hf e He)) as [R1 R2].
    rewrite (@getitem_map _ _ g vs (fst e) d), (@getitem_map _ _ g vs (snd e) d) by auto. reflexivity. }
  rewrite TP by auto. cbn [bindr]. rewrite map_map. cbn [fst snd].
  rewrite (map_ext _ (fun e => gcross (sg e))) by reflexivity.
  rewrite compress_filter. rewrite TP by (intros e He; apply filter_In in He; tauto). cbn [bindr].
  rewrite ES, !map_map, compress_map, map2_map, map2_diag, filter_map_comm, map_map. reflexivity.
Qed.
Lemma g_filter_none (S : list (V3 F * V3 F)) : Forall (fun s => gcross s = false) S -> filter gcross S = [].
Proof. induction 1 as [|s S E _ IH]; auto. cbn. now rewrite E. Qed.
(** an open polyline with one crossing edge *)
Lemma g_cut_open l1 a b l2 : gcross (a, b) = true -> Forall (fun s => gcross s = false) (segs false (l1 ++ [a])) -> Forall (fun s => gcross s = false) (segs false (b :: l2)) ->
  cut_by_plane (poly false (l1 ++ a :: b :: l2)) pl =
  if n0 <? sproj1 (vsub b a) (normal pl) then init_points (Some (grow (a, b) :: b :: l2)) false else init_points (Some (l1 ++ [a; grow (a, b)])) false.
Proof.
  intros M F1 F2. set (vs := l1 ++ a :: b :: l2).
  assert (ES : segs false vs = segs false (l1 ++ [a]) ++ (a, b) :: segs false (b :: l2)) by (unfold vs; rewrite open_segs_app; reflexivity).
  assert (L1 : length (segs false (l1 ++ [a])) = length l1) by (rewrite open_segs_length, app_length; cbn; lia).
  assert (Cut : cut_by_plane (poly false vs) pl = cut_by_plane_open (poly false vs) pl (grow (a, b)) (length l1)).
  { unfold cut_by_plane. rewrite g_intersect. cbn [bindr]. rewrite ES, filter_app, map_app, flatnonzero_app. cbn [filter map flatnonzero]. rewrite M.
    rewrite (flatnonzero_false (m := map _ (segs false (l1 ++ [a])))) by (apply Forall_map; auto).
    rewrite (flatnonzero_false (m := map _ (segs false (b :: l2)))) by (apply Forall_map; auto).
    rewrite (g_filter_none F1). cbn [app map getitem nth_error length Nat.ltb Nat.leb]. change (p_closed (poly false _)) with false. cbn iota.
    rewrite map_length, L1. reflexivity. }
  rewrite Cut. unfold cut_by_plane_open. cbn [poly p_v p_e].
  assert (Ee : @getitem edge (chain_edges (length vs) false) (length l1) = Ok (length l1, S (length l1))).
  { unfold chain_edges, vs. rewrite open_segs_seq, app_length. cbn [length]. rewrite (@getitem_map _ _ _ _ _ 0%nat) by (rewrite seq_length; lia).
    rewrite seq_nth by lia. reflexivity. }
  rewrite Ee. cbn [bindr fst snd]. unfold segment_vectors. change (mkpoly _ _ _) with (poly false vs). rewrite segments_poly. cbn [bindr].
  rewrite (@getitem_map _ _ _ _ _ (a, b)).
  2:{ rewrite ES, app_length, L1. cbn. lia. }
  rewrite ES, app_nth2, L1, Nat.sub_diag by lia. cbn [nth bindr fst snd].
  replace (skipn (S (length l1)) vs) with (b :: l2).
  2:{ unfold vs. rewrite skipn_app. replace (S (length l1) - length l1)%nat with 1%nat by lia. rewrite skipn_all2 by lia. reflexivity. }
  replace (firstn (S (length l1)) vs ++ [grow (a, b)]) with (l1 ++ [a; grow (a, b)]); [reflexivity|].
  unfold vs. rewrite firstn_app. replace (S (length l1) - length l1)%nat with 1%nat by lia. rewrite firstn_all2 by lia. cbn [firstn]. rewrite <- app_assoc. reflexivity.
Qed.
Lemma g_cut_open_rejects vs : length (filter gcross (segs false vs)) <> 1%nat -> cut_by_plane (poly false vs) pl = Err ValueError.
Proof.
  intros H. unfold cut_by_plane. rewrite g_intersect. cbn [bindr]. rewrite <- (filter_count gcross _ 0) in H.
  destruct (flatnonzero 0 (map gcross (segs false vs))) as [|i [|j l]]; [reflexivity|cbn in H; congruence|reflexivity].
Qed.
Lemma g_cut_closed_rejects vs : length (filter gcross (segs true vs)) <> 2%nat -> cut_by_plane (poly true vs) pl = Err ValueError.
Proof.
  intros H. unfold cut_by_plane. rewrite g_intersect. cbn [bindr]. rewrite <- (filter_count gcross _ 0) in H.
  change (p_closed (poly true vs)) with true. cbn iota.
  destruct (flatnonzero 0 (map gcross (segs true vs))) as [|i l]; [reflexivity|]. apply Nat.eqb_neq in H. now rewrite H.
Qed.
End Generic.

(** ** changes of side along a chain *)
Section Sides.
Context {A : Type} (front : A -> bool).
Definition change (ab : A * A) : bool := xorb (front (fst ab)) (front (snd ab)).
Definition changes (c : bool) (vs : list A) : nat := length (filter change (segs c vs)).
Lemma changes_none c vs k : Forall (fun v => front v = k) vs -> changes c vs = 0%nat.
Proof.
  intros K. unfold changes. rewrite Forall_forall in K.
  assert (G : forall s, In s (segs c vs) -> change s = false).
  { intros [a b] Hs. apply segs_in in Hs as [Ha Hb]. unfold change. cbn. rewrite (K a), (K b) by auto. now destruct k. }
  induction (segs c vs) as [|s S IH]; auto. cbn. rewrite (G s) by (left; auto). apply IH. intros; apply G; now right.
Qed.
Lemma changes_rot l1 l2 : changes true (l2 ++ l1) = changes true (l1 ++ l2).
Proof. unfold changes. apply perm_filter, closed_segs_perm. Qed.
Lemma one_change x w k : front x = k -> changes false (x :: w) = 1%nat ->
  exists fr ba, x :: w = fr ++ ba /\ Forall (fun v => front v = k) fr /\ Forall (fun v => front v = negb k) ba /\ fr <> [] /\ ba <> [].
Proof.
  intros <-. revert x. induction w as [|y w IH]; intros x C; [discriminate|].
  unfold changes in C. rewrite open_segs_cons in C. cbn [filter] in C. unfold change at 1 in C. cbn [fst snd] in C. destruct (xorb (front x) (front y)) eqn:X.
  - exists [x], (y :: w). repeat split; auto; try discriminate. cbn [length] in C. injection C as C.
    assert (Fy : front y = negb (front x)) by (destruct (front x), (front y); auto; discriminate). rewrite <- Fy. clear X Fy IH. constructor; [reflexivity|].
    revert y C. induction w as [|z w IH]; intros y C; [constructor|]. rewrite open_segs_cons in C. cbn [filter] in C. unfold change at 1 in C. cbn [fst snd] in C.
    destruct (xorb (front y) (front z)) eqn:X; [discriminate|]. apply xorb_eq in X. rewrite X. constructor; [reflexivity|]. apply IH, C.
  - apply xorb_eq in X. destruct (IH y C) as (fr&ba&E&H1&H2&H3&H4). exists (x :: fr), ba. rewrite E, X. repeat split; auto. discriminate.
Qed.
Lemma two_changes vs l1 l2 : vs = l1 ++ l2 -> (exists x w' b, l2 ++ l1 = x :: w' ++ [b] /\ front x = true /\ front b = false) -> changes true vs = 2%nat ->
  exists f0 fr b0 ba, l2 ++ l1 = (f0 :: fr) ++ b0 :: ba /\ Forall (fun v => front v = true) (f0 :: fr) /\ Forall (fun v => front v = false) (b0 :: ba).
Proof.
  intros E (x&w'&b&Ew&Fx&Fb) C. rewrite E in C. rewrite <- changes_rot, Ew in C.
  unfold changes in C. rewrite closed_segs in C. rewrite <- app_assoc in C. cbn [app] in C. change (x :: w' ++ [b; x]) with ((x :: w') ++ [b; x]) in C. rewrite open_segs_snoc, filter_app, app_length in C.
  cbn [filter] in C. unfold change at 2 in C. cbn [fst snd] in C. rewrite Fx, Fb in C. cbn [xorb length] in C.
  destruct (@one_change x (w' ++ [b]) true) as (fr&ba&E1&H1&H2&H3&H4); auto; [unfold changes; cbn [app] in C; lia|].
  destruct fr as [|f0 fr]; [congruence|]. destruct ba as [|b0 ba]; [congruence|]. exists f0, fr, b0, ba. rewrite Ew, E1. auto.
Qed.
Lemma closed_segs_parts (x : A) fr y ba : segs true ((x :: fr) ++ y :: ba) =
  segs false (x :: fr) ++ (last (x :: fr) x, y) :: segs false (y :: ba) ++ [(last (y :: ba) y, x)].
Proof.
  assert (G : forall (l : list A) u v, segs false ((u :: l) ++ [v]) = segs false (u :: l) ++ [(last (u :: l) u, v)]).
  { intros l u v. destruct (exists_last (l := u :: l)) as (l'&z&E); [discriminate|]. rewrite E. rewrite <- app_assoc. cbn [app]. rewrite open_segs_snoc. do 3 f_equal.
    now rewrite last_last. }
  cbn [app]. rewrite closed_segs. rewrite <- app_assoc. cbn [app]. change (x :: fr ++ y :: ba ++ [x]) with ((x :: fr) ++ y :: (ba ++ [x])). rewrite (open_segs_app (x :: fr)).
  change (y :: ba ++ [x]) with ((y :: ba) ++ [x]). rewrite !G, <- app_assoc. reflexivity.
Qed.
Lemma open_split (vs : list A) S1 a b S2 : segs false vs = S1 ++ (a, b) :: S2 ->
  exists l1 l2, vs = l1 ++ a :: b :: l2 /\ S1 = segs false (l1 ++ [a]) /\ S2 = segs false (b :: l2).
Proof.
  revert vs. induction S1 as [|s S1 IH]; intros vs H; destruct vs as [|x [|y vs]]; try discriminate; rewrite open_segs_cons in H; cbn [app] in H; injection H.
  - intros H2 -> ->. exists [], vs. auto.
  - intros H2 <-. destruct (IH _ H2) as (l1&l2&E1&E2&E3). exists (x :: l1), l2. split; [cbn; now rewrite E1|]. split; auto.
    rewrite E2. destruct l1; cbn [app] in *; injection E1 as -> _; reflexivity.
Qed.
End Sides.
