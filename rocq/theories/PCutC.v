(** * Cutting a closed polyline of doubles: the arc that is kept. *)
From Coq Require Import Reals ZArith List Bool Lia Sorted Permutation.
From Verif Require Import Num B64 Vec RVec SpecGeom SpecPoly XLemmas VLemmas NpList MVx PVx MPlane PPlane PPlane2 MSegment PSegment MPolyline PPolyline PPolyline2 PPolyline3 PCutG.
Import ListNotations.
Set Implicit Arguments.
Unset Strict Implicit.
Section Closed.
Context (pl : plane b64).
Local Open Scope num_scope.
Notation sd := (signed_distance1 pl).
Definition off (v : V3 b64) : Prop := nsign (sd v) = nofZ 1 \/ nsign (sd v) = nofZ (-1).
Definition front (v : V3 b64) : bool := nlt n0 (nsign (sd v)).
Lemma sgn v : off v -> nsign (sd v) = if front v then nofZ 1 else nofZ (-1).
Proof.
  intros [H|H]; unfold front; rewrite H.
  - replace (nlt n0 (nofZ 1 : b64)) with true by (vm_compute; reflexivity). reflexivity.
  - replace (nlt n0 (nofZ (-1) : b64)) with false by (vm_compute; reflexivity). reflexivity.
Qed.
Lemma cross_change a b : off a -> off b -> gcross pl (a, b) = change front (a, b).
Proof.
  intros Ha Hb. unfold gcross, change. cbn [fst snd]. rewrite (sgn Ha), (sgn Hb). destruct (front a), (front b); vm_compute; reflexivity.
Qed.
Lemma cross_changes c vs : Forall off vs -> length (filter (gcross pl) (segs c vs)) = changes front c vs.
Proof.
  intros H. unfold changes. rewrite Forall_forall in H. assert (G : forall s, In s (segs c vs) -> gcross pl s = change front s).
  { intros [a b] Hs. apply segs_in in Hs as [Ha Hb]. apply cross_change; auto. }
  induction (segs c vs) as [|s S IH]; auto. cbn. rewrite (G s) by (left; auto). destruct (change front s); cbn; [f_equal|]; apply IH; intros; apply G; now right.
Qed.
Lemma sign_list vs : sign pl vs = map (fun v => nsign (sd v)) vs.
Proof. unfold sign, signed_distance. now rewrite map_map. Qed.
Lemma mask_front vs : Forall off vs ->
  map (fun s => n0 <=? s) (sign pl vs) = map front vs /\ map (fun s => s <? n0) (sign pl vs) = map (fun v => negb (front v)) vs.
Proof.
  intros H. rewrite sign_list, !map_map. rewrite Forall_forall in H.
  split; apply map_ext_in; intros v Hv; rewrite (sgn (H v Hv)); destruct (front v); vm_compute; reflexivity.
Qed.
Context (Q : V3 b64 -> V3 b64 -> V3 b64 -> Prop).
Definition crossable (vs : list (V3 b64)) : Prop := forall a b, In a vs -> In b vs -> front a <> front b ->
  exists x, line_segment_xsection pl a b = Some x /\ numeric [x] = true /\ Q a b x.
Definition arc (vs ws : list (V3 b64)) : Prop :=
  exists l1 l2 f0 fr b0 ba x y, vs = l1 ++ l2 /\ l2 ++ l1 = (f0 :: fr) ++ b0 :: ba /\
    Forall (fun v => front v = true) (f0 :: fr) /\ Forall (fun v => front v = false) (b0 :: ba) /\
    Q (last (b0 :: ba) b0) f0 x /\ Q (last (f0 :: fr) f0) b0 y /\ ws = x :: (f0 :: fr) ++ [y].
Lemma cut_working vs l1 l2 f0 fr b0 ba : vs <> [] -> numeric vs = true -> Forall off vs -> crossable vs -> vs = l1 ++ l2 -> l2 ++ l1 = (f0 :: fr) ++ b0 :: ba ->
  Forall (fun v => front v = true) (f0 :: fr) -> Forall (fun v => front v = false) (b0 :: ba) ->
  (if (nsign (sd (hd vzero vs)) =? nofZ (-1))
        then getitem (flatnonzero 0 (map front vs)) 0
        else let* i := getlast (flatnonzero 0 (map (fun v => negb (front v)) vs)) in Ok (S i)) = Ok (length l1) ->
  exists ws, cut_by_plane_closed (poly true vs) pl = Ok (poly false ws) /\ arc vs ws.
Proof.
  intros Hv Hnum Ho HX E Ew Hf Hb Hi. unfold cut_by_plane_closed. change (p_v (poly true vs)) with (Some vs). cbn iota.
  destruct (mask_front Ho) as [-> ->]. rewrite sign_list.
  assert (S0 : getitem (map (fun v => nsign (sd v)) vs) 0 = Ok (nsign (sd (hd vzero vs)))) by (destruct vs; [congruence|reflexivity]).
  rewrite S0. cbn [bindr]. rewrite Hi. cbn [bindr]. clear Hi.
  assert (Hl : (length l1 <= length vs)%nat) by (rewrite E, app_length; lia).
  rewrite (reindexed_poly Hnum Hv Hl). cbn [bindr fst].
  replace (skipn (length l1) vs ++ firstn (length l1) vs) with (l2 ++ l1) by (rewrite E, skipn_app, firstn_app, skipn_all, firstn_all, Nat.sub_diag; cbn; now rewrite app_nil_r).
  rewrite Ew. set (w := (f0 :: fr) ++ b0 :: ba) in *. change (p_v (poly true w)) with (Some w). cbn iota.
  assert (Iw : forall v, In v w -> In v vs) by (intros v; rewrite <- Ew, E, !in_app_iff; tauto).
  assert (Hw : Forall off w) by (rewrite Forall_forall in Ho |- *; auto).
  destruct (mask_front Hw) as [-> _]. rewrite sign_list, segments_poly. cbn [bindr].
  assert (Of0 : off f0) by (now inversion Hw).
  change (getitem (map (fun v => nsign (sd v)) w) 0) with (Ok (nsign (sd f0))). cbn [bindr].
  inversion Hf as [|? ? Ff0 Hfr]; subst x l. rewrite (sgn Of0), Ff0. replace (neqb (nofZ 1 : b64) n0) with false by (vm_compute; reflexivity).
  inversion Hb as [|? ? Fb0 Hba]; subst x l.
  assert (Ob : Forall off (b0 :: ba)) by (unfold w in Hw; apply Forall_app in Hw; tauto).
  assert (Off : Forall off (f0 :: fr)) by (unfold w in Hw; apply Forall_app in Hw; tauto).
  unfold w at 1 5. rewrite closed_segs_parts.
  match goal with |- context [getlast (?A ++ ?B :: ?C ++ [?D])] => replace (A ++ B :: C ++ [D]) with ((A ++ B :: C) ++ [D]) by (rewrite <- app_assoc; reflexivity) end.
  rewrite getlast_app. cbn [bindr fst snd].
  assert (Lb : In (last (b0 :: ba) b0) (b0 :: ba)) by (destruct (exists_last (l := b0 :: ba)) as (l'&z&Ez); [discriminate|]; rewrite Ez, last_last; apply in_app_iff; right; now left).
  assert (Lf : In (last (f0 :: fr) f0) (f0 :: fr)) by (destruct (exists_last (l := f0 :: fr)) as (l'&z&Ez); [discriminate|]; rewrite Ez, last_last; apply in_app_iff; right; now left).
  rewrite Forall_forall in Ob, Off. pose proof Hb as Hb'. pose proof Hf as Hf'. rewrite Forall_forall in Hb', Hf'.
  assert (If : forall v, In v (f0 :: fr) -> In v vs) by (intros v Hi; apply Iw; unfold w; apply in_app_iff; now left).
  assert (Ib : forall v, In v (b0 :: ba) -> In v vs) by (intros v Hi; apply Iw; unfold w; apply in_app_iff; now right).
  destruct (HX (last (b0 :: ba) b0) f0) as (x&Ex&Nx&Qx); [apply Ib, Lb|apply If; now left|rewrite (Hb' _ Lb), Ff0; discriminate|]. rewrite Ex. cbn [bindr].
  unfold w at 1. rewrite map_app, flatnonzero_app. rewrite (flatnonzero_false (m := map front (b0 :: ba))) by (apply Forall_map; auto).
  rewrite (flatnonzero_true (m := map front (f0 :: fr))) by (apply Forall_map; auto). rewrite app_nil_r, map_length. cbn [length]. rewrite seq_S, getlast_app. cbn [plus bindr].
  assert (N1 : nth_error w (length fr) = Some (last (f0 :: fr) f0)).
  { unfold w. destruct (exists_last (l := f0 :: fr)) as (l'&z&Ez); [discriminate|]. rewrite Ez, last_last, <- app_assoc. cbn [app].
    assert (length fr = length l') by (apply (f_equal (@length _)) in Ez; rewrite app_length in Ez; cbn in Ez; lia).
    rewrite H, nth_error_app2, Nat.sub_diag by lia. reflexivity. }
  assert (G1 : getitem (map (fun v => nsign (sd v)) w) (length fr) = Ok (nofZ 1)).
  { unfold getitem. rewrite nth_error_map, N1. cbn [option_map]. rewrite (sgn (Off _ Lf)). rewrite (Hf' _ Lf). reflexivity. }
  rewrite G1. cbn [bindr]. replace (neqb (nofZ 1 : b64) n0) with false by (vm_compute; reflexivity).
  assert (G2 : forall A (l1' : list A) x' l2', length l1' = length fr -> getitem (l1' ++ x' :: l2') (length fr) = Ok x').
  { intros A l1' x' l2' L. unfold getitem. now rewrite nth_error_app2, L, Nat.sub_diag by lia. }
  unfold w at 1. rewrite closed_segs_parts. rewrite G2 by (rewrite open_segs_length; cbn; lia). cbn [bindr fst snd].
  destruct (HX (last (f0 :: fr) f0) b0) as (y&Ey&Ny&Qy); [apply If, Lf|apply Ib; now left|rewrite (Hf' _ Lf), Fb0; discriminate|]. rewrite Ey. cbn [bindr to_array app].
  rewrite init_points_open.
  2:{ apply (numeric_incl (m := [x] ++ [y] ++ vs)); [|rewrite !numeric_app, Nx, Ny, Hnum; reflexivity]. intros v [<-|Hi]; [now left|]. apply in_app_iff in Hi as [Hi|[<-|[]]]; [|right; now left].
      right. right. apply Iw. rewrite <- (firstn_skipn (S (length fr)) w). apply in_app_iff. now left. }
  exists (x :: (f0 :: fr) ++ [y]). split.
  - cbn [firstn]. rewrite firstn_app, firstn_all, Nat.sub_diag. cbn [firstn]. rewrite app_nil_r. reflexivity.
  - exists l1, l2, f0, fr, b0, ba, x, y. repeat (split; [now auto|]). auto.
Qed.
Lemma cut_closed vs : numeric vs = true -> Forall off vs -> crossable vs -> changes front true vs = 2%nat ->
  exists ws, cut_by_plane (poly true vs) pl = Ok (poly false ws) /\ arc vs ws.
Proof.
  intros Hnum Ho HX C.
  assert (Cut : cut_by_plane (poly true vs) pl = cut_by_plane_closed (poly true vs) pl).
  { unfold cut_by_plane. rewrite g_intersect. cbn [bindr]. pose proof C as C'. rewrite <- (cross_changes _ Ho), <- (filter_count (gcross pl) _ 0) in C'.
    change (p_closed (poly true vs)) with true. cbn iota.
    destruct (flatnonzero 0 (map (gcross pl) (segs true vs))) as [|i l]; [discriminate|]. rewrite C'. reflexivity. }
  rewrite Cut. clear Cut. destruct vs as [|v0 vs0] eqn:Ev; [discriminate|]. rewrite <- Ev in *.
  assert (Hv : vs <> []) by (rewrite Ev; discriminate). assert (O0 : off v0) by (rewrite Ev in Ho; now inversion Ho).
  assert (H0 : hd vzero vs = v0) by (now rewrite Ev).
  assert (EF : forall k, existsb (fun v => Bool.eqb (front v) k) vs = true).
  { intros k. destruct (existsb _ vs) eqn:X; auto. exfalso. rewrite (@changes_none _ front true vs (negb k)) in C; [discriminate|].
    apply Forall_forall. intros v Hvv. assert (Y : Bool.eqb (front v) k <> true) by (intros Y; enough (existsb (fun v => Bool.eqb (front v) k) vs = true) by congruence; apply existsb_exists; eauto).
    destruct (front v), k; unfold Bool.eqb, negb in *; congruence. }
  destruct (front v0) eqn:F0.
  - destruct (last_true (EF false)) as (l1&b&l2&E&Gb&Fl). apply eqb_prop in Gb.
    assert (E' : vs = (l1 ++ [b]) ++ l2) by (rewrite E, <- app_assoc; reflexivity).
    destruct l1 as [|z l1]; [rewrite Ev in E; injection E as -> _; congruence|]. assert (z = v0) by (rewrite Ev in E; injection E; auto). subst z.
    assert (Fl2 : Forall (fun v => front v = true) l2) by (eapply Forall_impl; [|exact Fl]; intros v; cbv beta; destruct (front v); now auto).
    destruct (@two_changes _ front vs (v0 :: l1 ++ [b]) l2) as (f0&fr&b0&ba&Ew&H1&H2); auto.
    { destruct l2 as [|y l2]; [exists v0, l1, b; auto|]. inversion Fl2; subst. exists y, (l2 ++ v0 :: l1), b. split; [|auto]. cbn. now rewrite <- app_assoc. }
    apply (@cut_working vs (v0 :: l1 ++ [b]) l2 f0 fr b0 ba); auto.
    rewrite H0, (sgn O0), F0. replace (neqb (nofZ 1 : b64) (nofZ (-1))) with false by (vm_compute; reflexivity). rewrite E, map_app, flatnonzero_app. cbn [map flatnonzero]. rewrite Gb. cbn [negb].
    rewrite (flatnonzero_false (m := map _ l2)) by (apply Forall_map; eapply Forall_impl; [|exact Fl2]; intros v; cbv beta; intros ->; reflexivity).
    rewrite getlast_app. cbn [bindr]. f_equal. cbn [length plus]. rewrite map_length, app_length. cbn [length]. lia.
  - destruct (first_true (EF true)) as (l1&f&l2&E&Gf&Fl). apply eqb_prop in Gf.
    destruct l1 as [|z l1]; [rewrite Ev in E; injection E as -> _; congruence|]. assert (z = v0) by (rewrite Ev in E; injection E; auto). subst z.
    assert (Fl1 : Forall (fun v => front v = false) (v0 :: l1)) by (eapply Forall_impl; [|exact Fl]; intros v; cbv beta; destruct (front v); now auto).
    destruct (@two_changes _ front vs (v0 :: l1) (f :: l2)) as (f0&fr&b0&ba&Ew&H1&H2); auto.
    { destruct (exists_last (l := v0 :: l1)) as (l'&b&El); [discriminate|]. exists f, (l2 ++ l'), b. rewrite El. cbn [app]. rewrite app_assoc. split; auto. split; auto.
      rewrite El in Fl1. apply Forall_app in Fl1 as [_ Fl1]. now inversion Fl1. }
    apply (@cut_working vs (v0 :: l1) (f :: l2) f0 fr b0 ba); auto.
    rewrite H0, (sgn O0), F0. replace (neqb (nofZ (-1) : b64) (nofZ (-1))) with true by (vm_compute; reflexivity). rewrite E, map_app, flatnonzero_app.
    rewrite (flatnonzero_false (m := map front (v0 :: l1))) by (apply Forall_map; auto). cbn [map flatnonzero app]. rewrite Gf.
    cbn [getitem nth_error bindr]. f_equal. cbn [length plus]. now rewrite map_length.
Qed.
End Closed.
