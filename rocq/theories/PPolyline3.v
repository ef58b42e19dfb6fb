(** * Proofs about Polyline: intersect_plane and cut_by_plane. *)
From Coq Require Import Reals ZArith List Bool Lra Lia Psatz Permutation Sorted.
From Flocq Require Import Core.Raux.
From Verif Require Import Num XLemmas Vec RVec SpecGeom SpecPoly VLemmas NpList MVx PVx MPlane PPlane PPlane2 MSegment PSegment MPolyline PPolyline PPolyline2.
Import ListNotations.
Local Open Scope R_scope.
Set Implicit Arguments.
Unset Strict Implicit.

Lemma compress_map A B (g : A -> bool) (h : A -> B) l : compress (map g l) (map h l) = map h (filter g l).
Proof. induction l; cbn; auto. destruct (g a); cbn; rewrite IHl; auto. Qed.
Lemma filter_map_comm A B (g : B -> bool) (h : A -> B) l : filter g (map h l) = map h (filter (fun x => g (h x)) l).
Proof. induction l; cbn; auto. destruct (g (h a)); cbn; rewrite IHl; auto. Qed.
Lemma flatnonzero_filter A (g : A -> bool) (l pre : list A) :
  Forall2 (fun i s => nth_error (pre ++ l) i = Some s) (flatnonzero (length pre) (map g l)) (filter g l).
Proof.
  revert pre. induction l as [|x l IH]; intros pre; [constructor|]. specialize (IH (pre ++ [x])).
  rewrite <- app_assoc, app_length in IH. cbn [app length] in IH. rewrite Nat.add_1_r in IH.
  cbn [map flatnonzero filter]. destruct (g x); auto. constructor; auto. rewrite nth_error_app2, Nat.sub_diag by lia. reflexivity.
Qed.
Lemma flatnonzero_app m1 m2 k : flatnonzero k (m1 ++ m2) = flatnonzero k m1 ++ flatnonzero (k + length m1) m2.
Proof.
  revert k. induction m1 as [|b m1 IH]; intros k; cbn [app flatnonzero length]; [now rewrite Nat.add_0_r|].
  rewrite IH. replace (S k + length m1)%nat with (k + S (length m1))%nat by lia. now destruct b.
Qed.
Lemma flatnonzero_false m k : Forall (fun b => b = false) m -> flatnonzero k m = [].
Proof. intros H. revert k. induction H as [|b m ->]; intros k; cbn; auto. Qed.
Lemma flatnonzero_true m k : Forall (fun b => b = true) m -> flatnonzero k m = seq k (length m).
Proof. intros H. revert k. induction H as [|b m ->]; intros k; cbn; auto. now rewrite IHForall. Qed.
Lemma meetsb_spec p n ab : meetsb p n ab = true <-> meets p n ab.
Proof.
  unfold meetsb, meets. destruct (Rlt_dec 0 (sdist p n (fst ab))); [destruct (Rlt_dec 0 (sdist p n (snd ab)))|destruct (Rlt_dec (sdist p n (fst ab)) 0); [destruct (Rlt_dec (sdist p n (snd ab)) 0)|]];
    split; intros; try discriminate; try reflexivity; try (split; intros []; lra); exfalso; tauto.
Qed.

Lemma rdot_lerp p n t a b : rdot (rsub (lerp t a b) p) n = (1 - t) * rdot (rsub a p) n + t * rdot (rsub b p) n.
Proof. destruct p as [p0 p1 p2], n as [n0 n1 n2], a as [a0 a1 a2], b as [b0 b1 b2]. vunf. cbn [c0 c1 c2]. ring. Qed.

Lemma lerp_sum t a b : radd (rscale (1 - t) a) (rscale t b) = lerp t a b.
Proof. vring. Qed.

Lemma rsub_rsub p a b : rsub (rsub b p) (rsub a p) = rsub b a.
Proof. vring. Qed.

Section Cut.
Context (p n : V3 R) (pl : plane xr) (Hpl : mk_plane (fin3 p) (fin3 n) = Ok pl).
Notation sd := (sdist p n).

Lemma Hn : n <> rzero. Proof. now destruct (mk_plane_ok Hpl). Qed.
Lemma sd_fin x : signed_distance1 pl (fin3 x) = Fin (sd x).
Proof. destruct (mk_plane_ok Hpl) as [_ ->]. apply sd1_sdist. Qed.
Lemma sds_fin vs : signed_distance pl (map fin3 vs) = map (fun x => Fin (sd x)) vs.
Proof. unfold signed_distance. rewrite map_map. apply map_ext. intros. apply sd_fin. Qed.
Lemma sd_lerp t a b : sd (lerp t a b) = (1 - t) * sd a + t * sd b.
Proof.
  unfold sdist. rewrite rdot_lerp.
  unfold Rdiv. ring.
Qed.
Lemma sum_test a b : negb (nabs (nsign (Fin (sd a)) + nsign (Fin (sd b))) =? nofZ 2)%num = meetsb p n (a, b).
Proof.
  destruct (nsign_cases (sd a)) as [[Ha ->]|[[Ha ->]|[Ha ->]]]; destruct (nsign_cases (sd b)) as [[Hb ->]|[[Hb ->]|[Hb ->]]];
    xs; unfold meetsb; cbn [fst snd];
    repeat match goal with |- context [Rlt_dec ?x ?y] => destruct (Rlt_dec x y); try lra end;
    match goal with |- negb (Req_bool (Rabs ?x) 2) = _ => destruct (Req_bool_spec (Rabs x) 2) as [E|E] end; cbn; auto; exfalso;
    try (apply E; split_Rabs; lra); split_Rabs; lra.
Qed.
(** the row computed for one edge *)
Definition row (ab : V3 R * V3 R) : V3 xr :=
  let da := nabs (Fin (sd (fst ab))) in let db := nabs (Fin (sd (snd ab))) in
  (vadd (vscale (nofZ 1 - da / (da + db)) (fin3 (fst ab))) (vscale (nofZ 1 - db / (da + db)) (fin3 (snd ab))))%num.
Lemma intersect_fin c vs : intersect_plane (fpoly c vs) pl =
  Ok (map row (filter (meetsb p n) (segs c vs)), flatnonzero 0 (map (meetsb p n) (segs c vs))).
Proof.
  unfold intersect_plane. cbn [fpoly poly p_v p_e].
  change (mkpoly _ _ _) with (fpoly c vs). rewrite sds_fin, map_map.
  destruct vs as [|d vs0] eqn:Ev; [destruct c; reflexivity|]. rewrite <- Ev. clear vs0 Ev.
  set (es := chain_edges (length (map fin3 vs)) c). rewrite fsegments. cbn [bindr].
  set (sg := fun e : edge => (nth (fst e) vs d, nth (snd e) vs d)).
  assert (ES : segs c vs = map sg es).
  { unfold es, chain_edges, sg. rewrite map_length. rewrite <- (segs_map (fun i => nth i vs d)). now rewrite seq_nth_map. }
  assert (Rg : forall e, In e es -> (fst e < length vs)%nat /\ (snd e < length vs)%nat).
  { intros [i j] He. apply segs_in in He as [Hi Hj]. apply in_seq in Hi, Hj. rewrite map_length in *. cbn. lia. }
  assert (TP : forall (B : Type) (g : V3 R -> B) fs, (forall e, In e fs -> In e es) -> take_pairs (map g vs) fs = Ok (map (fun e => (g (fst (sg e)), g (snd (sg e)))) fs)).
  { intros B g fs Hf. apply traverse_ok. intros e He. destruct (Rg e (Hf e He)) as [R1 R2].
    rewrite (@getitem_map _ _ g vs (fst e) d), (@getitem_map _ _ g vs (snd e) d) by auto. reflexivity. }
  rewrite TP by auto. cbn [bindr]. rewrite map_map. cbn [fst snd].
  rewrite (map_ext _ (fun e => meetsb p n (sg e))) by (intros e; rewrite sum_test; now destruct (sg e)).
  rewrite compress_filter. rewrite TP by (intros e He; apply filter_In in He; tauto). cbn [bindr].
  rewrite ES, !map_map, compress_map, map2_map, map2_diag, filter_map_comm, map_map. reflexivity.
Qed.
Lemma row_fin ab : meets p n ab -> ~ lies_in p n ab -> exists x, row ab = fin3 x /\ on_plane p n x /\ on_segment (fst ab) (snd ab) x.
Proof.
  destruct ab as [a b]. intros [M1 M2] L. unfold lies_in in L. cbn [fst snd] in *. rewrite !(on_plane_sdist p _ Hn) in L.
  unfold row. cbn [fst snd]. xs. set (x := sd a) in *. set (y := sd b) in *.
  assert (P : 0 < Rabs x + Rabs y) by (split_Rabs; lra). rewrite !xdivE by lra. xs.
  set (t := Rabs x / (Rabs x + Rabs y)). replace (1 - Rabs y / (Rabs x + Rabs y)) with t by (unfold t; field; lra).
  exists (lerp t a b). split; [|split].
  - f_equal. apply lerp_sum.
  - apply (on_plane_sdist p _ Hn). rewrite sd_lerp. fold x y. unfold t.
    replace ((1 - Rabs x / (Rabs x + Rabs y)) * x + Rabs x / (Rabs x + Rabs y) * y) with ((Rabs y * x + Rabs x * y) / (Rabs x + Rabs y)) by (field; lra).
    replace (Rabs y * x + Rabs x * y) with 0; [unfold Rdiv; ring|]. split_Rabs; nra.
  - exists t. split; auto. unfold t. pose proof (Rabs_pos x). pose proof (Rabs_pos y). split.
    + apply Rmult_le_pos; auto. apply Rlt_le, Rinv_0_lt_compat; auto.
    + apply (Rmult_le_reg_r (Rabs x + Rabs y)); auto. unfold Rdiv. rewrite Rmult_assoc, Rinv_l by lra. lra.
Qed.
(** an edge inside the plane gives a row of NaN *)
Lemma row_nan ab : lies_in p n ab -> row ab = mk3 NaN NaN NaN.
Proof.
  intros [A B]. apply (on_plane_sdist p _ Hn) in A, B. unfold row. rewrite A, B. xs. rewrite Rabs_R0.
  replace (0 + 0) with 0 by ring. rewrite xdiv0. reflexivity.
Qed.
Lemma intersect_spec c vs : Forall (fun ab => ~ lies_in p n ab) (segs c vs) ->
  exists xs idx, intersect_plane (fpoly c vs) pl = Ok (map fin3 xs, idx) /\
    StronglySorted lt idx /\ (forall i, In i idx <-> exists ab, nth_error (segs c vs) i = Some ab /\ meets p n ab) /\
    Forall2 (fun i x => exists ab, nth_error (segs c vs) i = Some ab /\ on_plane p n x /\ on_segment (fst ab) (snd ab) x) idx xs.
Proof.
  intros HL. rewrite intersect_fin. set (S := segs c vs) in *.
  assert (X : exists xs, map row (filter (meetsb p n) S) = map fin3 xs /\ Forall2 (fun ab x => on_plane p n x /\ on_segment (fst ab) (snd ab) x) (filter (meetsb p n) S) xs).
  { clear -HL Hpl. induction HL as [|ab S H HL IH]; [exists []; split; [reflexivity|constructor]|]. cbn [filter]. destruct (meetsb p n ab) eqn:E; auto.
    destruct IH as (xs&IH1&IH2). apply meetsb_spec in E. destruct (row_fin E H) as (x&E1&E2). exists (x :: xs). cbn [map]. rewrite E1, IH1. split; auto. }
  destruct X as (xs&X1&X2). exists xs. eexists. split; [rewrite X1; reflexivity|]. split; [apply flatnonzero_sorted|]. split.
  - intros i. rewrite flatnonzero_in, Nat.sub_0_r, nth_error_map. split.
    + intros [_ H]. destruct (nth_error S i) as [ab|]; [|discriminate]. exists ab. split; auto. apply meetsb_spec. now injection H.
    + intros (ab&->&M). split; [lia|]. cbn. f_equal. now apply meetsb_spec.
  - pose proof (flatnonzero_filter (meetsb p n) S []) as Fz. cbn [app length] in Fz. clear X1. revert X2 Fz. generalize (filter (meetsb p n) S) (flatnonzero 0 (map (meetsb p n) S)).
    intros l. revert xs. induction l as [|s l IH]; intros xs idx X Fz; inversion X; subst; inversion Fz; subst; constructor; eauto.
Qed.

(** ** cutting an open polyline *)
Lemma segs_split (vs : list (V3 R)) S1 a b S2 : segs false vs = S1 ++ (a, b) :: S2 ->
  exists l1 l2, vs = l1 ++ a :: b :: l2 /\ S1 = segs false (l1 ++ [a]) /\ S2 = segs false (b :: l2).
Proof.
  revert vs. induction S1 as [|s S1 IH]; intros vs H; destruct vs as [|x [|y vs]]; try discriminate; rewrite open_segs_cons in H; cbn [app] in H; injection H.
  - intros H2 -> ->. exists [], vs. auto.
  - intros H2 <-. destruct (IH _ H2) as (l1&l2&E1&E2&E3). exists (x :: l1), l2. split; [cbn; now rewrite E1|]. split; auto.
    destruct l1 as [|z l1]; cbn in E1; injection E1 as -> _; cbn [app] in *; rewrite open_segs_cons; congruence.
Qed.
Lemma filter_one A (g : A -> bool) l : length (filter g l) = 1%nat -> exists l1 x l2, l = l1 ++ x :: l2 /\ g x = true /\ Forall (fun y => g y = false) l1 /\ Forall (fun y => g y = false) l2.
Proof.
  induction l as [|y l IH]; [discriminate|]. cbn [filter]. destruct (g y) eqn:E; cbn [length]; intros H.
  - exists [], y, l. repeat split; auto. injection H as H. apply length_zero_iff_nil in H. clear -H. induction l as [|z l IH]; auto. cbn in H. destruct (g z) eqn:E; [discriminate|]. auto.
  - destruct (IH H) as (l1&x&l2&->&?&?&?). exists (y :: l1), x, l2. repeat split; auto.
Qed.
Lemma side_after b l : Forall (fun s => meetsb p n s = false) (segs false (b :: l)) ->
  (0 < sd b -> Forall (fun v => 0 < sd v) (b :: l)) /\ (sd b < 0 -> Forall (fun v => sd v < 0) (b :: l)) /\ (l <> [] -> sd b <> 0).
Proof.
  revert b. induction l as [|y l IH]; intros b H; [repeat split; intros; repeat constructor; auto; congruence|].
  rewrite open_segs_cons in H. inversion H as [|? ? M H']; subst. specialize (IH y H') as (I1&I2&_).
  assert (M' : ~ meets p n (b, y)) by (intros X; apply meetsb_spec in X; congruence). unfold meets in M'. cbn [fst snd] in M'.
  assert (D : 0 < sd b /\ 0 < sd y \/ sd b < 0 /\ sd y < 0) by (destruct (Rtotal_order (sd b) 0) as [|[|]], (Rtotal_order (sd y) 0) as [|[|]]; try tauto; exfalso; apply M'; split; intros []; lra).
  split; [|split]; intros.
  - constructor; auto. apply I1. lra.
  - constructor; auto. apply I2. lra.
  - lra.
Qed.
Lemma side_before l a : Forall (fun s => meetsb p n s = false) (segs false (l ++ [a])) ->
  (0 < sd a -> Forall (fun v => 0 < sd v) (l ++ [a])) /\ (sd a < 0 -> Forall (fun v => sd v < 0) (l ++ [a])) /\ (l <> [] -> sd a <> 0).
Proof.
  intros H. assert (H' : Forall (fun s => meetsb p n s = false) (segs false (a :: rev l))).
  { replace (a :: rev l) with (rev (l ++ [a])) by (now rewrite rev_app_distr). rewrite open_segs_rev. apply Forall_rev, Forall_map.
    eapply Forall_impl; [|exact H]. intros [x y] Hxy. apply not_true_iff_false. intros X. apply meetsb_spec in X.
    apply not_true_iff_false in Hxy. apply Hxy, meetsb_spec. unfold meets, swap in *. cbn in *. tauto. }
  apply side_after in H' as (I1&I2&I3). replace (l ++ [a]) with (rev (a :: rev l)) by (cbn; now rewrite rev_involutive).
  repeat split; intros; try (apply Forall_rev; auto). apply I3. intros E. apply (f_equal (@rev _)) in E. rewrite rev_involutive in E. auto.
Qed.
Lemma on_segment_sd a b z : on_segment a b z -> exists t, 0 <= t <= 1 /\ sd z = (1 - t) * sd a + t * sd b.
Proof. intros (t&Ht&->). exists t. split; auto. apply sd_lerp. Qed.
Lemma pos_segs (l : list (V3 R)) s z : Forall (fun v => 0 < sd v) l -> In s (segs false l) -> on_segment (fst s) (snd s) z -> 0 < sd z.
Proof.
  intros H Hs Hz. destruct s as [a b]. apply segs_in in Hs as [Ha Hb]. rewrite Forall_forall in H. apply H in Ha, Hb.
  apply on_segment_sd in Hz as (t&Ht&->). cbn [fst snd]. nra.
Qed.
Lemma neg_segs (l : list (V3 R)) s z : Forall (fun v => sd v < 0) l -> In s (segs false l) -> on_segment (fst s) (snd s) z -> sd z < 0.
Proof.
  intros H Hs Hz. destruct s as [a b]. apply segs_in in Hs as [Ha Hb]. rewrite Forall_forall in H. apply H in Ha, Hb.
  apply on_segment_sd in Hz as (t&Ht&->). cbn [fst snd]. nra.
Qed.
(** the part of a rising segment in front of its crossing point *)
Lemma rising a b x z : sd a <= 0 -> 0 <= sd b -> sd a < sd b -> on_plane p n x -> on_segment a b x ->
  on_segment x b z <-> on_segment a b z /\ 0 <= sd z.
Proof.
  intros A B AB Hx (s&Hs&->). apply (on_plane_sdist p _ Hn) in Hx. rewrite sd_lerp in Hx. split.
  - intros (t&Ht&->). assert (E : lerp t (lerp s a b) b = lerp (s + t * (1 - s)) a b) by (clear; vring). rewrite E. split.
    + exists (s + t * (1 - s)). split; auto. nra.
    + rewrite sd_lerp. assert (0 <= t * (1 - s) * (sd b - sd a)) by (apply Rmult_le_pos; [apply Rmult_le_pos|]; lra). nra.
  - intros [(u&Hu&->) Hz]. rewrite sd_lerp in Hz.
    assert (SU : s <= u). { assert (0 <= (u - s) * (sd b - sd a)) by lra. apply Rnot_lt_le. intros L. assert (0 < (s - u) * (sd b - sd a)) by (apply Rmult_lt_0_compat; lra). lra. }
    destruct (Req_dec s 1) as [->|S1].
    + exists 1. split; [lra|]. replace u with 1 by lra. rewrite !lerp_1. reflexivity.
    + exists ((u - s) / (1 - s)). assert (P : 0 < 1 - s) by lra. split.
      * split; [apply Rmult_le_pos; [lra|apply Rlt_le, Rinv_0_lt_compat; lra]|]. apply (Rmult_le_reg_r (1 - s)); auto. unfold Rdiv. rewrite Rmult_assoc, Rinv_l by lra. lra.
      * assert (E : forall w, lerp w (lerp s a b) b = lerp (s + w * (1 - s)) a b) by (clear; vring). rewrite E. f_equal. field. lra.
Qed.
Lemma on_segment_sym a b z : on_segment a b z <-> on_segment b a z.
Proof. assert (H : forall a b, on_segment a b z -> on_segment b a z); [|split; apply H]. clear. intros a b (t&Ht&->). exists (1 - t). split; [lra|]. vring. Qed.
Lemma on_chain_app l x m z : on_chain false (l ++ x :: m) z <-> on_chain false (l ++ [x]) z \/ on_chain false (x :: m) z.
Proof.
  unfold on_chain. rewrite open_segs_app. split.
  - intros (s&Hs&Hz). apply in_app_iff in Hs as [Hs|Hs]; eauto.
  - intros [(s&Hs&Hz)|(s&Hs&Hz)]; exists s; rewrite in_app_iff; auto.
Qed.
Lemma on_chain_cons x y m z : on_chain false (x :: y :: m) z <-> on_segment x y z \/ on_chain false (y :: m) z.
Proof.
  unfold on_chain. rewrite open_segs_cons. split.
  - intros (s&[<-|Hs]&Hz); eauto.
  - intros [Hz|(s&Hs&Hz)]; [exists (x, y)|exists s]; cbn; auto.
Qed.
Lemma on_chain_one x z : ~ on_chain false [x] z.
Proof. intros (s&[]&_). Qed.
Lemma on_chain_snoc l x y z : on_chain false (l ++ [x; y]) z <-> on_chain false (l ++ [x]) z \/ on_segment x y z.
Proof. rewrite on_chain_app, on_chain_cons. pose proof (@on_chain_one y z). tauto. Qed.
Lemma sproj_seg a b : sproj1 (fin3 (rsub b a)) (normal pl) = Fin (sd b - sd a).
Proof.
  destruct (mk_plane_ok Hpl) as [Hn ->]. cbn [normal pl_n]. assert (U : runit n <> rzero).
  { intros E. pose proof (runit_norm Hn) as K. rewrite E in K. rewrite (proj2 (rnorm_0 rzero) eq_refl) in K. lra. }
  rewrite sproj1_fin by auto. f_equal. unfold runit at 1. rewrite runit_norm by auto. rewrite Rinv_1, rscale_1, !sdist_runit, <- rdot_sub_l.
  now rewrite rsub_rsub.
Qed.
Lemma cut_open_spec vs : Forall (fun ab => ~ lies_in p n ab) (segs false vs) -> crossings p n false vs = 1%nat ->
  exists l1 a b l2 x, vs = l1 ++ a :: b :: l2 /\ on_plane p n x /\ on_segment a b x /\
    let ws := if Rlt_dec (sd a) (sd b) then x :: b :: l2 else l1 ++ [a; x] in
    cut_by_plane (fpoly false vs) pl = Ok (fpoly false ws) /\
    forall z, on_chain false ws z <-> on_chain false vs z /\ 0 <= sd z.
Proof.
  intros HL HC. destruct (filter_one HC) as (S1&[a b]&S2&ES&M&F1&F2). destruct (segs_split ES) as (l1&l2&->&->&->).
  assert (Lab : ~ lies_in p n (a, b)). { rewrite ES in HL. apply Forall_app in HL as [_ HL]. now inversion HL. }
  pose proof M as M'. apply meetsb_spec in M'. destruct (row_fin M' Lab) as (x&Ex&Px&Sx). cbn [fst snd] in Sx.
  exists l1, a, b, l2, x. split; auto. split; auto. split; auto. cbv zeta.
  assert (L1 : length (segs false (l1 ++ [a])) = length l1) by (rewrite open_segs_length, app_length; cbn; lia).
  assert (Cut : cut_by_plane (fpoly false (l1 ++ a :: b :: l2)) pl = cut_by_plane_open (fpoly false (l1 ++ a :: b :: l2)) pl (fin3 x) (length l1)).
  { unfold cut_by_plane. rewrite intersect_fin. cbn [bindr]. rewrite ES, filter_app, map_app, flatnonzero_app. cbn [filter map flatnonzero]. rewrite M.
    rewrite (flatnonzero_false (m := map _ (segs false (l1 ++ [a])))) by (apply Forall_map; auto).
    rewrite (flatnonzero_false (m := map _ (segs false (b :: l2)))) by (apply Forall_map; auto).
    replace (filter (meetsb p n) (segs false (l1 ++ [a]))) with (@nil (V3 R * V3 R)).
    2:{ symmetry. clear -F1. induction F1 as [|s S E ? IH]; auto. cbn. now rewrite E. }
    cbn [app map getitem nth_error length Nat.ltb Nat.leb]. change (p_closed (fpoly false _)) with false. cbn iota.
    rewrite map_length, L1. cbn [bindr getitem nth_error]. rewrite Ex. reflexivity. }
  rewrite Cut. unfold cut_by_plane_open.
  change (p_v (fpoly false (l1 ++ a :: b :: l2))) with (Some (map fin3 (l1 ++ a :: b :: l2))).
  change (p_e (fpoly false (l1 ++ a :: b :: l2))) with (Some (chain_edges (length (map fin3 (l1 ++ a :: b :: l2))) false)). cbn iota.
  assert (Ee : @getitem edge (chain_edges (length (map fin3 (l1 ++ a :: b :: l2))) false) (length l1) = Ok (length l1, S (length l1))).
  { unfold chain_edges. rewrite open_segs_seq, map_length, app_length. cbn [length]. rewrite (@getitem_map _ _ _ _ _ 0%nat) by (rewrite seq_length; lia).
    rewrite seq_nth by lia. reflexivity. }
  rewrite Ee. cbn [bindr fst snd]. unfold segment_vectors. rewrite fsegments. cbn [bindr]. rewrite map_map. cbn [fst snd].
  rewrite (@getitem_map _ _ _ _ _ (a, b)).
  2:{ rewrite ES, app_length, L1. cbn. lia. }
  rewrite ES, app_nth2, L1, Nat.sub_diag by lia. cbn [nth bindr fst snd]. rewrite fsub, sproj_seg. unfold n0. rewrite xofZ, xlt.
  apply side_after in F2 as (A1&A2&A3). apply side_before in F1 as (B1&B2&B3).
  destruct M' as [M1 M2]. cbn [fst snd] in M1, M2. unfold lies_in in Lab. cbn [fst snd] in Lab. rewrite !(on_plane_sdist p _ Hn) in Lab.
  assert (Af : forall z, 0 < sd b -> on_chain false (b :: l2) z -> 0 < sd z).
  { intros z Hb (s&Hs&Hz). exact (pos_segs (A1 Hb) Hs Hz). }
  assert (Ab : forall z, sd b < 0 -> on_chain false (b :: l2) z -> sd z < 0).
  { intros z Hb (s&Hs&Hz). exact (neg_segs (A2 Hb) Hs Hz). }
  assert (Bf : forall z, 0 < sd a -> on_chain false (l1 ++ [a]) z -> 0 < sd z).
  { intros z Hb (s&Hs&Hz). exact (pos_segs (B1 Hb) Hs Hz). }
  assert (Bb : forall z, sd a < 0 -> on_chain false (l1 ++ [a]) z -> sd z < 0).
  { intros z Hb (s&Hs&Hz). exact (neg_segs (B2 Hb) Hs Hz). }
  assert (NB : forall z, sd b = 0 -> ~ on_chain false (b :: l2) z).
  { intros z Hb. destruct l2; [apply on_chain_one|]. exfalso. apply A3; auto. discriminate. }
  assert (NA : forall z, sd a = 0 -> ~ on_chain false (l1 ++ [a]) z).
  { intros z Hb. destruct l1; [apply on_chain_one|]. exfalso. apply B3; auto. discriminate. }
  destruct (Rlt_dec (sd a) (sd b)) as [L|L].
  - rewrite Rlt_bool_true by lra. rewrite init_points_open.
    2:{ apply (numeric_incl (m := map fin3 (x :: l1 ++ a :: b :: l2))); [|apply numeric_fin]. intros v [<-|Hv]; [now left|]. right.
        rewrite <- (firstn_skipn (S (length l1)) (map fin3 _)). apply in_app_iff. now right. }
    split.
    + do 2 f_equal. rewrite map_app, skipn_app, map_length. replace (S (length l1) - length l1)%nat with 1%nat by lia.
      rewrite skipn_all2 by (rewrite map_length; lia). reflexivity.
    + intros z. rewrite on_chain_cons, on_chain_app, on_chain_cons. rewrite (@rising a b x z) by (auto; lra).
      split.
      * intros [[H1 H2]|H]; [tauto|]. split; [tauto|]. destruct (Rtotal_order (sd b) 0) as [|[E|G]]; [lra|exfalso; eapply NB; eauto|]. specialize (Af z G H). lra.
      * intros [[H|[H|H]] Hz]; [|tauto|tauto]. exfalso. destruct (Rtotal_order (sd a) 0) as [G|[E|]]; [specialize (Bb z G H); lra|eapply NA; eauto|lra].
  - rewrite Rlt_bool_false by lra. rewrite init_points_open.
    2:{ apply (numeric_incl (m := map fin3 (x :: l1 ++ a :: b :: l2))); [|apply numeric_fin]. intros v Hv. apply in_app_iff in Hv as [Hv|[<-|[]]]; [|now left]. right.
        rewrite <- (firstn_skipn (S (length l1)) (map fin3 _)). apply in_app_iff. now left. }
    split.
    + do 2 f_equal. rewrite map_app, firstn_app, map_length. replace (S (length l1) - length l1)%nat with 1%nat by lia.
      rewrite firstn_all2 by (rewrite map_length; lia). unfold fpoly. rewrite map_app. cbn [map firstn]. rewrite <- app_assoc. reflexivity.
    + intros z. rewrite on_chain_snoc, (on_chain_app l1 a (b :: l2)), on_chain_cons.
      rewrite (on_segment_sym a x), (on_segment_sym a b). rewrite (on_segment_sym a b x) in Sx. rewrite (@rising b a x z) by (auto; lra).
      split.
      * intros [H|[H1 H2]]; [|tauto]. split; [tauto|]. destruct (Rtotal_order (sd a) 0) as [|[E|G]]; [lra|exfalso; eapply NA; eauto|]. specialize (Bf z G H). lra.
      * intros [[H|[H|H]] Hz]; [tauto|tauto|]. exfalso. destruct (Rtotal_order (sd b) 0) as [G|[E|]]; [specialize (Ab z G H); lra|eapply NB; eauto|lra].
Qed.
Lemma filter_count A (g : A -> bool) l k : length (flatnonzero k (map g l)) = length (filter g l).
Proof. revert k. induction l; intros k; cbn; auto. destruct (g a); cbn; now rewrite IHl. Qed.
Lemma cut_open_rejects vs : crossings p n false vs <> 1%nat -> cut_by_plane (fpoly false vs) pl = Err ValueError.
Proof.
  intros H. unfold cut_by_plane. rewrite intersect_fin. cbn [bindr]. unfold crossings in H. rewrite <- (filter_count (meetsb p n) _ 0) in H.
  destruct (flatnonzero 0 (map (meetsb p n) (segs false vs))) as [|i [|j l]]; [reflexivity|cbn in H; congruence|reflexivity].
Qed.

(** ** cutting a closed polyline *)
Definition front (v : V3 R) : bool := Rlt_bool 0 (sd v).
Notation off := (fun v => ~ on_plane p n v).
Lemma off_ne v : ~ on_plane p n v -> sd v <> 0.
Proof. intros H E. apply H, (on_plane_sdist p _ Hn), E. Qed.
Lemma front_true v : front v = true <-> 0 < sd v.
Proof. unfold front. destruct (Rlt_bool_spec 0 (sd v)); split; intros; auto; [discriminate|lra]. Qed.
Lemma front_false v : ~ on_plane p n v -> front v = false <-> sd v < 0.
Proof. intros H. apply off_ne in H. unfold front. destruct (Rlt_bool_spec 0 (sd v)); split; intros; auto; [discriminate|lra|lra]. Qed.
Lemma sign_front v : ~ on_plane p n v -> nsign (Fin (sd v)) = if front v then Fin 1 else Fin (-1).
Proof.
  intros H. apply off_ne in H. unfold front. destruct (nsign_cases (sd v)) as [[G ->]|[[G ->]|[G ->]]]; [|lra|].
  - now rewrite Rlt_bool_false by lra.
  - now rewrite Rlt_bool_true by lra.
Qed.
Lemma sign_list vs : sign pl (map fin3 vs) = map (fun v => nsign (Fin (sd v))) vs.
Proof. unfold sign. now rewrite sds_fin, map_map. Qed.
Lemma mask_front vs : Forall off vs ->
  map (fun s => (n0 <=? s)%num) (sign pl (map fin3 vs)) = map front vs /\ map (fun s => (s <? n0)%num) (sign pl (map fin3 vs)) = map (fun v => negb (front v)) vs.
Proof.
  intros H. rewrite sign_list, !map_map. rewrite Forall_forall in H. unfold n0.
  split; apply map_ext_in; intros v Hv; rewrite sign_front by auto; destruct (front v); xs; cbn.
  - apply Rle_bool_true; lra.
  - apply Rle_bool_false; lra.
  - apply Rlt_bool_false; lra.
  - apply Rlt_bool_true; lra.
Qed.
Lemma meets_front a b : ~ on_plane p n a -> ~ on_plane p n b -> meetsb p n (a, b) = xorb (front a) (front b).
Proof.
  intros Ha Hb. apply off_ne in Ha, Hb. unfold meetsb, front. cbn [fst snd].
  destruct (Rlt_bool_spec 0 (sd a)), (Rlt_bool_spec 0 (sd b));
    repeat match goal with |- context [Rlt_dec ?x ?y] => destruct (Rlt_dec x y); try lra end; reflexivity.
Qed.
Lemma first_true A (g : A -> bool) l : existsb g l = true -> exists l1 x l2, l = l1 ++ x :: l2 /\ g x = true /\ Forall (fun y => g y = false) l1.
Proof.
  induction l as [|y l IH]; cbn; [discriminate|]. destruct (g y) eqn:E; intros H.
  - exists [], y, l. auto.
  - destruct (IH H) as (l1&x&l2&->&?&?). exists (y :: l1), x, l2. auto.
Qed.
Lemma last_true A (g : A -> bool) l : existsb g l = true -> exists l1 x l2, l = l1 ++ x :: l2 /\ g x = true /\ Forall (fun y => g y = false) l2.
Proof.
  intros H. assert (H' : existsb g (rev l) = true). { apply existsb_exists in H as (x&Hx&Gx). apply existsb_exists. exists x. split; auto. now apply in_rev in Hx. }
  destruct (first_true H') as (l1&x&l2&E&G&Fa). exists (rev l2), x, (rev l1). split; [|split; [auto|now apply Forall_rev]].
  apply (f_equal (@rev _)) in E. rewrite rev_involutive in E. rewrite E, rev_app_distr. cbn. now rewrite <- app_assoc.
Qed.
(** no front vertex at all / no back vertex at all: no crossing *)
Lemma no_cross c vs k : Forall off vs -> Forall (fun v => front v = k) vs -> crossings p n c vs = 0%nat.
Proof.
  intros H K. unfold crossings. rewrite Forall_forall in H, K.
  assert (G : forall s, In s (segs c vs) -> meetsb p n s = false).
  { intros [a b] Hs. apply segs_in in Hs as [Ha Hb]. rewrite meets_front by auto. rewrite (K a), (K b) by auto. now destruct k. }
  induction (segs c vs) as [|s S IH]; auto. cbn. rewrite (G s) by (left; auto). apply IH. intros; apply G; now right.
Qed.
Lemma perm_filter A (g : A -> bool) l m : Permutation l m -> length (filter g l) = length (filter g m).
Proof. induction 1; cbn; try destruct (g x); try destruct (g y); cbn; congruence. Qed.
Lemma crossings_rot l1 l2 : crossings p n true (l2 ++ l1) = crossings p n true (l1 ++ l2).
Proof. unfold crossings. apply perm_filter, closed_segs_perm. Qed.
(** starting in front, with a single crossing: a front part, then a back part *)
Lemma one_cross x w : Forall off (x :: w) -> front x = true -> crossings p n false (x :: w) = 1%nat ->
  exists fr ba, x :: w = fr ++ ba /\ Forall (fun v => front v = true) fr /\ Forall (fun v => front v = false) ba /\ fr <> [] /\ ba <> [].
Proof.
  revert x. induction w as [|y w IH]; intros x H Fx C; [discriminate|]. inversion H as [|? ? Ox Ow]; subst. inversion Ow as [|? ? Oy Ow']; subst.
  unfold crossings in C. rewrite open_segs_cons in C. cbn [filter] in C. rewrite meets_front in C by auto. rewrite Fx in C. destruct (front y) eqn:Fy; cbn [xorb] in C.
  - destruct (IH y Ow Fy C) as (fr&ba&E&H1&H2&H3&H4). exists (x :: fr), ba. rewrite E. repeat split; auto. discriminate.
  - exists [x], (y :: w). repeat split; auto; try discriminate. cbn [length] in C. injection C as C. clear IH H Fx.
    revert y Fy Oy Ow Ow' C. induction w as [|z w IH]; intros y Fy Oy Ow Ow' C; [auto|]. inversion Ow' as [|? ? Oz Ow'']; subst.
    rewrite open_segs_cons in C. cbn [filter] in C. rewrite meets_front in C by auto. rewrite Fy in C. destruct (front z) eqn:Fz; [discriminate|]. constructor; auto.
Qed.
Lemma closed_segs_two (x : V3 R) fr y ba : segs true ((x :: fr) ++ y :: ba) =
  segs false (x :: fr) ++ (last (x :: fr) x, y) :: segs false (y :: ba) ++ [(last (y :: ba) y, x)].
Proof.
  assert (G : forall (l : list (V3 R)) u v, segs false ((u :: l) ++ [v]) = segs false (u :: l) ++ [(last (u :: l) u, v)]).
  { intros l u v. destruct (exists_last (l := u :: l)) as (l'&z&E); [discriminate|]. rewrite E. rewrite <- app_assoc. cbn [app]. rewrite open_segs_snoc. do 3 f_equal.
    now rewrite last_last. }
  cbn [app]. rewrite closed_segs. rewrite <- app_assoc. cbn [app]. change (x :: fr ++ y :: ba ++ [x]) with ((x :: fr) ++ y :: (ba ++ [x])). rewrite (open_segs_app (x :: fr)).
  change (y :: ba ++ [x]) with ((y :: ba) ++ [x]). rewrite !G, <- app_assoc. reflexivity.
Qed.
Lemma last_fin (l : list (V3 R)) d : last (map fin3 l) (fin3 d) = fin3 (last l d).
Proof. induction l as [|x [|y l] IH]; auto. Qed.
Lemma getlast_app A (l : list A) x : getlast (l ++ [x]) = Ok x.
Proof. unfold getlast. destruct (l ++ [x]) as [|y m] eqn:E; [destruct l; discriminate|]. rewrite <- E. now rewrite last_last. Qed.
Lemma cross_seg a b : sd a * sd b < 0 -> exists x, line_segment_xsection pl (fin3 a) (fin3 b) = Some (fin3 x) /\ on_plane p n x /\ on_segment a b x.
Proof.
  intros H. destruct (segment_spec a b Hpl) as [[_ S1] S2]. destruct S1 as [w E].
  { split; [intros K; rewrite K in H; nra|]. split; intros []; nra. }
  destruct (S2 w E) as (y&->&?&?&_). eauto.
Qed.
Definition front_arc (vs : list (V3 R)) (ws : list (V3 R)) : Prop :=
  exists l1 l2 f0 fr b0 ba x y, vs = l1 ++ l2 /\ l2 ++ l1 = (f0 :: fr) ++ b0 :: ba /\
    Forall (fun v => 0 < sd v) (f0 :: fr) /\ Forall (fun v => sd v < 0) (b0 :: ba) /\
    on_plane p n x /\ on_segment (last (b0 :: ba) b0) f0 x /\ on_plane p n y /\ on_segment (last (f0 :: fr) f0) b0 y /\
    ws = x :: (f0 :: fr) ++ [y].
Lemma working_case vs l1 l2 : vs <> [] -> Forall off vs -> vs = l1 ++ l2 ->
  (exists x w' b, l2 ++ l1 = x :: w' ++ [b] /\ front x = true /\ front b = false) -> crossings p n true vs = 2%nat ->
  exists f0 fr b0 ba, l2 ++ l1 = (f0 :: fr) ++ b0 :: ba /\ Forall (fun v => front v = true) (f0 :: fr) /\ Forall (fun v => front v = false) (b0 :: ba).
Proof.
  intros Hv Ho E (x&w'&b&Ew&Fx&Fb) C. rewrite E in C, Ho. rewrite <- crossings_rot, Ew in C.
  assert (Ho' : Forall off (x :: w' ++ [b])). { rewrite <- Ew. apply Forall_app in Ho as []. apply Forall_app; auto. }
  unfold crossings in C. rewrite closed_segs in C. rewrite <- app_assoc in C. cbn [app] in C. change (x :: w' ++ [b; x]) with ((x :: w') ++ [b; x]) in C. rewrite open_segs_snoc, filter_app, app_length in C.
  cbn [filter] in C. rewrite meets_front in C.
  2:{ rewrite Forall_forall in Ho'. apply Ho'. right. apply in_app_iff. right. now left. }
  2:{ now inversion Ho'. }
  rewrite Fx, Fb in C. cbn [xorb length] in C.
  destruct (@one_cross x (w' ++ [b])) as (fr&ba&E1&H1&H2&H3&H4); auto; [unfold crossings; cbn [app] in C; lia|].
  destruct fr as [|f0 fr]; [congruence|]. destruct ba as [|b0 ba]; [congruence|]. exists f0, fr, b0, ba. rewrite Ew, E1. auto.
Qed.
Lemma cut_working vs l1 l2 f0 fr b0 ba : vs <> [] -> Forall off vs -> vs = l1 ++ l2 -> l2 ++ l1 = (f0 :: fr) ++ b0 :: ba ->
  Forall (fun v => front v = true) (f0 :: fr) -> Forall (fun v => front v = false) (b0 :: ba) ->
  (if (nsign (Fin (sd (hd rzero vs))) =? nofZ (-1))%num
        then getitem (flatnonzero 0 (map front vs)) 0
        else let* i := getlast (flatnonzero 0 (map (fun v => negb (front v)) vs)) in Ok (S i)) = Ok (length l1) ->
  exists ws, cut_by_plane_closed (fpoly true vs) pl = Ok (fpoly false ws) /\ front_arc vs ws.
Proof.
  intros Hv Ho E Ew Hf Hb Hi. unfold cut_by_plane_closed. change (p_v (fpoly true vs)) with (Some (map fin3 vs)). cbn iota.
  destruct (mask_front Ho) as [-> ->]. rewrite sign_list.
  assert (S0 : getitem (map (fun v => nsign (Fin (sd v))) vs) 0 = Ok (nsign (Fin (sd (hd rzero vs))))) by (destruct vs; [congruence|reflexivity]).
  rewrite S0. cbn [bindr].
  rewrite Hi. cbn [bindr]. clear Hi.
  assert (Hm : map fin3 vs <> []) by (intros K; apply Hv; now destruct vs).
  assert (Hl : (length l1 <= length (map fin3 vs))%nat) by (rewrite map_length, E, app_length; lia).
  unfold fpoly at 1. rewrite (reindexed_poly (numeric_fin _) Hm Hl).
  cbn [bindr fst]. rewrite skipn_map, firstn_map, <- map_app. 
  replace (skipn (length l1) vs ++ firstn (length l1) vs) with (l2 ++ l1) by (rewrite E, skipn_app, firstn_app, skipn_all, firstn_all, Nat.sub_diag; cbn; now rewrite app_nil_r).
  rewrite Ew. set (w := (f0 :: fr) ++ b0 :: ba) in *. change (poly true (map fin3 w)) with (fpoly true w). 
  change (p_v (fpoly true w)) with (Some (map fin3 w)). cbn iota.
  assert (Hw : Forall off w). { rewrite <- Ew. rewrite E in Ho. apply Forall_app in Ho as []. apply Forall_app; auto. }
  destruct (mask_front Hw) as [-> _]. rewrite sign_list, fsegments. cbn [bindr].
  assert (Of0 : ~ on_plane p n f0) by (now inversion Hw). 
  change (getitem (map (fun v => nsign (Fin (sd v))) w) 0) with (Ok (nsign (Fin (sd f0)))). cbn [bindr].
  rewrite sign_front by auto. inversion Hf as [|? ? Ff0 Hfr]; subst. rewrite Ff0. unfold n0. rewrite xofZ, xeqb, Req_bool_false by lra.
  inversion Hb as [|? ? Fb0 Hba]; subst.
  assert (Ob : Forall off (b0 :: ba)) by (unfold w in Hw; apply Forall_app in Hw; tauto).
  assert (Off : Forall off (f0 :: fr)) by (unfold w in Hw; apply Forall_app in Hw; tauto).
  unfold w at 1 5. rewrite closed_segs_two. rewrite !map_app. cbn [map]. rewrite map_app. cbn [map].
  match goal with |- context [getlast (?A ++ ?B :: ?C ++ [?D])] => replace (A ++ B :: C ++ [D]) with ((A ++ B :: C) ++ [D]) by (rewrite <- app_assoc; reflexivity) end.
  rewrite getlast_app. cbn [bindr fst snd].
  assert (Lb : In (last (b0 :: ba) b0) (b0 :: ba)) by (destruct (exists_last (l := b0 :: ba)) as (l'&z&Ez); [discriminate|]; rewrite Ez, last_last; apply in_app_iff; right; now left).
  assert (Lf : In (last (f0 :: fr) f0) (f0 :: fr)) by (destruct (exists_last (l := f0 :: fr)) as (l'&z&Ez); [discriminate|]; rewrite Ez, last_last; apply in_app_iff; right; now left).
  rewrite Forall_forall in Ob, Off. pose proof Hb as Hb'. pose proof Hf as Hf'. rewrite Forall_forall in Hb', Hf'.
  assert (Nb : sd (last (b0 :: ba) b0) < 0) by (apply front_false; auto). assert (Pf : 0 < sd (last (f0 :: fr) f0)) by (apply front_true; auto).
  assert (P0 : 0 < sd f0) by (now apply front_true). assert (N0 : sd b0 < 0) by (apply front_false; [apply Ob; now left|auto]).
  destruct (@cross_seg (last (b0 :: ba) b0) f0) as (x&Ex&Px&Sx); [nra|]. rewrite Ex. cbn [bindr].
  unfold w at 1. rewrite map_app, flatnonzero_app. rewrite (flatnonzero_false (m := map front (b0 :: ba))) by (apply Forall_map; auto).
  rewrite (flatnonzero_true (m := map front (f0 :: fr))) by (apply Forall_map; auto). rewrite app_nil_r, map_length. cbn [length]. rewrite seq_S, getlast_app. cbn [plus bindr].
  assert (N1 : nth_error w (length fr) = Some (last (f0 :: fr) f0)).
  { unfold w. destruct (exists_last (l := f0 :: fr)) as (l'&z&Ez); [discriminate|]. rewrite Ez, last_last, <- app_assoc. cbn [app].
    assert (length fr = length l') by (apply (f_equal (@length _)) in Ez; rewrite app_length in Ez; cbn in Ez; lia).
    rewrite H, nth_error_app2, Nat.sub_diag by lia. reflexivity. }
  assert (G1 : getitem (map (fun v => nsign (Fin (sd v))) w) (length fr) = Ok (Fin 1)).
  { unfold getitem. rewrite nth_error_map, N1. cbn [option_map]. rewrite sign_front by auto. rewrite (Hf' _ Lf). reflexivity. }
  rewrite G1. cbn [bindr]. rewrite xeqb, Req_bool_false by lra.
  assert (G2 : forall A (l1' : list A) x' l2', length l1' = length fr -> getitem (l1' ++ x' :: l2') (length fr) = Ok x').
  { intros A l1' x' l2' L. unfold getitem. now rewrite nth_error_app2, L, Nat.sub_diag by lia. }
  unfold w at 1. rewrite closed_segs_two, map_app. cbn [map fst snd]. rewrite G2 by (rewrite map_length, open_segs_length; cbn; lia). cbn [bindr fst snd].
  destruct (@cross_seg (last (f0 :: fr) f0) b0) as (y&Ey&Py&Sy); [nra|]. rewrite Ey. cbn [bindr to_array app].
  rewrite init_points_open.
  2:{ apply (numeric_incl (m := map fin3 (x :: y :: w))); [|apply numeric_fin]. intros v [<-|Hi]; [now left|]. apply in_app_iff in Hi as [Hi|[<-|[]]]; [|right; now left].
      right. right. unfold w. rewrite map_app. rewrite <- (firstn_skipn (S (length fr)) (map fin3 (f0 :: fr) ++ _)). apply in_app_iff. now left. }
  exists (x :: (f0 :: fr) ++ [y]). split.
  - do 2 f_equal. cbn [firstn app]. rewrite firstn_app. rewrite firstn_all2 by (rewrite map_length; lia).
    rewrite map_length, Nat.sub_diag. cbn [firstn map]. unfold fpoly. cbn [map]. rewrite app_nil_r, map_app. reflexivity.
  - exists l1, l2, f0, fr, b0, ba, x, y. repeat (split; [now auto|]).
    split; [apply Forall_forall; intros v Hvv; apply front_true; auto|].
    split; [apply Forall_forall; intros v Hvv; apply front_false; auto|]. auto 10.
Qed.
Lemma cut_closed_spec vs : vs <> [] -> Forall off vs -> crossings p n true vs = 2%nat ->
  exists ws, cut_by_plane (fpoly true vs) pl = Ok (fpoly false ws) /\ front_arc vs ws.
Proof.
  intros Hv Ho C.
  assert (Cut : cut_by_plane (fpoly true vs) pl = cut_by_plane_closed (fpoly true vs) pl).
  { unfold cut_by_plane. rewrite intersect_fin. cbn [bindr]. pose proof C as C'. unfold crossings in C'. rewrite <- (filter_count (meetsb p n) _ 0) in C'.
    change (p_closed (fpoly true vs)) with true. cbn iota.
    destruct (flatnonzero 0 (map (meetsb p n) (segs true vs))) as [|i l]; [discriminate|]. rewrite C'. reflexivity. }
  rewrite Cut. clear Cut. destruct vs as [|v0 vs0] eqn:Ev; [congruence|]. rewrite <- Ev in *. clear Hv.
  assert (Hv : vs <> []) by (rewrite Ev; discriminate). assert (O0 : ~ on_plane p n v0) by (rewrite Ev in Ho; now inversion Ho).
  assert (H0 : hd rzero vs = v0) by (now rewrite Ev).
  assert (EF : forall k, existsb (fun v => Bool.eqb (front v) k) vs = true).
  { intros k. destruct (existsb _ vs) eqn:X; auto. exfalso. rewrite (@no_cross true vs (negb k)) in C; auto; [discriminate|].
    apply Forall_forall. intros v Hvv. assert (Y : Bool.eqb (front v) k <> true) by (intros Y; enough (existsb (fun v => Bool.eqb (front v) k) vs = true) by congruence; apply existsb_exists; eauto).
    destruct (front v), k; cbn in *; congruence. }
  destruct (front v0) eqn:F0.
  - destruct (last_true (EF false)) as (l1&b&l2&E&Gb&Fl). apply eqb_prop in Gb.
    assert (E' : vs = (l1 ++ [b]) ++ l2) by (rewrite E, <- app_assoc; reflexivity).
    destruct l1 as [|z l1]; [rewrite Ev in E; injection E as -> _; congruence|]. assert (z = v0) by (rewrite Ev in E; injection E; auto). subst z.
    assert (Fl2 : Forall (fun v => front v = true) l2) by (eapply Forall_impl; [|exact Fl]; cbn; intros v; now destruct (front v)).
    destruct (@working_case vs (v0 :: l1 ++ [b]) l2) as (f0&fr&b0&ba&Ew&H1&H2); auto.
    { destruct l2 as [|y l2]; [exists v0, l1, b; auto|]. inversion Fl2; subst. exists y, (l2 ++ v0 :: l1), b. split; [|auto]. cbn. now rewrite <- app_assoc. }
    apply (@cut_working vs (v0 :: l1 ++ [b]) l2 f0 fr b0 ba); auto.
    rewrite H0, sign_front, F0, xofZ, xeqb, Req_bool_false by (auto; lra). rewrite E, map_app, flatnonzero_app. cbn [map flatnonzero]. rewrite Gb. cbn [negb].
    rewrite (flatnonzero_false (m := map _ l2)) by (apply Forall_map; eapply Forall_impl; [|exact Fl2]; cbn; intros v ->; reflexivity).
    rewrite getlast_app. cbn [bindr]. f_equal. cbn [length plus]. rewrite map_length, app_length. cbn [length]. lia.
  - destruct (first_true (EF true)) as (l1&f&l2&E&Gf&Fl). apply eqb_prop in Gf.
    destruct l1 as [|z l1]; [rewrite Ev in E; injection E as -> _; congruence|]. assert (z = v0) by (rewrite Ev in E; injection E; auto). subst z.
    assert (Fl1 : Forall (fun v => front v = false) (v0 :: l1)) by (eapply Forall_impl; [|exact Fl]; cbn; intros v; now destruct (front v)).
    destruct (@working_case vs (v0 :: l1) (f :: l2)) as (f0&fr&b0&ba&Ew&H1&H2); auto.
    { destruct (exists_last (l := v0 :: l1)) as (l'&b&El); [discriminate|]. exists f, (l2 ++ l'), b. rewrite El. cbn [app]. rewrite app_assoc. split; auto. split; auto.
      rewrite El in Fl1. apply Forall_app in Fl1 as [_ Fl1]. now inversion Fl1. }
    apply (@cut_working vs (v0 :: l1) (f :: l2) f0 fr b0 ba); auto.
    rewrite H0, sign_front, F0, xofZ, xeqb, Req_bool_true by auto. rewrite E, map_app, flatnonzero_app.
    rewrite (flatnonzero_false (m := map front (v0 :: l1))) by (apply Forall_map; auto). cbn [map flatnonzero app]. rewrite Gf.
    cbn [getitem nth_error bindr]. f_equal. cbn [length plus]. now rewrite map_length.
Qed.
Lemma cut_closed_rejects vs : crossings p n true vs <> 2%nat -> cut_by_plane (fpoly true vs) pl = Err ValueError.
Proof.
  intros H. unfold cut_by_plane. rewrite intersect_fin. cbn [bindr]. unfold crossings in H. rewrite <- (filter_count (meetsb p n) _ 0) in H.
  change (p_closed (fpoly true vs)) with true. cbn iota.
  destruct (flatnonzero 0 (map (meetsb p n) (segs true vs))) as [|i l]; [reflexivity|]. apply Nat.eqb_neq in H. now rewrite H.
Qed.
(** the point set of the kept arc *)
Lemma front_arc_points vs ws : front_arc vs ws -> forall z, on_chain false ws z <-> on_chain true vs z /\ 0 <= sd z.
Proof.
  intros (l1&l2&f0&fr&b0&ba&x&y&->&Ew&Hf&Hb&Px&Sx&Py&Sy&->) z.
  assert (R : on_chain true (l1 ++ l2) z <-> on_chain true (l2 ++ l1) z).
  { unfold on_chain. split; intros (s&Hs&Hz); exists s; split; auto; revert Hs; apply Permutation_in, closed_segs_perm. }
  rewrite R, Ew. clear R Ew.
  assert (Lb : In (last (b0 :: ba) b0) (b0 :: ba)) by (destruct (exists_last (l := b0 :: ba)) as (l'&w&Ez); [discriminate|]; rewrite Ez, last_last; apply in_app_iff; right; now left).
  assert (Lf : In (last (f0 :: fr) f0) (f0 :: fr)) by (destruct (exists_last (l := f0 :: fr)) as (l'&w&Ez); [discriminate|]; rewrite Ez, last_last; apply in_app_iff; right; now left).
  pose proof Hf as Hf'. pose proof Hb as Hb'. rewrite Forall_forall in Hf', Hb'.
  pose proof (Hb' _ Lb) as Nb. pose proof (Hf' _ Lf) as Pf. pose proof (Hf' f0 (or_introl eq_refl)) as P0. pose proof (Hb' b0 (or_introl eq_refl)) as N0.
  assert (C : on_chain true ((f0 :: fr) ++ b0 :: ba) z <-> on_chain false (f0 :: fr) z \/ on_segment (last (f0 :: fr) f0) b0 z \/ on_chain false (b0 :: ba) z \/ on_segment (last (b0 :: ba) b0) f0 z).
  { unfold on_chain. rewrite closed_segs_two. split.
    - intros (s&Hs&Hz). apply in_app_iff in Hs as [Hs|[<-|Hs]]; eauto. apply in_app_iff in Hs as [Hs|[<-|[]]]; eauto. right; right; left; eauto.
    - intros [(s&Hs&Hz)|[Hz|[(s&Hs&Hz)|Hz]]].
      + exists s. rewrite in_app_iff. auto.
      + eexists. split; [apply in_app_iff; right; left; reflexivity|]. auto.
      + exists s. split; auto. apply in_app_iff. right. right. apply in_app_iff. auto.
      + eexists. split; [apply in_app_iff; right; right; apply in_app_iff; right; left; reflexivity|]. auto. }
  rewrite C. clear C. 
  change (x :: (f0 :: fr) ++ [y]) with ([x] ++ f0 :: (fr ++ [y])). rewrite on_chain_app. cbn [app]. rewrite on_chain_cons.
  assert (E : on_chain false (f0 :: fr ++ [y]) z <-> on_chain false (f0 :: fr) z \/ on_segment (last (f0 :: fr) f0) y z).
  { destruct (exists_last (l := f0 :: fr)) as (l'&w&Ez); [discriminate|]. change (f0 :: fr ++ [y]) with ((f0 :: fr) ++ [y]). rewrite Ez, last_last, <- app_assoc. cbn [app]. apply on_chain_snoc. }
  rewrite E. clear E.
  rewrite (@rising (last (b0 :: ba) b0) f0 x z) by (auto; lra).
  rewrite (on_segment_sym (last (f0 :: fr) f0) y), (on_segment_sym (last (f0 :: fr) f0) b0). rewrite on_segment_sym in Sy.
  rewrite (@rising b0 (last (f0 :: fr) f0) y z) by (auto; lra). pose proof (@on_chain_one f0 z) as O.
  assert (A1 : on_chain false (f0 :: fr) z -> 0 < sd z) by (intros (s&Hs&Hz); eapply pos_segs; eauto).
  assert (A2 : on_chain false (b0 :: ba) z -> sd z < 0) by (intros (s&Hs&Hz); eapply neg_segs; eauto).
  split.
  - intros [[[H1 H2]|H]|[H|[H1 H2]]]; try tauto. split; [tauto|]. apply A1 in H. lra.
  - intros [[H|[H|[H|H]]] Hz]; try tauto. apply A2 in H. lra.
Qed.
End Cut.
