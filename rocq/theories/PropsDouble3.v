(** * Properties C124-C126: where polylines of doubles meet planes. *)
From Coq Require Import Reals ZArith List Bool Lra Lia Psatz Sorted.
From Flocq Require Import Core IEEE754.BinarySingleNaN.
From Verif Require Import Num B64 BLemmas Vec RVec SpecGeom SpecPoly VLemmas NpList MVx MPlane MSegment MPolyline PPlane PPolyline PPolyline2 PPolyline3 SpecDouble PErr PNormB PSliceF PNormD PPlaneD PCutG PCutC PCutD PropsDouble.
Import ListNotations.
Local Open Scope R_scope.

(** ** Vocabulary *)
(** [x] is, up to rounding, a point of the edge from [a] to [b] *)
Definition near_segment (e : R) (a b x : V3 b64) : Prop := exists t, 0 <= t <= 1 /\ close3 e x (lerp t (Rval3 a) (Rval3 b)).
Definition is_nan (x : b64) : Prop := neqb x x = false.

(** ** C124 *)
Lemma zero_row pl a b : bfin (signed_distance1 pl a) = true -> bfin (signed_distance1 pl b) = true -> Bval (signed_distance1 pl a) = 0 -> Bval (signed_distance1 pl b) = 0 ->
  is_nan (c0 (grow pl (a, b))) /\ is_nan (c1 (grow pl (a, b))) /\ is_nan (c2 (grow pl (a, b))).
Proof.
  assert (Z : forall s : b64, bfin s = true -> Bval s = 0 -> nabs s = n0).
  { intros [s|s| |s m e B] F V; try discriminate; [reflexivity|]. exfalso. revert V. change (F2R (Float radix2 (cond_Zopp s (Zpos m)) e) <> 0). intros V. apply eq_0_F2R in V. destruct s; discriminate. }
  intros Fa Fb Va Vb. unfold grow. cbn [fst snd]. rewrite (Z _ Fa Va), (Z _ Fb Vb).
  assert (W : nsub (nofZ 1) (ndiv n0 (nadd n0 n0)) = B754_nan :> b64) by reflexivity. rewrite W. unfold vadd, vscale, zip3, map3, is_nan. cbn [c0 c1 c2].
  assert (K : forall x y : b64, neqb (nadd (nmul B754_nan x) (nmul B754_nan y)) (nadd (nmul B754_nan x) (nmul B754_nan y)) = false) by (intros; reflexivity). rewrite !K. auto.
Qed.
Theorem C124_intersect_plane : forall M r n pl c vs P, plane_of M r n pl -> Forall (within M) vs -> init_points (Some vs) c = Ok P ->
  let d := plane_distance r n in let e := u * M in
  exists xs idx, intersect_plane P pl = Ok (xs, idx) /\ StronglySorted lt idx /\
    (forall i a b, nth_error (segs c vs) i = Some (a, b) ->
      (130 * e < d a /\ d b < - (130 * e) \/ d a < - (130 * e) /\ 130 * e < d b -> In i idx) /\
      (130 * e < d a /\ 130 * e < d b \/ d a < - (130 * e) /\ d b < - (130 * e) -> ~ In i idx)) /\
    Forall2 (fun i x => exists a b, nth_error (segs c vs) i = Some (a, b) /\
      (near_segment (16 * e) a b x /\ Rabs (d x) <= 162 * e \/
       sign pl [a; b] = [n0; n0] /\ Rabs (d a) <= 130 * e /\ Rabs (d b) <= 130 * e /\ is_nan (c0 x) /\ is_nan (c1 x) /\ is_nan (c2 x))) idx xs.
Proof.
  intros M r n pl c vs P (HM & Wr & Fn & Un & HP) WV HI d e. change u with eps in e. rewrite Forall_forall in WV.
  assert (Num : numeric vs = true).
  { unfold numeric. apply forallb_forall. intros v I. exact (Logic.proj1 (WV v I)). }
  assert (EP : P = poly c vs) by (rewrite (init_points_some c Num) in HI; destruct (c && Nat.eqb (length vs) 0); [discriminate|now injection HI]).
  subst P. exists (map (grow pl) (filter (gcross pl) (segs c vs))), (flatnonzero 0 (map (gcross pl) (segs c vs))). split; [apply g_intersect|]. split; [apply flatnonzero_sorted|].
  assert (WS : forall a b, In (a, b) (segs c vs) -> within M a /\ within M b) by (intros a b I; apply segs_in in I as [Ia Ib]; auto). split.
  - intros i a b E. destruct (WS a b (nth_error_In _ _ E)) as [Wa Wb]. pose proof (gcross_spec HM Wr Fn Un HP Wa Wb) as G.
    destruct (plane_dist HM Wr Fn Un HP Wa) as [_ Ea]. destruct (plane_dist HM Wr Fn Un HP Wb) as [_ Eb]. fold d in Ea, Eb. fold e in Ea, Eb. apply abs_le in Ea, Eb.
    assert (II : In i (flatnonzero 0 (map (gcross pl) (segs c vs))) <-> gcross pl (a, b) = true).
    { rewrite flatnonzero_in, Nat.sub_0_r, nth_error_map, E. cbn [option_map]. split; [intros [_ H]; now injection H|intros ->; split; [lia|reflexivity]]. }
    rewrite II, G. split; [intros [H|H]; nra|]. intros [H|H] K; nra.
  - pose proof (flatnonzero_filter (gcross pl) (segs c vs) []) as FF. cbn [app length] in FF.
    assert (GA : forall s, In s (filter (gcross pl) (segs c vs)) -> In s (segs c vs) /\ gcross pl s = true) by (intros s I; now apply filter_In in I).
    induction FF as [|i [a b] is ss E _ IH]; constructor; [|apply IH; intros s I; apply GA; now right].
    exists a, b. split; [exact E|]. destruct (GA (a, b)) as [I G]; [now left|]. destruct (WS a b I) as [Wa Wb]. apply (gcross_spec HM Wr Fn Un HP Wa Wb) in G.
    destruct (plane_dist HM Wr Fn Un HP Wa) as [Fa Ea]. destruct (plane_dist HM Wr Fn Un HP Wb) as [Fb Eb]. fold d in Ea, Eb. fold e in Ea, Eb.
    assert (NZ : (Bval (signed_distance1 pl a) = 0 /\ Bval (signed_distance1 pl b) = 0) \/ (Bval (signed_distance1 pl a) <> 0 \/ Bval (signed_distance1 pl b) <> 0)).
    { destruct (Req_dec (Bval (signed_distance1 pl a)) 0); destruct (Req_dec (Bval (signed_distance1 pl b)) 0); auto. }
    destruct NZ as [[Za Zb]|NZ].
    + right. unfold sign, signed_distance. cbn [map]. rewrite (sign_zero Fa Za), (sign_zero Fb Zb). rewrite Za in Ea. rewrite Zb in Eb. unfold Rminus in Ea, Eb. rewrite Rplus_0_l, Rabs_Ropp in Ea, Eb.
      split; [reflexivity|]. split; [exact Ea|]. split; [exact Eb|]. now apply zero_row.
    + left. destruct (grow_ap HM Wr Fn Un HP Wa Wb G NZ) as (t & Ht & Ct & Dt). split; [exists t; auto|exact Dt].
Qed.
Print Assumptions C124_intersect_plane.

(** ** C125 *)
(** no vertex is closer to the exact plane than [2^-39] of the bound on coordinates *)
Definition clear_vertices (M : R) (r n : V3 b64) (vs : list (V3 b64)) : Prop := Forall (fun v => within M v /\ bpow radix2 (-39) * M <= Rabs (plane_distance r n v)) vs.
Lemma clear_far M r n vs : clear_vertices M r n vs -> Forall (far M r n) vs.
Proof.
  assert (E39 : bpow radix2 (-39) = 8192 * eps) by (change 8192 with (bpow radix2 13); unfold eps; rewrite <- bpow_plus; reflexivity).
  apply Forall_impl. intros v [W D]. split; [exact W|]. rewrite E39 in D. rewrite <- Rmult_assoc. exact D.
Qed.
Theorem C125_cut_open : forall M r n pl vs P, plane_of M r n pl -> clear_vertices M r n vs -> init_points (Some vs) false = Ok P ->
  let d := plane_distance r n in let e := u * M in
  crossings (Rval3 r) (Rval3 n) false (map Rval3 vs) = 1%nat ->
  exists ws Q, cut_by_plane P pl = Ok Q /\ init_points (Some ws) false = Ok Q /\
    exists l1 a b l2 x, vs = l1 ++ a :: b :: l2 /\ near_segment (16 * e) a b x /\ Rabs (d x) <= 162 * e /\
      (Forall (fun v => d v < 0) (l1 ++ [a]) /\ Forall (fun v => 0 < d v) (b :: l2) /\ ws = x :: b :: l2 \/
       Forall (fun v => 0 < d v) (l1 ++ [a]) /\ Forall (fun v => d v < 0) (b :: l2) /\ ws = l1 ++ [a; x]).
Proof.
  intros M r n pl vs P (HM & Wr & Fn & Un & HP) CV HI d e C. change u with eps in e. apply clear_far in CV. pose proof (far_numeric CV) as Num. rewrite (init_points_open Num) in HI. injection HI as <-.
  rewrite (far_crossings HM Wr Fn Un HP false CV) in C. destruct (cut_open_far HM Wr Fn Un HP CV C) as (l1 & a & b & l2 & x & E & _ & Fx & (t & Ht & Ct & Dt) & K).
  assert (NW : forall l, incl l (x :: vs) -> init_points (Some l) false = Ok (poly false l)).
  { intros l I. apply init_points_open. apply (numeric_incl (m := [x] ++ vs)); [exact I|]. rewrite numeric_app, (fin_numeric Fx), Num. reflexivity. }
  destruct K as [(K1 & K2 & Cut)|(K1 & K2 & Cut)].
  - exists (x :: b :: l2), (poly false (x :: b :: l2)). split; [exact Cut|]. split; [apply NW; rewrite E; intros v [<-|I]; [now left|]; right; apply in_app_iff; right; now right|].
    exists l1, a, b, l2, x. split; [exact E|]. split; [exists t; auto|]. split; [exact Dt|]. left. auto.
  - exists (l1 ++ [a; x]), (poly false (l1 ++ [a; x])). split; [exact Cut|]. split; [apply NW; rewrite E; intros v I; apply in_app_iff in I as [I|[<-|[<-|[]]]]; [right; apply in_app_iff; now left|right; apply in_app_iff; right; now left|now left]|].
    exists l1, a, b, l2, x. split; [exact E|]. split; [exists t; auto|]. split; [exact Dt|]. right. auto.
Qed.
Print Assumptions C125_cut_open.
Theorem C125_cut_closed : forall M r n pl vs P, plane_of M r n pl -> clear_vertices M r n vs -> init_points (Some vs) true = Ok P ->
  let d := plane_distance r n in let meets_edge a b x := within M x /\ between3 (Rval3 a) (Rval3 b) (Rval3 x) /\ Rabs (d x) <= bpow radix2 (-42) * M in
  crossings (Rval3 r) (Rval3 n) true (map Rval3 vs) = 2%nat ->
  exists fr ba x y Q, cut_by_plane P pl = Ok Q /\ init_points (Some (x :: fr ++ [y])) false = Ok Q /\
    (exists l1 l2, vs = l1 ++ l2 /\ l2 ++ l1 = fr ++ ba) /\ fr <> [] /\ ba <> [] /\
    Forall (fun v => 0 < d v) fr /\ Forall (fun v => d v < 0) ba /\
    meets_edge (last ba (int3 0 0 0)) (hd (int3 0 0 0) fr) x /\ meets_edge (last fr (int3 0 0 0)) (hd (int3 0 0 0) ba) y.
Proof.
  intros M r n pl vs P (HM & Wr & Fn & Un & HP) CV HI d me C. apply clear_far in CV. pose proof (far_numeric CV) as Num.
  assert (EP : P = poly true vs) by (rewrite (init_points_some true Num) in HI; destruct (true && Nat.eqb (length vs) 0); [discriminate|now injection HI]). subst P.
  rewrite (far_crossings HM Wr Fn Un HP true CV) in C. destruct (cut_closed_far HM Wr Fn Un HP CV C) as (l1 & l2 & f0 & fr & b0 & ba & x & y & E & Ew & H1 & H2 & Q1 & Q2 & Cut).
  assert (E42 : bpow radix2 (-42) * M = 1024 * (eps * M)) by (change 1024 with (bpow radix2 10); unfold eps; rewrite <- Rmult_assoc, <- bpow_plus; reflexivity).
  exists (f0 :: fr), (b0 :: ba), x, y, (poly false (x :: (f0 :: fr) ++ [y])). split; [exact Cut|]. split.
  { apply init_points_open. apply (numeric_incl (m := [x] ++ [y] ++ vs)); [|rewrite !numeric_app, (fin_numeric (Logic.proj1 (Logic.proj1 Q1))), (fin_numeric (Logic.proj1 (Logic.proj1 Q2))), Num; reflexivity].
    intros v [<-|I]; [now left|]. apply in_app_iff in I as [I|[<-|[]]]; [|right; now left]. right. right. cbn [app]. rewrite E. assert (J : In v (l2 ++ l1)) by (rewrite Ew; apply in_app_iff; now left). apply in_app_iff in J as [J|J]; apply in_app_iff; auto. }
  split; [exists l1, l2; auto|]. split; [discriminate|]. split; [discriminate|]. split; [exact H1|]. split; [exact H2|].
  assert (L : forall (a z : V3 b64) l, last (a :: l) z = last (a :: l) a).
  { intros a z l. destruct (exists_last (l := a :: l)) as (l'&w&->); [discriminate|]. now rewrite !last_last. }
  rewrite !(L _ (int3 0 0 0)). cbn [hd]. unfold me. rewrite E42. split; [exact Q1|exact Q2].
Qed.
Print Assumptions C125_cut_closed.
Theorem C125_rejects : forall M r n pl c vs P, plane_of M r n pl -> clear_vertices M r n vs -> init_points (Some vs) c = Ok P ->
  crossings (Rval3 r) (Rval3 n) c (map Rval3 vs) <> (if c then 2 else 1)%nat -> cut_by_plane P pl = Err ValueError.
Proof.
  intros M r n pl c vs P (HM & Wr & Fn & Un & HP) CV HI C. apply clear_far in CV. pose proof (far_numeric CV) as Num.
  assert (EP : P = poly c vs) by (rewrite (init_points_some c Num) in HI; destruct (c && Nat.eqb (length vs) 0); [discriminate|now injection HI]). subst P.
  rewrite (far_crossings HM Wr Fn Un HP c CV) in C. exact (cut_rejects HM Wr Fn Un HP CV C).
Qed.
Print Assumptions C125_rejects.

(** ** C126 *)
(** Without the margin: an open polyline that [sign] sees crossing the plane once, from back to
    front, is cut into its back part. *)
Lemma mk_pl (r n : V3 b64) : almost_zero n default_atol = false -> mk_plane r n = Ok (mkpl r (normalize1 n)).
Proof. intros H. unfold mk_plane. now rewrite H. Qed.
Lemma sign_list_check (l : list b64) (k : list bool) : length l = length k -> forallb (fun p : b64 * bool => if snd p then nlt n0 (fst p) && negb (nlt (fst p) n0) else nlt (fst p) n0 && negb (nlt n0 (fst p))) (combine l k) = true ->
  map nsign l = map (fun b : bool => if b then nofZ 1 else nofZ (-1)) k.
Proof.
  revert k. induction l as [|x l IH]; intros [|b k] L H; try discriminate; [reflexivity|]. cbn [combine forallb fst snd] in H. apply andb_prop in H as [H1 H2]. cbn [map]. rewrite (IH k); [|now injection L|exact H2]. f_equal.
  unfold nsign. destruct b; apply andb_prop in H1 as [A B]; apply negb_true_iff in B; now rewrite ?A, ?B.
Qed.
Theorem C126_open_refuted : exists r n pl vs P Q ws v s, mk_plane r n = Ok pl /\ init_points (Some vs) false = Ok P /\
  sign pl vs = [nofZ (-1); nofZ (-1); nofZ 1; nofZ 1] /\ cut_by_plane P pl = Ok Q /\ p_v Q = Some ws /\ In v ws /\ signed_distance pl [v] = [s] /\ nlt s (nofZ (-10)) = true.
Proof.
  set (r := tenths (-4) 14 (-14)). set (n := int3 1 1 1). set (v0 := int3 (-10) (-10) (-10)). set (vs := [v0; tenths (-7) (-16) 19; tenths (-23) 9 10; int3 10 10 10]).
  set (pl := mkpl r (normalize1 n)). exists r, n, pl, vs, (poly false vs).
  destruct (cut_by_plane (poly false vs) pl) as [Q|] eqn:E.
  2:{ exfalso. assert (B : (match cut_by_plane (poly false vs) pl with Ok _ => true | Err _ => false end) = true) by (vm_compute; reflexivity). rewrite E in B. discriminate. }
  destruct (p_v Q) as [ws|] eqn:EQ.
  2:{ exfalso. assert (B : (match cut_by_plane (poly false vs) pl with Ok Q => match p_v Q with Some _ => true | None => false end | Err _ => false end) = true) by (vm_compute; reflexivity). rewrite E, EQ in B. discriminate. }
  assert (B : existsb (fun v => nlt (signed_distance1 pl v) (nofZ (-10))) ws = true).
  { assert (B : (match cut_by_plane (poly false vs) pl with Ok Q => match p_v Q with Some ws => existsb (fun v => nlt (signed_distance1 pl v) (nofZ (-10))) ws | None => false end | Err _ => false end) = true) by (vm_compute; reflexivity). rewrite E, EQ in B. exact B. }
  apply existsb_exists in B. destruct B as (v & I & B). exists Q, ws, v, (signed_distance1 pl v).
  split; [apply mk_pl; vm_compute; reflexivity|]. split; [apply init_points_open; vm_compute; reflexivity|].
  split; [apply (sign_list_check _ [false; false; true; true]); vm_compute; reflexivity|]. auto 10.
Qed.
Print Assumptions C126_open_refuted.
(** A closed polyline loses the point where it comes to the front: the result starts at a vertex
    far from the plane. *)
Theorem C126_closed_refuted : exists r n pl vs P Q v ws s, mk_plane r n = Ok pl /\ init_points (Some vs) true = Ok P /\
  sign pl vs = [nofZ (-1); nofZ 1; nofZ (-1)] /\ cut_by_plane P pl = Ok Q /\ p_v Q = Some (v :: ws) /\ signed_distance pl [v] = [s] /\ nlt (nofZ 10) s = true.
Proof.
  set (r := tenths (-1) (-11) (-17)). set (n := int3 (-1) 1 (-1)). set (vs := [tenths 6 19 6; int3 (-10) 10 (-10); int3 10 (-10) 10]).
  set (pl := mkpl r (normalize1 n)). exists r, n, pl, vs, (poly true vs).
  destruct (cut_by_plane (poly true vs) pl) as [Q|] eqn:E.
  2:{ exfalso. assert (B : (match cut_by_plane (poly true vs) pl with Ok _ => true | Err _ => false end) = true) by (vm_compute; reflexivity). rewrite E in B. discriminate. }
  assert (B : (match p_v Q with Some (v :: _) => nlt (nofZ 10) (signed_distance1 pl v) | _ => false end) = true).
  { assert (B : (match cut_by_plane (poly true vs) pl with Ok Q => match p_v Q with Some (v :: _) => nlt (nofZ 10) (signed_distance1 pl v) | _ => false end | Err _ => false end) = true) by (vm_compute; reflexivity). rewrite E in B. exact B. }
  destruct (p_v Q) as [[|v ws]|] eqn:EQ; [discriminate B| |discriminate B]. exists Q, v, ws, (signed_distance1 pl v).
  split; [apply mk_pl; vm_compute; reflexivity|]. split; [rewrite init_points_some by (vm_compute; reflexivity); reflexivity|].
  split; [apply (sign_list_check _ [false; true; false]); vm_compute; reflexivity|]. auto 10.
Qed.
Print Assumptions C126_closed_refuted.

(** ** Polylines that meet the hypotheses *)
Definition chain3 : list (V3 b64) := [int3 0 0 0; int3 9 1 1; int3 9 9 9].
Lemma dist122 a b c : (-16 <= a <= 16)%Z -> (-16 <= b <= 16)%Z -> (-16 <= c <= 16)%Z -> plane_distance (int3 1 2 3) (int3 1 2 2) (int3 a b c) = (IZR a + 2 * IZR b + 2 * IZR c - 11) / 3.
Proof.
  intros A B C. destruct plane122 as [_ N]. destruct (@int3_val a b c) as [_ V]; try lia. destruct (@int3_val 1 2 3) as [_ V3]; try lia. destruct (@int3_val 1 2 2) as [_ V4]; try lia.
  unfold plane_distance, unit_of. rewrite N, V, V3, V4. unfold rdot, rsub, rscale. cbn [c0 c1 c2]. field.
Qed.
Lemma clear122 a b c : (-16 <= a <= 16)%Z -> (-16 <= b <= 16)%Z -> (-16 <= c <= 16)%Z -> (1 <= Z.abs (a + 2 * b + 2 * c - 11))%Z ->
  within 16 (int3 a b c) /\ bpow radix2 (-39) * 16 <= Rabs (plane_distance (int3 1 2 3) (int3 1 2 2) (int3 a b c)).
Proof.
  intros A B C D. split; [apply int3_val; lia|]. rewrite dist122 by auto. unfold Rdiv. rewrite Rabs_mult, (Rabs_pos_eq (/ 3)) by lra.
  replace (IZR a + 2 * IZR b + 2 * IZR c - 11) with (IZR (a + 2 * b + 2 * c - 11)) by (rewrite minus_IZR, !plus_IZR, !mult_IZR; reflexivity). rewrite <- abs_IZR. apply IZR_le in D.
  change (bpow radix2 (-39)) with (/ 549755813888). lra.
Qed.
Lemma clear_chain3 : clear_vertices 16 (int3 1 2 3) (int3 1 2 2) chain3.
Proof. unfold clear_vertices, chain3. apply Forall_cons; [apply clear122; lia|]. apply Forall_cons; [apply clear122; lia|]. apply Forall_cons; [apply clear122; lia|]. constructor. Qed.
Example C124_example : exists pl P, plane_of 16 (int3 1 2 3) (int3 1 2 2) pl /\ Forall (within 16) chain3 /\ init_points (Some chain3) true = Ok P /\
  nth_error (segs true chain3) 0 = Some (int3 0 0 0, int3 9 1 1) /\ plane_distance (int3 1 2 3) (int3 1 2 2) (int3 0 0 0) < - (130 * (u * 16)) /\ 130 * (u * 16) < plane_distance (int3 1 2 3) (int3 1 2 2) (int3 9 1 1).
Proof.
  destruct plane122 as [P _]. eexists. exists (poly true chain3). split; [exact P|]. split; [eapply Forall_impl; [|exact clear_chain3]; cbv beta; tauto|].
  split; [rewrite init_points_some by (vm_compute; reflexivity); reflexivity|]. split; [reflexivity|]. rewrite !dist122 by lia. change u with eps. rewrite eps_val. lra.
Qed.
Lemma crossings122 : crossings (Rval3 (int3 1 2 3)) (Rval3 (int3 1 2 2)) false (map Rval3 chain3) = 1%nat /\ crossings (Rval3 (int3 1 2 3)) (Rval3 (int3 1 2 2)) true (map Rval3 chain3) = 2%nat.
Proof.
  unfold crossings, segs, walk, chain3. cbn [map combine tl filter app firstn]. unfold meetsb. cbn [fst snd]. rewrite <- !dist_sdist, !dist122 by lia.
  repeat match goal with |- context [Rlt_dec ?a ?b] => destruct (Rlt_dec a b); try (exfalso; lra) end. split; reflexivity.
Qed.
Example C125_example : exists pl P Q, plane_of 16 (int3 1 2 3) (int3 1 2 2) pl /\ clear_vertices 16 (int3 1 2 3) (int3 1 2 2) chain3 /\ init_points (Some chain3) false = Ok P /\ init_points (Some chain3) true = Ok Q /\
  crossings (Rval3 (int3 1 2 3)) (Rval3 (int3 1 2 2)) false (map Rval3 chain3) = 1%nat /\ crossings (Rval3 (int3 1 2 3)) (Rval3 (int3 1 2 2)) true (map Rval3 chain3) = 2%nat.
Proof.
  destruct plane122 as [P _]. eexists. exists (poly false chain3), (poly true chain3). split; [exact P|]. split; [exact clear_chain3|].
  split; [apply init_points_open; vm_compute; reflexivity|]. split; [rewrite init_points_some by (vm_compute; reflexivity); reflexivity|]. exact crossings122.
Qed.
