(** * Slicing a mesh of doubles all of whose vertices are clear of the plane. *)
From Coq Require Import Reals ZArith List Bool Lra Lia Psatz.
From Flocq Require Import Core IEEE754.BinarySingleNaN.
From Verif Require Import Num B64 BLemmas Vec RVec NpList MVx MPlane MPolyline PPolyline MMesh SpecSlice SpecDouble PErr PFar PSliceF PGraph PMeshF.
Import ListNotations.
Local Open Scope R_scope.
Set Implicit Arguments.
Unset Strict Implicit.

Lemma traverse_mask A B (g : A -> res B) (h : B -> bool) (l : list A) : forall ys f, traverse g l = Ok ys -> In f (compress (map h ys) l) ->
  exists y, g f = Ok y /\ h y = true.
Proof.
  induction l as [|x l IH]; intros ys f T I; cbn [traverse] in T.
  - injection T as <-. destruct I.
  - destruct (g x) as [y|] eqn:E; [|discriminate]. cbn [bindr] in T. destruct (traverse g l) as [ys'|]; [|discriminate]. injection T as <-. cbn [map compress] in I.
    destruct (h y) eqn:Hy; [destruct I as [<-|I]; [eauto|]|]; eauto.
Qed.
Lemma traverse_total A B (g : A -> res B) l : (forall x, In x l -> exists y, g x = Ok y) -> exists ys, traverse g l = Ok ys.
Proof.
  induction l as [|x l IH]; intros H; [exists []; reflexivity|]. destruct (H x (or_introl eq_refl)) as (y & Ey). destruct IH as (ys & E); [intros z Hz; apply H; now right|].
  exists (y :: ys). cbn [traverse]. now rewrite Ey, E.
Qed.

Section Clear.
Context (M : R) (HM : scale_ok M) (p : plane b64) (Wr : within M (pl_r0 p)) (Wn : within 2 (pl_n p)).
Context (vs : list (V3 b64)) (fs : list (nat * nat * nat)) (WV : Forall (within M) vs) (CV : Forall (clear_of M p) vs).
Context (FR : forall a b c, In (a, b, c) fs -> (a < length vs /\ b < length vs /\ c < length vs)%nat).
Lemma sign_val x : In x vs -> (0 < Bval (signed_distance1 p x) /\ nsign (signed_distance1 p x) = nofZ 1) \/ (Bval (signed_distance1 p x) < 0 /\ nsign (signed_distance1 p x) = nofZ (-1)).
Proof.
  intros I. rewrite Forall_forall in WV, CV. destruct (sd_ap HM Wr Wn (WV _ I)) as (F & _). unfold nsign. rewrite !blt_spec by auto. change (Bval n0) with 0.
  destruct (clear_sigma HM Wr Wn (WV _ I) (CV _ I)) as [[H _]|[H _]].
  - left. split; [exact H|]. rewrite Rlt_bool_false, Rlt_bool_true by lra. reflexivity.
  - right. split; [exact H|]. now rewrite Rlt_bool_true by lra.
Qed.
Lemma sign_at i x : nth_error vs i = Some x -> getitem (map nsign (signed_distance p vs)) i = Ok (nsign (signed_distance1 p x)).
Proof. intros H. unfold getitem, signed_distance. now rewrite map_map, nth_error_map, H. Qed.
Lemma cut_ok : exists S, mesh_intersecting_faces p (mkmesh vs fs) = Ok S.
Proof.
  unfold mesh_intersecting_faces. cbn [m_v m_f]. destruct (@traverse_total _ _ (face_sign_sum (map nsign (signed_distance p vs))) fs) as (sums & ->); [|eexists; reflexivity].
  intros [[a b] c] I. destruct (FR I) as (La & Lb & Lc). apply nth_error_Some in La, Lb, Lc.
  destruct (nth_error vs a) as [A|] eqn:Ea; [|congruence]. destruct (nth_error vs b) as [B|] eqn:Eb; [|congruence]. destruct (nth_error vs c) as [C|] eqn:Ec; [|congruence].
  unfold face_sign_sum. rewrite (sign_at Ea), (sign_at Eb), (sign_at Ec). eexists; reflexivity.
Qed.
Definition opp (A B : V3 b64) : Prop := Bval (signed_distance1 p A) * Bval (signed_distance1 p B) < 0.
Lemma opp_sym A B : opp A B -> opp B A.
Proof. unfold opp. lra. Qed.
Lemma cut_straddles S a b c : mesh_intersecting_faces p (mkmesh vs fs) = Ok S -> In (a, b, c) S ->
  exists A B C, nth_error vs a = Some A /\ nth_error vs b = Some B /\ nth_error vs c = Some C /\
    ((opp A B /\ opp B C) \/ (opp B C /\ opp A C) \/ (opp A B /\ opp A C)).
Proof.
  unfold mesh_intersecting_faces. cbn [m_v m_f]. destruct (traverse (face_sign_sum (map nsign (signed_distance p vs))) fs) as [sums|] eqn:T; [|discriminate]. cbn [bindr]. intros [= <-] I.
  destruct (traverse_mask T I) as (y & Ey & Hy). unfold face_sign_sum in Ey.
  assert (G : forall i y, getitem (map nsign (signed_distance p vs)) i = Ok y -> exists x, nth_error vs i = Some x /\ y = nsign (signed_distance1 p x)).
  { intros i z H. unfold getitem, signed_distance in H. rewrite map_map, nth_error_map in H. destruct (nth_error vs i) as [x|]; [|discriminate]. injection H as <-. eauto. }
  destruct (getitem _ a) as [sa|] eqn:Ga; [|discriminate]. destruct (getitem _ b) as [sb|] eqn:Gb; [|discriminate]. destruct (getitem _ c) as [sc|] eqn:Gc; [|discriminate].
  destruct (G _ _ Ga) as (A & Ea & ->). destruct (G _ _ Gb) as (B & Eb & ->). destruct (G _ _ Gc) as (C & Ec & ->). exists A, B, C. split; [exact Ea|]. split; [exact Eb|]. split; [exact Ec|].
  cbn [bindr] in Ey. assert (Q : y = nadd (nadd (nsign (signed_distance1 p A)) (nsign (signed_distance1 p B))) (nsign (signed_distance1 p C))) by congruence. clear Ey. apply nth_error_In in Ea, Eb, Ec.
  destruct (sign_val Ea) as [[PA QA]|[PA QA]], (sign_val Eb) as [[PB QB]|[PB QB]], (sign_val Ec) as [[PC QC]|[PC QC]]; unfold opp;
    first [left; split; nra|right; left; split; nra|right; right; split; nra|exfalso; rewrite Q, QA, QB, QC in Hy; vm_compute in Hy; discriminate Hy].
Qed.
Lemma opp_meets u v A B : nth_error vs u = Some A -> nth_error vs v = Some B -> opp A B -> exists x, meets_at p vs u v x.
Proof.
  intros Eu Ev O. pose proof (nth_error_In _ _ Eu) as IA. pose proof (nth_error_In _ _ Ev) as IB. pose proof WV as WV'. pose proof CV as CV'. rewrite Forall_forall in WV', CV'.
  destruct (@crossing_found M HM p Wr Wn A B) as (x & Hx & _); auto. exists x, A, B. auto.
Qed.
Lemma all_found S f : mesh_intersecting_faces p (mkmesh vs fs) = Ok S -> In f S -> two_found p vs S f.
Proof.
  intros HS I. destruct f as [[a b] c]. destruct (cut_straddles HS I) as (A & B & C & Ea & Eb & Ec & H).
  assert (Fab : opp A B -> found p vs S a b) by (intros O; destruct (opp_meets Ea Eb O) as (x & Hx); exists (a, b, c), a, b, x; cbn; auto 10).
  assert (Fbc : opp B C -> found p vs S b c) by (intros O; destruct (opp_meets Eb Ec O) as (x & Hx); exists (a, b, c), b, c, x; cbn; auto 10).
  assert (Fac : opp A C -> found p vs S a c) by (intros O; apply opp_sym in O; destruct (opp_meets Ec Ea O) as (x & Hx); exists (a, b, c), c, a, x; cbn; auto 10).
  cbn [two_found]. tauto.
Qed.
Lemma meets_good u v x : meets_at p vs u v x -> exists A B, nth_error vs u = Some A /\ nth_error vs v = Some B /\ opp A B /\
  within M x /\ between3 (Rval3 A) (Rval3 B) (Rval3 x) /\ Rabs (exact_distance p x) <= 300 * (eps * M).
Proof.
  intros (A & B & Eu & Ev & H). exists A, B. split; [exact Eu|]. split; [exact Ev|].
  pose proof (nth_error_In _ _ Eu) as IA. pose proof (nth_error_In _ _ Ev) as IB. pose proof WV as WV'. pose proof CV as CV'. rewrite Forall_forall in WV', CV'.
  assert (O : opp A B).
  { unfold opp. destruct (Rtotal_order (Bval (signed_distance1 p A) * Bval (signed_distance1 p B)) 0) as [L|[Z|G]]; [exact L| |].
    - exfalso. destruct (sign_val IA) as [[P _]|[P _]], (sign_val IB) as [[Q _]|[Q _]]; nra.
    - exfalso. assert (X : line_segment_xsection p A B = None) by (apply (no_crossing HM Wr Wn); auto). congruence. }
  split; [exact O|]. destruct (@crossing_found M HM p Wr Wn A B) as (y & Hy & R); auto. assert (y = x) as -> by congruence. exact R.
Qed.
Lemma within_numeric x : within M x -> all3 (map3 nfinite x) = true.
Proof. intros W. destruct (within_fin W) as (F0 & F1 & F2). unfold all3, map3. cbn [c0 c1 c2]. change (nfinite (c0 x)) with (bfin (c0 x)). change (nfinite (c1 x)) with (bfin (c1 x)). change (nfinite (c2 x)) with (bfin (c2 x)). now rewrite F0, F1, F2. Qed.
Lemma veqb_val x y : within M x -> within M y -> veqb x y = true -> Rval3 x = Rval3 y.
Proof.
  intros Wx Wy H. destruct (within_fin Wx) as (F0 & F1 & F2). destruct (within_fin Wy) as (G0 & G1 & G2). unfold veqb, all3, zip3 in H. cbn [c0 c1 c2] in H.
  apply andb_prop in H. destruct H as [H H2]. apply andb_prop in H. destruct H as [H0 H1]. rewrite beq_spec in H0, H1, H2 by auto.
  unfold Rval3, map3. f_equal; [revert H0|revert H1|revert H2]; case Req_bool_spec; auto; discriminate.
Qed.
Lemma traverse_mask_conv A B (g : A -> res B) (h : B -> bool) (l : list A) : forall ys f y, traverse g l = Ok ys -> In f l -> g f = Ok y -> h y = true -> In f (compress (map h ys) l).
Proof.
  induction l as [|x l IH]; intros ys f y T I E Hy; [destruct I|]. cbn [traverse] in T. destruct (g x) as [z|] eqn:Ez; [|discriminate]. cbn [bindr] in T. destruct (traverse g l) as [ys'|]; [|discriminate]. injection T as <-. cbn [map compress].
  destruct I as [->|I]; [assert (z = y) by congruence; subst z; rewrite Hy; now left|]. destruct (h z); [right|]; eapply IH; eauto.
Qed.
Lemma straddles_cut S a b c A B C : mesh_intersecting_faces p (mkmesh vs fs) = Ok S -> In (a, b, c) fs -> nth_error vs a = Some A -> nth_error vs b = Some B -> nth_error vs c = Some C ->
  opp A B \/ opp B C \/ opp A C -> In (a, b, c) S.
Proof.
  unfold mesh_intersecting_faces. cbn [m_v m_f]. destruct (traverse (face_sign_sum (map nsign (signed_distance p vs))) fs) as [sums|] eqn:T; [|discriminate]. cbn [bindr]. intros [= <-] I Ea Eb Ec O.
  assert (Q : face_sign_sum (map nsign (signed_distance p vs)) (a, b, c) = Ok (nadd (nadd (nsign (signed_distance1 p A)) (nsign (signed_distance1 p B))) (nsign (signed_distance1 p C)))).
  { unfold face_sign_sum. now rewrite (sign_at Ea), (sign_at Eb), (sign_at Ec). }
  apply (traverse_mask_conv T I Q). apply nth_error_In in Ea, Eb, Ec. unfold opp in O.
  destruct (sign_val Ea) as [[PA QA]|[PA QA]], (sign_val Eb) as [[PB QB]|[PB QB]], (sign_val Ec) as [[PC QC]|[PC QC]]; rewrite QA, QB, QC; try (vm_compute; reflexivity); exfalso; destruct O as [O|[O|O]]; nra.
Qed.
Definition good_vertex (S : list face) (x : V3 b64) : Prop := exists f u v A B, In f S /\ In (u, v) (sides f) /\ nth_error vs u = Some A /\ nth_error vs v = Some B /\ opp A B /\
    within M x /\ between3 (Rval3 A) (Rval3 B) (Rval3 x) /\ Rabs (exact_distance p x) <= 300 * (eps * M).
Lemma met_opp u v ws : met_on p vs u v ws -> exists A B, nth_error vs u = Some A /\ nth_error vs v = Some B /\ opp A B.
Proof. intros (x & [Mt|Mt] & _); destruct (meets_good Mt) as (A & B & E1 & E2 & O & _); [exists A, B; auto|exists B, A; auto using opp_sym]. Qed.
Theorem clear_sections sch : fair sch -> exists S comps, mesh_intersecting_faces p (mkmesh vs fs) = Ok S /\ incl S fs /\
  (forall fuel, (2 * length fs + 2 <= fuel)%nat -> mesh_xsections sch fuel p (mkmesh vs fs) None = Some (Ok (map (fun c => poly (snd c) (fst c)) comps))) /\
  Forall (fun c => fst c <> [] /\ forall x, In x (fst c) -> good_vertex S x) comps /\
  (forall f, In f fs -> (exists u v A B, In (u, v) (sides f) /\ nth_error vs u = Some A /\ nth_error vs v = Some B /\ opp A B) ->
    exists c, In c comps /\ forall u v A B, In (u, v) (sides f) -> nth_error vs u = Some A -> nth_error vs v = Some B -> opp A B ->
      exists x y, (meets_at p vs u v x \/ meets_at p vs v u x) /\ In y (fst c) /\ Rval3 y = Rval3 x).
Proof.
  intros Fr. destruct cut_ok as (S & HS). destruct (slice_returns HS (pl_r0 p) (fun f => all_found HS (f := f)) Fr) as (comps & R & G & Cp).
  exists S, comps. split; [exact HS|]. split; [apply (faces_range HS)|].
  assert (G' : Forall (fun c => fst c <> [] /\ forall x, In x (fst c) -> good_vertex S x) comps).
  { refine (Forall_impl _ _ G). intros c [NE H]. split; [exact NE|]. intros x I. destruct (H x I) as (f & u & v & If & Iuv & Mt). destruct (meets_good Mt) as (A & B & Q). exists f, u, v, A, B. tauto. }
  split; [|split; [exact G'|]].
  - intros fuel L. unfold mesh_xsections. rewrite (R fuel L). f_equal.
    clear R G Cp. induction G' as [|[ws cl] comps [NE H] G' IH]; [reflexivity|]. cbn [traverse map fst snd] in *. rewrite init_points_some.
    + replace (cl && Nat.eqb (length ws) 0) with false by (destruct ws; [congruence|]; now rewrite andb_false_r). cbn [bindr]. now rewrite IH.
    + unfold numeric. apply forallb_forall. intros x I. destruct (H x I) as (f & u & v & A & B & _ & _ & _ & _ & _ & W & _). now apply within_numeric.
  - intros [[a b] c] If (u0 & v0 & A0 & B0 & Is & E1 & E2 & O). destruct (FR If) as (La & Lb & Lc). apply nth_error_Some in La, Lb, Lc.
    destruct (nth_error vs a) as [A|] eqn:Ea; [|congruence]. destruct (nth_error vs b) as [B|] eqn:Eb; [|congruence]. destruct (nth_error vs c) as [C|] eqn:Ec; [|congruence]. clear La Lb Lc.
    assert (IS : In (a, b, c) S).
    { apply (straddles_cut HS If Ea Eb Ec). cbn [sides In] in Is. destruct Is as [Q|[Q|[Q|[]]]]; injection Q as <- <-; [left|right; left|right; right; apply opp_sym]; congruence. }
    destruct (Cp _ IS) as (cc & k1 & k2 & u1 & v1 & u2 & v2 & Icc & Nk & N1 & N2 & M1 & M2). exists cc. split; [exact Icc|]. intros u v A' B' Iuv Eu Ev Op.
    assert (Mt : met_on p vs u v (fst cc)).
    { destruct (met_opp M1) as (P1 & Q1 & Eu1 & Ev1 & O1). destruct (met_opp M2) as (P2 & Q2 & Eu2 & Ev2 & O2).
      apply In_nth_error in Iuv. destruct Iuv as (k & Nuv). 
      destruct (Nat.eq_dec k k1) as [->|D1]; [rewrite N1 in Nuv; injection Nuv as <- <-; exact M1|]. destruct (Nat.eq_dec k k2) as [->|D2]; [rewrite N2 in Nuv; injection Nuv as <- <-; exact M2|].
      exfalso. destruct k as [|[|[|k]]], k1 as [|[|[|k1]]], k2 as [|[|[|k2]]]; try lia; try (destruct k; discriminate Nuv); try (destruct k1; discriminate N1); try (destruct k2; discriminate N2);
        cbn [sides nth_error] in Nuv, N1, N2; injection Nuv as <- <-; injection N1 as <- <-; injection N2 as <- <-; rewrite ?Ea, ?Eb, ?Ec in *;
        repeat match goal with H : Some _ = Some _ |- _ => injection H as H end; subst; unfold opp in *; nra. }
    destruct Mt as (x & Mt & [I|(y & Iy & V)]); [exists x, x; auto|]. exists x, y. split; [exact Mt|]. split; [exact Iy|]. symmetry. apply veqb_val; [| |exact V].
    + destruct Mt as [Mt|Mt]; destruct (meets_good Mt) as (? & ? & _ & _ & _ & W & _); exact W.
    + rewrite Forall_forall in G'. destruct (proj2 (G' cc Icc) y Iy) as (? & ? & ? & ? & ? & _ & _ & _ & _ & _ & W & _). exact W.
Qed.
End Clear.
