(** * Graphs of degree at most two; the edge map. *)
From Coq Require Import List Arith Bool Lia Permutation.
From Verif Require Import Num Vec NpList MMesh SpecGraph PGraph PGraph2 PGraph3.
Import ListNotations.
Set Implicit Arguments.
Unset Strict Implicit.

Lemma odd_le2 k : k <= 2 -> Nat.odd k = true -> k = 1.
Proof. destruct k as [|[|[|k]]]; cbn; try discriminate; lia. Qed.
Lemma dg_cons e E x : dg (e :: E) x = (if incident x e then 1 else 0) + dg E x.
Proof. unfold dg. cbn [filter]. now destruct (incident x e). Qed.
Lemma degree_two n : forall E, length E <= n -> flat E -> loop_free E -> (forall x, dg E x <= 2) ->
  forall a b c, Nat.odd (dg E a) = true -> Nat.odd (dg E b) = true -> Nat.odd (dg E c) = true -> connected E a b -> connected E a c -> a = b \/ a = c \/ b = c.
Proof.
  induction n as [|n IH]; intros E L F LF D a b c Oa Ob Oc Cb Cc.
  - destruct E; [discriminate Oa|cbn in L; lia].
  - assert (Na : dg E a <> 0) by (intros H; rewrite H in Oa; discriminate). destruct (dg_pos F Na) as (a' & Ia). destruct (perm_remove (proj1 F) Ia) as (E' & P).
    pose proof (flat_perm F P) as F'. assert (La : a <> a').
    { intros <-. apply (LF a). unfold ue, unordered in Ia. cbn [fst snd] in Ia. now rewrite Nat.min_id, Nat.max_id in Ia. }
    assert (DD : forall x, dg E x = (if Nat.eqb a x || Nat.eqb a' x then 1 else 0) + dg E' x) by (intros x; rewrite (dg_perm x P), dg_cons, incident_ue; reflexivity).
    pose proof (odd_le2 (D a) Oa) as A1. rewrite DD, Nat.eqb_refl in A1. cbn [orb] in A1.
    assert (Ea : forall u, ~ In (ue a u) E').
    { intros u I. assert (dg E' a <> 0); [|lia]. unfold dg. destruct (filter (incident a) E') eqn:Q; [|discriminate]. assert (Iu : In (ue a u) (filter (incident a) E')) by (apply filter_In; rewrite incident_ue, Nat.eqb_refl; auto). rewrite Q in Iu. destruct Iu. }
    assert (Cl : forall z, connected E a z -> z = a \/ connected E' a' z).
    { intros z C. induction C as [|y z _ IHC J]; [auto|]. apply (flat_joined _ _ F) in J. apply (Permutation_in _ P) in J. destruct J as [J|J].
      - apply ue_inj in J. destruct J as [[-> ->]|[-> ->]]; [right; constructor|auto].
      - destruct IHC as [->|C']; [exfalso; exact (Ea _ J)|]. right. apply connected_step with y; [auto|]. now apply flat_joined. }
    destruct (Nat.eq_dec (dg E' a') 0) as [Z|NZ].
    + assert (T : forall z, connected E' a' z -> z = a').
      { intros z C. induction C as [|y z _ IHC J]; [auto|]. subst y. apply (flat_joined _ _ F') in J. exfalso. revert Z. unfold dg. destruct (filter (incident a') E') eqn:Q; [|discriminate]. intros _.
        assert (Iu : In (ue a' z) (filter (incident a') E')) by (apply filter_In; rewrite incident_ue, Nat.eqb_refl; auto). rewrite Q in Iu. destruct Iu. }
      destruct (Cl b Cb) as [->|Hb]; [auto|]. destruct (Cl c Cc) as [->|Hc]; [auto|]. rewrite (T b Hb), (T c Hc). auto.
    + destruct (Cl b Cb) as [->|Hb]; [auto|]. destruct (Cl c Cc) as [->|Hc]; [auto|].
      destruct (Nat.eq_dec b a) as [->|Nb]; [auto|]. destruct (Nat.eq_dec c a) as [->|Nc]; [auto|].
      pose proof (D a') as D'. assert (Q' : dg E a' = 1 + dg E' a') by (rewrite DD, Nat.eqb_refl, orb_true_r; reflexivity).
      assert (W : forall z, z <> a -> Nat.odd (dg E z) = true -> z <> a' /\ Nat.odd (dg E' z) = true).
      { intros z Nz Oz. assert (z <> a'). { intros ->. apply odd_le2 in Oz; [|auto]. lia. } split; [auto|]. rewrite DD in Oz. destruct (Nat.eqb_spec a z); [congruence|]. destruct (Nat.eqb_spec a' z); [congruence|]. exact Oz. }
      destruct (W b Nb Ob) as [Nb' Ob']. destruct (W c Nc Oc) as [Nc' Oc'].
      destruct (IH E') with (a := a') (b := b) (c := c) as [H|[H|H]]; auto; try congruence.
      * apply Permutation_length in P. cbn in P. lia.
      * intros u I. apply (LF u), (Permutation_in _ (Permutation_sym P)). now right.
      * intros x. pose proof (D x). pose proof (DD x). lia.
      * replace (dg E' a') with 1 by lia. reflexivity.
Qed.
Lemma degree_two_odd es : loop_free es -> (forall x, degree es x <= 2) -> at_most_two_odd es.
Proof.
  intros LF D a b c Oa Ob Oc Cb Cc. assert (G : forall x, degree es x = dg (distinct es) x) by (intros x; rewrite <- degree_distinct; apply flat_degree, distinct_flat).
  rewrite G in Oa, Ob, Oc. apply connected_distinct in Cb, Cc.
  apply (@degree_two (length (distinct es)) (distinct es)); auto.
  - apply distinct_flat.
  - now apply loops_distinct.
Qed.

(** ** the edge map: positions in a list of distinct unordered edges *)
Fixpoint index_of (e : nat * nat) (K : edges) : option nat :=
  match K with [] => None | f :: K => if pair_dec f e then Some 0 else option_map S (index_of e K) end.
Lemma index_some e K i : index_of e K = Some i -> nth_error K i = Some e.
Proof.
  revert i. induction K as [|f K IH]; intros i; cbn [index_of]; [discriminate|]. destruct (pair_dec f e) as [->|N]; [intros [= <-]; reflexivity|].
  destruct (index_of e K) as [j|] eqn:Q; [|discriminate]. intros [= <-]. cbn. auto.
Qed.
Lemma index_none e K : index_of e K = None <-> ~ In e K.
Proof.
  induction K as [|f K IH]; cbn [index_of In]; [tauto|]. destruct (pair_dec f e) as [->|N]; [split; [discriminate|tauto]|].
  destruct (index_of e K) as [j|]; cbn [option_map]; split; try discriminate; intros H; try tauto.
  exfalso. apply H. right. destruct (in_dec pair_dec e K) as [I|I]; [auto|]. destruct IH as [_ IH]. specialize (IH I). discriminate.
Qed.
Lemma index_app e K f : index_of e (K ++ [f]) = match index_of e K with Some i => Some i | None => if pair_dec f e then Some (length K) else None end.
Proof.
  induction K as [|g K IH]; cbn [app index_of length]; [destruct (pair_dec f e); reflexivity|]. destruct (pair_dec g e); [reflexivity|]. rewrite IH. destruct (index_of e K); [reflexivity|]. destruct (pair_dec f e); reflexivity.
Qed.
Lemma index_lt e K i : index_of e K = Some i -> i < length K.
Proof. intros H. apply index_some in H. apply nth_error_Some. congruence. Qed.
Section Em.
Context {F : Type} {N : Num F}.
Lemma em_order_ue u v : em_order u v = ue u v.
Proof. unfold em_order, ue, unordered. cbn [fst snd]. destruct (Nat.ltb_spec u v); f_equal; lia. Qed.
Definition look (m : @edge_map F) (e : nat * nat) : option nat :=
  match dget (em_d m) (fst e) with Some dl => dget dl (snd e) | None => None end.
Lemma em_index_look (m : @edge_map F) u v : em_index m u v = look m (ue u v).
Proof. unfold em_index, look. rewrite em_order_ue. now destruct (ue u v). Qed.
Lemma em_contains_look (m : @edge_map F) u v : em_contains m u v = match look m (ue u v) with Some _ => true | None => false end.
Proof. unfold em_contains, look. rewrite em_order_ue. destruct (ue u v) as [a b]. cbn [fst snd]. now destruct (dget (em_d m) a). Qed.
Lemma em_add_look (m : @edge_map F) u v x e : look (em_add m u v x) e = if pair_dec (ue u v) e then Some (length (em_values m)) else look m e.
Proof.
  unfold em_add. rewrite em_order_ue. destruct (ue u v) as [a b]. destruct e as [c d]. unfold look. cbn [em_d fst snd]. rewrite app_length. cbn [length]. replace (length (em_values m) + 1 - 1) with (length (em_values m)) by lia.
  set (dd := match dget (em_d m) a with Some _ => em_d m | None => dset (em_d m) a [] end).
  assert (G : forall k, match dget dd k with Some dl => dl | None => [] end = match dget (em_d m) k with Some dl => dl | None => [] end).
  { intros k. unfold dd. destruct (dget (em_d m) a) eqn:Q; [reflexivity|]. rewrite dget_dset. destruct (Nat.eqb_spec a k) as [->|]; [now rewrite Q|reflexivity]. }
  rewrite dget_dset. destruct (Nat.eqb_spec a c) as [->|Na].
  - rewrite dget_dset, G. destruct (Nat.eqb_spec b d) as [->|Nb]; destruct (pair_dec _ _) as [E|E]; try congruence. destruct (dget (em_d m) c); reflexivity.
  - destruct (pair_dec _ _) as [E|E]; [congruence|]. assert (G' : dget dd c = dget (em_d m) c). { unfold dd. destruct (dget (em_d m) a); [reflexivity|]. rewrite dget_dset. destruct (Nat.eqb_spec a c); [congruence|reflexivity]. } now rewrite G'.
Qed.
Lemma em_add_values (m : @edge_map F) u v x : em_values (em_add m u v x) = em_values m ++ [x].
Proof. unfold em_add. now destruct (em_order u v). Qed.
(** the map after filling: the distinct edges in order of first appearance *)
Definition rep (f : nat * nat -> V3 F) (m : edge_map) (K : edges) : Prop :=
  em_values m = map f K /\ (forall e, look m e = index_of e K) /\ NoDup K.
Lemma em_fill_rep (f : nat * nat -> V3 F) es : forall m K, rep f m K ->
  exists K', rep f (em_fill m (map (fun e => (f (unordered e), e)) es)) K' /\ forall e, In e K' <-> In e K \/ In e (map unordered es).
Proof.
  induction es as [|[u v] es IH]; intros m K R.
  - exists K. cbn. tauto.
  - cbn [map em_fill]. fold (ue u v). destruct R as (V & L & ND). rewrite em_contains_look, L. destruct (index_of (ue u v) K) as [i|] eqn:Q.
    + destruct (IH m K) as (K' & R' & S); [repeat split; auto|]. exists K'. split; [exact R'|]. intros e. rewrite S. cbn [In]. apply index_some, nth_error_In in Q. split; [tauto|]. intros [|[<-|]]; auto.
    + destruct (IH (em_add m u v (f (ue u v))) (K ++ [ue u v])) as (K' & R' & S).
      * repeat split.
        -- now rewrite em_add_values, V, map_app.
        -- intros e. rewrite em_add_look, index_app, L, V, map_length. destruct (index_of e K) as [i|] eqn:Qe; [|reflexivity]. destruct (pair_dec (ue u v) e) as [<-|]; [congruence|reflexivity].
        -- apply (Permutation_NoDup (Permutation_app_comm [ue u v] K)). constructor; [now apply index_none|auto].
      * exists K'. split; [exact R'|]. intros e. rewrite S, in_app_iff. cbn [In]. tauto.
Qed.
Lemma rep_nil (f : nat * nat -> V3 F) : rep f (mkem [] []) [].
Proof. repeat split. constructor. Qed.
End Em.
