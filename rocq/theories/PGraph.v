(** * Lemmas on the slicer's graph: dictionaries, edges, the walk. *)
From Coq Require Import List Arith Bool Lia Permutation.
From Verif Require Import Num NpList MMesh SpecGraph.
Import ListNotations.
Set Implicit Arguments.
Unset Strict Implicit.

(** ** dictionaries *)
Section D.
Context {A : Type}.
Lemma dget_dset (d : dict A) k x j : dget (dset d k x) j = if Nat.eqb k j then Some x else dget d j.
Proof.
  induction d as [|[i y] d IH]; cbn [dset dget]; [reflexivity|]. destruct (Nat.eqb_spec i k) as [->|H]; cbn [dget].
  - now destruct (Nat.eqb k j).
  - rewrite IH. destruct (Nat.eqb_spec i j) as [->|H']; [|reflexivity]. destruct (Nat.eqb_spec k j); [congruence|reflexivity].
Qed.
Lemma dget_ddel (d : dict A) k j : dget (ddel d k) j = if Nat.eqb k j then None else dget d j.
Proof.
  unfold ddel. induction d as [|[i y] d IH]; cbn [filter dget fst]; [now destruct (Nat.eqb k j)|]. destruct (Nat.eqb_spec i k) as [->|H]; cbn [negb dget].
  - rewrite IH. now destruct (Nat.eqb k j).
  - rewrite IH. destruct (Nat.eqb_spec i j) as [->|H']; [|reflexivity]. destruct (Nat.eqb_spec k j); [congruence|reflexivity].
Qed.
Lemma dget_keys (d : dict A) k : In k (map fst d) <-> dget d k <> None.
Proof.
  induction d as [|[i y] d IH]; cbn [map fst dget In]; [split; [tauto|congruence]|]. destruct (Nat.eqb_spec i k) as [->|H].
  - split; [discriminate|auto].
  - rewrite <- IH. split; [intros [E|E]; [congruence|auto]|auto].
Qed.
Lemma dset_keys (d : dict A) k x : NoDup (map fst d) -> NoDup (map fst (dset d k x)).
Proof.
  assert (E : forall j, In j (map fst (dset d k x)) -> j = k \/ In j (map fst d)).
  { intros j. rewrite !dget_keys, dget_dset. destruct (Nat.eqb_spec k j); auto. }
  induction d as [|[i y] d IH]; cbn [dset map fst]; intros H; [repeat constructor; auto|]. inversion H as [|? ? H1 H2]; subst.
  destruct (Nat.eqb_spec i k) as [->|Hk]; [exact H|]. cbn [map fst]. constructor.
  - intros I. clear E. assert (i = k \/ In i (map fst d)) as [|]; [|congruence|tauto]. revert I. rewrite !dget_keys, dget_dset. destruct (Nat.eqb_spec k i); auto.
  - apply IH; auto. intros j. rewrite !dget_keys, dget_dset. destruct (Nat.eqb_spec k j); auto.
Qed.
Lemma ddel_keys (d : dict A) k : NoDup (map fst d) -> NoDup (map fst (ddel d k)).
Proof.
  unfold ddel. induction d as [|[i y] d IH]; cbn [filter map fst]; intros H; [constructor|]. inversion H as [|? ? H1 H2]; subst.
  destruct (negb (Nat.eqb i k)); [|auto]. cbn [map fst]. constructor; [|auto]. intros I. apply H1. apply in_map_iff in I. destruct I as (z & <- & I). apply filter_In in I. now apply in_map.
Qed.
End D.
Lemma mem_In v s : mem v s = true <-> In v s.
Proof. unfold mem. rewrite existsb_exists. split; [intros (x & I & E); apply Nat.eqb_eq in E; now subst|intros I; exists v; split; [auto|apply Nat.eqb_refl]]. Qed.
Lemma In_srem v s w : In w (srem v s) <-> In w s /\ w <> v.
Proof. unfold srem. rewrite filter_In, negb_true_iff, Nat.eqb_neq. tauto. Qed.
Lemma In_sadd v s w : In w (sadd v s) <-> w = v \/ In w s.
Proof.
  unfold sadd. destruct (mem v s) eqn:M.
  - apply mem_In in M. split; [auto|intros [->|]; auto].
  - rewrite in_app_iff. cbn. split; [intros [|[|[]]]; auto|intros [|]; auto].
Qed.
Lemma NoDup_srem v s : NoDup s -> NoDup (srem v s).
Proof. apply NoDup_filter. Qed.
Lemma NoDup_sadd v s : NoDup s -> NoDup (sadd v s).
Proof.
  intros H. unfold sadd. destruct (mem v s) eqn:M; [auto|]. apply (Permutation_NoDup (Permutation_app_comm [v] s)). cbn. constructor; [|auto]. rewrite <- mem_In. congruence.
Qed.

(** ** the graph as a list of distinct unordered edges *)
Definition ue (u v : nat) : nat * nat := unordered (u, v).
Lemma ue_sym u v : ue u v = ue v u.
Proof. unfold ue, unordered. cbn [fst snd]. now rewrite Nat.min_comm, Nat.max_comm. Qed.
Lemma ue_inj a b c d : ue a b = ue c d <-> (a = c /\ b = d) \/ (a = d /\ b = c).
Proof.
  unfold ue, unordered. cbn [fst snd]. split.
  - intros E. injection E as E1 E2. lia.
  - intros [[-> ->]|[-> ->]]; [reflexivity|now rewrite Nat.min_comm, Nat.max_comm].
Qed.
Lemma ue_idem e : ue (fst (unordered e)) (snd (unordered e)) = unordered e.
Proof. unfold ue, unordered. cbn [fst snd]. f_equal; lia. Qed.
Definition nbr (d : adj) (u : nat) : list nat := match dget d u with Some s => s | None => [] end.
Record rel (d : adj) (E : list (nat * nat)) : Prop := {
  rel_keys : NoDup (map fst d);
  rel_full : forall u s, dget d u = Some s -> s <> [];
  rel_sets : forall u, NoDup (nbr d u);
  rel_nbr : forall u v, In v (nbr d u) <-> In (ue u v) E;
  rel_nodup : NoDup E;
  rel_unord : forall e, In e E -> unordered e = e }.
Lemma nbr_dset d k s x : nbr (dset d k s) x = if Nat.eqb k x then s else nbr d x.
Proof. unfold nbr. rewrite dget_dset. now destruct (Nat.eqb k x). Qed.
Lemma nbr_discard d u v x : nbr (discard d u v) x = if Nat.eqb u x then srem v (nbr d u) else nbr d x.
Proof.
  unfold discard. destruct (dget d u) as [s|] eqn:E.
  - destruct (mem v s) eqn:M.
    + rewrite nbr_dset. destruct (Nat.eqb_spec u x) as [->|]; [|reflexivity]. unfold nbr. now rewrite E.
    + destruct (Nat.eqb_spec u x) as [->|]; [|reflexivity]. unfold nbr. rewrite E. unfold srem. symmetry.
      assert (H : forall w, In w s -> negb (Nat.eqb w v) = true) by (intros w I; apply negb_true_iff, Nat.eqb_neq; intros ->; apply mem_In in I; congruence).
      clear M E. induction s as [|w s IH]; cbn [filter]; [reflexivity|]. rewrite H by (now left). f_equal. apply IH. intros y I. apply H. now right.
  - destruct (Nat.eqb_spec u x) as [->|]; [|reflexivity]. unfold nbr. now rewrite E.
Qed.
Lemma keys_discard d u v : NoDup (map fst d) -> NoDup (map fst (discard d u v)).
Proof. unfold discard. destruct (dget d u); [|auto]. destruct (mem v l); [apply dset_keys|auto]. Qed.
Lemma dget_discard d u v x s : x <> u -> dget (discard d u v) x = Some s -> dget d x = Some s.
Proof.
  intros N. unfold discard. destruct (dget d u); [|auto]. destruct (mem v l); [|auto]. rewrite dget_dset. destruct (Nat.eqb_spec u x); [congruence|auto].
Qed.
Lemma dget_drop d v x s : dget (drop_empty d v) x = Some s -> dget d x = Some s /\ (x = v -> s <> []).
Proof.
  unfold drop_empty. destruct (dget d v) as [[|w s']|] eqn:E.
  - rewrite dget_ddel. destruct (Nat.eqb_spec v x); [discriminate|]. intros H. split; [auto|congruence].
  - intros H. split; [auto|]. intros ->. rewrite E in H. injection H as <-. discriminate.
  - intros H. split; [auto|]. intros ->. congruence.
Qed.
Lemma nbr_drop d v x : nbr (drop_empty d v) x = nbr d x.
Proof.
  unfold drop_empty. destruct (dget d v) as [[|w s']|] eqn:E; try reflexivity. unfold nbr. rewrite dget_ddel. destruct (Nat.eqb_spec v x) as [->|]; [now rewrite E|reflexivity].
Qed.
Lemma keys_drop d v : NoDup (map fst d) -> NoDup (map fst (drop_empty d v)).
Proof. unfold drop_empty. destruct (dget d v) as [[|]|]; auto. apply ddel_keys. Qed.
Lemma perm_remove (E : list (nat * nat)) e : NoDup E -> In e E -> exists E', Permutation E (e :: E').
Proof. intros _ I. apply in_split in I. destruct I as (l1 & l2 & ->). exists (l1 ++ l2). symmetry. apply Permutation_middle. Qed.

(** one step of the walk removes exactly one edge *)
Lemma rel_pop d E v s u : rel d E -> dget d v = Some s -> In u s ->
  exists E', Permutation E (ue v u :: E') /\ rel (remove_edge (dset d v (srem u s)) u v) E'.
Proof.
  intros R Ev Iu. assert (Nv : nbr d v = s) by (unfold nbr; now rewrite Ev).
  assert (IE : In (ue v u) E) by (apply (rel_nbr R); now rewrite Nv). destruct (perm_remove (rel_nodup R) IE) as (E' & P). exists E'. split; [exact P|].
  assert (ND : NoDup (ue v u :: E')) by exact (Permutation_NoDup P (rel_nodup R)). inversion ND as [|? ? N1 N2]; subst.
  set (d1 := dset d v (srem u (nbr d v))).
  assert (B : forall x w, In w (nbr (remove_edge d1 u v) x) <-> In w (nbr d x) /\ ue x w <> ue v u).
  { intros x w. unfold remove_edge. rewrite !nbr_drop, nbr_discard, !nbr_discard. unfold d1. rewrite !nbr_dset. 
    rewrite ue_inj. destruct (Nat.eqb_spec v x) as [<-|Hx].
    - destruct (Nat.eqb_spec u v) as [->|Hu].
      + rewrite Nat.eqb_refl, !In_srem. tauto.
      + rewrite Nat.eqb_refl, !In_srem. split; [intros [[? ?] ?]|intros [? ?]]; intuition congruence.
    - destruct (Nat.eqb_spec u x) as [<-|Hu].
      + destruct (Nat.eqb_spec v u); [congruence|]. rewrite In_srem. split; [intros [? ?]|intros [? ?]]; intuition congruence.
      + intuition congruence. }
  assert (S : forall x, NoDup (nbr (remove_edge d1 u v) x)).
  { intros x. unfold remove_edge. rewrite !nbr_drop, nbr_discard, !nbr_discard. unfold d1. rewrite !nbr_dset. pose proof (rel_sets R).
    destruct (Nat.eqb v x), (Nat.eqb u v), (Nat.eqb u x), (Nat.eqb v u), (Nat.eqb v v); auto using NoDup_srem. }
  constructor.
  - unfold remove_edge. apply keys_drop, keys_drop, keys_discard, keys_discard. apply dset_keys, (rel_keys R).
  - intros x s' H. unfold remove_edge in H. apply dget_drop in H. destruct H as [H H1]. apply dget_drop in H. destruct H as [H H2].
    destruct (Nat.eq_dec x u) as [Hu|Hu]; [auto|]. destruct (Nat.eq_dec x v) as [Hv|Hv]; [auto|].
    apply dget_discard in H; [|auto]. apply dget_discard in H; [|auto]. unfold d1 in H. rewrite dget_dset in H. destruct (Nat.eqb_spec v x); [congruence|]. exact (rel_full R H).
  - exact S.
  - intros x w. rewrite B, (rel_nbr R). split.
    + intros [I NE]. apply (Permutation_in _ P) in I. destruct I as [I|I]; [congruence|auto].
    + intros I. split; [apply (Permutation_in _ (Permutation_sym P)); now right|]. intros EE. rewrite EE in I. auto.
  - exact N2.
  - intros e I. apply (rel_unord R). apply (Permutation_in _ (Permutation_sym P)). now right.
Qed.
(** ** the walk *)
Definition fair (sch : schedule) : Prop :=
  (forall t l, Permutation (key_order sch t l) l) /\ (forall t s, s <> [] -> In (pop_at sch t s) s).
Lemma walk_rule sch (Inv : list (nat * nat) -> list nat -> list nat -> Prop) : fair sch ->
  (forall E E' v st path u, Inv E (v :: st) path -> NoDup E -> (forall e, In e E -> unordered e = e) -> Permutation E (ue v u :: E') -> Inv E' (u :: v :: st) path) ->
  (forall E v st path, Inv E (v :: st) path -> (forall u, ~ In (ue v u) E) -> Inv E st (path ++ [v])) ->
  forall n t d E stack path, (2 * length E + length stack <= n)%nat -> rel d E -> Inv E stack path ->
    exists path' d' t' E', rel d' E' /\ Inv E' [] path' /\
      forall fuel, (2 * length E + length stack <= fuel)%nat -> walk sch fuel t d stack path = Some (Ok (path', d', t')).
Proof.
  intros [_ FP] Push Pop. induction n as [|n IH]; intros t d E stack path L R I.
  - destruct stack as [|v st]; [|cbn in L; lia]. exists path, d, t, E. split; [auto|]. split; [auto|]. intros fuel _. destruct fuel; reflexivity.
  - destruct stack as [|v st].
    + exists path, d, t, E. split; [auto|]. split; [auto|]. intros fuel _. destruct fuel; reflexivity.
    + destruct (dget d v) as [s|] eqn:Ev.
      * pose proof (rel_full R Ev) as NE. assert (Iu : In (pop_at sch t s) s) by now apply FP. destruct (rel_pop R Ev Iu) as (E' & P & R').
        pose proof (Permutation_length P) as PL. cbn [length] in PL, L.
        destruct (IH (S t) (remove_edge (dset d v (srem (pop_at sch t s) s)) (pop_at sch t s) v) E' (pop_at sch t s :: v :: st) path) as (path' & d' & t' & E'' & R'' & I'' & W).
        -- cbn [length]. lia.
        -- exact R'.
        -- exact (@Push _ _ _ _ _ _ I (rel_nodup R) (rel_unord R) P).
        -- exists path', d', t', E''. split; [auto|]. split; [auto|]. intros fuel Lf. cbn [length] in Lf. destruct fuel as [|fuel]; [lia|]. cbn [walk]. rewrite Ev. destruct s as [|w s]; [congruence|]. apply W. cbn [length]. lia.
      * cbn [length] in L. destruct (IH t d E st (path ++ [v])) as (path' & d' & t' & E'' & R'' & I'' & W).
        -- lia.
        -- exact R.
        -- apply Pop; [auto|]. intros u H. apply (rel_nbr R) in H. unfold nbr in H. rewrite Ev in H. exact H.
        -- exists path', d', t', E''. split; [auto|]. split; [auto|]. intros fuel Lf. cbn [length] in Lf. destruct fuel as [|fuel]; [lia|]. cbn [walk]. rewrite Ev. apply W. lia.
Qed.
