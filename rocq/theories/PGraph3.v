(** * Path extraction: the whole loop; building the graph. *)
From Coq Require Import List Arith Bool Lia Permutation.
From Verif Require Import Num NpList MMesh SpecGraph PGraph PGraph2.
Import ListNotations.
Set Implicit Arguments.
Unset Strict Implicit.

Lemma start_spec sch t d keys first rest : fair sch -> keys = key_order sch t (map fst d) -> keys = first :: rest ->
  let s := hd first (filter (odd_degree d) keys ++ [first]) in
  dget d s <> None /\ (odd_degree d s = true \/ forall x, odd_degree d x = false).
Proof.
  intros [K _] EK E s. pose proof (K t (map fst d)) as P. rewrite <- EK in P.
  assert (Z : forall x, dget d x = None -> odd_degree d x = false) by (intros x Hx; unfold odd_degree; now rewrite Hx).
  destruct (filter (odd_degree d) keys) as [|y l] eqn:Q.
  - unfold s. cbn [hd app]. split.
    + apply dget_keys, (Permutation_in _ P). rewrite E. now left.
    + right. intros x. destruct (odd_degree d x) eqn:O; [|reflexivity]. exfalso. assert (I : In x (filter (odd_degree d) keys)); [|rewrite Q in I; exact I].
      apply filter_In. split; [|auto]. apply (Permutation_in _ (Permutation_sym P)), dget_keys. intros N. rewrite Z in O by auto. discriminate.
  - unfold s. cbn [hd app]. assert (I : In y (filter (odd_degree d) keys)) by (rewrite Q; now left). apply filter_In in I. destruct I as [I1 I2]. split; [|auto].
    apply dget_keys, (Permutation_in _ P), I1.
Qed.
Lemma flat_app E R E0 : flat E0 -> Permutation E0 (E ++ R) -> flat E.
Proof.
  intros [N F] P. split.
  - pose proof (Permutation_NoDup P N) as H. clear -H. induction E as [|e E IH]; [constructor|]. cbn in H. inversion H as [|? ? H1 H2]; subst. constructor; [|auto]. intros I. apply H1, in_app_iff. auto.
  - intros e I. apply F, (Permutation_in _ (Permutation_sym P)), in_app_iff. auto.
Qed.
Lemma connected_mono E E' x y : (forall u v, joined E' u v -> joined E u v) -> connected E' x y -> connected E x y.
Proof. intros H C. induction C as [|y z _ IH J]; [constructor|]. apply connected_step with y; auto. Qed.
Lemma connected_trans E x y z : connected E x y -> connected E y z -> connected E x z.
Proof. intros C D. induction D as [|a b _ IH J]; [auto|]. now apply connected_step with a. Qed.
Lemma joined_sym E u v : joined E u v -> joined E v u.
Proof. unfold joined. tauto. Qed.
Lemma connected_sym E x y : connected E x y -> connected E y x.
Proof. intros C. induction C as [|a b _ IH J]; [constructor|]. apply connected_trans with a; [|auto]. apply connected_step with b; [constructor|now apply joined_sym]. Qed.

Lemma walk_keeps sch s f : forall t d stack p p' d' t', walk sch f t d stack p = Some (Ok (p', d', t')) -> In s (p ++ stack) -> In s p'.
Proof.
  induction f as [|f IH]; intros t d stack p p' d' t' W I; destruct stack as [|v st]; cbn [walk] in W.
  - injection W as -> _ _. now rewrite app_nil_r in I.
  - discriminate W.
  - injection W as -> _ _. now rewrite app_nil_r in I.
  - destruct (dget d v) as [[|w l]|].
    + discriminate W.
    + apply (IH _ _ _ _ _ _ _ W). apply in_app_iff in I. apply in_app_iff. cbn in *. tauto.
    + apply (IH _ _ _ _ _ _ _ W). rewrite <- app_assoc. exact I.
Qed.
(** one path *)
Lemma pop_spec sch t d E : fair sch -> rel d E -> d <> [] ->
  exists path d' t' E' R, (forall fuel, (2 * length E + 1 <= fuel)%nat -> pop_euler_path sch fuel t d true = Some (Ok (Some path, d', t'))) /\
    rel d' E' /\ Permutation E (E' ++ R) /\ length path = S (length R) /\ R <> [] /\
    (forall e, In e R -> touches e path) /\
    (forall x u, In x path -> ~ In (ue x u) E') /\
    (forall x y, In x path -> In y path -> connected E x y) /\
    (forall x, In x path -> exists u, In (ue x u) E) /\
    (loop_free E -> at_most_two_odd E -> Permutation E (E' ++ U (steps path))).
Proof.
  intros Fr R0 ND. unfold pop_euler_path. cbn [negb andb]. remember (key_order sch t (map fst d)) as keys eqn:EK.
  destruct keys as [|first rest].
  { exfalso. pose proof (proj1 Fr t (map fst d)) as P. rewrite <- EK in P. apply Permutation_nil in P. destruct d; [congruence|discriminate P]. }
  destruct (@start_spec sch t d _ first rest Fr EK eq_refl) as [Sk So]. set (s := hd first (filter (odd_degree d) (first :: rest) ++ [first])) in *.
  pose proof (rel_flat R0) as F0.
  assert (So' : Nat.odd (dg E s) = true \/ forall x, Nat.odd (dg E x) = false).
  { destruct So as [So|So]; [left; now rewrite <- (odd_degree_dg s R0)|right; intros x; now rewrite <- (odd_degree_dg x R0)]. }
  set (Inv := fun (E' : edges) stack path => flat E' /\ inv1 E s E' stack path /\ (loop_free E -> at_most_two_odd E -> inv2 E s E' stack path)).
  destruct (@walk_rule sch Inv Fr) with (n := 2 * length E + 1) (t := S t) (d := d) (E := E) (stack := [s]) (path := @nil nat) as (path & d' & t' & E' & R' & (F' & I1 & I2) & W).
  - intros E1 E2 v st path u (F & I1 & I2) N Un P. split; [exact (flat_perm F P)|]. split; [exact (@inv1_push E s F0 _ _ _ _ _ _ I1 N Un P)|].
    intros LF A. exact (@inv2_push E s LF _ _ _ _ _ _ I1 (I2 LF A) N Un P).
  - intros E1 v st path (F & I1 & I2) H. split; [auto|]. split; [now apply inv1_pop|]. intros LF A. exact (@inv2_pop E s _ _ _ _ F I1 (I2 LF A) H).
  - cbn [length]. lia.
  - exact R0.
  - split; [auto|]. split; [apply inv1_start|]. intros _ A. now apply inv2_start.
  - destruct I1 as ((R & P & T & L) & C & Z). rewrite app_nil_r in T, C. cbn [length] in L.
    assert (Ns : exists u, In (ue s u) E).
    { destruct (dget d s) as [l|] eqn:Es; [|congruence]. pose proof (rel_full R0 Es) as NE. destruct l as [|u l]; [congruence|]. exists u. apply (rel_nbr R0). unfold nbr. rewrite Es. now left. }
    assert (Is : In s path).
    { refine (walk_keeps (W _ (Nat.le_refl _)) _). now left. }
    exists path, d', t', E', R. split.
    { intros fuel Lf. rewrite W by (cbn [length]; lia). reflexivity. }
    split; [exact R'|]. split; [exact P|]. split; [lia|]. split.
    { intros ->. destruct Ns as (u & Iu). rewrite app_nil_r in P. exact (Z s u Is (Permutation_in _ P Iu)). }
    split; [exact T|]. split; [exact Z|]. split.
    { intros x y Ix Iy. apply connected_trans with s; [apply connected_sym|]; auto. }
    split.
    { intros x Ix. pose proof (C x Ix) as Cx. destruct Cx as [|y z _ J]; [exact Ns|]. exists y. rewrite ue_sym. now apply flat_joined. }
    intros LF A. exact (I2 LF A).
Qed.
(** the hypotheses of the trail claim carry over to what remains *)
Lemma rest_odd E E' R path : flat E -> Permutation E (E' ++ R) -> (forall e, In e R -> touches e path) -> (forall x u, In x path -> ~ In (ue x u) E') ->
  at_most_two_odd E -> at_most_two_odd E'.
Proof.
  intros F P T Z A. assert (F' : flat E') by exact (flat_app F P).
  assert (D : forall x, Nat.odd (degree E' x) = true -> Nat.odd (degree E x) = true).
  { intros x. rewrite !flat_degree by auto. intros O. assert (N : dg E' x <> 0) by (intros N; rewrite N in O; discriminate O). destruct (dg_pos F' N) as (u & Iu).
    rewrite (dg_perm x P), dg_app. replace (dg R x) with 0; [now rewrite Nat.add_0_r|]. unfold dg. destruct (filter (incident x) R) as [|e l] eqn:Q; [reflexivity|exfalso].
    assert (I : In e (filter (incident x) R)) by (rewrite Q; now left). apply filter_In in I. destruct I as [I1 I2]. destruct (T e I1) as [T1 T2]. unfold incident in I2. apply orb_true_iff in I2.
    destruct I2 as [I2|I2]; apply Nat.eqb_eq in I2; subst x; apply Z with (1 := T1) (2 := Iu) || apply Z with (1 := T2) (2 := Iu). }
  assert (J : forall u v, joined E' u v -> joined E u v).
  { intros u v. rewrite !flat_joined by auto. intros I. apply (Permutation_in _ (Permutation_sym P)), in_app_iff. auto. }
  intros a b c Oa Ob Oc Cb Cc. apply A; auto; eapply connected_mono; eauto.
Qed.
Lemma rest_loop_free E E' R : Permutation E (E' ++ R) -> loop_free E -> loop_free E'.
Proof. intros P L u I. apply (L u), (Permutation_in _ (Permutation_sym P)), in_app_iff. auto. Qed.

Definition total (paths : list (list nat)) : nat := list_sum (map (fun p => length p - 1) paths).
Definition disjoint (p q : list nat) : Prop := forall x, In x p -> ~ In x q.
Lemma extract_spec sch : fair sch -> forall n t d E, length E <= n -> rel d E ->
  exists paths, (forall fuel, (2 * length E + 2 <= fuel)%nat -> extract sch fuel t d = Some (Ok paths)) /\
    total paths = length E /\ Forall (fun p => 2 <= length p) paths /\
    (forall a b, In (ue a b) E -> exists p, In p paths /\ In a p /\ In b p) /\
    ForallOrdPairs disjoint paths /\
    (forall p x y, In p paths -> In x p -> In y p -> connected E x y) /\
    (forall p x, In p paths -> In x p -> exists u, In (ue x u) E) /\
    (loop_free E -> at_most_two_odd E -> Permutation E (U (concat (map steps paths)))).
Proof.
  intros Fr. induction n as [|n IH]; intros t d E L R.
  - destruct E; [|cbn in L; lia]. assert (d = []) as ->.
    { destruct d as [|[k s] d]; [reflexivity|exfalso]. assert (Q : dget ((k, s) :: d) k = Some s) by (cbn; now rewrite Nat.eqb_refl).
      pose proof (rel_full R Q) as NE. destruct s as [|v s]; [congruence|]. apply (proj1 (rel_nbr R k v)). unfold nbr. rewrite Q. now left. }
    exists []. split; [intros fuel _; destruct fuel; reflexivity|]. split; [reflexivity|]. split; [constructor|]. split; [intros a b []|]. split; [constructor|]. split; [intros p x y []|]. split; [intros p x []|]. intros _ _. constructor.
  - destruct d as [|kv d0] eqn:Ed.
    + exists []. split; [intros fuel _; destruct fuel; reflexivity|]. assert (E = []) as ->.
      { destruct E as [|e E]; [reflexivity|exfalso]. assert (I : In e (e :: E)) by now left. pose proof (rel_unord R I) as Ue. destruct e as [a b]. exact (proj2 (rel_nbr R a b) (or_introl (eq_sym Ue))). }
      split; [reflexivity|]. split; [constructor|]. split; [intros a b []|]. split; [constructor|]. split; [intros p x y []|]. split; [intros p x []|]. intros _ _. constructor.
    + rewrite <- Ed in *. assert (ND : d <> []) by (rewrite Ed; discriminate). destruct (@pop_spec sch t d E Fr R ND) as (path & d' & t' & E' & Rm & W & R' & P & Lp & NR & T & Z & C & V & Tr).
      pose proof (Permutation_length P) as PL. rewrite app_length in PL. assert (0 < length Rm) by (destruct Rm; [congruence|cbn; lia]).
      destruct (IH t' d' E') as (paths & X & A1 & A2 & A3 & A4 & A5 & A6 & A7); [lia|exact R'|]. pose proof (rel_flat R) as F. pose proof (rel_flat R') as F'.
      assert (Sub : forall e, In e E' -> In e E) by (intros e I; apply (Permutation_in _ (Permutation_sym P)), in_app_iff; auto).
      exists (path :: paths). split; [|split; [|split; [|split; [|split; [|split; [|split]]]]]].
      * intros fuel Lf. destruct fuel as [|fuel]; [lia|]. rewrite Ed. cbn [extract]. rewrite <- Ed. rewrite W by lia. rewrite X by lia. reflexivity.
      * unfold total in *. cbn [map list_sum]. rewrite Lp. change (list_sum (S (length Rm) - 1 :: map (fun p => length p - 1) paths)) with ((S (length Rm) - 1) + list_sum (map (fun p => length p - 1) paths)). rewrite A1. lia.
      * constructor; [lia|auto].
      * intros a b I. apply (Permutation_in _ P), in_app_iff in I. destruct I as [I|I].
        -- destruct (A3 a b I) as (p & Ip & ?). exists p. split; [now right|auto].
        -- exists path. split; [now left|]. destruct (T _ I) as [T1 T2]. unfold ue, unordered in T1, T2. cbn [fst snd] in T1, T2. destruct (Nat.le_ge_cases a b) as [Q|Q]; [rewrite Nat.min_l in T1 by auto; rewrite Nat.max_r in T2 by auto|rewrite Nat.min_r in T1 by auto; rewrite Nat.max_l in T2 by auto]; auto.
      * constructor; [|auto]. apply Forall_forall. intros q Iq x Ix Ix'. destruct (A6 q x Iq Ix') as (u & Iu). exact (Z x u Ix Iu).
      * intros p x y [<-|Ip] Ix Iy; [auto|]. apply connected_mono with E'; [|eauto]. intros u v. rewrite !flat_joined by auto. auto.
      * intros p x [<-|Ip] Ix; [auto|]. destruct (A6 p x Ip Ix) as (u & ?). eauto.
      * intros LF A. cbn [map concat]. rewrite map_app. rewrite (Tr LF A). rewrite Permutation_app_comm. apply Permutation_app_head. apply A7; [exact (rest_loop_free P LF)|]. exact (rest_odd F P T Z A).
Qed.

(** ** building *)
Lemma rel_add d E u v : rel d E -> forall d1 d2 d3 d4,
  d1 = match dget d u with None => dset d u [] | Some _ => d end ->
  d2 = match dget d1 v with None => dset d1 v [] | Some _ => d1 end ->
  d3 = match dget d2 u with None => d2 | Some s => dset d2 u (sadd v s) end ->
  d4 = match dget d3 v with None => d3 | Some s => dset d3 v (sadd u s) end ->
  rel d4 (if in_dec pair_dec (ue u v) E then E else ue u v :: E).
Proof.
  intros R d1 d2 d3 d4 E1 E2 E3 E4.
  assert (G1 : forall x, nbr d1 x = nbr d x) by (intros x; subst d1; unfold nbr; destruct (dget d u) eqn:Q; [reflexivity|]; rewrite dget_dset; destruct (Nat.eqb_spec u x) as [->|]; [now rewrite Q|reflexivity]).
  assert (G2 : forall x, nbr d2 x = nbr d x) by (intros x; rewrite <- G1; subst d2; unfold nbr; destruct (dget d1 v) eqn:Q; [reflexivity|]; rewrite dget_dset; destruct (Nat.eqb_spec v x) as [->|]; [now rewrite Q|reflexivity]).
  assert (H1 : dget d1 u <> None) by (subst d1; destruct (dget d u) eqn:Q; [congruence|]; rewrite dget_dset, Nat.eqb_refl; discriminate).
  assert (H2 : dget d2 v <> None) by (subst d2; destruct (dget d1 v) eqn:Q; [congruence|]; rewrite dget_dset, Nat.eqb_refl; discriminate).
  assert (H2' : dget d2 u <> None) by (subst d2; destruct (dget d1 v) eqn:Q; [congruence|]; rewrite dget_dset; destruct (Nat.eqb v u); [discriminate|auto]).
  assert (D3 : d3 = dset d2 u (sadd v (nbr d u))) by (rewrite <- G2; subst d3; unfold nbr; destruct (dget d2 u); [reflexivity|congruence]).
  assert (H3 : dget d3 v <> None) by (rewrite D3, dget_dset; destruct (Nat.eqb u v); [discriminate|auto]).
  assert (D4 : d4 = dset d3 v (sadd u (nbr d3 v))) by (subst d4; unfold nbr; destruct (dget d3 v); [reflexivity|congruence]).
  assert (G4 : forall x, nbr d4 x = if Nat.eqb v x then sadd u (if Nat.eqb u v then sadd v (nbr d u) else nbr d v) else if Nat.eqb u x then sadd v (nbr d u) else nbr d x).
  { intros x. rewrite D4, !nbr_dset, D3, !nbr_dset, !G2. reflexivity. }
  assert (B : forall x w, In w (nbr d4 x) <-> In w (nbr d x) \/ ue x w = ue u v).
  { intros x w. rewrite G4, ue_inj. destruct (Nat.eqb_spec v x) as [<-|Nv].
    - destruct (Nat.eqb_spec u v) as [->|Nu]; rewrite !In_sadd; intuition congruence.
    - destruct (Nat.eqb_spec u x) as [<-|Nu]; rewrite ?In_sadd; intuition congruence. }
  constructor.
  - rewrite D4, D3. apply dset_keys, dset_keys. subst d2 d1. pose proof (rel_keys R) as K. destruct (dget d u); destruct (dget _ v); auto using dset_keys.
  - intros x s Q N. subst s. assert (NX : forall w, ~ In w (nbr d4 x)) by (intros w; unfold nbr; now rewrite Q).
    destruct (Nat.eq_dec x u) as [->|Nu]; [apply (NX v), B; right; reflexivity|]. destruct (Nat.eq_dec x v) as [->|Nv]; [apply (NX u), B; right; apply ue_sym|].
    rewrite D4, D3, !dget_dset in Q. destruct (Nat.eqb_spec v x); [congruence|]. destruct (Nat.eqb_spec u x); [congruence|].
    assert (Q' : dget d x = Some []). { rewrite E2 in Q. destruct (dget d1 v); [|rewrite dget_dset in Q; destruct (Nat.eqb_spec v x); [congruence|]]; rewrite E1 in Q; (destruct (dget d u); [auto|rewrite dget_dset in Q; destruct (Nat.eqb_spec u x); [congruence|auto]]). }
    exact (rel_full R Q' eq_refl).
  - intros x. rewrite G4. pose proof (rel_sets R). destruct (Nat.eqb v x), (Nat.eqb u v), (Nat.eqb u x); auto using NoDup_sadd.
  - intros x w. rewrite B, (rel_nbr R). destruct in_dec as [I|I]; cbn [In]; split; intuition congruence.
  - destruct in_dec; [apply (rel_nodup R)|constructor; [auto|apply (rel_nodup R)]].
  - intros e. destruct in_dec; [apply (rel_unord R)|]. intros [<-|I]; [|now apply (rel_unord R)]. unfold ue, unordered. cbn [fst snd]. f_equal; lia.
Qed.
Lemma rel_nil : rel [] [].
Proof. constructor; [constructor|discriminate|intros u; constructor|cbn; tauto|constructor|intros e []]. Qed.
Lemma add_edge_ok n d E u v : rel d E -> u < n -> v < n ->
  exists d', add_edge (mkgraph n d) (Some u) (Some v) = Ok (mkgraph n d') /\ rel d' (if in_dec pair_dec (ue u v) E then E else ue u v :: E).
Proof.
  intros R Lu Lv. unfold add_edge. cbn [g_size g_d]. rewrite !(proj2 (Nat.ltb_lt _ _)) by auto. eexists. split; [reflexivity|]. eapply rel_add; eauto.
Qed.
Lemma rel_perm d E E' : Permutation E E' -> rel d E -> rel d E'.
Proof.
  intros P R. constructor; try apply R.
  - intros u v. rewrite (rel_nbr R). split; intros I; [apply (Permutation_in _ P I)|apply (Permutation_in _ (Permutation_sym P) I)].
  - exact (Permutation_NoDup P (rel_nodup R)).
  - intros e I. apply (rel_unord R), (Permutation_in _ (Permutation_sym P) I).
Qed.
Lemma add_edges_ok n es : Forall (fun e => fst e < n /\ snd e < n) es -> forall d E, rel d E ->
  exists d' E', add_edges (mkgraph n d) es = Ok (mkgraph n d') /\ rel d' E' /\ (forall e, In e E' <-> In e E \/ In e (U es)).
Proof.
  induction 1 as [|[u v] es [Lu Lv] _ IH]; intros d E R.
  - exists d, E. split; [reflexivity|]. split; [auto|]. cbn. tauto.
  - cbn [fst snd] in Lu, Lv. destruct (add_edge_ok R Lu Lv) as (d1 & E1 & R1). destruct (IH _ _ R1) as (d2 & E2 & Q & R2 & S). exists d2, E2. cbn [add_edges]. rewrite E1. cbn [bindr]. split; [exact Q|]. split; [auto|].
    intros e. rewrite S. cbn [map In]. fold (ue u v). destruct in_dec as [I|I]; cbn [In]; split; intuition congruence.
Qed.
Lemma distinct_flat es : flat (distinct es).
Proof.
  split; [apply NoDup_nodup|]. intros e I. unfold distinct in I. apply nodup_In, in_map_iff in I. destruct I as (x & <- & _). unfold unordered. cbn [fst snd]. f_equal; lia.
Qed.
Lemma build_ok n es : Forall (fun e => fst e < n /\ snd e < n) es -> exists d, add_edges (mkgraph n []) es = Ok (mkgraph n d) /\ rel d (distinct es).
Proof.
  intros H. destruct (add_edges_ok H rel_nil) as (d & E & Q & R & S). exists d. split; [auto|]. apply rel_perm with E; [|auto]. apply NoDup_Permutation.
  - apply (rel_nodup R).
  - apply distinct_flat.
  - intros e. rewrite S. unfold distinct. rewrite nodup_In. cbn. tauto.
Qed.
(** moving between a list of edges and its distinct unordered edges *)
Lemma joined_distinct es u v : joined (distinct es) u v <-> joined es u v.
Proof.
  rewrite (flat_joined _ _ (distinct_flat es)). unfold distinct. rewrite nodup_In, in_map_iff. unfold joined. split.
  - intros ([a b] & E & I). fold (ue a b) in E. apply ue_inj in E. destruct E as [[-> ->]|[-> ->]]; auto.
  - intros [I|I]; [exists (u, v)|exists (v, u)]; (split; [|auto]); [reflexivity|apply ue_sym].
Qed.
Lemma connected_distinct es x y : connected (distinct es) x y <-> connected es x y.
Proof. split; apply connected_mono; intros u v; apply joined_distinct. Qed.
Lemma degree_distinct es x : degree (distinct es) x = degree es x.
Proof. unfold degree. now rewrite (flat_distinct (distinct_flat es)). Qed.
Lemma odd_distinct es : at_most_two_odd es -> at_most_two_odd (distinct es).
Proof. intros A a b c. rewrite !degree_distinct, !connected_distinct. apply A. Qed.
Lemma loops_distinct es : loop_free es -> loop_free (distinct es).
Proof.
  intros L u I. assert (J : joined (distinct es) u u) by now left. apply (proj1 (joined_distinct es u u)) in J. destruct J; exact (L u H).
Qed.
