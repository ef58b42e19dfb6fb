(** * The walk's invariants and the loop over the components. *)
From Coq Require Import List Arith Bool Lia Permutation.
From Verif Require Import Num NpList MMesh SpecGraph PGraph.
Import ListNotations.
Set Implicit Arguments.
Unset Strict Implicit.

Definition edges := list (nat * nat).
Notation U := (map unordered).
Definition dg (E : edges) (x : nat) : nat := length (filter (incident x) E).
Definition flat (E : edges) : Prop := NoDup E /\ forall e, In e E -> unordered e = e.
Lemma rel_flat d E : rel d E -> flat E.
Proof. intros R. split; [apply (rel_nodup R)|apply (rel_unord R)]. Qed.
Lemma flat_U E : flat E -> U E = E.
Proof. intros [_ H]. rewrite <- (map_id E) at 2. apply map_ext_in. exact H. Qed.
Lemma flat_distinct E : flat E -> distinct E = E.
Proof. intros F. unfold distinct. rewrite (flat_U F). apply nodup_fixed_point, F. Qed.
Lemma flat_degree E x : flat E -> degree E x = dg E x.
Proof. intros F. unfold degree. now rewrite (flat_distinct F). Qed.
Lemma flat_joined E u v : flat E -> joined E u v <-> In (ue u v) E.
Proof.
  intros [_ F]. unfold joined. split.
  - intros [I|I]; pose proof (F _ I) as H; fold (ue u v) (ue v u) in H; [|rewrite ue_sym]; now rewrite <- H in I.
  - unfold ue, unordered. cbn [fst snd]. destruct (Nat.le_ge_cases u v) as [L|L].
    + rewrite Nat.min_l, Nat.max_r by auto. auto.
    + rewrite Nat.min_r, Nat.max_l by auto. auto.
Qed.
Lemma flat_perm E e E' : flat E -> Permutation E (e :: E') -> flat E'.
Proof.
  intros [N F] P. pose proof (Permutation_NoDup P N) as N'. inversion N'; subst. split; [auto|]. intros x I. apply F, (Permutation_in _ (Permutation_sym P)). now right.
Qed.
Lemma perm_filter {A} (f : A -> bool) l l' : Permutation l l' -> Permutation (filter f l) (filter f l').
Proof.
  induction 1 as [|x l l' _ IH|x y l|]; cbn [filter]; auto.
  - destruct (f x); [now constructor|auto].
  - destruct (f x), (f y); try apply Permutation_refl. constructor.
  - eauto using Permutation_trans.
Qed.
Lemma dg_perm E E' x : Permutation E E' -> dg E x = dg E' x.
Proof. intros P. apply Permutation_length, perm_filter, P. Qed.
Lemma dg_app E E' x : dg (E ++ E') x = dg E x + dg E' x.
Proof. unfold dg. rewrite filter_app. apply app_length. Qed.
Lemma incident_ue x u v : incident x (ue u v) = Nat.eqb u x || Nat.eqb v x.
Proof.
  unfold incident, ue, unordered. cbn [fst snd]. destruct (Nat.le_ge_cases u v) as [L|L].
  - now rewrite Nat.min_l, Nat.max_r by auto.
  - rewrite Nat.min_r, Nat.max_l by auto. apply orb_comm.
Qed.
Lemma incident_ex x e : unordered e = e -> incident x e = true -> exists u, e = ue x u.
Proof.
  intros F I. unfold incident in I. apply orb_true_iff in I. destruct e as [a b]. cbn [fst snd] in I. destruct I as [I|I]; apply Nat.eqb_eq in I; subst.
  - exists b. symmetry. exact F.
  - exists a. rewrite ue_sym. symmetry. exact F.
Qed.
Lemma dg_zero E x : flat E -> (forall u, ~ In (ue x u) E) -> dg E x = 0.
Proof.
  intros [_ F] H. unfold dg. destruct (filter (incident x) E) as [|e l] eqn:Q; [reflexivity|exfalso].
  assert (I : In e (filter (incident x) E)) by (rewrite Q; now left). apply filter_In in I. destruct I as [I1 I2]. destruct (incident_ex (F _ I1) I2) as (u & ->). exact (H u I1).
Qed.
Lemma dg_pos E x : flat E -> dg E x <> 0 -> exists u, In (ue x u) E.
Proof.
  intros [_ F] H. unfold dg in H. destruct (filter (incident x) E) as [|e l] eqn:Q; [cbn in H; lia|].
  assert (I : In e (filter (incident x) E)) by (rewrite Q; now left). apply filter_In in I. destruct I as [I1 I2]. destruct (incident_ex (F _ I1) I2) as (u & ->). eauto.
Qed.
Lemma nbr_dg d E x : rel d E -> length (nbr d x) = dg E x.
Proof.
  intros R. unfold dg. rewrite <- (map_length (ue x)). apply Permutation_length, NoDup_Permutation.
  - apply FinFun.Injective_map_NoDup; [|apply (rel_sets R)]. intros a b H. apply ue_inj in H. intuition congruence.
  - apply NoDup_filter, (rel_nodup R).
  - intros e. rewrite in_map_iff, filter_In. split.
    + intros (v & <- & I). apply (rel_nbr R) in I. split; [auto|]. rewrite incident_ue, Nat.eqb_refl. reflexivity.
    + intros [I1 I2]. destruct (incident_ex (rel_unord R I1) I2) as (u & ->). exists u. split; [auto|]. now apply (rel_nbr R).
Qed.
Lemma odd_degree_dg d E x : rel d E -> odd_degree d x = Nat.odd (dg E x).
Proof. intros R. rewrite <- (nbr_dg x R). unfold odd_degree, nbr. now destruct (dget d x). Qed.

(** ** invariants *)
Section Walk.
Context (E0 : edges) (s : nat).
Definition touches (e : nat * nat) (l : list nat) : Prop := In (fst e) l /\ In (snd e) l.
Definition inv1 (E : edges) (stack path : list nat) : Prop :=
  (exists R, Permutation E0 (E ++ R) /\ (forall e, In e R -> touches e (path ++ stack)) /\ length path + length stack = 1 + length R) /\
  (forall x, In x (path ++ stack) -> connected E0 s x) /\
  (forall x u, In x path -> ~ In (ue x u) E).
Lemma touches_ue u v l : In u l -> In v l -> touches (ue u v) l.
Proof. intros A B. unfold touches, ue, unordered. cbn [fst snd]. destruct (Nat.le_ge_cases u v) as [L|L]; [rewrite Nat.min_l, Nat.max_r by auto|rewrite Nat.min_r, Nat.max_l by auto]; auto. Qed.
Lemma inv1_start : inv1 E0 [s] [].
Proof.
  split; [|split].
  - exists []. rewrite app_nil_r. split; [apply Permutation_refl|]. split; [intros e []|reflexivity].
  - intros x [<-|[]]. constructor.
  - intros x u [].
Qed.
Lemma inv1_push : flat E0 -> forall E E' v st path u, inv1 E (v :: st) path -> NoDup E -> (forall e, In e E -> unordered e = e) -> Permutation E (ue v u :: E') -> inv1 E' (u :: v :: st) path.
Proof.
  intros F0 E E' v st path u ((R & P & T & L) & C & Z) N F PE. 
  assert (Sub : forall e, In e E -> In e E0) by (intros e I; apply (Permutation_in _ (Permutation_sym P)), in_app_iff; auto).
  assert (Iu : In (ue v u) E) by (apply (Permutation_in _ (Permutation_sym PE)); now left).
  split; [|split].
  - exists (ue v u :: R). split; [|split].
    + rewrite P, PE. cbn [app]. apply Permutation_middle.
    + intros e [<-|I].
      * apply touches_ue; rewrite in_app_iff; cbn; auto.
      * destruct (T e I) as [A B]. split; [apply in_app_iff in A|apply in_app_iff in B]; apply in_app_iff; cbn in *; tauto.
    + cbn [length] in *. lia.
  - intros x I. apply in_app_iff in I. cbn in I. assert (C' : In x (path ++ v :: st) -> connected E0 s x) by apply C.
    destruct I as [I|[<-|I]]; [apply C', in_app_iff; auto| |apply C', in_app_iff; cbn; auto].
    apply connected_step with v; [apply C, in_app_iff; cbn; auto|]. apply flat_joined; auto.
  - intros x w I H. apply (Z x w I). apply (Permutation_in _ (Permutation_sym PE)). now right.
Qed.
Lemma inv1_pop : forall E v st path, inv1 E (v :: st) path -> (forall u, ~ In (ue v u) E) -> inv1 E st (path ++ [v]).
Proof.
  intros E v st path ((R & P & T & L) & C & Z) H. split; [|split].
  - exists R. split; [auto|]. rewrite <- app_assoc. cbn [app]. split; [auto|]. rewrite app_length. cbn [length] in *. lia.
  - rewrite <- app_assoc. exact C.
  - intros x u I. apply in_app_iff in I. destruct I as [I|[<-|[]]]; auto.
Qed.
Definition amo (o : nat -> bool) : Prop := forall x y, connected E0 s x -> connected E0 s y -> o x = true -> o y = true -> x = y.
Definition inv2 (E : edges) (stack path : list nat) : Prop :=
  match stack with
  | [] => Permutation E0 (E ++ U (steps path))
  | t :: _ => exists o, amo o /\ (forall x, Nat.odd (dg E x) = xorb (o x) (Nat.eqb x t)) /\
      forall e, connected E0 s e -> o e = true -> Permutation E0 (E ++ U (steps (path ++ [e])) ++ U (steps stack))
  end.
Lemma steps_snoc l a b : steps (l ++ [a; b]) = steps (l ++ [a]) ++ [(a, b)].
Proof.
  induction l as [|x l IH]; [reflexivity|]. destruct l as [|y l]; [reflexivity|]. cbn [app] in *. change (steps (x :: y :: l ++ [a; b])) with ((x, y) :: steps (y :: l ++ [a; b])).
  rewrite IH. reflexivity.
Qed.
Lemma inv2_start : flat E0 -> at_most_two_odd E0 -> (Nat.odd (dg E0 s) = true \/ forall x, Nat.odd (dg E0 x) = false) -> inv2 E0 [s] [].
Proof.
  intros F A S. exists (fun x => xorb (Nat.odd (dg E0 x)) (Nat.eqb x s)). split; [|split].
  - intros x y Cx Cy. destruct S as [S|S].
    + destruct (Nat.eqb_spec x s) as [->|Nx]; [rewrite S; discriminate|]. destruct (Nat.eqb_spec y s) as [->|Ny]; [rewrite S; discriminate|].
      rewrite !xorb_false_r. intros Ox Oy. destruct (A s x y) as [|[|]]; rewrite ?flat_degree; auto; congruence.
    + rewrite !S, !xorb_false_l, !Nat.eqb_eq. congruence.
  - intros x. now rewrite xorb_assoc, xorb_nilpotent, xorb_false_r.
  - intros e _ _. cbn. now rewrite app_nil_r.
Qed.
Lemma inv2_push : loop_free E0 -> forall E E' v st path u, inv1 E (v :: st) path -> inv2 E (v :: st) path -> NoDup E -> (forall e, In e E -> unordered e = e) -> Permutation E (ue v u :: E') -> inv2 E' (u :: v :: st) path.
Proof.
  intros LF E E' v st path u ((R & P & _) & _) (o & A & O & Q) N F PE. exists o. split; [auto|]. split.
  - assert (NE : u <> v).
    { intros ->. apply (LF v). apply (Permutation_in _ (Permutation_sym P)), in_app_iff. left. apply (Permutation_in _ (Permutation_sym PE)). left. unfold ue, unordered. cbn [fst snd]. now rewrite Nat.min_id, Nat.max_id. }
    intros x. specialize (O x). rewrite (dg_perm x PE) in O. unfold dg in O. cbn [filter] in O. rewrite incident_ue in O. fold (dg E' x) in O.
    rewrite (Nat.eqb_sym v x), (Nat.eqb_sym u x) in O. destruct (Nat.eqb_spec x v) as [Hx|Nv]; cbn [orb] in O.
    + subst x. cbn [length] in O. rewrite Nat.odd_succ, <- Nat.negb_odd in O. fold (dg E' v) in O. destruct (Nat.eqb_spec v u); [congruence|]. destruct (o v), (Nat.odd (dg E' v)); cbn in *; congruence.
    + destruct (Nat.eqb_spec x u) as [Hx|Nu].
      * subst x. cbn [length] in O. rewrite Nat.odd_succ, <- Nat.negb_odd in O. fold (dg E' u) in O. destruct (o u), (Nat.odd (dg E' u)); cbn in *; congruence.
      * exact O.
  - intros e Ce Oe. rewrite (Q e Ce Oe), PE. change (steps (u :: v :: st)) with ((u, v) :: steps (v :: st)). cbn [map app]. fold (ue u v). rewrite (ue_sym u v).
    rewrite !app_assoc. apply Permutation_middle.
Qed.
Lemma inv2_pop : forall E v st path, flat E -> inv1 E (v :: st) path -> inv2 E (v :: st) path -> (forall u, ~ In (ue v u) E) -> inv2 E st (path ++ [v]).
Proof.
  intros E v st path F (_ & C & _) (o & A & O & Q) H.
  assert (Cv : connected E0 s v) by (apply C, in_app_iff; cbn; auto).
  assert (Ov : o v = true). { specialize (O v). rewrite (dg_zero F H), Nat.eqb_refl in O. destruct (o v); [reflexivity|discriminate O]. }
  specialize (Q v Cv Ov). destruct st as [|w st].
  - cbn [inv2]. cbn [steps map] in Q. now rewrite app_nil_r in Q.
  - exists (fun x => xorb (xorb (o x) (Nat.eqb x v)) (Nat.eqb x w)). split; [|split].
    + assert (Z : forall x, connected E0 s x -> xorb (o x) (Nat.eqb x v) = false).
      { intros x Cx. destruct (o x) eqn:Ox; destruct (Nat.eqb_spec x v) as [Hx|Hx]; try reflexivity; [|congruence]. destruct Hx. now apply A. }
      intros x y Cx Cy. rewrite !Z by auto. rewrite !xorb_false_l, !Nat.eqb_eq. congruence.
    + intros x. rewrite O. rewrite xorb_assoc, xorb_nilpotent, xorb_false_r. reflexivity.
    + intros e Ce Oe. assert (e = w) as ->.
      { assert (Z : xorb (o e) (Nat.eqb e v) = false). { destruct (o e) eqn:Ox; destruct (Nat.eqb_spec e v) as [Hx|Hx]; try reflexivity; [|congruence]. destruct Hx. now apply A. }
        rewrite Z, xorb_false_l in Oe. now apply Nat.eqb_eq in Oe. }
      rewrite <- app_assoc. cbn [app]. rewrite steps_snoc, map_app. rewrite Q. change (steps (v :: w :: st)) with ((v, w) :: steps (w :: st)). cbn [map]. rewrite <- !app_assoc. apply Permutation_refl.
Qed.
End Walk.
