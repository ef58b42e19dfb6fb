(** * Proofs about util/json.py. *)
From Coq Require Import Reals ZArith List String Bool Lia.
From Verif Require Import Num XLemmas MRounding MUnits SpecUnits PUnits MValue MJson SpecValue PValue.
Import ListNotations.
Local Open Scope string_scope.
Set Implicit Arguments.
Unset Strict Implicit.

Section Json.
Context {F : Type} {N : Num F}.

Lemma doc_ind' (P : doc F -> Prop) :
  P DNull -> (forall b, P (DBool b)) -> (forall x, P (DNum x)) -> (forall s, P (DStr s)) ->
  (forall l, Forall P l -> P (DList l)) -> (forall d, Forall (fun kv => P (snd kv)) d -> P (DObj d)) ->
  (forall v, P (DVal v)) -> (forall dt a, P (DArr dt a)) -> (forall d, P (DSparse d)) -> forall t, P t.
Proof.
  intros H1 H2 H3 H4 H5 H6 H7 H8 H9. fix IH 1.
  intros [|b|x|s|l|d|v|dt a|d]; [apply H1|apply H2|apply H3|apply H4|apply H5|apply H6|apply H7|apply H8|apply H9].
  - induction l as [|o l IHl]; constructor; [apply IH|apply IHl].
  - induction d as [|[k o] d IHd]; constructor; [apply IH|apply IHd].
Qed.
Lemma json_ind' (P : json F -> Prop) :
  P JNull -> (forall b, P (JBool b)) -> (forall x, P (JNum x)) -> (forall s, P (JStr s)) ->
  (forall l, Forall P l -> P (JList l)) -> (forall d, Forall (fun kv => P (snd kv)) d -> P (JObj d)) ->
  forall t, P t.
Proof.
  intros H1 H2 H3 H4 H5 H6. fix IH 1.
  intros [|b|x|s|l|d]; [apply H1|apply H2|apply H3|apply H4|apply H5|apply H6].
  - induction l as [|o l IHl]; constructor; [apply IH|apply IHl].
  - induction d as [|[k o] d IHd]; constructor; [apply IH|apply IHd].
Qed.

Lemma dict_set_new A k (a : A) d : ~ In k (map fst d) -> dict_set k a d = (d ++ [(k, a)])%list.
Proof.
  induction d as [|[k' b] d IH]; cbn; auto. intros H.
  destruct (String.eqb_spec k k'); [exfalso; auto|]. rewrite IH; auto.
Qed.
Lemma dict_update_nodup A (e d : dict A) : NoDup (map fst d ++ map fst e) -> dict_update d e = (d ++ e)%list.
Proof.
  revert d. induction e as [|[k a] e IH]; intros d; cbn; intros H; [now rewrite app_nil_r|].
  unfold dict_update in *. cbn. rewrite dict_set_new.
  2:{ intros Hin. apply NoDup_remove_2 in H. apply H, in_or_app. now left. }
  rewrite IH.
  - now rewrite <- app_assoc.
  - rewrite map_app. cbn. now rewrite <- app_assoc.
Qed.

Lemma round_trip (t : doc F) : plain t -> exists j, encode t = Ok j /\ decode j = Ok t.
Proof.
  induction t as [|b|x|s|l IH|d IH|v|dt a|d] using doc_ind'; intros Hp.
  - exists JNull. auto.
  - exists (JBool b). auto.
  - exists (JNum x). auto.
  - exists (JStr s). auto.
  - inversion Hp as [| | | | |l' Hl|]; subst.
    assert (exists js, traverse encode l = Ok js /\ traverse decode js = Ok l) as (js&E&D).
    { clear Hp. induction l as [|o l IHl]; [exists []; auto|].
      inversion IH; subst. inversion Hl; subst. destruct (H1 H3) as (j&E&D).
      destruct IHl as (js&E'&D'); auto. exists (j :: js). cbn. rewrite E, E'. cbn. rewrite D, D'. auto. }
    exists (JList js). cbn. rewrite E, D. auto.
  - inversion Hp as [| | | | | |d' Hd Hnd Hm]; subst.
    assert (exists js, traverse (fun kv => mapr (pair (fst kv)) (encode (snd kv))) d = Ok js /\
                       traverse (fun kv => mapr (pair (fst kv)) (decode (snd kv))) js = Ok d) as (js&E&D).
    { clear Hp Hnd Hm. induction d as [|[k o] d IHl]; [exists []; auto|].
      inversion IH; subst. inversion Hd; subst. destruct (H1 H3) as (j&E&D).
      destruct IHl as (js&E'&D'); auto. exists ((k, j) :: js). cbn in *. rewrite E, E'. cbn. rewrite D, D'. auto. }
    exists (JObj js). cbn [encode]. rewrite E. split; [auto|]. cbn [decode]. rewrite D. cbn [bindr].
    rewrite dict_update_nodup by auto. cbn [app].
    assert (Hn : forall k, In k markers -> dict_find k d = None).
    { intros k Hk. apply dict_find_None. intros Hin. eapply Hm; eauto. }
    unfold decode_json, has. rewrite !Hn by (cbn; auto). auto.
  - inversion Hp as [| | | |v' Hv| |]; subst. exists (for_json v). split; [auto|].
    destruct v as [x u]. cbn in Hv.
    assert (E : decode (for_json (mkv x u)) = mapr DVal (mk_num x u)).
    { destruct u; cbn; auto. }
    rewrite E, mk_num_ok by auto. auto.
  - inversion Hp.
  - inversion Hp.
Qed.

(** C13 for decoded documents. *)
Definition dok (t : doc F) := Forall (fun v => unit_ok (v_units v)) (doc_values t).
Lemma dok_pairs (d : dict (doc F)) :
  Forall (fun v => unit_ok (v_units v)) (flat_map (fun kv => doc_values (snd kv)) d) <-> Forall (fun kv => dok (snd kv)) d.
Proof.
  induction d as [|x d IH]; cbn.
  - split; constructor.
  - rewrite Forall_app, IH. split; [intros []; constructor; auto | inversion 1; auto].
Qed.
Lemma dok_list l : dok (DList l) <-> Forall dok l.
Proof.
  unfold dok. cbn. induction l as [|x d IH]; cbn.
  - split; constructor.
  - rewrite Forall_app, IH. split; [intros []; constructor; auto | inversion 1; auto].
Qed.
Lemma dict_set_Forall A (P : A -> Prop) k a d : P a -> Forall (fun kv => P (snd kv)) d ->
  Forall (fun kv => P (snd kv)) (dict_set k a d).
Proof.
  intros Ha Hd. induction Hd as [|[k' b] d Hb Hd IH]; cbn; [repeat constructor; auto|].
  destruct (String.eqb k k'); constructor; auto.
Qed.
Lemma dict_update_Forall A (P : A -> Prop) e d : Forall (fun kv => P (snd kv)) d ->
  Forall (fun kv => P (snd kv)) e -> Forall (fun kv => P (snd kv)) (dict_update d e).
Proof.
  intros Hd He. revert d Hd. induction He as [|[k b] e Hb He IH]; cbn; auto.
  intros d Hd. apply IH. apply dict_set_Forall; auto.
Qed.
Lemma dict_find_Forall A (P : A -> Prop) k a d : Forall (fun kv => P (snd kv)) d ->
  dict_find k d = Some a -> P a.
Proof.
  intros Hd. induction Hd as [|[k' b] d Hb Hd IH]; cbn; [discriminate|].
  destruct (String.eqb k k'); [intros [= <-]; auto|auto].
Qed.
Lemma from_json_ok x v : from_json x = Ok v -> unit_ok (v_units (F := F) v).
Proof.
  unfold from_json. destruct x; try discriminate. destruct (negb _); [discriminate|].
  destruct (dict_find "value" d) as [t|]; [|discriminate].
  assert (H : (let* y := doc_float t in
               match dict_find "units" d with
               | None => mk_num y None
               | Some DNull => mk_num y None
               | Some (DStr s) => mk_num y (Some s)
               | Some _ => Err ValueError
               end) = Ok v -> unit_ok (v_units (F := F) v)).
  { destruct (doc_float t); cbn [bindr]; [|discriminate].
    destruct (dict_find "units" d) as [[]|]; try discriminate; apply mk_num_units. }
  destruct t; try exact H; discriminate.
Qed.
Lemma hook_ok d r : Forall (fun kv => dok (snd kv)) d -> decode_json d = Ok r -> dok r.
Proof.
  intros Hd. unfold decode_json. destruct (dict_find "__value__" d) as [x|] eqn:E1.
  - destruct (from_json x) eqn:E; cbn; [|discriminate]. intros [= <-]. unfold dok. cbn.
    constructor; [|constructor]. eapply from_json_ok; eauto.
  - destruct (dict_find "__ndarray__" d) as [a|] eqn:E2.
    + intros [= <-]. unfold dok. cbn. apply Forall_app. split.
      * destruct (dict_find "dtype" d) as [t|] eqn:E3; [|constructor].
        eapply (dict_find_Forall (P := dok)); eauto.
      * eapply (dict_find_Forall (P := dok)); eauto.
    + assert (H : dok (DObj d)) by (now apply dok_pairs).
      destruct (has _ d); [destruct (negb _)|]; intros [= <-]; auto.
Qed.
Lemma decode_ok j : forall r, decode (F := F) j = Ok r -> dok r.
Proof.
  induction j as [|b|x|s|l IH|d IH] using json_ind'; cbn [decode]; intros r; try (intros [= <-]; constructor).
  - destruct (traverse decode l) as [rs|] eqn:E; cbn; [|discriminate]. intros [= <-].
    apply traverse_ok in E. apply dok_list. induction E; inversion IH; subst; constructor; auto.
  - destruct (traverse _ d) as [rs|] eqn:E; cbn [bindr]; [|discriminate].
    apply hook_ok. apply dict_update_Forall; [constructor|].
    apply traverse_ok in E. induction E as [|[k j] y l' rs' H1 H2 IH2]; inversion IH; subst; constructor; auto.
    cbn in *. destruct (decode j) eqn:E; cbn in H1; [|discriminate]. injection H1 as <-. cbn. auto.
Qed.
Lemma decode_units j t v : decode (F := F) j = Ok t -> In v (doc_values t) -> unit_ok (v_units v).
Proof. intros H. apply decode_ok in H. unfold dok in H. rewrite Forall_forall in H. apply H. Qed.
End Json.
