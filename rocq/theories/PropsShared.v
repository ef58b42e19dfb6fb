(** * Property C94: which arrays a Polyline shares. *)
From Coq Require Import Reals ZArith List Bool Arith Lia.
From Verif Require Import Num Vec MMemory SpecMemory PMemory.
Import ListNotations.
Set Implicit Arguments.
Unset Strict Implicit.

Lemma read_only_read {A} (m : memory A) r q k : read (set_read_only m r) q k = read m q k.
Proof.
  unfold set_read_only. destruct (obj m r) as [a|] eqn:O; [|reflexivity]. unfold read, obj, set_obj. cbn [objs bufs].
  destruct (Nat.eq_dec q r) as [->|NE]; [|now rewrite upd_other]. rewrite upd_same by now apply (obj_lt O). unfold obj in O. rewrite O. reflexivity.
Qed.
Lemma nth_pairs (f : nat -> nat * nat) n i : i < n ->
  nth_error (flat_map (fun i => [fst (f i); snd (f i)]) (seq 0 n)) (2 * i) = Some (fst (f i)) /\
  nth_error (flat_map (fun i => [fst (f i); snd (f i)]) (seq 0 n)) (2 * i + 1) = Some (snd (f i)).
Proof.
  intros H. assert (G : forall b, i < n -> nth_error (flat_map (fun i => [fst (f i); snd (f i)]) (seq b n)) (2 * i) = Some (fst (f (b + i))) /\
    nth_error (flat_map (fun i => [fst (f i); snd (f i)]) (seq b n)) (2 * i + 1) = Some (snd (f (b + i)))); [|exact (G 0 H)].
  clear H. revert i. induction n as [|n IH]; intros i b H; [lia|]. destruct i as [|i].
  - cbn. rewrite Nat.add_0_r. auto.
  - destruct (IH i (S b)) as [A B]; [lia|]. cbn [seq flat_map app]. replace (2 * S i) with (S (S (2 * i))) by lia. cbn [nth_error]. replace (S (S (2 * i)) + 1) with (S (S (2 * i + 1))) by lia. cbn [nth_error].
    replace (b + S i) with (S b + i) by lia. auto.
Qed.
Lemma edge_list_nth n (closed : bool) i : i < (if closed then n else n - 1) ->
  nth_error (edge_list n closed) (2 * i) = Some i /\ nth_error (edge_list n closed) (2 * i + 1) = Some (if Nat.eqb (S i) n then 0 else S i).
Proof.
  unfold edge_list. destruct closed; intros H.
  - apply (@nth_pairs (fun i => (i, if Nat.eqb (S i) n then 0 else S i)) n i H).
  - destruct (Nat.eqb_spec (S i) n); [lia|]. apply (@nth_pairs (fun i => (i, S i)) (n - 1) i H).
Qed.

Section Shared.
Context {F : Type} {N : Num F}.

(** what a successful edge update has done *)
Lemma update_edges_ok (s s' : store (F := F)) p p' : sound (im s) -> update_edges s p = (s', p', Ok tt) ->
  fm s' = fm s /\ o_v p' = o_v p /\ o_closed p' = o_closed p /\
  match o_v p with
  | None => o_e p' = None
  | Some r => exists a re, obj (fm s) r = Some a /\ o_e p' = Some re /\
      (forall i, i < (if o_closed p then nth 0 (a_shape a) 0 else nth 0 (a_shape a) 0 - 1) ->
        read (im s') re (2 * i) = Ok i /\ read (im s') re (2 * i + 1) = Ok (if Nat.eqb (S i) (nth 0 (a_shape a) 0) then 0 else S i)) /\
      (forall k x, write (im s') re k x = (im s', Err ValueError)) /\
      (forall ops k, read (writes (im s') ops) re k = read (im s') re k)
  end.
Proof.
  intros S. unfold update_edges. destruct (o_v p) as [r|] eqn:V.
  - destruct (obj (fm s) r) as [a|] eqn:O; [|discriminate]. destruct (_ && _); [discriminate|].
    set (n := nth 0 (a_shape a) 0). set (es := edge_list n (o_closed p)). destruct (fresh (im s) es _) as [m re] eqn:EF. intros [= <- <-].
    assert (Em : m = fst (fresh (im s) es [length es / 2; 2])) by now rewrite EF. assert (Er : re = snd (fresh (im s) es [length es / 2; 2])) by now rewrite EF. clear EF.
    cbn [fm im o_v o_closed o_e]. split; [reflexivity|]. split; [reflexivity|]. split; [reflexivity|]. exists a, re. split; [reflexivity|]. split; [reflexivity|].
    assert (Om : obj m re = Some (mkarr (length (bufs (im s))) [length es / 2; 2] (seq 0 (length es)) true)).
    { rewrite Em, Er. unfold fresh. apply (@obj_new nat (mkmem (bufs (im s) ++ [es]) (objs (im s)))). }
    set (m' := set_read_only m re).
    assert (Om' : obj m' re = Some (mkarr (length (bufs (im s))) [length es / 2; 2] (seq 0 (length es)) false)).
    { unfold m', set_read_only. rewrite Om. unfold obj, set_obj. cbn [objs]. rewrite upd_same by now apply (obj_lt Om). reflexivity. }
    split; [|split].
    + intros i Hi. pose proof (@edge_list_nth n (o_closed p) i Hi) as [E1 E2]. unfold m'. rewrite !read_only_read, Em, Er, !fresh_read. fold es in E1, E2. now rewrite E1, E2.
    + intros k x. unfold write. rewrite Om'. reflexivity.
    + (* the array refuses writes, and no other has its buffer *)
      intros ops k. assert (G : forall m1 : memory nat, obj m1 re = obj m' re -> (forall q b, q <> re -> obj m1 q = Some b -> a_buf b <> length (bufs (im s))) -> read (writes m1 ops) re k = read m1 re k).
      { induction ops as [|[[q j] x] ops IH]; intros m1 O1 H1; [reflexivity|]. cbn [writes].
        assert (Ob : objs (fst (write m1 q j x)) = objs m1) by apply write_objs.
        rewrite IH.
        - destruct (Nat.eq_dec q re) as [->|NE]; [unfold write; now rewrite O1, Om'|].
          destruct (obj m1 q) as [b|] eqn:Q; [|unfold write; now rewrite Q]. eapply write_apart; eauto; [rewrite O1; exact Om'|]. cbn. now apply (H1 q).
        - unfold obj in *. now rewrite Ob.
        - unfold obj in *. rewrite Ob. exact H1. }
      apply G; [reflexivity|]. intros q b NE Q. assert (Q2 : obj m q = Some b).
      { unfold m', set_read_only in Q. rewrite Om in Q. unfold obj, set_obj in Q. cbn [objs] in Q. now rewrite upd_other in Q. }
      rewrite Em in Q2. rewrite Er in NE. unfold fresh, new_obj, obj in Q2, NE. cbn [fst snd objs] in Q2, NE.
      destruct (Nat.lt_ge_cases q (length (objs (im s)))) as [L|L].
      * rewrite nth_error_app1 in Q2 by auto. destruct (S q b Q2) as (B & _). lia.
      * rewrite nth_error_app2 in Q2 by auto. destruct (q - length (objs (im s))) as [|[|]] eqn:D; try discriminate Q2. lia.
  - intros [= <- <-]. cbn. auto.
Qed.

(** Given a float64 array of shape (n, 3), the polyline holds that very array: a write to it
    is seen in the polyline, and so is an assignment to its shape. *)
Theorem C118_shared_refuted : forall (s s' : store) r a n closed p, sound (fm s) -> sound (im s) ->
  obj (fm s) r = Some a -> a_shape a = [n; 3] -> new_polyline s (AArr r) closed = (s', p, Ok tt) ->
  exists rv, o_v p = Some rv /\
    (forall k x m'', write (fm s') r k x = (m'', Ok tt) -> read m'' rv k = Ok x) /\
    (forall nocopy shape m'', set_shape nocopy (fm s') r shape = (m'', Ok tt) -> exists a', obj m'' rv = Some a' /\ answers shape (a_shape a') (length (a_cells a))).
Proof.
  intros s s' r a n closed p Sf Si O Sh. unfold new_polyline, set_v, coerce. rewrite O. destruct (entries_ok Sf O) as (xs & -> & _).
  destruct (forallb nfinite xs); [|discriminate]. rewrite Sh. intros E.
  assert (E2 : update_edges s (mkpobj (Some r) closed None) = (s', p, Ok tt)).
  { destruct n as [|[|[|[|n]]]]; exact E. }
  apply (update_edges_ok Si) in E2 as (Ef & Ev & _). cbn [o_v] in Ev. exists r. split; [exact Ev|]. rewrite Ef. split.
  - intros k x m''. apply write_read with (a := a) (b := a); auto.
  - intros nocopy shape m''. unfold set_shape. rewrite O. destruct (fix_shape _ shape) as [sh|] eqn:Fs; [|discriminate]. destruct (nocopy a sh); [|discriminate].
    intros [= <-]. exists (mkarr (a_buf a) sh (a_cells a) (a_writeable a)). split; [|now apply fix_shape_ok]. unfold obj, set_obj. cbn [objs]. apply upd_same. now apply (obj_lt O).
Qed.

(** A copy holds the same vertices in memory of its own: whatever is written through arrays
    that existed before is not seen in it, and what is written to it is seen nowhere else. *)
Theorem C94_copy : forall (s s' : store) p q rp a n, sound (fm s) -> sound (im s) -> o_v p = Some rp -> obj (fm s) rp = Some a -> a_shape a = [n; 3] ->
  copy_polyline s p = (s', q, Ok tt) ->
  exists rq, o_v q = Some rq /\ o_closed q = o_closed p /\
    (forall k, read (fm s') rq k = read (fm s) rp k) /\
    (forall ops, (forall r k x, In (r, k, x) ops -> r < length (objs (fm s))) -> forall k, read (writes (fm s') ops) rq k = read (fm s) rp k) /\
    (forall r k x j, r < length (objs (fm s)) -> read (fst (write (fm s') rq k x)) r j = read (fm s) r j).
Proof.
  intros s s' p q rp a n Sf Si V O Sh. unfold copy_polyline. rewrite V. unfold np_copy. rewrite O. destruct (entries_ok Sf O) as (xs & E & Len & Rd). rewrite E, Sh.
  destruct (fresh (fm s) xs [n; 3]) as [m rq] eqn:EF. assert (Em : m = fst (fresh (fm s) xs [n; 3])) by now rewrite EF. assert (Er : rq = snd (fresh (fm s) xs [n; 3])) by now rewrite EF. clear EF.
  assert (Sm : sound m). { rewrite Em. apply fresh_sound; auto. rewrite Len. destruct (Sf rp a O) as (_ & _ & D). now rewrite Sh in D. }
  assert (Om : obj m rq = Some (mkarr (length (bufs (fm s))) [n; 3] (seq 0 (length xs)) true)).
  { rewrite Em, Er. unfold fresh. apply (@obj_new F (mkmem (bufs (fm s) ++ [xs]) (objs (fm s)))). }
  assert (Oq : forall r, r < length (objs (fm s)) -> obj m r = obj (fm s) r).
  { intros r H. rewrite Em. unfold fresh, new_obj, obj. cbn [fst objs]. now apply nth_error_app1. }
  assert (Rq : forall k, read m rq k = read (fm s) rp k).
  { intros k. rewrite Em, Er, fresh_read, Rd. rewrite (read_index (r := rp) (m := fm s) (a := a) k) at 2; auto. destruct (read (fm s) rp k); reflexivity. }
  unfold new_polyline, set_v, coerce. cbn [fm im]. rewrite Om. destruct (entries_ok Sm Om) as (ys & -> & _). destruct (forallb nfinite ys); [|discriminate].
  cbn [a_shape]. intros U. assert (U2 : update_edges (mkstore m (im s)) (mkpobj (Some rq) (o_closed p) None) = (s', q, Ok tt)).
  { destruct n as [|[|[|[|n]]]]; exact U. }
  apply (@update_edges_ok (mkstore m (im s))) in U2 as (Ef & Ev & Ec & _); [|exact Si]. cbn [fm o_v o_closed] in Ef, Ev, Ec. rewrite Ef.
  exists rq. split; [exact Ev|]. split; [exact Ec|]. split; [exact Rq|]. split.
  - intros ops H k. rewrite <- Rq. eapply writes_apart; [exact Om|]. intros r k' x b I B. specialize (H r k' x I). rewrite Oq in B by auto. destruct (Sf r b B) as (X & _). cbn. lia.
  - intros r k x j H. destruct (obj (fm s) r) as [b|] eqn:B; [|apply nth_error_None in B; lia]. destruct (Sf r b B) as (X & _).
    rewrite write_apart with (a := mkarr (length (bufs (fm s))) [n; 3] (seq 0 (length xs)) true) (b := b); auto; [|rewrite Oq by auto; auto|cbn; lia].
    unfold read. rewrite (Oq r H), B. destruct (nth_error (a_cells b) j); [|reflexivity]. rewrite Em. unfold fresh, new_obj. cbn [fst bufs]. now rewrite app_nth1 by auto.
Qed.

(** After any successful assignment of [v] or [closed], the edge array is the chain, refuses
    writes, and no writes to other index arrays change it. *)
Theorem C94_edges : forall (s s' : store) p p', sound (im s) ->
  (exists a, set_v s p a = (s', p', Ok tt)) \/ (exists c, set_closed s p c = (s', p', Ok tt)) -> forall r, o_v p' = Some r ->
  exists a re, obj (fm s') r = Some a /\ o_e p' = Some re /\
    (forall i, i < (if o_closed p' then nth 0 (a_shape a) 0 else nth 0 (a_shape a) 0 - 1) ->
      read (im s') re (2 * i) = Ok i /\ read (im s') re (2 * i + 1) = Ok (if Nat.eqb (S i) (nth 0 (a_shape a) 0) then 0 else S i)) /\
    (forall k x, write (im s') re k x = (im s', Err ValueError)) /\
    (forall ops k, read (writes (im s') ops) re k = read (im s') re k).
Proof.
  intros s s' p p' Si H r V.
  assert (G : exists s1 p1, im s1 = im s /\ update_edges s1 p1 = (s', p', Ok tt)).
  { destruct H as [(a & E)|(c & E)].
    - unfold set_v in E. destruct (coerce s a) as [s1 [v|]] eqn:C; [|discriminate]. exists s1, (mkpobj v (o_closed p) (o_e p)). split; [|exact E].
      unfold coerce in C. repeat match type of C with
        | context [let (_, _) := ?x in _] => destruct x
        | context [match ?x with _ => _ end] => destruct x
        end; try discriminate C; injection C as <- <-; reflexivity.
    - exists s, (mkpobj (o_v p) c (o_e p)). split; [reflexivity|exact E]. }
  destruct G as (s1 & p1 & Ei & U). apply update_edges_ok in U as (Ef & Ev & Ec & U); [|now rewrite Ei]. rewrite <- Ev, V in U. rewrite Ef, Ec. exact U.
Qed.
End Shared.
Print Assumptions C118_shared_refuted.
Print Assumptions C94_copy.
Print Assumptions C94_edges.

Definition s0 : store (F := xr) := mkstore (mkmem [map Fin [1; 2; 3; 4; 5; 6]%R] [mkarr 0 [2; 3] [0; 1; 2; 3; 4; 5] true]) (mkmem [] []).
Example C94_example : sound (fm s0) /\ sound (im s0) /\ exists s p s2 q, new_polyline s0 (AArr 0) true = (s, p, Ok tt) /\ copy_polyline s p = (s2, q, Ok tt) /\
  o_v p = Some 0 /\ o_v q = Some 1 /\ read (im s) 0 3 = Ok 0.
Proof.
  split; [|split].
  - intros [|[|r]] a; cbn; try discriminate. intros [= <-]. cbn. split; [lia|]. split; [|reflexivity]. intros c Hc. repeat destruct Hc as [<-|Hc]; try lia; destruct Hc.
  - intros [|r] a; discriminate.
  - do 4 eexists. split; [reflexivity|]. split; [reflexivity|]. repeat split.
Qed.
