(** * Properties C92-C94: views, read-only arrays, and the arrays of a Polyline. *)
From Coq Require Import Reals ZArith List Bool Arith Lia.
From Verif Require Import Num Vec MMemory SpecMemory PMemory.
Import ListNotations.

(** ** C92.  Without [just_warn], what is returned has the requested shape and is the same
    memory: it reads the same, and a write through either array is read through the other. *)
Theorem C92_view : forall A nocopy (m m' : memory A) r shape v w, sound m ->
  np_reshape_safe nocopy m r shape false = (m', Ok (v, w)) ->
  w = false /\
  (exists a, obj m r = Some a /\ obj m' r = Some a /\ exists a', obj m' v = Some a' /\ answers shape (a_shape a') (length (a_cells a))) /\
  (forall k, read m' v k = read m r k) /\
  (forall k x m'', write m' v k x = (m'', Ok tt) -> read m'' r k = Ok x) /\
  (forall k x m'', write m' r k x = (m'', Ok tt) -> read m'' v k = Ok x).
Proof.
  intros A nocopy m m' r shape v w S. unfold np_reshape_safe, view. destruct (obj m r) as [a|] eqn:O; [|discriminate].
  unfold new_obj, set_shape. rewrite obj_new. destruct (fix_shape (length (a_cells a)) shape) as [s|e] eqn:Fs; [|discriminate].
  destruct (nocopy a s); [|discriminate]. intros [= <- <- <-]. split; [reflexivity|].
  set (a' := mkarr (a_buf a) s (a_cells a) (a_writeable a)). set (m' := set_obj _ _ _).
  pose proof (obj_lt O) as L.
  assert (Or : obj m' r = Some a).
  { unfold m', obj, set_obj. cbn [objs]. rewrite upd_other by lia. rewrite nth_error_app1 by auto. exact O. }
  assert (Ov : obj m' (length (objs m)) = Some a').
  { unfold m', obj, set_obj. cbn [objs]. apply upd_same. rewrite app_length. cbn. lia. }
  assert (B' : bufs m' = bufs m) by reflexivity.
  assert (S' : sound m').
  { intros q b. unfold obj, m', set_obj. cbn [objs bufs]. destruct (Nat.eq_dec q (length (objs m))) as [->|NE].
    - rewrite upd_same by (rewrite app_length; cbn; lia). intros [= <-]. cbn. destruct (S r a O) as (X & Y & Z). repeat split; auto. now apply fix_shape_ok in Fs as [_ Fs].
    - rewrite upd_other by auto. intros Q. apply (S q b). unfold obj. destruct (Nat.lt_ge_cases q (length (objs m))); [now rewrite nth_error_app1 in Q|].
      rewrite nth_error_app2 in Q by auto. destruct (q - length (objs m)) as [|[|]] eqn:D; try discriminate Q. lia. }
  split; [|split; [|split]].
  - exists a. repeat split; auto. exists a'. split; auto. now apply fix_shape_ok.
  - intros k. unfold read. rewrite Ov, O, B'. reflexivity.
  - intros k x m''. apply write_read with (a := a') (b := a); auto.
  - intros k x m''. apply write_read with (a := a) (b := a'); auto.
Qed.
Print Assumptions C92_view.
(** It raises ValueError for a wrong number of entries, AttributeError where only a copy
    would do; no existing array, and no memory, is changed. *)
Theorem C92_raises : forall A nocopy (m m' : memory A) r shape e, r < length (objs m) ->
  np_reshape_safe nocopy m r shape false = (m', Err e) ->
  (e = ValueError \/ (e = AttributeError /\ exists a s, obj m r = Some a /\ answers shape s (length (a_cells a)) /\ nocopy a s = false)) /\
  bufs m' = bufs m /\ forall q, q < length (objs m) -> obj m' q = obj m q.
Proof.
  intros A nocopy m m' r shape e L. unfold np_reshape_safe, view. destruct (obj m r) as [a|] eqn:O; [|apply nth_error_None in O; lia].
  unfold new_obj, set_shape. rewrite obj_new. destruct (fix_shape (length (a_cells a)) shape) as [s|e'] eqn:Fs.
  - destruct (nocopy a s) eqn:NC; [discriminate|]. intros [= <- <-]. split; [|split; [reflexivity|]].
    + right. split; auto. exists a, s. repeat split; auto; now apply fix_shape_ok in Fs as [? ?].
    + intros q H. now apply obj_app.
  - intros [= <- <-]. split; [left; now apply fix_shape_err in Fs|]. split; [reflexivity|]. intros q H. now apply obj_app.
Qed.
Print Assumptions C92_raises.
(** With [just_warn] it raises only for a wrong number of entries.  Without a warning the
    result is the view of above; with a warning it is a copy: the same entries, but writes
    through one array are not read through the other. *)
Theorem C92_just_warn : forall A nocopy (m m' : memory A) r shape out, sound m -> r < length (objs m) ->
  np_reshape_safe nocopy m r shape true = (m', out) ->
  match out with
  | Err e => e = ValueError
  | Ok (v, false) => np_reshape_safe nocopy m r shape false = (m', Ok (v, false))
  | Ok (v, true) =>
      (exists e m1, np_reshape_safe nocopy m r shape false = (m1, Err e)) /\
      (exists a a', obj m r = Some a /\ obj m' r = Some a /\ obj m' v = Some a' /\ answers shape (a_shape a') (length (a_cells a))) /\
      (forall k, read m' v k = read m r k) /\
      (forall ops, (forall q k x, In (q, k, x) ops -> q < length (objs m)) -> forall k, read (writes m' ops) v k = read m' v k) /\
      (forall q k x j, q < length (objs m) -> read (fst (write m' v k x)) q j = read m q j)
  end.
Proof.
  intros A nocopy m m' r shape out S L. unfold np_reshape_safe, view. destruct (obj m r) as [a|] eqn:O; [|apply nth_error_None in O; lia].
  unfold new_obj, set_shape. rewrite obj_new. destruct (fix_shape (length (a_cells a)) shape) as [s|e] eqn:Fs.
  2:{ apply fix_shape_err in Fs as E. subst e. intros [= <- <-]. reflexivity. }
  destruct (nocopy a s) eqn:NC; [intros [= <- <-]; reflexivity|].
  unfold reshape. rewrite obj_app by auto. rewrite O, Fs, NC.
  destruct (@entries_ok A m r a S O) as (xs & E & Len & Rd). replace (all_entries _ a) with (Ok xs) by (rewrite <- E; reflexivity).
  set (m1 := mkmem (bufs m) (objs m ++ [a])). destruct (fresh m1 xs s) as [m2 v] eqn:EF. intros [= <- <-].
  rename m2 into m'. assert (Em : m' = fst (fresh m1 xs s)) by now rewrite EF. assert (Ev : v = snd (fresh m1 xs s)) by now rewrite EF. clear EF.
  assert (Oq : forall q, q < length (objs m) -> obj m' q = obj m q).
  { intros q H. rewrite Em. unfold m1, fresh, new_obj, obj. cbn [fst objs]. rewrite nth_error_app1 by (rewrite app_length; lia). now apply nth_error_app1. }
  assert (Ov : obj m' v = Some (mkarr (length (bufs m)) s (seq 0 (length xs)) true)).
  { rewrite Em, Ev. unfold fresh. apply (@obj_new A (mkmem (bufs m1 ++ [xs]) (objs m1))). }
  split; [eauto|]. split; [|split; [|split]].
  - exists a, (mkarr (length (bufs m)) s (seq 0 (length xs)) true). rewrite (Oq r L). repeat split; auto; now apply fix_shape_ok in Fs as [? ?].
  - intros k. rewrite Em, Ev, fresh_read, Rd. rewrite (read_index (r := r) (m := m) (a := a) k) at 2; auto. destruct (read m r k); reflexivity.
  - intros ops H k. apply writes_apart with (b := mkarr (length (bufs m)) s (seq 0 (length xs)) true); auto.
    intros q k' x b I Q. specialize (H q k' x I). rewrite Oq in Q by auto. destruct (S q b Q) as (B & _). cbn. lia.
  - intros q k x j H. destruct (obj m q) as [b|] eqn:Q; [|apply nth_error_None in Q; lia]. destruct (S q b Q) as (B & _).
    rewrite write_apart with (a := mkarr (length (bufs m)) s (seq 0 (length xs)) true) (b := b); auto; [|rewrite Oq by auto; auto|cbn; lia].
    unfold read. rewrite (Oq q H), Q. destruct (nth_error (a_cells b) j); [|reflexivity]. rewrite Em. unfold m1, fresh, new_obj. cbn [fst bufs]. now rewrite app_nth1 by auto.
Qed.
Print Assumptions C92_just_warn.
Definition m6 : memory nat := mkmem [[10; 11; 12; 13; 14; 15]] [mkarr 0 [2; 3] [0; 1; 2; 3; 4; 5] true; mkarr 0 [3; 2] [0; 3; 1; 4; 2; 5] true].
Example C92_example : sound m6 /\
  (exists m' v, np_reshape_safe (fun a _ => Nat.eqb (nth 1 (a_cells a) 0) 1) m6 0 [3; -1]%Z false = (m', Ok (v, false)) /\ read m' v 4 = Ok 14) /\
  (exists m', np_reshape_safe (fun a _ => Nat.eqb (nth 1 (a_cells a) 0) 1) m6 1 [6]%Z false = (m', Err AttributeError)) /\
  (exists m' v, np_reshape_safe (fun a _ => Nat.eqb (nth 1 (a_cells a) 0) 1) m6 1 [6]%Z true = (m', Ok (v, true)) /\ read m' v 1 = Ok 13).
Proof.
  split; [|split; [|split]].
  - intros [|[|r]] a; cbn; try (intros [= <-]); try (destruct r; discriminate); cbn; (split; [lia|]); (split; [|reflexivity]); intros c Hc; repeat destruct Hc as [<-|Hc]; try lia; destruct Hc.
  - do 2 eexists. split; [reflexivity|reflexivity].
  - eexists. reflexivity.
  - do 2 eexists. split; [reflexivity|reflexivity].
Qed.

(** ** C93.  [np_make_readonly] of a sequence of arrays: each of them refuses writes, and
    nothing else has changed. *)
Lemma fold_read_only {A} items : forall m : memory A, let m' := fold_left (fun m a => match a with Arr r => set_read_only m r | _ => m end) items m in
  bufs m' = bufs m /\ length (objs m') = length (objs m) /\
  forall r a, obj m r = Some a -> (In (Arr r) items -> obj m' r = Some (read_only a)) /\ (~ In (Arr r) items -> obj m' r = Some a).
Proof.
  assert (one : forall (m : memory A) q, bufs (set_read_only m q) = bufs m /\ length (objs (set_read_only m q)) = length (objs m) /\
    forall r a, obj m r = Some a -> obj (set_read_only m q) r = Some (if Nat.eqb r q then read_only a else a)).
  { intros m q. unfold set_read_only. destruct (obj m q) as [b|] eqn:Q.
    - split; [reflexivity|]. split; [cbn; apply upd_length|]. intros r a O. unfold obj, set_obj. cbn [objs]. destruct (Nat.eqb_spec r q) as [->|NE].
      + rewrite upd_same by now apply (obj_lt Q). congruence.
      + now rewrite upd_other by auto.
    - repeat split; auto. intros r a O. destruct (Nat.eqb_spec r q) as [->|]; congruence. }
  induction items as [|x items IH]; intros m; cbn [fold_left].
  - repeat split; auto. intros [].
  - set (m1 := match x with Arr r => set_read_only m r | _ => m end). destruct (IH m1) as (B & L & H).
    assert (G : bufs m1 = bufs m /\ length (objs m1) = length (objs m)). { unfold m1. destruct x as [q| |l]; auto. destruct (one m q) as (? & ? & _). auto. }
    destruct G as [B1 L1]. split; [congruence|]. split; [congruence|]. intros r a O.
    assert (O1 : (x = Arr r -> obj m1 r = Some (read_only a)) /\ (x <> Arr r -> obj m1 r = Some a)).
    { unfold m1. destruct x as [q| |l]; try (split; [discriminate|auto]). destruct (one m q) as (_ & _ & K). specialize (K r a O). split.
      - intros [= ->]. now rewrite Nat.eqb_refl in K.
      - intros NE. destruct (Nat.eqb_spec r q); [congruence|auto]. }
    assert (RR : read_only (read_only a) = read_only a) by reflexivity.
    assert (D : x = Arr r \/ x <> Arr r). { destruct x as [q| |l]; try (right; discriminate). destruct (Nat.eq_dec q r); [left; congruence|right; congruence]. }
    assert (DI : In (Arr r) items \/ ~ In (Arr r) items).
    { clear. induction items as [|y l IH]; [now right|]. destruct IH as [I|I]; [left; now right|]. destruct y as [q| |k]; try (right; intros [X|X]; [discriminate|auto]).
      destruct (Nat.eq_dec q r) as [->|]; [left; now left|right; intros [X|X]; [congruence|auto]]. }
    destruct D as [->|D].
    + destruct (H r _ (proj1 O1 eq_refl)) as [H1 H2]. split; [intros _; destruct DI; [rewrite <- RR|]; auto|]. intros X. exfalso. apply X. now left.
    + destruct (H r _ (proj2 O1 D)) as [H1 H2]. split; [intros [X|X]; [contradiction|auto]|]. intros X. apply H2. intros Y. apply X. now right.
Qed.
Theorem C93_sequence : forall A (m : memory A) items, exists m', np_make_readonly m (Seq items) = (m', Ok tt) /\ bufs m' = bufs m /\
  (forall r k x, r < length (objs m) -> In (Arr r) items -> write m' r k x = (m', Err ValueError)) /\
  (forall r k, r < length (objs m) -> read m' r k = read m r k) /\
  (forall r, r < length (objs m) -> ~ In (Arr r) items -> obj m' r = obj m r).
Proof.
  intros A m items. unfold np_make_readonly. cbn [iterate]. set (m' := fold_left _ items m). exists m'. split; [reflexivity|].
  destruct (fold_read_only items m) as (B & L & H). fold m' in B, L, H. split; [exact B|]. split; [|split].
  - intros r k x Lr I. destruct (obj m r) as [a|] eqn:O; [|apply nth_error_None in O; lia]. unfold write. now rewrite (proj1 (H r a O) I).
  - intros r k Lr. destruct (obj m r) as [a|] eqn:O; [|apply nth_error_None in O; lia].
    assert (G : exists b, obj m' r = Some b /\ a_buf b = a_buf a /\ a_cells b = a_cells a).
    { destruct (obj m' r) as [b|] eqn:O'; [|apply nth_error_None in O'; lia]. exists b. split; auto.
      destruct (H r a O) as [H1 H2]. assert (DI : In (Arr r) items \/ ~ In (Arr r) items).
      { clear. induction items as [|y l IH]; [now right|]. destruct IH as [I|I]; [left; now right|]. destruct y as [q| |k]; try (right; intros [X|X]; [discriminate|auto]).
        destruct (Nat.eq_dec q r) as [->|]; [left; now left|right; intros [X|X]; [congruence|auto]]. }
      destruct DI as [I|I]; [rewrite O' in H1; injection (H1 I) as ->; auto|rewrite O' in H2; injection (H2 I) as ->; auto]. }
    destruct G as (b & O' & EB & EC). unfold read. rewrite O', O, EB, EC, B. reflexivity.
  - intros r Lr I. destruct (obj m r) as [a|] eqn:O; [|apply nth_error_None in O; lia]. now apply H.
Qed.
Print Assumptions C93_sequence.
(** Given an array, it changes nothing about that array, nor about any other that exists:
    every write succeeds or fails as before. *)
Theorem C117_array_refuted : forall A (m : memory A) r a, obj m r = Some a -> a_shape a <> [] ->
  exists m', np_make_readonly m (Arr r) = (m', Ok tt) /\ (forall q, q < length (objs m) -> obj m' q = obj m q) /\
  forall k x, a_writeable a = true -> k < length (a_cells a) -> snd (write m' r k x) = Ok tt.
Proof.
  intros A m r a O NS. unfold np_make_readonly. cbn [iterate]. rewrite O. pose proof (obj_lt O) as Lr.
  assert (G : forall (m1 : memory A) items, bufs m1 = bufs m -> (forall q, q < length (objs m) -> obj m1 q = obj m q) ->
    (forall q, q < length (objs m) -> ~ In (Arr q) items) ->
    let m' := fold_left (fun m a => match a with Arr r => set_read_only m r | _ => m end) items m1 in
    (forall q, q < length (objs m) -> obj m' q = obj m q) /\
    (forall k x, a_writeable a = true -> k < length (a_cells a) -> snd (write m' r k x) = Ok tt)).
  { intros m1 items B1 O1 NI m'. destruct (fold_read_only items m1) as (B & L & H). fold m' in B, L, H.
    assert (Q : forall q, q < length (objs m) -> obj m' q = obj m q).
    { intros q Lq. destruct (obj m q) as [b|] eqn:Ob; [|apply nth_error_None in Ob; lia]. apply (H q b); auto. now rewrite O1. }
    split; [exact Q|]. intros k x W K. unfold write. rewrite (Q r Lr), O, W. destruct (nth_error (a_cells a) k) eqn:E; [reflexivity|apply nth_error_None in E; lia]. }
  destruct (a_shape a) as [|n [|n2 rest]]; [contradiction| |].
  - eexists. split; [reflexivity|]. apply G; auto. intros q _ I. apply repeat_spec in I. discriminate.
  - eexists. split; [reflexivity|]. apply G; auto.
    + intros q Lq. now apply obj_app.
    + intros q Lq I. apply in_map_iff in I as (i & E & _). injection E as E. lia.
Qed.
Print Assumptions C117_array_refuted.
Example C93_example : obj m6 0 = Some (mkarr 0 [2; 3] [0; 1; 2; 3; 4; 5] true) /\
  (exists m', np_make_readonly m6 (Arr 0) = (m', Ok tt) /\ snd (write m' 0 0 99) = Ok tt) /\
  (exists m', np_make_readonly m6 (Seq [Arr 0; Scalar]) = (m', Ok tt) /\ snd (write m' 0 0 99) = Err ValueError /\ snd (write m' 1 0 99) = Ok tt).
Proof. repeat split; eexists; repeat split. Qed.
