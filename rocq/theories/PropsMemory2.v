(** * Properties C93 and C94, continued: the rows of an array, a transposed array, and the
    arrays a Polyline refuses. *)
From Coq Require Import Reals ZArith List Bool Arith Lia.
From Verif Require Import Num Vec MMemory SpecMemory PMemory PropsMemory PropsShared.
Import ListNotations.
Set Implicit Arguments.
Unset Strict Implicit.

Lemma nth_error_firstn {B} (l : list B) : forall n k, k < n -> nth_error (firstn n l) k = nth_error l k.
Proof. induction l as [|x l IH]; intros [|n] [|k] H; cbn; auto; try lia. apply IH. lia. Qed.
Lemma nth_error_skipn {B} (l : list B) : forall n k, nth_error (skipn n l) k = nth_error l (n + k).
Proof. induction l as [|x l IH]; intros [|n] k; cbn; auto. now destruct k. Qed.

(** ** C93.  What becomes read-only, when an array with two or more dimensions is given, are
    new views of its rows: view [i] reads row [i], and refuses writes. *)
Theorem C93_rows : forall A (m : memory A) r a n n2 rest, obj m r = Some a -> a_shape a = n :: n2 :: rest ->
  exists m', np_make_readonly m (Arr r) = (m', Ok tt) /\ bufs m' = bufs m /\ length (objs m') = length (objs m) + n /\
  forall i, i < n -> let v := length (objs m) + i in let size := fold_right Nat.mul 1 (n2 :: rest) in
    (exists b, obj m' v = Some b /\ a_shape b = n2 :: rest) /\
    (forall k, k < size -> read m' v k = read m r (i * size + k)) /\
    (forall k x, write m' v k x = (m', Err ValueError)).
Proof.
  intros A m r a n n2 rest O Sh. unfold np_make_readonly. cbn [iterate]. rewrite O, Sh.
  set (m1 := mkmem _ _). set (items := map _ (seq 0 n)). set (m' := fold_left _ _ _). exists m'. split; [reflexivity|].
  destruct (fold_read_only items m1) as (B & L & H). fold m' in B, L, H. split; [exact B|].
  split; [rewrite L; unfold m1; cbn [objs]; now rewrite app_length, map_length, seq_length|].
  intros i Hi. set (v := length (objs m) + i). set (size := fold_right Nat.mul 1 (n2 :: rest)).
  assert (Ov : obj m1 v = Some (subarray a (n2 :: rest) i)).
  { unfold m1, obj, v. cbn [objs]. rewrite nth_error_app2 by lia. replace (length (objs m) + i - length (objs m)) with i by lia.
    erewrite map_nth_error by now apply nth_seq0. reflexivity. }
  assert (Iv : In (Arr v) items). { unfold items. apply in_map_iff. exists i. split; [reflexivity|]. apply in_seq. lia. }
  pose proof (proj1 (H v _ Ov) Iv) as Ov'. split; [eauto|]. split.
  - intros k Hk. unfold read. rewrite Ov', O. cbn [a_cells a_buf read_only subarray]. rewrite B. unfold m1. cbn [bufs].
    change (nprod (n2 :: rest)) with size. now rewrite nth_error_firstn, nth_error_skipn by auto.
  - intros k x. unfold write. now rewrite Ov'.
Qed.
Print Assumptions C93_rows.
Example C93_rows_example : exists m', np_make_readonly m6 (Arr 1) = (m', Ok tt) /\ length (objs m') = 5 /\ read m' 3 0 = Ok 11 /\ read m' 3 1 = Ok 14 /\
  snd (write m' 3 0 99) = Err ValueError.
Proof. eexists. repeat split. Qed.
(** Neither a number nor an array without dimensions can be iterated over. *)
Theorem C93_not_iterable : forall A (m : memory A) x, (x = Scalar \/ exists r a, x = Arr r /\ obj m r = Some a /\ a_shape a = []) ->
  np_make_readonly m x = (m, Err TypeError).
Proof. intros A m x [->|(r & a & -> & O & Sh)]; unfold np_make_readonly; cbn [iterate]; [reflexivity|]. now rewrite O, Sh. Qed.
Print Assumptions C93_not_iterable.

(** ** C94 *)
Lemma nth_flat_rows (f : nat -> list nat) rows : forall n b j k, (forall x, length (f x) = rows) -> j < n -> k < rows ->
  nth_error (flat_map f (seq b n)) (rows * j + k) = nth_error (f (b + j)) k.
Proof.
  induction n as [|n IH]; intros b j k Hf Hj Hk; [lia|]. cbn [seq flat_map]. destruct j as [|j].
  - rewrite Nat.mul_0_r, Nat.add_0_r. cbn. rewrite nth_error_app1; [reflexivity|]. now rewrite Hf.
  - rewrite nth_error_app2 by (rewrite Hf; lia). rewrite Hf. replace (rows * S j + k - rows) with (rows * j + k) by lia.
    rewrite IH by (auto; lia). now replace (S b + j) with (b + S j) by lia.
Qed.
Lemma transposed_cell a rows cols i j : length (a_cells a) = rows * cols -> i < rows -> j < cols ->
  nth_error (a_cells (transposed a rows cols)) (rows * j + i) = nth_error (a_cells a) (i * cols + j).
Proof.
  intros L Hi Hj. cbn [transposed a_cells]. rewrite nth_flat_rows with (rows := rows); auto; [|intros x; now rewrite map_length, seq_length].
  cbn [Nat.add]. erewrite map_nth_error by now apply nth_seq0. symmetry. apply nth_error_nth'. rewrite L. nia.
Qed.

Section Shared.
Context {F : Type} {N : Num F}.
(** Given a float64 array of shape (3, n), where n is not 3, the polyline has n vertices and
    holds a view of the array: coordinate [i] of vertex [j] is entry (i, j) of the array, now
    and after a write to it. *)
Theorem C118_transposed : forall (s s' : store) r a n closed p, sound (fm s) -> sound (im s) ->
  obj (fm s) r = Some a -> a_shape a = [3; n] -> n <> 3 -> new_polyline s (AArr r) closed = (s', p, Ok tt) ->
  exists rv b, o_v p = Some rv /\ o_closed p = closed /\ obj (fm s') rv = Some b /\ a_shape b = [n; 3] /\
    forall i j, i < 3 -> j < n ->
    read (fm s') rv (3 * j + i) = read (fm s) r (i * n + j) /\
    (forall x m'', write (fm s') r (i * n + j) x = (m'', Ok tt) -> read m'' rv (3 * j + i) = Ok x) /\
    (forall x m'', write (fm s') rv (3 * j + i) x = (m'', Ok tt) -> read m'' r (i * n + j) = Ok x).
Proof.
  intros s s' r a n closed p Sf Si O Sh N3. unfold new_polyline, set_v, coerce. rewrite O. destruct (entries_ok Sf O) as (xs & -> & _).
  destruct (forallb nfinite xs); [|discriminate]. rewrite Sh. intros E.
  set (m := mkmem (bufs (fm s)) (objs (fm s) ++ [transposed a 3 n])). set (rv := length (objs (fm s))).
  assert (E2 : update_edges (mkstore m (im s)) (mkpobj (Some rv) closed None) = (s', p, Ok tt)).
  { destruct n as [|[|[|[|n]]]]; try (exfalso; apply N3; reflexivity); exact E. }
  clear E. apply (@update_edges_ok F (mkstore m (im s))) in E2 as (Ef & Ev & Ec & _); [|exact Si]. cbn [o_v o_closed fm] in Ev, Ec, Ef. rewrite Ef.
  assert (Or : obj m r = Some a) by (unfold m; rewrite obj_app; [exact O|now apply (obj_lt O)]).
  assert (Ov : obj m rv = Some (transposed a 3 n)) by apply (@obj_new F (fm s)).
  exists rv, (transposed a 3 n). split; [exact Ev|]. split; [exact Ec|]. split; [exact Ov|]. split; [reflexivity|]. intros i j Hi Hj.
  destruct (Sf r a O) as (Hb & Hc & Hl). rewrite Sh in Hl. cbn [fold_right] in Hl.
  assert (L : length (a_cells a) = 3 * n) by lia.
  pose proof (transposed_cell L Hi Hj) as T.
  assert (K : i * n + j < length (a_cells a)) by (rewrite L; nia).
  destruct (nth_error (a_cells a) (i * n + j)) as [c|] eqn:EC; [|apply nth_error_None in EC; lia].
  assert (Cl : c < length (nth (a_buf a) (bufs (fm s)) [])) by (apply Hc; eapply nth_error_In; eauto).
  assert (U : forall x, nth_error (nth (a_buf a) (upd (bufs (fm s)) (a_buf a) (upd (nth (a_buf a) (bufs (fm s)) []) c x)) []) c = Some x).
  { intros x. rewrite nth_upd_same by exact Hb. now apply upd_same. }
  split; [|split].
  - unfold read. rewrite Ov, O, T, EC. cbn [transposed a_buf]. reflexivity.
  - intros x m''. unfold write. rewrite Or, EC. destruct (a_writeable a); [|discriminate]. intros [= <-]. unfold read.
    change (obj _ rv) with (obj m rv). rewrite Ov, T. cbn [transposed a_buf bufs]. unfold m. cbn [bufs]. now rewrite U.
  - intros x m''. unfold write. rewrite Ov, T. cbn [transposed a_buf a_writeable]. destruct (a_writeable a); [|discriminate]. intros [= <-]. unfold read.
    change (obj _ r) with (obj m r). rewrite Or, EC. unfold m. cbn [bufs]. now rewrite U.
Qed.
(** An array of any other shape, or with an entry that is not finite, is refused with
    ValueError; the polyline and all arrays are as they were. *)
Theorem C94_refused : forall (s : store) r a p, sound (fm s) -> obj (fm s) r = Some a ->
  ((forall n, a_shape a <> [n; 3] /\ a_shape a <> [3; n]) \/ (exists k x, read (fm s) r k = Ok x /\ nfinite x = false)) ->
  set_v s p (AArr r) = (s, p, Err ValueError).
Proof.
  intros s r a p Sf O H. unfold set_v, coerce. rewrite O. destruct (entries_ok Sf O) as (xs & -> & Len & Rd).
  destruct (forallb nfinite xs) eqn:Fin; [|reflexivity]. destruct H as [H|(k & x & E & NF)].
  - destruct (a_shape a) as [|d1 [|d2 [|d3 l]]].
    + reflexivity.
    + now destruct d1 as [|[|[|[|]]]].
    + destruct (H d1) as [H1 _]. destruct (H d2) as [_ H2].
      destruct d2 as [|[|[|[|d2]]]]; try (now exfalso; apply H1); destruct d1 as [|[|[|[|d1]]]]; try reflexivity; now exfalso; apply H2.
    + destruct d1 as [|[|[|[|d1]]]]; destruct d2 as [|[|[|[|d2]]]]; reflexivity.
  - exfalso. rewrite forallb_forall in Fin. assert (I : In x xs).
    { specialize (Rd k). rewrite E in Rd. now apply nth_error_In with k. }
    rewrite (Fin x I) in NF. discriminate.
Qed.
End Shared.
Print Assumptions C118_transposed.
Print Assumptions C94_refused.
Definition s1 : store (F := xr) := mkstore (mkmem [map Fin [1; 2; 3; 4; 5; 6]%R] [mkarr 0 [3; 2] [0; 1; 2; 3; 4; 5] true; mkarr 0 [6] [0; 1; 2; 3; 4; 5] true]) (mkmem [] []).
Example C94_transposed_example : sound (fm s1) /\ exists s p, new_polyline s1 (AArr 0) false = (s, p, Ok tt) /\
  exists rv, o_v p = Some rv /\ read (fm s) rv 1 = Ok (Fin 3%R) /\ set_v s p (AArr 1) = (s, p, Err ValueError).
Proof.
  split.
  - intros [|[|[|r]]] a; cbn; try discriminate; intros [= <-]; cbn; (split; [lia|]); (split; [|reflexivity]); intros c Hc; repeat destruct Hc as [<-|Hc]; try lia; destruct Hc.
  - do 2 eexists. split; [reflexivity|]. eexists. repeat split.
Qed.
