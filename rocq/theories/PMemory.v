(** * Proofs about array memory. *)
From Coq Require Import ZArith List Bool Arith Lia.
From Verif Require Import Num Vec MMemory SpecMemory.
Import ListNotations.
Set Implicit Arguments.
Unset Strict Implicit.

Section Basics.
Context {A : Type}.
Implicit Types (m : memory A) (r : ref).

Lemma upd_length {B} (l : list B) k x : length (upd l k x) = length l.
Proof. revert k. induction l as [|y l IH]; intros [|k]; cbn; auto. Qed.
Lemma upd_same {B} (l : list B) k x : k < length l -> nth_error (upd l k x) k = Some x.
Proof. revert k. induction l as [|y l IH]; intros [|k] H; cbn in *; try lia; auto. apply IH. lia. Qed.
Lemma upd_other {B} (l : list B) k j x : j <> k -> nth_error (upd l k x) j = nth_error l j.
Proof. revert k j. induction l as [|y l IH]; intros [|k] [|j] H; cbn; auto; lia. Qed.
Lemma nth_upd_same {B} (l : list B) k x d : k < length l -> nth k (upd l k x) d = x.
Proof. intros H. apply nth_error_nth. now apply upd_same. Qed.
Lemma nth_upd_other {B} (l : list B) k j x d : j <> k -> nth j (upd l k x) d = nth j l d.
Proof. revert k j. induction l as [|y l IH]; intros [|k] [|j] H; cbn; auto; lia. Qed.

Lemma obj_lt m r a : obj m r = Some a -> r < length (objs m).
Proof. intros H. apply nth_error_Some. unfold obj in H. congruence. Qed.
Lemma obj_app m r a (bs : list (list A)) : r < length (objs m) -> obj (mkmem bs (objs m ++ a)) r = obj m r.
Proof. intros H. unfold obj. cbn. now rewrite nth_error_app1. Qed.
Lemma obj_new m a (bs : list (list A)) : obj (mkmem bs (objs m ++ [a])) (length (objs m)) = Some a.
Proof. unfold obj. cbn. rewrite nth_error_app2, Nat.sub_diag by lia. reflexivity. Qed.

Lemma read_ok m r a k : sound m -> obj m r = Some a -> k < length (a_cells a) -> exists x, read m r k = Ok x.
Proof.
  intros S O H. destruct (S r a O) as (B & C & _). unfold read. rewrite O.
  destruct (nth_error (a_cells a) k) as [c|] eqn:E; [|apply nth_error_None in E; lia].
  specialize (C c (nth_error_In _ _ E)). destruct (nth_error (nth (a_buf a) (bufs m) []) c) eqn:E2; [eauto|apply nth_error_None in E2; lia].
Qed.
(** a write through one array is read through another of the same cells *)
Lemma write_read m v r a b k x m' : sound m -> obj m v = Some a -> obj m r = Some b -> a_buf a = a_buf b -> a_cells a = a_cells b ->
  write m v k x = (m', Ok tt) -> read m' r k = Ok x.
Proof.
  intros S Oa Ob EB EC. unfold write. rewrite Oa. destruct (a_writeable a); [|discriminate]. destruct (nth_error (a_cells a) k) as [c|] eqn:E; [|discriminate].
  intros [= <-]. unfold read, obj. cbn [objs bufs]. unfold obj in Ob. rewrite Ob, <- EB, <- EC, E.
  destruct (S v a Oa) as (B & C & _). rewrite nth_upd_same by auto. rewrite upd_same; [reflexivity|]. apply C. now apply nth_error_In in E.
Qed.
(** a write through an array of another buffer is not seen *)
Lemma write_apart m v r a b k x : obj m v = Some a -> obj m r = Some b -> a_buf a <> a_buf b -> forall j, read (fst (write m v k x)) r j = read m r j.
Proof.
  intros Oa Ob NE j. unfold write. rewrite Oa. destruct (a_writeable a); [|reflexivity]. destruct (nth_error (a_cells a) k) as [c|]; [|reflexivity].
  cbn [fst]. unfold read, obj. cbn [objs bufs]. unfold obj in Ob. rewrite Ob. destruct (nth_error (a_cells b) j); [|reflexivity]. now rewrite nth_upd_other by auto.
Qed.
Lemma write_objs m v k x : objs (fst (write m v k x)) = objs m.
Proof. unfold write. destruct (obj m v) as [a|]; [|reflexivity]. destruct (a_writeable a); [|reflexivity]. destruct (nth_error _ _); reflexivity. Qed.
Lemma writes_apart ops : forall m r b, obj m r = Some b ->
  (forall v k x a, In (v, k, x) ops -> obj m v = Some a -> a_buf a <> a_buf b) -> forall j, read (writes m ops) r j = read m r j.
Proof.
  induction ops as [|[[v k] x] ops IH]; intros m r b O H j; [reflexivity|]. cbn [writes].
  assert (E : read (fst (write m v k x)) r j = read m r j).
  { destruct (obj m v) as [a|] eqn:Ov; [|unfold write; now rewrite Ov]. apply write_apart with (a := a) (b := b); auto. apply (H v k x); auto. now left. }
  rewrite <- E. apply IH with (b := b).
  - unfold obj. rewrite write_objs. exact O.
  - intros v' k' x' a I O'. apply (H v' k' x'); [now right|]. unfold obj in *. now rewrite write_objs in O'.
Qed.

Lemma traverse_in {B C} (f : B -> res C) l : (forall x, In x l -> exists y, f x = Ok y) -> exists ys, traverse f l = Ok ys /\ Forall2 (fun x y => f x = Ok y) l ys.
Proof.
  induction l as [|x l IH]; intros H; [exists []; split; [reflexivity|constructor]|]. destruct (H x (or_introl eq_refl)) as (y & E). destruct IH as (ys & E' & F); [intros; apply H; now right|].
  exists (y :: ys). cbn [traverse]. rewrite E. cbn [bindr]. rewrite E'. cbn [bindr]. split; [reflexivity|now constructor].
Qed.
Lemma entries_ok m r a : sound m -> obj m r = Some a -> exists xs, all_entries m a = Ok xs /\ length xs = length (a_cells a) /\
  forall k, nth_error xs k = match read m r k with Ok x => Some x | Err _ => None end.
Proof.
  intros S O. destruct (S r a O) as (B & C & _).
  destruct (@traverse_in nat A (fun c => match nth_error (nth (a_buf a) (bufs m) []) c with Some x => Ok x | None => Err OtherException end) (a_cells a)) as (xs & E & F2).
  { intros c Hc. specialize (C c Hc). destruct (nth_error _ c) eqn:E; [eauto|apply nth_error_None in E; lia]. }
  exists xs. split; [exact E|]. split; [clear - F2; induction F2; cbn; auto|].
  intros k. unfold read. rewrite O. clear - F2. revert k. induction F2 as [|c x cs xs H F IH]; intros [|k]; cbn; auto. destruct (nth_error _ c); [congruence|discriminate].
Qed.
Lemma nth_seq0 n k : k < n -> nth_error (seq 0 n) k = Some k.
Proof. intros H. rewrite (nth_error_nth' _ 0) by now rewrite seq_length. now rewrite seq_nth. Qed.
(** a fresh copy reads the same *)
Lemma fresh_read m xs shape k : read (fst (fresh m xs shape)) (snd (fresh m xs shape)) k = match nth_error xs k with Some x => Ok x | None => Err IndexError end.
Proof.
  unfold fresh, new_obj, read. cbn [fst snd objs bufs]. unfold obj. cbn [objs]. rewrite nth_error_app2, Nat.sub_diag by lia. cbn [nth_error a_cells a_buf].
  rewrite app_nth2, Nat.sub_diag by lia. cbn [nth]. destruct (Nat.lt_ge_cases k (length xs)) as [L|L].
  - rewrite nth_seq0 by auto. destruct (nth_error xs k) eqn:E; [reflexivity|apply nth_error_None in E; lia].
  - destruct (nth_error (seq 0 (length xs)) k) as [c|] eqn:E; [|now rewrite (proj2 (nth_error_None xs k))].
    exfalso. assert (k < length (seq 0 (length xs))) by (apply nth_error_Some; congruence). rewrite seq_length in *. lia.
Qed.
Lemma read_index m r a k : sound m -> obj m r = Some a -> read m r k = match read m r k with Ok x => Ok x | Err _ => Err IndexError end.
Proof.
  intros S O. destruct (Nat.lt_ge_cases k (length (a_cells a))) as [L|L]; [destruct (read_ok S O L) as (x & ->); reflexivity|].
  unfold read. rewrite O. now rewrite (proj2 (nth_error_None (a_cells a) k)).
Qed.
Lemma fresh_sound m xs shape : sound m -> fold_right Nat.mul 1 shape = length xs -> sound (fst (fresh m xs shape)).
Proof.
  intros S E r a. unfold fresh, new_obj, obj. cbn [fst objs bufs]. rewrite app_length. cbn [length].
  destruct (Nat.lt_ge_cases r (length (objs m))) as [L|L].
  - rewrite nth_error_app1 by auto. intros O. destruct (S r a O) as (B & C & D). split; [lia|]. split; [|exact D]. intros c Hc. rewrite app_nth1 by auto. auto.
  - rewrite nth_error_app2 by auto. destruct (r - length (objs m)) as [|k]; [|destruct k; discriminate]. cbn. intros [= <-]. cbn.
    split; [lia|]. split; [|now rewrite seq_length]. intros c Hc. rewrite app_nth2, Nat.sub_diag by lia. cbn. apply in_seq in Hc. lia.
Qed.

(** ** Requested shapes *)
Lemma fix_shape_ok size shape s : fix_shape size shape = Ok s -> answers shape s size.
Proof.
  unfold fix_shape. set (known := nprod _). intros E.
  assert (G0 : length (filter (fun z => Z.ltb z 0) shape) = 0 -> filter (fun z => Z.leb 0 z) shape = shape).
  { clear. induction shape as [|z l IH]; cbn; auto. destruct (Z.ltb_spec z 0), (Z.leb_spec 0 z); cbn; try lia; try discriminate. intros. f_equal. auto. }
  assert (G1 : forall d, length (filter (fun z => Z.ltb z 0) shape) = 1 ->
    nprod (map (fun z => if Z.ltb z 0 then d else Z.to_nat z) shape) = d * nprod (map Z.to_nat (filter (fun z => Z.leb 0 z) shape))).
  { clear. intros d. unfold nprod. induction shape as [|z l IH]; cbn; [discriminate|]. destruct (Z.ltb_spec z 0), (Z.leb_spec 0 z); cbn; try lia.
    - intros [= H1]. f_equal. clear IH. induction l as [|y l IH]; cbn; auto. revert H1. cbn. destruct (Z.ltb_spec y 0), (Z.leb_spec 0 y); cbn; try lia; try discriminate; intros; f_equal; auto. }
  destruct (length (filter (fun z => Z.ltb z 0) shape)) as [|[|n]] eqn:L; [| |discriminate].
  - destruct (Nat.eqb_spec known size) as [K|]; [|discriminate]. injection E as <-. split.
    + assert (P : forall z, In z shape -> (0 <= z)%Z). { intros z Hz. rewrite <- (G0 eq_refl) in Hz. apply filter_In in Hz as [_ Hz]. now apply Z.leb_le. }
      clear - P. induction shape as [|z l IH]; cbn; constructor; [right; rewrite Z2Nat.id; auto; apply P; now left|]. apply IH. intros; apply P; now right.
    + subst size. unfold known. rewrite (G0 eq_refl). reflexivity.
  - destruct (Nat.eqb_spec known 0) as [|K]; [discriminate|]. destruct (Nat.eqb_spec (size mod known) 0) as [M|]; [|discriminate]. injection E as <-. split.
    + generalize (size / known). clear. intros d. induction shape as [|z l IH]; cbn; constructor; auto. destruct (Z.ltb_spec z 0); [now left|right]. rewrite Z2Nat.id; auto.
    + pose proof (G1 (size / known) eq_refl) as G. unfold nprod in G at 1. rewrite G. fold known. pose proof (Nat.div_mod size known K). lia.
Qed.
Lemma fix_shape_err size shape e : fix_shape size shape = Err e -> e = ValueError.
Proof. unfold fix_shape. destruct (length _) as [|[|]]; repeat destruct (Nat.eqb _ _); congruence. Qed.
End Basics.
