(** * Proofs about inflection_points. *)
From Coq Require Import Reals ZArith List Bool Lra Lia Psatz.
From Flocq Require Import Core.
From Verif Require Import Num XLemmas Vec RVec VLemmas NpList MApex SpecApex.
Import ListNotations.
Local Open Scope R_scope.
Set Implicit Arguments.
Unset Strict Implicit.

Definition mid (d1 d2 p m n : R) : R := - d2 / (d1 * (d1 + d2)) * p + (d2 - d1) / (d1 * d2) * m + d1 / (d2 * (d1 + d2)) * n.
Fixpoint rmid (x f : list R) : list R :=
  match x, f with
  | x0 :: x', p :: f' => match x', f' with
      | x1 :: x2 :: _, m :: n :: _ => mid (x1 - x0) (x2 - x1) p m n :: rmid x' f'
      | _, _ => []
      end
  | _, _ => []
  end.
Fixpoint good (x : list R) : Prop :=
  match x with
  | a :: x' => match x' with b :: y => a <> b /\ (match y with c :: _ => a <> c | [] => True end) /\ good x' | [] => True end
  | [] => True
  end.
Lemma spread_good x : spread x -> good x.
Proof.
  induction x as [|a x IH]; intros H; [exact I|]. cbn [good]. destruct x as [|b y]; [exact I|]. split; [|split].
  - apply (proj1 (H 0%nat)). cbn. lia.
  - destruct y as [|c y]; [exact I|]. apply (proj2 (H 0%nat)). cbn. lia.
  - apply IH. intros i. specialize (H (S i)). cbn [length] in *. destruct H as [H1 H2]. split; intros L; [apply H1|apply H2]; cbn in *; lia.
Qed.
Lemma diff_cons {F} {N : Num F} (a b : F) l : diff (a :: b :: l) = nsub b a :: diff (b :: l).
Proof. reflexivity. Qed.
Lemma mid_fin d1 d2 p m n : d1 <> 0 -> d2 <> 0 -> d1 + d2 <> 0 ->
  nadd (nadd (nmul (ndiv (nopp (Fin d2)) (nmul (Fin d1) (nadd (Fin d1) (Fin d2)))) (Fin p)) (nmul (ndiv (nsub (Fin d2) (Fin d1)) (nmul (Fin d1) (Fin d2))) (Fin m)))
       (nmul (ndiv (Fin d1) (nmul (Fin d2) (nadd (Fin d1) (Fin d2)))) (Fin n)) = Fin (mid d1 d2 p m n).
Proof.
  intros H1 H2 H3. change (nadd (Fin d1) (Fin d2)) with (Fin (d1 + d2)). change (nopp (Fin d2)) with (Fin (- d2)). change (nsub (Fin d2) (Fin d1)) with (Fin (d2 - d1)).
  change (nmul (Fin d1) (Fin (d1 + d2))) with (Fin (d1 * (d1 + d2))). change (nmul (Fin d1) (Fin d2)) with (Fin (d1 * d2)). change (nmul (Fin d2) (Fin (d1 + d2))) with (Fin (d2 * (d1 + d2))).
  rewrite !xdivE by (repeat apply Rmult_integral_contrapositive_currified; auto). reflexivity.
Qed.
Lemma inner_fin x f : length x = length f -> good x -> inner (diff (map Fin x)) (map Fin f) = map Fin (rmid x f).
Proof.
  revert f. induction x as [|x0 x IH]; intros [|p f] L G; try discriminate L; [reflexivity|]. injection L as L.
  destruct x as [|x1 x]; destruct f as [|m f]; try discriminate L; [reflexivity|]. destruct x as [|x2 x]; destruct f as [|n f]; try discriminate L; [reflexivity|].
  cbn [map]. rewrite !diff_cons. cbn [inner]. cbn [good] in G. destruct G as (G1 & G2 & G3 & G4 & G5).
  assert (Q := IH (m :: n :: f) L (conj G3 (conj G4 G5))). cbn [map] in Q. rewrite diff_cons in Q. 
  cbn [rmid map]. f_equal; [|exact Q]. apply mid_fin; lra.
Qed.
Lemma uniform_mid h p m n : h <> 0 -> (n - p) / (2 * h) = mid h h p m n.
Proof. intros H. unfold mid. field; repeat split; lra. Qed.
Lemma inner_uniform_fin h x f : length x = length f -> h <> 0 -> (forall d, In d (diff (map Fin x)) -> d = Fin h) -> inner_uniform (Fin h) (map Fin f) = map Fin (rmid x f).
Proof.
  revert f. induction x as [|x0 x IH]; intros [|p f] L H D; try discriminate L; [reflexivity|]. injection L as L.
  destruct x as [|x1 x]; destruct f as [|m f]; try discriminate L; [reflexivity|]. destruct x as [|x2 x]; destruct f as [|n f]; try discriminate L; [reflexivity|].
  cbn [map] in *. rewrite !diff_cons in D.
  assert (Q : inner_uniform (Fin h) (map Fin (m :: n :: f)) = map Fin (rmid (x1 :: x2 :: x) (m :: n :: f))).
  { apply IH; [auto|auto|]. intros d I. apply D. right. exact I. }
  cbn [inner_uniform rmid map] in *. f_equal; [|exact Q].
  assert (D1 := D _ (or_introl eq_refl)). assert (D2 := D _ (or_intror (or_introl eq_refl))). injection D1 as D1. injection D2 as D2. rewrite D1, D2.
  rewrite <- (uniform_mid p m n H). rewrite xofZ. change (nmul (Fin 2) (Fin h)) with (Fin (2 * h)). change (nsub (Fin n) (Fin p)) with (Fin (n - p)). rewrite xdivE by lra. reflexivity.
Qed.
Definition ends (x f mid : list R) : list R :=
  (at_ f 1 - at_ f 0) / (at_ x 1 - at_ x 0) :: mid ++ [(at_ f (length f - 1) - at_ f (length f - 2)) / (at_ x (length f - 1) - at_ x (length f - 2))].
Lemma rev_two (f : list R) : (2 <= length f)%nat -> exists r, rev f = at_ f (length f - 1) :: at_ f (length f - 2) :: r.
Proof.
  intros L. unfold at_. rewrite <- (rev_length f) in *. assert (E : f = rev (rev f)) by now rewrite rev_involutive. 
  destruct (rev f) as [|a [|b r]] eqn:R; cbn in L; try lia. exists r. rewrite E. cbn [length rev]. rewrite <- app_assoc. cbn [app].
  rewrite !app_nth2; rewrite rev_length; [|lia|lia]. replace (S (S (length r)) - 1 - length r)%nat with 1%nat by lia. replace (S (S (length r)) - 2 - length r)%nat with 0%nat by lia. reflexivity.
Qed.
Lemma with_ends_fin x f m h0 hn : (2 <= length f)%nat -> h0 = at_ x 1 - at_ x 0 -> hn = at_ x (length f - 1) - at_ x (length f - 2) -> h0 <> 0 -> hn <> 0 ->
  with_ends (Fin h0) (Fin hn) (map Fin f) (map Fin m) = Ok (map Fin (ends x f m)).
Proof.
  intros L E0 En N0 Nn. unfold with_ends, ends. destruct (rev_two L) as [r R]. destruct f as [|a [|b f]]; cbn in L; try lia. cbn [map].
  change (rev (Fin a :: Fin b :: map Fin f)) with (rev (map Fin (a :: b :: f))). rewrite <- map_rev, R. cbn [map].
  rewrite map_app. cbn [map]. rewrite <- E0, <- En. change (nsub (Fin b) (Fin a)) with (Fin (b - a)).
  set (u := at_ (a :: b :: f) _). set (w := at_ (a :: b :: f) _). change (nsub (Fin u) (Fin w)) with (Fin (u - w)). rewrite !xdivE by auto. reflexivity.
Qed.
Lemma diff_at x i d : (S i < length x)%nat -> nth i (diff (map Fin x)) d = Fin (at_ x (S i) - at_ x i).
Proof.
  revert i. induction x as [|a [|b x] IH]; intros i L; cbn in L; try lia. cbn [map] in *. rewrite diff_cons. destruct i as [|i]; [reflexivity|]. cbn [nth].
  change (at_ (a :: b :: x) (S (S i))) with (at_ (b :: x) (S i)). change (at_ (a :: b :: x) (S i)) with (at_ (b :: x) i). apply IH. cbn. lia.
Qed.
Lemma diff_length (x : list R) : length (diff (map Fin x)) = (length x - 1)%nat.
Proof. induction x as [|a [|b x] IH]; try reflexivity. cbn [map] in *. rewrite diff_cons. cbn [length] in *. lia. Qed.
Lemma last_nth {A} (l : list A) d : last l d = nth (length l - 1) l d.
Proof. induction l as [|a [|b l] IH]; try reflexivity. change (last (a :: b :: l) d) with (last (b :: l) d). rewrite IH. cbn [length]. replace (S (S (length l)) - 1)%nat with (S (S (length l) - 1)) by lia. reflexivity. Qed.
Lemma gradient_ok x f : length x = length f -> (2 <= length f)%nat -> spread x -> gradient (map Fin f) (map Fin x) = Ok (map Fin (ends x f (rmid x f))).
Proof.
  intros L L2 S. pose proof (spread_good S) as G. unfold gradient. rewrite !map_length, L, Nat.eqb_refl. cbn [negb]. cbv zeta.
  assert (D0 : exists l, diff (map Fin x) = Fin (at_ x 1 - at_ x 0) :: l).
  { destruct x as [|a [|b x]]; cbn in L; try lia. eexists. reflexivity. }
  destruct D0 as [l D0]. rewrite D0. rewrite <- D0.
  assert (N0 : at_ x 1 - at_ x 0 <> 0). { pose proof (proj1 (S 0%nat)) as H. cbn [plus] in H. specialize (H ltac:(lia)). lra. }
  assert (Nn : at_ x (length f - 1) - at_ x (length f - 2) <> 0). { pose proof (proj1 (S (length f - 2)%nat) ltac:(lia)) as H. replace (length f - 2 + 1)%nat with (length f - 1)%nat in H by lia. lra. }
  assert (EL : last (diff (map Fin x)) (Fin (at_ x 1 - at_ x 0)) = Fin (at_ x (length f - 1) - at_ x (length f - 2))).
  { rewrite last_nth, diff_length, L. rewrite diff_at by lia. do 2 f_equal; f_equal; lia. }
  destruct (forallb _ _) eqn:U.
  - assert (A : forall d, In d (diff (map Fin x)) -> d = Fin (at_ x 1 - at_ x 0)).
    { intros d I. rewrite forallb_forall in U. specialize (U d I). destruct d as [d|]; [|discriminate U]. change (Req_bool d (at_ x 1 - at_ x 0) = true) in U. f_equal. revert U. destruct (Req_bool_spec d (at_ x 1 - at_ x 0)); [auto|discriminate]. }
    rewrite (inner_uniform_fin L N0 A). apply with_ends_fin; auto.
    assert (E : Fin (at_ x 1 - at_ x 0) = Fin (at_ x (length f - 1) - at_ x (length f - 2))).
    { rewrite <- EL. symmetry. apply A. rewrite D0. destruct (@exists_last _ (Fin (at_ x 1 - at_ x 0) :: l)) as (l' & z & Z); [discriminate|]. rewrite Z, last_last, in_app_iff. right. now left. }
    now injection E.
  - rewrite EL, inner_fin by auto. apply with_ends_fin; auto.
Qed.
Lemma rmid_length x f : length x = length f -> length (rmid x f) = (length f - 2)%nat.
Proof.
  revert f. induction x as [|x0 x IH]; intros [|p f] L; try discriminate L; [reflexivity|]. injection L as L.
  destruct x as [|x1 x]; destruct f as [|m f]; try discriminate L; [reflexivity|]. destruct x as [|x2 x]; destruct f as [|n f]; try discriminate L; [reflexivity|].
  specialize (IH (m :: n :: f) L). cbn [rmid length] in *. lia.
Qed.
Lemma rmid_at x f i : length x = length f -> (S (S i) < length f)%nat ->
  at_ (rmid x f) i = mid (at_ x (S i) - at_ x i) (at_ x (S (S i)) - at_ x (S i)) (at_ f i) (at_ f (S i)) (at_ f (S (S i))).
Proof.
  unfold at_. revert f i. induction x as [|x0 x IH]; intros [|p f] i L H; cbn in H; try lia; try discriminate L. injection L as L.
  destruct x as [|x1 x]; destruct f as [|m f]; try discriminate L; cbn in H; try lia. destruct x as [|x2 x]; destruct f as [|n f]; try discriminate L; cbn in H; try lia.
  destruct i as [|i]; [reflexivity|]. specialize (IH (m :: n :: f) i L). cbn [rmid nth length] in *. apply IH. lia.
Qed.
Lemma ends_length x f : length x = length f -> (2 <= length f)%nat -> length (ends x f (rmid x f)) = length f.
Proof. intros L H. unfold ends. cbn [length]. rewrite app_length, rmid_length by auto. cbn [length]. lia. Qed.
Lemma parabola x0 x1 x2 p m n : x0 <> x1 -> x1 <> x2 -> x0 <> x2 -> exists a b c,
  p = a + b * x0 + c * (x0 * x0) /\ m = a + b * x1 + c * (x1 * x1) /\ n = a + b * x2 + c * (x2 * x2) /\ mid (x1 - x0) (x2 - x1) p m n = b + 2 * c * x1.
Proof.
  intros H1 H2 H3. set (c := ((n - m) / (x2 - x1) - (m - p) / (x1 - x0)) / (x2 - x0)). set (b := (m - p) / (x1 - x0) - c * (x0 + x1)). set (a := p - b * x0 - c * (x0 * x0)).
  assert (x1 - x0 <> 0) by lra. assert (x2 - x1 <> 0) by lra. assert (x2 - x0 <> 0) by lra.
  exists a, b, c. unfold a, b, c, mid. repeat split; field; repeat split; auto; replace (x1 - x0 + (x2 - x1)) with (x2 - x0) by ring; auto.
Qed.
Theorem ends_derivative x f : length x = length f -> (2 <= length f)%nat -> spread x -> derivative x f (ends x f (rmid x f)).
Proof.
  intros L L2 S. pose proof (ends_length L L2) as EL. split; [auto|]. split; [|split].
  - unfold line_slope. cbn [ends]. unfold ends, at_ at 1. cbn [nth]. pose proof (proj1 (S 0%nat)) as H. cbn [plus] in H. specialize (H ltac:(lia)). field. lra.
  - unfold line_slope, at_ at 1, ends. replace (length f - 1)%nat with (Datatypes.S (length (rmid x f))) at 1 by (rewrite rmid_length by auto; lia). cbn [nth]. rewrite app_nth2 by lia. rewrite Nat.sub_diag. cbn [nth].
    pose proof (proj1 (S (length f - 2)%nat) ltac:(lia)) as H. replace (length f - 2 + 1)%nat with (length f - 1)%nat in H by lia. field. lra.
  - intros i I0 I1. destruct i as [|i]; [lia|]. unfold parabola_slope. replace (at_ (ends x f (rmid x f)) (Datatypes.S i)) with (at_ (rmid x f) i).
    2:{ unfold at_, ends. cbn [nth]. rewrite app_nth1 by (rewrite rmid_length by auto; lia). reflexivity. }
    rewrite rmid_at by (auto; lia). destruct (S i) as [S1 S2]. destruct (S (Datatypes.S i)) as [S3 _].
    replace (i + 1)%nat with (Datatypes.S i) in * by lia. replace (i + 2)%nat with (Datatypes.S (Datatypes.S i)) in * by lia. replace (Datatypes.S i + 1)%nat with (Datatypes.S (Datatypes.S i)) in * by lia. replace (Datatypes.S i - 1)%nat with i by lia.
    destruct (@parabola (at_ x i) (at_ x (Datatypes.S i)) (at_ x (Datatypes.S (Datatypes.S i))) (at_ f i) (at_ f (Datatypes.S i)) (at_ f (Datatypes.S (Datatypes.S i)))) as (a & b & c & Q0 & Q1 & Q2 & Q3); [apply S1; lia|apply S3; lia|apply S2; lia|].
    exists a, b, c. split; [|exact Q3]. intros j [<-|[<-|[<-|[]]]]; auto.
Qed.
Lemma positions_length n : length (positions n) = n.
Proof. unfold positions. now rewrite map_length, seq_length. Qed.
Lemma positions_at n i : (i < n)%nat -> at_ (positions n) i = INR i.
Proof. intros H. unfold at_, positions. rewrite (nth_indep _ _ (INR 0)) by now rewrite map_length, seq_length. rewrite map_nth, seq_nth by auto. reflexivity. Qed.
Lemma positions_spread n : spread (positions n).
Proof. intros i. rewrite positions_length. split; intros H; rewrite !positions_at by lia; apply not_INR; lia. Qed.
Lemma positions_diff n d : In d (diff (map Fin (positions n))) -> d = Fin 1.
Proof.
  intros I. apply In_nth with (d := NaN) in I. destruct I as (i & L & <-). rewrite diff_length, positions_length in L. rewrite diff_at by (rewrite positions_length; lia).
  rewrite !positions_at by lia. rewrite S_INR. f_equal. ring.
Qed.
Lemma gradient_unit_ok f : (2 <= length f)%nat -> gradient_unit (map Fin f) = Ok (map Fin (ends (positions (length f)) f (rmid (positions (length f)) f))).
Proof.
  intros L. unfold gradient_unit. rewrite xofZ. rewrite (@inner_uniform_fin 1 (positions (length f))); [|apply positions_length|lra|apply positions_diff].
  apply with_ends_fin; auto; try lra; rewrite !positions_at by lia; cbn; try ring.
  replace (length f - 1)%nat with (S (length f - 2)) by lia. rewrite S_INR. ring.
Qed.
Lemma gradient_short {F} {N : Num F} (f : list F) : (length f < 2)%nat -> gradient_unit f = Err ValueError.
Proof. destruct f as [|a [|b f]]; cbn; intros; try lia; reflexivity. Qed.
Lemma flat_mask (g : list R) k : flatnonzero k (map2 (fun a b => nle (nmul a b) n0) (map Fin g) (tl (map Fin g))) =
  map (plus k) (filter (sign_change g) (seq 0 (length g - 1))).
Proof.
  revert k. induction g as [|a [|b g] IH]; intros k; try reflexivity. cbn [map tl] in *. unfold map2 in *. cbn [combine map flatnonzero fst snd].
  replace (length (a :: b :: g) - 1)%nat with (S (length (b :: g) - 1)) by (cbn; lia). cbn [seq filter]. rewrite <- seq_shift.
  assert (T : map (plus k) (filter (sign_change (a :: b :: g)) (map S (seq 0 (length (b :: g) - 1)))) = map (plus (S k)) (filter (sign_change (b :: g)) (seq 0 (length (b :: g) - 1)))).
  { generalize (seq 0 (length (b :: g) - 1)). intros l. induction l as [|i l IHl]; [reflexivity|]. cbn [map filter]. change (sign_change (a :: b :: g) (S i)) with (sign_change (b :: g) i). destruct (sign_change (b :: g) i); cbn [map]; rewrite IHl; [|reflexivity]. f_equal. lia. }
  unfold sign_change at 1. cbn [at_ nth plus]. unfold at_. cbn [nth].
  change (nle (nmul (Fin a) (Fin b)) n0) with (Rle_bool (a * b) 0). destruct (Rle_bool_spec (a * b) 0) as [H|H]; destruct (Rle_dec (a * b) 0) as [H'|H']; try lra.
  - cbn [map]. rewrite IH, T, Nat.add_0_r. reflexivity.
  - rewrite IH, T. reflexivity.
Qed.
Lemma take_ok {A} (l : list A) d is : (forall i, In i is -> (i < length l)%nat) -> take l is = Ok (map (fun i => nth i l d) is).
Proof.
  intros H. unfold take. induction is as [|i is IH]; [reflexivity|]. cbn [traverse map]. rewrite IH by (intros j J; apply H; now right). unfold getitem.
  destruct (nth_error l i) as [x|] eqn:E; [|exfalso; apply nth_error_None in E; specialize (H i (or_introl eq_refl)); lia]. cbn. now rewrite (nth_error_nth l i d E).
Qed.
