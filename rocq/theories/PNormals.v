(** * Proofs about the normals nodes: sparse products and Jacobians. *)
From Coq Require Import Reals ZArith List Bool Lra Lia Psatz.
From Flocq Require Import Core.
From Verif Require Import Num XLemmas Vec RVec VLemmas PMat3 SpecGeom PPlane2 NpList MNormals SpecNormals.
Import ListNotations.
Local Open Scope R_scope.
Set Implicit Arguments.
Unset Strict Implicit.

(** ** flat arrays *)
Definition rflat (l : list (V3 R)) : list R := ravel3 l.
Lemma flat_rflat l : flat l = map Fin (rflat l).
Proof. unfold flat, rflat, ravel3. induction l as [|v l IH]; [reflexivity|]. cbn [flat_map map app]. now rewrite IH. Qed.
Lemma flat_ravel l : flat l = ravel3 (map fin3 l).
Proof. unfold flat, ravel3. induction l as [|v l IH]; [reflexivity|]. cbn [flat_map map app]. now rewrite IH. Qed.
Lemma rflat_length l : length (rflat l) = (3 * length l)%nat.
Proof. unfold rflat, ravel3. induction l as [|v l IH]; [reflexivity|]. cbn [flat_map app length]. rewrite IH. lia. Qed.
Lemma flat_length l : length (flat l) = (3 * length l)%nat.
Proof. rewrite flat_rflat, map_length. apply rflat_length. Qed.
Lemma reshape_ravel {A} (l : list (V3 A)) : reshape3 (ravel3 l) = Ok l.
Proof. unfold ravel3. induction l as [|[x y z] l IH]; [reflexivity|]. cbn [flat_map app reshape3 c0 c1 c2]. now rewrite IH. Qed.
Lemma reshape_flat l : reshape3 (flat l) = Ok (map fin3 l).
Proof. rewrite flat_ravel. apply reshape_ravel. Qed.
Lemma fin3_flat_inj l k : flat l = flat k -> l = k.
Proof.
  rewrite !flat_ravel. intros E. apply (f_equal (@reshape3 xr)) in E. rewrite !reshape_ravel in E. injection E as E.
  revert k E. induction l as [|x l IH]; intros [|y k] E; try discriminate E; auto. f_equal; [|apply IH; exact (f_equal (@tl _) E)]. apply fin3_inj. exact (f_equal (hd (fin3 rzero)) E).
Qed.
Lemma rflat_nth l i (k : nat) : (k < 3)%nat -> nth (3 * i + k) (rflat l) 0 = coord (Z.of_nat k) (nth i l rzero).
Proof.
  intros K. revert i. induction l as [|[x y z] l IH]; intros i.
  - change (rflat []) with (@nil R). destruct k as [|[|[|k]]]; try lia; destruct i; reflexivity.
  - change (rflat (mk3 x y z :: l)) with (x :: y :: z :: rflat l). destruct i as [|i].
    + destruct k as [|[|[|k]]]; try lia; reflexivity.
    + replace (3 * S i + k)%nat with (S (S (S (3 * i + k)))) by lia. cbn [nth]. apply IH.
Qed.
Lemma ravel3_app {A} (l k : list (V3 A)) : ravel3 (l ++ k) = ravel3 l ++ ravel3 k.
Proof. apply flat_map_app. Qed.
Lemma rflat_app l k : rflat (l ++ k) = rflat l ++ rflat k.
Proof. apply flat_map_app. Qed.

(** ** sparse matrices with real entries *)
Notation ents := (list (nat * nat * R)).
Definition fin_ents (E : ents) : list (nat * nat * xr) := map (fun e => (fst e, Fin (snd e))) E.
Definition rowsum (E : ents) (x : list R) (i : nat) : R :=
  rsum (map (fun e => snd e * nth (snd (fst e)) x 0) (filter (fun e => Nat.eqb (fst (fst e)) i) E)).
Lemma sp_dot_fin r c E x : length x = c ->
  sp_dot (mksparse r c (fin_ents E)) (map Fin x) = Ok (map Fin (map (rowsum E x) (seq 0 r))).
Proof.
  intros L. unfold sp_dot. cbn [sp_rows sp_cols sp_entries]. rewrite map_length, L, Nat.eqb_refl. f_equal. rewrite map_map. apply map_ext. intros i.
  unfold rowsum. rewrite <- nsum_fin. f_equal. unfold fin_ents. induction E as [|[[a b] y] E IH]; [reflexivity|].
  cbn [map filter fst snd]. destruct (Nat.eqb a i); [|exact IH]. cbn [map fst snd]. rewrite <- IH. f_equal.
  change (@n0 xr _) with (Fin 0). rewrite map_nth. reflexivity.
Qed.
Lemma rsum_app a b : rsum (a ++ b) = rsum a + rsum b.
Proof. induction a as [|x a IH]; cbn [app rsum]; [ring|]. rewrite IH. ring. Qed.
Lemma rowsum_app E E' x i : rowsum (E ++ E') x i = rowsum E x i + rowsum E' x i.
Proof. unfold rowsum. rewrite filter_app, map_app. apply rsum_app. Qed.
Lemma rowsum_nil x i : rowsum [] x i = 0.
Proof. reflexivity. Qed.
Lemma rowsum_cons e E x i : rowsum (e :: E) x i = (if Nat.eqb (fst (fst e)) i then snd e * nth (snd (fst e)) x 0 else 0) + rowsum E x i.
Proof. unfold rowsum. cbn [filter]. destruct (Nat.eqb _ i); cbn [map rsum]; ring. Qed.
Lemma rowsum_zero E x i : (forall e, In e E -> fst (fst e) <> i) -> rowsum E x i = 0.
Proof.
  induction E as [|e E IH]; intros H; [reflexivity|]. rewrite rowsum_cons, IH by (intros; apply H; now right).
  destruct (Nat.eqb_spec (fst (fst e)) i) as [A|A]; [|ring]. elim (H e); auto. now left.
Qed.
Lemma rowsum_neg E x i : rowsum (map (fun e => (fst e, - snd e)) E) x i = - rowsum E x i.
Proof. induction E as [|e E IH]; [cbn; ring|]. cbn [map]. rewrite !rowsum_cons, IH. cbn [fst snd]. destruct (Nat.eqb _ i); ring. Qed.
Lemma fin_ents_neg E : map (fun e => (fst e, nopp (snd e))) (fin_ents E) = fin_ents (map (fun e => (fst e, - snd e)) E).
Proof. unfold fin_ents. rewrite !map_map. reflexivity. Qed.
Lemma fin_ents_app E E' : fin_ents E ++ fin_ents E' = fin_ents (E ++ E').
Proof. symmetry. apply map_app. Qed.

(** ** the block-diagonal pattern *)
Definition nine (b : nat) : list nat := [3*b; 3*b+1; 3*b+2; 3*b; 3*b+1; 3*b+2; 3*b; 3*b+1; 3*b+2]%nat.
Lemma seq3 a n : seq a (3 * S n) = (a :: (a + 1) :: (a + 2) :: seq (a + 3) (3 * n))%nat.
Proof. replace (3 * S n)%nat with (S (S (S (3 * n)))) by lia. cbn [seq]. repeat f_equal; lia. Qed.
Lemma block_indices_ok n : block_indices (3 * n) = Ok (flat_map nine (seq 0 n)).
Proof.
  unfold block_indices.
  assert (E : forall m a, reshape3 (flat_map (fun k => [k; k; k]) (seq a m)) = Ok (map (fun k => mk3 k k k) (seq a m))).
  { intros m. induction m as [|m IH]; intros a; [reflexivity|]. cbn [seq flat_map app reshape3 map]. now rewrite IH. }
  rewrite E. cbn [bindr]. clear E.
  assert (E : forall m a, reshape3 (map (fun k : nat => mk3 k k k) (seq (3 * a) (3 * m))) = Ok (map (fun b => mk3 (mk3 (3*b) (3*b) (3*b)) (mk3 (3*b+1) (3*b+1) (3*b+1)) (mk3 (3*b+2) (3*b+2) (3*b+2)))%nat (seq a m))).
  { intros m. induction m as [|m IH]; intros a; [reflexivity|]. rewrite seq3. cbn [seq map reshape3]. replace (3 * a + 3)%nat with (3 * S a)%nat by lia. now rewrite IH. }
  specialize (E n 0%nat). change (3 * 0)%nat with 0%nat in E. rewrite E. cbn [bindr]. f_equal. rewrite map_map. clear E. generalize (seq 0 n). intros l.
  induction l as [|b l IH]; [reflexivity|]. unfold ravel3 in *. cbn [map flat_map app mtrans mcol0 mcol1 mcol2 map3 c0 c1 c2]. rewrite IH. reflexivity.
Qed.
Lemma indptr_nth n j : (j <= n)%nat -> nth j (block_indptr n) 0%nat = (3 * j)%nat.
Proof.
  intros H. unfold block_indptr. rewrite (nth_indep _ _ (3 * 0)%nat) by (rewrite map_length, seq_length; lia). rewrite (map_nth (fun k => (3 * k)%nat)), seq_nth by lia. lia.
Qed.
Definition bent_at (b : nat) (B : M3 R) : ents :=
  [(3*b, 3*b, c0 (c0 B)); (3*b+1, 3*b, c1 (c0 B)); (3*b+2, 3*b, c2 (c0 B));
   (3*b, 3*b+1, c0 (c1 B)); (3*b+1, 3*b+1, c1 (c1 B)); (3*b+2, 3*b+1, c2 (c1 B));
   (3*b, 3*b+2, c0 (c2 B)); (3*b+1, 3*b+2, c1 (c2 B)); (3*b+2, 3*b+2, c2 (c2 B))]%nat.
Fixpoint bent (b : nat) (l : list (M3 R)) : ents :=
  match l with [] => [] | B :: l' => bent_at b B ++ bent (S b) l' end.
Lemma flat_map_length_const {A B} (f : A -> list B) k l : (forall x, length (f x) = k) -> length (flat_map f l) = (k * length l)%nat.
Proof. intros H. induction l as [|x l IH]; cbn [flat_map length]; [lia|]. rewrite app_length, H, IH. lia. Qed.
Lemma nine_nth n b k : (b < n)%nat -> (k < 9)%nat -> nth (9 * b + k) (flat_map nine (seq 0 n)) 0%nat = nth k (nine b) 0%nat.
Proof.
  intros B K. assert (E : seq 0 n = seq 0 b ++ b :: seq (S b) (n - b - 1)).
  { replace n with (b + S (n - b - 1))%nat at 1 by lia. rewrite seq_app. reflexivity. }
  rewrite E, flat_map_app. rewrite app_nth2; rewrite (@flat_map_length_const _ _ nine 9 _ ltac:(reflexivity)), seq_length; [|lia].
  replace (9 * b + k - 9 * b)%nat with k by lia. cbn [flat_map]. apply app_nth1. cbn [nine length]. lia.
Qed.
Lemma blocks_nth (l : list (M3 R)) b B k : nth_error l b = Some B -> (k < 9)%nat ->
  nth (9 * b + k) (ravel3 (ravel3 (map (fun m => finm m) l))) (@n0 xr _) = nth k (map Fin (rflat [c0 B; c1 B; c2 B])) (@n0 xr _).
Proof.
  intros E K. destruct (nth_error_split l b E) as (p & q & -> & L). rewrite map_app. cbn [map].
  assert (S9 : forall l : list (M3 xr), length (ravel3 (ravel3 l)) = (9 * length l)%nat).
  { intros x. unfold ravel3. induction x as [|m x IH]; [reflexivity|]. cbn [flat_map app length] in *. rewrite IH. lia. }
  change (M3 xr) with (V3 (V3 xr)) in *. rewrite !ravel3_app.
  rewrite app_nth2; rewrite S9, map_length, L; [|lia]. replace (9 * b + k - 9 * b)%nat with k by lia.
  unfold ravel3. cbn [flat_map app]. do 9 (destruct k as [|k]; [reflexivity|]). lia.
Qed.
Lemma bent_seq l a : bent a l = flat_map (fun bB => bent_at (fst bB) (snd bB)) (combine (seq a (length l)) l).
Proof. revert a. induction l as [|B l IH]; intros a; [reflexivity|]. cbn [bent length seq combine flat_map fst snd]. now rewrite IH. Qed.
Lemma block_csc_entries (l : list (M3 R)) :
  sp_entries (block_csc (map (fun m => finm m) l) (flat_map nine (seq 0 (length l))) (block_indptr (3 * length l)) (3 * length l)) = fin_ents (bent 0 l).
Proof.
  unfold block_csc, csc. cbn [sp_entries]. set (data := ravel3 (ravel3 _)). set (ind := flat_map nine _). set (n := length l) in *.
  assert (G : forall m a p, (a + m = n)%nat -> l = p ++ skipn a l -> length p = a ->
    flat_map (fun j => map (fun k => (nth k ind 0%nat, j, nth k data n0)) (seq (nth j (block_indptr (3 * n)) 0%nat) (nth (S j) (block_indptr (3 * n)) 0%nat - nth j (block_indptr (3 * n)) 0%nat))) (seq (3 * a) (3 * m))
    = fin_ents (bent a (skipn a l))).
  { induction m as [|m IH]; intros a p H E LP.
    - rewrite Nat.mul_0_r. cbn [seq flat_map]. rewrite skipn_all2 by (unfold n in H; lia). reflexivity.
    - rewrite seq3. cbn [flat_map].
      destruct (skipn a l) as [|B t] eqn:SK; [apply (f_equal (@length _)) in SK; rewrite skipn_length in SK; fold n in SK; cbn in SK; lia|].
      assert (NB : nth_error l a = Some B) by (rewrite E, nth_error_app2, LP, Nat.sub_diag by lia; reflexivity).
      assert (ST : skipn (S a) l = t). { rewrite E, skipn_app, LP, skipn_all2 by lia. replace (S a - a)%nat with 1%nat by lia. reflexivity. }
      rewrite !indptr_nth by lia.
      replace (3 * S (3 * a) - 3 * (3 * a))%nat with 3%nat by lia. replace (3 * S (3 * a + 1) - 3 * (3 * a + 1))%nat with 3%nat by lia. replace (3 * S (3 * a + 2) - 3 * (3 * a + 2))%nat with 3%nat by lia.
      replace (3 * a + 3)%nat with (3 * S a)%nat by lia. rewrite (IH (S a) (p ++ [B])); [|lia|rewrite ST, <- app_assoc; exact E|rewrite app_length; cbn; lia].
      rewrite ST. cbn [bent]. rewrite <- fin_ents_app, !app_assoc. f_equal. cbn [seq map app].
      replace (3 * (3 * a))%nat with (9 * a + 0)%nat by lia. replace (3 * (3 * a + 1))%nat with (9 * a + 3)%nat by lia. replace (3 * (3 * a + 2))%nat with (9 * a + 6)%nat by lia.
      replace (S (S (9 * a + 0)))%nat with (9 * a + 2)%nat by lia. replace (S (9 * a + 0))%nat with (9 * a + 1)%nat by lia.
      replace (S (S (9 * a + 3)))%nat with (9 * a + 5)%nat by lia. replace (S (9 * a + 3))%nat with (9 * a + 4)%nat by lia.
      replace (S (S (9 * a + 6)))%nat with (9 * a + 8)%nat by lia. replace (S (9 * a + 6))%nat with (9 * a + 7)%nat by lia.
      unfold ind, data. rewrite !nine_nth by lia. rewrite !(blocks_nth NB) by lia. reflexivity. }
  specialize (G n 0%nat [] eq_refl eq_refl eq_refl). rewrite Nat.mul_0_r in G. exact G.
Qed.
Lemma block_dot (l : list (M3 R)) (hs : list (V3 R)) : length l = length hs ->
  map (rowsum (bent 0 l) (rflat hs)) (seq 0 (3 * length l)) = rflat (map (fun Bh => rapply (rtrans (fst Bh)) (snd Bh)) (combine l hs)).
Proof.
  intros L.
  assert (LOW : forall l a e, In e (bent a l) -> (3 * a <= fst (fst e))%nat).
  { clear. induction l as [|B l IH]; intros a e; cbn [bent]; [easy|]. intros I. apply in_app_or in I. destruct I as [I|I]; [|specialize (IH _ _ I); lia].
    cbn in I. repeat (destruct I as [<-|I]; [cbn [fst]; lia|]). easy. }
  assert (G : forall l hs a pre, length l = length hs -> length pre = a -> map (rowsum (bent a l) (rflat (pre ++ hs))) (seq (3 * a) (3 * length l)) = rflat (map (fun Bh => rapply (rtrans (fst Bh)) (snd Bh)) (combine l hs))).
  { clear l hs L. induction l as [|B l IH]; intros [|h hs] a pre L P; try discriminate L; [cbn; now rewrite ?Nat.mul_0_r|].
    cbn [length]. rewrite seq3. cbn [map combine fst snd]. set (x := rflat (pre ++ h :: hs)).
    assert (X : forall k, (k < 3)%nat -> nth (3 * a + k) x 0 = coord (Z.of_nat k) h).
    { intros k K. unfold x. rewrite rflat_nth by auto. rewrite app_nth2 by lia. now rewrite P, Nat.sub_diag. }
    assert (X0 : nth (3 * a) x 0 = c0 h) by (specialize (X 0%nat ltac:(lia)); rewrite Nat.add_0_r in X; exact X).
    pose proof (X 1%nat ltac:(lia)) as X1. pose proof (X 2%nat ltac:(lia)) as X2. cbn [coord Z.of_nat Pos.of_succ_nat Pos.succ] in X1, X2.
    change (rflat (rapply (rtrans B) h :: ?l)) with (c0 (rapply (rtrans B) h) :: c1 (rapply (rtrans B) h) :: c2 (rapply (rtrans B) h) :: rflat l).
    assert (T : forall i, rowsum (bent a (B :: l)) x i = rowsum (bent_at a B) x i + rowsum (bent (S a) l) x i) by (intros i; cbn [bent]; apply rowsum_app).
    assert (Z : forall i, (i < 3 * S a)%nat -> rowsum (bent (S a) l) x i = 0) by (intros i I; apply rowsum_zero; intros e IE; apply LOW in IE; lia).
    assert (V : forall k, (k < 3)%nat -> rowsum (bent_at a B) x (3 * a + k) = coord (Z.of_nat k) (rapply (rtrans B) h)).
    { intros k K. unfold bent_at. rewrite !rowsum_cons, rowsum_nil. cbn [fst snd]. rewrite X0, X1, X2.
      destruct k as [|[|[|k]]]; [| | |lia].
      - rewrite Nat.add_0_r, Nat.eqb_refl. replace (3 * a + 1 =? 3 * a)%nat with false by (symmetry; apply Nat.eqb_neq; lia). replace (3 * a + 2 =? 3 * a)%nat with false by (symmetry; apply Nat.eqb_neq; lia).
        cbn [coord Z.of_nat]. unfold rapply, rtrans, rcol0, rdot. cbn [c0 c1 c2]. ring.
      - rewrite Nat.eqb_refl. replace (3 * a =? 3 * a + 1)%nat with false by (symmetry; apply Nat.eqb_neq; lia). replace (3 * a + 2 =? 3 * a + 1)%nat with false by (symmetry; apply Nat.eqb_neq; lia).
        cbn [coord Z.of_nat Pos.of_succ_nat]. unfold rapply, rtrans, rcol1, rdot. cbn [c0 c1 c2]. ring.
      - rewrite Nat.eqb_refl. replace (3 * a =? 3 * a + 2)%nat with false by (symmetry; apply Nat.eqb_neq; lia). replace (3 * a + 1 =? 3 * a + 2)%nat with false by (symmetry; apply Nat.eqb_neq; lia).
        cbn [coord Z.of_nat Pos.of_succ_nat Pos.succ]. unfold rapply, rtrans, rcol2, rdot. cbn [c0 c1 c2]. ring. }
    f_equal; [|f_equal; [|f_equal]].
    - rewrite T, Z by lia. specialize (V 0%nat ltac:(lia)). rewrite Nat.add_0_r in V. rewrite V. cbn [coord Z.of_nat]. ring.
    - rewrite T, Z by lia. rewrite (V 1%nat) by lia. cbn [coord Z.of_nat Pos.of_succ_nat]. ring.
    - rewrite T, Z by lia. rewrite (V 2%nat) by lia. cbn [coord Z.of_nat Pos.of_succ_nat Pos.succ]. ring.
    - replace (3 * a + 3)%nat with (3 * S a)%nat by lia.
      injection L as L. specialize (IH hs (S a) (pre ++ [h]) L ltac:(rewrite app_length; cbn; lia)). rewrite <- app_assoc in IH. cbn [app] in IH. fold x in IH.
      rewrite <- IH. apply map_ext_in. intros i I. apply in_seq in I. rewrite T, rowsum_zero; [ring|]. intros e IE. cbn in IE.
      repeat (destruct IE as [<-|IE]; [cbn [fst]; lia|]). easy. }
  exact (G l hs 0%nat [] L eq_refl).
Qed.
