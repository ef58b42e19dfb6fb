(** * Proofs about the normals nodes: edges, face normals and vertex normals. *)
From Coq Require Import Reals ZArith List Bool Lra Lia Psatz.
From Flocq Require Import Core.
From Verif Require Import Num XLemmas Vec RVec VLemmas PMat3 SpecGeom PPlane2 NpList MNormals SpecNormals PNormals PNormals2.
Import ListNotations.
Local Open Scope R_scope.
Set Implicit Arguments.
Unset Strict Implicit.

(** ** selecting vertices *)
Definition corner (k : nat) (t : V3 Z) : Z := nth k [c0 t; c1 t; c2 t] 0%Z.
Lemma column_ok k t : (k < 3)%nat -> column (Z.of_nat k) t = Ok (corner k t).
Proof. intros K. destruct k as [|[|[|k]]]; try lia; reflexivity. Qed.
Lemma corner_in k t : (k < 3)%nat -> In (corner k t) [c0 t; c1 t; c2 t].
Proof. intros K. destruct k as [|[|[|k]]]; try lia; cbn; auto. Qed.
Lemma pyget_ok {A} (l : list A) i d : (0 <= i < Z.of_nat (length l))%Z -> pyget l i = Ok (nth (Z.to_nat i) l d).
Proof.
  intros H. unfold pyget. destruct (Z.ltb_spec i (- Z.of_nat (length l))); [lia|]. destruct (Z.leb_spec (Z.of_nat (length l)) i); [lia|]. cbn [orb].
  destruct (Z.ltb_spec i 0); [lia|]. unfold getitem. rewrite (nth_error_nth' l d) by lia. reflexivity.
Qed.
Lemma traverse_ok {A B} (f : A -> res B) g l : (forall x, In x l -> f x = Ok (g x)) -> traverse f l = Ok (map g l).
Proof.
  induction l as [|x l IH]; intros H; [reflexivity|]. cbn [traverse map]. rewrite (H x) by now left. cbn [bindr]. rewrite IH by (intros; apply H; now right). reflexivity.
Qed.
Lemma vertex_fin v i : nth (Z.to_nat i) (map fin3 v) (fin3 rzero) = fin3 (vertex v i).
Proof. unfold vertex. now rewrite map_nth. Qed.
Theorem edges_ok v f k m : in_range (length v) f -> (k < 3)%nat -> (m < 3)%nat ->
  edges_for (flat v) f (Z.of_nat k) (Z.of_nat m) = Ok (flat (map (fun t => rsub (vertex v (corner k t)) (vertex v (corner m t))) f)).
Proof.
  intros H K M. unfold edges_for. rewrite reshape_flat. cbn [bindr].
  assert (T : forall k, (k < 3)%nat -> traverse (fun t => let* i := column (Z.of_nat k) t in pyget (map fin3 v) i) f = Ok (map (fun t => fin3 (vertex v (corner k t))) f)).
  { intros j J. apply traverse_ok. intros t I. rewrite column_ok by auto. cbn [bindr]. rewrite (@pyget_ok _ _ _ (fin3 rzero)); [now rewrite vertex_fin|].
    rewrite map_length. apply (H t); auto using corner_in. }
  rewrite !T by auto. cbn [bindr]. rewrite flat_ravel. do 2 f_equal. clear. unfold map2. rewrite !map_map.
  induction f as [|t f IH]; [reflexivity|]. cbn [map combine fst snd]. rewrite IH. now rewrite fsub.
Qed.

(** ** the Jacobian of the edges *)
Fixpoint eent (a : nat) (is : list Z) : ents :=
  match is with
  | [] => []
  | i :: is' => ((3*a, 3 * Z.to_nat i)%nat, 1) :: ((3*a+1, 3 * Z.to_nat i + 1)%nat, 1) :: ((3*a+2, 3 * Z.to_nat i + 2)%nat, 1) :: eent (S a) is'
  end.
Definition three (l : list Z) : list Z := flat_map (fun i => [i * 3; i * 3 + 1; i * 3 + 2]%Z) l.
Lemma three_length l : length (three l) = (3 * length l)%nat.
Proof. unfold three. induction l as [|x l IH]; [reflexivity|]. cbn [flat_map app length]. rewrite IH. lia. Qed.
Lemma eent_combine is a : (forall i, In i is -> (0 <= i)%Z) ->
  combine (combine (map Z.to_nat (map Z.of_nat (seq (3 * a) (3 * length is)))) (map Z.to_nat (three is))) (repeat (@nofZ xr _ 1) (3 * length is)) = fin_ents (eent a is).
Proof.
  revert a. induction is as [|i is IH]; intros a H; [cbn [length]; rewrite Nat.mul_0_r; reflexivity|].
  cbn [length]. rewrite seq3. replace (3 * S (length is))%nat with (S (S (S (3 * length is)))) by lia. cbn [repeat].
  unfold three. cbn [flat_map app map combine eent]. fold (three is). rewrite !Nat2Z.id.
  assert (0 <= i)%Z by (apply H; now left). unfold fin_ents. cbn [map fst snd]. fold (fin_ents (eent (S a) is)).
  replace (3 * a + 3)%nat with (3 * S a)%nat by lia. rewrite IH by (intros; apply H; now right).
  replace (Z.to_nat (i * 3)) with (3 * Z.to_nat i)%nat by lia. replace (Z.to_nat (i * 3 + 1)) with (3 * Z.to_nat i + 1)%nat by lia. replace (Z.to_nat (i * 3 + 2)) with (3 * Z.to_nat i + 2)%nat by lia.
  rewrite xofZ. reflexivity.
Qed.
Lemma eent_low is a e : In e (eent a is) -> (3 * a <= fst (fst e))%nat.
Proof.
  revert a. induction is as [|i is IH]; intros a; cbn [eent]; [easy|]. intros [<-|[<-|[<-|I]]]; cbn [fst]; try lia. pose proof (IH _ I). lia.
Qed.
Lemma eent_dot is a hs : map (rowsum (eent a is) (rflat hs)) (seq (3 * a) (3 * length is)) = rflat (map (vertex hs) is).
Proof.
  revert a. induction is as [|i is IH]; intros a; [cbn [length]; rewrite Nat.mul_0_r; reflexivity|].
  cbn [length]. rewrite seq3. cbn [map]. change (rflat (vertex hs i :: ?l)) with (c0 (vertex hs i) :: c1 (vertex hs i) :: c2 (vertex hs i) :: rflat l).
  set (x := rflat hs). assert (Z : forall j, (j < 3 * S a)%nat -> rowsum (eent (S a) is) x j = 0) by (intros j J; apply rowsum_zero; intros e IE; pose proof (@eent_low _ _ _ IE); lia).
  assert (X0 : nth (3 * Z.to_nat i) x 0 = c0 (vertex hs i)).
  { pose proof (@rflat_nth hs (Z.to_nat i) 0%nat ltac:(lia)) as X. rewrite Nat.add_0_r in X. exact X. }
  pose proof (@rflat_nth hs (Z.to_nat i) 1%nat ltac:(lia)) as X1. pose proof (@rflat_nth hs (Z.to_nat i) 2%nat ltac:(lia)) as X2. cbn [coord Z.of_nat Pos.of_succ_nat Pos.succ] in X1, X2.
  fold x in X1, X2. fold (vertex hs i) in X1, X2. cbn [eent].
  f_equal; [|f_equal; [|f_equal]].
  - rewrite !rowsum_cons, Z by lia. cbn [fst snd]. rewrite X0, Nat.eqb_refl. replace (3 * a + 1 =? 3 * a)%nat with false by (symmetry; apply Nat.eqb_neq; lia). replace (3 * a + 2 =? 3 * a)%nat with false by (symmetry; apply Nat.eqb_neq; lia). ring.
  - rewrite !rowsum_cons, Z by lia. cbn [fst snd]. rewrite X1, Nat.eqb_refl. replace (3 * a =? 3 * a + 1)%nat with false by (symmetry; apply Nat.eqb_neq; lia). replace (3 * a + 2 =? 3 * a + 1)%nat with false by (symmetry; apply Nat.eqb_neq; lia). ring.
  - rewrite !rowsum_cons, Z by lia. cbn [fst snd]. rewrite X2, Nat.eqb_refl. replace (3 * a =? 3 * a + 2)%nat with false by (symmetry; apply Nat.eqb_neq; lia). replace (3 * a + 1 =? 3 * a + 2)%nat with false by (symmetry; apply Nat.eqb_neq; lia). ring.
  - replace (3 * a + 3)%nat with (3 * S a)%nat by lia. rewrite <- (IH (S a)). apply map_ext_in. intros j J. apply in_seq in J. rewrite !rowsum_cons. cbn [fst].
    replace (3 * a =? j)%nat with false by (symmetry; apply Nat.eqb_neq; lia). replace (3 * a + 1 =? j)%nat with false by (symmetry; apply Nat.eqb_neq; lia). replace (3 * a + 2 =? j)%nat with false by (symmetry; apply Nat.eqb_neq; lia). fold x. ring.
Qed.
Lemma existsb_false {A} (p : A -> bool) l : (forall x, In x l -> p x = false) -> existsb p l = false.
Proof. induction l as [|x l IH]; intros H; [reflexivity|]. cbn [existsb]. rewrite (H x) by now left. apply IH. intros. apply H. now right. Qed.
Lemma coo_ok {F} {N : Num F} (d : list F) i j r c : (forall k, In k i -> (0 <= k < Z.of_nat r)%Z) -> (forall k, In k j -> (0 <= k < Z.of_nat c)%Z) ->
  coo d i j r c = Ok (mksparse r c (combine (combine (map Z.to_nat i) (map Z.to_nat j)) d)).
Proof.
  intros I J. unfold coo. rewrite !existsb_false; [reflexivity| |]; intros k K.
  - specialize (J k K). destruct (Z.ltb_spec k 0); [lia|]. destruct (Z.leb_spec (Z.of_nat c) k); [lia|reflexivity].
  - specialize (I k K). destruct (Z.ltb_spec k 0); [lia|]. destruct (Z.leb_spec (Z.of_nat r) k); [lia|reflexivity].
Qed.
Lemma in_three l k : In k (three l) -> exists i, In i l /\ (i * 3 <= k <= i * 3 + 2)%Z.
Proof. unfold three. intros I. apply in_flat_map in I. destruct I as (i & I & K). exists i. split; auto. cbn in K. lia. Qed.
Theorem edges_dr_ok v f k m : in_range (length v) f -> (k < 3)%nat -> (m < 3)%nat ->
  exists J, edges_dr (flat v) f (Z.of_nat k) (Z.of_nat m) = Ok J /\ sp_rows J = (3 * length f)%nat /\ forall h, length h = length v ->
    sp_dot J (flat h) = Ok (flat (map (fun t => rsub (vertex h (corner k t)) (vertex h (corner m t))) f)).
Proof.
  intros H K M. unfold edges_dr.
  assert (T : forall k, (k < 3)%nat -> traverse (column (Z.of_nat k)) f = Ok (map (corner k) f)) by (intros j J; apply traverse_ok; intros; now apply column_ok).
  rewrite !T by auto. cbn [bindr]. change (flat_map (fun i => [(i * 3)%Z; (i * 3 + 1)%Z; (i * 3 + 2)%Z]) ?l) with (three l).
  assert (C : forall k, (k < 3)%nat -> coo (repeat (nofZ 1) (3 * length f)) (map Z.of_nat (seq 0 (3 * length f))) (three (map (corner k) f)) (3 * length f) (length (flat v))
    = Ok (mksparse (3 * length f) (length (flat v)) (fin_ents (eent 0 (map (corner k) f))))).
  { intros j J. rewrite coo_ok.
    - rewrite <- (@eent_combine (map (corner j) f) 0). { rewrite map_length, Nat.mul_0_r. reflexivity. }
      intros i I. apply in_map_iff in I. destruct I as (t & <- & I). apply (H t); auto using corner_in.
    - intros i I. apply in_map_iff in I. destruct I as (t & <- & I). apply in_seq in I. lia.
    - intros i I. apply in_three in I. destruct I as (q & I & B). apply in_map_iff in I. destruct I as (t & <- & I). specialize (H t _ I (corner_in t J)). rewrite flat_length. lia. }
  rewrite !C by auto. cbn [bindr]. eexists. split; [reflexivity|]. split; [reflexivity|]. intros h L. unfold sp_sub, sp_neg. cbn [sp_rows sp_cols sp_entries].
  rewrite fin_ents_neg, fin_ents_app, !flat_rflat, sp_dot_fin by (rewrite map_length, !rflat_length; lia). do 2 f_equal.
  rewrite (map_ext _ (fun i => rowsum (eent 0 (map (corner k) f)) (rflat h) i - rowsum (eent 0 (map (corner m) f)) (rflat h) i)) by (intros i; rewrite rowsum_app, rowsum_neg; ring).
  pose proof (eent_dot (map (corner k) f) 0 h) as E1. pose proof (eent_dot (map (corner m) f) 0 h) as E2. rewrite map_length, Nat.mul_0_r in E1, E2. rewrite map_map in E1, E2.
  rewrite <- (map_map (fun i => (rowsum (eent 0 (map (corner k) f)) (rflat h) i, rowsum (eent 0 (map (corner m) f)) (rflat h) i)) (fun p => fst p - snd p)).
  assert (CM : forall (g g' : nat -> R) l, map (fun i => (g i, g' i)) l = combine (map g l) (map g' l)) by (intros g g' l; induction l as [|x l IH]; cbn; congruence).
  rewrite CM, E1, E2. clear. induction f as [|t f IH]; [reflexivity|]. unfold rflat, ravel3 in *. cbn [map flat_map app combine fst snd]. rewrite IH. reflexivity.
Qed.

(** ** face normals *)
Lemma face_corner v t : face_normal v t = rcross (rsub (vertex v (corner 1 t)) (vertex v (corner 0 t))) (rsub (vertex v (corner 2 t)) (vertex v (corner 0 t))).
Proof. reflexivity. Qed.
Theorem tri_scaled_ok v f : in_range (length v) f -> tri_normals_scaled (flat v) f = Ok (flat (map (face_normal v) f)).
Proof.
  intros H. unfold tri_normals_scaled. pose proof (@edges_ok v f 1 0 H ltac:(lia) ltac:(lia)) as E1. pose proof (@edges_ok v f 2 0 H ltac:(lia) ltac:(lia)) as E2.
  change (Z.of_nat 1) with 1%Z in E1. change (Z.of_nat 2) with 2%Z in E2. change (Z.of_nat 0) with 0%Z in E1, E2. rewrite E1, E2. clear E1 E2. cbn [bindr].
  rewrite cross_value_ok by now rewrite !map_length. do 2 f_equal. unfold rowwise. clear. induction f as [|t f IH]; [reflexivity|]. cbn [map combine fst snd]. now rewrite IH.
Qed.
Lemma rscale_zero k : rscale k rzero = rzero.
Proof. unfold rscale, rzero. cbn [c0 c1 c2]. f_equal; ring. Qed.
Lemma rzero_dec p : p = rzero \/ p <> rzero.
Proof. destruct (Req_dec (rnorm p) 0) as [E|E]; [left; now apply rnorm_0|right; intros ->; apply E; now apply rnorm_0]. Qed.
Lemma normalize_row_any p : vdivs (fin3 p) (nsqrt (row_ss (fin3 p))) = fin3 (runit p).
Proof.
  destruct (rzero_dec p) as [->|H]; [|now apply normalize_row]. unfold row_ss. rewrite fdot. cbv zeta. change (neqb (Fin (rdot rzero rzero)) n0) with (Req_bool (rdot rzero rzero) 0).
  rewrite rdot_zero, Req_bool_true by auto. rewrite xlit, xsqrtE by lra. rewrite fdivs.
  - unfold runit. now rewrite !rscale_zero.
  - apply Rgt_not_eq. apply sqrt_lt_R0. lra.
Qed.
Theorem normalized_any v : normalized_value (flat v) = Ok (flat (map runit v)).
Proof. unfold normalized_value. rewrite reshape_flat. cbn [bindr]. rewrite flat_ravel. do 2 f_equal. rewrite !map_map. apply map_ext. intros p. apply normalize_row_any. Qed.
Theorem tri_normals_ok v f : in_range (length v) f -> tri_normals (flat v) f = Ok (flat (map (fun t => runit (face_normal v t)) f)).
Proof. intros H. unfold tri_normals. rewrite tri_scaled_ok by auto. cbn [bindr]. rewrite normalized_any. now rewrite map_map. Qed.

(** ** the vertex-face matrix *)
Fixpoint inc (a : nat) (f : list (V3 Z)) : list (nat * nat) :=
  match f with
  | [] => []
  | t :: f' => (Z.to_nat (c0 t), a) :: (Z.to_nat (c1 t), a) :: (Z.to_nat (c2 t), a) :: inc (S a) f'
  end.
Definition part (k : nat) (p : list (nat * nat)) : ents := map (fun ij => ((3 * fst ij + k)%nat, (3 * snd ij + k)%nat, 1)) p.
Lemma combine_app {A B} (a a' : list A) (b b' : list B) : length a = length b -> combine (a ++ a') (b ++ b') = combine a b ++ combine a' b'.
Proof. revert b. induction a as [|x a IH]; intros [|y b] L; try discriminate L; [reflexivity|]. cbn. rewrite IH; auto. Qed.
Lemma repeat_app {A} (x : A) n m : repeat x (n + m) = repeat x n ++ repeat x m.
Proof. induction n as [|n IH]; cbn; congruence. Qed.
Lemma part_combine k a f : (forall t i, In t f -> In i [c0 t; c1 t; c2 t] -> (0 <= i)%Z) ->
  combine (combine (map Z.to_nat (map (fun i => (i * 3 + Z.of_nat k)%Z) (ravel3 f)))
                   (map Z.to_nat (map (fun i => (i * 3 + Z.of_nat k)%Z) (flat_map (fun k => [k; k; k]) (map Z.of_nat (seq a (length f)))))))
    (repeat (@nofZ xr _ 1) (3 * length f)) = fin_ents (part k (inc a f)).
Proof.
  revert a. induction f as [|t f IH]; intros a H; [reflexivity|].
  cbn [length]. replace (3 * S (length f))%nat with (S (S (S (3 * length f)))) by lia. unfold ravel3. cbn [flat_map app map seq combine repeat inc part]. fold (ravel3 f).
  rewrite (IH (S a)) by (intros t' i' It Ii; exact (H t' i' (or_intror It) Ii)). unfold part, fin_ents. cbn [map fst snd]. fold (fin_ents (part k (inc (S a) f))).
  assert (0 <= c0 t)%Z by (apply (H t); cbn; auto). assert (0 <= c1 t)%Z by (apply (H t); cbn; auto). assert (0 <= c2 t)%Z by (apply (H t); cbn; auto).
  rewrite xofZ. replace (Z.to_nat (Z.of_nat a * 3 + Z.of_nat k)) with (3 * a + k)%nat by lia.
  replace (Z.to_nat (c0 t * 3 + Z.of_nat k)) with (3 * Z.to_nat (c0 t) + k)%nat by lia. replace (Z.to_nat (c1 t * 3 + Z.of_nat k)) with (3 * Z.to_nat (c1 t) + k)%nat by lia. replace (Z.to_nat (c2 t * 3 + Z.of_nat k)) with (3 * Z.to_nat (c2 t) + k)%nat by lia.
  reflexivity.
Qed.
Definition fbv_ents (f : list (V3 Z)) : ents := part 0 (inc 0 f) ++ part 1 (inc 0 f) ++ part 2 (inc 0 f).
Lemma faces_ok {v : list (V3 xr)} {f} : in_range (length v) f ->
  faces_by_vertex v f = Ok (mksparse (3 * length v) (3 * length f) (fin_ents (fbv_ents f))).
Proof.
  intros H. unfold faces_by_vertex. cbv zeta.
  assert (LI : length (ravel3 f) = (3 * length f)%nat) by (unfold ravel3; rewrite (@flat_map_length_const _ _ _ 3); [lia|reflexivity]).
  assert (LJ : length (flat_map (fun k => [k; k; k]) (map Z.of_nat (seq 0 (length f)))) = (3 * length f)%nat) by (rewrite (@flat_map_length_const _ _ _ 3), map_length, seq_length; [lia|reflexivity]).
  assert (IN : forall i, In i (ravel3 f) -> (0 <= i < Z.of_nat (length v))%Z) by (unfold ravel3; intros i I; apply in_flat_map in I; destruct I as (t & I & J); eapply H; eauto).
  assert (JN : forall j, In j (flat_map (fun k => [k; k; k]) (map Z.of_nat (seq 0 (length f)))) -> (0 <= j < Z.of_nat (length f))%Z).
  { intros j I. apply in_flat_map in I. destruct I as (x & I & J). apply in_map_iff in I. destruct I as (y & <- & I). apply in_seq in I. cbn in J. lia. }
  rewrite coo_ok.
  - f_equal. f_equal. replace (3 * (3 * length f))%nat with (3 * length f + (3 * length f + 3 * length f))%nat by lia. rewrite !repeat_app, !map_app.
    rewrite !combine_app by (rewrite ?combine_length, ?map_length, ?repeat_length; lia).
    change 0%Z with (Z.of_nat 0). change 1%Z with (Z.of_nat 1) at 1 2. change 2%Z with (Z.of_nat 2).
    rewrite !part_combine by (intros t i It Ii; eapply H; eauto). rewrite !fin_ents_app. reflexivity.
  - intros i I. rewrite !in_app_iff, !in_map_iff in I. destruct I as [(x & <- & I)|[(x & <- & I)|(x & <- & I)]]; apply IN in I; lia.
  - intros i I. rewrite !in_app_iff, !in_map_iff in I. destruct I as [(x & <- & I)|[(x & <- & I)|(x & <- & I)]]; apply JN in I; lia.
Qed.
