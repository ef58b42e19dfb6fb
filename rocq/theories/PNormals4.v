(** * Proofs about the normals nodes: vertex normals and their cache. *)
From Coq Require Import Reals ZArith List Bool Lra Lia Psatz.
From Flocq Require Import Core.
From Verif Require Import Num XLemmas Vec RVec VLemmas PMat3 SpecGeom PPlane2 NpList MNormals SpecNormals PNormals PNormals2 PNormals3.
Import ListNotations.
Local Open Scope R_scope.
Set Implicit Arguments.
Unset Strict Implicit.

(** sum over incidences of vertex [w] *)
Definition isum (g : nat -> R) (p : list (nat * nat)) (w : nat) : R := rsum (map (fun ij => g (snd ij)) (filter (fun ij => Nat.eqb (fst ij) w) p)).
Lemma part_rowsum k k' p x w : (k < 3)%nat -> (k' < 3)%nat ->
  rowsum (part k p) x (3 * w + k') = if Nat.eqb k k' then isum (fun j => nth (3 * j + k) x 0) p w else 0.
Proof.
  intros K K'. induction p as [|[i j] p IH]; [cbn; now destruct (Nat.eqb k k')|]. unfold part, isum in *. cbn [map filter fst snd]. rewrite rowsum_cons, IH. cbn [fst snd].
  destruct (Nat.eqb_spec k k') as [<-|NE].
  - destruct (Nat.eqb_spec i w) as [->|NW]; [rewrite Nat.eqb_refl; cbn [map rsum snd]; ring|]. replace (3 * i + k =? 3 * w + k)%nat with false by (symmetry; apply Nat.eqb_neq; lia). ring.
  - replace (3 * i + k =? 3 * w + k')%nat with false by (symmetry; apply Nat.eqb_neq; lia). ring.
Qed.
Lemma fbv_rowsum f x w k : (k < 3)%nat -> rowsum (fbv_ents f) x (3 * w + k) = isum (fun j => nth (3 * j + k) x 0) (inc 0 f) w.
Proof.
  intros K. unfold fbv_ents. rewrite !rowsum_app, !part_rowsum by lia. destruct k as [|[|[|k]]]; try lia; cbn [Nat.eqb]; ring.
Qed.
(** the incidences of a vertex, in terms of the faces *)
Lemma filter_map3 (w : nat) (t : V3 Z) (a : nat) rest : (0 <= c0 t)%Z -> (0 <= c1 t)%Z -> (0 <= c2 t)%Z -> forall g,
  isum g ((Z.to_nat (c0 t), a) :: (Z.to_nat (c1 t), a) :: (Z.to_nat (c2 t), a) :: rest) w =
  rsum (map (fun _ => g a) (filter (Z.eqb (Z.of_nat w)) [c0 t; c1 t; c2 t])) + isum g rest w.
Proof.
  intros H0 H1 H2 g. unfold isum. cbn [filter fst]. 
  assert (E : forall z, (0 <= z)%Z -> Nat.eqb (Z.to_nat z) w = Z.eqb (Z.of_nat w) z) by (intros z Hz; destruct (Nat.eqb_spec (Z.to_nat z) w), (Z.eqb_spec (Z.of_nat w) z); auto; lia).
  rewrite !E by auto. destruct (Z.eqb (Z.of_nat w) (c0 t)), (Z.eqb (Z.of_nat w) (c1 t)), (Z.eqb (Z.of_nat w) (c2 t)); cbn [map rsum snd]; ring.
Qed.
Definition nonneg (f : list (V3 Z)) : Prop := forall t i, In t f -> In i [c0 t; c1 t; c2 t] -> (0 <= i)%Z.
Lemma isum_faces (f : list (V3 Z)) g a w : nonneg f ->
  isum g (inc a f) w = rsum (flat_map (fun tj => map (fun _ => g (snd tj)) (filter (Z.eqb (Z.of_nat w)) [c0 (fst tj); c1 (fst tj); c2 (fst tj)])) (combine f (seq a (length f)))).
Proof.
  revert a. induction f as [|t f IH]; intros a H; [reflexivity|]. cbn [inc length seq combine flat_map fst snd]. rewrite filter_map3, rsum_app by (apply (H t); cbn; auto).
  f_equal. apply IH. intros t' i It Ii. exact (H t' i (or_intror It) Ii).
Qed.
Lemma coord_rvsum k l : (k < 3)%nat -> coord (Z.of_nat k) (rvsum l) = rsum (map (coord (Z.of_nat k)) l).
Proof.
  intros K. induction l as [|x l IH]; cbn [rvsum map rsum]; [destruct k as [|[|[|k]]]; try lia; reflexivity|]. rewrite <- IH.
  destruct k as [|[|[|k]]]; try lia; reflexivity.
Qed.
Lemma vertex_rows f v w k : in_range (length v) f -> (k < 3)%nat ->
  rowsum (fbv_ents f) (rflat (map (face_normal v) f)) (3 * w + k) = coord (Z.of_nat k) (rvsum (normals_at v f (Z.of_nat w))).
Proof.
  intros H K. assert (NN : nonneg f) by (intros t i It Ii; now apply (H t i)). rewrite fbv_rowsum, isum_faces, coord_rvsum by auto. f_equal. unfold normals_at.
  set (T := map (face_normal v) f).
  assert (G : forall f' a, (forall j t, nth_error f' j = Some t -> nth (a + j) T rzero = face_normal v t) ->
    flat_map (fun tj => map (fun _ => nth (3 * snd tj + k) (rflat T) 0) (filter (Z.eqb (Z.of_nat w)) [c0 (fst tj); c1 (fst tj); c2 (fst tj)])) (combine f' (seq a (length f'))) =
    map (coord (Z.of_nat k)) (flat_map (fun t => map (fun _ => face_normal v t) (filter (Z.eqb (Z.of_nat w)) [c0 t; c1 t; c2 t])) f')).
  { induction f' as [|t f' IH]; intros a E; [reflexivity|]. cbn [length seq combine flat_map]. rewrite map_app, map_map. cbn [fst snd]. f_equal.
    - apply map_ext. intros _. rewrite rflat_nth by auto. f_equal. specialize (E 0%nat t eq_refl). now rewrite Nat.add_0_r in E.
    - apply IH. intros j t' J. specialize (E (S j) t' J). rewrite <- E. f_equal. lia. }
  apply G. intros j t J. unfold T. cbn [plus]. rewrite (nth_indep _ _ (face_normal v t)) by (rewrite map_length; apply nth_error_Some; congruence).
  rewrite map_nth. f_equal. now apply nth_error_nth.
Qed.
Lemma seq_rows (g : nat -> R) n : map g (seq 0 (3 * n)) = rflat (map (fun w => mk3 (g (3 * w)%nat) (g (3 * w + 1)%nat) (g (3 * w + 2)%nat)) (seq 0 n)).
Proof.
  assert (G : forall m a, map g (seq (3 * a) (3 * m)) = rflat (map (fun w => mk3 (g (3 * w)%nat) (g (3 * w + 1)%nat) (g (3 * w + 2)%nat)) (seq a m))).
  { induction m as [|m IH]; intros a; [rewrite Nat.mul_0_r; reflexivity|]. rewrite seq3. cbn [seq map].
    change (rflat (mk3 ?x ?y ?z :: ?l)) with (x :: y :: z :: rflat l). replace (3 * a + 3)%nat with (3 * S a)%nat by lia. now rewrite IH. }
  exact (G n 0%nat).
Qed.
Lemma coords_mk (p : V3 R) : mk3 (coord (Z.of_nat 0) p) (coord (Z.of_nat 1) p) (coord (Z.of_nat 2) p) = p.
Proof. now destruct p. Qed.
Definition sums (v : list (V3 R)) (f : list (V3 Z)) : list (V3 R) := map (fun w => rvsum (normals_at v f (Z.of_nat w))) (seq 0 (length v)).
Lemma fbv_dot v f : in_range (length v) f ->
  sp_dot (mksparse (3 * length v) (3 * length f) (fin_ents (fbv_ents f))) (flat (map (face_normal v) f)) = Ok (flat (sums v f)).
Proof.
  intros H. rewrite !flat_rflat, sp_dot_fin by (rewrite rflat_length, map_length; lia). do 2 f_equal. rewrite seq_rows. unfold sums. f_equal.
  apply map_ext. intros w. rewrite !vertex_rows by (auto; lia). replace (3 * w)%nat with (3 * w + 0)%nat by lia. rewrite vertex_rows by (auto; lia). apply coords_mk.
Qed.
Lemma in_range_map n (v : list (V3 R)) f : in_range (length v) f -> n = length v -> in_range n f.
Proof. now intros H ->. Qed.
Theorem vert_normals_ok v f : in_range (length v) f ->
  vert_normals (map fin3 v) f true = Ok (map fin3 (map (fun w => runit (rvsum (normals_at v f (Z.of_nat w)))) (seq 0 (length v)))).
Proof.
  intros H. unfold vert_normals. rewrite faces_ok by now rewrite map_length. cbn [bindr]. unfold graph_value. rewrite <- flat_ravel, tri_scaled_ok by auto. cbn [bindr].
  rewrite map_length, fbv_dot by auto. cbn [bindr]. rewrite normalized_any. cbn [bindr]. rewrite reshape_flat. unfold sums. rewrite !map_map. reflexivity.
Qed.
(** ** not normalised *)
Lemma rowsum_scale (g : nat -> R) E x i : rowsum (map (fun e => (fst e, g (fst (fst e)) * snd e)) E) x i = g i * rowsum E x i.
Proof.
  induction E as [|e E IH]; [cbn; ring|]. cbn [map]. rewrite !rowsum_cons, IH. cbn [fst snd]. destruct (Nat.eqb_spec (fst (fst e)) i) as [->|]; ring.
Qed.
Definition count_at (f : list (V3 Z)) (w : nat) : nat := length (flat_map (fun t => filter (Z.eqb (Z.of_nat w)) [c0 t; c1 t; c2 t]) f).
Lemma rsum_const k {A} (l : list A) : rsum (map (fun _ => k) l) = INR (length l) * k.
Proof. induction l as [|x l IH]; [cbn; ring|]. cbn [map rsum length]. rewrite IH, S_INR. ring. Qed.
Lemma ones_nth n j : (j < n)%nat -> nth j (repeat 1 n) 0 = 1.
Proof. revert j. induction n as [|n IH]; intros [|j] H; try lia; cbn [repeat nth]; auto. apply IH. lia. Qed.
Lemma count_rowsum f w k : nonneg f -> (k < 3)%nat -> rowsum (fbv_ents f) (repeat 1 (3 * length f)) (3 * w + k) = INR (count_at f w).
Proof.
  intros NN K. rewrite fbv_rowsum, isum_faces by auto. unfold count_at.
  assert (G : forall f' a, (a + length f' <= length f)%nat ->
    rsum (flat_map (fun tj => map (fun _ => nth (3 * snd tj + k) (repeat 1 (3 * length f)) 0) (filter (Z.eqb (Z.of_nat w)) [c0 (fst tj); c1 (fst tj); c2 (fst tj)])) (combine f' (seq a (length f')))) =
    INR (length (flat_map (fun t => filter (Z.eqb (Z.of_nat w)) [c0 t; c1 t; c2 t]) f'))).
  { induction f' as [|t f' IH]; intros a L; [reflexivity|]. cbn [length] in L. cbn [length seq combine flat_map]. rewrite rsum_app, IH by lia. cbn [fst snd].
    rewrite app_length, plus_INR, rsum_const, ones_nth by lia. ring. }
  apply (G f 0%nat). lia.
Qed.
Lemma normals_count v f w : length (normals_at v f (Z.of_nat w)) = count_at f w.
Proof. unfold normals_at, count_at. induction f as [|t f IH]; [reflexivity|]. cbn [flat_map]. rewrite !app_length, map_length, IH. reflexivity. Qed.
Lemma part_in k p e : In e (part k p) -> exists i j, In (i, j) p /\ fst (fst e) = (3 * i + k)%nat.
Proof. unfold part. intros I. apply in_map_iff in I. destruct I as ([i j] & <- & I). eauto. Qed.
Lemma inc_in f a i j : nonneg f -> In (i, j) (inc a f) -> (0 < count_at f i)%nat.
Proof.
  revert a. induction f as [|t f IH]; intros a NN; cbn [inc]; [easy|]. unfold count_at. cbn [flat_map]. rewrite app_length. fold (count_at f i).
  assert (N : forall z, In z [c0 t; c1 t; c2 t] -> i = Z.to_nat z -> (0 < length (filter (Z.eqb (Z.of_nat i)) [c0 t; c1 t; c2 t]))%nat).
  { intros z Iz ->. assert (0 <= z)%Z by (apply (NN t); [now left|auto]). rewrite Z2Nat.id by auto.
    assert (X : In z (filter (Z.eqb z) [c0 t; c1 t; c2 t])) by (apply filter_In; split; auto; apply Z.eqb_refl). destruct (filter _ _); [easy|cbn; lia]. }
  intros [E|[E|[E|I]]].
  - injection E as E _. specialize (N (c0 t) ltac:(cbn; auto) (eq_sym E)). lia.
  - injection E as E _. specialize (N (c1 t) ltac:(cbn; auto) (eq_sym E)). lia.
  - injection E as E _. specialize (N (c2 t) ltac:(cbn; auto) (eq_sym E)). lia.
  - specialize (IH (S a)). assert (nonneg f) by (intros t' z It Iz; exact (NN t' z (or_intror It) Iz)). specialize (IH H I). lia.
Qed.
Lemma fbv_count f e : nonneg f -> In e (fbv_ents f) -> exists w k, (k < 3)%nat /\ fst (fst e) = (3 * w + k)%nat /\ (0 < count_at f w)%nat.
Proof.
  intros NN I. unfold fbv_ents in I. rewrite !in_app_iff in I. destruct I as [I|[I|I]]; apply part_in in I; destruct I as (i & j & I & E); apply inc_in in I; auto; eexists i, _; eauto with arith.
Qed.
Definition means (v : list (V3 R)) (f : list (V3 Z)) : list (V3 R) :=
  map (fun w => rscale (/ INR (length (normals_at v f (Z.of_nat w)))) (rvsum (normals_at v f (Z.of_nat w)))) (seq 0 (length v)).
Lemma repeat_fin n : repeat (@nofZ xr _ 1) n = map Fin (repeat 1 n).
Proof. rewrite xofZ. induction n as [|n IH]; cbn [repeat map]; congruence. Qed.
Lemma scaled_dot v f : in_range (length v) f ->
  (let* test := sp_dot (mksparse (3 * length v) (3 * length f) (fin_ents (fbv_ents f))) (repeat (nofZ 1) (3 * length f)) in
   sp_dot (mksparse (3 * length v) (3 * length f) (map (fun e => (fst e, nmul (ndiv (nofZ 1) (nth (fst (fst e)) test n0)) (snd e))) (fin_ents (fbv_ents f)))) (flat (map (face_normal v) f)))
  = Ok (flat (means v f)).
Proof.
  intros H. assert (NN : nonneg f) by (intros t i It Ii; now apply (H t i)). rewrite repeat_fin, sp_dot_fin by now rewrite repeat_length. cbn [bindr].
  set (g := fun i => / INR (count_at f (i / 3))).
  assert (E : map (fun e => (fst e, nmul (ndiv (nofZ 1) (nth (fst (fst e)) (map Fin (map (rowsum (fbv_ents f) (repeat 1 (3 * length f))) (seq 0 (3 * length v)))) n0)) (snd e))) (fin_ents (fbv_ents f))
    = fin_ents (map (fun e => (fst e, g (fst (fst e)) * snd e)) (fbv_ents f))).
  { unfold fin_ents. rewrite !map_map. apply map_ext_in. intros e I. cbn [fst snd]. f_equal. destruct (fbv_count NN I) as (w & k & K & E & C).
    assert (W : (w < length v)%nat).
    { destruct (Nat.lt_ge_cases w (length v)); auto. exfalso. unfold count_at in C. destruct (flat_map _ f) as [|z l] eqn:FM; [cbn in C; lia|].
      assert (IZ : In z (flat_map (fun t => filter (Z.eqb (Z.of_nat w)) [c0 t; c1 t; c2 t]) f)) by (rewrite FM; now left). apply in_flat_map in IZ. destruct IZ as (t & It & Iz). apply filter_In in Iz. destruct Iz as [Iz Ez].
      apply Z.eqb_eq in Ez. subst z. specialize (H t _ It Iz). lia. }
    rewrite E. rewrite (nth_indep _ _ (Fin (rowsum (fbv_ents f) (repeat 1 (3 * length f)) 0%nat))) by (rewrite map_length, seq_length; lia).
    rewrite (map_nth (fun x => Fin (rowsum (fbv_ents f) (repeat 1 (3 * length f)) x))), seq_nth by lia. cbn [plus]. rewrite count_rowsum by auto. assert (0 < INR (count_at f w)) by now apply lt_0_INR.
    rewrite xofZ, xdivE by lra. rewrite xmul. unfold g. rewrite Nat.mul_comm, Nat.div_add_l, Nat.div_small, Nat.add_0_r by lia. f_equal. unfold Rdiv. ring. }
  rewrite E, !flat_rflat, sp_dot_fin by (rewrite rflat_length, map_length; lia). do 2 f_equal. rewrite seq_rows. unfold means. f_equal. apply map_ext. intros w.
  rewrite !rowsum_scale. replace (3 * w)%nat with (3 * w + 0)%nat by lia. rewrite <- !Nat.add_assoc. cbn [plus]. rewrite !vertex_rows by (auto; lia).
  assert (G : forall k, (k < 3)%nat -> g (3 * w + k)%nat = / INR (length (normals_at v f (Z.of_nat w)))).
  { intros k K. unfold g. rewrite Nat.mul_comm, Nat.div_add_l, Nat.div_small, Nat.add_0_r, normals_count by lia. reflexivity. }
  rewrite !G by lia. destruct (rvsum (normals_at v f (Z.of_nat w))) as [x y z]. reflexivity.
Qed.
Definition sqrt_length (m : V3 R) : V3 xr := if Req_EM_T (rnorm m) 0 then mk3 NaN NaN NaN else fin3 (rscale (/ sqrt (rnorm m)) m).
Lemma root_row m : vdivs (fin3 m) (nsqrt (nsqrt (vdot (fin3 m) (fin3 m)))) = sqrt_length m.
Proof.
  rewrite fdot, xsqrtE by apply rdot_self_pos. fold (rnorm m). rewrite xsqrtE by apply rnorm_pos. unfold sqrt_length. destruct (Req_EM_T (rnorm m) 0) as [E|E].
  - rewrite E, sqrt_0. unfold vdivs, map3, fin3. cbn [c0 c1 c2]. apply rnorm_0 in E. subst m. unfold rzero. cbn [c0 c1 c2 map3]. cbn. unfold xdiv. rewrite !Req_bool_true by reflexivity. reflexivity.
  - rewrite fdivs; [reflexivity|]. pose proof (rnorm_pos m). apply Rgt_not_eq, sqrt_lt_R0. lra.
Qed.
Theorem vert_scaled_ok v f : in_range (length v) f ->
  vert_normals (map fin3 v) f false = Ok (map sqrt_length (means v f)).
Proof.
  intros H. unfold vert_normals. rewrite faces_ok by now rewrite map_length. cbn [bindr]. unfold graph_value. rewrite <- flat_ravel, tri_scaled_ok by auto. cbn [bindr sp_rows sp_cols sp_entries].
  pose proof (scaled_dot H) as S. rewrite map_length. destruct (sp_dot _ (repeat _ _)) as [test|e]; cbn [bindr] in *; [|discriminate S]. rewrite S. cbn [bindr]. rewrite reshape_flat. cbn [bindr].
  rewrite map_map. f_equal. apply map_ext. intros m. apply root_row.
Qed.
