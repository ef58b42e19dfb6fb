(** * Proofs about isomorphism, block-sparse matrices and lchol. *)
From Coq Require Import Reals ZArith List Bool Lra Lia Permutation Sorted.
From Flocq Require Import Core.Raux.
From Verif Require Import Num XLemmas Vec NpList SpecGeom MLinalg SpecLinalg.
Import ListNotations.
Local Open Scope R_scope.
Set Implicit Arguments.
Unset Strict Implicit.

(** ** finite sums *)
Lemma rsum_map_ext A (f g : A -> R) l : (forall x, In x l -> f x = g x) -> rsum (map f l) = rsum (map g l).
Proof. intros H. induction l as [|x l IH]; auto. cbn. rewrite H by now left. rewrite IH; auto. intros y Hy. apply H. now right. Qed.
Lemma big_ext n f g : (forall k, (k < n)%nat -> f k = g k) -> big n f = big n g.
Proof. intros H. apply rsum_map_ext. intros k Hk. apply in_seq in Hk. apply H. lia. Qed.
Lemma rsum_map_add A (f g : A -> R) l : rsum (map (fun x => f x + g x) l) = rsum (map f l) + rsum (map g l).
Proof. induction l as [|x l IH]; cbn; lra. Qed.
Lemma rsum_map_scale A (f : A -> R) c l : rsum (map (fun x => c * f x) l) = c * rsum (map f l).
Proof. induction l as [|x l IH]; cbn; lra. Qed.
Lemma rsum_map_0 A (l : list A) : rsum (map (fun _ => 0) l) = 0.
Proof. induction l as [|x l IH]; cbn; lra. Qed.
Lemma big_add n f g : big n (fun k => f k + g k) = big n f + big n g.
Proof. apply rsum_map_add. Qed.
Lemma big_scale n c f : big n (fun k => c * f k) = c * big n f.
Proof. apply rsum_map_scale. Qed.
Lemma big_scale_r n c f : big n (fun k => f k * c) = big n f * c.
Proof. rewrite Rmult_comm, <- big_scale. apply big_ext. intros. ring. Qed.
Lemma big_0 n : big n (fun _ => 0) = 0.
Proof. apply rsum_map_0. Qed.
Lemma big_zero n f : (forall k, (k < n)%nat -> f k = 0) -> big n f = 0.
Proof. intros H. rewrite (@big_ext n f (fun _ => 0)); auto. apply big_0. Qed.
Lemma rsum_app l m : rsum (l ++ m) = rsum l + rsum m.
Proof. induction l as [|x l IH]; cbn; lra. Qed.
Lemma big_S n f : big (S n) f = big n f + f n.
Proof. unfold big. rewrite seq_S, map_app, rsum_app. cbn. lra. Qed.
Lemma big_swap n m f : big n (fun i => big m (fun j => f i j)) = big m (fun j => big n (fun i => f i j)).
Proof.
  induction n as [|n IH].
  - unfold big at 1. cbn. symmetry. apply big_zero. reflexivity.
  - rewrite big_S, IH, <- big_add. apply big_ext. intros. now rewrite big_S.
Qed.
Lemma big_single n i f : (i < n)%nat -> big n (fun k => if Nat.eqb k i then f k else 0) = f i.
Proof.
  induction n as [|n IH]; intros H; [lia|]. rewrite big_S. destruct (Nat.eqb_spec n i) as [->|N].
  - rewrite big_zero; [lra|]. intros k Hk. destruct (Nat.eqb_spec k i); [lia|auto].
  - rewrite IH by lia. lra.
Qed.
Lemma big_kron_l n i f : (i < n)%nat -> big n (fun k => kron i k * f k) = f i.
Proof.
  intros H. rewrite <- (@big_single n i f H). apply big_ext. intros k _. unfold kron. rewrite Nat.eqb_sym. destruct (Nat.eqb k i); lra.
Qed.

(** ** the model's sums *)
Lemma sum_to_fin n (f : nat -> xr) g : (forall k, (k < n)%nat -> f k = Fin (g k)) -> sum_to n f = Fin (big n g).
Proof.
  intros H. unfold sum_to, big, nsum.
  assert (G : forall l a, (forall k, In k l -> f k = Fin (g k)) -> fold_left nadd (map f l) (Fin a) = Fin (a + rsum (map g l))).
  { induction l as [|k l IH]; intros a K; cbn [map fold_left rsum]; [f_equal; ring|].
    rewrite K by now left. xs. rewrite IH by (intros; apply K; now right). f_equal. ring. }
  unfold n0. rewrite xofZ, G; [f_equal; ring|]. intros k Hk. apply H. apply in_seq in Hk. lia.
Qed.
Lemma mat_dot_fin a b r n c A B : is_mat a r n A -> is_mat b n c B ->
  exists m, mat_dot a b = Ok m /\ is_mat m r c (fun i j => big n (fun k => A i k * B k j)).
Proof.
  intros (R1&C1&E1) (R2&C2&E2). unfold mat_dot. rewrite C1, R2, Nat.eqb_refl. eexists. split; [reflexivity|].
  split; [auto|]. split; [auto|]. intros i j Hi Hj. cbn [m_at]. apply sum_to_fin. intros k Hk. now rewrite E1, E2 by auto.
Qed.
Lemma is_mat_T m r c A : is_mat m r c A -> is_mat (mat_T m) c r (fun i j => A j i).
Proof. intros (H1&H2&H3). repeat split; auto. intros i j Hi Hj. now apply H3. Qed.
Lemma rmat_is r c A : is_mat (rmat r c A) r c A.
Proof. repeat split. Qed.
Lemma is_mat_ext m r c A B : is_mat m r c A -> (forall i j, (i < r)%nat -> (j < c)%nat -> A i j = B i j) -> is_mat m r c B.
Proof. intros (H1&H2&H3) E. repeat split; auto. intros i j Hi Hj. now rewrite H3, E. Qed.

(** ** isomorphism *)
Section Iso.
Variables (det : mat xr -> xr) (inv : mat xr -> mat xr).
(** what is asked of np.linalg.det and np.matrix.I at one matrix *)
Definition det_ok (m : mat xr) (n : nat) (A : nat -> nat -> R) : Prop :=
  exists d, det m = Fin d /\ (d = 0 <-> rows_dependent n n (fun i j => A j i)).
Definition inv_ok (m : mat xr) (n : nat) (A : nat -> nat -> R) : Prop :=
  ~ rows_dependent n n (fun i j => A j i) ->
  exists B, is_mat (inv m) n n B /\
    (forall i j, (i < n)%nat -> (j < n)%nat -> big n (fun k => A i k * B k j) = kron i j) /\
    (forall i j, (i < n)%nat -> (j < n)%nat -> big n (fun k => B i k * A k j) = kron i j).
Lemma iso_ok n A B : 
  det_ok (mat_T (rmat n n A)) n (fun i j => A j i) -> det_ok (mat_T (rmat n n B)) n (fun i j => B j i) ->
  inv_ok (mat_T (rmat n n A)) n (fun i j => A j i) ->
  ~ rows_dependent n n A -> ~ rows_dependent n n B ->
  exists m M, isomorphism det inv (rmat n n A) (rmat n n B) = Ok m /\ is_mat m n n M /\
    (forall j r, (j < n)%nat -> (r < n)%nat -> B j r = big n (fun i => M i j * A i r)) /\
    (forall M', (forall j r, (j < n)%nat -> (r < n)%nat -> B j r = big n (fun i => M' i j * A i r)) ->
       forall i j, (i < n)%nat -> (j < n)%nat -> M' i j = M i j).
Proof.
  intros (d1&E1&D1) (d2&E2&D2) I NA NB. unfold isomorphism, validate_frames.
  cbn [m_rows m_cols mat_T rmat]. rewrite Nat.eqb_refl. cbn [negb].
  unfold checked_det, checked_inv. cbn [m_rows m_cols mat_T rmat]. rewrite Nat.eqb_refl. cbn [bindr].
  fold (rmat n n A) (rmat n n B). 
  destruct (I NA) as (Q&HQ&Q1&Q2).
  change (mat_T (rmat n n A)) with (mkmat n n (fun i j => Fin (A j i))) in *.
  change (mat_T (rmat n n B)) with (mkmat n n (fun i j => Fin (B j i))) in *.
  cbn [rmat mat_T m_rows m_cols m_at] in *.
  rewrite E1. cbn [bindr]. unfold n0. rewrite xofZ, xeqb, Req_bool_false by (intros ->; tauto).
  rewrite E2. cbn [bindr]. rewrite xeqb, Req_bool_false by (intros ->; tauto). cbn [bindr].
  destruct (@mat_dot_fin _ (mkmat n n (fun i j => Fin (B j i))) n n n Q (fun i j => B j i) HQ) as (m&Em&Hm); [repeat split|].
  eexists _, _. split; [exact Em|]. split; [exact Hm|]. split.
  - intros j r Hj Hr. symmetry.
    transitivity (big n (fun k => big n (fun i => A i r * Q i k) * B j k)).
    + rewrite (@big_ext n _ (fun i => big n (fun k => A i r * Q i k * B j k))).
      2:{ intros i _. rewrite Rmult_comm, <- big_scale. apply big_ext. intros. ring. }
      rewrite big_swap. apply big_ext. intros. apply big_scale_r.
    + rewrite (@big_ext n _ (fun k => kron r k * B j k)); [now apply big_kron_l|].
      intros k Hk. now rewrite Q1.
  - intros M' H i j Hi Hj.
    transitivity (big n (fun k => kron i k * M' k j)); [now rewrite big_kron_l|].
    rewrite (@big_ext n _ (fun k => big n (fun r => Q i r * A k r * M' k j))).
    2:{ intros k Hk. rewrite <- (Q2 i k) by auto. rewrite big_scale_r. auto. }
    rewrite big_swap. apply big_ext. intros r Hr. rewrite (H j r) by auto. rewrite <- big_scale. apply big_ext. intros. ring.
Qed.
Lemma iso_mismatch r1 c1 A r2 c2 B : r1 <> r2 -> isomorphism det inv (rmat r1 c1 A) (rmat r2 c2 B) = Err DimensionalityError.
Proof. intros H. unfold isomorphism, validate_frames. cbn. destruct (Nat.eqb_spec r1 r2); [congruence|reflexivity]. Qed.
Lemma iso_not_square n c1 A c2 B : c1 <> n -> isomorphism det inv (rmat n c1 A) (rmat n c2 B) = Err LinAlgError.
Proof.
  intros H. unfold isomorphism, validate_frames, checked_det. cbn. rewrite Nat.eqb_refl. cbn.
  destruct (Nat.eqb_spec c1 n); [congruence|reflexivity].
Qed.
Lemma iso_dependent1 n A c2 B : det_ok (mat_T (rmat n n A)) n (fun i j => A j i) -> rows_dependent n n A ->
  isomorphism det inv (rmat n n A) (rmat n c2 B) = Err LinearDependenceError.
Proof.
  intros (d1&E1&D1) D. unfold isomorphism, validate_frames, checked_det. cbn [m_rows m_cols mat_T rmat].
  rewrite !Nat.eqb_refl. cbn [negb bindr]. change (mat_T (rmat n n A)) with (mkmat n n (fun i j => Fin (A j i))) in *.
  cbn [m_at mat_T rmat m_rows m_cols] in *. 
  match goal with |- context [det ?m] => replace (det m) with (Fin d1) by (symmetry; exact E1) end.
  unfold n0. rewrite xofZ, xeqb, Req_bool_true by now apply D1. reflexivity.
Qed.
Lemma iso_dependent2 n A B : det_ok (mat_T (rmat n n A)) n (fun i j => A j i) -> det_ok (mat_T (rmat n n B)) n (fun i j => B j i) ->
  ~ rows_dependent n n A -> rows_dependent n n B ->
  isomorphism det inv (rmat n n A) (rmat n n B) = Err LinearDependenceError.
Proof.
  intros (d1&E1&D1) (d2&E2&D2) NA D. unfold isomorphism, validate_frames, checked_det. cbn [m_rows m_cols mat_T rmat].
  rewrite !Nat.eqb_refl. cbn [negb bindr].
  match goal with |- context [det ?m] => replace (det m) with (Fin d1) by (symmetry; exact E1) end.
  unfold n0. rewrite xofZ, xeqb, Req_bool_false by (intros ->; tauto). cbn [bindr].
  match goal with |- context [det ?m] => replace (det m) with (Fin d2) by (symmetry; exact E2) end.
  rewrite xeqb, Req_bool_true by now apply D2. reflexivity.
Qed.
End Iso.

(** ** masks *)
Lemma masked_complement mask i : (i < length mask)%nat -> masked (complement mask) i = negb (masked mask i).
Proof.
  intros H. unfold masked, complement. rewrite (nth_indep (map negb mask) false (negb false)) by now rewrite map_length.
  apply map_nth.
Qed.
Lemma any_true_false mask : any_true mask = false -> forall i, masked mask i = false.
Proof.
  unfold any_true, masked. induction mask as [|b mask IH]; intros H [|i]; auto; cbn in *; apply orb_false_iff in H as [-> H]; auto.
Qed.
Lemma mask_rows_at (m : mat xr) mask i j : m_at (mask_by_rows m mask) i j = if masked mask i then m_at m i j else n0.
Proof. unfold mask_by_rows. destruct (any_true mask) eqn:E; auto. cbn. now rewrite any_true_false. Qed.
Lemma mask_columns_at (m : mat xr) mask i j : m_at (mask_by_columns m mask) i j = if masked mask j then m_at m i j else n0.
Proof. unfold mask_by_columns. destruct (any_true mask) eqn:E; auto. cbn. now rewrite any_true_false. Qed.
Lemma mask_rows_shape (m : mat xr) mask : m_rows (mask_by_rows m mask) = m_rows m /\ m_cols (mask_by_rows m mask) = m_cols m.
Proof. unfold mask_by_rows. destruct (any_true mask); auto. Qed.
Lemma mask_columns_shape (m : mat xr) mask : m_rows (mask_by_columns m mask) = m_rows m /\ m_cols (mask_by_columns m mask) = m_cols m.
Proof. unfold mask_by_columns. destruct (any_true mask); auto. Qed.
Lemma fnz_shift k m : flatnonzero (S k) m = map S (flatnonzero k m).
Proof. revert k. induction m as [|b m IH]; intros k; auto. cbn. destruct b; cbn; now rewrite IH. Qed.
Lemma fnz_in m i : In i (flatnonzero 0 m) <-> masked m i = true.
Proof.
  revert i. induction m as [|b m IH]; intros i; cbn [flatnonzero].
  - cbn. unfold masked. destruct i; cbn; split; try discriminate; tauto.
  - rewrite fnz_shift. destruct b; destruct i as [|i]; cbn [In].
    + split; auto.
    + unfold masked in *. cbn [nth]. rewrite <- IH. rewrite in_map_iff. split.
      * intros [H|(j&E&H)]; [discriminate|]. now injection E as <-.
      * intros H. right. eauto.
    + rewrite in_map_iff. unfold masked. cbn. split; [intros (j&E&_); discriminate|discriminate].
    + unfold masked in *. cbn [nth]. rewrite <- IH. rewrite in_map_iff. split.
      * intros (j&E&H). now injection E as <-.
      * intros H. eauto.
Qed.
Lemma nth_map0 A B (f : A -> B) l k a b : (k < length l)%nat -> nth k (map f l) b = f (nth k l a).
Proof. intros H. rewrite (nth_indep (map f l) b (f a)) by now rewrite map_length. apply map_nth. Qed.
Lemma pos_spec m i : masked m i = true ->
  (pos m i < length (flatnonzero 0 m))%nat /\ nth (pos m i) (flatnonzero 0 m) 0%nat = i.
Proof.
  revert i. induction m as [|b m IH]; intros i H; [destruct i; discriminate|].
  cbn [flatnonzero]. rewrite fnz_shift. destruct i as [|i].
  - unfold masked in H. cbn in H. subst b. cbn. split; [lia|auto].
  - change (masked m i = true) in H. destruct (IH i H) as [L E]. unfold pos in *. cbn [firstn filter].
    destruct b; cbn [length nth]; rewrite map_length; (split; [lia|]); rewrite (@nth_map0 _ _ S _ _ 0%nat) by auto; now rewrite E.
Qed.
Lemma fnz_nodup m k : NoDup (flatnonzero k m).
Proof.
  revert k. induction m as [|b m IH]; intros k; [constructor|]. cbn. destruct b; auto. constructor; auto.
  assert (G : forall l j i, In i (flatnonzero j l) -> (j <= i)%nat).
  { induction l as [|c l IHl]; intros j i; cbn; [tauto|]. destruct c; [intros [->|I]; [lia|]|intros I]; apply IHl in I; lia. }
  intros I. apply G in I. lia.
Qed.
Lemma fnz_nth m k : (k < length (flatnonzero 0 m))%nat -> masked m (nth k (flatnonzero 0 m) 0%nat) = true.
Proof. intros H. apply fnz_in. now apply nth_In. Qed.
Lemma fnz_lt m k : (k < length (flatnonzero 0 m))%nat -> (nth k (flatnonzero 0 m) 0%nat < length m)%nat.
Proof.
  intros H. apply fnz_nth in H. unfold masked in H. destruct (Nat.lt_ge_cases (nth k (flatnonzero 0 m) 0%nat) (length m)); auto.
  rewrite nth_overflow in H by auto. discriminate.
Qed.
Lemma fnz_pos m k i : (k < length (flatnonzero 0 m))%nat -> nth k (flatnonzero 0 m) 0%nat = i -> k = pos m i.
Proof.
  intros H <-. pose proof (fnz_nth H) as M. destruct (pos_spec M) as [L E].
  apply (NoDup_nth (flatnonzero 0 m) 0%nat); auto. apply fnz_nodup.
Qed.
Lemma placed_fin m i f g : (forall k, (k < length (flatnonzero 0 m))%nat -> f k = Fin (g k)) ->
  placed (flatnonzero 0 m) i f = Fin (if masked m i then g (pos m i) else 0).
Proof.
  intros H. unfold placed.
  rewrite (@sum_to_fin _ _ (fun k => if Nat.eqb (nth k (flatnonzero 0 m) 0%nat) i then g k else 0)).
  2:{ intros k Hk. destruct (Nat.eqb _ i); auto. }
  f_equal. destruct (masked m i) eqn:M.
  - destruct (pos_spec M) as [L E]. rewrite <- (@big_single _ (pos m i) g L). apply big_ext. intros k Hk.
    destruct (Nat.eqb_spec (nth k (flatnonzero 0 m) 0%nat) i) as [E2|E2], (Nat.eqb_spec k (pos m i)) as [E3|E3]; auto.
    + elim E3. now apply fnz_pos.
    + subst k. congruence.
  - apply big_zero. intros k Hk. destruct (Nat.eqb_spec (nth k (flatnonzero 0 m) 0%nat) i) as [E2|E2]; auto.
    rewrite <- E2, fnz_nth in M by auto. discriminate.
Qed.
Lemma or_all_true_length n mask : mask = [] \/ length mask = n -> length (or_all_true n mask) = n.
Proof. intros [->|H]; cbn; [apply repeat_length|]. destruct mask; cbn in *; [subst; reflexivity|auto]. Qed.
Lemma no_false_all m : flatnonzero 0 (complement m) = [] -> forall i, (i < length m)%nat -> masked m i = true.
Proof.
  intros H i Hi. destruct (masked m i) eqn:E; auto. pose proof (masked_complement Hi) as C. rewrite E in C. cbn in C.
  apply fnz_in in C. rewrite H in C. destruct C.
Qed.
Lemma fnz_all m : (forall i, (i < length m)%nat -> masked m i = true) -> flatnonzero 0 m = seq 0 (length m).
Proof.
  assert (G : forall m k, (forall i, (i < length m)%nat -> masked m i = true) -> flatnonzero k m = seq k (length m)).
  { clear m. induction m as [|b m IH]; intros k H; auto. cbn. assert (b = true) as -> by (apply (H 0%nat); cbn; lia).
    f_equal. apply IH. intros i Hi. apply (H (S i)). cbn. lia. }
  apply G.
Qed.

Section Sbsm.
Variables (r c : nat) (A : nat -> nat -> R) (rm cm : list bool).
Hypothesis Hr : rm = [] \/ length rm = r.
Hypothesis Hc : cm = [] \/ length cm = c.
Let M := rmat r c A.
Let rs := or_all_true r rm.
Let cs := or_all_true c cm.
Let s := mk_sbsm M rm cm.
Lemma rs_len : length rs = r. Proof. now apply or_all_true_length. Qed.
Lemma cs_len : length cs = c. Proof. now apply or_all_true_length. Qed.
Lemma rd_len : length (complement rs) = r. Proof. unfold complement. rewrite map_length. apply rs_len. Qed.
Lemma block_s_is : is_mat (block_s s) r c (fun i j => if masked rs i then A i j else 0).
Proof.
  destruct (mask_rows_shape M rs) as [S1 S2]. split; [exact S1|]. split; [exact S2|]. intros i j Hi Hj.
  change (block_s s) with (mask_by_rows M rs). rewrite mask_rows_at. destruct (masked rs i); auto.
Qed.
Lemma block_d_is : is_mat (block_d s) (length (flatnonzero 0 (complement rs))) c (fun k j => A (nth k (flatnonzero 0 (complement rs)) 0%nat) j).
Proof.
  split; [reflexivity|]. destruct (mask_rows_shape M (complement rs)) as [S1 S2]. split; [exact S2|]. intros k j Hk Hj.
  change (m_at (block_d s) k j) with (m_at (mask_by_rows M (complement rs)) (nth k (flatnonzero 0 (complement rs)) 0%nat) j).
  rewrite mask_rows_at, fnz_nth by auto. reflexivity.
Qed.
Lemma block_ss_is : is_mat (block_ss s) r c (fun i j => if masked rs i && masked cs j then A i j else 0).
Proof.
  change (block_ss s) with (mask_by_columns (mask_by_rows M rs) cs).
  destruct (mask_rows_shape M rs) as [S1 S2]. destruct (mask_columns_shape (mask_by_rows M rs) cs) as [S3 S4].
  split; [now rewrite S3|]. split; [now rewrite S4|]. intros i j Hi Hj. rewrite mask_columns_at, mask_rows_at.
  destruct (masked rs i), (masked cs j); reflexivity.
Qed.
Lemma block_ds_is : is_mat (block_ds s) (length (flatnonzero 0 (complement rs))) (length (flatnonzero 0 cs))
  (fun k l => A (nth k (flatnonzero 0 (complement rs)) 0%nat) (nth l (flatnonzero 0 cs) 0%nat)).
Proof.
  split; [reflexivity|]. split; [reflexivity|]. intros k l Hk Hl. destruct block_d_is as (_&_&E).
  change (m_at (block_ds s) k l) with (m_at (block_d s) k (nth l (flatnonzero 0 cs) 0%nat)). apply E; auto.
  rewrite <- cs_len. now apply fnz_lt.
Qed.
Lemma block_dd_is : is_mat (block_dd s) (length (flatnonzero 0 (complement rs))) (length (flatnonzero 0 (complement cs)))
  (fun k l => A (nth k (flatnonzero 0 (complement rs)) 0%nat) (nth l (flatnonzero 0 (complement cs)) 0%nat)).
Proof.
  split; [reflexivity|]. split; [reflexivity|]. intros k l Hk Hl. destruct block_d_is as (_&_&E).
  change (m_at (block_dd s) k l) with (m_at (block_d s) k (nth l (flatnonzero 0 (complement cs)) 0%nat)). apply E; auto.
  apply fnz_lt in Hl. unfold complement in Hl. now rewrite map_length, cs_len in Hl.
Qed.
Lemma block_sd_is : flatnonzero 0 (complement cs) <> [] ->
  is_mat (block_sd s) r (length (flatnonzero 0 (complement cs)))
    (fun i l => if masked rs i then A i (nth l (flatnonzero 0 (complement cs)) 0%nat) else 0).
Proof.
  intros H. assert (E : block_sd s = take_columns (mask_by_columns (mask_by_rows M rs) (complement cs)) (flatnonzero 0 (complement cs))).
  { change (block_sd s) with (if Nat.eqb (length (flatnonzero 0 (complement cs))) 0 then mkmat (length (flatnonzero 0 rs)) 0 (fun _ _ => n0)
      else take_columns (mask_by_columns (mask_by_rows M rs) (complement cs)) (flatnonzero 0 (complement cs))).
    destruct (Nat.eqb_spec (length (flatnonzero 0 (complement cs))) 0) as [E|E]; auto. apply length_zero_iff_nil in E. contradiction. }
  rewrite E. destruct (mask_rows_shape M rs) as [S1 S2]. destruct (mask_columns_shape (mask_by_rows M rs) (complement cs)) as [S3 S4].
  split; [cbn [take_columns m_rows]; now rewrite S3|]. split; [reflexivity|]. intros i l Hi Hl. cbn [take_columns m_at].
  rewrite mask_columns_at, fnz_nth, mask_rows_at by auto. destruct (masked rs i); reflexivity.
Qed.
Lemma sparse_block_is : is_mat (sparse_block s) (length (flatnonzero 0 rs)) (length (flatnonzero 0 cs))
  (fun k l => A (nth k (flatnonzero 0 rs) 0%nat) (nth l (flatnonzero 0 cs) 0%nat)).
Proof.
  split; [reflexivity|]. split; [reflexivity|]. intros k l Hk Hl. destruct block_ss_is as (_&_&E).
  change (m_at (sparse_block s) k l) with (m_at (block_ss s) (nth k (flatnonzero 0 rs) 0%nat) (nth l (flatnonzero 0 cs) 0%nat)).
  rewrite E.
  - now rewrite !fnz_nth.
  - rewrite <- rs_len. now apply fnz_lt.
  - rewrite <- cs_len. now apply fnz_lt.
Qed.

Lemma MMT_ok : exists m, MMT s = Ok m /\ is_mat m r r (fun i j => big c (fun k => A i k * A j k)).
Proof.
  unfold MMT. change (r_s s) with rs. change (c_s s) with cs.
  destruct (negb (Nat.eqb (length (flatnonzero 0 (complement rs))) 0) && Nat.eqb (length (flatnonzero 0 (complement cs))) 0) eqn:Br.
  2:{ destruct (mat_dot_fin (rmat_is r c A) (is_mat_T (rmat_is r c A))) as (m&E&I). exists m. split; auto. }
  clear Br. set (rd := complement rs) in *. set (nd := length (flatnonzero 0 rd)) in *.
  destruct (mat_dot_fin block_s_is (is_mat_T block_s_is)) as (ans&E1&I1).
  destruct (mat_dot_fin block_s_is (is_mat_T block_d_is)) as (asd&E2&I2).
  destruct (mat_dot_fin block_d_is (is_mat_T block_d_is)) as (dd&E3&I3).
  rewrite E1, E2, E3. cbn [bindr]. fold rd nd in I2, I3, E2, E3.
  destruct I1 as (R1&C1&I1). destruct I2 as (R2&C2&I2). destruct I3 as (R3&C3&I3).
  eexists. split; [reflexivity|]. split; [auto|]. split; [auto|]. intros i j Hi Hj. cbn [m_at].
  assert (Mi : masked rd i = negb (masked rs i)) by (apply masked_complement; rewrite rs_len; auto).
  assert (Mj : masked rd j = negb (masked rs j)) by (apply masked_complement; rewrite rs_len; auto).
  rewrite I1 by auto.
  assert (FD : forall k, (k < nd)%nat ->
    match find (fun k0 => Nat.eqb (nth k0 (flatnonzero 0 rd) 0%nat) j) (rev (seq 0 nd)) with
    | Some k0 => m_at dd k k0 | None => m_at asd j k end
    = Fin (big c (fun l => A (nth k (flatnonzero 0 rd) 0%nat) l * A j l))).
  { intros k Hk. destruct (find _ _) as [k0|] eqn:Ef.
    - apply find_some in Ef as [In0 E0]. apply in_rev, in_seq in In0. apply Nat.eqb_eq in E0. rewrite I3 by lia. now rewrite E0.
    - destruct (masked rd j) eqn:Mjd.
      + exfalso. destruct (pos_spec Mjd) as [L E]. apply (find_none _ _) with (x := pos rd j) in Ef.
        * apply Nat.eqb_neq in Ef. contradiction.
        * apply in_rev. rewrite rev_involutive. apply in_seq. fold nd in L. lia.
      + rewrite I2 by auto. destruct (masked rs j); [|discriminate]. f_equal. apply big_ext. intros. ring. }
  rewrite (@placed_fin rd i _ (fun k => big c (fun l => A (nth k (flatnonzero 0 rd) 0%nat) l * A j l))) by exact FD.
  rewrite (@placed_fin rd j _ (fun k => big c (fun l => (if masked rs i then A i l else 0) * A (nth k (flatnonzero 0 rd) 0%nat) l))).
  2:{ intros k Hk. now apply I2. }
  xs. f_equal. rewrite Mi, Mj. destruct (masked rs i) eqn:Ei, (masked rs j) eqn:Ej; cbn [negb].
  - rewrite !Rplus_0_r. apply big_ext. reflexivity.
  - rewrite (@big_zero c) by (intros; ring). destruct (pos_spec Mj) as [_ E]. rewrite E. lra.
  - rewrite (@big_zero c (fun k => 0 * A j k)) by (intros; ring). destruct (pos_spec Mi) as [_ E]. rewrite E. lra.
  - rewrite (@big_zero c (fun k => 0 * 0)) by (intros; ring). destruct (pos_spec Mi) as [_ E]. rewrite E.
    rewrite (@big_zero c (fun l => 0 * A (nth (pos rd j) (flatnonzero 0 rd) 0%nat) l)) by (intros; ring). lra.
Qed.

Lemma take_rows_is m n k idx B : is_mat m n k B -> (forall l, (l < length idx)%nat -> (nth l idx 0 < n)%nat) ->
  is_mat (take_rows m idx) (length idx) k (fun l j => B (nth l idx 0%nat) j).
Proof. intros (H1&H2&H3) L. split; [reflexivity|]. split; [auto|]. intros l j Hl Hj. cbn. apply H3; auto. Qed.
Lemma matvec_column_ok q w : flatnonzero 0 (complement cs) = [] ->
  exists m, matvec s (A2 (rmat c q w)) = Ok (A2 m) /\ is_mat m r q (fun i j => big c (fun k => A i k * w k j)).
Proof.
  intros ND. assert (Call : forall j, (j < c)%nat -> masked cs j = true) by (intros j Hj; apply no_false_all; auto; now rewrite cs_len).
  assert (CS : flatnonzero 0 cs = seq 0 c) by (rewrite fnz_all, cs_len; auto; now rewrite cs_len).
  unfold matvec. change (r_s s) with rs. change (c_s s) with cs. rewrite ND. cbn [length Nat.eqb negb].
  cbn [arr_dot arr_mask]. rewrite ND.
  destruct (mat_dot_fin block_ss_is (rmat_is c q w)) as (b&E1&I1). rewrite E1. cbn [bindr].
  assert (SD : is_mat (block_sd s) (length (flatnonzero 0 rs)) 0 (fun _ _ => 0)).
  { change (block_sd s) with (if Nat.eqb (length (flatnonzero 0 (complement cs))) 0 then mkmat (length (flatnonzero 0 rs)) 0 (fun _ _ => n0)
      else take_columns (mask_by_columns (mask_by_rows M rs) (complement cs)) (flatnonzero 0 (complement cs))).
    rewrite ND. cbn [length Nat.eqb]. split; [reflexivity|]. split; [reflexivity|]. intros. lia. }
  assert (V0 : is_mat (take_rows (rmat c q w) []) 0 q (fun _ _ => 0)) by (repeat split; intros; lia).
  destruct (mat_dot_fin SD V0) as (x&E2&I2). rewrite E2. cbn [bindr].
  cbn [arr_set]. unfold set2 at 1. destruct I1 as (R1&C1&I1). destruct I2 as (R2&C2&I2).
  rewrite R2, C2, C1, !Nat.eqb_refl. cbn [orb andb bindr].
  assert (VC : is_mat (take_rows (rmat c q w) (flatnonzero 0 cs)) (length (flatnonzero 0 cs)) q (fun l j => w (nth l (flatnonzero 0 cs) 0%nat) j)).
  { apply (@take_rows_is _ c q _ w (rmat_is c q w)). intros l Hl. rewrite <- cs_len. now apply fnz_lt. }
  destruct (mat_dot_fin block_ds_is VC) as (y1&E3&I3). rewrite E3. cbn [bindr].
  assert (V0' : is_mat (take_rows (rmat c q w) []) (length (flatnonzero 0 (complement cs))) q (fun _ _ => 0)).
  { rewrite ND. exact V0. }
  destruct (mat_dot_fin block_dd_is V0') as (y2&E4&I4). rewrite E4. cbn [bindr arr_add].
  destruct I3 as (R3&C3&I3). destruct I4 as (R4&C4&I4). rewrite R3, R4, C3, C4, !Nat.eqb_refl. cbn [andb bindr].
  cbn [arr_set]. unfold set2. cbn [m_rows m_cols]. rewrite !Nat.eqb_refl. cbn [orb andb bindr].
  eexists. split; [reflexivity|]. split; [exact R1|]. split; [reflexivity|]. intros i j Hi Hj. cbn [m_at].
  rewrite masked_complement by (rewrite rs_len; auto). destruct (masked rs i) eqn:Ei; cbn [negb].
  - destruct (pos_spec Ei) as [L E]. rewrite I1, I2 by (auto; lia). rewrite Ei. xs. f_equal.
    unfold big at 2. cbn [seq map rsum]. rewrite Rplus_0_r. apply big_ext. intros k Hk. now rewrite Call.
  - assert (Md : masked (complement rs) i = true) by (rewrite masked_complement by (rewrite rs_len; auto); now rewrite Ei).
    destruct (pos_spec Md) as [L E]. rewrite I3, I4 by (auto; lia). xs. f_equal. rewrite E. rewrite ND.
    unfold big at 2. cbn [length seq map rsum]. rewrite Rplus_0_r, CS, seq_length. apply big_ext. intros k Hk. rewrite seq_nth by auto. reflexivity.
Qed.
Lemma matvec_1d_fails l : length l = c -> matvec s (A1 l) = Err ValueError.
Proof.
  assert (D : forall x (m : mat xr) v e, arr_dot x m v = Err e -> e = ValueError).
  { intros x m [v|v] e; cbn [arr_dot]; unfold mat_dot; destruct (Nat.eqb _ _); cbn [bindr]; intros [= <-]; auto. }
  assert (S : forall f b m (x : arr xr) e, arr_set f b m x = Err e -> e = ValueError).
  { intros f [b|b] m [x|x] e; cbn [arr_set]; unfold set1, set2; repeat (match goal with |- context [if ?q then _ else _] => destruct q end); cbn [bindr]; try (intros [= <-]; auto; fail).
    destruct x as [|? [|? ?]]; cbn [bindr]; intros [= <-]; auto. }
  assert (P : forall (x y : arr xr) e, arr_add x y = Err e -> e = ValueError).
  { intros [x|x] [y|y] e; cbn [arr_add]; try (intros [= <-]; auto; fail); destruct (_ : bool); intros [= <-]; auto. }
  intros Hl. unfold matvec. change (r_s s) with rs. change (c_s s) with cs.
  destruct (arr_dot false (block_ss s) (A1 l)) as [b|e] eqn:E1; cbn [bindr]; [|f_equal; eauto].
  cbn [arr_dot] in E1. destruct (mat_dot _ _) as [b1|]; [|discriminate]. injection E1 as <-.
  destruct (arr_dot _ (block_sd s) _) as [x|e] eqn:E2; cbn [bindr]; [|f_equal; eauto].
  destruct (arr_set _ _ rs x) as [b2|e] eqn:E3; cbn [bindr]; [|f_equal; eauto].
  destruct (arr_dot true (block_ds s) _) as [y1|e] eqn:E4; cbn [bindr]; [|f_equal; eauto].
  destruct (arr_dot true (block_dd s) _) as [y2|e] eqn:E5; cbn [bindr]; [|f_equal; eauto].
  destruct (arr_add y1 y2) as [y|e] eqn:E6; cbn [bindr]; [|f_equal; eauto].
  cbn [arr_mask arr_dot] in E4, E5. destruct (mat_dot (block_ds s) _); [|discriminate]. destruct (mat_dot (block_dd s) _); [|discriminate].
  cbn [bindr] in E4, E5. injection E4 as <-. injection E5 as <-. cbn [arr_add] in E6.
  destruct (_ && _) in E6; [|discriminate]. injection E6 as <-.
  cbn [arr_set] in E3. destruct x as [x|x]; [|discriminate]. destruct (set1 _ _ _ _); [|discriminate]. injection E3 as <-.
  reflexivity.
Qed.
Lemma matvec_dense_fails q w : flatnonzero 0 (complement cs) <> [] -> r <> 1%nat -> flatnonzero 0 (complement rs) <> [] ->
  matvec s (A2 (rmat c q w)) = Err ValueError.
Proof.
  intros DC R1' DR. unfold matvec. change (r_s s) with rs. change (c_s s) with cs.
  cbn [arr_dot arr_mask]. destruct (mat_dot_fin block_ss_is (rmat_is c q w)) as (b&E1&I1). rewrite E1. cbn [bindr].
  assert (VD : is_mat (take_rows (rmat c q w) (flatnonzero 0 (complement cs))) (length (flatnonzero 0 (complement cs))) q
    (fun l j => w (nth l (flatnonzero 0 (complement cs)) 0%nat) j)).
  { apply (@take_rows_is _ c q _ w (rmat_is c q w)). intros l Hl. apply fnz_lt in Hl. unfold complement in Hl. now rewrite map_length, cs_len in Hl. }
  destruct (mat_dot_fin (block_sd_is DC) VD) as (x&E2&I2). rewrite E2. cbn [bindr arr_set]. unfold set2.
  destruct I2 as (R2&C2&I2). rewrite R2.
  assert (LT : (length (flatnonzero 0 rs) < r)%nat).
  { destruct (flatnonzero 0 (complement rs)) as [|i0 l0] eqn:E0; [congruence|].
    assert (I0 : In i0 (flatnonzero 0 (complement rs))) by (rewrite E0; now left). apply fnz_in in I0.
    assert (L0 : (i0 < r)%nat).
    { rewrite <- rd_len. destruct (Nat.lt_ge_cases i0 (length (complement rs))); auto. unfold masked in I0. rewrite nth_overflow in I0 by auto. discriminate. }
    rewrite masked_complement in I0 by (rewrite rs_len; auto).
    assert (NI : ~ In i0 (flatnonzero 0 rs)) by (rewrite fnz_in; destruct (masked rs i0); discriminate || auto).
    assert (ND : NoDup (i0 :: flatnonzero 0 rs)) by (constructor; auto; apply fnz_nodup).
    apply NoDup_incl_length with (l' := seq 0 r) in ND.
    - rewrite seq_length in ND. cbn in ND. lia.
    - intros k [<-|Hk]; apply in_seq; [lia|]. apply In_nth with (d := 0%nat) in Hk as (qq&Lqq&<-). apply fnz_lt in Lqq. rewrite rs_len in Lqq. lia. }
  destruct (Nat.eqb_spec r (length (flatnonzero 0 rs))); [lia|]. destruct (Nat.eqb_spec r 1); [congruence|]. reflexivity.
Qed.
End Sbsm.

(** ** lchol *)
Lemma fold_max_ge l a : (a <= fold_left Nat.max l a)%nat /\ forall x, In x l -> (x <= fold_left Nat.max l a)%nat.
Proof.
  revert a. induction l as [|b l IH]; intros a; cbn; [split; [lia|tauto]|]. destruct (IH (Nat.max a b)) as [H1 H2]. split; [lia|].
  intros x [<-|H]; [lia|auto].
Qed.
Lemma fold_max_in l a : In (fold_left Nat.max l a) (a :: l).
Proof.
  revert a. induction l as [|b l IH]; intros a; cbn; auto. destruct (IH (Nat.max a b)) as [H|H]; auto. rewrite <- H.
  destruct (Nat.max_spec a b) as [[_ ->]|[_ ->]]; auto.
Qed.
Lemma selection_perm n q : (0 < n)%nat -> Permutation q (seq 0 n) ->
  exists s, selection q = Ok s /\ is_mat s n n (fun i j => kron (nth j q 0%nat) i).
Proof.
  intros Hn P. assert (L : length q = n) by (rewrite (Permutation_length P); apply seq_length).
  destruct q as [|q0 q]; [cbn in L; lia|]. eexists. split; [reflexivity|].
  assert (E : S (fold_left Nat.max q q0) = n).
  { apply Nat.le_antisymm.
    - pose proof (fold_max_in q q0) as I. apply (Permutation_in _ P) in I. apply in_seq in I. lia.
    - assert (I : In (n - 1)%nat (q0 :: q)) by (apply (Permutation_in _ (Permutation_sym P)), in_seq; lia).
      destruct (fold_max_ge q q0) as [H1 H2]. destruct I as [I|I]; [lia|]. apply H2 in I. lia. }
  split; [exact E|]. split; [exact L|]. intros i j Hi Hj. cbn [m_at]. unfold kron, n0. destruct (Nat.eqb _ i); reflexivity.
Qed.
Lemma perm_nth_inj n q i j : Permutation q (seq 0 n) -> (i < n)%nat -> (j < n)%nat -> nth i q 0%nat = nth j q 0%nat -> i = j.
Proof.
  intros P Hi Hj E. assert (L : length q = n) by (rewrite (Permutation_length P); apply seq_length).
  apply (NoDup_nth q 0%nat); try lia; auto. apply (Permutation_NoDup (Permutation_sym P)), seq_NoDup.
Qed.
Lemma perm_nth_lt n q i : Permutation q (seq 0 n) -> (i < n)%nat -> (nth i q 0 < n)%nat.
Proof.
  intros P Hi. assert (L : length q = n) by (rewrite (Permutation_length P); apply seq_length).
  assert (I : In (nth i q 0%nat) (seq 0 n)) by (apply (Permutation_in _ P), nth_In; lia). apply in_seq in I. lia.
Qed.
Lemma perm_nth_surj n q v : Permutation q (seq 0 n) -> (v < n)%nat -> exists j, (j < n)%nat /\ nth j q 0%nat = v.
Proof.
  intros P Hv. assert (L : length q = n) by (rewrite (Permutation_length P); apply seq_length).
  assert (I : In v q) by (apply (Permutation_in _ (Permutation_sym P)), in_seq; lia).
  apply In_nth with (d := 0%nat) in I as (j&Lj&E). exists j. split; auto. lia.
Qed.
Lemma congruence_perm n q A i j : Permutation q (seq 0 n) -> (i < n)%nat -> (j < n)%nat ->
  big n (fun k => kron (nth i q 0%nat) k * big n (fun l => A k l * kron (nth j q 0%nat) l)) = A (nth i q 0%nat) (nth j q 0%nat).
Proof.
  intros P Hi Hj. rewrite big_kron_l by now apply (perm_nth_lt P).
  rewrite (@big_ext n _ (fun l => kron (nth j q 0%nat) l * A (nth i q 0%nat) l)) by (intros; ring).
  apply big_kron_l. now apply (perm_nth_lt P).
Qed.

(** ** the blocks of StaticBlockSparseMatrix *)
Lemma pos_count m i : pos m i = count_occ Bool.bool_dec (firstn i m) true.
Proof.
  unfold pos. induction (firstn i m) as [|b l IH]; auto. cbn. destruct b; cbn; now rewrite IH.
Qed.
Lemma count_complement m b : count_occ Bool.bool_dec (complement m) b = count_occ Bool.bool_dec m (negb b).
Proof. unfold complement. induction m as [|a m IH]; auto. destruct a, b; cbn in *; now rewrite IH. Qed.
Lemma fnz_count m k : length (flatnonzero k m) = count_occ Bool.bool_dec m true.
Proof. revert k. induction m as [|b m IH]; intros k; auto. cbn. destruct b; cbn; now rewrite IH. Qed.
Lemma pos_complement m i : pos (complement m) i = count_occ Bool.bool_dec (firstn i m) false.
Proof. rewrite pos_count. unfold complement. rewrite firstn_map. apply (count_complement (firstn i m) true). Qed.
Lemma or_all_given n m : (0 < n)%nat -> length m = n -> or_all_true n m = m.
Proof. intros H L. destruct m; cbn in *; auto. lia. Qed.
Lemma blocks_spec : forall r c A rm cm s, length rm = r -> length cm = c -> (0 < r)%nat -> (0 < c)%nat ->
  s = mk_sbsm (rmat r c A) rm cm ->
  forall i j, (i < r)%nat -> (j < c)%nat ->
  let rank_in mask b i := count_occ Bool.bool_dec (firstn i mask) b in
  match nth i rm false, nth j cm false with
  | true, true => m_at (sparse_block s) (rank_in rm true i) (rank_in cm true j) = Fin (A i j) /\ m_at (block_ss s) i j = Fin (A i j)
  | true, false => m_at (block_sd s) i (rank_in cm false j) = Fin (A i j) /\ m_at (block_ss s) i j = Fin 0
  | false, true => m_at (block_ds s) (rank_in rm false i) (rank_in cm true j) = Fin (A i j) /\ m_at (block_ss s) i j = Fin 0
  | false, false => m_at (block_dd s) (rank_in rm false i) (rank_in cm false j) = Fin (A i j) /\ m_at (block_ss s) i j = Fin 0
  end /\
  m_rows (sparse_block s) = count_occ Bool.bool_dec rm true /\ m_cols (sparse_block s) = count_occ Bool.bool_dec cm true /\
  m_rows (block_dd s) = count_occ Bool.bool_dec rm false /\ m_cols (block_dd s) = count_occ Bool.bool_dec cm false /\
  m_rows (block_ds s) = count_occ Bool.bool_dec rm false /\ m_cols (block_ds s) = count_occ Bool.bool_dec cm true.
Proof.
  intros r c A rm cm s Lr Lc R0 C0 -> i j Hi Hj. cbv beta zeta.
  assert (Hr : rm = [] \/ length rm = r) by auto. assert (Hc : cm = [] \/ length cm = c) by auto.
  pose proof (@block_ss_is r c A rm cm) as SS. pose proof (@sparse_block_is r c A rm cm Hr Hc) as SP. pose proof (@block_ds_is r c A rm cm Hc) as DS.
  pose proof (@block_dd_is r c A rm cm Hc) as DD. pose proof (@block_sd_is r c A rm cm) as SD.
  rewrite (or_all_given R0 Lr), (or_all_given C0 Lc) in *.
  rewrite <- !pos_count, <- !pos_complement.
  destruct SS as (_&_&SS). destruct SP as (P1&P2&SP). destruct DS as (S1&S2&DS). destruct DD as (D1&D2&DD).
  rewrite P1, P2, S1, S2, D1, D2, !fnz_count, !count_complement. cbn [negb]. split; [|repeat split].
  assert (Mr : masked (complement rm) i = negb (masked rm i)) by (apply masked_complement; lia).
  assert (Mc : masked (complement cm) j = negb (masked cm j)) by (apply masked_complement; lia).
  change (nth i rm false) with (masked rm i). change (nth j cm false) with (masked cm j).
  rewrite SS by auto. destruct (masked rm i) eqn:Ei, (masked cm j) eqn:Ej; cbn [negb andb] in *; (split; [|reflexivity]).
  - destruct (pos_spec Ei) as [Q1 Q2]. destruct (pos_spec Ej) as [Q3 Q4]. rewrite SP by auto. now rewrite Q2, Q4.
  - destruct (pos_spec Mc) as [Q3 Q4]. destruct SD as (_&_&SD); [intros N; rewrite N in Q3; cbn in Q3; lia|].
    rewrite SD by auto. now rewrite Ei, Q4.
  - destruct (pos_spec Mr) as [Q1 Q2]. destruct (pos_spec Ej) as [Q3 Q4]. rewrite DS by auto. now rewrite Q2, Q4.
  - destruct (pos_spec Mr) as [Q1 Q2]. destruct (pos_spec Mc) as [Q3 Q4]. rewrite DD by auto. now rewrite Q2, Q4.
Qed.

(** ** the copy lchol works on *)
Lemma copy64_spec : forall h a o, nth_error (h_objs h) a = Some o ->
  (o_indices o < length (h_arrays h))%nat -> (o_indptr o < length (h_arrays h))%nat ->
  let (h', b) := copy64 h a in
  (forall k x, nth_error (h_arrays h) k = Some x -> nth_error (h_arrays h') k = Some x) /\
  (forall k x, nth_error (h_objs h) k = Some x -> nth_error (h_objs h') k = Some x) /\
  b <> a /\
  exists o', nth_error (h_objs h') b = Some o' /\ o_shape o' = o_shape o /\ o_data o' = o_data o /\
    (exists x, nth_error (h_arrays h) (o_indices o) = Some x /\ nth_error (h_arrays h') (o_indices o') = Some (fst x, true)) /\
    (exists x, nth_error (h_arrays h) (o_indptr o) = Some x /\ nth_error (h_arrays h') (o_indptr o') = Some (fst x, true)).
Proof.
  intros h a o Ha Hi Hp. unfold copy64. rewrite (nth_error_nth _ _ _ Ha). cbn [astype_int64 h_arrays h_objs fst snd].
  assert (La : (a < length (h_objs h))%nat) by (apply nth_error_Some; congruence).
  split; [|split; [|split]].
  - intros k x H. rewrite nth_error_app1, nth_error_app1; auto; rewrite ?app_length; assert (k < length (h_arrays h))%nat by (apply nth_error_Some; congruence); cbn; lia.
  - intros k x H. rewrite nth_error_app1; auto. apply nth_error_Some. congruence.
  - lia.
  - eexists. split; [rewrite nth_error_app2, Nat.sub_diag by lia; reflexivity|]. cbn [o_shape o_data o_indices o_indptr].
    split; [reflexivity|]. split; [reflexivity|]. split.
    + destruct (nth_error (h_arrays h) (o_indices o)) as [x|] eqn:E; [|apply nth_error_None in E; lia].
      exists x. split; auto. rewrite nth_error_app1 by (rewrite app_length; cbn; lia). rewrite nth_error_app2, Nat.sub_diag by lia. cbn.
      now rewrite (nth_error_nth _ _ _ E).
    + destruct (nth_error (h_arrays h) (o_indptr o)) as [x|] eqn:E; [|apply nth_error_None in E; lia].
      exists x. split; auto. rewrite nth_error_app2, Nat.sub_diag by lia. cbn. rewrite app_nth1 by auto.
      now rewrite (nth_error_nth _ _ _ E).
Qed.
