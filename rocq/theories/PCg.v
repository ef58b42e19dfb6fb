(** * Proofs about the block preconditioner (C88). *)
From Coq Require Import Reals ZArith List Bool Lra Lia Psatz.
From Verif Require Import Num XLemmas Vec NpList SpecGeom MLinalg SpecLinalg PLinalg MCg SpecCg.
Import ListNotations.
Local Open Scope R_scope.
Set Implicit Arguments.
Unset Strict Implicit.

Lemma rsum_nth (f : nat -> R) l : rsum (map f l) = big (length l) (fun k => f (nth k l 0%nat)).
Proof.
  unfold big. rewrite <- (map_map (fun k => nth k l 0%nat) f). f_equal. f_equal.
  induction l as [|a l IH]; cbn [length seq map nth]; [reflexivity|]. f_equal. rewrite <- seq_shift, map_map. cbn [nth]. exact IH.
Qed.
Lemma rsum_mask (f : nat -> R) m : forall k, rsum (map (fun i => if nth (i - k) m false then f i else 0) (seq k (length m))) = rsum (map f (flatnonzero k m)).
Proof.
  induction m as [|b m IH]; intros k; [reflexivity|]. cbn [length seq map flatnonzero]. cbn [rsum]. rewrite Nat.sub_diag. change (nth 0 (b :: m) false) with b.
  assert (E : rsum (map (fun i => if nth (i - k) (b :: m) false then f i else 0) (seq (S k) (length m))) = rsum (map f (flatnonzero (S k) m))).
  { rewrite <- IH. apply rsum_map_ext. intros i Hi. apply in_seq in Hi. destruct (i - k)%nat as [|q] eqn:Q; [lia|]. cbn [nth]. now replace (i - S k)%nat with q by lia. }
  rewrite E. destruct b; cbn [map rsum]; [reflexivity|lra].
Qed.
Lemma big_mask n m (f : nat -> R) : length m = n -> big n (fun i => if masked m i then f i else 0) =
  big (length (flatnonzero 0 m)) (fun k => f (nth k (flatnonzero 0 m) 0%nat)).
Proof.
  intros <-. rewrite <- rsum_nth, <- rsum_mask. unfold big. apply rsum_map_ext. intros i _. now rewrite Nat.sub_0_r.
Qed.
Lemma compress_nth {A} (d : A) m : forall l, length m = length l -> compress m l = map (fun k => nth k l d) (flatnonzero 0 m).
Proof.
  induction m as [|b m IH]; intros [|a l] H; try discriminate H; [reflexivity|]. injection H as H. cbn [compress flatnonzero]. rewrite fnz_shift.
  destruct b; cbn [map nth]; rewrite (IH l H), map_map; reflexivity.
Qed.

Section Scatter.
Context {A : Type} (d : A).
Lemma scatter_length idx : forall (ans vals : list A), (forall i, In i idx -> (i < length ans)%nat) -> length (scatter ans idx vals) = length ans.
Proof.
  induction idx as [|i idx IH]; intros ans [|x vals] H; try reflexivity. cbn [scatter].
  assert (L : length (firstn i ans ++ x :: skipn (S i) ans) = length ans).
  { specialize (H i (or_introl eq_refl)). rewrite app_length, firstn_length. cbn [length]. rewrite skipn_length. lia. }
  rewrite IH, L; auto. intros j Hj. rewrite L. apply H. now right.
Qed.
Lemma update_nth (ans : list A) i x j : (i < length ans)%nat -> nth j (firstn i ans ++ x :: skipn (S i) ans) d = if Nat.eqb j i then x else nth j ans d.
Proof.
  intros H. assert (LF : length (firstn i ans) = i) by (rewrite firstn_length; lia). destruct (Nat.eqb_spec j i) as [->|N].
  - rewrite app_nth2, LF, Nat.sub_diag by lia. reflexivity.
  - destruct (Nat.lt_ge_cases j i) as [L|L].
    + rewrite app_nth1 by lia. rewrite <- (firstn_skipn i ans) at 2. now rewrite app_nth1 by lia.
    + rewrite app_nth2, LF by lia. destruct (j - i)%nat as [|q] eqn:Q; [lia|]. cbn [nth].
      rewrite <- (firstn_skipn (S i) ans) at 2. rewrite app_nth2; rewrite firstn_length; [f_equal; lia|lia].
Qed.
Lemma scatter_other idx j : forall (ans vals : list A), (forall i, In i idx -> (i < length ans)%nat) -> ~ In j idx -> nth j (scatter ans idx vals) d = nth j ans d.
Proof.
  induction idx as [|i idx IH]; intros ans [|x vals] H N; try reflexivity. cbn [scatter]. cbn in N.
  assert (L : length (firstn i ans ++ x :: skipn (S i) ans) = length ans).
  { specialize (H i (or_introl eq_refl)). rewrite app_length, firstn_length. cbn [length]. rewrite skipn_length. lia. }
  rewrite IH.
  - rewrite update_nth by (apply H; now left). destruct (Nat.eqb_spec j i); [subst; tauto|reflexivity].
  - intros k Hk. rewrite L. apply H. now right.
  - tauto.
Qed.
Lemma scatter_at idx : forall (ans vals : list A), (forall i, In i idx -> (i < length ans)%nat) -> NoDup idx -> length vals = length idx ->
  forall k, (k < length idx)%nat -> nth (nth k idx 0%nat) (scatter ans idx vals) d = nth k vals d.
Proof.
  induction idx as [|i idx IH]; intros ans [|x vals] H ND E k Hk; try discriminate E; try (cbn in Hk; lia). cbn [scatter]. inversion ND; subst.
  assert (L : length (firstn i ans ++ x :: skipn (S i) ans) = length ans).
  { specialize (H i (or_introl eq_refl)). rewrite app_length, firstn_length. cbn [length]. rewrite skipn_length. lia. }
  assert (H' : forall j, In j idx -> (j < length (firstn i ans ++ x :: skipn (S i) ans))%nat) by (intros j Hj; rewrite L; apply H; now right).
  destruct k as [|k]; cbn [nth].
  - rewrite scatter_other by auto. rewrite update_nth by (apply H; now left). now rewrite Nat.eqb_refl.
  - apply IH; auto. cbn in Hk. lia.
Qed.
End Scatter.
Lemma scatter_map {A B} (f : A -> B) idx : forall ans vals, scatter (map f ans) idx (map f vals) = map f (scatter ans idx vals).
Proof.
  induction idx as [|i idx IH]; intros ans [|x vals]; try reflexivity. cbn [map scatter]. rewrite <- IH, map_app. cbn [map]. now rewrite firstn_map, skipn_map.
Qed.
Lemma repeat_fin a n : map Fin (repeat a n) = repeat (Fin a) n.
Proof. induction n; cbn; congruence. Qed.
Lemma gather_fin v idx : gather (map Fin v) idx = map Fin (map (entry v) idx).
Proof. unfold gather. rewrite map_map. apply map_ext. intros i. unfold entry. change n0 with (Fin 0). apply (map_nth Fin). Qed.
Lemma mat_apply_fin m k C v : is_mat m k k C -> length v = k -> mat_apply m (map Fin v) = map Fin (map (fun i => big k (fun l => C i l * entry v l)) (seq 0 k)).
Proof.
  intros (R1 & R2 & E) L. unfold mat_apply. rewrite R1, R2, map_map. apply map_ext_in. intros i Hi. apply in_seq in Hi. apply sum_to_fin. intros l Hl.
  rewrite E by lia. replace (nth l (map Fin v) n0) with (Fin (entry v l)); [reflexivity|]. unfold entry. change n0 with (Fin 0). symmetry. apply (map_nth Fin).
Qed.
Lemma map_seq_nth (f : nat -> R) k i : (i < k)%nat -> nth i (map f (seq 0 k)) 0 = f i.
Proof. intros H. rewrite (@nth_map0 _ _ f _ _ 0%nat) by now rewrite seq_length. now rewrite seq_nth. Qed.

Section Precon.
Context (inv : mat xr -> res (mat xr)) (factorized : mat xr -> res (list xr -> list xr)).
Context (n : nat) (A : nat -> nat -> R) (counts : list nat).
Context (I : inv_ok inv) (Fz : factorized_ok factorized) (LC : length counts = n) (N0 : (0 < n)%nat).
Notation mask := (a_sparsity counts).
Notation sp := (flatnonzero 0 mask).
Notation dn := (flatnonzero 0 (complement mask)).
Lemma mask_len : length mask = n. Proof. unfold a_sparsity. now rewrite map_length. Qed.
Lemma cmask_len : length (complement mask) = n. Proof. unfold complement. rewrite map_length. apply mask_len. Qed.
Lemma mask_at i : masked mask i = sparse_column counts i.
Proof.
  unfold masked, a_sparsity, sparse_column. destruct (Nat.lt_ge_cases i (length counts)) as [H|H].
  - rewrite (@nth_map0 _ _ _ _ _ 0%nat) by auto. destruct (nth i counts 0%nat) as [|q]; cbn [Nat.eqb negb andb]; [now rewrite andb_false_r|].
    replace (Nat.ltb 0 (S q)) with true by reflexivity. apply andb_true_r.
  - rewrite !nth_overflow; auto; now rewrite map_length.
Qed.
Lemma cmask_at i : (i < n)%nat -> masked (complement mask) i = negb (sparse_column counts i).
Proof. intros H. rewrite masked_complement by now rewrite mask_len. now rewrite mask_at. Qed.
Notation S0 := (mk_sbsm (rmat n n A) mask mask).
Lemma rs_mask : or_all_true n mask = mask. Proof. apply or_all_given; auto. apply mask_len. Qed.
Notation nz := (non_zero_columns (block_dd S0)).
Notation keep := (flatnonzero 0 nz).
Notation du := (compress nz dn).
Lemma dd_is : is_mat (block_dd S0) (length dn) (length dn) (fun k l => A (nth k dn 0%nat) (nth l dn 0%nat)).
Proof. pose proof (@block_dd_is n n A mask mask (or_intror mask_len)) as H. now rewrite rs_mask in H. Qed.
Lemma ss_is : is_mat (sparse_block S0) (length sp) (length sp) (fun k l => A (nth k sp 0%nat) (nth l sp 0%nat)).
Proof. pose proof (@sparse_block_is n n A mask mask (or_intror mask_len) (or_intror mask_len)) as H. now rewrite rs_mask in H. Qed.
Lemma nz_len : length nz = length dn. Proof. unfold non_zero_columns. rewrite map_length, seq_length. apply dd_is. Qed.
Lemma du_map : du = map (fun k => nth k dn 0%nat) keep. Proof. apply compress_nth, nz_len. Qed.
Lemma keep_lt k : (k < length keep)%nat -> (nth k keep 0 < length dn)%nat. Proof. intros H. apply fnz_lt in H. now rewrite nz_len in H. Qed.
Lemma dn_lt k : (k < length dn)%nat -> (nth k dn 0 < n)%nat. Proof. intros H. apply fnz_lt in H. now rewrite cmask_len in H. Qed.
Lemma sp_lt k : (k < length sp)%nat -> (nth k sp 0 < n)%nat. Proof. intros H. apply fnz_lt in H. now rewrite mask_len in H. Qed.
Lemma du_len : length du = length keep. Proof. now rewrite du_map, map_length. Qed.
Lemma du_nth k : (k < length keep)%nat -> nth k du 0%nat = nth (nth k keep 0%nat) dn 0%nat.
Proof. intros H. rewrite du_map. now rewrite (@nth_map0 _ _ _ _ _ 0%nat) by auto. Qed.
Lemma du_lt k : (k < length du)%nat -> (nth k du 0 < n)%nat.
Proof. rewrite du_len. intros H. rewrite du_nth by auto. apply dn_lt, keep_lt, H. Qed.
Lemma du_nodup : NoDup du.
Proof.
  rewrite du_map. apply (NoDup_nth _ 0%nat). rewrite map_length. intros i j Hi Hj E. rewrite !(@nth_map0 _ _ _ _ _ 0%nat) in E by auto.
  apply (proj1 (NoDup_nth dn 0%nat) (fnz_nodup _ _)) in E; try now apply keep_lt. now apply (proj1 (NoDup_nth keep 0%nat) (fnz_nodup _ _)) in E.
Qed.
Lemma in_dn i : In i dn <-> (i < n)%nat /\ sparse_column counts i = false.
Proof.
  rewrite fnz_in. destruct (Nat.lt_ge_cases i n) as [H|H].
  - rewrite cmask_at by auto. destruct (sparse_column counts i); cbn; intuition congruence.
  - unfold masked. rewrite nth_overflow by (rewrite cmask_len; auto). split; [discriminate|lia].
Qed.
Lemma in_sp i : In i sp <-> (i < n)%nat /\ sparse_column counts i = true.
Proof.
  rewrite fnz_in, mask_at. split; [|tauto]. intros H. split; auto. destruct (Nat.lt_ge_cases i n); auto.
  unfold sparse_column in H. rewrite nth_overflow in H by lia. discriminate.
Qed.
Lemma in_du i : In i du <-> (i < n)%nat /\ sparse_column counts i = false /\ exists j, (j < n)%nat /\ sparse_column counts j = false /\ A j i <> 0.
Proof.
  destruct dd_is as (R1 & R2 & E). assert (K : forall l, (l < length dn)%nat -> masked nz l = true <-> exists k, (k < length dn)%nat /\ A (nth k dn 0%nat) (nth l dn 0%nat) <> 0).
  { intros l Hl. unfold masked, non_zero_columns. rewrite R1, R2. rewrite (@nth_map0 _ _ _ _ _ 0%nat) by now rewrite seq_length. rewrite seq_nth by auto. cbn [Nat.add].
    rewrite existsb_exists. split.
    - intros (k & Hk & X). apply in_seq in Hk. exists k. split; [lia|]. rewrite E in X by (auto; lia). intros Z. rewrite Z in X. change n0 with (Fin 0) in X. revert X. xs. destruct (Raux.Req_bool_spec 0 0); cbn; congruence.
    - intros (k & Hk & X). exists k. split; [apply in_seq; lia|]. rewrite E by auto. change n0 with (Fin 0). xs. destruct (Raux.Req_bool_spec (A (nth k dn 0%nat) (nth l dn 0%nat)) 0); cbn; congruence. }
  rewrite du_map, in_map_iff. split.
  - intros (l & <- & Hl). apply fnz_in in Hl. assert (Ll : (l < length dn)%nat).
    { destruct (Nat.lt_ge_cases l (length dn)); auto. unfold masked in Hl. rewrite nth_overflow in Hl by (rewrite nz_len; auto). discriminate. }
    pose proof (proj1 (in_dn _) (nth_In dn 0%nat Ll)) as [H1 H2]. apply K in Hl as (k & Hk & X); auto.
    split; auto. split; auto. exists (nth k dn 0%nat). pose proof (proj1 (in_dn _) (nth_In dn 0%nat Hk)) as [H3 H4]. auto.
  - intros (H1 & H2 & j & H3 & H4 & X). assert (Di : In i dn) by (apply in_dn; auto). assert (Dj : In j dn) by (apply in_dn; auto).
    apply In_nth with (d := 0%nat) in Di as (l & Ll & El). apply In_nth with (d := 0%nat) in Dj as (k & Lk & Ek). exists l. split; auto.
    apply fnz_in. apply K; auto. exists k. rewrite El, Ek. auto.
Qed.
Lemma used_iff i : (i < n)%nat -> used n counts A i <-> In i sp \/ In i du.
Proof.
  intros H. rewrite in_sp, in_du. unfold used. destruct (sparse_column counts i); split; intros X.
  - auto. - auto.
  - destruct X as [X|X]; [discriminate|]. auto.
  - destruct X as [[_ X]|(_ & _ & X)]; [discriminate|auto].
Qed.
Lemma du_fnz : du = flatnonzero 0 (map (fun i => if in_dec Nat.eq_dec i du then true else false) (seq 0 n)).
Proof.
  set (M := map _ (seq 0 n)). assert (LM : length M = n) by (unfold M; now rewrite map_length, seq_length).
  (* both are increasing lists with the same elements *)
  assert (SORT : forall m k, Sorted.StronglySorted lt (flatnonzero k m) /\ forall x, In x (flatnonzero k m) -> (k <= x)%nat).
  { induction m as [|b m IH]; intros k; cbn [flatnonzero]; [split; [constructor|intros ? []]|]. destruct (IH (S k)) as [IS IL]. destruct b.
    - split; [constructor; auto; apply Forall_forall; intros x Hx; apply IL in Hx; lia|]. intros x [->|Hx]; [lia|apply IL in Hx; lia].
    - split; auto. intros x Hx. apply IL in Hx. lia. }
  assert (SUB : forall m (l : list nat), Sorted.StronglySorted lt l -> Sorted.StronglySorted lt (compress m l) /\ forall x, In x (compress m l) -> In x l).
  { induction m as [|b m IH]; intros [|a l] Hl; cbn [compress]; try (split; [constructor|intros ? []]). inversion Hl; subst.
    destruct (IH l H1) as [IS IL]. destruct b; [split; [constructor; auto; apply Forall_forall; intros x Hx; apply IL in Hx; rewrite Forall_forall in H2; auto|]|split; auto].
    - intros x [->|Hx]; [now left|right; auto].
    - intros x Hx. right. auto. }
  assert (U : forall l1 l2, Sorted.StronglySorted lt l1 -> Sorted.StronglySorted lt l2 -> (forall x, In x l1 <-> In x l2) -> l1 = l2).
  { induction l1 as [|a l1 IH]; intros [|b l2] H1 H2 E; auto; try (exfalso; apply (E b); now left); try (exfalso; apply (proj1 (E a)); now left).
    inversion H1; inversion H2; subst. rewrite Forall_forall in *. assert (a = b).
    { destruct (proj1 (E a) (or_introl eq_refl)) as [->|X]; auto. destruct (proj2 (E b) (or_introl eq_refl)) as [->|Y]; auto. apply H8 in X. apply H4 in Y. lia. }
    subst b. f_equal. apply IH; auto. intros x. split; intros X.
    - destruct (proj1 (E x) (or_intror X)) as [->|Y]; auto. apply H4 in X. lia.
    - destruct (proj2 (E x) (or_intror X)) as [->|Y]; auto. apply H8 in X. lia. }
  apply U.
  - apply SUB. apply SORT.
  - apply SORT.
  - intros x. rewrite fnz_in. unfold M, masked. split.
    + intros X. pose proof (proj1 (in_du x) X) as [L _]. rewrite (@nth_map0 _ _ _ _ _ 0%nat) by now rewrite seq_length. rewrite seq_nth by auto. cbn [Nat.add].
      destruct (in_dec _ _ _); [auto|tauto].
    + intros X. destruct (Nat.lt_ge_cases x n) as [L|L]; [|rewrite nth_overflow in X by (fold M; lia); discriminate].
      rewrite (@nth_map0 _ _ _ _ _ 0%nat) in X by now rewrite seq_length. rewrite seq_nth in X by auto. cbn [Nat.add] in X. destruct (in_dec _ _ _); [auto|discriminate].
Qed.
(** a sum over the used dense indices *)
Lemma big_du f : big n (fun i => if in_dec Nat.eq_dec i du then f i else 0) = big (length du) (fun k => f (nth k du 0%nat)).
Proof.
  rewrite <- rsum_nth. set (M := map (fun i => if in_dec Nat.eq_dec i du then true else false) (seq 0 n)).
  replace (rsum (map f du)) with (rsum (map f (flatnonzero 0 M))) by (unfold M; now rewrite <- du_fnz). assert (LM : length M = n) by (unfold M; now rewrite map_length, seq_length).
  rewrite rsum_nth. rewrite <- (big_mask f LM). apply big_ext. intros i Hi. unfold M, masked. rewrite (@nth_map0 _ _ _ _ _ 0%nat) by now rewrite seq_length.
  rewrite seq_nth by auto. cbn [Nat.add]. destruct (in_dec _ _ _); reflexivity.
Qed.
Lemma kept_is m : m = take_columns (take_rows (block_dd S0) keep) keep -> is_mat m (length du) (length du) (fun k l => A (nth k du 0%nat) (nth l du 0%nat)).
Proof.
  intros ->. rewrite du_len. split; [reflexivity|]. split; [reflexivity|]. intros k l Hk Hl. cbn [take_columns take_rows m_at].
  destruct dd_is as (_ & _ & E). rewrite E by (now apply keep_lt). now rewrite !du_nth by auto.
Qed.

Lemma precon_ok P : a_inv_mult inv factorized (rmat n n A) counts = Ok P -> forall v, length v = n ->
  exists y, P (map Fin v) = map Fin y /\ length y = n /\
    (forall i, (i < n)%nat -> used n counts A i -> row_times n (block_diagonal counts A) y i = entry v i) /\
    (forall i, (i < n)%nat -> ~ used n counts A i -> entry y i = 0).
Proof.
  unfold a_inv_mult. set (KM := take_columns (take_rows (block_dd S0) keep) keep).
  destruct (inv KM) as [W|e] eqn:EW; cbn [bindr]; [|discriminate]. destruct (factorized (sparse_block S0)) as [f|e] eqn:EF; cbn [bindr]; [|discriminate].
  intros EP v Lv. assert (INJ : forall a b : list xr -> list xr, Ok a = Ok b -> a = b) by congruence. apply INJ in EP. subst P. cbv beta zeta. change (r_s S0) with (or_all_true n mask). rewrite rs_mask.
  destruct (I (kept_is (m := KM) eq_refl) EW) as (C & CW & CI). assert (Ls : length (map (entry v) sp) = length sp) by now rewrite map_length.
  destruct (Fz ss_is EF Ls) as (ys & Ey & Ly & Sy). rewrite !gather_fin, Ey.
  assert (Ld : length (map (entry v) du) = length du) by now rewrite map_length. rewrite (mat_apply_fin CW Ld).
  set (yd := map (fun i => big (length du) (fun l => C i l * entry (map (entry v) du) l)) (seq 0 (length du))).
  assert (LEN : (length sp + length dn = n)%nat).
  { rewrite !fnz_count, count_complement. cbn [negb]. rewrite <- mask_len. generalize mask. intros m. induction m as [|[] m IH]; cbn; lia. }
  rewrite LEN. change n0 with (Fin 0). rewrite <- (repeat_fin 0 n), !scatter_map. set (z := repeat 0 n).
  assert (Lz : length z = n) by apply repeat_length.
  assert (SPL : forall i, In i sp -> (i < length z)%nat) by (intros i Hi; apply in_sp in Hi; lia).
  assert (L1 : length (scatter z sp ys) = n) by (rewrite scatter_length; auto).
  assert (DUL : forall i, In i du -> (i < length (scatter z sp ys))%nat) by (intros i Hi; apply in_du in Hi; lia).
  exists (scatter (scatter z sp ys) du yd). split; [reflexivity|]. split; [rewrite scatter_length; auto|].
  set (y := scatter (scatter z sp ys) du yd).
  assert (Ldy : length yd = length du) by (unfold yd; now rewrite map_length, seq_length).
  assert (YS : forall k, (k < length sp)%nat -> entry y (nth k sp 0%nat) = entry ys k).
  { intros k Hk. unfold entry, y. rewrite scatter_other; auto.
    - apply scatter_at; auto. apply fnz_nodup.
    - intros X. apply in_du in X as (_ & X & _). pose proof (proj1 (in_sp _) (nth_In sp 0%nat Hk)) as [_ Y]. congruence. }
  assert (YD : forall k, (k < length du)%nat -> entry y (nth k du 0%nat) = entry yd k).
  { intros k Hk. unfold entry, y. apply scatter_at; auto. apply du_nodup. }
  assert (Y0 : forall i, (i < n)%nat -> ~ used n counts A i -> entry y i = 0).
  { intros i Hi X. rewrite used_iff in X by auto. unfold entry, y. rewrite !scatter_other by (auto; tauto). unfold z. apply nth_repeat. }
  split; [|exact Y0]. intros i Hi X. apply used_iff in X as [X|X]; auto.
  - pose proof (proj1 (in_sp i) X) as [_ SI]. apply In_nth with (d := 0%nat) in X as (k & Lk & Ek).
    assert (E : entry v i = entry (map (entry v) sp) k).
    { unfold entry at 2. rewrite (@nth_map0 _ _ _ _ _ 0%nat) by auto. now rewrite Ek. }
    rewrite E, <- (Sy k Lk). unfold row_times. rewrite Ek.
    transitivity (big n (fun j => if masked mask j then A i j * entry y j else 0)).
    + apply big_ext. intros j Hj. unfold block_diagonal. rewrite SI, mask_at. destruct (sparse_column counts j); cbn [Bool.eqb]; lra.
    + rewrite (big_mask _ mask_len). apply big_ext. intros l Hl. now rewrite YS.
  - pose proof (proj1 (in_du i) X) as (_ & SI & _). apply In_nth with (d := 0%nat) in X as (k & Lk & Ek).
    unfold row_times. transitivity (big n (fun j => if in_dec Nat.eq_dec j du then A i j * entry y j else 0)).
    + apply big_ext. intros j Hj. unfold block_diagonal. rewrite SI. destruct (sparse_column counts j) eqn:SJ; cbn [Bool.eqb].
      * destruct (in_dec _ _ _) as [Q|Q]; [apply in_du in Q as (_ & Q & _); congruence|lra].
      * destruct (in_dec _ _ _) as [Q|Q]; [reflexivity|]. rewrite Y0; auto; [lra|]. rewrite used_iff by auto. rewrite in_sp. intros [[_ B]|B]; [congruence|auto].
    + rewrite big_du. transitivity (big (length du) (fun l => big (length du) (fun q => A i (nth l du 0%nat) * (C l q * entry v (nth q du 0%nat))))).
      * apply big_ext. intros l Hl. rewrite YD by auto. unfold yd. unfold entry at 1. rewrite map_seq_nth by auto. rewrite <- big_scale. apply big_ext. intros q Hq.
        unfold entry at 1. rewrite (@nth_map0 _ _ (entry v) du q 0%nat) by auto. reflexivity.
      * rewrite big_swap. transitivity (big (length du) (fun q => kron k q * entry v (nth q du 0%nat))).
        -- apply big_ext. intros q Hq. rewrite <- (CI k q) by auto. rewrite <- big_scale_r. apply big_ext. intros l Hl. rewrite Ek. ring.
        -- rewrite big_kron_l by auto. now rewrite Ek.
Qed.
End Precon.
