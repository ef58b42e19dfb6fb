(** * Properties C62 - C64: isomorphism, block-sparse matrices, lchol. *)
From Coq Require Import Reals ZArith List Bool Lra Lia Permutation.
From Verif Require Import Num XLemmas Vec NpList SpecGeom MLinalg SpecLinalg PLinalg PMatvec.
Import ListNotations.
Local Open Scope R_scope.
Set Implicit Arguments.
Unset Strict Implicit.

(** C62.  [det] and [inv] stand for np.linalg.det and np.matrix.I.  What is
    asked of them concerns only the matrices passed: the determinant of the
    transposed frame vanishes exactly when the frame's vectors are dependent, and
    the inverse is one. *)
Definition det_right (det : mat xr -> xr) (n : nat) (A : nat -> nat -> R) : Prop :=
  exists d, det (mat_T (rmat n n A)) = Fin d /\ (d = 0 <-> rows_dependent n n A).
Definition inv_right (inv : mat xr -> mat xr) (n : nat) (A : nat -> nat -> R) : Prop :=
  ~ rows_dependent n n A ->
  exists B, is_mat (inv (mat_T (rmat n n A))) n n B /\
    (forall i j, (i < n)%nat -> (j < n)%nat -> big n (fun k => A k i * B k j) = kron i j) /\
    (forall i j, (i < n)%nat -> (j < n)%nat -> big n (fun k => B i k * A j k) = kron i j).
Theorem C62_change_of_basis : forall det inv n A B,
  det_right det n A -> det_right det n B -> inv_right inv n A ->
  ~ rows_dependent n n A -> ~ rows_dependent n n B ->
  exists m M, isomorphism det inv (rmat n n A) (rmat n n B) = Ok m /\ is_mat m n n M /\
    (forall j r, (j < n)%nat -> (r < n)%nat -> B j r = big n (fun i => M i j * A i r)) /\
    (forall M', (forall j r, (j < n)%nat -> (r < n)%nat -> B j r = big n (fun i => M' i j * A i r)) ->
       forall i j, (i < n)%nat -> (j < n)%nat -> M' i j = M i j).
Proof. intros det inv n A B D1 D2 I. now apply iso_ok. Qed.
Print Assumptions C62_change_of_basis.
(** a frame against itself gives the identity *)
Theorem C62_same_frame : forall det inv n A, det_right det n A -> inv_right inv n A -> ~ rows_dependent n n A ->
  exists m, isomorphism det inv (rmat n n A) (rmat n n A) = Ok m /\ is_mat m n n kron.
Proof.
  intros det inv n A D I N. destruct (@C62_change_of_basis det inv n A A D D I N N) as (m&M&E&IM&H&U).
  exists m. split; auto. apply (is_mat_ext IM). intros i j Hi Hj. symmetry. apply U; auto.
  intros j' r Hj' Hr. rewrite (@big_ext n _ (fun i => kron j' i * A i r)); [now rewrite big_kron_l|].
  intros k _. unfold kron. now rewrite Nat.eqb_sym.
Qed.
Print Assumptions C62_same_frame.
Theorem C62_errors : forall det inv,
  (forall r1 c1 A r2 c2 B, r1 <> r2 -> isomorphism det inv (rmat r1 c1 A) (rmat r2 c2 B) = Err DimensionalityError) /\
  (forall n A c B, det_right det n A -> rows_dependent n n A ->
     isomorphism det inv (rmat n n A) (rmat n c B) = Err LinearDependenceError) /\
  (forall n A B, det_right det n A -> det_right det n B -> ~ rows_dependent n n A -> rows_dependent n n B ->
     isomorphism det inv (rmat n n A) (rmat n n B) = Err LinearDependenceError) /\
  (forall n c1 A c2 B, c1 <> n -> isomorphism det inv (rmat n c1 A) (rmat n c2 B) = Err LinAlgError).
Proof.
  intros det inv. split; [|split; [|split]]; intros.
  - now apply iso_mismatch.
  - now apply iso_dependent1.
  - now apply iso_dependent2.
  - now apply iso_not_square.
Qed.
Print Assumptions C62_errors.
(** Non-vacuity: the 2x2 determinant and inverse meet the hypotheses for the
    frame (1,2),(3,4). *)
Definition det2 (m : mat xr) : xr := (m_at m 0 0 * m_at m 1 1 - m_at m 0 1 * m_at m 1 0)%num.
Definition inv2 (m : mat xr) : mat xr :=
  mkmat 2 2 (fun i j => match i, j with
    | 0%nat, 0%nat => (m_at m 1 1 / det2 m)%num | 0%nat, _ => (nopp (m_at m 0 1) / det2 m)%num
    | _, 0%nat => (nopp (m_at m 1 0) / det2 m)%num | _, _ => (m_at m 0 0 / det2 m)%num end).
Definition frame12 (i j : nat) : R := match i, j with 0%nat, 0%nat => 1 | 0%nat, _ => 2 | _, 0%nat => 3 | _, _ => 4 end.
Example C62_example : det_right det2 2 frame12 /\ inv_right inv2 2 frame12 /\ ~ rows_dependent 2 2 frame12.
Proof.
  assert (NI : ~ rows_dependent 2 2 frame12).
  { intros (x&(i&Li&Hi)&H). pose proof (H 0%nat ltac:(lia)) as H0. pose proof (H 1%nat ltac:(lia)) as H1.
    unfold big in *. cbn in H0, H1. assert (x 0%nat = 0 /\ x 1%nat = 0) as [X0 X1] by lra.
    destruct i as [|[|i]]; [contradiction|contradiction|lia]. }
  split; [|split; auto].
  - exists (-2). split; [|split; [lra|contradiction]]. unfold det2. cbn. f_equal. ring.
  - intros _. assert (D : det2 (mat_T (rmat 2 2 frame12)) = Fin (-2)) by (unfold det2; cbn; f_equal; ring).
    exists (fun i j => match i, j with 0%nat, 0%nat => -2 | 0%nat, _ => 3/2 | _, 0%nat => 1 | _, _ => -1/2 end).
    split; [split; [reflexivity|split; [reflexivity|]]|split].
    + intros i j Hi Hj. unfold inv2. cbn [m_at]. rewrite D. cbn [mat_T rmat m_at].
      destruct i as [|[|i]], j as [|[|j]]; try lia; cbn [frame12]; xs; rewrite ?xdivE by lra; f_equal; lra.
    + intros i j Hi Hj. destruct i as [|[|i]], j as [|[|j]]; try lia; unfold big, kron; cbn; lra.
    + intros i j Hi Hj. destruct i as [|[|i]], j as [|[|j]]; try lia; unfold big, kron; cbn; lra.
Qed.

(** C63: splitting by a mask and its complement puts every entry in exactly
    one of the two parts. *)
Theorem C63_split_rows : forall (m : mat xr) mask i j, length mask = m_rows m -> (i < m_rows m)%nat ->
  let kept := mask_by_rows m mask in
  let rest := mask_by_rows m (complement mask) in
  (m_rows kept = m_rows m /\ m_cols kept = m_cols m /\ m_rows rest = m_rows m /\ m_cols rest = m_cols m) /\
  (nth i mask false = true -> m_at kept i j = m_at m i j /\ m_at rest i j = Fin 0) /\
  (nth i mask false = false -> m_at kept i j = Fin 0 /\ m_at rest i j = m_at m i j).
Proof.
  intros m mask i j L Hi. cbv zeta. destruct (mask_rows_shape m mask), (mask_rows_shape m (complement mask)).
  split; [auto|]. rewrite !mask_rows_at, masked_complement by lia. unfold masked.
  split; intros ->; cbn [negb]; auto.
Qed.
Print Assumptions C63_split_rows.
Theorem C63_split_columns : forall (m : mat xr) mask i j, length mask = m_cols m -> (j < m_cols m)%nat ->
  let kept := mask_by_columns m mask in
  let rest := mask_by_columns m (complement mask) in
  (m_rows kept = m_rows m /\ m_cols kept = m_cols m /\ m_rows rest = m_rows m /\ m_cols rest = m_cols m) /\
  (nth j mask false = true -> m_at kept i j = m_at m i j /\ m_at rest i j = Fin 0) /\
  (nth j mask false = false -> m_at kept i j = Fin 0 /\ m_at rest i j = m_at m i j).
Proof.
  intros m mask i j L Hj. cbv zeta. destruct (mask_columns_shape m mask), (mask_columns_shape m (complement mask)).
  split; [auto|]. rewrite !mask_columns_at, masked_complement by lia. unfold masked.
  split; intros ->; cbn [negb]; auto.
Qed.
Print Assumptions C63_split_columns.
(** Both masks at once, when each keeps something. *)
Theorem C114_mask_both : forall (m : mat xr) rmask cmask i j, In true rmask -> In true cmask ->
  m_at (mask_matrix m rmask cmask) i j = if nth i rmask false && nth j cmask false then m_at m i j else Fin 0.
Proof.
  intros m rmask cmask i j Hr Hc. unfold mask_matrix, any_true.
  assert (existsb (fun b => b) cmask = true) as -> by (apply existsb_exists; eauto).
  assert (existsb (fun b => b) rmask = true) as -> by (apply existsb_exists; eauto).
  cbn [negb m_at]. unfold masked. rewrite andb_comm. reflexivity.
Qed.
Print Assumptions C114_mask_both.
(** With a column mask that keeps nothing it keeps every selected row instead,
    so splitting by it and its complement duplicates entries. *)
Theorem C136_mask_both_refuted : exists (m : mat xr) rmask cmask i j,
  length rmask = m_rows m /\ length cmask = m_cols m /\ (i < m_rows m)%nat /\ (j < m_cols m)%nat /\
  nth j cmask false = false /\ m_at m i j <> Fin 0 /\
  m_at (mask_matrix m rmask cmask) i j = m_at m i j /\ m_at (mask_matrix m rmask (complement cmask)) i j = m_at m i j.
Proof.
  exists (rmat 1 1 (fun _ _ => 1)), [true], [false], 0%nat, 0%nat. repeat split; auto. cbn. intros [= H]. lra.
Qed.
Print Assumptions C136_mask_both_refuted.

(** The blocks kept by the constructor: the entry in row i, column j of M
    is found in the one block its masks select, at its rank among the selected
    rows and columns. *)
Definition rank_in (mask : list bool) (b : bool) (i : nat) : nat := count_occ Bool.bool_dec (firstn i mask) b.
Theorem C63_blocks : forall r c A rm cm s, length rm = r -> length cm = c -> (0 < r)%nat -> (0 < c)%nat ->
  s = mk_sbsm (rmat r c A) rm cm ->
  forall i j, (i < r)%nat -> (j < c)%nat ->
  match nth i rm false, nth j cm false with
  | true, true => m_at (sparse_block s) (rank_in rm true i) (rank_in cm true j) = Fin (A i j) /\ m_at (block_ss s) i j = Fin (A i j)
  | true, false => m_at (block_sd s) i (rank_in cm false j) = Fin (A i j) /\ m_at (block_ss s) i j = Fin 0
  | false, true => m_at (block_ds s) (rank_in rm false i) (rank_in cm true j) = Fin (A i j) /\ m_at (block_ss s) i j = Fin 0
  | false, false => m_at (block_dd s) (rank_in rm false i) (rank_in cm false j) = Fin (A i j) /\ m_at (block_ss s) i j = Fin 0
  end /\
  m_rows (sparse_block s) = count_occ Bool.bool_dec rm true /\ m_cols (sparse_block s) = count_occ Bool.bool_dec cm true /\
  m_rows (block_dd s) = count_occ Bool.bool_dec rm false /\ m_cols (block_dd s) = count_occ Bool.bool_dec cm false /\
  m_rows (block_ds s) = count_occ Bool.bool_dec rm false /\ m_cols (block_ds s) = count_occ Bool.bool_dec cm true.
Proof. exact blocks_spec. Qed.
Print Assumptions C63_blocks.
(** Without masks, a row (column) is sparse exactly when it stores fewer entries than the
    given fraction of the larger dimension; the rest is as with these masks given. *)
Theorem C63_default_masks : forall r c A stored t, (0 < r)%nat -> (0 < c)%nat ->
  let s := new_sbsm (rmat r c A) stored (Fin t) in
  exists rm cm, s = mk_sbsm (rmat r c A) rm cm /\ length rm = r /\ length cm = c /\
  (forall i, (i < r)%nat -> (nth i rm false = true <-> INR (length (filter (fun j => stored i j) (seq 0 c)))%nat < t * INR (Nat.max r c)%nat)) /\
  (forall j, (j < c)%nat -> (nth j cm false = true <-> INR (length (filter (fun i => stored i j) (seq 0 r))) < t * INR (Nat.max r c)%nat)).
Proof.
  intros r c A stored t Hr Hc. cbv zeta. unfold new_sbsm. do 2 eexists. split; [reflexivity|]. cbn [m_rows m_cols rmat].
  unfold sparse_mask. rewrite !map_length, !seq_length. split; [reflexivity|]. split; [reflexivity|].
  assert (G : forall (f : nat -> nat) n i, (i < n)%nat ->
    nth i (map (fun n => (nofZ (Z.of_nat n) <? Fin t * nofZ (Z.of_nat (Nat.max r c)))%num) (map f (seq 0 n))) false = true <-> INR (f i) < t * INR (Nat.max r c)%nat).
  { intros f n i Hi. rewrite map_map. set (g := fun x : nat => _).
    rewrite (nth_indep _ false (g 0%nat)) by (rewrite map_length, seq_length; auto). rewrite (map_nth g), seq_nth by auto. unfold g. cbn [Nat.add].
    cbn [nofZ nlt nmul xr_num xcmp x2]. rewrite !INR_IZR_INZ. destruct (Flocq.Core.Raux.Rlt_bool_spec (IZR (Z.of_nat (f i))) (t * IZR (Z.of_nat (Nat.max r c)))); split; auto; try discriminate. intros; lra. }
  split; intros i Hi; apply G; exact Hi.
Qed.
Print Assumptions C63_default_masks.
Theorem C63_MMT : forall r c A rm cm, (rm = [] \/ length rm = r) -> (cm = [] \/ length cm = c) ->
  exists m, MMT (mk_sbsm (rmat r c A) rm cm) = Ok m /\ is_mat m r r (fun i j => big c (fun k => A i k * A j k)).
Proof. intros. now apply MMT_ok. Qed.
Print Assumptions C63_MMT.
Theorem C63_MTM_matmat : forall r c A rm cm k B,
  (exists m, MTM (mk_sbsm (rmat r c A) rm cm) = Ok m /\ is_mat m c c (fun i j => big r (fun k => A k i * A k j))) /\
  (exists m, matmat (mk_sbsm (rmat r c A) rm cm) (rmat c k B) = Ok m /\ is_mat m r k (fun i j => big c (fun k => A i k * B k j))).
Proof.
  intros. split.
  - apply (mat_dot_fin (is_mat_T (rmat_is r c A)) (rmat_is r c A)).
  - apply (mat_dot_fin (rmat_is r c A) (rmat_is c k B)).
Qed.
Print Assumptions C63_MTM_matmat.
(** matvec with column vectors, shape (n, k): right unless there are both
    dense rows and dense columns (and more than one row), where it raises
    ([C136_matvec_refuted]). *)
Theorem C114_matvec : forall r c A rm cm q w, (rm = [] \/ length rm = r) -> (cm = [] \/ length cm = c) ->
  ~ In false cm \/ ~ In false rm \/ r = 1%nat ->
  exists m, matvec (mk_sbsm (rmat r c A) rm cm) (A2 (rmat c q w)) = Ok (A2 m) /\
    is_mat m r q (fun i j => big c (fun k => A i k * w k j)).
Proof.
  assert (G : forall n l, ~ In false l -> flatnonzero 0 (complement (or_all_true n l)) = []).
  { intros n l N. assert (N' : ~ In false (or_all_true n l)).
    { destruct l as [|b l]; auto. cbn. intros D. apply repeat_spec in D. discriminate. }
    clear -N'. unfold complement. revert N'. generalize 0%nat. induction (or_all_true n l) as [|b q IH]; intros k N'; auto.
    cbn in N'. destruct b; [|tauto]. cbn. apply IH. tauto. }
  intros r c A rm cm q w Hr Hc N. destruct (flatnonzero 0 (complement (or_all_true c cm))) as [|d0 ds] eqn:DC.
  - apply matvec_column_ok; auto.
  - destruct N as [N|N]; [apply (G c) in N; congruence|]. apply matvec_dense_columns_ok; auto; [|congruence].
    destruct N as [N|N]; auto.
Qed.
Print Assumptions C114_matvec.
(** A plain 1-d vector is refused whatever the masks; and a column
    vector is refused when there are both dense rows and dense columns. *)
Theorem C136_matvec_refuted :
  (forall r c A rm cm l, (rm = [] \/ length rm = r) -> (cm = [] \/ length cm = c) -> length l = c ->
     matvec (mk_sbsm (rmat r c A) rm cm) (A1 l) = Err ValueError) /\
  (forall r c A rm cm q w, length rm = r -> length cm = c -> r <> 1%nat -> In false rm -> In false cm ->
     matvec (mk_sbsm (rmat r c A) rm cm) (A2 (rmat c q w)) = Err ValueError).
Proof.
  split.
  - intros. now apply matvec_1d_fails.
  - intros r c A rm cm q w Hr Hc R1 Fr Fc.
    assert (G : forall m n, In false m -> flatnonzero 0 (complement (or_all_true n m)) <> []).
    { intros m n H E. apply In_nth with (d := false) in H as (i&L&H).
      assert (O : or_all_true n m = m) by (destruct m; auto; cbn in L; lia). rewrite O in E.
      pose proof (masked_complement L) as C. unfold masked at 2 in C. rewrite H in C. cbn in C. apply fnz_in in C. rewrite E in C. destruct C. }
    apply matvec_dense_fails; auto.
Qed.
Print Assumptions C136_matvec_refuted.
Example C63_example :
  let s := mk_sbsm (rmat 2 2 frame12) [true; false] [true; true] in
  (exists m, MMT s = Ok m /\ is_mat m 2 2 (fun i j => big 2 (fun k => frame12 i k * frame12 j k))) /\
  big 2 (fun k => frame12 0 k * frame12 1 k) = 11 /\
  (exists m, matvec s (A2 (rmat 2 1 (fun i _ => INR i + 1))) = Ok (A2 m) /\ m_at m 1 0 = Fin 11) /\
  exists m, matvec (mk_sbsm (rmat 2 2 frame12) [true; true] [true; false]) (A2 (rmat 2 1 (fun i _ => INR i + 1))) = Ok (A2 m) /\ m_at m 1 0 = Fin 11.
Proof.
  cbv zeta. split; [apply C63_MMT; auto|]. split; [unfold big; cbn; lra|].
  split.
  - destruct (@C114_matvec 2 2 frame12 [true; false] [true; true] 1 (fun i _ => INR i + 1)) as (m&E&_&_&I); auto.
    { left. cbn. intuition discriminate. }
    exists m. split; auto. rewrite I by lia. f_equal. unfold big. cbn. lra.
  - destruct (@C114_matvec 2 2 frame12 [true; true] [true; false] 1 (fun i _ => INR i + 1)) as (m&E&_&_&I); auto.
    { right. left. cbn. intuition discriminate. }
    exists m. split; auto. rewrite I by lia. f_equal. unfold big. cbn. lra.
Qed.

(** C64.  [lchol_c] stands for the C routine.  Asked of it for the matrix at
    hand: it factored all columns, [q] is an ordering of 0 .. n-1 and
    L L^T is A reordered by [q]. *)
Definition cholmod_right (lchol_c : mat xr -> mat xr * nat * list nat) (n : nat) (A : nat -> nat -> R) : Prop :=
  exists l L q, lchol_c (rmat n n A) = (l, n, q) /\ is_mat l n n L /\ Permutation q (seq 0 n) /\
    forall i j, (i < n)%nat -> (j < n)%nat -> big n (fun k => L i k * L j k) = A (nth i q 0%nat) (nth j q 0%nat).
Theorem C64_lchol : forall lchol_c n A, (0 < n)%nat -> cholmod_right lchol_c n A ->
  exists l s L S, lchol lchol_c (rmat n n A) = Ok (l, 0%nat, s) /\ is_mat l n n L /\ is_mat s n n S /\
    (* S is a permutation matrix *)
    (forall i j, (i < n)%nat -> (j < n)%nat -> S i j = 0 \/ S i j = 1) /\
    (forall i, (i < n)%nat -> exists j, (j < n)%nat /\ S i j = 1 /\ forall j', (j' < n)%nat -> S i j' = 1 -> j' = j) /\
    (forall j, (j < n)%nat -> exists i, (i < n)%nat /\ S i j = 1 /\ forall i', (i' < n)%nat -> S i' j = 1 -> i' = i) /\
    (* S^T A S = L L^T *)
    (forall i j, (i < n)%nat -> (j < n)%nat ->
       big n (fun k => S k i * big n (fun m => A k m * S m j)) = big n (fun k => L i k * L j k)).
Proof.
  intros lchol_c n A Hn (l&L&q&E&(L1&L2&L3)&P&H). unfold lchol. rewrite E. cbn [rmat m_cols m_rows]. rewrite Nat.eqb_refl. cbn [negb].
  destruct (selection_perm Hn P) as (s&Es&Is). rewrite Es. cbn [bindr].
  exists (mkmat n n (m_at l)), s, L, (fun i j => kron (nth j q 0%nat) i). split; [reflexivity|].
  split; [repeat split; auto|]. split; [exact Is|]. split; [|split; [|split]].
  - intros i j _ _. unfold kron. destruct (Nat.eqb _ _); auto.
  - intros i Hi. destruct (perm_nth_surj P Hi) as (j&Hj&Ej). exists j. split; auto. rewrite Ej. unfold kron. rewrite Nat.eqb_refl.
    split; auto. intros j' Hj'. destruct (Nat.eqb_spec (nth j' q 0%nat) i) as [E'|E']; [|lra]. intros _.
    apply (perm_nth_inj P); auto. congruence.
  - intros j Hj. exists (nth j q 0%nat). split; [now apply (perm_nth_lt P)|]. unfold kron. rewrite Nat.eqb_refl. split; auto.
    intros i' Hi'. destruct (Nat.eqb_spec (nth j q 0%nat) i'); auto. lra.
  - intros i j Hi Hj. rewrite H by auto. rewrite <- (@congruence_perm n q A i j) by auto. apply big_ext. intros k _. reflexivity.
Qed.
Print Assumptions C64_lchol.
(** a matrix on which CHOLMOD stops early, and an empty one, are refused *)
Theorem C64_refused : forall lchol_c (a : mat xr) l minor q, lchol_c a = (l, minor, q) ->
  (minor <> m_cols a -> lchol lchol_c a = Err ValueError) /\
  (minor = m_cols a -> q = [] -> lchol lchol_c a = Err ValueError).
Proof.
  intros lchol_c a l minor q E. unfold lchol. rewrite E. split.
  - intros N. destruct (Nat.eqb_spec minor (m_cols a)); [contradiction|reflexivity].
  - intros -> ->. rewrite Nat.eqb_refl. reflexivity.
Qed.
Print Assumptions C64_refused.
(** The argument: after the copy every array and every object that existed
    before is unchanged, the copy is a different object whose data array is
    the caller's and whose index arrays hold the same numbers as 64-bit integers. *)
Theorem C64_argument_unchanged : forall h a o, nth_error (h_objs h) a = Some o ->
  (o_indices o < length (h_arrays h))%nat -> (o_indptr o < length (h_arrays h))%nat ->
  let (h', b) := copy64 h a in
  (forall k x, nth_error (h_arrays h) k = Some x -> nth_error (h_arrays h') k = Some x) /\
  (forall k x, nth_error (h_objs h) k = Some x -> nth_error (h_objs h') k = Some x) /\
  b <> a /\
  exists o', nth_error (h_objs h') b = Some o' /\ o_shape o' = o_shape o /\ o_data o' = o_data o /\
    (exists x, nth_error (h_arrays h) (o_indices o) = Some x /\ nth_error (h_arrays h') (o_indices o') = Some (fst x, true)) /\
    (exists x, nth_error (h_arrays h) (o_indptr o) = Some x /\ nth_error (h_arrays h') (o_indptr o') = Some (fst x, true)).
Proof. exact copy64_spec. Qed.
Print Assumptions C64_argument_unchanged.
Example C64_example : cholmod_right (fun _ => (rmat 2 2 (fun i j => match i, j with 0%nat, 0%nat => 2 | 1%nat, 1%nat => 3 | _, _ => 0 end), 2%nat, [1; 0]%nat))
  2 (fun i j => match i, j with 0%nat, 0%nat => 9 | 1%nat, 1%nat => 4 | _, _ => 0 end).
Proof.
  exists (rmat 2 2 (fun i j => match i, j with 0%nat, 0%nat => 2 | 1%nat, 1%nat => 3 | _, _ => 0 end)),
    (fun i j => match i, j with 0%nat, 0%nat => 2 | 1%nat, 1%nat => 3 | _, _ => 0 end), [1; 0]%nat.
  split; [reflexivity|]. split; [apply rmat_is|]. split; [apply perm_swap|].
  intros i j Hi Hj. destruct i as [|[|i]], j as [|[|j]]; try lia; unfold big; cbn; lra.
Qed.
