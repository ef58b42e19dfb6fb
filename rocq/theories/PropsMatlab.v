(** * Properties C89-C91: the MATLAB-style helpers. *)
From Coq Require Import Reals ZArith List Bool Arith Lra Lia.
From Verif Require Import Num XLemmas Vec NpList MLinalg SpecLinalg MNormals MMatlab SpecMatlab PMatlab.
Import ListNotations.

(** ** C89.  What [bsxfun] returns is the operator applied with axes of length one stretched. *)
Theorem C89_stretches : forall F (op : F -> F -> F) (a b m : mat F), bsxfun op a b = Ok m ->
  fits (m_rows a) (m_rows b) /\ fits (m_cols a) (m_cols b) /\
  m_rows m = stretched (m_rows a) (m_rows b) /\ m_cols m = stretched (m_cols a) (m_cols b) /\
  forall i j, (i < m_rows m)%nat -> (j < m_cols m)%nat ->
    m_at m i j = op (m_at a (along (m_rows a) i) (along (m_cols a) j)) (m_at b (along (m_rows b) i) (along (m_cols b) j)).
Proof.
  intros F op a b m. unfold bsxfun. destruct (Nat.eqb_spec (m_rows a) (m_rows b)) as [R|R]; [apply bcast_ok|].
  destruct (Nat.eqb_spec (m_cols a) (m_cols b)) as [C|C]; [apply bcast_ok|]. cbn [orb].
  destruct (_ && _) eqn:M; [|discriminate]. apply andb_true_iff in M as [Ma Mb]. apply Nat.eqb_eq in Ma, Mb.
  destruct (Nat.eqb_spec (m_rows a) 1) as [Ra|Ra].
  - apply tile_ok; auto. rewrite Ra in R. destruct (Nat.min_dec (m_rows b) (m_cols b)) as [E|E]; congruence.
  - destruct (_ && _); discriminate.
Qed.
Print Assumptions C89_stretches.
(** It does return where the shapes agree along an axis, and for a row against a column. *)
Theorem C89_returns : forall F (op : F -> F -> F) (a b : mat F), fits (m_rows a) (m_rows b) -> fits (m_cols a) (m_cols b) ->
  m_rows a = m_rows b \/ m_cols a = m_cols b \/ (m_rows a = 1%nat /\ m_cols b = 1%nat /\ 0 < m_cols a /\ 0 < m_rows b)%nat ->
  exists m, bsxfun op a b = Ok m.
Proof.
  intros F op a b R C H. unfold bsxfun. destruct (Nat.eqb_spec (m_rows a) (m_rows b)) as [ER|ER]; [cbn; now apply bcast_some|].
  destruct (Nat.eqb_spec (m_cols a) (m_cols b)) as [EC|EC]; [cbn; now apply bcast_some|]. cbn [orb].
  destruct H as [H|[H|(Ra & Cb & P & Q)]]; try contradiction. rewrite Ra, Cb, !Nat.eqb_refl.
  rewrite (Nat.min_l 1 (m_cols a)) by lia. rewrite (Nat.min_r (m_rows b) 1) by lia. cbn [Nat.eqb andb].
  apply bcast_some; cbn [tile_rows m_rows m_cols]; unfold fits; [left; lia|]. right. right. exact Cb.
Qed.
Print Assumptions C89_returns.
(** Shapes that do not fit are refused. *)
Theorem C89_refuses : forall F (op : F -> F -> F) (a b : mat F), ~ (fits (m_rows a) (m_rows b) /\ fits (m_cols a) (m_cols b)) ->
  exists e, bsxfun op a b = Err e.
Proof.
  intros F op a b H. destruct (bsxfun op a b) as [m|e] eqn:E; [|eauto]. exfalso. apply H. pose proof (C89_stretches _ _ _ _ _ E). tauto.
Qed.
Print Assumptions C89_refuses.
(** But so are a column against a row, and a single entry against a matrix, which fit. *)
Theorem C116_column_row_refuted : forall F (op : F -> F -> F) (a b : mat F),
  m_cols a = 1%nat -> m_rows b = 1%nat -> (2 <= m_rows a)%nat -> (2 <= m_cols b)%nat ->
  fits (m_rows a) (m_rows b) /\ fits (m_cols a) (m_cols b) /\ bsxfun op a b = Err ValueError.
Proof.
  intros F op a b Ca Rb Ra Cb. split; [unfold fits; auto|]. split; [unfold fits; auto|]. unfold bsxfun. rewrite Ca, Rb.
  destruct (Nat.eqb_spec (m_rows a) 1); [lia|]. destruct (Nat.eqb_spec 1 (m_cols b)); [lia|]. cbn [orb].
  rewrite (Nat.min_r (m_rows a) 1), (Nat.min_l 1 (m_cols b)) by lia. cbn [Nat.eqb andb].
  destruct (Nat.ltb_spec 0 (m_rows a)); [|lia]. destruct (Nat.leb_spec 2 (m_cols b)); [reflexivity|lia].
Qed.
Print Assumptions C116_column_row_refuted.
Theorem C116_single_entry_refuted : forall F (op : F -> F -> F) (a b : mat F),
  m_rows a = 1%nat -> m_cols a = 1%nat -> (2 <= m_rows b)%nat -> (2 <= m_cols b)%nat ->
  fits (m_rows a) (m_rows b) /\ fits (m_cols a) (m_cols b) /\ bsxfun op a b = Err OtherException /\ bsxfun op b a = Err OtherException.
Proof.
  intros F op a b Ra Ca Rb Cb. split; [unfold fits; auto|]. split; [unfold fits; auto|]. unfold bsxfun. rewrite Ra, Ca.
  destruct (Nat.eqb_spec (m_rows b) 1); [lia|]. destruct (Nat.eqb_spec (m_cols b) 1); [lia|].
  destruct (Nat.eqb_spec 1 (m_rows b)); [lia|]. destruct (Nat.eqb_spec 1 (m_cols b)); [lia|]. cbn [orb].
  assert (M : Nat.eqb (Nat.min (m_rows b) (m_cols b)) 1 = false) by (apply Nat.eqb_neq; lia). rewrite M, andb_false_r. split; reflexivity.
Qed.
Print Assumptions C116_single_entry_refuted.
Example C89_example : exists m, bsxfun Nat.add (mkmat 1 3 (fun _ j => j)) (mkmat 2 1 (fun i _ => 10 * i)%nat) = Ok m /\
  m_rows m = 2%nat /\ m_cols m = 3%nat /\ m_at m 1 2 = 12%nat.
Proof. eexists. split; [vm_compute; reflexivity|]. repeat split. Qed.

(** ** C90.  [row] and [col] keep the entries in their order, in one row or one column. *)
Theorem C90_row_col : forall A (a : nd A), nd_shape (row a) = [1; length (nd_entries a)] /\ nd_shape (col a) = [length (nd_entries a); 1] /\
  nd_entries (row a) = nd_entries a /\ nd_entries (col a) = nd_entries a /\
  row (col a) = row a /\ col (row a) = col a.
Proof. intros A a. repeat split. Qed.
Print Assumptions C90_row_col.

(** ** C91.  The entry at a position is the sum of the data given for it. *)
Theorem C91_entries : forall i j data m n s, matlab_sparse i j (map Fin data) m n = Ok s ->
  forall r c, sp_at s r c = Fin (accumulated (nd_entries i) (nd_entries j) data (Z.of_nat r) (Z.of_nat c)).
Proof.
  intros i j data m n s E r c. unfold matlab_sparse in E. destruct (Nat.eqb_spec (length (nd_entries i)) (length (nd_entries j))) as [L|]; [|discriminate].
  assert (G : exists sh, csc_coo (map Fin data) (nd_entries i) (nd_entries j) sh = Ok s).
  { destruct m, n; try discriminate E; eauto. }
  destruct G as (sh & G). unfold csc_coo in G. destruct (match sh with Some _ => _ | None => _ end) as [[R C]|]; [|discriminate]. cbn [bindr fst snd] in G.
  destruct (_ && _) eqn:LL; [|discriminate]. apply andb_true_iff in LL as [Li Lj]. apply Nat.eqb_eq in Li, Lj. rewrite map_length in Li, Lj.
  apply coo_ok in G as (Hi & Hj & ->). apply sp_at_ok; auto.
  - intros z Hz. apply Hi in Hz. lia.
  - intros z Hz. apply Hj in Hz. lia.
Qed.
Print Assumptions C91_entries.
(** The shape is the one given, or else the smallest that holds every index. *)
Theorem C91_shape : forall F (N : Num F) i j (data : list F) m n s, matlab_sparse i j data m n = Ok s ->
  (forall z, In z (nd_entries i) -> (0 <= z < Z.of_nat (sp_rows s))%Z) /\
  (forall z, In z (nd_entries j) -> (0 <= z < Z.of_nat (sp_cols s))%Z) /\
  match m with
  | Some m' => sp_rows s = m' /\ n = Some (sp_cols s)
  | None => In (Z.of_nat (sp_rows s) - 1)%Z (nd_entries i) /\ In (Z.of_nat (sp_cols s) - 1)%Z (nd_entries j)
  end.
Proof.
  intros F N i j data m n s E. unfold matlab_sparse in E. destruct (Nat.eqb_spec (length (nd_entries i)) (length (nd_entries j))) as [L|]; [|discriminate].
  destruct m as [m|].
  - destruct n as [n|]; [|discriminate]. unfold csc_coo in E. cbn [bindr fst snd] in E. destruct (_ && _); [|discriminate].
    apply coo_ok in E as (Hi & Hj & ->). cbn [sp_rows sp_cols]. auto.
  - unfold csc_coo in E. destruct (extent (nd_entries i)) as [R|] eqn:Ei; [|discriminate]. destruct (extent (nd_entries j)) as [C|] eqn:Ej; [|discriminate].
    cbn [bindr fst snd] in E. destruct (_ && _); [|discriminate]. apply coo_ok in E as (Hi & Hj & ->). cbn [sp_rows sp_cols].
    split; [auto|]. split; [auto|]. split.
    + apply (extent_ok Ei). intros z Hz. apply Hi in Hz. lia.
    + apply (extent_ok Ej). intros z Hz. apply Hj in Hz. lia.
Qed.
Print Assumptions C91_shape.
(** With a shape, it returns exactly when lengths agree and every index is inside. *)
Theorem C91_returns : forall F (N : Num F) i j (data : list F) m n,
  (exists s, matlab_sparse i j data (Some m) (Some n) = Ok s) <->
  (length (nd_entries i) = length data /\ length (nd_entries j) = length data /\
   (forall z, In z (nd_entries i) -> (0 <= z < Z.of_nat m)%Z) /\ (forall z, In z (nd_entries j) -> (0 <= z < Z.of_nat n)%Z)).
Proof.
  intros F N i j data m n. unfold matlab_sparse, csc_coo. cbn [bindr fst snd]. split.
  - intros (s & E). destruct (Nat.eqb_spec (length (nd_entries i)) (length (nd_entries j))) as [L|]; [|discriminate].
    destruct (_ && _) eqn:LL; [|discriminate]. apply andb_true_iff in LL as [Li Lj]. apply Nat.eqb_eq in Li, Lj. apply coo_ok in E as (Hi & Hj & _). auto.
  - intros (Li & Lj & Hi & Hj). rewrite Li, Lj, !Nat.eqb_refl. cbn [andb]. now apply coo_some.
Qed.
Print Assumptions C91_returns.
(** Without one, it returns exactly when lengths agree and there are indices, none negative. *)
Theorem C91_returns_inferred : forall F (N : Num F) i j (data : list F) n,
  (exists s, matlab_sparse i j data None n = Ok s) <->
  (length (nd_entries i) = length data /\ length (nd_entries j) = length data /\ data <> [] /\
   (forall z, In z (nd_entries i) -> (0 <= z)%Z) /\ (forall z, In z (nd_entries j) -> (0 <= z)%Z)).
Proof.
  intros F N i j data n. split.
  - intros (s & E). destruct (C91_shape _ _ _ _ _ _ _ _ E) as (Hi & Hj & Ii & Ij). unfold matlab_sparse, csc_coo in E.
    destruct (Nat.eqb_spec (length (nd_entries i)) (length (nd_entries j))) as [L|]; [|discriminate].
    destruct (match extent (nd_entries i) with Some _ => _ | None => _ end) as [[R C]|]; [|discriminate]. cbn [bindr fst snd] in E.
    destruct (_ && _) eqn:LL; [|discriminate]. apply andb_true_iff in LL as [Li Lj]. apply Nat.eqb_eq in Li, Lj.
    repeat split; auto.
    + intros ->. destruct (nd_entries i); [contradiction Ii|discriminate Li].
    + intros z Hz. now apply Hi.
    + intros z Hz. now apply Hj.
  - intros (Li & Lj & NE & Pi & Pj). unfold matlab_sparse, csc_coo. rewrite Li, Lj, !Nat.eqb_refl. cbn [andb].
    destruct (extent (nd_entries i)) as [R|] eqn:Ei. 2:{ destruct (nd_entries i); [|discriminate Ei]. destruct data; [contradiction|discriminate Li]. }
    destruct (extent (nd_entries j)) as [C|] eqn:Ej. 2:{ destruct (nd_entries j); [|discriminate Ej]. destruct data; [contradiction|discriminate Lj]. }
    cbn [bindr fst snd]. apply coo_some; intros z Hz; split; auto; [apply (extent_ok Ei Pi); auto|apply (extent_ok Ej Pj); auto].
Qed.
Print Assumptions C91_returns_inferred.
Example C91_example : exists s, matlab_sparse (mknd [2; 2] [0; 1; 1; 0]%Z) (mknd [4] [2; 0; 0; 1]%Z) (map Fin [1; 2; 3; 4]%R) None None = Ok s /\
  sp_rows s = 2%nat /\ sp_cols s = 3%nat /\ sp_at s 1 0 = Fin 5.
Proof.
  eexists. split; [reflexivity|]. split; [reflexivity|]. split; [reflexivity|].
  rewrite (C91_entries (mknd [2; 2] [0; 1; 1; 0]%Z) (mknd [4] [2; 0; 0; 1]%Z) [1; 2; 3; 4]%R None None _ eq_refl). f_equal. unfold accumulated, big. cbn. lra.
Qed.
