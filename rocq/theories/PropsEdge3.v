(** * More edge cases: arrays of Python numbers (C58), the Jacobian at zero rows (C66), negative and
    missing vertex numbers (C67), plain attributes (C95), partitioning by no length (C102). *)
From Coq Require Import Reals ZArith QArith String List Bool Lra Lia.
From Flocq Require Import Core.Raux Core.Zaux IEEE754.BinarySingleNaN.
From Verif Require Import Num B64 BLemmas Vec RVec SpecGeom SpecPoly SpecNumerics NpList VLemmas XLemmas MNumerics PNumerics MNormals SpecNormals PNormals PNormals2 PNormals3
  MVx MPlane MSegment MPolyline PPolyline PPolyline2 PPart MDescriptor.
Import ListNotations.
Set Implicit Arguments.
Unset Strict Implicit.
Local Open Scope R_scope.

(** ** C58.  Arrays with an element numpy stores as an object (None, Decimal, Fraction, or an int of
    more than 64 bits): numeric exactly if no element is None, a string, an infinite Decimal or a
    signalling NaN, and every Decimal zero comes after a zero of another type. *)
Definition zero_but_not_decimal {F} {N : Num F} (s : pyscalar F) : Prop :=
  match s with
  | PBool b => b = false
  | PInt z => z = 0%Z
  | PFloat x => (x =? n0)%num = true
  | PComplex x y => (x =? n0)%num = true /\ (y =? n0)%num = true
  | PFrac q => (q == 0)%Q
  | _ => False
  end.
Definition decimal_zero {F} (s : pyscalar F) : Prop := exists q, s = PDec (DFinite q) /\ (q == 0)%Q.
Definition without_arithmetic {F} (s : pyscalar F) : Prop := s = PNone \/ s = PStr \/ s = PDec DInf \/ s = PDec DsNaN.
Section C58.
Context {F : Type} {N : Num F}.
(** the scalars of a nested list, in reading order *)
Fixpoint reading (v : pyval F) : list (pyscalar F) :=
  match v with PS s => [s] | PL l => flat_map reading l end.
Lemma reading_leaves (v : pyval F) : reading v = leaves v.
Proof.
  induction v as [s|l IH] using pyval_rect'; [reflexivity|]. rewrite leaves_PL. cbn [reading]. induction IH as [|x l Hx Hl IHl]; [reflexivity|].
  cbn [flat_map]. now rewrite Hx, IHl.
Qed.
Lemma quotients_spec (ss : list (pyscalar F)) : Forall (fun s => ~ without_arithmetic s) ss ->
  quotients ss <> Fails <-> forall l1 s l2, ss = l1 ++ s :: l2 -> decimal_zero s -> exists z, In z l1 /\ zero_but_not_decimal z.
Proof.
  induction ss as [|s ss IH]; intros H.
  { split; [intros _ [|? ?] s l2 E; discriminate E|intros _; discriminate]. }
  inversion_clear H as [|? ? Hs Hss]. specialize (IH Hss). cbn [quotients].
  assert (T : self_quotient s = Fine /\ ~ zero_but_not_decimal s /\ ~ decimal_zero s \/ self_quotient s = ZeroDiv /\ zero_but_not_decimal s \/ self_quotient s = Fails /\ decimal_zero s).
  { destruct s as [|b|z|x|x y| |d|q]; cbn.
    - destruct Hs. now left.
    - destruct b; [left; split; [auto|split; [discriminate|intros (q & E & _); discriminate]]|right; left; auto].
    - destruct (Z.eqb_spec z 0); [right; left; auto|left; split; [auto|split; [auto|intros (q & E & _); discriminate]]].
    - destruct (x =? n0)%num; [right; left; auto|left; split; [auto|split; [discriminate|intros (q & E & _); discriminate]]].
    - destruct (x =? n0)%num, (y =? n0)%num; cbn; try (left; split; [auto|split; [intros [? ?]; discriminate|intros (q & E & _); discriminate]]). right; left; auto.
    - destruct Hs. right. now left.
    - destruct d as [q| | |].
      + destruct (Qeq_bool q 0) eqn:E; [right; right; split; [auto|exists q; split; [auto|now apply Qeq_bool_iff]]|].
        left. split; [auto|split; [auto|]]. intros (r & Er & Z). injection Er as <-. apply Qeq_bool_iff in Z. congruence.
      + destruct Hs. right. right. now left.
      + left. split; [auto|split; [auto|intros (q & E & _); discriminate]].
      + destruct Hs. right. right. now right.
    - destruct (Qeq_bool q 0) eqn:E; [right; left; split; [auto|now apply Qeq_bool_iff]|].
      left. split; [auto|split; [intros Z; apply Qeq_bool_iff in Z; congruence|intros (r & Er & _); discriminate]]. }
  destruct T as [(-> & Nz & Nd)|[(-> & Z)|(-> & D)]].
  - rewrite IH. split.
    + intros G [|y l1] t l2 E Dt; injection E as -> ->; [contradiction|]. destruct (G _ _ _ eq_refl Dt) as (z & Iz & Zz). exists z. split; [now right|auto].
    + intros G l1 t l2 E Dt. destruct (G (s :: l1) t l2) as (z & [<-|Iz] & Zz); [now rewrite E|auto|contradiction|eauto].
  - split; [|discriminate]. intros _ [|y l1] t l2 E Dt; injection E as -> ->; [|exists y; split; [now left|auto]].
    exfalso. destruct Dt as (q & -> & _). exact Z.
  - split; [congruence|]. intros G. destruct (G [] s ss eq_refl D) as (z & [] & _).
Qed.
Theorem C58_object_arrays : forall (l : list (pyval F)) sh, has_shape (PL l) sh ->
  (exists s, leaf s (PL l) /\ ~ native s /\ forall b, s <> PBool b) ->
  isnumeric (PL l) = true <->
  (forall s, leaf s (PL l) -> ~ without_arithmetic s) /\
  (forall l1 s l2, reading (PL l) = l1 ++ s :: l2 -> decimal_zero s -> exists z, In z l1 /\ zero_but_not_decimal z).
Proof.
  intros l sh H (s0 & I0 & N0 & B0). unfold isnumeric. apply shape_sound in H. rewrite H.
  assert (K0 : kind s0 = TObject).
  { destruct s0 as [|b|z|x|x y| |d|q]; try reflexivity; try (destruct N0; exact I); [destruct (B0 b eq_refl)|]. cbn. unfold fits_int64. cbn in N0.
    destruct (Z.leb_spec (- 2 ^ 63) z), (Z.ltb_spec z (2 ^ 63)); cbn [andb]; try reflexivity. destruct N0. lia. }
  apply leaves_spec in I0. pose proof (reading_leaves (PL l)) as RL. revert RL. generalize (reading (PL l)). intros rd ->.
  assert (IO : infer (leaves (PL l)) = TObject).
  { destruct (leaves (PL l)) as [|s ss]; [destruct I0|]. pose proof (infer_max ss s) as M. cbv zeta in M. destruct M as (_ & M). rewrite Forall_forall in M. specialize (M _ I0). rewrite K0 in M.
    destruct (infer (s :: ss)); cbn in M; try lia. reflexivity. }
  cbv zeta. rewrite IO. unfold mathy. rewrite andb_true_iff, forallb_forall.
  assert (A : forall s : pyscalar F, additive s = true <-> ~ without_arithmetic s).
  { intros s. unfold without_arithmetic. destruct s as [|b|z|x|x y| |[q| | |]|q]; cbn; split; intros X; try discriminate; try reflexivity; try (intros [E|[E|[E|E]]]; discriminate E); destruct X; auto. }
  split.
  - intros [X Y]. assert (X' : forall s, leaf s (PL l) -> ~ without_arithmetic s) by (intros s L; apply A, X, leaves_spec, L). split; [exact X'|].
    apply quotients_spec; [apply Forall_forall; intros s I; apply X', leaves_spec, I|]. destruct (quotients _); congruence.
  - intros [X Y]. split; [intros s I; apply A, X, leaves_spec, I|]. apply quotients_spec in Y; [destruct (quotients _); congruence|]. apply Forall_forall; intros s I; apply X, leaves_spec, I.
Qed.
End C58.
Print Assumptions C58_object_arrays.
(** C133.  So the answer depends on the order: a Fraction zero before a Decimal zero, or after it. *)
Theorem C133_order_refuted : forall F (N : Num F),
  isnumeric (PL [PS (PFrac 0); PS (PDec (DFinite 0))] : pyval F) = true /\ isnumeric (PL [PS (PDec (DFinite 0)); PS (PFrac 0)] : pyval F) = false.
Proof. intros. split; reflexivity. Qed.
Print Assumptions C133_order_refuted.
Example C58_object_example : has_shape (PL [PS (PFrac 0); PS (PDec (DFinite 0))] : pyval xr) [2%nat] /\ leaf (PFrac 0) (PL [PS (PFrac 0); PS (PDec (DFinite 0))] : pyval xr) /\ ~ native (PFrac 0 : pyscalar xr).
Proof. split; [apply (@hs_list _ (PS (PFrac 0)) [PS (PDec (DFinite 0))] []); repeat constructor|]. split; [econstructor; [left; reflexivity|constructor]|auto]. Qed.

(** ** C66.  What the Jacobian does to a displacement, row by row: the projection orthogonal to the
    row, over its length; for a zero row (taken to have length 1e-5) 1e5 times the displacement. *)
Theorem C66_jacobian : forall v, exists J, normalized_dr (flat v) = Ok J /\
  forall h, length h = length v -> exists d, sp_dot J (flat h) = Ok (flat d) /\ length d = length v /\
    forall i, (i < length v)%nat ->
      (row v i = rzero -> row d i = rscale 100000 (row h i)) /\
      (row v i <> rzero -> row d i = rscale (/ rnorm (row v i)) (rsub (row h i) (rscale (rdot (row v i) (row h i) / rdot (row v i) (row v i)) (row v i)))).
Proof.
  set (z0 := mk3 (mk3 100000 0 0) (mk3 0 100000 0) (mk3 0 0 100000)).
  set (dec := fun p : V3 R => if Req_EM_T (c0 p) 0 then if Req_EM_T (c1 p) 0 then if Req_EM_T (c2 p) 0 then true else false else false else false).
  assert (D : forall p, dec p = true <-> p = rzero).
  { intros [x y z]. unfold dec, rzero. cbn [c0 c1 c2]. destruct (Req_EM_T x 0), (Req_EM_T y 0), (Req_EM_T z 0); split; intros E; try discriminate; try (injection E; intros; contradiction); try reflexivity. subst. reflexivity. }
  set (g := fun p => if dec p then z0 else rblock p).
  assert (G : forall p, normalized_block (fin3 p) = finm (g p)).
  { intros p. unfold g. destruct (dec p) eqn:E.
    - apply D in E. subst p. assert (RS : row_ss (fin3 rzero) = Fin (1 / 10000000000)).
      { unfold row_ss. rewrite fdot. cbv zeta. change (neqb (Fin (rdot rzero rzero)) n0) with (Req_bool (rdot rzero rzero) 0). rewrite Req_bool_true; [reflexivity|]. unfold rdot, rzero. cbn. ring. }
      unfold normalized_block. rewrite RS.
      assert (S : sqrt (1 / 10000000000) = 1 / 100000) by (apply sqrt_lem_1; lra). rewrite xsqrtE by lra. rewrite S. cbv zeta. rewrite xmul, xofZ, !xdivE by lra.
      unfold z0, mouter, map3, vscale, fin3, finm, rzero. cbn [c0 c1 c2]. xs. unfold map3. cbn [c0 c1 c2]. 
      unfold fin3, map3. cbn [c0 c1 c2]. xs. f_equal; f_equal; f_equal; field.
    - apply block_fin. intros Z. apply D in Z. congruence. }
  intros v. unfold normalized_dr. rewrite reshape_flat. cbn [bindr]. rewrite flat_length, block_indices_ok. cbn [bindr]. eexists. split; [reflexivity|].
  intros h L. exists (rowwise (fun p x => rapply (rtrans (g p)) x) v h). split.
  - rewrite map_map. rewrite (map_ext _ (fun p => finm (g p))) by exact G.
    rewrite <- (map_map g (fun m => finm m)). rewrite <- (map_length g v). rewrite block_result by (rewrite map_length; congruence). do 2 f_equal.
    unfold rowwise. clear. revert h. induction v as [|p v IH]; intros [|x h]; try reflexivity. cbn [map combine fst snd]. now rewrite IH.
  - split; [unfold rowwise; rewrite map_length, combine_length; lia|]. intros i I.
    assert (W : row (rowwise (fun p x => rapply (rtrans (g p)) x) v h) i = rapply (rtrans (g (row v i))) (row h i)).
    { clear -I L. unfold row, rowwise. revert h i I L. induction v as [|x a IH]; intros [|y b] [|i] A B; cbn in *; try lia; auto. apply IH; lia. }
    rewrite W. set (p := row v i). set (x := row h i). split; intros Z.
    + unfold g. rewrite (proj2 (D p) Z). unfold rapply, rtrans, rcol0, rcol1, rcol2, rdot, rscale, z0. cbn [c0 c1 c2]. f_equal; ring.
    + unfold g. destruct (dec p) eqn:E; [apply D in E; contradiction|]. rewrite rblock_apply by auto. pose proof (rnorm_gt0 _ Z) as P. rewrite <- (rnorm_sq p).
      unfold rsub, rscale. cbn [c0 c1 c2]. f_equal; field; lra.
Qed.
Print Assumptions C66_jacobian.

(** ** C67.  Vertex numbers may be negative, counting from the end: the edges are those of the
    numbers so meant.  The Jacobian is then refused.  Numbers out of range, and arrays that are not
    made of triples, raise. *)
Definition counted (n : nat) (i : Z) : Z := if (i <? 0)%Z then (i + Z.of_nat n)%Z else i.
Lemma pyget_counted {A} (l : list A) i d : (- Z.of_nat (length l) <= i < Z.of_nat (length l))%Z -> pyget l i = Ok (nth (Z.to_nat (counted (length l) i)) l d).
Proof.
  intros H. unfold pyget, counted. destruct (Z.ltb_spec i (- Z.of_nat (length l))); [lia|]. destruct (Z.leb_spec (Z.of_nat (length l)) i); [lia|]. cbn [orb].
  destruct (Z.ltb_spec i 0); unfold getitem; rewrite (nth_error_nth' l d) by lia; reflexivity.
Qed.
Theorem C67_negative_numbers : forall F (N : Num F) (v : list (V3 F)) f k m, (k < 3)%nat -> (m < 3)%nat ->
  (forall t j, In t f -> j = k \/ j = m -> (- Z.of_nat (length v) <= corner_of t j < Z.of_nat (length v))%Z) ->
  edges_for (ravel3 v) f (Z.of_nat k) (Z.of_nat m) =
    Ok (ravel3 (map (fun t => vsub (nth (Z.to_nat (counted (length v) (corner_of t k))) v vzero) (nth (Z.to_nat (counted (length v) (corner_of t m))) v vzero)) f)).
Proof.
  intros F N v f k m K M H. unfold edges_for. rewrite reshape_ravel. cbn [bindr].
  assert (T : forall j, (j < 3)%nat -> j = k \/ j = m -> traverse (fun t => let* i := MNormals.column (Z.of_nat j) t in pyget v i) f = Ok (map (fun t => nth (Z.to_nat (counted (length v) (corner_of t j))) v vzero) f)).
  { intros j J O. apply traverse_ok. intros t I. rewrite column_ok by auto. cbn [bindr]. apply pyget_counted. now apply H. }
  rewrite (T k K (or_introl eq_refl)), (T m M (or_intror eq_refl)). cbn [bindr]. do 2 f_equal. clear. induction f as [|t f IH]; [reflexivity|]. unfold map2 in *. cbn [map combine fst snd]. now rewrite IH.
Qed.
Print Assumptions C67_negative_numbers.
Lemma traverse_some_err {A B} (f : A -> res B) e l : (forall x, In x l -> f x = Err e \/ exists y, f x = Ok y) -> (exists x, In x l /\ f x = Err e) -> traverse f l = Err e.
Proof.
  induction l as [|x l IH]; intros H (z & I & E); [destruct I|]. cbn [traverse]. destruct (H x (or_introl eq_refl)) as [X|[y Y]]; [now rewrite X|]. rewrite Y. cbn [bindr].
  rewrite IH; [reflexivity|intros; apply H; now right|]. destruct I as [->|I]; [congruence|eauto].
Qed.
Theorem C67_refused : forall F (N : Num F) (v : list (V3 F)) f k m, (k < 3)%nat -> (m < 3)%nat ->
  ((exists t j, In t f /\ (j = k \/ j = m) /\ ((corner_of t j < - Z.of_nat (length v)) \/ (Z.of_nat (length v) <= corner_of t j))%Z) ->
     edges_for (ravel3 v) f (Z.of_nat k) (Z.of_nat m) = Err IndexError) /\
  ((exists t j, In t f /\ (j = k \/ j = m) /\ (corner_of t j < 0 \/ Z.of_nat (length v) <= corner_of t j)%Z) ->
     edges_dr (ravel3 v) f (Z.of_nat k) (Z.of_nat m) = Err ValueError).
Proof.
  intros F N v f k m K M.
  assert (C : forall j, (j < 3)%nat -> traverse (MNormals.column (Z.of_nat j)) f = Ok (map (fun t => corner_of t j) f)) by (intros j J; apply traverse_ok; intros t _; now apply column_ok).
  assert (G : forall j, (j < 3)%nat -> forall t, (let* i := MNormals.column (Z.of_nat j) t in pyget v i) = pyget v (corner_of t j)) by (intros j J t; rewrite column_ok by auto; reflexivity).
  assert (P : forall i, pyget v i = Err IndexError \/ exists y, pyget v i = Ok y).
  { intros i. unfold pyget. destruct (_ || _); [now left|]. unfold getitem. destruct (nth_error _ _); eauto. }
  assert (P2 : forall i, (i < - Z.of_nat (length v) \/ Z.of_nat (length v) <= i)%Z -> pyget v i = Err IndexError).
  { intros i O. unfold pyget. destruct (Z.ltb_spec i (- Z.of_nat (length v))); [reflexivity|]. destruct (Z.leb_spec (Z.of_nat (length v)) i); [reflexivity|lia]. }
  split.
  - intros (t & j & I & J & O). unfold edges_for. rewrite reshape_ravel. cbn [bindr].
    assert (S : forall j, (j < 3)%nat -> traverse (fun t => let* i := MNormals.column (Z.of_nat j) t in pyget v i) f = Err IndexError \/ exists y, traverse (fun t => let* i := MNormals.column (Z.of_nat j) t in pyget v i) f = Ok y).
    { intros j' J'. clear -G J' P. induction f as [|t f IH]; [right; eexists; reflexivity|]. cbn [traverse]. rewrite (G j' J'). destruct (P (corner_of t j')) as [->|[y ->]]; [now left|]. cbn [bindr].
      destruct IH as [->|[ys ->]]; [now left|right; eexists; reflexivity]. }
    assert (X : traverse (fun t => let* i := MNormals.column (Z.of_nat j) t in pyget v i) f = Err IndexError).
    { apply traverse_some_err; [intros x _; rewrite G by (destruct J; lia); apply P|]. exists t. split; auto. rewrite G by (destruct J; lia). now apply P2. }
    destruct (S k K) as [->|[y Y]]; [reflexivity|]. rewrite Y. cbn [bindr]. destruct J as [->| ->]; [congruence|]. now rewrite X.
  - intros (t & j & I & J & O). unfold edges_dr. rewrite (C k K), (C m M). cbn [bindr]. cbv zeta. unfold coo.
    set (three := fun l => flat_map (fun i => [(i * 3)%Z; (i * 3 + 1)%Z; (i * 3 + 2)%Z]) l).
    set (out := fun (n : nat) (q : Z) => (q <? 0)%Z || (Z.of_nat n <=? q)%Z).
    assert (LR : length (ravel3 v) = (3 * length v)%nat) by (unfold ravel3; clear; induction v as [|x v IH]; [reflexivity|]; cbn [flat_map app length] in *; rewrite IH; lia).
    assert (B : existsb (out (length (ravel3 v))) (three (map (fun t => corner_of t j) f)) = true).
    { apply existsb_exists. exists (corner_of t j * 3)%Z. split.
      - apply in_flat_map. exists (corner_of t j). split; [apply (in_map (fun t => corner_of t j)), I|now left].
      - unfold out. rewrite LR, orb_true_iff, Z.ltb_lt, Z.leb_le. lia. }
    unfold out in B. destruct J as [->| ->].
    + rewrite B, orb_true_r. reflexivity.
    + rewrite B, orb_true_r. destruct (_ || _); reflexivity.
Qed.
Print Assumptions C67_refused.
Theorem C67_not_triples : forall F (N : Num F) (v : list F) f k m, (length v mod 3 <> 0)%nat ->
  edges_for v f k m = Err ValueError /\ normalized_value v = Err ValueError /\ normalized_dr v = Err ValueError.
Proof.
  intros F N v f k m H. assert (E : forall n (l : list F), (length l <= n)%nat -> (length l mod 3 <> 0)%nat -> reshape3 l = Err ValueError).
  { induction n as [|n IH]; intros [|x [|y [|z l]]] L D; try reflexivity; try (exfalso; apply D; reflexivity); cbn [length] in *; [lia|].
    cbn [reshape3]. rewrite IH; [reflexivity|lia|]. intros Z. apply D. replace (S (S (S (length l)))) with (length l + 1 * 3)%nat by lia. now rewrite Nat.mod_add. }
  specialize (E (length v) v (le_n _) H). unfold edges_for, normalized_value, normalized_dr. now rewrite E.
Qed.
Print Assumptions C67_not_triples.
Example C67_example : (forall j, j = 0%nat \/ j = 1%nat -> (- 3 <= corner_of (mk3 (-1) 0 1)%Z j < 3)%Z) /\ counted 3 (-1) = 2%Z.
Proof. split; [intros j [->| ->]; cbn; lia|reflexivity]. Qed.

(** ** C95.  Attributes of the object that are not descriptors are ordinary ones. *)
Theorem C95_plain_attributes : forall V (vNone : V) cls d k, ~ In k (map sp_name cls) ->
  (forall v, exists d', py_setattr cls d k v = (d', Ok tt) /\ py_getattr vNone cls d' k = Ok v /\ forall j, j <> k -> d' j = d j) /\
  (d k = None -> py_getattr vNone cls d k = Err AttributeError /\ py_delattr vNone cls d k = (d, Err AttributeError)) /\
  (d k <> None -> exists d', py_delattr vNone cls d k = (d', Ok tt) /\ d' k = None /\ forall j, j <> k -> d' j = d j).
Proof.
  intros V vNone cls d k H. assert (E : find_sp cls k = None).
  { unfold find_sp. induction cls as [|p cls IH]; [reflexivity|]. cbn [find map In] in *. destruct (String.eqb_spec (sp_name p) k); [exfalso; apply H; now left|]. apply IH. tauto. }
  unfold py_setattr, py_getattr, py_delattr. rewrite E. assert (Pk : forall o, put d k o k = o) by (intros; unfold put; now rewrite String.eqb_refl).
  assert (Pj : forall o j, j <> k -> put d k o j = d j) by (intros o j J; unfold put; destruct (String.eqb_spec j k); congruence).
  split; [|split].
  - intros v. eexists. split; [reflexivity|]. rewrite Pk. split; [reflexivity|]. apply Pj.
  - intros ->. auto.
  - intros Hk. destruct (d k); [|congruence]. eexists. split; [reflexivity|]. split; [apply Pk|apply Pj].
Qed.
Print Assumptions C95_plain_attributes.

(** ** C102.  The claim: partition_by_length returns only with segments no longer than max_length, and
    otherwise raises, the polyline unchanged.  It fails for a negative length, in exact arithmetic and
    for doubles: the polyline is returned as it was. *)
Theorem C122_negative_refuted :
  (forall c vs M, vs <> [] -> M < 0 -> partition_by_length (fpoly c vs) (Fin M) = (fpoly c vs, Ok (seq 0 (length vs)))) /\
  (forall c (vs : list (V3 b64)) p (m : b64), init_points (Some vs) c = Ok p -> vs <> [] -> is_finite m = true -> Bval m < 0 ->
     partition_by_length p m = (p, Ok (seq 0 (length vs)))).
Proof.
  split.
  - intros c vs M Hv HM. unfold fpoly. rewrite <- (map_length fin3 vs). apply partition_keeps with (ls := map (fun ab => Fin (seglen ab)) (segs c vs)).
    + unfold numeric. apply forallb_forall. intros x I. apply in_map_iff in I as (y & <- & _). reflexivity.
    + destruct vs; [congruence|discriminate].
    + apply segment_lengths_fin.
    + apply Forall_map, Forall_forall. intros [a b] _ s e. assert (P : 0 <= seglen (a, b)) by apply rnorm_pos.
      unfold subdivide. rewrite xdivE by lra. cbn [nceil xr_num]. destruct (Z.leb_spec (Zceil (seglen (a, b) / M)) 1) as [_|D]; [reflexivity|exfalso].
      assert (Q : seglen (a, b) / M <= 0). { unfold Rdiv. assert (/ M < 0) by now apply Rinv_lt_0_compat. rewrite <- (Rmult_0_l (/ M)). apply Rmult_le_compat_neg_l with (r := / M) in P; lra. }
      pose proof (Zceil_glb 0 _ Q). lia.
  - intros c vs p m Hp Hv Fm Hm.
    assert (Hn : numeric vs = true). { unfold init_points, set_points in Hp. destruct (numeric vs); [reflexivity|discriminate Hp]. }
    rewrite init_points_some in Hp by auto. destruct (c && _); [discriminate Hp|]. injection Hp as <-.
    destruct (good_lengths c Hn) as (ls & E & _ & G). apply (partition_keeps Hn Hv E). eapply Forall_impl; [|exact G]. intros l Gl. now apply div_negative.
Qed.
Print Assumptions C122_negative_refuted.
(** A zero (0 or 0.0) raises, leaving the polyline as it was: OverflowError when its first segment has a length,
    ValueError when it has none.  Minus zero raises only if some segment has no length. *)
Theorem C102_zero : forall (p : polyline b64) l ls, segment_lengths p = Ok (l :: ls) ->
  ((n0 <? l)%num = true -> partition_by_length p (B754_zero false) = (p, Err OverflowError)) /\
  ((n0 =? l)%num = true -> partition_by_length p (B754_zero false) = (p, Err ValueError)).
Proof.
  intros p l ls E. split; intros H; apply (partition_first_fails E); intros a b.
  - destruct l as [s|s| |s m e P]; try discriminate H; destruct s; try discriminate H; reflexivity.
  - destruct l as [s|s| |s m e P]; try discriminate H; try (destruct s; discriminate H). reflexivity.
Qed.
Print Assumptions C102_zero.
Theorem C122_minus_zero_refuted : forall c (vs : list (V3 b64)) p ls, init_points (Some vs) c = Ok p -> vs <> [] ->
  segment_lengths p = Ok ls -> Forall (fun l => (n0 <? l)%num = true) ls ->
  partition_by_length p (B754_zero true) = (p, Ok (seq 0 (length vs))).
Proof.
  intros c vs p ls Hp Hv E H.
  assert (Hn : numeric vs = true). { unfold init_points, set_points in Hp. destruct (numeric vs); [reflexivity|discriminate Hp]. }
  rewrite init_points_some in Hp by auto. destruct (c && _); [discriminate Hp|]. injection Hp as <-.
  apply (partition_keeps Hn Hv E). eapply Forall_impl; [|exact H]. intros l Gl a b.
  destruct l as [s|s| |s m e P]; try discriminate Gl; destruct s; try discriminate Gl; reflexivity.
Qed.
Print Assumptions C122_minus_zero_refuted.
(** NaN raises ValueError; an infinite length divides nothing. *)
Theorem C102_nan : forall (p : polyline b64) l ls, segment_lengths p = Ok (l :: ls) -> partition_by_length p B754_nan = (p, Err ValueError).
Proof. intros p l ls E. apply (partition_first_fails E). intros a b. destruct l as [s|s| |s m e P]; reflexivity. Qed.
Print Assumptions C102_nan.
Theorem C102_infinite : forall c (vs : list (V3 b64)) p ls, init_points (Some vs) c = Ok p -> vs <> [] ->
  segment_lengths p = Ok ls -> Forall (fun l => is_finite l = true) ls ->
  partition_by_length p (B754_infinity false) = (p, Ok (seq 0 (length vs))).
Proof.
  intros c vs p ls Hp Hv E H.
  assert (Hn : numeric vs = true). { unfold init_points, set_points in Hp. destruct (numeric vs); [reflexivity|discriminate Hp]. }
  rewrite init_points_some in Hp by auto. destruct (c && _); [discriminate Hp|]. injection Hp as <-.
  apply (partition_keeps Hn Hv E). eapply Forall_impl; [|exact H]. intros l Gl a b.
  destruct l as [s|s| |s m e P]; try discriminate Gl; reflexivity.
Qed.
Print Assumptions C102_infinite.
(** Whatever the length, and whatever arithmetic: a call that raises leaves the polyline as it was. *)
Theorem C102_unchanged : forall F (N : Num F) c (vs : list (V3 F)) p m q e, init_points (Some vs) c = Ok p -> vs <> [] ->
  partition_by_length p m = (q, Err e) -> q = p.
Proof.
  intros F N c vs p m q e Hp Hv H.
  assert (Hn : numeric vs = true). { unfold init_points, set_points in Hp. destruct (numeric vs); [reflexivity|discriminate Hp]. }
  rewrite init_points_some in Hp by auto. destruct (c && _); [discriminate Hp|]. injection Hp as <-.
  exact (partition_unchanged Hv H).
Qed.
Print Assumptions C102_unchanged.
Example C102_example : let vs := [mk3 (bofZ 0) (bofZ 0) (bofZ 0); mk3 (bofZ 3) (bofZ 0) (bofZ 0)] in
  exists p l, init_points (Some vs) false = Ok p /\ segment_lengths p = Ok [l] /\ (n0 <? l)%num = true.
Proof.
  cbv zeta. set (vs := [_; _]). exists (poly false vs), (vnorm (vsub (nth 1 vs vzero) (nth 0 vs vzero))). split.
  - assert (E : numeric vs = true) by (vm_compute; reflexivity). rewrite init_points_some by exact E. reflexivity.
  - split; [|vm_compute; reflexivity]. unfold segment_lengths. cbn [poly p_e]. fold (poly false vs). rewrite segments_poly. reflexivity.
Qed.
