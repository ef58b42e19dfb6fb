(** * Property C165: derivatives of unit face normals and of vertex normals. *)
From Coq Require Import Reals ZArith List Bool Lra Lia.
From Verif Require Import Num XLemmas Vec RVec VLemmas SpecGeom NpList MNormals SpecNormals PNormals PNormals2 PNormals3 PNormals4 MNormalsDr PNormals6 PropsNormals.
Import ListNotations.
Local Open Scope R_scope.

(** ** C165.  [flat] lays a stack of rows out as one array, [face_normal v t] is the normal of
    a face, not normalised, [normals_at v f i] are those of the faces meeting vertex [i]
    (SpecNormals.v); [reachable_pattern] are the index patterns left by earlier requests.
    Fréchet derivative: for every [eps] the reported change is off by at most [eps * m] for all
    displacements by at most [m] of every vertex, once [m] is small enough. *)
Theorem C165_face_normals : forall v f c, in_range (length v) f -> reachable_pattern c ->
  (forall t, In t f -> face_normal v t <> rzero) ->
  exists u, tri_normals (flat v) f = Ok (flat u) /\ length u = length f /\
  forall eps, 0 < eps -> exists delta, 0 < delta /\
    forall h m, length h = length v -> 0 <= m < delta -> Forall (fun x => rnorm x <= m) h ->
      exists d c' w, tri_normals_dr c (flat v) f (flat h) = Ok (flat d, c') /\
        tri_normals (flat (rowwise radd v h)) f = Ok (flat w) /\ length d = length f /\ length w = length f /\
        forall j, (j < length f)%nat -> rnorm (rsub (rsub (row w j) (row u j)) (row d j)) <= eps * m.
Proof.
  intros v f c H RP NZ. pose proof (reachable_good _ RP) as G. eexists. split; [now apply tri_normals_ok|]. split; [apply map_length|]. intros eps E.
  assert (RN : forall (g : V3 Z -> V3 R) j t, nth_error f j = Some t -> row (map g f) j = g t).
  { intros g j t J. unfold row. apply nth_error_nth. rewrite nth_error_map, J. reflexivity. }
  set (P := fun (j : nat) (dl : R) => forall t, nth_error f j = Some t -> forall h m, length h = length v -> 0 <= m < dl -> Forall (fun x => rnorm x <= m) h ->
     rnorm (rsub (rsub (runit (face_normal (rowwise radd v h) t)) (runit (face_normal v t))) (rapply (rtrans (rblock (face_normal v t))) (lin v h t))) <= eps * m).
  destruct (@uniform (length f) P) as (dl & D & A).
  - intros i d d' Q LE t J h m L M B. apply Q; auto. lra.
  - intros j J. destruct (nth_error f j) as [t|] eqn:T; [|apply nth_error_None in T; lia]. pose proof (nth_error_In _ _ T) as I.
    destruct (@core v [t] eps) as (d & D & Q); auto.
    + intros t' i [<-|[]] Ii. exact (H t i I Ii).
    + cbn [map rvsum]. intros Z. apply (NZ t I). rewrite <- Z. generalize (face_normal v t). intros [x y z]. unfold radd, rzero. cbn [c0 c1 c2]. f_equal; ring.
    + exists d. split; auto. intros t' T' h m L M B. rewrite T in T'. injection T' as <-. specialize (Q h m L ltac:(lra) B ltac:(lra)). cbn [map rvsum] in Q.
      assert (R0 : forall x, radd x rzero = x) by (intros [x y z]; unfold radd, rzero; cbn [c0 c1 c2]; f_equal; ring). rewrite !R0 in Q. exact Q.
  - exists dl. split; auto. intros h m L M B. destruct (tri_dr_ok G H L) as (c' & DR). eexists. exists c'. eexists. split; [exact DR|].
    assert (LR : length (rowwise radd v h) = length v) by (unfold rowwise; rewrite map_length, combine_length; lia).
    split; [apply tri_normals_ok; now rewrite LR|]. split; [apply map_length|]. split; [apply map_length|]. intros j J.
    destruct (nth_error f j) as [t|] eqn:T; [|apply nth_error_None in T; lia]. rewrite !(RN _ j t T). rewrite rblock0_nz by (apply NZ; now apply nth_error_In in T).
    now apply (A j J t T).
Qed.
Print Assumptions C165_face_normals.
(** Vertex normals, wherever the sum of the normals of the faces meeting a vertex is not zero;
    vertices of no face are allowed. *)
Theorem C165_vertex_normals : forall v f c, in_range (length v) f -> reachable_pattern c ->
  (forall i, (i < length v)%nat -> normals_at v f (Z.of_nat i) <> [] -> rvsum (normals_at v f (Z.of_nat i)) <> rzero) ->
  exists u, vert_normals (map fin3 v) f true = Ok (map fin3 u) /\ length u = length v /\
  forall eps, 0 < eps -> exists delta, 0 < delta /\
    forall h m, length h = length v -> 0 <= m < delta -> Forall (fun x => rnorm x <= m) h ->
      exists d c' w, vert_normals_dr c (map fin3 v) f (flat h) = Ok (flat d, c') /\
        vert_normals (map fin3 (rowwise radd v h)) f true = Ok (map fin3 w) /\ length d = length v /\ length w = length v /\
        forall i, (i < length v)%nat -> rnorm (rsub (rsub (row w i) (row u i)) (row d i)) <= eps * m.
Proof.
  intros v f c H RP NZ. pose proof (reachable_good _ RP) as G. eexists. split; [now apply vert_normals_ok|]. split; [now rewrite map_length, seq_length|]. intros eps E.
  assert (RN : forall (g : nat -> V3 R) n i, (i < n)%nat -> row (map g (seq 0 n)) i = g i).
  { intros g n i I. unfold row. rewrite (nth_indep _ _ (g 0%nat)) by now rewrite map_length, seq_length. now rewrite map_nth, seq_nth. }
  set (ts := fun i => at_vertex f (Z.of_nat i)).
  set (P := fun (i : nat) (dl : R) => forall h m, length h = length v -> 0 <= m < dl -> Forall (fun x => rnorm x <= m) h ->
     rnorm (rsub (rsub (runit (rvsum (map (face_normal (rowwise radd v h)) (ts i)))) (runit (rvsum (map (face_normal v) (ts i))))) (rapply (rtrans (rblock0 (rvsum (map (face_normal v) (ts i))))) (rvsum (map (lin v h) (ts i))))) <= eps * m).
  destruct (@uniform (length v) P) as (dl & D & A).
  - intros i d d' Q LE h m L M B. apply Q; auto. lra.
  - intros i I. specialize (NZ i I). rewrite normals_at_map in NZ. fold (ts i) in NZ.
    assert (TI : in_range (length v) (ts i)). { intros t j T J. exact (H t j (at_vertex_in T) J). }
    destruct (ts i) as [|t l] eqn:TS.
    + exists 1. split; [lra|]. intros h m L M B. rewrite TS. cbn [map rvsum]. rewrite rblock0_0.
      assert (Z : rsub (rsub (runit rzero) (runit rzero)) rzero = rzero) by (generalize (runit rzero); intros [x y z]; unfold rsub, rzero; cbn [c0 c1 c2]; f_equal; ring).
      rewrite Z. replace (rnorm rzero) with 0 by (symmetry; now apply rnorm_0). apply Rmult_le_pos; lra.
    + assert (N : rvsum (map (face_normal v) (ts i)) <> rzero) by (rewrite TS; apply NZ; discriminate). rewrite <- TS in TI.
      destruct (@core v (ts i) eps TI N E) as (d & D & Q). exists d. split; auto. intros h m L M B. rewrite rblock0_nz by exact N. apply Q; auto; lra.
  - exists dl. split; auto. intros h m L M B. destruct (vert_dr_ok G H L) as (c' & DR). eexists. exists c'. eexists. split; [exact DR|].
    assert (LR : length (rowwise radd v h) = length v) by (unfold rowwise; rewrite map_length, combine_length; lia).
    split; [apply vert_normals_ok; now rewrite LR|]. rewrite LR. split; [now rewrite map_length, seq_length|]. split; [now rewrite map_length, seq_length|]. intros i I.
    rewrite !RN by exact I. rewrite !normals_at_map. exact (A i I h m L M B).
Qed.
Print Assumptions C165_vertex_normals.
(** a triangle and a vertex of no face *)
Example C165_example : let v := [mk3 0 0 0; mk3 2 0 0; mk3 0 2 0; mk3 5 5 5] in let f := [mk3 0 1 2]%Z in
  in_range (length v) f /\ reachable_pattern None /\ (forall t, In t f -> face_normal v t <> rzero) /\
  (forall i, (i < length v)%nat -> normals_at v f (Z.of_nat i) <> [] -> rvsum (normals_at v f (Z.of_nat i)) <> rzero).
Proof.
  cbv zeta. split; [intros t i [<-|[]] Hi; cbn in Hi; cbn; lia|]. split; [constructor|].
  assert (N : face_normal [mk3 0 0 0; mk3 2 0 0; mk3 0 2 0; mk3 5 5 5] (mk3 0 1 2)%Z = mk3 0 0 4).
  { unfold face_normal, vertex, rcross, rsub, rzero. cbn [c0 c1 c2]. change (Z.to_nat 1) with 1%nat. change (Z.to_nat 2) with 2%nat. cbn. f_equal; lra. }
  split.
  - intros t [<-|[]]. rewrite N. intros Q. apply (f_equal c2) in Q. cbn in Q. lra.
  - assert (S : radd (mk3 0 0 4) rzero <> rzero) by (intros Q; apply (f_equal c2) in Q; cbn in Q; lra).
    intros [|[|[|[|i]]]] I NE; cbn [length] in I; try lia.
    + unfold normals_at. cbn [flat_map app filter c0 c1 c2 map Z.of_nat Z.eqb Pos.eqb Pos.of_succ_nat rvsum]. rewrite N. exact S.
    + unfold normals_at. cbn [flat_map app filter c0 c1 c2 map Z.of_nat Z.eqb Pos.eqb Pos.of_succ_nat rvsum]. rewrite N. exact S.
    + unfold normals_at. cbn [flat_map app filter c0 c1 c2 map Z.of_nat Z.eqb Pos.eqb Pos.of_succ_nat Pos.succ rvsum]. rewrite N. exact S.
    + exfalso. apply NE. reflexivity.
Qed.
