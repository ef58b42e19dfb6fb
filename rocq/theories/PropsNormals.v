(** * Properties C65-C68, C75, C76: the normals nodes of the optimiser. *)
From Coq Require Import Reals ZArith List Bool Lra Lia.
From Verif Require Import Num XLemmas Vec RVec VLemmas SpecGeom NpList MNormals SpecNormals PNormals PNormals2 PNormals3 PNormals4 PNormals5.
Import ListNotations.
Local Open Scope R_scope.

(** ** C65.  The index pattern kept by a CrossProduct node after any sequence of
    Jacobian requests, for inputs of any sizes. *)
Inductive reachable_pattern : pattern -> Prop :=
| rp_new : reachable_pattern None
| rp_step : forall c a b w (J : sparse xr) c', reachable_pattern c -> cross_dr c a b w = Ok (J, c') -> reachable_pattern c'.
Lemma reachable_good c : reachable_pattern c -> good_pattern c.
Proof. induction 1 as [|c a b w J c' _ IH E]; [exact I|]. exact (cross_dr_good IH E). Qed.
(** The value is the row-wise cross product; each Jacobian, applied to a displacement
    of its argument, gives exactly the change of the value. *)
Theorem C65_cross_product : forall c a b h, reachable_pattern c -> length a = length b -> length h = length a ->
  cross_value (flat a) (flat b) = Ok (flat (rowwise rcross a b)) /\
  (exists J c' d, cross_dr c (flat a) (flat b) true = Ok (J, c') /\ sp_dot J (flat h) = Ok (flat d) /\
     cross_value (flat (rowwise radd a h)) (flat b) = Ok (flat (rowwise radd (rowwise rcross a b) d))) /\
  (exists J c' d, cross_dr c (flat a) (flat b) false = Ok (J, c') /\ sp_dot J (flat h) = Ok (flat d) /\
     cross_value (flat a) (flat (rowwise radd b h)) = Ok (flat (rowwise radd (rowwise rcross a b) d))).
Proof.
  intros c a b h R L H. apply reachable_good in R. split; [now apply cross_value_ok|]. split.
  - destruct (@cross_dr_a c a b h R L H) as (J & c' & E & D). exists J, c', (rowwise rcross h b). split; [auto|]. split; [auto|].
    rewrite cross_value_ok by (unfold rowwise; rewrite map_length, combine_length; lia). do 2 f_equal. clear. revert b h. induction a as [|x a IH]; intros [|y b] [|z h]; try reflexivity.
    cbn. f_equal; [|apply IH]. unfold rcross, radd. cbn [c0 c1 c2]. f_equal; ring.
  - destruct (@cross_dr_b c a b h R L H) as (J & c' & E & D). exists J, c', (rowwise rcross a h). split; [auto|]. split; [auto|].
    rewrite cross_value_ok by (unfold rowwise; rewrite map_length, combine_length; lia). do 2 f_equal. clear. revert b h. induction a as [|x a IH]; intros [|y b] [|z h]; try reflexivity.
    cbn. f_equal; [|apply IH]. unfold rcross, radd. cbn [c0 c1 c2]. f_equal; ring.
Qed.
Print Assumptions C65_cross_product.
Example C65_example : reachable_pattern None /\ cross_value (flat [mk3 1 2 3]) (flat [mk3 4 5 6]) = Ok (flat [mk3 (-3) 6 (-3)]).
Proof. split; [constructor|]. rewrite cross_value_ok by reflexivity. do 2 f_equal. unfold rowwise, rcross. cbn. repeat (f_equal; try lra). Qed.

(** ** C66.  At a stack of non-zero rows, the reported Jacobian is the derivative of
    the normalised stack, row by row and for the whole stack at once. *)
Lemma small_rows (v : list (V3 R)) eps : Forall (fun p => p <> rzero) v -> 0 < eps ->
  exists delta, 0 < delta /\ Forall (fun p => delta < rnorm p /\ 4 / (rnorm p * rnorm p) * delta <= eps) v.
Proof.
  intros H E. induction H as [|p v NP _ (d & D & IH)]; [exists 1; split; [lra|constructor]|]. pose proof (rnorm_gt0 _ NP) as P.
  set (n := rnorm p) in *. assert (Q : 0 < n * n) by now apply Rmult_lt_0_compat. assert (Q4 : 0 < 4 / (n * n)) by (apply Rdiv_lt_0_compat; lra).
  set (d' := Rmin d (Rmin (n / 2) (eps * (n * n) / 4))).
  assert (A1 : d' <= d) by apply Rmin_l. assert (A2 : d' <= n / 2) by (eapply Rle_trans; [apply Rmin_r|apply Rmin_l]).
  assert (A3 : d' <= eps * (n * n) / 4) by (eapply Rle_trans; [apply Rmin_r|apply Rmin_r]).
  assert (D' : 0 < d'). { apply Rmin_glb_lt; auto. apply Rmin_glb_lt; [lra|]. apply Rdiv_lt_0_compat; [apply Rmult_lt_0_compat|]; lra. }
  exists d'. split; auto. constructor.
  - split; [fold n; lra|]. fold n. apply Rle_trans with (4 / (n * n) * (eps * (n * n) / 4)); [apply Rmult_le_compat_l; lra|]. right. field. lra.
  - eapply Forall_impl; [|exact IH]. cbn. intros q [B1 B2]. split; [lra|]. eapply Rle_trans; [|exact B2]. apply Rmult_le_compat_l; [|lra].
    assert (0 < rnorm q) by lra. apply Rlt_le, Rdiv_lt_0_compat; [lra|]. now apply Rmult_lt_0_compat.
Qed.
Lemma row_rowwise op a b i : (i < length a)%nat -> (i < length b)%nat -> row (rowwise op a b) i = op (row a i) (row b i).
Proof.
  unfold row, rowwise. revert b i. induction a as [|x a IH]; intros [|y b] [|i] A B; cbn in *; try lia; auto. apply IH; lia.
Qed.
Theorem C66_normalized_derivative : forall v, Forall (fun p => p <> rzero) v ->
  normalized_value (flat v) = Ok (flat (map runit v)) /\
  exists J, normalized_dr (flat v) = Ok J /\
    forall eps, 0 < eps -> exists delta, 0 < delta /\
      forall h, length h = length v -> Forall (fun x => rnorm x < delta) h ->
        exists d w, sp_dot J (flat h) = Ok (flat d) /\ normalized_value (flat (rowwise radd v h)) = Ok (flat w) /\
          length d = length v /\ length w = length v /\
          forall i, (i < length v)%nat ->
            rnorm (rsub (rsub (row w i) (runit (row v i))) (row d i)) <= eps * rnorm (row h i).
Proof.
  intros v H. split; [now apply normalized_ok|]. destruct (@normalized_dr_fin v H) as (J & E & D). exists J. split; auto. intros eps He.
  destruct (@small_rows v eps H He) as (delta & Hd & S). exists delta. split; auto. intros h L Hh.
  exists (rowwise (fun p x => rapply (rtrans (rblock p)) x) v h), (map runit (rowwise radd v h)). split; [auto|]. split; [apply normalized_any|].
  assert (LR : forall op, length (rowwise op v h) = length v) by (intros; unfold rowwise; rewrite map_length, combine_length; lia).
  split; [apply LR|]. split; [rewrite map_length; apply LR|]. intros i I. rewrite row_rowwise by lia.
  assert (W : row (map runit (rowwise radd v h)) i = runit (radd (row v i) (row h i))).
  { rewrite <- row_rowwise by lia. unfold row. rewrite (nth_indep _ _ (runit rzero)) by (rewrite map_length, LR; lia). apply map_nth. }
  rewrite W. rewrite Forall_forall in H, S, Hh. assert (Iv : In (row v i) v) by now apply nth_In. assert (Ih : In (row h i) h) by (apply nth_In; lia).
  specialize (H _ Iv). specialize (S _ Iv). specialize (Hh _ Ih). destruct S as [S1 S2]. eapply Rle_trans; [apply runit_remainder; [auto|lra]|].
  pose proof (rnorm_pos (row h i)) as P. rewrite <- Rmult_assoc. apply Rmult_le_compat_r; auto. eapply Rle_trans; [|exact S2].
  apply Rmult_le_compat_l; [|lra]. pose proof (rnorm_gt0 _ H). apply Rlt_le, Rdiv_lt_0_compat; [lra|]. now apply Rmult_lt_0_compat.
Qed.
Print Assumptions C66_normalized_derivative.
(** The value at any stack: non-zero rows get length 1, zero rows stay zero. *)
Theorem C66_value : forall v, exists w, normalized_value (flat v) = Ok (flat w) /\ length w = length v /\
  forall i, (i < length v)%nat -> (row v i = rzero -> row w i = rzero) /\
    (row v i <> rzero -> rnorm (row w i) = 1 /\ rscale (rnorm (row v i)) (row w i) = row v i).
Proof.
  intros v. exists (map runit v). split; [apply normalized_any|]. split; [apply map_length|]. intros i I.
  assert (W : row (map runit v) i = runit (row v i)) by (unfold row; rewrite (nth_indep _ _ (runit rzero)) by (rewrite map_length; lia); apply map_nth).
  rewrite W. split; intros Z; [rewrite Z; apply rscale_zero|]. pose proof (rnorm_gt0 _ Z) as P. unfold runit. split.
  - rewrite rnorm_scale, Rabs_pos_eq; [field; lra|]. now apply Rlt_le, Rinv_0_lt_compat.
  - rewrite rscale_scale, Rinv_r, rscale_1 by lra. reflexivity.
Qed.
Print Assumptions C66_value.
Example C66_example : Forall (fun p : V3 R => p <> rzero) [mk3 3 0 4; mk3 0 1 0].
Proof. repeat constructor; intros E; injection E; lra. Qed.

(** ** C67.  The Jacobian maps any displacement of the vertices to the resulting
    displacement of the edges. *)
Theorem C67_edges_derivative : forall v f k m, in_range (length v) f -> (k < 3)%nat -> (m < 3)%nat ->
  exists e J, edges_for (flat v) f (Z.of_nat k) (Z.of_nat m) = Ok (flat e) /\
    e = map (fun t => rsub (vertex v (corner_of t k)) (vertex v (corner_of t m))) f /\
    edges_dr (flat v) f (Z.of_nat k) (Z.of_nat m) = Ok J /\
    forall h, length h = length v -> exists d, sp_dot J (flat h) = Ok (flat d) /\ length d = length f /\
      edges_for (flat (rowwise radd v h)) f (Z.of_nat k) (Z.of_nat m) = Ok (flat (rowwise radd e d)).
Proof.
  intros v f k m H K M. pose proof (@edges_ok v f k m H K M) as E. destruct (@edges_dr_ok v f k m H K M) as (J & EJ & _ & D).
  eexists. exists J. split; [exact E|]. split; [reflexivity|]. split; [exact EJ|]. intros h L. eexists. split; [apply D, L|]. split; [apply map_length|].
  assert (LR : length (rowwise radd v h) = length v) by (unfold rowwise; rewrite map_length, combine_length; lia).
  rewrite edges_ok by (rewrite ?LR; auto). do 2 f_equal. clear E EJ D.
  assert (V : forall t j, In t f -> (j < 3)%nat -> vertex (rowwise radd v h) (corner j t) = radd (vertex v (corner j t)) (vertex h (corner j t))).
  { intros t j I J3. specialize (H t (corner j t) I (corner_in t J3)). apply row_rowwise; lia. }
  clear H. induction f as [|t f IH]; [reflexivity|]. unfold rowwise in *. cbn [map combine fst snd]. match goal with |- ?a :: ?b = ?c :: ?d => assert (Q1 : a = c); [|assert (Q2 : b = d); [|congruence]] end; [|apply IH; intros t' j I J3; apply V; [now right|auto]].
  rewrite !V by (auto; now left). unfold rsub, radd. cbn [c0 c1 c2]. f_equal; ring.
Qed.
Print Assumptions C67_edges_derivative.
Example C67_example : in_range (length [mk3 0 0 0; mk3 1 0 0; mk3 0 1 0]) [mk3 0%Z 1%Z 2%Z] /\ in_range 4 [mk3 0 1 2; mk3 2 1 3]%Z.
Proof. split; intros t i [<-|[]] Hi + intros t i [<-|[<-|[]]] Hi; cbn in Hi; cbn; lia. Qed.

(** ** C134.  REFUTED: a change of [normalized] after a read has no effect, whatever
    the mesh. *)
Theorem C134_normalized_ignored : forall (v : list (V3 xr)) f n b a, vert_normals v f n = Ok a ->
  snd (run (new_node v f (Some n)) [Read; SetNormalized b; Read]) = [Ok a; Ok a].
Proof. intros v f n b a. apply normalized_ignored. Qed.
Print Assumptions C134_normalized_ignored.
Lemma two_lengths : exists v0 f0 a0 a1, in_range (length v0) f0 /\ vert_normals (map fin3 v0) f0 true = Ok a0 /\ vert_normals (map fin3 v0) f0 false = Ok a1 /\ a0 <> a1.
Proof.
  exists [mk3 0 0 0; mk3 2 0 0; mk3 0 2 0], [mk3 0 1 2]%Z. 
  assert (IR : in_range 3 [mk3 0 1 2]%Z) by (intros t i [<-|[]] Hi; cbn in Hi; cbn; lia).
  eexists. eexists. split; [exact IR|]. split; [now apply vert_normals_ok|]. split; [now apply vert_scaled_ok|].
  assert (S : rvsum (normals_at [mk3 0 0 0; mk3 2 0 0; mk3 0 2 0] [mk3 0 1 2]%Z 0) = mk3 0 0 4).
  { cbn. unfold radd, face_normal, vertex, rcross, rsub, rzero. cbn [c0 c1 c2]. change (Z.to_nat 1) with 1%nat. change (Z.to_nat 2) with 2%nat. cbn. f_equal; lra. }
  assert (NC : length (normals_at [mk3 0 0 0; mk3 2 0 0; mk3 0 2 0] [mk3 0 1 2]%Z 0) = 1%nat) by reflexivity.
  assert (RN : rnorm (mk3 0 0 4) = 4). { unfold rnorm, rdot. cbn [c0 c1 c2]. replace (0 * 0 + 0 * 0 + 4 * 4) with (4 * 4) by ring. apply sqrt_square. lra. }
  intros Q. apply (f_equal (fun l => match l with p :: _ => c2 p | [] => NaN end)) in Q. unfold means in Q. cbn [length seq map] in Q. change (Z.of_nat 0) with 0%Z in Q. rewrite S, NC in Q.
  cbn [INR] in Q. rewrite Rinv_1, rscale_1 in Q. unfold sqrt_length in Q. rewrite RN in Q. destruct (Req_EM_T 4 0) as [Z|_]; [lra|]. unfold runit in Q. rewrite RN in Q.
  replace (sqrt 4) with 2 in Q by (symmetry; replace 4 with (2 * 2) by ring; apply sqrt_square; lra). cbn in Q. injection Q as Q. lra.
Qed.
Theorem C134_refuted : exists v f es, in_range (length v) f /\
  snd (run (new_node (map fin3 v) f (Some true)) (map ev es)) <> fresh_reads vert_normals (map fin3 v) f true es.
Proof.
  destruct two_lengths as (v & f & a0 & a1 & R & E0 & E1 & NE). exists v, f, [ReadValue; ChangeNormalized false; ReadValue]. split; auto.
  cbn [map ev fresh_reads]. rewrite (C134_normalized_ignored _ _ _ _ _ E0), E0, E1. congruence.
Qed.
Print Assumptions C134_refuted.
(** ** C68.  For every history of changes and reads in which [normalized] takes another value
    after the first read only together with a change of [f]: each read returns what a
    new node with the inputs of the moment returns, exceptions included.
    Histories that change [normalized] alone are C134. *)
Theorem C68_refresh : forall (v : list (V3 xr)) f n es,
  with_f (match n with Some b => b | None => true end) false false false es = true ->
  snd (run (new_node v f n) (map ev es)) = fresh_reads vert_normals v f (match n with Some b => b | None => true end) es.
Proof. intros v f n es W. exact (@run_fresh xr _ es (new_node v f n) false false false (inv_new v f n) W). Qed.
Print Assumptions C68_refresh.
(** in particular: any history that leaves [normalized] alone *)
Theorem C68_v_and_f : forall (v : list (V3 xr)) f n es, (forall b, ~ In (ChangeNormalized b) es) ->
  snd (run (new_node v f n) (map ev es)) = fresh_reads vert_normals v f (match n with Some b => b | None => true end) es.
Proof.
  intros v f n es H. apply C68_refresh. generalize (match n with Some b => b | None => true end). intros b. revert H. generalize false at 1 as rd. generalize false at 1 as fs. clear.
  induction es as [|[v|f|c|] es IH]; intros fs rd H; cbn [with_f]; auto.
  - apply IH. intros c I. apply (H c). now right.
  - apply IH. intros c I. apply (H c). now right.
  - destruct (H c). now left.
  - rewrite orb_true_r. apply IH. intros c I. apply (H c). now right.
Qed.
Print Assumptions C68_v_and_f.
Example C68_example : with_f true false false false
  [ReadValue; ChangeV [mk3 (Fin 1) (Fin 2) (Fin 3)]; ReadValue; ChangeNormalized false; ChangeF [mk3 0 0 0]%Z; ReadValue; ReadValue] = true.
Proof. reflexivity. Qed.

(** ** C75.  The values of the normals nodes. *)
Theorem C75_face_normals : forall v f, in_range (length v) f ->
  tri_normals_scaled (flat v) f = Ok (flat (map (face_normal v) f)) /\
  tri_normals (flat v) f = Ok (flat (map (fun t => runit (face_normal v t)) f)).
Proof. intros v f H. split; [now apply tri_scaled_ok|now apply tri_normals_ok]. Qed.
Print Assumptions C75_face_normals.
(** vertex normals: the direction of the sum of the (area-weighted) normals of the faces
    meeting the vertex; zero if that sum is zero or there are none *)
Theorem C75_vertex_normals : forall v f, in_range (length v) f ->
  exists w, vert_normals (map fin3 v) f true = Ok (map fin3 w) /\ length w = length v /\
    forall i, (i < length v)%nat -> let s := rvsum (normals_at v f (Z.of_nat i)) in
      (s = rzero -> row w i = rzero) /\ (s <> rzero -> rnorm (row w i) = 1 /\ rscale (rnorm s) (row w i) = s).
Proof.
  intros v f H. eexists. split; [now apply vert_normals_ok|]. split; [now rewrite map_length, seq_length|]. intros i I. cbv zeta.
  set (g := fun w => runit (rvsum (normals_at v f (Z.of_nat w)))).
  assert (W : row (map g (seq 0 (length v))) i = g i).
  { unfold row. rewrite (nth_indep _ _ (g 0%nat)) by now rewrite map_length, seq_length. rewrite map_nth, seq_nth by auto. reflexivity. }
  rewrite W. unfold g, runit. split; intros Z; [rewrite Z; apply rscale_zero|]. pose proof (rnorm_gt0 _ Z) as P. split.
  - rewrite rnorm_scale, Rabs_pos_eq; [field; lra|]. now apply Rlt_le, Rinv_0_lt_compat.
  - rewrite rscale_scale, Rinv_r, rscale_1 by lra. reflexivity.
Qed.
Print Assumptions C75_vertex_normals.
(** not normalised: along the mean of the normals of the faces, with the square root of
    its length; not a number where that mean is zero or there are no faces *)
Theorem C75_vertex_normals_scaled : forall v f, in_range (length v) f ->
  exists w, vert_normals (map fin3 v) f false = Ok w /\ length w = length v /\
    forall i p, nth_error w i = Some p ->
      let ns := normals_at v f (Z.of_nat i) in let m := rscale (/ INR (length ns)) (rvsum ns) in
      (m = rzero -> p = mk3 NaN NaN NaN) /\
      (m <> rzero -> exists q, p = fin3 q /\ rnorm q * rnorm q = rnorm m /\ rscale (rnorm q) q = m).
Proof.
  intros v f H. eexists. split; [now apply vert_scaled_ok|]. split; [unfold means; now rewrite !map_length, seq_length|]. intros i p E. cbv zeta.
  unfold means in E. rewrite !map_map in E. rewrite nth_error_map in E. destruct (nth_error (seq 0 (length v)) i) as [j|] eqn:J; [|discriminate E]. injection E as <-.
  assert (JI : j = i). { apply nth_error_nth with (d := 0%nat) in J as J'. assert (i < length (seq 0 (length v)))%nat by (apply nth_error_Some; congruence). rewrite seq_length in *. rewrite seq_nth in J' by auto. auto. }
  subst j. set (m := rscale _ _). unfold sqrt_length. split; intros Z.
  - destruct (Req_EM_T (rnorm m) 0) as [_|N]; [reflexivity|]. exfalso. apply N. rewrite Z. unfold rnorm, rdot, rzero. cbn [c0 c1 c2]. replace (0 * 0 + 0 * 0 + 0 * 0) with 0 by ring. apply sqrt_0.
  - pose proof (rnorm_gt0 _ Z) as P. destruct (Req_EM_T (rnorm m) 0) as [N|_]; [lra|]. pose proof (sqrt_lt_R0 _ P) as SP. pose proof (sqrt_def (rnorm m) (Rlt_le _ _ P)) as SD.
    exists (rscale (/ sqrt (rnorm m)) m). split; [reflexivity|].
    assert (RQ : rnorm (rscale (/ sqrt (rnorm m)) m) = sqrt (rnorm m)).
    { rewrite rnorm_scale, Rabs_pos_eq by now apply Rlt_le, Rinv_0_lt_compat. rewrite <- SD at 2. field. lra. }
    rewrite RQ. split; [exact SD|]. rewrite rscale_scale, Rinv_r, rscale_1 by lra. reflexivity.
Qed.
Print Assumptions C75_vertex_normals_scaled.
(** a face naming a vertex that does not exist is refused *)
Theorem C75_bad_face : forall (v : list (V3 xr)) f n, ~ in_range (length v) f -> vert_normals v f n = Err ValueError.
Proof.
  intros v f n H. unfold vert_normals, faces_by_vertex, coo. cbv zeta.
  assert (X : exists t i, In t f /\ In i [c0 t; c1 t; c2 t] /\ ((i < 0)%Z \/ (Z.of_nat (length v) <= i)%Z)).
  { clear n. induction f as [|t f IH]; [destruct H; intros t i []|].
    assert (D : forall i, {(0 <= i < Z.of_nat (length v))%Z} + {(i < 0)%Z \/ (Z.of_nat (length v) <= i)%Z}).
    { intros i. destruct (Z_lt_le_dec i 0); [right; auto|]. destruct (Z_lt_le_dec i (Z.of_nat (length v))); [left; lia|right; auto]. }
    destruct (D (c0 t)) as [D0|D0]; [|exists t, (c0 t); split; [now left|split; [cbn; auto|exact D0]]]. destruct (D (c1 t)) as [D1|D1]; [|exists t, (c1 t); split; [now left|split; [cbn; auto|exact D1]]]. destruct (D (c2 t)) as [D2|D2]; [|exists t, (c2 t); split; [now left|split; [cbn; auto|exact D2]]].
    enough (NR : ~ in_range (length v) f) by (destruct (IH NR) as (t' & i & I1 & I2 & I3); exists t', i; split; [now right|auto]). intros G. apply H. intros t' i [<-|It] Ii; [|now apply (G t')]. destruct Ii as [<-|[<-|[<-|[]]]]; assumption. }
  destruct X as (t & i & It & Ii & B).
  assert (M : In i (ravel3 f)) by (apply in_flat_map; eauto).
  assert (E : existsb (fun k => (k <? 0)%Z || (Z.of_nat (3 * length v) <=? k)%Z) (map (fun i => (i * 3 + 0)%Z) (ravel3 f)) = true).
  { apply existsb_exists. exists (i * 3 + 0)%Z. split; [apply (in_map (fun i => (i * 3 + 0)%Z)), M|]. apply orb_true_iff. rewrite Z.ltb_lt, Z.leb_le. lia. }
  rewrite existsb_app, E. reflexivity.
Qed.
Print Assumptions C75_bad_face.
Example C75_example : in_range (length [mk3 0 0 0; mk3 2 0 0; mk3 0 2 0]) [mk3 0 1 2]%Z /\
  rvsum (normals_at [mk3 0 0 0; mk3 2 0 0; mk3 0 2 0] [mk3 0 1 2]%Z 1) = mk3 0 0 4 /\ ~ in_range 3 [mk3 0 1 3]%Z.
Proof.
  split; [intros t i [<-|[]] Hi; cbn in Hi; cbn; lia|]. split; [cbn; unfold radd, face_normal, vertex, rcross, rsub, rzero; cbn [c0 c1 c2]; change (Z.to_nat 1) with 1%nat; change (Z.to_nat 2) with 2%nat; cbn; f_equal; lra|].
  intros G. specialize (G _ 3%Z (or_introl eq_refl)). cbn in G. lia.
Qed.

(** ** C76.  Chain rule for the unnormalised face normals: the Jacobians of the two edge
    nodes and of the cross product, composed, miss the change of the value by exactly the
    normals spanned by the displacement itself, a quantity of second order. *)
Theorem C76_face_normals_derivative : forall v f h c, in_range (length v) f -> length h = length v -> reachable_pattern c ->
  exists e1 e2 E1 E2 Ja Jb p1 p2 d1 d2 ra rb,
    edges_for (flat v) f 1 0 = Ok e1 /\ edges_for (flat v) f 2 0 = Ok e2 /\
    edges_dr (flat v) f 1 0 = Ok E1 /\ edges_dr (flat v) f 2 0 = Ok E2 /\
    cross_dr c e1 e2 true = Ok (Ja, p1) /\ cross_dr p1 e1 e2 false = Ok (Jb, p2) /\
    sp_dot E1 (flat h) = Ok d1 /\ sp_dot E2 (flat h) = Ok d2 /\
    sp_dot Ja d1 = Ok (flat ra) /\ sp_dot Jb d2 = Ok (flat rb) /\
    tri_normals_scaled (flat v) f = Ok (flat (map (face_normal v) f)) /\
    tri_normals_scaled (flat (rowwise radd v h)) f =
      Ok (flat (rowwise radd (map (face_normal v) f) (rowwise radd (rowwise radd ra rb) (map (face_normal h) f)))) /\
    forall delta, Forall (fun x => rnorm x <= delta) h -> Forall (fun t => rnorm (face_normal h t) <= 4 * (delta * delta)) f.
Proof.
  intros v f h c H L R. pose proof (reachable_good _ R) as G.
  pose proof (@edges_ok v f 1 0 H ltac:(lia) ltac:(lia)) as E1. pose proof (@edges_ok v f 2 0 H ltac:(lia) ltac:(lia)) as E2.
  destruct (@edges_dr_ok v f 1 0 H ltac:(lia) ltac:(lia)) as (J1 & D1 & _ & A1). destruct (@edges_dr_ok v f 2 0 H ltac:(lia) ltac:(lia)) as (J2 & D2 & _ & A2).
  specialize (A1 h L). specialize (A2 h L).
  change (Z.of_nat 1) with 1%Z in *. change (Z.of_nat 2) with 2%Z in *. change (Z.of_nat 0) with 0%Z in *.
  set (e1 := map (fun t => rsub (vertex v (corner 1 t)) (vertex v (corner 0 t))) f) in *. set (e2 := map (fun t => rsub (vertex v (corner 2 t)) (vertex v (corner 0 t))) f) in *.
  set (d1 := map (fun t => rsub (vertex h (corner 1 t)) (vertex h (corner 0 t))) f) in *. set (d2 := map (fun t => rsub (vertex h (corner 2 t)) (vertex h (corner 0 t))) f) in *.
  destruct (@cross_dr_a c e1 e2 d1 G ltac:(now unfold e1, e2; rewrite !map_length) ltac:(now unfold e1, d1; rewrite !map_length)) as (Ja & p1 & X1 & Y1).
  assert (G1 : good_pattern p1) by exact (cross_dr_good G X1).
  destruct (@cross_dr_b p1 e1 e2 d2 G1 ltac:(now unfold e1, e2; rewrite !map_length) ltac:(now unfold e1, d2; rewrite !map_length)) as (Jb & p2 & X2 & Y2).
  exists (flat e1), (flat e2), J1, J2, Ja, Jb, p1, p2, (flat d1), (flat d2), (rowwise rcross d1 e2), (rowwise rcross e1 d2).
  do 10 (split; [assumption|]). split; [now apply tri_scaled_ok|]. split.
  - assert (LR : length (rowwise radd v h) = length v) by (unfold rowwise; rewrite map_length, combine_length; lia).
    rewrite tri_scaled_ok by now rewrite LR. do 2 f_equal. unfold e1, e2, d1, d2. clear E1 E2 D1 D2 A1 A2 X1 X2 Y1 Y2 e1 e2 d1 d2.
    assert (V : forall t i, In t f -> In i [c0 t; c1 t; c2 t] -> vertex (rowwise radd v h) i = radd (vertex v i) (vertex h i)).
    { intros t i It Ii. specialize (H t i It Ii). apply row_rowwise; lia. }
    clear H. induction f as [|t f IH]; [reflexivity|]. unfold rowwise in *. cbn [map combine fst snd].
    match goal with |- ?a :: ?b = ?c :: ?d => assert (Q1 : a = c); [|assert (Q2 : b = d); [|congruence]] end; [|apply IH; intros t' i It Ii; apply (V t'); [now right|auto]].
    unfold face_normal, corner. cbn [nth]. rewrite !(V t) by (cbn; auto). generalize (vertex v (c0 t)) (vertex v (c1 t)) (vertex v (c2 t)) (vertex h (c0 t)) (vertex h (c1 t)) (vertex h (c2 t)).
    intros a b d a' b' d'. unfold rcross, rsub, radd. cbn [c0 c1 c2]. f_equal; ring.
  - intros delta B. apply Forall_forall. intros t It. rewrite Forall_forall in B.
    assert (VB : forall i, In i [c0 t; c1 t; c2 t] -> rnorm (vertex h i) <= delta). { intros i Ii. specialize (H t i It Ii). apply B, nth_In. lia. }
    assert (SB : forall i j, In i [c0 t; c1 t; c2 t] -> In j [c0 t; c1 t; c2 t] -> rnorm (rsub (vertex h i) (vertex h j)) <= 2 * delta).
    { intros i j Ii Ij. replace (rsub (vertex h i) (vertex h j)) with (radd (vertex h i) (rscale (-1) (vertex h j))) by (unfold rsub, radd, rscale; cbn [c0 c1 c2]; f_equal; ring).
      eapply Rle_trans; [apply rnorm_tri|]. rewrite rnorm_scale. replace (Rabs (-1)) with 1 by (rewrite Rabs_left; lra). specialize (VB i Ii) as V1. specialize (VB j Ij) as V2. lra. }
    unfold face_normal. set (a := rsub _ _). set (b := rsub (vertex h (c2 t)) _).
    assert (Pa : rnorm a <= 2 * delta) by (apply SB; cbn; auto). assert (Pb : rnorm b <= 2 * delta) by (apply SB; cbn; auto).
    pose proof (rnorm_pos a). pose proof (rnorm_pos b).
    assert (C : rnorm (rcross a b) <= rnorm a * rnorm b).
    { apply Rsqr_incr_0_var; [|now apply Rmult_le_pos]. unfold Rsqr. rewrite rnorm_sq, lagrange, <- !rnorm_sq. nra. }
    eapply Rle_trans; [exact C|]. replace (4 * (delta * delta)) with (2 * delta * (2 * delta)) by ring. apply Rmult_le_compat; lra.
Qed.
Print Assumptions C76_face_normals_derivative.
Example C76_example : in_range 3 [mk3 0 1 2]%Z /\ reachable_pattern None /\ length [mk3 0 0 1; mk3 0 0 0; mk3 (1/2) 0 0] = 3%nat.
Proof. split; [intros t i [<-|[]] Hi; cbn in Hi; lia|]. split; [constructor|reflexivity]. Qed.
