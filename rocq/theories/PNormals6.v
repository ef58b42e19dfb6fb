(** * Proofs about the derivatives of the composed normals nodes. *)
From Coq Require Import Reals ZArith List Bool Lra Lia Psatz.
From Flocq Require Import Core.
From Verif Require Import Num XLemmas Vec RVec VLemmas PMat3 SpecGeom PPlane2 NpList MNormals SpecNormals PNormals PNormals2 PNormals3 PNormals4 MNormalsDr.
Import ListNotations.
Local Open Scope R_scope.
Set Implicit Arguments.
Unset Strict Implicit.

(** first-order change of the normal of a face *)
Definition lin (v h : list (V3 R)) (t : V3 Z) : V3 R :=
  radd (rcross (rsub (vertex h (c1 t)) (vertex h (c0 t))) (rsub (vertex v (c2 t)) (vertex v (c0 t))))
       (rcross (rsub (vertex v (c1 t)) (vertex v (c0 t))) (rsub (vertex h (c2 t)) (vertex h (c0 t)))).
Lemma vertex_add v h i : (0 <= i < Z.of_nat (length v))%Z -> length h = length v -> vertex (rowwise radd v h) i = radd (vertex v i) (vertex h i).
Proof.
  intros I L. unfold vertex, rowwise. assert (A : (Z.to_nat i < length v)%nat) by lia. clear I. revert h L A. generalize (Z.to_nat i). clear i.
  induction v as [|x v IH]; intros n [|y h] L A; cbn in *; try lia. destruct n as [|n]; [reflexivity|]. apply IH; lia.
Qed.
Lemma normal_expand v h t : (forall i, In i [c0 t; c1 t; c2 t] -> (0 <= i < Z.of_nat (length v))%Z) -> length h = length v ->
  face_normal (rowwise radd v h) t = radd (face_normal v t) (radd (lin v h t) (face_normal h t)).
Proof.
  intros I L. unfold face_normal, lin. rewrite !vertex_add by (auto; apply I; cbn; auto).
  generalize (vertex v (c0 t)) (vertex v (c1 t)) (vertex v (c2 t)) (vertex h (c0 t)) (vertex h (c1 t)) (vertex h (c2 t)). intros a b c x y z.
  unfold radd, rsub, rcross. cbn [c0 c1 c2]. f_equal; ring.
Qed.
Lemma rcross_le a b : rnorm (rcross a b) <= rnorm a * rnorm b.
Proof.
  pose proof (rnorm_pos a). pose proof (rnorm_pos b). apply Rsqr_incr_0_var; [|now apply Rmult_le_pos]. unfold Rsqr. rewrite rnorm_sq, lagrange, <- !rnorm_sq. nra.
Qed.
Lemma rsub_le a b x y : rnorm a <= x -> rnorm b <= y -> rnorm (rsub a b) <= x + y.
Proof.
  intros A B. replace (rsub a b) with (radd a (rscale (-1) b)) by (unfold rsub, radd, rscale; cbn [c0 c1 c2]; f_equal; ring). eapply Rle_trans; [apply rnorm_tri|].
  rewrite rnorm_scale, Rabs_left by lra. lra.
Qed.
Lemma vertex_bound h m i : 0 <= m -> Forall (fun x => rnorm x <= m) h -> rnorm (vertex h i) <= m.
Proof.
  intros M H. unfold vertex. destruct (Nat.lt_ge_cases (Z.to_nat i) (length h)) as [A|A].
  - rewrite Forall_forall in H. apply H, nth_In, A.
  - rewrite nth_overflow by auto. replace (rnorm rzero) with 0; auto. symmetry. now apply rnorm_0.
Qed.
Definition kfac (v : list (V3 R)) (t : V3 Z) : R := 2 * rnorm (rsub (vertex v (c2 t)) (vertex v (c0 t))) + 2 * rnorm (rsub (vertex v (c1 t)) (vertex v (c0 t))).
Lemma kfac_pos v t : 0 <= kfac v t.
Proof. unfold kfac. pose proof (rnorm_pos (rsub (vertex v (c2 t)) (vertex v (c0 t)))). pose proof (rnorm_pos (rsub (vertex v (c1 t)) (vertex v (c0 t)))). lra. Qed.
Lemma lin_le v h t m : 0 <= m -> Forall (fun x => rnorm x <= m) h -> rnorm (lin v h t) <= kfac v t * m.
Proof.
  intros M H. unfold lin, kfac. eapply Rle_trans; [apply rnorm_tri|].
  set (e1 := rsub (vertex v (c1 t)) _). set (e2 := rsub (vertex v (c2 t)) _).
  assert (B : forall i j, rnorm (rsub (vertex h i) (vertex h j)) <= m + m) by (intros; apply rsub_le; now apply vertex_bound).
  pose proof (rcross_le (rsub (vertex h (c1 t)) (vertex h (c0 t))) e2) as A1. pose proof (rcross_le e1 (rsub (vertex h (c2 t)) (vertex h (c0 t)))) as A2.
  pose proof (B (c1 t) (c0 t)) as B1. pose proof (B (c2 t) (c0 t)) as B2. pose proof (rnorm_pos e1). pose proof (rnorm_pos e2). nra.
Qed.
Lemma quad_le h t m : 0 <= m -> Forall (fun x => rnorm x <= m) h -> rnorm (face_normal h t) <= 4 * (m * m).
Proof.
  intros M H. unfold face_normal. eapply Rle_trans; [apply rcross_le|].
  assert (B : forall i j, rnorm (rsub (vertex h i) (vertex h j)) <= m + m) by (intros; apply rsub_le; now apply vertex_bound).
  pose proof (B (c1 t) (c0 t)) as B1. pose proof (B (c2 t) (c0 t)) as B2. pose proof (rnorm_pos (rsub (vertex h (c1 t)) (vertex h (c0 t)))). pose proof (rnorm_pos (rsub (vertex h (c2 t)) (vertex h (c0 t)))). nra.
Qed.
Lemma sum_le (g : V3 Z -> V3 R) (b : V3 Z -> R) ts : (forall t, rnorm (g t) <= b t) -> rnorm (rvsum (map g ts)) <= rsum (map b ts).
Proof.
  intros H. induction ts as [|t ts IH]; cbn [map rvsum rsum]; [right; now apply rnorm_0|]. eapply Rle_trans; [apply rnorm_tri|]. specialize (H t). lra.
Qed.
Lemma rvsum_add (g k : V3 Z -> V3 R) ts : rvsum (map (fun t => radd (g t) (k t)) ts) = radd (rvsum (map g ts)) (rvsum (map k ts)).
Proof.
  induction ts as [|t ts IH]; cbn [map rvsum]; [unfold radd, rzero; cbn; f_equal; ring|]. rewrite IH. generalize (rvsum (map g ts)) (rvsum (map k ts)) (g t) (k t). intros.
  unfold radd. cbn [c0 c1 c2]. f_equal; ring.
Qed.
Lemma rsum_mul (b : V3 Z -> R) m ts : rsum (map (fun t => b t * m) ts) = rsum (map b ts) * m.
Proof. induction ts as [|t ts IH]; cbn [map rsum]; [ring|]. rewrite IH. ring. Qed.
Lemma rsum_pos (b : V3 Z -> R) ts : (forall t, 0 <= b t) -> 0 <= rsum (map b ts).
Proof. intros H. induction ts as [|t ts IH]; cbn [map rsum]; [lra|]. specialize (H t). lra. Qed.
Lemma block_le p x : p <> rzero -> rnorm (rapply (rtrans (rblock p)) x) <= 2 / rnorm p * rnorm x.
Proof.
  intros H. rewrite rblock_apply by auto. pose proof (rnorm_gt0 _ H) as P. set (n := rnorm p) in *. pose proof (rnorm_pos x) as X. pose proof (cauchy p x) as C. fold n in C.
  replace (2 / n * rnorm x) with (/ n * rnorm x + / n * rnorm x) by (field; lra).
  assert (IN : 0 < / n) by now apply Rinv_0_lt_compat.
  apply rsub_le; rewrite rnorm_scale.
  - rewrite Rabs_pos_eq by lra. lra.
  - fold n. unfold Rdiv. rewrite Rabs_mult. assert (N3 : 0 < n * n * n) by (repeat apply Rmult_lt_0_compat; auto).
    rewrite (Rabs_pos_eq (/ (n * n * n))) by (left; now apply Rinv_0_lt_compat).
    apply Rle_trans with (n * rnorm x * / (n * n * n) * n); [|right; field; lra]. apply Rmult_le_compat_r; [lra|]. apply Rmult_le_compat_r; [left; now apply Rinv_0_lt_compat|exact C].
Qed.
Lemma block_add p x y : rapply (rtrans (rblock p)) (radd x y) = radd (rapply (rtrans (rblock p)) x) (rapply (rtrans (rblock p)) y).
Proof. generalize (rtrans (rblock p)). intros [a b c]. unfold rapply, rdot, radd. cbn [c0 c1 c2]. f_equal; ring. Qed.
(** the direction of a sum of face normals is differentiable where the sum is not zero *)
Lemma core v ts eps : in_range (length v) ts -> rvsum (map (face_normal v) ts) <> rzero -> 0 < eps ->
  exists delta, 0 < delta /\ forall h m, length h = length v -> 0 <= m -> Forall (fun x => rnorm x <= m) h -> m < delta ->
    rnorm (rsub (rsub (runit (rvsum (map (face_normal (rowwise radd v h)) ts))) (runit (rvsum (map (face_normal v) ts))))
                (rapply (rtrans (rblock (rvsum (map (face_normal v) ts)))) (rvsum (map (lin v h) ts)))) <= eps * m.
Proof.
  intros R NZ E. set (p := rvsum (map (face_normal v) ts)) in *. pose proof (rnorm_gt0 _ NZ) as P. set (n := rnorm p) in *.
  set (K := rsum (map (kfac v) ts)). set (Q := rsum (map (fun _ : V3 Z => 4) ts)).
  assert (K0 : 0 <= K) by (apply rsum_pos; intros; apply kfac_pos). assert (Q0 : 0 <= Q) by (apply rsum_pos; intros; lra).
  assert (NN : 0 < n * n) by now apply Rmult_lt_0_compat.
  assert (C4 : 0 < 4 / (n * n)) by (apply Rdiv_lt_0_compat; lra). assert (C2 : 0 < 2 / n) by (apply Rdiv_lt_0_compat; lra).
  set (G := 4 / (n * n) * ((K + Q) * (K + Q)) + 2 / n * Q).
  assert (G0 : 0 <= G). { unfold G. apply Rplus_le_le_0_compat; [apply Rmult_le_pos; [lra|nra]|apply Rmult_le_pos; lra]. }
  set (d := Rmin 1 (Rmin (n / (K + Q + 1)) (eps / (G + 1)))).
  assert (D1 : d <= 1) by apply Rmin_l. assert (D2 : d <= n / (K + Q + 1)) by (eapply Rle_trans; [apply Rmin_r|apply Rmin_l]).
  assert (D3 : d <= eps / (G + 1)) by (eapply Rle_trans; [apply Rmin_r|apply Rmin_r]).
  exists d. split; [apply Rmin_glb_lt; [lra|]; apply Rmin_glb_lt; apply Rdiv_lt_0_compat; lra|].
  intros h m L M H MD.
  assert (X : rvsum (map (face_normal (rowwise radd v h)) ts) = radd p (radd (rvsum (map (lin v h) ts)) (rvsum (map (face_normal h) ts)))).
  { unfold p. rewrite <- !rvsum_add. f_equal. apply map_ext_in. intros t I. apply normal_expand; auto. intros i Ii. exact (R t i I Ii). }
  rewrite X. set (x := rvsum (map (lin v h) ts)). set (y := rvsum (map (face_normal h) ts)).
  assert (XB : rnorm x <= K * m). { unfold x, K. rewrite <- rsum_mul. apply sum_le. intros t. now apply lin_le. }
  assert (YB : rnorm y <= Q * (m * m)). { unfold y, Q. rewrite <- rsum_mul. apply sum_le. intros t. now apply quad_le. }
  assert (MM : m * m <= m) by nra.
  assert (XY : rnorm (radd x y) <= (K + Q) * m). { eapply Rle_trans; [apply rnorm_tri|]. nra. }
  assert (SM : rnorm (radd x y) < n).
  { eapply Rle_lt_trans; [exact XY|]. apply Rle_lt_trans with ((K + Q) * (n / (K + Q + 1))); [apply Rmult_le_compat_l; lra|].
    apply Rmult_lt_reg_r with (K + Q + 1); [lra|]. replace ((K + Q) * (n / (K + Q + 1)) * (K + Q + 1)) with ((K + Q) * n) by (field; lra). nra. }
  pose proof (@runit_remainder p (radd x y) NZ SM) as RR. fold n in RR.
  pose proof (@block_le p y NZ) as BY. fold n in BY.
  rewrite block_add in RR. set (bx := rapply (rtrans (rblock p)) x) in *. set (by_ := rapply (rtrans (rblock p)) y) in *.
  set (u := rsub (runit (radd p (radd x y))) (runit p)) in *.
  replace (rsub u bx) with (radd (rsub u (radd bx by_)) by_) by (destruct u as [u0 u1 u2], bx as [x0 x1 x2], by_ as [y0 y1 y2]; unfold radd, rsub; cbn [c0 c1 c2]; f_equal; ring).
  eapply Rle_trans; [apply rnorm_tri|].
  assert (S1 : rnorm (rsub u (radd bx by_)) <= 4 / (n * n) * ((K + Q) * (K + Q)) * (m * m)).
  { eapply Rle_trans; [exact RR|]. rewrite Rmult_assoc. apply Rmult_le_compat_l; [lra|]. pose proof (rnorm_pos (radd x y)) as XP.
    replace ((K + Q) * (K + Q) * (m * m)) with (((K + Q) * m) * ((K + Q) * m)) by ring. apply Rmult_le_compat; auto. }
  assert (S2 : rnorm by_ <= 2 / n * Q * (m * m)). { eapply Rle_trans; [exact BY|]. rewrite Rmult_assoc. apply Rmult_le_compat_l; lra. }
  assert (T : rnorm (rsub u (radd bx by_)) + rnorm by_ <= G * m * m) by (unfold G; lra). eapply Rle_trans; [exact T|].
  apply Rmult_le_compat_r; auto. apply Rle_trans with (G * (eps / (G + 1))); [apply Rmult_le_compat_l; lra|].
  apply Rmult_le_reg_r with (G + 1); [lra|]. replace (G * (eps / (G + 1)) * (G + 1)) with (G * eps) by (field; lra). nra.
Qed.
(** finitely many at once *)
Lemma uniform n (P : nat -> R -> Prop) : (forall i d d', P i d -> d' <= d -> P i d') -> (forall i, (i < n)%nat -> exists d, 0 < d /\ P i d) ->
  exists d, 0 < d /\ forall i, (i < n)%nat -> P i d.
Proof.
  intros MO. induction n as [|n IH]; intros H; [exists 1; split; [lra|lia]|]. destruct IH as (d & D & A); [intros i I; apply H; lia|]. destruct (H n ltac:(lia)) as (d' & D' & A').
  exists (Rmin d d'). split; [now apply Rmin_glb_lt|]. intros i I. destruct (Nat.eq_dec i n) as [->|NE]; [eapply MO; [exact A'|apply Rmin_r]|]. eapply MO; [apply A; lia|apply Rmin_l].
Qed.

(** ** the model's derivatives *)
Lemma flat_add a b : length a = length b -> map2 nadd (flat a) (flat b) = flat (rowwise radd a b).
Proof.
  unfold flat, rowwise. revert b. induction a as [|x a IH]; intros [|y b] L; try discriminate L; [reflexivity|]. cbn [flat_map app combine map fst snd]. injection L as L.
  unfold map2 in *. cbn [combine map fst snd]. specialize (IH b L). unfold flat_map in IH at 1 2. now rewrite <- IH.
Qed.
Lemma scaled_dr_ok c v f h : good_pattern c -> in_range (length v) f -> length h = length v ->
  exists c', tri_normals_scaled_dr c (flat v) f (flat h) = Ok (flat (map (lin v h) f), c').
Proof.
  intros G H L. unfold tri_normals_scaled_dr.
  pose proof (@edges_ok v f 1 0 H ltac:(lia) ltac:(lia)) as E1. pose proof (@edges_ok v f 2 0 H ltac:(lia) ltac:(lia)) as E2.
  destruct (@edges_dr_ok v f 1 0 H ltac:(lia) ltac:(lia)) as (J1 & D1 & _ & A1). destruct (@edges_dr_ok v f 2 0 H ltac:(lia) ltac:(lia)) as (J2 & D2 & _ & A2).
  specialize (A1 h L). specialize (A2 h L).
  change (Z.of_nat 1) with 1%Z in *. change (Z.of_nat 2) with 2%Z in *. change (Z.of_nat 0) with 0%Z in *.
  rewrite E1, E2, D1, D2. cbn [bindr]. rewrite A1, A2. cbn [bindr].
  set (e1 := map (fun t => rsub (vertex v (corner 1 t)) (vertex v (corner 0 t))) f) in *. set (e2 := map (fun t => rsub (vertex v (corner 2 t)) (vertex v (corner 0 t))) f) in *.
  set (d1 := map (fun t => rsub (vertex h (corner 1 t)) (vertex h (corner 0 t))) f) in *. set (d2 := map (fun t => rsub (vertex h (corner 2 t)) (vertex h (corner 0 t))) f) in *.
  destruct (@cross_dr_a c e1 e2 d1 G ltac:(now unfold e1, e2; rewrite !map_length) ltac:(now unfold e1, d1; rewrite !map_length)) as (Ja & p1 & X1 & Y1).
  assert (G1 : good_pattern p1) by exact (cross_dr_good G X1).
  destruct (@cross_dr_b p1 e1 e2 d2 G1 ltac:(now unfold e1, e2; rewrite !map_length) ltac:(now unfold e1, d2; rewrite !map_length)) as (Jb & p2 & X2 & Y2).
  rewrite X1. cbn [bindr]. rewrite X2. cbn [bindr]. rewrite Y1, Y2. cbn [bindr]. exists p2. do 2 f_equal.
  rewrite flat_add by (unfold rowwise, e1, e2, d1, d2; rewrite !map_length, !combine_length, !map_length; reflexivity). f_equal.
  unfold e1, e2, d1, d2, rowwise. clear. induction f as [|t f IH]; [reflexivity|]. cbn [map combine fst snd]. rewrite IH. reflexivity.
Qed.
(** the block of a row, zero rows included *)
Definition rblock0 (p : V3 R) : M3 R :=
  if Req_EM_T (rnorm p) 0 then let s := / sqrt (1 / 10000000000) in mk3 (mk3 s 0 0) (mk3 0 s 0) (mk3 0 0 s) else rblock p.
Lemma block_fin0 p : normalized_block (fin3 p) = finm (rblock0 p).
Proof.
  unfold rblock0. destruct (Req_EM_T (rnorm p) 0) as [E|E].
  - apply rnorm_0 in E. subst p. unfold normalized_block.
    assert (RS : row_ss (fin3 rzero) = Fin (1 / 10000000000)).
    { unfold row_ss. rewrite fdot. cbv zeta. replace (rdot rzero rzero) with 0 by (unfold rdot, rzero; cbn; ring). change (neqb (Fin 0) n0) with (Req_bool 0 0). rewrite Req_bool_true by reflexivity.
      change (@nlit xr _ 1 10000000000) with (Fin (IZR 1 / IZR 10000000000)). reflexivity. }
    rewrite RS. assert (S : 0 < sqrt (1 / 10000000000)) by (apply sqrt_lt_R0; lra). rewrite xsqrtE by lra. cbv zeta.
    assert (0 < 1 / 10000000000 * sqrt (1 / 10000000000)) by (apply Rmult_lt_0_compat; lra).
    rewrite xofZ, xmul, !xdivE by lra. unfold mouter, vscale, finm, fin3, rzero. unfold map3. cbn [c0 c1 c2]. xs. unfold Rdiv. rewrite !Rmult_1_l. repeat (f_equal; try ring).
  - apply block_fin. intros ->. apply E. now apply rnorm_0.
Qed.
Lemma normalized_dr_any v : exists J, normalized_dr (flat v) = Ok J /\ forall h, length h = length v ->
  sp_dot J (flat h) = Ok (flat (rowwise (fun p x => rapply (rtrans (rblock0 p)) x) v h)).
Proof.
  unfold normalized_dr. rewrite reshape_flat. cbn [bindr]. rewrite flat_length, block_indices_ok. cbn [bindr]. eexists. split; [reflexivity|].
  intros h L. rewrite map_map. rewrite (map_ext _ (fun p => finm (rblock0 p))) by (intros p; apply block_fin0).
  rewrite <- (map_map rblock0 (fun m => finm m)). rewrite <- (map_length rblock0 v). rewrite block_result by (rewrite map_length; congruence). do 2 f_equal.
  unfold rowwise. clear. revert h. induction v as [|p v IH]; intros [|x h]; try reflexivity. cbn [map combine fst snd]. now rewrite IH.
Qed.
Lemma rblock0_nz p : p <> rzero -> rblock0 p = rblock p.
Proof. intros H. unfold rblock0. destruct (Req_EM_T (rnorm p) 0) as [E|E]; [|reflexivity]. apply rnorm_0 in E. contradiction. Qed.
Lemma rblock0_0 p : rapply (rtrans (rblock0 p)) rzero = rzero.
Proof. generalize (rtrans (rblock0 p)). intros [a b c]. unfold rapply, rdot, rzero. cbn [c0 c1 c2]. f_equal; ring. Qed.
Lemma rowwise_map {A} op (g k : A -> V3 R) l : rowwise op (map g l) (map k l) = map (fun x => op (g x) (k x)) l.
Proof. unfold rowwise. induction l as [|x l IH]; [reflexivity|]. cbn [map combine fst snd]. now rewrite IH. Qed.
Theorem tri_dr_ok c v f h : good_pattern c -> in_range (length v) f -> length h = length v ->
  exists c', tri_normals_dr c (flat v) f (flat h) = Ok (flat (map (fun t => rapply (rtrans (rblock0 (face_normal v t))) (lin v h t)) f), c').
Proof.
  intros G H L. unfold tri_normals_dr. rewrite tri_scaled_ok by auto. cbn [bindr]. destruct (normalized_dr_any (map (face_normal v) f)) as (J & -> & D). cbn [bindr].
  destruct (scaled_dr_ok G H L) as (c' & ->). cbn [bindr]. rewrite D by now rewrite !map_length. cbn [bindr]. exists c'. now rewrite rowwise_map.
Qed.
(** the faces at a vertex, once for each corner *)
Definition at_vertex (f : list (V3 Z)) (w : Z) : list (V3 Z) := flat_map (fun t => map (fun _ => t) (filter (Z.eqb w) [c0 t; c1 t; c2 t])) f.
Lemma normals_at_map v f w : normals_at v f w = map (face_normal v) (at_vertex f w).
Proof. unfold normals_at, at_vertex. induction f as [|t f IH]; [reflexivity|]. cbn [flat_map]. rewrite map_app, IH. f_equal. now rewrite map_map. Qed.
Lemma at_vertex_in f w t : In t (at_vertex f w) -> In t f.
Proof. unfold at_vertex. intros I. apply in_flat_map in I. destruct I as (t' & I & J). apply in_map_iff in J. destruct J as (i & <- & _). exact I. Qed.
Lemma vertex_rows_g (g : V3 Z -> V3 R) f w k : nonneg f -> (k < 3)%nat ->
  rowsum (fbv_ents f) (rflat (map g f)) (3 * w + k) = coord (Z.of_nat k) (rvsum (map g (at_vertex f (Z.of_nat w)))).
Proof.
  intros NN K. rewrite fbv_rowsum, isum_faces, coord_rvsum by auto. f_equal. unfold at_vertex.
  set (T := map g f).
  assert (G : forall f' a, (forall j t, nth_error f' j = Some t -> nth (a + j) T rzero = g t) ->
    flat_map (fun tj => map (fun _ => nth (3 * snd tj + k) (rflat T) 0) (filter (Z.eqb (Z.of_nat w)) [c0 (fst tj); c1 (fst tj); c2 (fst tj)])) (combine f' (seq a (length f'))) =
    map (coord (Z.of_nat k)) (map g (flat_map (fun t => map (fun _ => t) (filter (Z.eqb (Z.of_nat w)) [c0 t; c1 t; c2 t])) f'))).
  { induction f' as [|t f' IH]; intros a E; [reflexivity|]. cbn [length seq combine flat_map]. rewrite !map_app, !map_map. cbn [fst snd]. f_equal.
    - apply map_ext. intros _. rewrite rflat_nth by auto. f_equal. specialize (E 0%nat t eq_refl). now rewrite Nat.add_0_r in E.
    - rewrite <- map_map. apply IH. intros j t' J. specialize (E (S j) t' J). rewrite <- E. f_equal. lia. }
  apply G. intros j t J. unfold T. cbn [plus]. rewrite (nth_indep _ _ (g t)) by (rewrite map_length; apply nth_error_Some; congruence).
  rewrite map_nth. f_equal. now apply nth_error_nth.
Qed.
Lemma fbv_dot_g (g : V3 Z -> V3 R) n f : nonneg f ->
  sp_dot (mksparse (3 * n) (3 * length f) (fin_ents (fbv_ents f))) (flat (map g f)) = Ok (flat (map (fun w => rvsum (map g (at_vertex f (Z.of_nat w)))) (seq 0 n))).
Proof.
  intros H. rewrite !flat_rflat, sp_dot_fin by (rewrite rflat_length, map_length; lia). do 2 f_equal. rewrite seq_rows. f_equal.
  apply map_ext. intros w. rewrite !vertex_rows_g by (auto; lia). replace (3 * w)%nat with (3 * w + 0)%nat by lia. rewrite vertex_rows_g by (auto; lia). apply coords_mk.
Qed.
Theorem vert_dr_ok c v f h : good_pattern c -> in_range (length v) f -> length h = length v ->
  exists c', vert_normals_dr c (map fin3 v) f (flat h) =
    Ok (flat (map (fun w => rapply (rtrans (rblock0 (rvsum (map (face_normal v) (at_vertex f (Z.of_nat w)))))) (rvsum (map (lin v h) (at_vertex f (Z.of_nat w))))) (seq 0 (length v))), c').
Proof.
  intros G H L. assert (NN : nonneg f) by (intros t i It Ii; now apply (H t i)). unfold vert_normals_dr. rewrite faces_ok by now rewrite map_length. cbn [bindr].
  rewrite <- flat_ravel, tri_scaled_ok by auto. cbn [bindr]. rewrite map_length, fbv_dot_g by auto. cbn [bindr].
  destruct (normalized_dr_any (map (fun w => rvsum (map (face_normal v) (at_vertex f (Z.of_nat w)))) (seq 0 (length v)))) as (J & -> & D). cbn [bindr].
  destruct (scaled_dr_ok G H L) as (c' & ->). cbn [bindr]. rewrite fbv_dot_g by auto. cbn [bindr]. rewrite D by now rewrite !map_length. cbn [bindr]. exists c'. now rewrite rowwise_map.
Qed.
