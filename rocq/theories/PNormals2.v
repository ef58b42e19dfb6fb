(** * Proofs about the normals nodes: values and derivatives. *)
From Coq Require Import Reals ZArith List Bool Lra Lia Psatz.
From Flocq Require Import Core.
From Verif Require Import Num XLemmas Vec RVec VLemmas PMat3 SpecGeom PPlane2 NpList MNormals SpecNormals PNormals.
Import ListNotations.
Local Open Scope R_scope.
Set Implicit Arguments.
Unset Strict Implicit.

Lemma block_result (l : list (M3 R)) (hs : list (V3 R)) : length l = length hs ->
  sp_dot (block_csc (map (fun m => finm m) l) (flat_map nine (seq 0 (length l))) (block_indptr (3 * length l)) (3 * length l)) (flat hs)
  = Ok (flat (map (fun Bh => rapply (rtrans (fst Bh)) (snd Bh)) (combine l hs))).
Proof.
  intros L. pose proof (block_csc_entries l) as E. set (m := block_csc _ _ _ _) in *.
  assert (M : m = mksparse (3 * length l) (3 * length l) (fin_ents (bent 0 l))) by (rewrite <- E; reflexivity).
  rewrite M, !flat_rflat, sp_dot_fin by (rewrite rflat_length; lia). now rewrite block_dot.
Qed.
Lemma block_result_neg (l : list (M3 R)) (hs : list (V3 R)) : length l = length hs ->
  sp_dot (sp_neg (block_csc (map (fun m => finm m) l) (flat_map nine (seq 0 (length l))) (block_indptr (3 * length l)) (3 * length l))) (flat hs)
  = Ok (flat (map (fun Bh => rscale (-1) (rapply (rtrans (fst Bh)) (snd Bh))) (combine l hs))).
Proof.
  intros L. pose proof (block_csc_entries l) as E. set (m := block_csc _ _ _ _) in *.
  assert (M : m = mksparse (3 * length l) (3 * length l) (fin_ents (bent 0 l))) by (rewrite <- E; reflexivity).
  rewrite M. unfold sp_neg. cbn [sp_rows sp_cols sp_entries]. rewrite fin_ents_neg, !flat_rflat, sp_dot_fin by (rewrite rflat_length; lia).
  do 2 f_equal. rewrite (map_ext _ (fun i => - rowsum (bent 0 l) (rflat hs) i)) by (intros i; apply rowsum_neg).
  rewrite <- (map_map (rowsum (bent 0 l) (rflat hs)) Ropp), block_dot by auto. generalize (combine l hs). intros c. induction c as [|x c IH]; [reflexivity|].
  unfold rflat, ravel3 in *. cbn [map flat_map app]. rewrite IH. unfold rscale. cbn [c0 c1 c2]. repeat f_equal; ring.
Qed.
Lemma reshape_length {A} n : forall (l : list A) r, (length l <= n)%nat -> reshape3 l = Ok r -> length l = (3 * length r)%nat.
Proof.
  induction n as [|n IH]; intros [|x [|y [|z l]]] r H E; cbn in H; try lia; try discriminate E; try (injection E as <-; reflexivity).
  cbn [reshape3] in E. destruct (reshape3 l) as [s|] eqn:S; [|discriminate E]. injection E as <-. apply IH in S; [|lia]. cbn [length]. lia.
Qed.

(** ** CrossProduct *)
Lemma ax_fin a : ax (fin3 a) = finm (mk3 (mk3 0 (- c2 a) (c1 a)) (mk3 (c2 a) 0 (- c0 a)) (mk3 (- c1 a) (c0 a) 0)).
Proof. reflexivity. Qed.
Lemma bx_fin b : bx (fin3 b) = finm (mk3 (mk3 0 (c2 b) (- c1 b)) (mk3 (- c2 b) 0 (c0 b)) (mk3 (c1 b) (- c0 b) 0)).
Proof. reflexivity. Qed.
Definition rax (a : V3 R) : M3 R := mk3 (mk3 0 (- c2 a) (c1 a)) (mk3 (c2 a) 0 (- c0 a)) (mk3 (- c1 a) (c0 a) 0).
Definition rbx (b : V3 R) : M3 R := mk3 (mk3 0 (c2 b) (- c1 b)) (mk3 (- c2 b) 0 (c0 b)) (mk3 (c1 b) (- c0 b) 0).
Lemma map2_fin (op : V3 R -> V3 R -> V3 R) (opx : V3 xr -> V3 xr -> V3 xr) a b :
  (forall x y, opx (fin3 x) (fin3 y) = fin3 (op x y)) -> map2 opx (map fin3 a) (map fin3 b) = map fin3 (rowwise op a b).
Proof.
  intros H. unfold map2, rowwise. rewrite map_map. revert b. induction a as [|x a IH]; intros [|y b]; cbn [map combine fst snd]; auto. now rewrite IH, H.
Qed.
Theorem cross_value_ok a b : length a = length b -> cross_value (flat a) (flat b) = Ok (flat (rowwise rcross a b)).
Proof.
  intros L. unfold cross_value. rewrite !reshape_flat. cbn [bindr]. rewrite !map_length, L, Nat.eqb_refl, flat_ravel. do 2 f_equal.
  rewrite <- (map2_fin (opx := fun x y => mapply (ax x) y)).
  - unfold map2. revert b L. induction a as [|x a IH]; intros [|y b] L; try discriminate L; [reflexivity|]. cbn [map combine fst snd]. f_equal. apply IH. now injection L.
  - intros x y. rewrite ax_fin, fmap_apply. f_equal. unfold rapply, rcross, rdot. cbn [c0 c1 c2]. f_equal; ring.
Qed.
Definition good_pattern (c : pattern) : Prop := match c with None => True | Some (i, p) => exists n, i = flat_map nine (seq 0 n) /\ p = block_indptr (3 * n) end.
Lemma cross_dr_good {F} {N : Num F} c (a b : list F) w r c' : good_pattern c -> cross_dr c a b w = Ok (r, c') -> good_pattern c'.
Proof.
  intros G. unfold cross_dr. destruct (reshape3 a) as [ra|] eqn:A; [|discriminate]. destruct (reshape3 b) as [rb|] eqn:B; [|discriminate]. cbn [bindr].
  apply (reshape_length (le_n _)) in A. rewrite A.
  destruct c as [[i p]|].
  - destruct (negb _); cbn [bindr]; [rewrite block_indices_ok; cbn [bindr]; intros [= _ <-]; exists (length ra); auto|intros [= _ <-]; exact G].
  - cbv iota. rewrite block_indices_ok; cbn [bindr]; intros [= _ <-]; exists (length ra); auto.
Qed.
Lemma nine_length n : length (flat_map nine (seq 0 n)) = (9 * n)%nat.
Proof. rewrite (@flat_map_length_const _ _ nine 9 _ ltac:(reflexivity)), seq_length. lia. Qed.
Lemma cross_dr_fin c a b w : good_pattern c -> exists c', cross_dr c (flat a) (flat b) w =
  Ok (sp_neg (block_csc (if w then map (fun x => finm (rbx x)) b else map (fun x => finm (rax x)) a) (flat_map nine (seq 0 (length a))) (block_indptr (3 * length a)) (3 * length a)), c').
Proof.
  intros G. unfold cross_dr. rewrite !reshape_flat. cbn [bindr]. rewrite flat_length.
  assert (D : (if w then map bx (map fin3 b) else map ax (map fin3 a)) = if w then map (fun x => finm (rbx x)) b else map (fun x => finm (rax x)) a) by (destruct w; rewrite map_map; reflexivity).
  rewrite D. destruct c as [[i p]|].
  - destruct G as (n & -> & ->). rewrite nine_length. destruct (Nat.eqb_spec (9 * n) (3 * length a * 3)) as [E|E]; cbn [negb bindr].
    + assert (n = length a) by lia. subst n. eexists. reflexivity.
    + rewrite block_indices_ok. cbn [bindr]. eexists. reflexivity.
  - cbv iota. rewrite block_indices_ok. cbn [bindr]. eexists. reflexivity.
Qed.
Theorem cross_dr_a c a b h : good_pattern c -> length a = length b -> length h = length a ->
  exists J c', cross_dr c (flat a) (flat b) true = Ok (J, c') /\ sp_dot J (flat h) = Ok (flat (rowwise rcross h b)).
Proof.
  intros G L H. destruct (cross_dr_fin a b true G) as (c' & E). cbv iota in E. do 2 eexists. split; [exact E|].
  rewrite <- (map_map rbx (fun m => finm m)). rewrite L, <- (map_length rbx b). rewrite block_result_neg by (rewrite map_length; congruence). do 2 f_equal.
  unfold rowwise. clear. revert h. induction b as [|y b IH]; intros [|x h]; try reflexivity. cbn [map combine fst snd]. rewrite IH. f_equal.
  unfold rbx, rapply, rtrans, rcol0, rcol1, rcol2, rscale, rcross, rdot. cbn [c0 c1 c2]. f_equal; ring.
Qed.
Theorem cross_dr_b c a b h : good_pattern c -> length a = length b -> length h = length a ->
  exists J c', cross_dr c (flat a) (flat b) false = Ok (J, c') /\ sp_dot J (flat h) = Ok (flat (rowwise rcross a h)).
Proof.
  intros G L H. destruct (cross_dr_fin a b false G) as (c' & E). cbv iota in E. do 2 eexists. split; [exact E|].
  rewrite <- (map_map rax (fun m => finm m)). rewrite <- (map_length rax a). rewrite block_result_neg by (rewrite map_length; congruence). do 2 f_equal.
  unfold rowwise. clear. revert h. induction a as [|y a IH]; intros [|x h]; try reflexivity. cbn [map combine fst snd]. rewrite IH. f_equal.
  unfold rax, rapply, rtrans, rcol0, rcol1, rcol2, rscale, rcross, rdot. cbn [c0 c1 c2]. f_equal; ring.
Qed.

(** ** NormalizedNx3 *)
Lemma row_ss_fin p : p <> rzero -> row_ss (fin3 p) = Fin (rdot p p).
Proof.
  intros H. unfold row_ss. rewrite fdot. cbv zeta. change (neqb (Fin (rdot p p)) n0) with (Req_bool (rdot p p) 0). rewrite Req_bool_false; auto. intros E. apply H. now apply rdot_self_0.
Qed.
Lemma normalize_row p : p <> rzero -> vdivs (fin3 p) (nsqrt (row_ss (fin3 p))) = fin3 (runit p).
Proof.
  intros H. rewrite row_ss_fin by auto. pose proof (rnorm_gt0 _ H) as P. rewrite xsqrtE by apply rdot_self_pos. fold (rnorm p). rewrite fdivs by lra. reflexivity.
Qed.
Theorem normalized_ok v : Forall (fun p => p <> rzero) v -> normalized_value (flat v) = Ok (flat (map runit v)).
Proof.
  intros H. unfold normalized_value. rewrite reshape_flat. cbn [bindr]. rewrite flat_ravel. do 2 f_equal. rewrite !map_map.
  apply map_ext_in. intros p I. rewrite Forall_forall in H. apply normalize_row. auto.
Qed.
Definition rblock (p : V3 R) : M3 R :=
  let k := / (rnorm p * rnorm p * rnorm p) in let s := / rnorm p in
  mk3 (mk3 (- (c0 p * c0 p) * k + s) (- (c0 p * c1 p) * k) (- (c0 p * c2 p) * k))
      (mk3 (- (c1 p * c0 p) * k) (- (c1 p * c1 p) * k + s) (- (c1 p * c2 p) * k))
      (mk3 (- (c2 p * c0 p) * k) (- (c2 p * c1 p) * k) (- (c2 p * c2 p) * k + s)).
Lemma block_fin p : p <> rzero -> normalized_block (fin3 p) = finm (rblock p).
Proof.
  intros H. unfold normalized_block. rewrite row_ss_fin by auto. pose proof (rnorm_gt0 _ H) as P. rewrite xsqrtE by apply rdot_self_pos. fold (rnorm p).
  rewrite <- (rnorm_sq p). assert (0 < rnorm p * rnorm p * rnorm p) by (repeat apply Rmult_lt_0_compat; auto).
  cbv zeta. rewrite xofZ, xmul, !xdivE by lra. unfold rblock, mouter, map3, vscale, fin3, finm. cbn [c0 c1 c2]. xs. unfold Rdiv. rewrite !Rmult_1_l. reflexivity.
Qed.
Lemma rblock_apply p h : p <> rzero -> rapply (rtrans (rblock p)) h = rsub (rscale (/ rnorm p) h) (rscale (rdot p h / (rnorm p * rnorm p * rnorm p)) p).
Proof.
  intros _. unfold rblock, Rdiv. cbv zeta. generalize (/ (rnorm p * rnorm p * rnorm p)) (/ rnorm p). intros k s.
  unfold rapply, rtrans, rcol0, rcol1, rcol2, rdot, rsub, rscale. cbn [c0 c1 c2]. f_equal; ring.
Qed.
Lemma rnorm_tri a b : rnorm (radd a b) <= rnorm a + rnorm b.
Proof.
  pose proof (rnorm_pos a). pose proof (rnorm_pos b). apply Rsqr_incr_0_var; [|lra]. unfold Rsqr. rewrite rnorm_sq. pose proof (cauchy a b) as C. apply Rabs_le_inv in C.
  autorewrite with rdot. rewrite <- !rnorm_sq, (rdot_sym b a). lra.
Qed.
Lemma radd_cancel p h : radd (radd p h) (rscale (-1) h) = p.
Proof. destruct p as [x y z]. unfold radd, rscale. cbn [c0 c1 c2]. f_equal; ring. Qed.
(** the remainder is quadratic *)
Lemma runit_remainder p h : p <> rzero -> rnorm h < rnorm p ->
  rnorm (rsub (rsub (runit (radd p h)) (runit p)) (rapply (rtrans (rblock p)) h)) <= 4 / (rnorm p * rnorm p) * (rnorm h * rnorm h).
Proof.
  intros NP HL. rewrite rblock_apply by auto. pose proof (rnorm_gt0 _ NP) as P. set (n := rnorm p) in *. set (e := rnorm h) in *. set (m := rnorm (radd p h)).
  assert (E0 : 0 <= e) by apply rnorm_pos.
  assert (T1 : m <= n + e) by apply rnorm_tri.
  assert (T2 : n - e <= m).
  { pose proof (rnorm_tri (radd p h) (rscale (-1) h)) as T. rewrite radd_cancel in T.
    rewrite rnorm_scale, Rabs_left in T by lra. fold n m e in T. lra. }
  assert (M : 0 < m) by lra.
  assert (SQ : m * m = n * n + 2 * rdot p h + e * e). { unfold m, n, e. rewrite !rnorm_sq. autorewrite with rdot. rewrite (rdot_sym h p). ring. }
  pose proof (cauchy p h) as C. fold n e in C.
  set (d := rdot p h) in *.
  set (al := / m - / n + d / (n * n * n)).
  assert (EQ : rsub (rsub (runit (radd p h)) (runit p)) (rsub (rscale (/ n) h) (rscale (d / (n * n * n)) p)) =
    radd (rscale al (radd p h)) (rscale (- (d / (n * n * n))) h)).
  { unfold runit. fold m n. unfold al. generalize (/ m) (/ n) (d / (n * n * n)). intros. unfold rsub, radd, rscale. cbn [c0 c1 c2]. f_equal; ring. }
  rewrite EQ. eapply Rle_trans; [apply rnorm_tri|]. rewrite !rnorm_scale. fold m e.
  assert (AL : al = (d * ((m - n) * (m + 2 * n)) / (n * n) - e * e) / (m * n * (m + n))).
  { unfold al. assert (D2 : e * e = m * m - n * n - 2 * d) by lra. rewrite D2. field. lra. }
  assert (B1 : Rabs (d / (n * n * n)) * e <= 1 / (n * n) * (e * e)).
  { unfold Rdiv at 1. rewrite Rabs_mult, (Rabs_pos_eq (/ (n * n * n))) by (left; apply Rinv_0_lt_compat; repeat apply Rmult_lt_0_compat; auto).
    apply Rle_trans with (n * e * / (n * n * n) * e).
    - apply Rmult_le_compat_r; auto. apply Rmult_le_compat_r; auto. left; apply Rinv_0_lt_compat; repeat apply Rmult_lt_0_compat; auto.
    - right. field. lra. }
  assert (B2 : Rabs al * m <= 3 / (n * n) * (e * e)).
  { rewrite AL. unfold Rdiv at 1. rewrite Rabs_mult, (Rabs_pos_eq (/ (m * n * (m + n)))) by (left; apply Rinv_0_lt_compat; repeat apply Rmult_lt_0_compat; lra).
    assert (N1 : Rabs (d * ((m - n) * (m + 2 * n)) / (n * n) - e * e) <= e * e * (m + 2 * n) / n + e * e).
    { eapply Rle_trans; [apply Rabs_triang|]. rewrite Rabs_Ropp, (Rabs_pos_eq (e * e)) by nra. apply Rplus_le_compat_r.
      unfold Rdiv. rewrite !Rabs_mult, (Rabs_pos_eq (/ (n * n))), (Rabs_pos_eq (m + 2 * n)) by (try (left; apply Rinv_0_lt_compat); nra).
      assert (MN : Rabs (m - n) <= e) by (apply Rabs_le; lra).
      apply Rle_trans with (n * e * (e * (m + 2 * n)) * / (n * n)).
      - apply Rmult_le_compat_r; [left; apply Rinv_0_lt_compat; nra|]. apply Rmult_le_compat; auto using Rabs_pos; [apply Rmult_le_pos; [apply Rabs_pos|lra]|]. apply Rmult_le_compat_r; lra.
      - right. field. lra. }
    apply Rle_trans with ((e * e * (m + 2 * n) / n + e * e) * / (m * n * (m + n)) * m).
    - apply Rmult_le_compat_r; [lra|]. apply Rmult_le_compat_r; auto. left; apply Rinv_0_lt_compat; repeat apply Rmult_lt_0_compat; lra.
    - replace ((e * e * (m + 2 * n) / n + e * e) * / (m * n * (m + n)) * m) with (e * e * ((m + 3 * n) / (n * n * (m + n)))) by (field; lra).
      rewrite (Rmult_comm (3 / (n * n))). apply Rmult_le_compat_l; [nra|]. apply Rmult_le_reg_r with (n * n * (m + n)); [repeat apply Rmult_lt_0_compat; lra|].
      replace ((m + 3 * n) / (n * n * (m + n)) * (n * n * (m + n))) with (m + 3 * n) by (field; lra). replace (3 / (n * n) * (n * n * (m + n))) with (3 * (m + n)) by (field; lra). lra. }
  replace (Rabs (- (d / (n * n * n)))) with (Rabs (d / (n * n * n))) by (symmetry; apply Rabs_Ropp).
  replace (4 / (n * n) * (e * e)) with (3 / (n * n) * (e * e) + 1 / (n * n) * (e * e)) by (field; lra). lra.
Qed.
Lemma normalized_dr_fin v : Forall (fun p => p <> rzero) v ->
  exists J, normalized_dr (flat v) = Ok J /\ forall h, length h = length v ->
    sp_dot J (flat h) = Ok (flat (rowwise (fun p x => rapply (rtrans (rblock p)) x) v h)).
Proof.
  intros H. unfold normalized_dr. rewrite reshape_flat. cbn [bindr]. rewrite flat_length, block_indices_ok. cbn [bindr]. eexists. split; [reflexivity|].
  intros h L. rewrite map_map. rewrite (map_ext_in _ (fun p => finm (rblock p))) by (intros p I; rewrite Forall_forall in H; apply block_fin; auto).
  rewrite <- (map_map rblock (fun m => finm m)). rewrite <- (map_length rblock v). rewrite block_result by (rewrite map_length; congruence). do 2 f_equal.
  unfold rowwise. clear. revert h. induction v as [|p v IH]; intros [|x h]; try reflexivity. cbn [map combine fst snd]. now rewrite IH.
Qed.
