(** * Proofs about Polyline: lengths, flip, reindexed, partition_by_length. *)
From Coq Require Import Reals ZArith List Bool Lra Lia Psatz Permutation Sorted.
From Flocq Require Import Core.Raux.
From Verif Require Import Num XLemmas Vec RVec SpecGeom SpecPoly VLemmas NpList MVx PVx MPlane PPlane PPlane2 MSegment PSegment MPolyline PPolyline.
Import ListNotations.
Local Open Scope R_scope.
Set Implicit Arguments.
Unset Strict Implicit.

Definition fpoly c (vs : list (V3 R)) : polyline xr := poly c (map fin3 vs).
Lemma fsegments c vs : segments (fpoly c vs) = Ok (map (fun ab => (fin3 (fst ab), fin3 (snd ab))) (segs c vs)).
Proof. unfold fpoly. now rewrite segments_poly, segs_map. Qed.
Lemma segment_lengths_fin c vs : segment_lengths (fpoly c vs) = Ok (map (fun ab => Fin (seglen ab)) (segs c vs)).
Proof.
  unfold segment_lengths. cbn [fpoly poly p_e]. fold (poly c (map fin3 vs)). fold (fpoly c vs). rewrite fsegments. cbn [bindr]. f_equal. rewrite map_map.
  apply map_ext. intros [a b]. cbn [fst snd]. rewrite fsub, fnorm. f_equal. unfold seglen. cbn. apply rdist_sym.
Qed.
Lemma total_length_fin c vs : total_length (fpoly c vs) = Ok (Fin (chain_length c vs)).
Proof.
  unfold total_length. rewrite segment_lengths_fin. cbn [bindr]. f_equal. unfold chain_length.
  rewrite <- (map_map seglen Fin). apply nsum_fin.
Qed.

(** ** open segments of concatenations *)
Lemma open_segs_app A (l : list A) x m : segs false (l ++ x :: m) = segs false (l ++ [x]) ++ segs false (x :: m).
Proof.
  induction l as [|a l IH]; [reflexivity|]. destruct l as [|b l]; [reflexivity|]. cbn [app] in *. rewrite !open_segs_cons, IH. reflexivity.
Qed.
Lemma open_segs_length A (l : list A) : length (segs false l) = (length l - 1)%nat.
Proof. unfold segs, walk. rewrite combine_length. destruct l; cbn [length tl]; lia. Qed.
Lemma closed_segs A (h : A) t : segs true (h :: t) = segs false (h :: t ++ [h]).
Proof. reflexivity. Qed.
Lemma closed_segs_length A (l : list A) : length (segs true l) = length l.
Proof. destruct l as [|h t]; [reflexivity|]. rewrite closed_segs, open_segs_length. cbn. rewrite app_length. cbn. lia. Qed.
(** a rotation of the vertices is the same rotation of the segments *)
Lemma closed_segs_rot A (l1 l2 : list A) : 
  segs true (l2 ++ l1) = skipn (length l1) (segs true (l1 ++ l2)) ++ firstn (length l1) (segs true (l1 ++ l2)).
Proof.
  destruct l1 as [|a l1]; [cbn; now rewrite !app_nil_r|].
  destruct l2 as [|b l2].
  { rewrite app_nil_r. cbn [app]. rewrite <- closed_segs_length, skipn_all, firstn_all. reflexivity. }
  assert (E : forall (x : A) l y m, segs true ((x :: l) ++ y :: m) = segs false ((x :: l) ++ [y]) ++ segs false ((y :: m) ++ [x])).
  { intros x l y m. cbn [app]. rewrite closed_segs. rewrite <- app_assoc. cbn [app]. apply (open_segs_app (x :: l)). }
  rewrite (E b l2 a l1), (E a l1 b l2).
  assert (L : length (segs false ((a :: l1) ++ [b])) = length (a :: l1)).
  { rewrite open_segs_length, app_length. cbn. lia. }
  rewrite <- L. now rewrite skipn_app, firstn_app, skipn_all, firstn_all, Nat.sub_diag, app_nil_r.
Qed.
Lemma closed_segs_perm A (l1 l2 : list A) : Permutation (segs true (l2 ++ l1)) (segs true (l1 ++ l2)).
Proof.
  rewrite closed_segs_rot. rewrite Permutation_app_comm. now rewrite firstn_skipn.
Qed.
Definition swap {A} (p : A * A) : A * A := (snd p, fst p).
Lemma open_segs_rev A (l : list A) : segs false (rev l) = rev (map swap (segs false l)).
Proof.
  induction l as [|x [|y l] IH]; [reflexivity|reflexivity|]. rewrite open_segs_cons.
  change (rev (x :: y :: l)) with ((rev l ++ [y]) ++ [x]). rewrite <- app_assoc. cbn [app]. rewrite open_segs_snoc.
  change (rev l ++ [y]) with (rev (y :: l)). rewrite IH. reflexivity.
Qed.
Lemma segs_rev A c (l : list A) : Permutation (segs c (rev l)) (map swap (segs c l)).
Proof.
  destruct c.
  - destruct l as [|h m]; [reflexivity|]. change (rev (h :: m)) with (rev m ++ [h]).
    rewrite (closed_segs_perm [h] (rev m)). cbn [app]. rewrite !closed_segs.
    replace (h :: rev m ++ [h]) with (rev (h :: m ++ [h])) by (cbn [rev]; now rewrite rev_app_distr).
    rewrite open_segs_rev. symmetry. apply Permutation_rev.
  - rewrite open_segs_rev. symmetry. apply Permutation_rev.
Qed.
Lemma rsum_perm l m : Permutation l m -> rsum l = rsum m.
Proof. induction 1; cbn; lra. Qed.
Lemma chain_length_rev c vs : chain_length c (rev vs) = chain_length c vs.
Proof.
  unfold chain_length. rewrite (rsum_perm (Permutation_map seglen (segs_rev c vs))). f_equal. rewrite map_map. apply map_ext.
  intros [a b]. apply rdist_sym.
Qed.
Lemma flip_poly F (N : Num F) c (vs : list (V3 F)) : numeric vs = true -> ~ (c = true /\ vs = []) -> flip (poly c vs) = (poly c (rev vs), Ok tt).
Proof.
  intros Hn H. unfold flip. cbn [poly p_v]. rewrite set_points_some by (apply (numeric_incl (m := vs)); auto; intros x Hx; now apply in_rev). cbn [poly p_closed]. rewrite rev_length.
  destruct c; auto. destruct vs; [tauto|]. reflexivity.
Qed.

(** ** reindexed *)
Lemma slice_nat A (l : list A) i : (i <= length l)%nat -> slice_from l (Z.of_nat i) = skipn i l /\ slice_to l (Z.of_nat i) = firstn i l.
Proof.
  intros H. unfold slice_from, slice_to, slice_pos. replace (Z.of_nat i <? 0)%Z with false by (symmetry; apply Z.ltb_ge; lia).
  replace (Z.to_nat (Z.min (Z.of_nat i) (Z.of_nat (length l)))) with i by lia. auto.
Qed.
Lemma zarange_nat a b : (a <= b)%nat -> zarange (Z.of_nat a) (Z.of_nat b) = map Z.of_nat (seq a (b - a)).
Proof.
  intros H. unfold zarange. replace (Z.to_nat (Z.of_nat b - Z.of_nat a)) with (b - a)%nat by lia.
  assert (E : forall m s, map (fun k => (Z.of_nat a + Z.of_nat k)%Z) (seq s m) = map Z.of_nat (seq (a + s) m)).
  { induction m as [|m IH]; intros s; [reflexivity|]. cbn [seq map]. rewrite IH. rewrite Nat.add_succ_r. f_equal. lia. }
  rewrite E. now rewrite Nat.add_0_r.
Qed.
Lemma reindexed_poly F (N : Num F) (vs : list (V3 F)) i : numeric vs = true -> vs <> [] -> (i <= length vs)%nat ->
  reindexed (poly true vs) (Z.of_nat i) =
  Ok (poly true (skipn i vs ++ firstn i vs), map Z.of_nat (seq i (length vs - i) ++ seq 0 i)).
Proof.
  intros Hn Hv H. unfold reindexed. cbn [poly p_closed p_v]. destruct (slice_nat H) as [-> ->].
  rewrite init_points_some.
  2:{ apply (numeric_incl (m := vs)); auto. intros x Hx. rewrite <- (firstn_skipn i vs). apply in_app_iff. apply in_app_iff in Hx. tauto. }
  replace (Nat.eqb _ 0) with false.
  - cbn [andb bindr]. rewrite zarange_nat by auto. change 0%Z with (Z.of_nat 0). rewrite zarange_nat by lia. rewrite Nat.sub_0_r, map_app. reflexivity.
  - symmetry. apply Nat.eqb_neq. rewrite app_length, skipn_length, firstn_length. destruct vs; [congruence|]. cbn [length] in *. lia.
Qed.
Lemma reindexed_open F (N : Num F) (p : polyline F) i : p_closed p = false -> reindexed p i = Err ValueError.
Proof. intros H. unfold reindexed. now rewrite H. Qed.
Lemma rot_segs A (vs : list A) i : (i <= length vs)%nat ->
  segs true (skipn i vs ++ firstn i vs) = skipn i (segs true vs) ++ firstn i (segs true vs).
Proof.
  intros H. rewrite closed_segs_rot, firstn_skipn. rewrite firstn_length. now rewrite Nat.min_l.
Qed.
Lemma rot_nth A (l : list A) i k : (i <= length l)%nat -> (k < length l)%nat ->
  nth_error (skipn i l ++ firstn i l) k = nth_error l (nth k (seq i (length l - i) ++ seq 0 i) 0%nat).
Proof.
  intros Hi Hk. destruct (Nat.lt_ge_cases k (length l - i)).
  - rewrite nth_error_app1 by (rewrite skipn_length; lia). rewrite app_nth1 by (rewrite seq_length; lia).
    rewrite seq_nth by lia. rewrite <- (firstn_skipn i l) at 2. rewrite nth_error_app2 by (rewrite firstn_length; lia).
    f_equal. rewrite firstn_length. lia.
  - rewrite nth_error_app2 by (rewrite skipn_length; lia). rewrite app_nth2 by (rewrite seq_length; lia).
    rewrite seq_length, skipn_length. rewrite seq_nth by lia. cbn [plus].
    rewrite <- (firstn_skipn i l) at 3. rewrite nth_error_app1 by (rewrite firstn_length; lia). reflexivity.
Qed.

(** ** partition_by_length *)
(** [k] points from [a] towards [b], [b] excluded *)
Definition chunk (k : nat) (ab : V3 R * V3 R) : list (V3 R) := map (fun i => lerp (INR i / INR k) (fst ab) (snd ab)) (seq 0 k).
(** [k] is the least positive number of equal pieces no longer than [M] *)
Definition fewest (M : R) (ab : V3 R * V3 R) (k : nat) : Prop :=
  (1 <= k)%nat /\ seglen ab <= INR k * M /\ ((1 < k)%nat -> INR (k - 1) * M < seglen ab).
Lemma lerp_0 a b : lerp 0 a b = a. Proof. unfold lerp. rewrite rscale_0. vring. Qed.
Lemma lerp_1 a b : lerp 1 a b = b. Proof. vring. Qed.
Lemma chunk_cons k ab : (1 <= k)%nat -> exists l, chunk k ab = fst ab :: l.
Proof.
  intros H. destruct k as [|k]; [lia|]. unfold chunk. cbn [seq map]. eexists. f_equal.
  unfold Rdiv. cbn [INR]. rewrite Rmult_0_l. apply lerp_0.
Qed.
Lemma subdivide_fin M a b : 0 < M -> exists k, fewest M (a, b) k /\
  subdivide (fin3 a) (fin3 b) (Fin (seglen (a, b)) / Fin M)%num = Ok (map fin3 (chunk k (a, b))).
Proof.
  intros HM. unfold subdivide. rewrite xdivE by lra. cbn [nceil xr_num]. set (L := seglen (a, b)).
  assert (HL : 0 <= L) by apply rnorm_pos. pose proof (Zceil_ub (L / M)) as U. pose proof (Zceil_lb (L / M)) as B.
  assert (E : L = L / M * M) by (field; lra).
  destruct (Z.leb_spec (Zceil (L / M)) 1) as [C|C].
  - exists 1%nat. split.
    + split; [lia|]. fold L. split; [|lia]. apply IZR_le in C. cbn. 
      assert (L / M * M <= 1 * M) by (apply Rmult_le_compat_r; lra). lra.
    + unfold chunk. cbn. unfold Rdiv. rewrite Rmult_0_l. now rewrite lerp_0.
  - exists (Z.to_nat (Zceil (L / M))). split.
    + split; [lia|]. fold L. rewrite INR_IZR_INZ, Z2Nat.id by lia. split.
      * assert (L / M * M <= IZR (Zceil (L / M)) * M) by (apply Rmult_le_compat_r; lra). lra.
      * intros _. rewrite INR_IZR_INZ. replace (Z.of_nat (Z.to_nat (Zceil (L / M)) - 1)) with (Zceil (L / M) - 1)%Z by lia.
        rewrite minus_IZR. assert ((IZR (Zceil (L / M)) - 1) * M < L / M * M) by (apply Rmult_lt_compat_r; lra). lra.
    + destruct (partition_segment_spec a b (Zceil (L / M)) false) as (_&_&->); [|lia].
      f_equal. unfold chunk. rewrite map_map. apply map_ext. intros i. rewrite (INR_IZR_INZ (Z.to_nat _)), Z2Nat.id by lia. reflexivity.
Qed.
Fixpoint offsets {A} (k : nat) (cs : list (list A)) : list nat :=
  match cs with [] => [] | c :: cs' => k :: offsets (k + length c) cs' end.
Lemma offsets_app A (cs ds : list (list A)) k : offsets k (cs ++ ds) = offsets k cs ++ offsets (k + length (concat cs)) ds.
Proof.
  revert k. induction cs as [|x cs IH]; intros k; cbn [app offsets concat]; [now rewrite Nat.add_0_r|].
  rewrite IH, app_length, Nat.add_assoc. reflexivity.
Qed.
Lemma loop_fin M ss : 0 < M -> exists ks, Forall2 (fewest M) ss ks /\ forall nv idx,
  partition_loop (map (fun ab => (fin3 (fst ab), fin3 (snd ab))) ss) (map (fun l => (l / Fin M)%num) (map (fun ab => Fin (seglen ab)) ss)) (map fin3 nv) idx =
  let cs := map (fun kab => chunk (snd kab) (fst kab)) (combine ss ks) in
  Ok (map fin3 (nv ++ concat cs), idx ++ offsets (length nv) cs).
Proof.
  intros HM. induction ss as [|[a b] ss (ks&Hks&IH)].
  - exists []. split; [constructor|]. intros nv idx. cbn. now rewrite !app_nil_r.
  - destruct (subdivide_fin a b HM) as (k&Hk&E). exists (k :: ks). split; [now constructor|]. intros nv idx.
    cbn [map partition_loop combine fst snd concat offsets]. rewrite E. cbn [bindr]. rewrite <- map_app, IH. cbv zeta.
    rewrite map_length, app_length, <- !app_assoc. reflexivity.
Qed.
(** the output vertex list *)
Definition subdivided (c : bool) (vs : list (V3 R)) (ks : list nat) : list (V3 R) :=
  concat (map (fun kab => chunk (snd kab) (fst kab)) (combine (segs c vs) ks)) ++ (if c then [] else [last vs rzero]).
Lemma partition_poly c vs M : vs <> [] -> 0 < M -> exists ks idx,
  Forall2 (fewest M) (segs c vs) ks /\
  partition_by_length (fpoly c vs) (Fin M) = (fpoly c (subdivided c vs ks), Ok idx) /\
  idx = offsets 0 (map (fun kab => chunk (snd kab) (fst kab)) (combine (segs c vs) ks) ++ if c then [] else [[last vs rzero]]).
Proof.
  intros Hv HM. destruct (loop_fin (segs c vs) HM) as (ks&Hks&L). exists ks.
  set (cs := map (fun kab => chunk (snd kab) (fst kab)) (combine (segs c vs) ks)) in *.
  unfold partition_by_length. rewrite segment_lengths_fin. cbn [bindr].
  change (p_e (fpoly c vs)) with (Some (chain_edges (length (map fin3 vs)) c)). cbn match. rewrite fsegments. cbn [bindr].
  pose proof (L [] []) as L0. cbn [map length app] in L0. rewrite L0. cbv zeta. cbn [bindr]. fold cs.
  change (p_closed (fpoly c vs)) with c. change (p_v (fpoly c vs)) with (Some (map fin3 vs)).
  unfold subdivided. fold cs. destruct c.
  - eexists. split; [exact Hks|]. rewrite !app_nil_r. rewrite set_points_some by apply numeric_fin. change (p_closed (fpoly true vs)) with true.
    replace (Nat.eqb _ 0) with false; [split; reflexivity|]. symmetry. apply Nat.eqb_neq. rewrite map_length.
    destruct vs as [|h t]; [congruence|]. unfold cs. destruct (segs true (h :: t)) as [|s ss] eqn:E.
    { apply (f_equal (@length _)) in E. rewrite closed_segs_length in E. discriminate. }
    inversion Hks as [|? k ? ks' [K1 _] ?]; subst. cbn [combine map concat fst snd]. rewrite app_length. destruct (chunk_cons s K1) as [l ->]. cbn. lia.
  - eexists. split; [exact Hks|]. destruct vs as [|h t]; [congruence|].
    change (map fin3 (h :: t)) with (fin3 h :: map fin3 t). cbn iota. cbn [bindr]. 
    assert (E : last (fin3 h :: map fin3 t) (fin3 h) = fin3 (last (h :: t) rzero)).
    { clear. change (fin3 h :: map fin3 t) with (map fin3 (h :: t)). generalize (fin3 h). revert h. induction t as [|y t IH]; intros h d; [reflexivity|]. exact (IH y d). }
    rewrite E. rewrite set_points_some by (rewrite numeric_app, numeric_fin; reflexivity).
    change (p_closed (fpoly false (h :: t))) with false. cbn [andb mapr].
    split.
    + f_equal. unfold fpoly. f_equal. rewrite map_app. reflexivity.
    + rewrite map_length, offsets_app. reflexivity.
Qed.

(** pieces of one segment *)
Lemma chunk_full k ab : (1 <= k)%nat -> chunk k ab ++ [snd ab] = map (fun i => lerp (INR i / INR k) (fst ab) (snd ab)) (seq 0 (S k)).
Proof.
  intros H. rewrite seq_S, map_app. unfold chunk. f_equal. cbn [map plus]. f_equal. unfold Rdiv. rewrite Rinv_r; [now rewrite lerp_1|].
  apply not_0_INR. lia.
Qed.
Lemma piece_segs k ab : (1 <= k)%nat ->
  segs false (chunk k ab ++ [snd ab]) = map (fun i => (lerp (INR i / INR k) (fst ab) (snd ab), lerp (INR (S i) / INR k) (fst ab) (snd ab))) (seq 0 k).
Proof.
  intros H. rewrite chunk_full by auto. rewrite segs_map, open_segs_seq, map_map. cbn [Nat.sub]. now rewrite Nat.sub_0_r.
Qed.
Lemma piece_len k ab i : (1 <= k)%nat -> seglen (lerp (INR i / INR k) (fst ab) (snd ab), lerp (INR (S i) / INR k) (fst ab) (snd ab)) = seglen ab / INR k.
Proof.
  intros H. assert (K : 0 < INR k) by (apply lt_0_INR; lia). unfold seglen, rdist. cbn [fst snd].
  replace (rsub _ _) with (rscale (/ INR k) (rsub (fst ab) (snd ab))).
  - rewrite rnorm_scale, Rabs_pos_eq by (apply Rlt_le, Rinv_0_lt_compat; auto). unfold Rdiv. ring.
  - rewrite S_INR. destruct ab as [a b]. cbn [fst snd]. 
    replace ((INR i + 1) / INR k) with (INR i / INR k + / INR k) by (field; lra). generalize (INR i / INR k) (/ INR k). vring.
Qed.
Lemma piece_total k ab : (1 <= k)%nat -> rsum (map seglen (segs false (chunk k ab ++ [snd ab]))) = seglen ab.
Proof.
  intros H. rewrite piece_segs, map_map by auto. rewrite (@rsum_ext _ _ (fun _ => seglen ab / INR k)) by (intros i; now apply piece_len).
  rewrite rsum_const, seq_length. field. apply not_0_INR. lia.
Qed.
Lemma rsum_app l m : rsum (l ++ m) = rsum l + rsum m.
Proof. induction l; cbn; lra. Qed.
(** the segments of a subdivided open walk *)
Lemma sub_segs x w ks : Forall2 (fun _ k => (1 <= k)%nat) (segs false (x :: w)) ks ->
  let cs := map (fun kab => chunk (snd kab) (fst kab)) (combine (segs false (x :: w)) ks) in
  (exists t, concat cs ++ [last (x :: w) rzero] = x :: t) /\
  segs false (concat cs ++ [last (x :: w) rzero]) =
  concat (map (fun kab => segs false (chunk (snd kab) (fst kab) ++ [snd (fst kab)])) (combine (segs false (x :: w)) ks)).
Proof.
  revert x ks. induction w as [|y w IH]; intros x ks H; cbn zeta.
  - inversion H. subst. cbn. eauto.
  - rewrite open_segs_cons in *. inversion H as [|? k ? ks' K Hks]; subst. specialize (IH y ks' Hks). cbn zeta in IH. destruct IH as [[t Et] IH].
    cbn [combine map concat fst snd]. change (last (x :: y :: w) rzero) with (last (y :: w) rzero).
    rewrite <- app_assoc, Et. split.
    + destruct (chunk_cons (x, y) K) as [l ->]. cbn. eauto.
    + rewrite open_segs_app. f_equal. rewrite <- Et. exact IH.
Qed.
(** closed and open at once *)
Lemma subdivided_segs c vs ks : vs <> [] -> Forall2 (fun _ k => (1 <= k)%nat) (segs c vs) ks ->
  segs c (subdivided c vs ks) = concat (map (fun kab => segs false (chunk (snd kab) (fst kab) ++ [snd (fst kab)])) (combine (segs c vs) ks)).
Proof.
  intros Hv H. destruct vs as [|x w]; [congruence|]. unfold subdivided. destruct c.
  - rewrite closed_segs in *. destruct (sub_segs H) as [[t Et] E].
    replace (last (x :: w ++ [x]) rzero) with x in E, Et by (rewrite app_comm_cons, last_last; reflexivity).
    rewrite <- E. rewrite app_nil_r. set (l := concat _) in *. destruct l as [|y l]; cbn in Et.
    + injection Et as <-. reflexivity.
    + injection Et as -> _. reflexivity.
  - destruct (sub_segs H) as [_ E]. exact E.
Qed.
Lemma fewest_pos M ss ks : Forall2 (fewest M) ss ks -> Forall2 (fun (_ : V3 R * V3 R) k => (1 <= k)%nat) ss ks.
Proof. induction 1 as [|? ? ? ? [H _]]; constructor; auto. Qed.
Definition enough (M : R) (ab : V3 R * V3 R) (k : nat) : Prop := (1 <= k)%nat /\ seglen ab <= INR k * M.
Lemma enough_pos M ss ks : Forall2 (enough M) ss ks -> Forall2 (fun (_ : V3 R * V3 R) k => (1 <= k)%nat) ss ks.
Proof. induction 1 as [|? ? ? ? [H _]]; constructor; auto. Qed.
Lemma enough_bound c vs ks M : vs <> [] -> Forall2 (enough M) (segs c vs) ks ->
  Forall (fun ab => seglen ab <= M) (segs c (subdivided c vs ks)).
Proof.
  intros Hv H. rewrite subdivided_segs by (auto; eapply enough_pos; eauto). apply Forall_concat, Forall_map.
  clear Hv. induction H as [|ab k ss ks (K&L) H IH]; cbn [combine]; constructor; auto. cbn beta. cbn [fst snd]. rewrite piece_segs by auto.
  apply Forall_map, Forall_forall. intros i _. rewrite piece_len by auto. assert (0 < INR k) by (apply lt_0_INR; lia).
  apply (Rmult_le_reg_r (INR k)); auto. unfold Rdiv. rewrite Rmult_assoc, Rinv_l by lra. lra.
Qed.
Lemma subdivided_bound c vs ks M : vs <> [] -> 0 < M -> Forall2 (fewest M) (segs c vs) ks ->
  Forall (fun ab => seglen ab <= M) (segs c (subdivided c vs ks)).
Proof. intros Hv HM H. apply enough_bound; auto. clear Hv. induction H as [|? ? ? ? (K&L&_)]; constructor; auto. now split. Qed.
Lemma subdivided_length c vs ks M : vs <> [] -> Forall2 (fewest M) (segs c vs) ks ->
  chain_length c (subdivided c vs ks) = chain_length c vs.
Proof.
  intros Hv H. unfold chain_length. rewrite subdivided_segs by (auto; eapply fewest_pos; eauto).
  clear Hv. induction H as [|ab k ss ks (K&L&_) H IH]; [reflexivity|]. cbn [combine map concat fst snd rsum].
  rewrite map_app, rsum_app, piece_total, IH by auto. reflexivity.
Qed.
(** the indices *)
Lemma offsets_heads A (cs : list (list A)) k i x l : nth_error cs i = Some (x :: l) ->
  exists j, nth_error (offsets k cs) i = Some (k + j)%nat /\ nth_error (concat cs) j = Some x.
Proof.
  revert k i. induction cs as [|c cs IH]; intros k [|i] H; try discriminate.
  - cbn in H. injection H as ->. exists 0%nat. cbn. now rewrite Nat.add_0_r.
  - cbn in H. destruct (IH (k + length c)%nat i H) as (j&E1&E2). exists (length c + j)%nat. cbn. rewrite E1, Nat.add_assoc. split; auto.
    rewrite nth_error_app2 by lia. rewrite <- E2. f_equal. lia.
Qed.
Lemma offsets_length A (cs : list (list A)) k : length (offsets k cs) = length cs.
Proof. revert k. induction cs; intros; cbn; auto. Qed.
Lemma offsets_sorted A (cs : list (list A)) k : Forall (fun c => c <> []) cs -> StronglySorted lt (offsets k cs) /\ Forall (fun j => (k <= j)%nat) (offsets k cs).
Proof.
  revert k. induction cs as [|c cs IH]; intros k H; [split; constructor|]. inversion H; subst. destruct (IH (k + length c)%nat) as [S B]; auto.
  assert (L : (0 < length c)%nat) by (destruct c; [congruence|cbn; lia]). cbn. split; constructor; auto.
  - eapply Forall_impl; [|exact B]. cbn. intros; lia.
  - eapply Forall_impl; [|exact B]. cbn. intros; lia.
Qed.
Lemma map_fst_combine A B (l : list A) (m : list B) : map fst (combine l m) = firstn (length m) l.
Proof. revert m. induction l; intros [|y m]; cbn; auto. f_equal. apply IHl. Qed.
Lemma map_fst_segs_closed A (vs : list A) : map fst (segs true vs) = vs.
Proof.
  destruct vs as [|h t]; [reflexivity|]. rewrite closed_segs. unfold segs, walk. cbn [tl]. rewrite map_fst_combine, app_length, app_comm_cons.
  cbn [length]. rewrite Nat.add_1_r. change (S (length t)) with (length (h :: t)). now rewrite firstn_app, firstn_all, Nat.sub_diag, app_nil_r.
Qed.
Lemma map_fst_segs_open A (x : A) (w : list A) d : map fst (segs false (x :: w)) ++ [last (x :: w) d] = x :: w.
Proof.
  revert x. induction w as [|y w IH]; intros x; [reflexivity|]. rewrite open_segs_cons. cbn [map fst app]. f_equal. exact (IH y).
Qed.
Lemma partition_indices c vs ks M : vs <> [] -> Forall2 (fewest M) (segs c vs) ks ->
  let idx := offsets 0 (map (fun kab => chunk (snd kab) (fst kab)) (combine (segs c vs) ks) ++ if c then [] else [[last vs rzero]]) in
  length idx = length vs /\ StronglySorted lt idx /\
  forall i x, nth_error vs i = Some x -> exists j, nth_error idx i = Some j /\ nth_error (subdivided c vs ks) j = Some x.
Proof.
  intros Hv H. cbv zeta. set (cs := map (fun kab => chunk (snd kab) (fst kab)) (combine (segs c vs) ks)). set (ds := cs ++ if c then [] else [[last vs rzero]]).
  assert (Heads : Forall2 (fun d x => exists l, d = x :: l) ds vs).
  { assert (H1 : Forall2 (fun d x => exists l, d = x :: l) cs (map fst (segs c vs))).
    { unfold cs. clear ds. induction H as [|ab k ss ks (K&_) H IH]; cbn [combine map fst snd]; constructor; auto. apply chunk_cons; auto. }
    unfold ds. destruct c.
    - rewrite app_nil_r. now rewrite map_fst_segs_closed in H1.
    - destruct vs as [|x w]; [congruence|]. rewrite <- (map_fst_segs_open x w rzero) at 2. apply Forall2_app; auto. constructor; eauto. }
  rewrite offsets_length. split; [clear - Heads; induction Heads; cbn; auto|]. split.
  - apply offsets_sorted. clear - Heads. induction Heads as [|d x ds vs (l&->)]; constructor; auto. discriminate.
  - intros i x Hi. assert (Hd : exists l, nth_error ds i = Some (x :: l)).
    { clear - Heads Hi. revert i Hi. induction Heads as [|d y ds vs (l&->) ? IH]; intros [|i] Hi; try discriminate; cbn in *; [injection Hi as ->; eauto|auto]. }
    destruct Hd as [l Hd]. destruct (offsets_heads 0 Hd) as (j&E1&E2). exists j. split; auto. rewrite <- E2. unfold subdivided. fold cs. unfold ds.
    destruct c; [now rewrite !app_nil_r|]. rewrite concat_app. reflexivity.
Qed.
