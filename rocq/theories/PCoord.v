(** * Proofs about the coordinate manager. *)
From Coq Require Import String Reals ZArith List Bool Lra Lia.
From Verif Require Import Num XLemmas Vec RVec VLemmas PMat3 NpList MVx PVx MRotation MComposite SpecComposite PComposite MCoord SpecCoord.
Import ListNotations.
Local Open Scope R_scope.
Set Implicit Arguments.
Unset Strict Implicit.

Section Generic.
Context {F B : Type} {N : Num F}.
Variables (inv : M4 F -> res (M4 F)) (as_rot : rot_arg F -> res (M3 F)).
Implicit Types (m : manager F B) (es h : list (event F B)).

Lemma op_appends ts o x : apply_op inv as_rot ts o = Ok x -> exists t, fst x = ts ++ [t] /\
  (snd x = Some (length ts) \/ exists f u, o = ConvertUnits f u /\ snd x = None).
Proof.
  assert (A4 : forall f r y, append_transform4 inv ts f r = Ok y -> exists t, fst y = ts ++ [t] /\ snd y = length ts).
  { intros f r y. unfold append_transform4. destruct r as [r|]; cbn [bindr]; [|destruct (inv f); cbn [bindr]; [|discriminate]]; intros [= <-]; eexists; split; reflexivity. }
  assert (A3 : forall f r y, append_transform3 inv ts f r = Ok y -> exists t, fst y = ts ++ [t] /\ snd y = length ts).
  { intros f r y. unfold append_transform3. destruct r as [r|].
    - destruct (convert_33_to_44 f); cbn [bindr]; [|discriminate]. destruct (convert_33_to_44 r); cbn [bindr]; [|discriminate]. apply A4.
    - destruct (convert_33_to_44 f); cbn [bindr]; [|discriminate]. apply A4. }
  assert (S : forall r : res (transforms F * nat), (forall y, r = Ok y -> exists t, fst y = ts ++ [t] /\ snd y = length ts) ->
    mapr (fun z => (fst z, Some (snd z))) r = Ok x -> exists t, fst x = ts ++ [t] /\ (snd x = Some (length ts) \/ exists f u, o = ConvertUnits f u /\ snd x = None)).
  { intros [y|] Hy; cbn; [|discriminate]. intros [= <-]. destruct (Hy y eq_refl) as (t & E & L). exists t. cbn. rewrite L. auto. }
  destruct o as [k|f u|v|up look|r|f r|f r]; cbn [apply_op].
  - apply S. intros y. unfold scale. destruct (nle _ _); [discriminate|]. apply A3.
  - unfold convert_units. destruct (MUnits.factor _ _ _) as [k|]; cbn [bindr]; [|discriminate]. destruct (scale inv ts k) as [y|] eqn:E; cbn; [|discriminate].
    intros [= <-]. cbn [fst snd]. unfold scale in E. destruct (nle _ _); [discriminate|]. destruct (A3 _ _ _ E) as (t & T & _). exists t. split; auto. right. eauto.
  - apply S. intros y. unfold translate. apply A4.
  - apply S. intros y. unfold reorient. destruct (rotation_from_up_and_look up look); cbn [bindr]; [|discriminate]. apply A3.
  - apply S. intros y. unfold rotate. destruct (as_rot r); cbn [bindr]; [|discriminate]. apply A3.
  - apply S. intros y. apply A3.
  - apply S. intros y. apply A4.
Qed.
Lemma after_appends os : forall ts, exists new, after inv as_rot ts os = ts ++ new.
Proof.
  induction os as [|o os IH]; intros ts; [exists []; now rewrite app_nil_r|]. cbn [after fold_left].
  destruct (apply_op inv as_rot ts o) as [[ts' i]|] eqn:E; [|apply IH].
  destruct (op_appends E) as (t & T & _). cbn [fst] in T. subst ts'. destruct (IH (ts ++ [t])) as [new Q]. exists (t :: new).
  unfold after in Q. rewrite Q, <- app_assoc. reflexivity.
Qed.

Lemma step_transform m e : transform (step inv as_rot m e) = after inv as_rot (transform m) (transform_calls [e]).
Proof.
  destruct e as [o|a|a x]; cbn.
  - unfold add_transform. destruct (apply_op inv as_rot (transform m) o) as [[ts i]|]; reflexivity.
  - reflexivity.
  - unfold set_attr. destruct (lookup _ a); reflexivity.
Qed.
Lemma calls_app (es es' : list (event F B)) : transform_calls (es ++ es') = transform_calls es ++ transform_calls es'.
Proof. unfold transform_calls. apply flat_map_app. Qed.
Lemma run_transform es : forall m, transform (fold_left (step inv as_rot) es m) = after inv as_rot (transform m) (transform_calls es).
Proof.
  induction es as [|e es IH]; intros m; auto. cbn [fold_left]. rewrite IH, step_transform.
  change (e :: es) with ([e] ++ es). rewrite calls_app. unfold after. rewrite fold_left_app. reflexivity.
Qed.
Lemma lookup_step m e a : e <> TagAs a -> lookup (tags_to_indices (step inv as_rot m e)) a = lookup (tags_to_indices m) a.
Proof.
  intros H. destruct e as [o|b|b x]; cbn.
  - unfold add_transform. destruct (apply_op inv as_rot (transform m) o) as [[ts i]|]; reflexivity.
  - unfold lookup. cbn. destruct (String.eqb_spec b a) as [->|]; auto. congruence.
  - unfold set_attr. destruct (lookup _ b); reflexivity.
Qed.
Lemma lookup_run es a : not_tagged a es -> forall m, lookup (tags_to_indices (fold_left (step inv as_rot) es m)) a = lookup (tags_to_indices m) a.
Proof.
  induction es as [|e es IH]; intros H m; auto. cbn [fold_left]. rewrite IH, lookup_step; auto.
  - intros ->. apply H. now left.
  - intros Q. apply H. now right.
Qed.
Lemma lookup_tagged h1 h2 a : not_tagged a h2 ->
  lookup (tags_to_indices (history inv as_rot (h1 ++ TagAs a :: h2))) a = Some (length (after inv as_rot [] (transform_calls h1))).
Proof.
  intros H. unfold history. rewrite fold_left_app. cbn [fold_left]. rewrite lookup_run by auto. cbn [step tag_as tags_to_indices].
  unfold lookup. cbn [find fst]. rewrite String.eqb_refl. cbn [snd]. rewrite run_transform. reflexivity.
Qed.
Lemma tagged_split es a : In (TagAs a) es -> exists h1 h2, es = h1 ++ TagAs a :: h2 /\ not_tagged a h2.
Proof.
  induction es as [|e es IH]; [intros []|]. intros H.
  assert (D : In (TagAs a) es \/ not_tagged a es).
  { clear -es. unfold not_tagged. induction es as [|e es [IH|IH]]; [right; intros []|left; now right|].
    destruct e as [o|b|b x]; try (right; intros [Q|Q]; [discriminate|auto]).
    destruct (String.eqb_spec b a) as [->|Q]; [left; now left|]. right. intros [E|E]; [congruence|auto]. }
  destruct D as [D|D].
  - destruct (IH D) as (h1 & h2 & -> & X). exists (e :: h1), h2. auto.
  - destruct H as [->|H]; [|contradiction]. exists [], es. auto.
Qed.
Lemma lookup_none es a : lookup (tags_to_indices (history inv as_rot es)) a = None <-> not_tagged a es.
Proof.
  split.
  - intros H Q. apply tagged_split in Q as (h1 & h2 & -> & X). rewrite lookup_tagged in H by auto. discriminate.
  - intros H. unfold history. rewrite lookup_run by auto. reflexivity.
Qed.
(** a known tag's index splits the transform list *)
Lemma lookup_known es a : In (TagAs a) es -> exists i, lookup (tags_to_indices (history inv as_rot es)) a = Some i /\ (i <= length (transform (history inv as_rot es)))%nat.
Proof.
  intros H. destruct (tagged_split H) as (h1 & h2 & -> & X). eexists. split; [apply lookup_tagged, X|].
  unfold history. rewrite run_transform, calls_app. cbn [new_manager transform]. unfold after at 2. rewrite fold_left_app.
  destruct (after_appends (transform_calls (TagAs a :: h2)) (after inv as_rot [] (transform_calls h1))) as [new E].
  unfold after in E. rewrite E. unfold after. rewrite app_length. lia.
Qed.

Lemma readable_found m b : readable b -> existsb (String.eqb b) (class_attributes ++ instance_attributes ++
                 match current m with Some _ => ["points_or_mesh"%string] | None => [] end) = false.
Proof.
  intros [P O]. destruct (existsb _ _) eqn:E; auto. exfalso. apply existsb_exists in E as (x & I & E). apply String.eqb_eq in E. subst x.
  unfold class_attributes, instance_attributes in I. apply in_app_iff in I as [I|I].
  - repeat (destruct I as [<-|I]; [first [exfalso; apply P; reflexivity|apply O; cbn; tauto]|]). destruct I.
  - apply O. apply in_app_iff in I as [I|I].
    + repeat (destruct I as [<-|I]; [cbn; tauto|]). destruct I.
    + destruct (current m); [|destruct I]. destruct I as [<-|[]]. cbn. tauto.
Qed.
Lemma set_then_read_eq m a x b i : readable b -> lookup (tags_to_indices m) a = Some i ->
  set_then_read m a x b = mapr Value (do_transform m x a b).
Proof.
  intros Rb La. unfold set_then_read, set_attr. rewrite La. cbn [bindr]. unfold get_attr. rewrite readable_found by auto. reflexivity.
Qed.
Lemma slice_middle A (l1 l2 l3 : list A) : slice (l1 ++ l2 ++ l3) (Some (Z.of_nat (length l1))) (Some (Z.of_nat (length l1 + length l2))) = l2.
Proof.
  unfold slice, slice_bound. rewrite !(proj2 (Z.ltb_ge _ _)) by lia. rewrite !Nat2Z.id, !app_length.
  rewrite !Nat.min_l by lia. replace (length l1 + length l2 - length l1)%nat with (length l2) by lia.
  rewrite skipn_app, skipn_all, Nat.sub_diag. cbn [skipn app]. rewrite firstn_app, firstn_all, Nat.sub_diag. cbn. now rewrite app_nil_r.
Qed.
Lemma call_middle (l1 l2 l3 : transforms F) ps r : call (l1 ++ l2 ++ l3) ps (Some (Some (Z.of_nat (length l1)), Some (Z.of_nat (length l1 + length l2)))) r = call l2 ps None r.
Proof. unfold call, matrix_for. now rewrite slice_middle. Qed.
End Generic.

Section Exact.
Context {B : Type}.
Variables (inv : M4 xr -> res (M4 xr)) (as_rot : rot_arg xr -> res (M3 xr)).
Implicit Types (m : manager xr B) (es h : list (event xr B)).

Lemma fin3s_inj ps qs : map fin3 ps = map fin3 qs -> ps = qs.
Proof.
  revert qs. induction ps as [|p ps IH]; intros [|q qs] E; try discriminate; auto. cbn in E. injection E as E1 E2.
  f_equal; auto. apply fin3_inj. destruct p, q; cbn in *; congruence.
Qed.
(** the three pieces of a history around two tags *)
Lemma two_tags h1 h2 h3 a b : not_tagged a (h2 ++ TagAs b :: h3) -> not_tagged b h3 ->
  exists T1 T2 T3 : transforms xr, let m := history inv as_rot (h1 ++ TagAs a :: h2 ++ TagAs b :: h3) in
    transform m = T1 ++ T2 ++ T3 /\ lookup (tags_to_indices m) a = Some (length T1) /\ lookup (tags_to_indices m) b = Some (length T1 + length T2)%nat /\
    after inv as_rot T1 (transform_calls h2) = T1 ++ T2.
Proof.
  intros Ha Hb. set (T1 := after inv as_rot [] (transform_calls h1)).
  destruct (after_appends inv as_rot (transform_calls h2) T1) as [T2 E2].
  destruct (after_appends inv as_rot (transform_calls h3) (T1 ++ T2)) as [T3 E3].
  exists T1, T2, T3. cbv zeta. repeat split; auto.
  - unfold history. rewrite run_transform. cbn [new_manager transform]. rewrite calls_app. change (transform_calls (TagAs a :: ?l)) with (transform_calls l).
    change (TagAs a :: h2 ++ TagAs b :: h3) with ([TagAs a] ++ h2 ++ TagAs b :: h3). rewrite !calls_app.
    change (transform_calls [TagAs a]) with (@nil (op xr)). change (TagAs b :: h3) with ([TagAs b] ++ h3). rewrite !calls_app.
    change (transform_calls [TagAs b]) with (@nil (op xr)). cbn [app]. rewrite !after_app. fold T1. rewrite E2, E3. now rewrite app_assoc.
  - apply lookup_tagged, Ha.
  - change (h1 ++ TagAs a :: h2 ++ TagAs b :: h3) with (h1 ++ (TagAs a :: h2) ++ TagAs b :: h3). rewrite app_assoc, lookup_tagged by auto.
    f_equal. rewrite <- app_length, <- E2. f_equal. rewrite calls_app, after_app. reflexivity.
Qed.
Lemma read_forward h1 h2 h3 a b ps fs : readable b ->
  not_tagged a (h2 ++ TagAs b :: h3) -> not_tagged b h3 -> Forall2 (acts inv as_rot) (transform_calls h2) fs ->
  set_then_read (history inv as_rot (h1 ++ TagAs a :: h2 ++ TagAs b :: h3)) a (Points (map fin3 ps)) b
  = Ok (Value (Points (map fin3 (map (in_turn fs) ps)))).
Proof.
  intros Rb Ha Hb A. destruct (two_tags h1 Ha Hb) as (T1 & T2 & T3 & T & La & Lb & E).
  rewrite (set_then_read_eq _ Rb La). unfold do_transform. rewrite La, Lb, T.
  destruct (after_acts A) as (l & EL & P). specialize (EL T1). rewrite E, map_app in EL. apply app_inv_head in EL.
  destruct (Nat.eqb_spec (length T1) (length T1 + length T2)) as [Z|Z].
  - destruct T2; [|cbn in Z; lia]. destruct l; [|discriminate]. cbn [bindr mapr]. do 4 f_equal. cbn in P.
    clear -P. induction ps as [|p ps IH]; auto. cbn. now rewrite <- P, <- IH.
  - rewrite (proj2 (Nat.ltb_lt _ _)) by lia. rewrite call_middle. unfold call.
    destruct (matrix_fwd_any None EL) as (x & M & Q). rewrite M. unfold enc. rewrite apply_affine. cbn [bindr mapr]. do 4 f_equal. apply map_ext. intros p. rewrite <- P. apply Q.
Qed.
Lemma read_backward h1 h2 h3 a b ps fs : readable a ->
  not_tagged a (h2 ++ TagAs b :: h3) -> not_tagged b h3 -> Forall2 (acts inv as_rot) (transform_calls h2) fs -> Forall (valid inv as_rot) (transform_calls h2) ->
  exists qs, set_then_read (history inv as_rot (h1 ++ TagAs a :: h2 ++ TagAs b :: h3)) b (Points (map fin3 ps)) a = Ok (Value (Points (map fin3 qs))) /\
    map (in_turn fs) qs = ps.
Proof.
  intros Ra Ha Hb A V. destruct (two_tags h1 Ha Hb) as (T1 & T2 & T3 & T & La & Lb & E).
  rewrite (set_then_read_eq _ Ra Lb). unfold do_transform. rewrite La, Lb, T.
  destruct (after_acts A) as (l & EL & P). specialize (EL T1). rewrite E, map_app in EL. apply app_inv_head in EL.
  destruct (after_valid_gen V) as (l2 & E2 & M). specialize (E2 T1). rewrite E in E2. apply app_inv_head in E2. subst T2.
  exists (map (rev_map l2) ps). split.
  - destruct (Nat.eqb_spec (length T1 + length (map enc2 l2)) (length T1)) as [Z|Z].
    + destruct l2; [|cbn in Z; lia]. cbn [bindr mapr]. do 4 f_equal. clear. induction ps as [|p ps IH]; auto. cbn. now rewrite <- IH.
    + rewrite (proj2 (Nat.ltb_ge _ _)) by lia. rewrite call_middle, call_rev. reflexivity.
  - rewrite map_map. rewrite (map_ext _ (fun p => p)); [apply map_id|]. intros p. rewrite <- P.
    rewrite <- (fwd_rev p M) at 2. clear -EL. revert EL. generalize (rev_map l2 p). revert l. induction l2 as [|ab l2 IH]; intros [|x l] q EL; try discriminate; auto.
    assert (E1 : enc (fst ab) = enc x) by exact (f_equal (hd (enc aid)) EL). pose proof (f_equal (@tl _) EL) as E2. apply enc_inj in E1. subst x. change (fold_left (fun q a => aapply a q) l (aapply (fst ab) q) = fwd_map l2 (aapply (fst ab) q)). now apply IH.
Qed.

(** where a point lies after moving from index [i] to index [j] *)
Definition up_to (l : list (aff * aff)) (n : nat) (p : V3 R) : V3 R := fwd_map (firstn n l) p.
Definition down_from (l : list (aff * aff)) (n : nat) (p : V3 R) : V3 R := rev_map (firstn n l) p.
Definition move l i j p := up_to l j (down_from l i p).
Lemma mutual_firstn n l : Forall mutual l -> Forall mutual (firstn n l).
Proof. rewrite !Forall_forall. intros H x X. apply H. eapply In_firstn, X. Qed.
Lemma move_trans l i j k p : Forall mutual l -> move l j k (move l i j p) = move l i k p.
Proof. intros H. unfold move, up_to, down_from. rewrite rev_fwd; auto using mutual_firstn. Qed.
Lemma move_same l i p : Forall mutual l -> move l i i p = p.
Proof. intros H. apply fwd_rev. auto using mutual_firstn. Qed.
Lemma fwd_app l k p : fwd_map (l ++ k) p = fwd_map k (fwd_map l p).
Proof. unfold fwd_map. apply fold_left_app. Qed.
Lemma rev_app l k p : rev_map (l ++ k) p = rev_map l (rev_map k p).
Proof. unfold rev_map. apply fold_right_app. Qed.
Lemma slice_nat A (l : list A) i j : (i <= j <= length l)%nat -> firstn j l = firstn i l ++ slice l (Some (Z.of_nat i)) (Some (Z.of_nat j)).
Proof.
  intros H. unfold slice, slice_bound. rewrite !(proj2 (Z.ltb_ge _ _)) by lia. rewrite !Nat2Z.id, !Nat.min_l by lia.
  replace j with (i + (j - i))%nat at 1 by lia. apply firstn_plus.
Qed.
Lemma do_points m l x y i j ps : transform m = map enc2 l -> Forall mutual l -> lookup (tags_to_indices m) x = Some i -> lookup (tags_to_indices m) y = Some j ->
  (i <= length l)%nat -> (j <= length l)%nat -> do_transform m (Points (map fin3 ps)) x y = Ok (Points (map fin3 (map (move l i j) ps))).
Proof.
  intros T M Lx Ly Hi Hj. unfold do_transform. rewrite Lx, Ly, T.
  destruct (Nat.eqb_spec i j) as [->|Z].
  - cbn [bindr]. do 3 f_equal. clear -M. induction ps as [|p ps IH]; auto. cbn [map]. rewrite (move_same _ _ M), <- IH. reflexivity.
  - destruct (Nat.ltb_spec i j) as [L|L].
    + rewrite call_fwd. cbn [bindr select]. do 3 f_equal. apply map_ext. intros p. unfold move, up_to, down_from.
      rewrite (@slice_nat _ l i j), fwd_app, fwd_rev by (auto using mutual_firstn; lia). reflexivity.
    + rewrite call_rev. cbn [bindr select]. do 3 f_equal. apply map_ext. intros p. unfold move, up_to, down_from.
      rewrite (@slice_nat _ l j i), rev_app, fwd_rev by (auto using mutual_firstn; lia). reflexivity.
Qed.
Lemma read_via es a b c ps : Forall (valid inv as_rot) (transform_calls es) -> In (TagAs a) es -> In (TagAs b) es -> In (TagAs c) es -> readable b -> readable c ->
  exists qs rs, set_then_read (history inv as_rot es) a (Points (map fin3 ps)) b = Ok (Value (Points (map fin3 qs))) /\
    set_then_read (history inv as_rot es) b (Points (map fin3 qs)) c = Ok (Value (Points (map fin3 rs))) /\
    set_then_read (history inv as_rot es) a (Points (map fin3 ps)) c = Ok (Value (Points (map fin3 rs))).
Proof.
  intros V Ha Hb Hc Rb Rc. destruct (after_valid V) as (l & E & M).
  assert (T : transform (history inv as_rot es) = map enc2 l) by (unfold history; now rewrite run_transform).
  destruct (lookup_known inv as_rot Ha) as (i & Li & Bi). destruct (lookup_known inv as_rot Hb) as (j & Lj & Bj). destruct (lookup_known inv as_rot Hc) as (k & Lk & Bk).
  rewrite T, map_length in Bi, Bj, Bk.
  exists (map (move l i j) ps), (map (move l j k) (map (move l i j) ps)).
  rewrite (set_then_read_eq _ Rb Li), (set_then_read_eq _ Rc Lj), (set_then_read_eq _ Rc Li).
  rewrite (do_points _ T M Li Lj), (do_points _ T M Lj Lk), (do_points _ T M Li Lk) by auto. repeat split. cbn [mapr]. do 4 f_equal.
  rewrite map_map. apply map_ext. intros p. symmetry. now apply move_trans.
Qed.
End Exact.
