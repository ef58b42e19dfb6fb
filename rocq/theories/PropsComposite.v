(** * Properties C45 - C49: composite transforms and the coordinate manager. *)
From Coq Require Import String Reals ZArith List Bool Lra Lia.
From Verif Require Import Num B64 BLemmas Vec RVec VLemmas PMat3 MVx SpecUnits MUnits MRotation SpecRotation PRotation PRotation2 MComposite SpecComposite PComposite PCompositeB MCoord SpecCoord PCoord.
Import ListNotations.
Local Open Scope R_scope.

(** ** C45 *)
(** For any history of calls, the composite maps each point through the parts in
    the order they were added (calls that raise add nothing). *)
Theorem C45_parts_in_order : forall inv as_rot os fs ps, Forall2 (acts inv as_rot) os fs ->
  call (after inv as_rot [] os) (map fin3 ps) None false = Ok (map fin3 (map (in_turn fs) ps)).
Proof. exact call_acts. Qed.
Print Assumptions C45_parts_in_order.
(** Each successful call adds one part at the end; it returns the part's index
    ([convert_units] returns nothing); earlier parts are unchanged. *)
Theorem C45_index : forall inv as_rot (ts : transforms b64) o ts' r, apply_op inv as_rot ts o = Ok (ts', r) ->
  exists t, ts' = ts ++ [t] /\ nth_error ts' (length ts) = Some t /\
    (r = Some (length ts) \/ exists f u, o = ConvertUnits f u /\ r = None).
Proof.
  intros inv as_rot ts o ts' r H. destruct (op_appends H) as (t & E & Q). cbn [fst snd] in *. subst ts'. exists t. split; auto. split; auto.
  rewrite nth_error_app2 by lia. now rewrite Nat.sub_diag.
Qed.
Print Assumptions C45_index.
(** A range selects the parts at its indices, [i] inclusive to [j] exclusive. *)
Theorem C45_range : forall inv as_rot os fs ps (i j : nat), Forall2 (acts inv as_rot) os fs -> Forall (succeeds inv as_rot) os ->
  (i <= j <= length os)%nat ->
  call (after inv as_rot [] os) (map fin3 ps) (Some (Some (Z.of_nat i), Some (Z.of_nat j))) false
  = Ok (map fin3 (map (in_turn (firstn (j - i) (skipn i fs))) ps)).
Proof.
  intros inv as_rot os fs ps i j H S L. rewrite (call_range _ _ H S). pose proof (Forall2_len H) as E. do 2 f_equal.
  unfold select, slice, slice_bound. rewrite !(proj2 (Z.ltb_ge _ _)) by lia. rewrite !Nat2Z.id, !Nat.min_l by lia. reflexivity.
Qed.
Print Assumptions C45_range.
(** What is refused, and that a refused call changes nothing. *)
Theorem C45_refused : forall inv as_rot (ts : transforms xr),
  (forall k, k <= 0 -> apply_op inv as_rot ts (Scale (Fin k)) = Err ValueError) /\
  (forall f u, unit_of_kind f Weight -> f <> u -> exists e, apply_op inv as_rot ts (ConvertUnits (Some f) (Some u)) = Err e) /\
  (forall up look, rcross up look = rzero -> apply_op inv as_rot ts (Reorient (fin3 up) (fin3 look)) = Err ValueError) /\
  (forall n r, exists e, apply_op inv as_rot ts (Append3 (MatOther n) r) = Err e) /\
  (forall o os, raises inv as_rot o -> after inv as_rot ts (o :: os) = after inv as_rot ts os).
Proof.
  intros inv as_rot ts. split; [|split; [|split; [|split]]].
  - intros k H. cbn [apply_op]. now rewrite scale_bad.
  - intros f u [w W] Ne. cbn [apply_op]. unfold convert_units.
    destruct (PUnits.factor_decision PUnits.table_nonzero_xr (Some f) (Some u) (Some "length"%string)) as [[C _]|[_ D]].
    + exfalso. destruct C as [[[B|B] _]|[B|(sa & sb & k & Ea & Eb & [ma Ha] & _ & A)]]; try congruence.
      * injection B as ->. discriminate W.
      * injection Ea as <-. rewrite W in Ha. injection Ha as <- <-. destruct A as [[A|A]|A]; discriminate.
    + destruct D as [(_ & _ & D)|(_ & D)]; rewrite D; cbn; eauto.
  - intros up look H. cbn [apply_op]. unfold reorient. now rewrite up_look_refused.
  - intros n r. cbn [apply_op]. unfold append_transform3. destruct n as [|[|n]], r; cbn; eauto.
  - intros o os H. rewrite after_cons. now rewrite one_raises.
Qed.
Print Assumptions C45_refused.
(** the two conversions: bordering with a unit row and column, and dropping the last
    row and column *)
Theorem C45_convert : (forall m : M3 b64, exists x, convert_33_to_44 (Mat33 m) = Ok x /\ convert_44_to_33 x = m) /\
  (forall a b c d e f g h i j k l m n o p : b64,
    convert_44_to_33 (mk4 (mk4 a b c d) (mk4 e f g h) (mk4 i j k l) (mk4 m n o p)) = mk3 (mk3 a b c) (mk3 e f g) (mk3 i j k)) /\
  (forall m : M3 R, exists x, convert_33_to_44 (Mat33 (finm m)) = Ok x /\
     forall ps, apply_homogeneous (map fin3 ps) x = Ok (map fin3 (map (rapply m) ps))).
Proof.
  split; [|split].
  - intros [[? ? ?] [? ? ?] [? ? ?]]. eexists. split; reflexivity.
  - reflexivity.
  - intros m. exists (enc (m, rzero)). split; [reflexivity|]. intros ps. unfold enc; cbn [fst snd]; rewrite PVx.apply_affine. do 2 f_equal. apply map_ext. intros p. cbn. destruct (rapply m p). unfold radd, rzero. cbn. f_equal; ring.
Qed.
Print Assumptions C45_convert.
Definition no_inv : M4 xr -> res (M4 xr) := fun _ => Err LinAlgError.
Definition rot1 := as_rotation_matrix (F := xr) (fun _ => Err LinAlgError).
Example C45_example : exists m, rotation m /\
  Forall2 (acts no_inv rot1)
    [Scale (Fin 2); Translate (fin3 (mk3 1 2 3)); ConvertUnits (Some "cm"%string) (Some "m"%string); Scale (Fin (-1)); Rotate (RVector (fin3 (mk3 1 0 0)))]
    [(fun p => rscale 2 p); (fun p => radd p (mk3 1 2 3)); (fun p => rscale (1 / 100 / 1) p); (fun p => p); rapply m].
Proof.
  destruct (rodrigues_vec_rotation (mk3 1 0 0)) as (m & E & M). exists m. split; auto.
  repeat (apply Forall2_cons || apply Forall2_nil).
  - constructor. lra.
  - constructor.
  - now constructor.
  - constructor. intros ts. exists ValueError. cbn [apply_op]. rewrite scale_bad; [reflexivity|lra].
  - constructor. unfold rot1. cbn. now rewrite E.
Qed.

(** ** C46 *)
Theorem C46_reverse_undoes : forall inv as_rot os ps r, Forall (valid inv as_rot) os ->
  let ts := after inv as_rot [] os in
  (exists qs, call ts (map fin3 ps) r false = Ok (map fin3 qs) /\ call ts (map fin3 qs) r true = Ok (map fin3 ps)) /\
  (exists qs, call ts (map fin3 ps) r true = Ok (map fin3 qs) /\ call ts (map fin3 qs) r false = Ok (map fin3 ps)).
Proof.
  intros inv as_rot os ps r V ts. destruct (after_valid V) as (l & E & M). subst ts. rewrite E. split.
  - exists (map (fwd_map (select l r)) ps). rewrite call_fwd, call_rev. split; auto. do 2 f_equal. rewrite map_map.
    rewrite <- (map_id ps) at 2. apply map_ext. intros p. apply rev_fwd, mutual_select, M.
  - exists (map (rev_map (select l r)) ps). rewrite call_fwd, call_rev. split; auto. do 2 f_equal. rewrite map_map.
    rewrite <- (map_id ps) at 2. apply map_ext. intros p. apply fwd_rev, mutual_select, M.
Qed.
Print Assumptions C46_reverse_undoes.
(** Every rotation vector is a valid argument of [rotate]. *)
Theorem C46_rotate_valid : forall inv svd v, valid inv (as_rotation_matrix svd) (Rotate (RVector (fin3 v))).
Proof. intros inv svd v. destruct (rodrigues_vec_rotation v) as (m & E & M). apply valid_rotate with m; auto. cbn. now rewrite E. Qed.
Print Assumptions C46_rotate_valid.
Example C46_example : Forall (valid no_inv rot1)
  [Scale (Fin 2); Translate (fin3 (mk3 1 2 3)); ConvertUnits (Some "cm"%string) (Some "m"%string); Reorient (fin3 ey) (fin3 ex); Rotate (RVector (fin3 (mk3 1 0 0)));
   Append3 (Mat33 (finm (kdiag 2))) (Some (Mat33 (finm (kdiag (/ 2)))))].
Proof.
  repeat (apply Forall_cons || apply Forall_nil).
  - constructor.
  - constructor.
  - constructor.
  - constructor.
  - apply C46_rotate_valid.
  - apply valid_append3. destruct (@kdiag_mutual 2) as [H1 H2]; [lra|]. split; assumption.
Qed.

(** ** C47 *)
Theorem C47_ranges_compose : forall inv as_rot os ps i j k, Forall (valid inv as_rot) os -> (0 <= i <= j)%Z -> (j <= k)%Z ->
  let ts := after inv as_rot [] os in
  let range a b := Some (Some a, Some b) in
  (exists qs, call ts (map fin3 ps) (range i j) false = Ok (map fin3 qs) /\
     call ts (map fin3 qs) (range j k) false = call ts (map fin3 ps) (range i k) false) /\
  (exists qs, call ts (map fin3 ps) (range j k) true = Ok (map fin3 qs) /\
     call ts (map fin3 qs) (range i j) true = call ts (map fin3 ps) (range i k) true).
Proof.
  intros inv as_rot os ps i j k V H1 H2 ts range. destruct (after_valid V) as (l & E & M). subst ts range. rewrite E. split.
  - exists (map (fwd_map (select l (Some (Some i, Some j)))) ps). rewrite !call_fwd. split; auto. do 2 f_equal. rewrite map_map. apply map_ext. intros p.
    unfold select. rewrite (slice_split l H1 H2), fwd_app. reflexivity.
  - exists (map (rev_map (select l (Some (Some j, Some k)))) ps). rewrite !call_rev. split; auto. do 2 f_equal. rewrite map_map. apply map_ext. intros p.
    unfold select. rewrite (slice_split l H1 H2), rev_app. reflexivity.
Qed.
Print Assumptions C47_ranges_compose.
(** An empty range is the identity, whatever the parts are; so is an empty composite. *)
Theorem C47_empty_range : forall (ts : transforms xr) ps i j r, (0 <= j <= i)%Z ->
  call ts (map fin3 ps) (Some (Some i, Some j)) r = Ok (map fin3 ps) /\ call [] (map fin3 ps) None r = Ok (map fin3 ps).
Proof.
  intros ts ps i j r H.
  assert (E0 : call [] (map fin3 ps) None r = Ok (map fin3 ps)).
  { change (@nil (M4 xr * M4 xr)) with (map enc2 []). destruct r; [rewrite call_rev|rewrite call_fwd]; cbn [select]; do 2 f_equal; rewrite <- (map_id ps) at 2; apply map_ext; reflexivity. }
  split; auto. rewrite <- E0. unfold call, matrix_for. replace (slice ts (Some i) (Some j)) with (@nil (M4 xr * M4 xr)); auto.
  unfold slice, slice_bound. rewrite !(proj2 (Z.ltb_ge _ _)) by lia. replace (_ - _)%nat with 0%nat by lia. reflexivity.
Qed.
Print Assumptions C47_empty_range.
(** Python's conventions: None is the end of the list, negative bounds count from
    the end, and bounds past the end are cut off. *)
Theorem C47_bounds : forall (ts : transforms b64) ps r i j, let n := Z.of_nat (length ts) in
  call ts ps (Some (None, j)) r = call ts ps (Some (Some 0%Z, j)) r /\
  call ts ps (Some (i, None)) r = call ts ps (Some (i, Some n)) r /\
  call ts ps (Some (Some 0%Z, Some n)) r = call ts ps None r /\
  (forall a, (- n <= a < 0)%Z -> call ts ps (Some (Some a, j)) r = call ts ps (Some (Some (a + n)%Z, j)) r /\
                                 call ts ps (Some (i, Some a)) r = call ts ps (Some (i, Some (a + n)%Z)) r) /\
  (forall a, (n <= a)%Z -> call ts ps (Some (i, Some a)) r = call ts ps (Some (i, Some n)) r).
Proof.
  intros ts ps r i j n. unfold call, matrix_for.
  assert (S : forall i i' j j', slice_bound (length ts) 0 i = slice_bound (length ts) 0 i' -> slice_bound (length ts) (length ts) j = slice_bound (length ts) (length ts) j' ->
    slice ts i j = slice ts i' j').
  { intros ? ? ? ? E1 E2. unfold slice. now rewrite E1, E2. }
  assert (N : slice_bound (length ts) (length ts) (Some n) = length ts).
  { unfold slice_bound, n. rewrite (proj2 (Z.ltb_ge _ _)) by lia. rewrite Nat2Z.id. apply Nat.min_id. }
  repeat split; try intros a Ha; cbv beta iota zeta.
  - rewrite (S i i None (Some n)); auto.
  - rewrite (S (Some 0%Z) None (Some n) None); auto. unfold slice. cbn [slice_bound]. rewrite Nat.sub_0_r. cbn [skipn]. now rewrite firstn_all.
  - rewrite (S (Some a) (Some (a + n)%Z) j j); auto. unfold slice_bound. rewrite (proj2 (Z.ltb_lt a 0)), (proj2 (Z.ltb_ge (a + n) 0)) by lia. unfold n. lia.
  - rewrite (S i i (Some a) (Some (a + n)%Z)); auto. unfold slice_bound. rewrite (proj2 (Z.ltb_lt a 0)), (proj2 (Z.ltb_ge (a + n) 0)) by lia. unfold n. lia.
  - rewrite (S i i (Some a) (Some n)); auto. rewrite N. unfold slice_bound. rewrite (proj2 (Z.ltb_ge a 0)) by lia. lia.
Qed.
Print Assumptions C47_bounds.

(** ** C48 *)
(** [built o]: any call except adding a bare 4x4 matrix, or a 3x3 matrix whose
    inverse is left to [np.linalg.inv].  If the entries of the combined matrix
    are finite, its last row is exactly 0, 0, 0, 1 and applying it to finite
    points does not raise. *)
Theorem C48_last_row_exact : forall inv as_rot os range reverse, Forall built os ->
  let m := matrix_for (after inv as_rot [] os) range reverse in fin_m4 m ->
  Bval (d0 (d3 m)) = 0 /\ Bval (d1 (d3 m)) = 0 /\ Bval (d2 (d3 m)) = 0 /\ Bval (d3 (d3 m)) = 1.
Proof. intros inv as_rot os range reverse B m Fm. apply (matrix_lrow (ts := after inv as_rot [] os)); auto. apply after_good; auto. Qed.
Print Assumptions C48_last_row_exact.
Theorem C48_never_raises : forall inv as_rot os range reverse ps, Forall built os ->
  fin_m4 (matrix_for (after inv as_rot [] os) range reverse) -> Forall fin_v3 ps ->
  exists qs, call (after inv as_rot [] os) ps range reverse = Ok qs /\ length qs = length ps.
Proof. intros inv as_rot os range reverse ps B Fm P. apply apply_ok; auto. apply matrix_lrow; auto. apply after_good; auto. Qed.
Print Assumptions C48_never_raises.
Definition ops_b64 : list (op b64) :=
  [Scale (nlit 1 10); Translate (mk3 (nlit 1 3) (nofZ 2) (nofZ 3)); ConvertUnits (Some "in"%string) (Some "cm"%string); Reorient (mk3 (nofZ 1) (nofZ 2) n0) (mk3 n0 n0 (nofZ 1));
   Scale (nofZ 0); Append3 (Mat33 (diag_repeat (nlit 7 10))) (Some (Mat33 (diag_repeat (nlit 10 7))))].
Example C48_example : Forall built ops_b64 /\
  forall reverse, fin_m4 (matrix_for (after (fun _ => Err LinAlgError) (fun _ => Err LinAlgError) [] ops_b64) None reverse) /\
    length (after (fun _ => Err LinAlgError) (fun _ => Err LinAlgError) [] ops_b64) = 5%nat.
Proof.
  split; [repeat constructor|]. intros reverse. split; [|vm_compute; reflexivity].
  destruct reverse; unfold fin_m4, fin_v4; repeat split; vm_compute; reflexivity.
Qed.

(** ** C49 *)
(** [a] was last tagged between [h1] and [h2], [b] between [h2] and [h3]: setting
    points at [a] and reading at [b] maps them through exactly the transforms of
    [h2], whatever [h1] and [h3] are. *)
Theorem C49_forward : forall (B : Type) inv as_rot (h1 h2 h3 : list (event xr B)) a b ps fs, readable b ->
  not_tagged a (h2 ++ TagAs b :: h3) -> not_tagged b h3 -> Forall2 (acts inv as_rot) (transform_calls h2) fs ->
  set_then_read (history inv as_rot (h1 ++ TagAs a :: h2 ++ TagAs b :: h3)) a (Points (map fin3 ps)) b
  = Ok (Value (Points (map fin3 (map (in_turn fs) ps)))).
Proof. exact @read_forward. Qed.
Print Assumptions C49_forward.
(** The other way: the points read at [a] are those that the transforms of [h2]
    map to the points set at [b]. *)
Theorem C49_backward : forall (B : Type) inv as_rot (h1 h2 h3 : list (event xr B)) a b ps fs, readable a ->
  not_tagged a (h2 ++ TagAs b :: h3) -> not_tagged b h3 ->
  Forall2 (acts inv as_rot) (transform_calls h2) fs -> Forall (valid inv as_rot) (transform_calls h2) ->
  exists qs, set_then_read (history inv as_rot (h1 ++ TagAs a :: h2 ++ TagAs b :: h3)) b (Points (map fin3 ps)) a = Ok (Value (Points (map fin3 qs))) /\
    map (in_turn fs) qs = ps.
Proof. exact @read_backward. Qed.
Print Assumptions C49_backward.
(** Reading at the tag where the value was set returns the value unchanged (in
    double arithmetic, points and meshes). *)
Theorem C49_same_tag : forall (B : Type) inv as_rot (es : list (event b64 B)) a x, readable a -> In (TagAs a) es ->
  set_then_read (history inv as_rot es) a x a = Ok (Value x).
Proof.
  intros B inv as_rot es a x Ra H. destruct (lookup_known inv as_rot H) as (i & L & _). rewrite (set_then_read_eq _ Ra L).
  unfold do_transform. rewrite L, Nat.eqb_refl. destruct x as [ps|[ps|] rest]; reflexivity.
Qed.
Print Assumptions C49_same_tag.
(** Going through any intermediate tag gives the same points. *)
Theorem C49_via : forall (B : Type) inv as_rot (es : list (event xr B)) a b c ps, Forall (valid inv as_rot) (transform_calls es) ->
  In (TagAs a) es -> In (TagAs b) es -> In (TagAs c) es -> readable b -> readable c ->
  exists qs rs, set_then_read (history inv as_rot es) a (Points (map fin3 ps)) b = Ok (Value (Points (map fin3 qs))) /\
    set_then_read (history inv as_rot es) b (Points (map fin3 qs)) c = Ok (Value (Points (map fin3 rs))) /\
    set_then_read (history inv as_rot es) a (Points (map fin3 ps)) c = Ok (Value (Points (map fin3 rs))).
Proof. exact @read_via. Qed.
Print Assumptions C49_via.
(** Unknown tags are rejected; so is reading before anything was set. *)
Theorem C49_unknown_tag : forall (B : Type) inv as_rot (es : list (event b64 B)) a, not_tagged a es ->
  (forall x, set_attr (history inv as_rot es) a x = Err AttributeError) /\
  (forall b x, readable a -> In (TagAs b) es -> (forall rest, x <> MeshObj None rest) ->
     set_then_read (history inv as_rot es) b x a = Err AttributeError).
Proof.
  intros B inv as_rot es a H. apply (lookup_none inv as_rot) in H. split.
  - intros x. unfold set_attr. now rewrite H.
  - intros b x Ra Hb NE. destruct (lookup_known inv as_rot Hb) as (i & L & _). rewrite (set_then_read_eq _ Ra L). unfold do_transform. rewrite L, H.
    destruct x as [ps|[ps|] rest]; try reflexivity. exfalso. apply (NE rest). reflexivity.
Qed.
Print Assumptions C49_unknown_tag.
Theorem C49_read_before_set : forall (B : Type) inv as_rot (es : list (event b64 B)) a, readable a ->
  (forall b x, In (SetAttr b x) es -> not_tagged b es) -> get_attr (history inv as_rot es) a = Err ValueError.
Proof.
  intros B inv as_rot es a Ra H. unfold get_attr. rewrite readable_found by auto.
  assert (C : current (history inv as_rot es) = None).
  { assert (G : forall es (m : manager b64 B), (forall b x, In (SetAttr b x) es -> not_tagged b es /\ lookup (tags_to_indices m) b = None) -> current m = None ->
      current (fold_left (step inv as_rot) es m) = None).
    { clear. induction es as [|e es IH]; intros m H C; auto. cbn [fold_left]. apply IH.
      - intros b x Q. destruct (H b x) as [Nt L]; [now right|]. split; [intros Q'; apply Nt; now right|]. rewrite lookup_step; auto. intros ->. apply Nt. now left.
      - destruct e as [o|b|b x]; cbn.
        + unfold add_transform. destruct (apply_op inv as_rot (transform m) o); auto.
        + auto.
        + destruct (H b x) as [_ L]; [now left|]. unfold set_attr. now rewrite L. }
    apply G; [|reflexivity]. intros b x Q. split; [exact (H b x Q)|reflexivity]. }
  now rewrite C.
Qed.
Print Assumptions C49_read_before_set.
(** A mesh is copied with its vertices transformed and everything else kept; a
    mesh without vertices comes back as it is. *)
Theorem C49_mesh : forall (B : Type) (m : manager b64 B) a b ps rest, readable b ->
  (forall qs, set_then_read m a (Points ps) b = Ok (Value (Points qs)) -> set_then_read m a (MeshObj (Some ps) rest) b = Ok (Value (MeshObj (Some qs) rest))) /\
  (forall e, set_then_read m a (Points ps) b = Err e -> set_then_read m a (MeshObj (Some ps) rest) b = Err e) /\
  (forall i, lookup (tags_to_indices m) a = Some i -> set_then_read m a (MeshObj None rest) b = Ok (Value (MeshObj None rest))).
Proof.
  intros B m a b ps rest Rb. destruct (lookup (tags_to_indices m) a) as [i|] eqn:L.
  - rewrite !(set_then_read_eq _ Rb L). unfold do_transform.
    repeat split; try reflexivity; intros r; destruct (match lookup _ a with Some _ => _ | None => _ end); cbn; try discriminate; intros [= <-]; reflexivity.
  - unfold set_then_read, set_attr. rewrite L. cbn [bindr]. repeat split; intros; congruence.
Qed.
Print Assumptions C49_mesh.
(** FINDING: a tag named like one of the object's own fields or methods can be
    set but not read. *)
Theorem C49_reserved_names : forall (B : Type) (m : manager b64 B) x,
  set_then_read (tag_as m "points") "points" x "points" = Ok Internal /\
  set_then_read (tag_as m "scale") "scale" x "scale" = Ok Internal.
Proof. intros B m x. split; reflexivity. Qed.
Print Assumptions C49_reserved_names.
Example C49_example :
  let h2 := [Do (Scale (Fin 2)); @TagAs xr unit "mid"%string; Do (Translate (fin3 (mk3 1 2 3)))] in
  let h3 := [Do (Scale (Fin 5))] in
  readable "floored" /\ not_tagged "source" (h2 ++ TagAs "floored" :: h3) /\ not_tagged "floored" h3 /\
  Forall2 (acts no_inv rot1) (transform_calls h2) [(fun p => rscale 2 p); (fun p => radd p (mk3 1 2 3))] /\
  Forall (valid no_inv rot1) (transform_calls h2).
Proof.
  cbn [transform_calls flat_map app]. unfold readable, python_name, own_names, not_tagged. cbn. repeat split; try (intuition discriminate).
  - repeat (apply Forall2_cons || apply Forall2_nil); constructor; lra.
  - repeat (apply Forall_cons || apply Forall_nil); constructor.
Qed.
