(** * Proofs about composite transforms, exact arithmetic. *)
From Coq Require Import String Reals ZArith List Bool Lra Lia.
From Flocq Require Import Core.
From Verif Require Import Num XLemmas Vec RVec VLemmas PMat3 NpList MVx PVx SpecUnits MUnits PUnits MRotation PRotation PRotation2 MComposite SpecComposite.
Import ListNotations.
Local Open Scope R_scope.
Set Implicit Arguments.
Unset Strict Implicit.

(** affine maps as pairs *)
Definition aff := (M3 R * V3 R)%type.
Definition enc (a : aff) : M4 xr := finm4 (affine (fst a) (snd a)).
Definition aapply (a : aff) (p : V3 R) : V3 R := radd (rapply (fst a) p) (snd a).
Definition amul (a b : aff) : aff := (rmmul (fst a) (fst b), radd (rapply (fst a) (snd b)) (snd a)).
Definition aid : aff := (reye, rzero).

Lemma aapply_amul a b p : aapply (amul a b) p = aapply a (aapply b p).
Proof. destruct a, b. unfold aapply, amul. cbn [fst snd]. vring. Qed.
Lemma aapply_aid p : aapply aid p = p.
Proof. unfold aapply, aid. cbn [fst snd]. vring. Qed.
Lemma enc_aid : m4eye = enc aid. Proof. reflexivity. Qed.
Lemma m4trans_invol A (m : M4 A) : m4trans (m4trans m) = m.
Proof. destruct m as [[] [] [] []]; reflexivity. Qed.
Lemma enc_amul a b : m4mul (enc a) (enc b) = enc (amul a b).
Proof.
  destruct a as [[[a00 a01 a02] [a10 a11 a12] [a20 a21 a22]] [t0 t1 t2]], b as [[[b00 b01 b02] [b10 b11 b12] [b20 b21 b22]] [u0 u1 u2]].
  unfold enc, amul, m4mul, m4trans, affine, finm4, fin4, map4, vdot4, rmmul, rapply, radd, rdot, rcol0, rcol1, rcol2. cbn [fst snd c0 c1 c2 d0 d1 d2 d3].
  xs. f_equal; f_equal; f_equal; ring.
Qed.
Lemma xmul_comm (x y : xr) : (x * y)%num = (y * x)%num.
Proof. destruct x, y; cbn; auto. f_equal. ring. Qed.
Lemma vdot4_comm (v w : V4 xr) : vdot4 v w = vdot4 w v.
Proof. unfold vdot4. now rewrite (xmul_comm (d0 v)), (xmul_comm (d1 v)), (xmul_comm (d2 v)), (xmul_comm (d3 v)). Qed.
Lemma m4mul_trans (a b : M4 xr) : m4mul (m4trans a) (m4trans b) = m4trans (m4mul b a).
Proof.
  destruct b as [b0 b1 b2 b3]. unfold m4mul. rewrite m4trans_invol. destruct a as [a0 a1 a2 a3]. unfold m4trans. 
  set (x0 := map4 d0 (mk4 a0 a1 a2 a3)). set (x1 := map4 d1 (mk4 a0 a1 a2 a3)). set (x2 := map4 d2 (mk4 a0 a1 a2 a3)). set (x3 := map4 d3 (mk4 a0 a1 a2 a3)).
  unfold map4. cbn [d0 d1 d2 d3]. rewrite !(vdot4_comm b0), !(vdot4_comm b1), !(vdot4_comm b2), !(vdot4_comm b3). reflexivity.
Qed.
Lemma enc_amul_t a b : m4mul (m4trans (enc a)) (m4trans (enc b)) = m4trans (enc (amul b a)).
Proof. now rewrite m4mul_trans, enc_amul. Qed.

Lemma enc_inj a b : enc a = enc b -> a = b.
Proof.
  destruct a as [[[a00 a01 a02] [a10 a11 a12] [a20 a21 a22]] [t0 t1 t2]], b as [[[b00 b01 b02] [b10 b11 b12] [b20 b21 b22]] [u0 u1 u2]].
  intros E. unfold enc, affine, finm4, fin4, map4 in E. cbn [fst snd c0 c1 c2 d0 d1 d2 d3] in E. injection E. intros. subst. reflexivity.
Qed.
Definition enc2 (ab : aff * aff) : M4 xr * M4 xr := (enc (fst ab), enc (snd ab)).
Definition fwd_map (l : list (aff * aff)) (p : V3 R) : V3 R := fold_left (fun q ab => aapply (fst ab) q) l p.
Definition rev_map (l : list (aff * aff)) (p : V3 R) : V3 R := fold_right (fun ab q => aapply (snd ab) q) p l.

Lemma fwd_fold l : forall a, exists m, fold_left m4mul (map (fun t => m4trans (fst t)) (map enc2 l)) (m4trans (enc a)) = m4trans (enc m) /\
  forall p, aapply m p = fwd_map l (aapply a p).
Proof.
  induction l as [|b l IH]; intros a; cbn [map fold_left].
  - exists a. split; auto.
  - unfold enc2 at 2. cbn [fst]. rewrite enc_amul_t. destruct (IH (amul (fst b) a)) as (m & E & P). exists m. split; auto.
    intros p. rewrite P, aapply_amul. reflexivity.
Qed.
Lemma rev_fold l : forall a, exists m, fold_left m4mul (map snd (map enc2 l)) (enc a) = enc m /\
  forall p, aapply m p = aapply a (rev_map l p).
Proof.
  induction l as [|b l IH]; intros a; cbn [map fold_left].
  - exists a. split; auto.
  - unfold enc2 at 2. cbn [snd]. rewrite enc_amul. destruct (IH (amul a (snd b))) as (m & E & P). exists m. split; auto.
    intros p. rewrite P, aapply_amul. reflexivity.
Qed.

Lemma slice_map A B (f : A -> B) l i j : slice (map f l) i j = map f (slice l i j).
Proof. unfold slice. now rewrite map_length, skipn_map, firstn_map. Qed.
Definition select {A} (l : list A) (r : option (option Z * option Z)) : list A :=
  match r with Some (i, j) => slice l i j | None => l end.
Lemma select_map A B (f : A -> B) l r : select (map f l) r = map f (select l r).
Proof. destruct r as [[i j]|]; [apply slice_map|reflexivity]. Qed.

Lemma matrix_fwd l r : exists m, matrix_for (map enc2 l) r false = enc m /\ forall p, aapply m p = fwd_map (select l r) p.
Proof.
  unfold matrix_for. change (match r with Some (start, stop) => slice (map enc2 l) start stop | None => map enc2 l end) with (select (map enc2 l) r).
  rewrite select_map. cbv beta iota. generalize (select l r). clear. intros [|a l]; cbn [map].
  - exists aid. split; [apply enc_aid|apply aapply_aid].
  - destruct (fwd_fold l (fst a)) as (m & E & P). exists m. unfold enc2 at 2. cbn [fst]. rewrite E, m4trans_invol. split; auto.
Qed.
Lemma matrix_rev l r : exists m, matrix_for (map enc2 l) r true = enc m /\ forall p, aapply m p = rev_map (select l r) p.
Proof.
  unfold matrix_for. change (match r with Some (start, stop) => slice (map enc2 l) start stop | None => map enc2 l end) with (select (map enc2 l) r).
  rewrite select_map. cbv beta iota. generalize (select l r). clear. intros [|a l]; cbn [map].
  - exists aid. split; [apply enc_aid|apply aapply_aid].
  - destruct (rev_fold l (snd a)) as (m & E & P). exists m. unfold enc2 at 2. cbn [snd]. rewrite (map_ext _ snd) by reflexivity. rewrite E. split; auto.
Qed.
Lemma call_fwd l r ps : call (map enc2 l) (map fin3 ps) r false = Ok (map fin3 (map (fwd_map (select l r)) ps)).
Proof.
  destruct (matrix_fwd l r) as (m & E & P). unfold call. rewrite E. unfold enc. rewrite apply_affine. do 2 f_equal. apply map_ext. intros p. apply P.
Qed.
Lemma call_rev l r ps : call (map enc2 l) (map fin3 ps) r true = Ok (map fin3 (map (rev_map (select l r)) ps)).
Proof.
  destruct (matrix_rev l r) as (m & E & P). unfold call. rewrite E. unfold enc. rewrite apply_affine. do 2 f_equal. apply map_ext. intros p. apply P.
Qed.

(** forward only: the reverse matrices may be anything *)
Lemma matrix_fwd_any (ts : transforms xr) (fs : list aff) r : map fst ts = map enc fs ->
  exists m, matrix_for ts r false = enc m /\ forall p, aapply m p = fold_left (fun q a => aapply a q) (select fs r) p.
Proof.
  intros H. destruct (matrix_fwd (map (fun a => (a, a)) fs) r) as (m & E & P). exists m. split.
  - rewrite <- E. unfold matrix_for.
    assert (G : forall ts ts' : transforms xr, map fst ts = map fst ts' ->
      map (fun t => m4trans (fst t)) (select ts r) = map (fun t => m4trans (fst t)) (select ts' r)).
    { intros a b Hab. rewrite <- !(map_map fst (fun x => m4trans x)), <- !select_map, Hab. reflexivity. }
    assert (X : map fst ts = map fst (map enc2 (map (fun a => (a, a)) fs))).
    { rewrite H, !map_map. reflexivity. }
    apply G in X. cbv beta iota. unfold select in X. rewrite X. reflexivity.
  - intros p. rewrite P, select_map. unfold fwd_map. generalize (select fs r). clear. intros l. revert p. induction l; intros p; cbn; auto.
Qed.

(** ** histories *)
Section History.
Variables (inv : M4 xr -> res (M4 xr)) (as_rot : rot_arg xr -> res (M3 xr)).
Definition one (ts : transforms xr) (o : op xr) : transforms xr :=
  match apply_op inv as_rot ts o with Ok (ts', _) => ts' | Err _ => ts end.
Lemma after_cons ts o os : after inv as_rot ts (o :: os) = after inv as_rot (one ts o) os.
Proof. reflexivity. Qed.
Lemma after_app os1 : forall ts os2, after inv as_rot ts (os1 ++ os2) = after inv as_rot (after inv as_rot ts os1) os2.
Proof. intros ts os2. unfold after. apply fold_left_app. Qed.

Lemma conv44 m : convert_33_to_44 (Mat33 (finm m)) = Ok (enc (m, rzero)). Proof. reflexivity. Qed.
Lemma diag_enc k : diag_repeat (Fin k) = finm (mk3 (mk3 k 0 0) (mk3 0 k 0) (mk3 0 0 k)). Proof. reflexivity. Qed.
Definition kdiag (k : R) : M3 R := mk3 (mk3 k 0 0) (mk3 0 k 0) (mk3 0 0 k).
Lemma kdiag_apply k p : rapply (kdiag k) p = rscale k p.
Proof. unfold kdiag. destruct p as [x y z]. vunf. cbn [c0 c1 c2]. f_equal; ring. Qed.
Lemma scale_ok ts k : 0 < k -> scale inv ts (Fin k) = Ok (ts ++ [(enc (kdiag k, rzero), enc (kdiag (/ k), rzero))], length ts).
Proof.
  intros H. unfold scale. change (nle (Fin k) n0) with (Rle_bool k 0). rewrite (Rle_bool_false k 0) by lra.
  change (nofZ 1) with (Fin 1). rewrite xdivE by lra. replace (1 / k) with (/ k) by (unfold Rdiv; ring). rewrite !diag_enc. unfold append_transform3. rewrite !conv44. reflexivity.
Qed.
Lemma scale_bad ts k : k <= 0 -> scale inv ts (Fin k) = Err ValueError.
Proof.
  intros H. unfold scale. change (nle (Fin k) n0) with (Rle_bool k 0). now rewrite (Rle_bool_true k 0) by lra.
Qed.
Lemma rigid3_ok ts m r : append_transform3 inv ts (Mat33 (finm m)) (Some (Mat33 (finm r))) = Ok (ts ++ [(enc (m, rzero), enc (r, rzero))], length ts).
Proof. reflexivity. Qed.
Lemma translate_ok ts v : translate inv ts (fin3 v) = Ok (ts ++ [(enc (reye, v), enc (reye, rscale (-1) v))], length ts).
Proof.
  destruct v as [x y z]. unfold translate, append_transform4. cbn [bindr]. repeat f_equal.
  unfold translation_matrix, enc, affine, finm4, fin4, map4, reye, rscale, vopp, fin3, map3. cbn [fst snd c0 c1 c2 d0 d1 d2 d3]. xs. repeat f_equal; try reflexivity; ring.
Qed.
Lemma factor_cases f t : (exists e, factor (F := xr) f t (Some "length"%string) = Err e) \/
  (exists k, factor f t (Some "length"%string) = Ok (Fin k) /\ 0 < k).
Proof.
  destruct (factor_decision table_nonzero_xr f t (Some "length"%string)) as [[C [x E]]|[_ D]].
  - right. destruct C as [[B1 B2]|[->|(sa & sb & k & -> & -> & [ma Ha] & [mb Hb] & A)]].
    + exists 1. split; [|lra]. rewrite factor_blank; [reflexivity| |]; apply blank_unspecified; auto.
    + exists 1. split; [|lra]. rewrite factor_same. reflexivity.
    + exists (ma / mb). pose proof (unit_size_pos Ha). pose proof (unit_size_pos Hb). split; [|apply Rdiv_lt_0_compat; auto].
      apply (factor_value Ha Hb). destruct A as [[A|A]|A]; auto.
  - left. destruct D as [(_ & _ & E)|(_ & E)]; rewrite E; eauto.
Qed.

Definition mutual (ab : aff * aff) : Prop :=
  (forall p, aapply (snd ab) (aapply (fst ab) p) = p) /\ (forall p, aapply (fst ab) (aapply (snd ab) p) = p).
Lemma linear_apply m p : aapply (m, rzero) p = rapply m p.
Proof. unfold aapply. cbn [fst snd]. destruct (rapply m p) as [x y z]. vunf. cbn [c0 c1 c2]. f_equal; ring. Qed.
Lemma shift_apply v p : aapply (reye, v) p = radd p v.
Proof. unfold aapply. cbn [fst snd]. now rewrite rapply_eye. Qed.

Lemma rzero_dec v : {v = rzero} + {v <> rzero}.
Proof.
  destruct v as [x y z]. destruct (Req_EM_T x 0) as [->|X]; [|right; intros E; injection E; intros; lra].
  destruct (Req_EM_T y 0) as [->|Y]; [|right; intros E; injection E; intros; lra].
  destruct (Req_EM_T z 0) as [->|Z]; [left; reflexivity|right; intros E; injection E; intros; lra].
Qed.
Lemma one_raises o ts : raises inv as_rot o -> one ts o = ts.
Proof. intros H. unfold one. destruct (H ts) as [e ->]. reflexivity. Qed.

Lemma acts_one o f : acts inv as_rot o f -> exists l : list aff,
  (forall ts, map fst (one ts o) = map fst ts ++ map enc l) /\ (forall p, fold_left (fun q a => aapply a q) l p = f p) /\
  (length l = 1%nat \/ raises inv as_rot o).
Proof.
  intros H. destruct H as [k K|f t a b A B|u|u w U W|v|up look m E|r m E|m r S|A t r S|o E].
  - exists [(kdiag k, rzero)]. split; [|split; [intros p; cbn [fold_left]; now rewrite linear_apply, kdiag_apply|auto]].
    intros ts. unfold one, apply_op. rewrite scale_ok by auto. cbn [mapr fst snd]. rewrite map_app. reflexivity.
  - pose proof (unit_size_pos A). pose proof (unit_size_pos B).
    exists [(kdiag (a / b), rzero)]. split; [|split; [intros p; cbn [fold_left]; now rewrite linear_apply, kdiag_apply|auto]].
    intros ts. unfold one, apply_op, convert_units. rewrite (factor_value A B) by auto. cbn [bindr].
    rewrite scale_ok by (apply Rdiv_lt_0_compat; auto). cbn [mapr fst snd]. rewrite map_app. reflexivity.
  - exists [(kdiag 1, rzero)]. split; [|split; [intros p; cbn [fold_left]; now rewrite linear_apply, kdiag_apply, rscale_1|auto]].
    intros ts. unfold one, apply_op, convert_units. rewrite factor_same. cbn [bindr]. change MRounding.n1 with (Fin 1).
    rewrite scale_ok by lra. cbn [mapr fst snd]. rewrite map_app. reflexivity.
  - exists [(kdiag 1, rzero)]. split; [|split; [intros p; cbn [fold_left]; now rewrite linear_apply, kdiag_apply, rscale_1|auto]].
    intros ts. unfold one, apply_op, convert_units. rewrite factor_blank by (now apply blank_unspecified). cbn [bindr]. change MRounding.n1 with (Fin 1).
    rewrite scale_ok by lra. cbn [mapr fst snd]. rewrite map_app. reflexivity.
  - exists [(reye, v)]. split; [|split; [intros p; cbn [fold_left]; apply shift_apply|auto]].
    intros ts. unfold one, apply_op. rewrite translate_ok. cbn [mapr fst snd]. rewrite map_app. reflexivity.
  - exists [(m, rzero)]. split; [|split; [intros p; cbn [fold_left]; apply linear_apply|auto]].
    intros ts. unfold one, apply_op, reorient. rewrite E. cbn [bindr]. rewrite ftrans, rigid3_ok. cbn [mapr fst snd]. rewrite map_app. reflexivity.
  - exists [(m, rzero)]. split; [|split; [intros p; cbn [fold_left]; apply linear_apply|auto]].
    intros ts. unfold one, apply_op, rotate. rewrite E. cbn [bindr]. rewrite ftrans, rigid3_ok. cbn [mapr fst snd]. rewrite map_app. reflexivity.
  - exists [(m, rzero)]. split; [|split; [intros p; cbn [fold_left]; apply linear_apply|auto]].
    intros ts. unfold one. destruct (S ts) as [x X]. rewrite X. unfold apply_op, append_transform3 in X. rewrite conv44 in X.
    destruct r as [r|]; cbn [bindr] in X.
    + destruct (convert_33_to_44 r) as [r'|]; cbn in X; [|discriminate]. injection X as <-. rewrite map_app. reflexivity.
    + unfold append_transform4 in X. destruct (inv _); cbn in X; [|discriminate]. injection X as <-. rewrite map_app. reflexivity.
  - exists [(A, t)]. split; [|split; [reflexivity|auto]].
    intros ts. unfold one. destruct (S ts) as [x X]. rewrite X. unfold apply_op, append_transform4 in X.
    destruct r as [r|]; cbn [bindr] in X.
    + cbn in X. injection X as <-. rewrite map_app. reflexivity.
    + destruct (inv _); cbn in X; [|discriminate]. injection X as <-. rewrite map_app. reflexivity.
  - exists []. split; [|split; [reflexivity|auto]]. intros ts. rewrite one_raises by auto. now rewrite app_nil_r.
Qed.
Lemma after_acts os fs : Forall2 (acts inv as_rot) os fs -> exists l : list aff,
  (forall ts, map fst (after inv as_rot ts os) = map fst ts ++ map enc l) /\ forall p, fold_left (fun q a => aapply a q) l p = in_turn fs p.
Proof.
  induction 1 as [|o f os fs H _ (l & E & P)].
  - exists []. split; [intros ts; cbn; now rewrite app_nil_r|reflexivity].
  - destruct (acts_one H) as (l1 & E1 & P1 & _). exists (l1 ++ l). split.
    + intros ts. rewrite after_cons, E, E1, map_app, app_assoc. reflexivity.
    + intros p. rewrite fold_left_app, P1, P. reflexivity.
Qed.
Lemma acts_one1 o f : acts inv as_rot o f -> succeeds inv as_rot o -> exists a : aff,
  (forall ts, map fst (one ts o) = map fst ts ++ [enc a]) /\ forall p, aapply a p = f p.
Proof.
  intros H S. destruct (acts_one H) as (l & E & P & [L|Q]).
  - destruct l as [|a [|]]; try discriminate. exists a. split; auto.
  - destruct (S []) as [x X], (Q []) as [e Y]. congruence.
Qed.
Lemma after_acts1 os fs : Forall2 (acts inv as_rot) os fs -> Forall (succeeds inv as_rot) os -> exists l : list aff,
  (forall ts, map fst (after inv as_rot ts os) = map fst ts ++ map enc l) /\ Forall2 (fun a f => forall p, aapply a p = f p) l fs.
Proof.
  induction 1 as [|o f os fs H _ IH]; intros S.
  - exists []. split; [intros ts; cbn; now rewrite app_nil_r|constructor].
  - inversion S; subst. destruct (acts_one1 H) as (a & E1 & P1); auto. destruct IH as (l & E & P); auto. exists (a :: l). split; [|constructor; auto].
    intros ts. rewrite after_cons, E, E1, <- app_assoc. reflexivity.
Qed.
Lemma Forall2_skipn A B (P : A -> B -> Prop) n : forall l k, Forall2 P l k -> Forall2 P (skipn n l) (skipn n k).
Proof. induction n; intros l k H; auto. destruct H; cbn; auto. Qed.
Lemma Forall2_firstn A B (P : A -> B -> Prop) n : forall l k, Forall2 P l k -> Forall2 P (firstn n l) (firstn n k).
Proof. induction n; intros l k H; cbn; auto. destruct H; cbn; auto. Qed.
Lemma Forall2_len A B (P : A -> B -> Prop) l k : Forall2 P l k -> length l = length k.
Proof. induction 1; cbn; auto. Qed.
Lemma select_F2 A B (P : A -> B -> Prop) l k r : Forall2 P l k -> Forall2 P (select l r) (select k r).
Proof.
  intros H. destruct r as [[i j]|]; auto. unfold select, slice. rewrite (Forall2_len H). apply Forall2_firstn, Forall2_skipn, H.
Qed.
Lemma call_range os fs ps r : Forall2 (acts inv as_rot) os fs -> Forall (succeeds inv as_rot) os ->
  call (after inv as_rot [] os) (map fin3 ps) r false = Ok (map fin3 (map (in_turn (select fs r)) ps)).
Proof.
  intros H S. destruct (after_acts1 H S) as (l & E & P). specialize (E []). destruct (matrix_fwd_any r E) as (m & M & Q).
  unfold call. rewrite M. unfold enc. rewrite apply_affine. do 2 f_equal. apply map_ext. intros p. change (aapply (fst m, snd m) p = in_turn (select fs r) p).
  rewrite <- surjective_pairing, Q. apply (select_F2 r) in P. clear M Q. revert p. generalize dependent (select l r). generalize (select fs r). clear.
  intros fs l H. induction H as [|a f l fs A _ IH]; intros p; auto. unfold in_turn in *. cbn [fold_left]. 
rewrite A. apply IH.
Qed.
Lemma call_acts os fs ps : Forall2 (acts inv as_rot) os fs ->
  call (after inv as_rot [] os) (map fin3 ps) None false = Ok (map fin3 (map (in_turn fs) ps)).
Proof.
  intros H. destruct (after_acts H) as (l & E & P). specialize (E []). destruct (matrix_fwd_any None E) as (m & M & Q).
  unfold call. rewrite M. unfold enc. rewrite apply_affine. do 2 f_equal. apply map_ext. intros p. rewrite <- P. apply Q.
Qed.

Lemma kdiag_mutual k : 0 < k -> mutual ((kdiag k, rzero), (kdiag (/ k), rzero)).
Proof.
  intros H. split; intros p; cbn [fst snd]; rewrite !linear_apply, !kdiag_apply, rscale_scale.
  - rewrite Rinv_l by lra. apply rscale_1.
  - rewrite Rinv_r by lra. apply rscale_1.
Qed.
Lemma rot_mutual m : rotation m -> mutual ((m, rzero), (rtrans m, rzero)).
Proof. intros [O _]. split; intros p; cbn [fst snd]; rewrite !linear_apply; [now apply rotation_inv_l|now apply rotation_inv_r]. Qed.
Lemma valid_one o : valid inv as_rot o -> exists l : list (aff * aff),
  (forall ts, one ts o = ts ++ map enc2 l) /\ Forall mutual l.
Proof.
  intros H. destruct H as [k|f t|v|up look|r m E O|A B I|A B u I E|A t B u I|A t B u I E|o E].
  - destruct (Rlt_le_dec 0 k) as [K|K].
    + exists [((kdiag k, rzero), (kdiag (/ k), rzero))]. split; [|constructor; auto using kdiag_mutual].
      intros ts. unfold one, apply_op. rewrite scale_ok by auto. reflexivity.
    + exists []. split; [|constructor]. intros ts. unfold one, apply_op. rewrite scale_bad by auto. cbn. now rewrite app_nil_r.
  - destruct (factor_cases f t) as [[e E]|(k & E & K)].
    + exists []. split; [|constructor]. intros ts. unfold one, apply_op, convert_units. rewrite E. cbn. now rewrite app_nil_r.
    + exists [((kdiag k, rzero), (kdiag (/ k), rzero))]. split; [|constructor; auto using kdiag_mutual].
      intros ts. unfold one, apply_op, convert_units. rewrite E. cbn [bindr]. rewrite scale_ok by auto. reflexivity.
  - exists [((reye, v), (reye, rscale (-1) v))]. split.
    + intros ts. unfold one, apply_op. rewrite translate_ok. reflexivity.
    + constructor; auto. split; intros p; cbn [fst snd]; rewrite !shift_apply; clear; destruct p as [a b c], v as [x y z]; vunf; cbn [c0 c1 c2]; f_equal; ring.
  - destruct (rzero_dec (rcross up look)) as [Z|Z].
    + exists []. split; [|constructor]. intros ts. unfold one, apply_op, reorient. rewrite up_look_refused by auto. cbn. now rewrite app_nil_r.
    + destruct (up_look_spec Z) as (m & E & M & _). exists [((m, rzero), (rtrans m, rzero))]. split; [|constructor; auto using rot_mutual].
      intros ts. unfold one, apply_op, reorient. rewrite E. cbn [bindr]. rewrite ftrans, rigid3_ok. reflexivity.
  - exists [((m, rzero), (rtrans m, rzero))]. split; [|constructor; auto using rot_mutual].
    intros ts. unfold one, apply_op, rotate. rewrite E. cbn [bindr]. rewrite ftrans, rigid3_ok. reflexivity.
  - exists [((A, rzero), (B, rzero))]. split; [reflexivity|]. constructor; auto.
  - exists [((A, rzero), (B, u))]. split; [|constructor; auto].
    intros ts. unfold one, apply_op, append_transform3. rewrite conv44. cbn [bindr]. unfold append_transform4.
    change (enc (A, rzero)) with (finm4 (affine A rzero)). rewrite E. reflexivity.
  - exists [((A, t), (B, u))]. split; [reflexivity|]. constructor; auto.
  - exists [((A, t), (B, u))]. split; [|constructor; auto].
    intros ts. unfold one, apply_op, append_transform4. rewrite E. reflexivity.
  - exists []. split; [|constructor]. intros ts. rewrite one_raises by auto. now rewrite app_nil_r.
Qed.
Lemma after_valid_gen os : Forall (valid inv as_rot) os -> exists l : list (aff * aff),
  (forall ts, after inv as_rot ts os = ts ++ map enc2 l) /\ Forall mutual l.
Proof.
  induction 1 as [|o os H _ (l & E & P)].
  - exists []. split; [intros ts; cbn; now rewrite app_nil_r|constructor].
  - destruct (valid_one H) as (l1 & E1 & P1). exists (l1 ++ l). split; [|apply Forall_app; auto].
    intros ts. rewrite after_cons, E, E1, map_app, app_assoc. reflexivity.
Qed.
Lemma after_valid os : Forall (valid inv as_rot) os -> exists l : list (aff * aff),
  after inv as_rot [] os = map enc2 l /\ Forall mutual l.
Proof. intros H. destruct (after_valid_gen H) as (l & E & P). exists l. split; auto. exact (E []). Qed.
End History.

Lemma In_firstn A n (l : list A) x : In x (firstn n l) -> In x l.
Proof. revert l. induction n; intros [|y l]; cbn; auto; try tauto. intros [->|H]; auto. Qed.
Lemma In_skipn A n (l : list A) x : In x (skipn n l) -> In x l.
Proof. revert l. induction n; intros [|y l]; cbn; auto. Qed.
Lemma mutual_select l r : Forall mutual l -> Forall mutual (select l r).
Proof.
  intros H. destruct r as [[i j]|]; auto. unfold select, slice. rewrite Forall_forall in *. intros x X. apply H.
  eapply In_skipn, In_firstn, X.
Qed.
Lemma rev_fwd l p : Forall mutual l -> rev_map l (fwd_map l p) = p.
Proof.
  intros H. revert p. induction H as [|ab l [H1 H2] _ IH]; intros p; auto.
  change (aapply (snd ab) (rev_map l (fwd_map l (aapply (fst ab) p))) = p). rewrite IH. apply H1.
Qed.
Lemma fwd_rev l p : Forall mutual l -> fwd_map l (rev_map l p) = p.
Proof.
  intros H. revert p. induction H as [|ab l [H1 H2] _ IH]; intros p; auto.
  change (fwd_map l (aapply (fst ab) (aapply (snd ab) (rev_map l p))) = p). rewrite H2. apply IH.
Qed.

Lemma firstn_plus A a b (l : list A) : firstn (a + b) l = firstn a l ++ firstn b (skipn a l).
Proof. revert l. induction a; intros [|x l]; cbn; auto; try now rewrite firstn_nil. now rewrite IHa. Qed.
Lemma skipn_plus A a b (l : list A) : skipn a (skipn b l) = skipn (a + b) l.
Proof. revert l. induction b; intros l; [now rewrite Nat.add_0_r|]. rewrite Nat.add_succ_r. destruct l; cbn; auto. now rewrite skipn_nil. Qed.
Lemma slice_split A (l : list A) i j k : (0 <= i <= j)%Z -> (j <= k)%Z ->
  slice l (Some i) (Some k) = slice l (Some i) (Some j) ++ slice l (Some j) (Some k).
Proof.
  intros H1 H2. unfold slice, slice_bound.
  replace (i <? 0)%Z with false by (symmetry; apply Z.ltb_ge; lia). replace (j <? 0)%Z with false by (symmetry; apply Z.ltb_ge; lia).
  replace (k <? 0)%Z with false by (symmetry; apply Z.ltb_ge; lia).
  assert (L : (Nat.min (Z.to_nat i) (length l) <= Nat.min (Z.to_nat j) (length l) <= Nat.min (Z.to_nat k) (length l))%nat) by lia.
  revert L. generalize (Nat.min (Z.to_nat i) (length l)) (Nat.min (Z.to_nat j) (length l)) (Nat.min (Z.to_nat k) (length l)). intros a b c [L1 L2].
  replace (c - a)%nat with ((b - a) + (c - b))%nat by lia. rewrite firstn_plus. f_equal. rewrite skipn_plus. do 2 f_equal. lia.
Qed.
Lemma slice_empty A (l : list A) i : slice l (Some i) (Some i) = [].
Proof. unfold slice. rewrite Nat.sub_diag. reflexivity. Qed.
