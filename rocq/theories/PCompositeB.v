(** * The column-of-ones check in IEEE double arithmetic. *)
From Coq Require Import Reals ZArith List Bool Lra Lia.
From Flocq Require Import Core IEEE754.BinarySingleNaN.
From Verif Require Import Num B64 BLemmas Vec NpList MVx MUnits MRotation MComposite.
Import ListNotations.
Local Open Scope R_scope.
Set Implicit Arguments.
Unset Strict Implicit.

Definition fin_v4 (v : V4 b64) : Prop := bfin (d0 v) = true /\ bfin (d1 v) = true /\ bfin (d2 v) = true /\ bfin (d3 v) = true.
Definition fin_m4 (m : M4 b64) : Prop := fin_v4 (d0 m) /\ fin_v4 (d1 m) /\ fin_v4 (d2 m) /\ fin_v4 (d3 m).
Definition fin_v3 (v : V3 b64) : Prop := bfin (c0 v) = true /\ bfin (c1 v) = true /\ bfin (c2 v) = true.
(** the four values 0, 0, 0, 1 *)
Definition is_0001 (v : V4 b64) : Prop := Bval (d0 v) = 0 /\ Bval (d1 v) = 0 /\ Bval (d2 v) = 0 /\ Bval (d3 v) = 1.

Lemma mul_fin x y : bfin (bmul x y) = true -> bfin x = true /\ bfin y = true.
Proof. destruct x, y; cbn; auto; discriminate. Qed.
Lemma add_fin x y : bfin (badd x y) = true -> bfin x = true /\ bfin y = true.
Proof. destruct x as [s|s| |s m e H], y as [s'|s'| |s' m' e' H']; cbn; auto; try discriminate. destruct s, s'; cbn; discriminate. Qed.
Lemma dot_fin r c : bfin (vdot4 r c) = true -> fin_v4 r /\ fin_v4 c.
Proof.
  unfold vdot4. cbn [nadd nmul b64_num]. intros H.
  apply add_fin in H as [H H3]. apply add_fin in H as [H H2]. apply add_fin in H as [H0 H1].
  apply mul_fin in H0, H1, H2, H3. unfold fin_v4. tauto.
Qed.
Lemma zero_fin : bfin n0 = true. Proof. reflexivity. Qed.
Lemma zero_val : Bval n0 = 0. Proof. reflexivity. Qed.
Lemma one_me : b64_me (nofZ 1) = Some (4503599627370496, -52)%Z. Proof. vm_compute. reflexivity. Qed.
Lemma one_fin : bfin (nofZ 1) = true. Proof. exact (bfin_me one_me). Qed.
Lemma one_val : Bval (nofZ 1) = 1. Proof. rewrite (Bval_me one_me). cbn. lra. Qed.

Lemma pow1000 : 1 <= bpow radix2 1000. Proof. change 1 with (bpow radix2 0). apply bpow_le. lia. Qed.
Lemma small0 : Rabs 0 <= bpow radix2 1000. Proof. rewrite Rabs_R0. pose proof pow1000. lra. Qed.
Lemma mul_0l x y : bfin x = true -> bfin y = true -> Bval x = 0 -> Bval (bmul x y) = 0 /\ bfin (bmul x y) = true.
Proof.
  intros X Y Z. destruct (bmul_val X Y) as [E F].
  - rewrite Z, Rmult_0_l. apply small0.
  - rewrite Z, Rmult_0_l, rnd64_0 in E. auto.
Qed.
Lemma mul_0r x y : bfin x = true -> bfin y = true -> Bval y = 0 -> Bval (bmul x y) = 0 /\ bfin (bmul x y) = true.
Proof.
  intros X Y Z. destruct (bmul_val X Y) as [E F].
  - rewrite Z, Rmult_0_r. apply small0.
  - rewrite Z, Rmult_0_r, rnd64_0 in E. auto.
Qed.
Lemma add_0l x y : bfin x = true -> bfin y = true -> Bval x = 0 -> Rabs (Bval y) <= 1 -> Bval (badd x y) = Bval y /\ bfin (badd x y) = true.
Proof.
  intros X Y Z B. destruct (badd_val X Y) as [E F].
  - rewrite Z, Rplus_0_l. pose proof pow1000. lra.
  - rewrite Z, Rplus_0_l, rnd64_B in E. auto.
Qed.
Lemma mul_1l x y : bfin x = true -> bfin y = true -> Bval x = 1 -> Rabs (Bval y) <= 1 -> Bval (bmul x y) = Bval y /\ bfin (bmul x y) = true.
Proof.
  intros X Y Z B. destruct (bmul_val X Y) as [E F].
  - rewrite Z, Rmult_1_l. pose proof pow1000. lra.
  - rewrite Z, Rmult_1_l, rnd64_B in E. auto.
Qed.
Lemma mul_1r x y : bfin x = true -> bfin y = true -> Bval y = 1 -> Rabs (Bval x) <= 1 -> Bval (bmul x y) = Bval x /\ bfin (bmul x y) = true.
Proof.
  intros X Y Z B. destruct (bmul_val X Y) as [E F].
  - rewrite Z, Rmult_1_r. pose proof pow1000. lra.
  - rewrite Z, Rmult_1_r, rnd64_B in E. auto.
Qed.
Lemma abs0_le1 x : Bval x = 0 -> Rabs (Bval x) <= 1. Proof. intros ->. rewrite Rabs_R0. lra. Qed.
(** sum of three zeros and [w] *)
Lemma sum_0001 a b c w : bfin a = true -> bfin b = true -> bfin c = true -> bfin w = true ->
  Bval a = 0 -> Bval b = 0 -> Bval c = 0 -> Rabs (Bval w) <= 1 ->
  Bval (badd (badd (badd a b) c) w) = Bval w /\ bfin (badd (badd (badd a b) c) w) = true.
Proof.
  intros A B C W Ea Eb Ec Bw.
  destruct (add_0l A B Ea (abs0_le1 Eb)) as [E1 F1]. rewrite Eb in E1.
  destruct (add_0l F1 C E1 (abs0_le1 Ec)) as [E2 F2]. rewrite Ec in E2.
  apply add_0l; auto.
Qed.
Lemma dot_col r c : fin_v4 r -> fin_v4 c -> is_0001 c -> Rabs (Bval (d3 r)) <= 1 -> Bval (vdot4 r c) = Bval (d3 r) /\ bfin (vdot4 r c) = true.
Proof.
  intros (R0 & R1 & R2 & R3) (C0 & C1 & C2 & C3) (Z0 & Z1 & Z2 & Z3) B. unfold vdot4. cbn [nadd nmul b64_num].
  destruct (mul_0r R0 C0 Z0) as [E0 F0]. destruct (mul_0r R1 C1 Z1) as [E1 F1]. destruct (mul_0r R2 C2 Z2) as [E2 F2].
  destruct (mul_1r R3 C3 Z3 B) as [E3 F3]. rewrite <- E3. apply sum_0001; auto. rewrite E3. auto.
Qed.
Lemma dot_row r c : fin_v4 r -> fin_v4 c -> is_0001 r -> Rabs (Bval (d3 c)) <= 1 -> Bval (vdot4 r c) = Bval (d3 c) /\ bfin (vdot4 r c) = true.
Proof.
  intros (R0 & R1 & R2 & R3) (C0 & C1 & C2 & C3) (Z0 & Z1 & Z2 & Z3) B. unfold vdot4. cbn [nadd nmul b64_num].
  destruct (mul_0l R0 C0 Z0) as [E0 F0]. destruct (mul_0l R1 C1 Z1) as [E1 F1]. destruct (mul_0l R2 C2 Z2) as [E2 F2].
  destruct (mul_1l R3 C3 Z3 B) as [E3 F3]. rewrite <- E3. apply sum_0001; auto. rewrite E3. auto.
Qed.
Lemma le1_0 x : Bval x = 0 -> Rabs (Bval x) <= 1. Proof. exact (@abs0_le1 x). Qed.
Lemma le1_1 x : Bval x = 1 -> Rabs (Bval x) <= 1. Proof. intros ->. rewrite Rabs_R1. lra. Qed.

Lemma fin_trans m : fin_m4 m -> fin_m4 (m4trans m).
Proof. destruct m as [[m00 m01 m02 m03] [m10 m11 m12 m13] [m20 m21 m22 m23] [m30 m31 m32 m33]]. unfold fin_m4, fin_v4, m4trans, map4. cbn [d0 d1 d2 d3]. tauto. Qed.
Lemma fin_trans' m : fin_m4 (m4trans m) -> fin_m4 m.
Proof. destruct m as [[m00 m01 m02 m03] [m10 m11 m12 m13] [m20 m21 m22 m23] [m30 m31 m32 m33]]. unfold fin_m4, fin_v4, m4trans, map4. cbn [d0 d1 d2 d3]. tauto. Qed.
Lemma mul_finm a b : fin_m4 (m4mul a b) -> fin_m4 a /\ fin_m4 b.
Proof.
  unfold m4mul. generalize (m4trans b) (@fin_trans' b). intros bt T ((A0 & A1 & A2 & A3) & (B0 & _) & (C0 & _) & (D0 & _)).
  unfold map4 in *. cbn [d0 d1 d2 d3] in *. apply dot_fin in A0, A1, A2, A3, B0, C0, D0. unfold fin_m4 in T. unfold fin_m4. tauto.
Qed.
Lemma fold_finm ms : forall m, fin_m4 (fold_left m4mul ms m) -> fin_m4 m /\ Forall fin_m4 ms.
Proof.
  induction ms as [|k ms IH]; intros m H; cbn [fold_left] in H; auto.
  apply IH in H as [H Hs]. apply mul_finm in H as [A B]. auto.
Qed.
(** last column / last row are 0, 0, 0, 1 *)
Definition lcol (m : M4 b64) : Prop := is_0001 (d3 (m4trans m)).
Definition lrow (m : M4 b64) : Prop := is_0001 (d3 m).
Lemma mul_lcol a b : fin_m4 a -> fin_m4 b -> lcol a -> lcol b -> lcol (m4mul a b).
Proof.
  intros (A0 & A1 & A2 & A3) FB (L0 & L1 & L2 & L3) LB. apply fin_trans in FB as (_ & _ & _ & FC).
  unfold lcol in *. set (c := d3 (m4trans b)) in *.
  unfold m4trans, map4 in L0, L1, L2, L3. cbn [d0 d1 d2 d3] in L0, L1, L2, L3.
  pose proof (dot_col A0 FC LB (le1_0 L0)) as [E0 _]. pose proof (dot_col A1 FC LB (le1_0 L1)) as [E1 _].
  pose proof (dot_col A2 FC LB (le1_0 L2)) as [E2 _]. pose proof (dot_col A3 FC LB (le1_1 L3)) as [E3 _].
  rewrite L0 in E0. rewrite L1 in E1. rewrite L2 in E2. rewrite L3 in E3. repeat split; assumption.
Qed.
Lemma mul_lrow a b : fin_m4 a -> fin_m4 b -> lrow a -> lrow b -> lrow (m4mul a b).
Proof.
  intros (_ & _ & _ & FR) FB LA (L0 & L1 & L2 & L3). apply fin_trans in FB as (B0 & B1 & B2 & B3).
  unfold lrow in *. 
  assert (K0 : Bval (d3 (d0 (m4trans b))) = 0) by exact L0. assert (K1 : Bval (d3 (d1 (m4trans b))) = 0) by exact L1.
  assert (K2 : Bval (d3 (d2 (m4trans b))) = 0) by exact L2. assert (K3 : Bval (d3 (d3 (m4trans b))) = 1) by exact L3.
  pose proof (dot_row FR B0 LA (le1_0 K0)) as [E0 _]. pose proof (dot_row FR B1 LA (le1_0 K1)) as [E1 _].
  pose proof (dot_row FR B2 LA (le1_0 K2)) as [E2 _]. pose proof (dot_row FR B3 LA (le1_1 K3)) as [E3 _].
  rewrite K0 in E0. rewrite K1 in E1. rewrite K2 in E2. rewrite K3 in E3. repeat split; assumption.
Qed.
Lemma fold_inv (P : M4 b64 -> Prop) (HP : forall a b, fin_m4 a -> fin_m4 b -> P a -> P b -> P (m4mul a b)) ms :
  forall m, fin_m4 (fold_left m4mul ms m) -> P m -> Forall P ms -> P (fold_left m4mul ms m).
Proof.
  induction ms as [|k ms IH]; intros m H Pm Ps; cbn [fold_left] in *; auto. inversion Ps; subst.
  apply IH; auto. apply fold_finm in H as [H _]. destruct (mul_finm H). auto.
Qed.
Lemma lcol_trans m : lrow m -> lcol (m4trans m).
Proof. unfold lcol, lrow. destruct m as [[m00 m01 m02 m03] [m10 m11 m12 m13] [m20 m21 m22 m23] [m30 m31 m32 m33]]. auto. Qed.
Lemma lrow_trans m : lcol m -> lrow (m4trans m).
Proof. auto. Qed.
Lemma eye_lrow : lrow m4eye.
Proof. repeat split; try exact zero_val. exact one_val. Qed.

Definition good (t : M4 b64 * M4 b64) : Prop := lrow (fst t) /\ lrow (snd t).
Lemma in_slice A (l : list A) i j x : In x (slice l i j) -> In x l.
Proof.
  unfold slice. generalize (slice_bound (length l) 0 i) (slice_bound (length l) (length l) j). intros a b.
  intros H. assert (G : forall n (l : list A), In x (firstn n l) -> In x l) by (induction n; intros [|y k]; cbn; auto; try tauto; intros [->|Q]; auto).
  assert (G' : forall n (l : list A), In x (skipn n l) -> In x l) by (induction n; intros [|y k]; cbn; auto).
  eapply G', G, H.
Qed.
Lemma good_slice ts i j : Forall good ts -> Forall good (slice ts i j).
Proof. rewrite !Forall_forall. intros H x X. apply H, (in_slice X). Qed.
Lemma matrix_lrow ts r rev : Forall good ts -> fin_m4 (matrix_for ts r rev) -> lrow (matrix_for ts r rev).
Proof.
  intros H. unfold matrix_for.
  assert (G : Forall good (match r with Some (start, stop) => slice ts start stop | None => ts end)) by (destruct r as [[i j]|]; auto using good_slice).
  revert G. generalize (match r with Some (start, stop) => slice ts start stop | None => ts end). clear. intros l G.
  destruct G as [|t l [T1 T2] G]; cbn [map]; [intros _; apply eye_lrow|]. destruct rev.
  - intros Fm. apply (fold_inv (P := lrow)); auto using mul_lrow. apply Forall_map. eapply Forall_impl; [|exact G]. intros a [A1 A2]. exact A2.
  - intros Fm. apply lrow_trans. apply fin_trans' in Fm. apply (fold_inv (P := lcol)); auto using mul_lcol, lcol_trans.
    apply Forall_map. eapply Forall_impl; [|exact G]. intros a [A1 A2]. apply lcol_trans, A1.
Qed.
Lemma apply_ok m ps : fin_m4 m -> lrow m -> Forall fin_v3 ps -> exists qs, apply_homogeneous ps m = Ok qs /\ length qs = length ps.
Proof.
  intros (_ & _ & _ & Fm) L H. unfold apply_homogeneous, unpad.
  assert (E : forallb (fun r => neqb (d3 r) (nofZ 1)) (map (m4apply m) (pad_with_ones ps)) = true).
  { rewrite forallb_forall. intros x X. unfold pad_with_ones in X. rewrite map_map, in_map_iff in X. destruct X as (p & <- & P).
    rewrite Forall_forall in H. destruct (H p P) as (P0 & P1 & P2). cbn [m4apply map4 d3].
    assert (Fp : fin_v4 (pad1 p)) by (repeat split; cbn; auto; exact one_fin).
    destruct (dot_row Fm Fp L (le1_1 one_val)) as [E1 F1]. cbn [pad1 d3] in E1. rewrite (beq_spec F1 one_fin), E1. now apply Req_bool_true. }
  rewrite E. eexists. split; [reflexivity|]. unfold pad_with_ones. rewrite !map_length. reflexivity.
Qed.

(** ** histories: every part other than a bare matrix has exact last rows *)
Section History.
Variables (inv : M4 b64 -> res (M4 b64)) (as_rot : rot_arg b64 -> res (M3 b64)).
Definition built (o : op b64) : Prop :=
  match o with Append4 _ _ => False | Append3 _ None => False | _ => True end.
Lemma conv_lrow m x : convert_33_to_44 m = Ok x -> lrow x.
Proof.
  destruct m as [m|[|[|n]]]; cbn; try discriminate. intros [= <-]. repeat split; try exact zero_val. exact one_val.
Qed.
Lemma append3_good ts f r x : Forall good ts -> append_transform3 inv ts f (Some r) = Ok x -> Forall good (fst x).
Proof.
  intros H. unfold append_transform3. destruct (convert_33_to_44 f) as [f'|] eqn:Ef; cbn [bindr]; [|discriminate].
  destruct (convert_33_to_44 r) as [r'|] eqn:Er; cbn [bindr]; [|discriminate]. intros [= <-]. apply Forall_app. split; auto.
  constructor; auto. split; [exact (conv_lrow Ef)|exact (conv_lrow Er)].
Qed.
Lemma translate_good ts v x : Forall good ts -> translate inv ts v = Ok x -> Forall good (fst x).
Proof.
  intros H [= <-]. apply Forall_app. split; auto. constructor; auto. split; repeat split; try exact zero_val; exact one_val.
Qed.
Lemma op_good ts o x : Forall good ts -> built o -> apply_op inv as_rot ts o = Ok x -> Forall good (fst x).
Proof.
  intros H B. assert (S : forall r : res (transforms b64 * nat), (forall y, r = Ok y -> Forall good (fst y)) ->
    mapr (fun z => (fst z, Some (snd z))) r = Ok x -> Forall good (fst x)).
  { intros [y|] Hy; cbn; [|discriminate]. intros [= <-]. exact (Hy y eq_refl). }
  destruct o as [k|f t|v|u l|r|f r|f r]; cbn [apply_op].
  - apply S. intros y. unfold scale. destruct (nle _ _); [discriminate|]. intros Q; exact (append3_good H Q).
  - unfold convert_units. destruct (factor _ _ _) as [k|]; cbn [bindr]; [|discriminate]. destruct (scale inv ts k) as [y|] eqn:E; cbn; [|discriminate].
    intros [= <-]. cbn [fst]. revert E. unfold scale. destruct (nle _ _); [discriminate|]. intros Q; exact (append3_good H Q).
  - apply S. intros y. intros Q; exact (translate_good H Q).
  - apply S. intros y. unfold reorient. destruct (rotation_from_up_and_look u l); cbn [bindr]; [|discriminate]. intros Q; exact (append3_good H Q).
  - apply S. intros y. unfold rotate. destruct (as_rot r); cbn [bindr]; [|discriminate]. intros Q; exact (append3_good H Q).
  - destruct r as [r|]; [|destruct B]. apply S. intros y. intros Q; exact (append3_good H Q).
  - destruct B.
Qed.
Lemma after_good os : forall ts, Forall good ts -> Forall built os -> Forall good (after inv as_rot ts os).
Proof.
  induction os as [|o os IH]; intros ts H B; auto. inversion B; subst. cbn [after fold_left]. apply IH; auto.
  destruct (apply_op inv as_rot ts o) as [[ts' i]|] eqn:E; auto. exact (op_good H H2 E).
Qed.
End History.
