(** * Properties C167, C168 and C169: rigid fits in doubles. *)
From Coq Require Import Reals ZArith List Bool Lra Lia.
From Flocq Require Import Core IEEE754.BinarySingleNaN.
From Verif Require Import Num B64 BLemmas Vec RVec NpList MRotation MRigid SpecGeom SpecRotation SpecRigid SpecDouble SpecTransD SpecTrigD SpecRigidD PErr PNormD PLine2D PRigidD PRigidD2 PropsDouble.
Import ListNotations.
Local Open Scope R_scope.

(** ** C167.  Nothing is asked of the points, not even that they are finite: it is enough that the
    factors returned by the decomposition are within [d] of orthogonal matrices. *)
Theorem C167_rotation : forall (svd : @svd_t b64) d a b r, 0 <= d <= 1 / 1000 -> orthogonal_factors d svd ->
  find_rigid_rotation svd a b false = Ok r -> exists q, rotation q /\ close33 (9 * d + 20 * ulp_1) r q.
Proof. intros svd d a b r D HS H. exact (rotation_rot D HS H). Qed.
Print Assumptions C167_rotation.
Theorem C167_transform : forall (svd : @svd_t b64) d a b r t, 0 <= d <= 1 / 1000 -> orthogonal_factors d svd ->
  find_rigid_transform svd a b = Ok (r, t) -> exists q, rotation q /\ close33 (9 * d + 20 * ulp_1) r q.
Proof. intros svd d a b r t D HS H. exact (transform_rot D HS H). Qed.
Print Assumptions C167_transform.

(** ** C168.  [X] bounds the coordinates, [n] is the number of points; the fit returned is next to
    one whose sum of squared errors is nearly the least. *)
Theorem C168_rotation : forall (svd : @svd_t b64) d tau X ps qs r, 0 <= d <= 1 / 1000 -> 0 <= tau -> accurate_svd d tau svd ->
  bpow radix2 (-180) <= X <= bpow radix2 180 -> Forall (within X) ps -> Forall (within X) qs ->
  length ps = length qs -> length ps <> 1%nat -> (Z.of_nat (length ps) <= 2 ^ 30)%Z -> find_rigid_rotation svd (P3N ps) (P3N qs) false = Ok r ->
  let n := INR (length ps) in
  exists q, rotation q /\ close33 (9 * d + 20 * ulp_1) r q /\
    forall q', rotation q' -> residual (rapply q) (map Rval3 ps) (map Rval3 qs) <= residual (rapply q') (map Rval3 ps) (map Rval3 qs) + 40 * n * (X * X) * (tau + (n + 3) * ulp_1).
Proof. intros svd d tau X ps qs r D PT HS HX Wp Wq EL N1 HL H. exact (rotation_nearly D PT HS HX Wp Wq EL N1 HL H). Qed.
Print Assumptions C168_rotation.
Theorem C168_transform : forall (svd : @svd_t b64) d tau X ps qs r t, 0 <= d <= 1 / 1000 -> 0 <= tau -> accurate_svd d tau svd ->
  bpow radix2 (-180) <= X <= bpow radix2 180 -> Forall (within X) ps -> Forall (within X) qs ->
  length ps = length qs -> ps <> [] -> (Z.of_nat (length ps) <= 2 ^ 30)%Z -> find_rigid_transform svd (P3N ps) (P3N qs) = Ok (r, t) ->
  let n := INR (length ps) in
  exists q o, rotation q /\ close33 (9 * d + 20 * ulp_1) r q /\ close3 (X * (27 * d + (5 * n + 90) * ulp_1)) t o /\
    forall q' o', orthogonal q' ->
      residual (SpecRigid.rigid q o) (map Rval3 ps) (map Rval3 qs) <= residual (SpecRigid.rigid q' o') (map Rval3 ps) (map Rval3 qs) + n * (X * X) * (150 * tau + 330 * (n + 5) * ulp_1).
Proof. intros svd d tau X ps qs r t D PT HS HX Wp Wq EL NE HL H. exact (transform_nearly D PT HS HX Wp Wq EL NE HL H). Qed.
Print Assumptions C168_transform.

(** ** C169.  The determinant of the sums of products of centred coordinates decides, when it is
    clear of rounding errors: positive means accepted, negative means refused. *)
Theorem C169_accepts : forall (svd : @svd_t b64) d tau X ps qs, 0 <= d <= 1 / 1000 -> 0 <= tau -> accurate_svd d tau svd ->
  (forall c, fin3b (c0 c) = true -> fin3b (c1 c) = true -> fin3b (c2 c) = true -> exists r, svd c = Ok r) ->
  bpow radix2 (-180) <= X <= bpow radix2 180 -> Forall (within X) ps -> Forall (within X) qs ->
  length ps = length qs -> ps <> [] -> (Z.of_nat (length ps) <= 2 ^ 30)%Z ->
  let n := INR (length ps) in let s := n * (X * X) in
  s * s * s * (2800 * tau + 6100 * (n + 5) * ulp_1) < rdet (cross_gram (centred (map Rval3 ps)) (centred (map Rval3 qs))) ->
  exists r t, find_rigid_transform svd (P3N ps) (P3N qs) = Ok (r, t).
Proof. intros svd d tau X ps qs D PT HS HT HX Wp Wq EL NE HL n s H. exact (data_accepts D PT HS HX Wp Wq EL NE HL H HT). Qed.
Print Assumptions C169_accepts.
Theorem C169_refuses : forall (svd : @svd_t b64) d tau X ps qs, 0 <= d <= 1 / 1000 -> 0 <= tau -> accurate_svd d tau svd ->
  bpow radix2 (-180) <= X <= bpow radix2 180 -> Forall (within X) ps -> Forall (within X) qs ->
  length ps = length qs -> ps <> [] -> (Z.of_nat (length ps) <= 2 ^ 30)%Z ->
  let n := INR (length ps) in let s := n * (X * X) in
  rdet (cross_gram (centred (map Rval3 ps)) (centred (map Rval3 qs))) < - (s * s * s * (2800 * tau + 6100 * (n + 5) * ulp_1)) ->
  forall r, find_rigid_transform svd (P3N ps) (P3N qs) <> Ok r.
Proof. intros svd d tau X ps qs D PT HS HX Wp Wq EL NE HL n s H. exact (data_refuses D PT HS HX Wp Wq EL NE HL H). Qed.
Print Assumptions C169_refuses.

(** a decomposition of one matrix *)
Definition all9 (f : b64 -> b64 -> bool) (m k : M3 b64) : bool :=
  let row (v w : V3 b64) := (f (c0 v) (c0 w) && f (c1 v) (c1 w) && f (c2 v) (c2 w))%bool in (row (c0 m) (c0 k) && row (c1 m) (c1 k) && row (c2 m) (c2 k))%bool.
Definition svd_at (k : M3 b64) (r : M3 b64 * V3 b64 * M3 b64) : @svd_t b64 := fun c => if all9 neqb c k then Ok r else Err LinAlgError.
Lemma row_eq M (v w : V3 b64) : fin3b w = true -> within M v -> (neqb (c0 v) (c0 w) && neqb (c1 v) (c1 w) && neqb (c2 v) (c2 w))%bool = true -> Rval3 v = Rval3 w.
Proof.
  intros Fw (Fv & _) H. destruct (fin3b_all Fw) as (W0 & W1 & W2). destruct (fin3b_all Fv) as (V0 & V1 & V2). rewrite !beq_spec in H by assumption. apply andb_prop in H. destruct H as [H H2]. apply andb_prop in H. destruct H as [H0 H1].
  unfold Rval3, map3. f_equal; [revert H0|revert H1|revert H2]; (case Req_bool_spec; [auto|discriminate]).
Qed.
Lemma close_of (e : R) (v : V3 b64) (w x : V3 R) : fin3b v = true -> Rval3 v = w -> Rabs (c0 w - c0 x) <= e -> Rabs (c1 w - c1 x) <= e -> Rabs (c2 w - c2 x) <= e -> close3 e v x.
Proof. intros F <- A B C. split; [exact F|]. cbn [Rval3 map3 c0 c1 c2] in *. auto. Qed.
Lemma svd_at_ok k u s v U V C tau : fin3b (c0 k) = true -> fin3b (c1 k) = true -> fin3b (c2 k) = true -> svd_of C U (Rval3 s) V -> close33 0 u U -> close33 0 v V -> fin3b s = true ->
  (forall M, within M (c0 k) -> within M (c1 k) -> within M (c2 k) -> close33 (tau * M) k C) -> accurate_svd 0 tau (svd_at k (u, s, v)).
Proof.
  intros F0 F1 F2 SO CU CV FS HC c u' s' v' H. unfold svd_at in H. destruct (all9 neqb c k) eqn:E; [|discriminate H]. injection H as <- <- <-. exists U, V, C. repeat (split; [assumption|]).
  intros M W0 W1 W2. unfold all9 in E. cbv zeta in E. apply andb_prop in E. destruct E as [E E2]. apply andb_prop in E. destruct E as [E0 E1]. pose proof (row_eq M _ _ F0 W0 E0) as R0. pose proof (row_eq M _ _ F1 W1 E1) as R1. pose proof (row_eq M _ _ F2 W2 E2) as R2.
  assert (T : forall v w : V3 b64, fin3b w = true -> Rval3 v = Rval3 w -> within M v -> within M w) by (intros x y Fy EQ (_ & B0 & B1 & B2); injection EQ as Q0 Q1 Q2; rewrite Q0 in B0; rewrite Q1 in B1; rewrite Q2 in B2; repeat split; auto).
  destruct (HC M (T _ _ F0 R0 W0) (T _ _ F1 R1 W1) (T _ _ F2 R2 W2)) as ((_ & X0 & X1 & X2) & (_ & Y0 & Y1 & Y2) & (_ & Z0 & Z1 & Z2)).
  destruct W0 as (G0 & _), W1 as (G1 & _), W2 as (G2 & _). split; [|split]; (eapply close_of; [assumption|eassumption|..]; assumption).
Qed.
Definition perm : M3 b64 := mk3 (int3 0 1 0) (int3 1 0 0) (int3 0 0 1).
Definition rperm : M3 R := mk3 (mk3 0 1 0) (mk3 1 0 0) (mk3 0 0 1).
Definition perm' : M3 b64 := mk3 (int3 0 1 0) (int3 1 0 0) (int3 0 0 (-1)).
Definition rperm' : M3 R := mk3 (mk3 0 1 0) (mk3 1 0 0) (mk3 0 0 (-1)).
Lemma int_close a b c : (Z.abs a <= 16)%Z -> (Z.abs b <= 16)%Z -> (Z.abs c <= 16)%Z -> close3 0 (int3 a b c) (mk3 (IZR a) (IZR b) (IZR c)).
Proof. intros A B C. destruct (@int3_val a b c A B C) as [(F & _) V]. eapply close_of; [exact F|exact V|..]; cbn [c0 c1 c2]; rewrite Rminus_eq_0, Rabs_R0; lra. Qed.
Lemma perm_close : close33 0 perm rperm /\ close33 0 perm' rperm'.
Proof. split; (split; [|split]); apply int_close; lia. Qed.
Lemma perm_orth : orthogonal rperm /\ orthogonal rperm'.
Proof. split; split; unfold rperm, rperm', rmmul, rtrans, reye, rcol0, rcol1, rcol2, rdot; cbn [c0 c1 c2]; f_equal; f_equal; ring. Qed.

(** Six points on the axes and a copy of them turned by a quarter about the third axis. *)
Definition six : list (V3 b64) := [int3 1 0 0; int3 (-1) 0 0; int3 0 2 0; int3 0 (-2) 0; int3 0 0 1; int3 0 0 (-1)].
Definition six_turned : list (V3 b64) := [int3 0 1 0; int3 0 (-1) 0; int3 (-2) 0 0; int3 2 0 0; int3 0 0 1; int3 0 0 (-1)].
(** their sums of products [[0, 2, 0], [-8, 0, 0], [0, 0, 2]] = u diag(8, 2, 2) v *)
Definition six_gram : M3 b64 := mk3 (int3 0 2 0) (int3 (-8) 0 0) (int3 0 0 2).
Definition eyed : M3 b64 := mk3 (int3 (-1) 0 0) (int3 0 1 0) (int3 0 0 1).
Definition reyed : M3 R := mk3 (mk3 (-1) 0 0) (mk3 0 1 0) (mk3 0 0 1).
Definition six_svd : @svd_t b64 := svd_at six_gram (perm, int3 8 2 2, eyed).
Lemma six_accurate : accurate_svd 0 0 six_svd.
Proof.
  unfold six_svd. destruct perm_close as [P _]. destruct perm_orth as [O _]. apply svd_at_ok with (U := rperm) (V := reyed) (C := mk3 (mk3 0 2 0) (mk3 (-8) 0 0) (mk3 0 0 2)); try (vm_compute; reflexivity); auto.
  - destruct (@int3_val 8 2 2) as [_ V]; [lia|lia|lia|]. rewrite V. split; [exact O|]. split; [split; unfold reyed, rmmul, rtrans, reye, rcol0, rcol1, rcol2, rdot; cbn [c0 c1 c2]; f_equal; f_equal; ring|]. cbn [c0 c1 c2]. repeat (split; [lra|]). unfold rperm, reyed, rdiag, rmmul, rcol0, rcol1, rcol2, rdot. cbn [c0 c1 c2]. f_equal; f_equal; ring.
  - split; [|split]; apply int_close; lia.
  - intros M _ _ _. rewrite Rmult_0_l. split; [|split]; apply int_close; lia.
Qed.
Lemma six_in : Forall (within 4) six /\ Forall (within 4) six_turned.
Proof.
  assert (G : forall a b c, (Z.abs a <= 4)%Z -> (Z.abs b <= 4)%Z -> (Z.abs c <= 4)%Z -> within 4 (int3 a b c)).
  { intros a b c A B C. destruct (@int3_val a b c ltac:(lia) ltac:(lia) ltac:(lia)) as [(F & _) V]. pose proof (f_equal c0 V) as V0. pose proof (f_equal c1 V) as V1. pose proof (f_equal c2 V) as V2. clear V. split; [exact F|]. unfold Rval3, map3, int3 in *. cbn [c0 c1 c2] in *. rewrite V0, V1, V2, <- !abs_IZR. repeat split; apply IZR_le; lia. }
  split; unfold six, six_turned; repeat (apply Forall_cons; [apply G; lia|]); apply Forall_nil.
Qed.
(** both functions accept them; no point bound, accuracy or length is violated *)
Example C167_C168_example : orthogonal_factors 0 six_svd /\ accurate_svd 0 0 six_svd /\ Forall (within 4) six /\ Forall (within 4) six_turned /\
  (exists r t, find_rigid_transform six_svd (P3N six) (P3N six_turned) = Ok (r, t)) /\ exists r, find_rigid_rotation six_svd (P3N six) (P3N six_turned) false = Ok r.
Proof.
  split; [|split; [exact six_accurate|split; [apply six_in|split; [apply six_in|split]]]].
  - intros c u s v H. destruct (six_accurate c u s v H) as (U & V & C & (OU & OV & _) & CU & CV & _). exists U, V. auto.
  - assert (E : match find_rigid_transform six_svd (P3N six) (P3N six_turned) with Ok _ => true | Err _ => false end = true) by (vm_compute; reflexivity). destruct (find_rigid_transform _ _ _) as [[r t]|]; [eauto|discriminate E].
  - assert (E : match find_rigid_rotation six_svd (P3N six) (P3N six_turned) false with Ok _ => true | Err _ => false end = true) by (vm_compute; reflexivity). destruct (find_rigid_rotation _ _ _ _) as [r|]; [eauto|discriminate E].
Qed.
Lemma six_values : map Rval3 six = [mk3 1 0 0; mk3 (-1) 0 0; mk3 0 2 0; mk3 0 (-2) 0; mk3 0 0 1; mk3 0 0 (-1)] /\ map Rval3 six_turned = [mk3 0 1 0; mk3 0 (-1) 0; mk3 (-2) 0 0; mk3 2 0 0; mk3 0 0 1; mk3 0 0 (-1)].
Proof.
  assert (G : forall a b c, (Z.abs a <= 16)%Z -> (Z.abs b <= 16)%Z -> (Z.abs c <= 16)%Z -> Rval3 (int3 a b c) = mk3 (IZR a) (IZR b) (IZR c)) by (intros a b c A B C; now destruct (@int3_val a b c A B C)).
  split; cbn [map six six_turned]; rewrite !G by lia; reflexivity.
Qed.
Lemma six_det : rdet (cross_gram (centred (map Rval3 six)) (centred (map Rval3 six_turned))) = 32.
Proof.
  destruct six_values as [-> ->]. unfold centred. assert (Z1 : centroid [mk3 1 0 0; mk3 (-1) 0 0; mk3 0 2 0; mk3 0 (-2) 0; mk3 0 0 1; mk3 0 0 (-1)] = mk3 0 0 0) by (unfold centroid; cbn [map rsum c0 c1 c2 length INR]; f_equal; field). assert (Z2 : centroid [mk3 0 1 0; mk3 0 (-1) 0; mk3 (-2) 0 0; mk3 2 0 0; mk3 0 0 1; mk3 0 0 (-1)] = mk3 0 0 0) by (unfold centroid; cbn [map rsum c0 c1 c2 length INR]; f_equal; field).
  rewrite Z1, Z2. unfold cross_gram, rsub. cbv zeta. cbn [map combine rsum fst snd c0 c1 c2]. unfold rdet, rdot, rcross. cbn [c0 c1 c2]. ring.
Qed.
Example C169_example : let n := INR (length six) in let s := n * (4 * 4) in s * s * s * (2800 * 0 + 6100 * (n + 5) * ulp_1) < rdet (cross_gram (centred (map Rval3 six)) (centred (map Rval3 six_turned))).
Proof.
  cbv zeta. rewrite six_det. change ulp_1 with PErr.eps. rewrite eps_val. cbn [length six INR]. lra.
Qed.

(** Four points of a plane are an exact copy of themselves, yet there is a decomposition accurate to
    one unit in the last place for which they are refused. *)
Definition four : list (V3 b64) := [int3 1 0 0; int3 (-1) 0 0; int3 0 2 0; int3 0 (-2) 0].
Definition tiny : b64 := nlit 1 (2 ^ 60).
Theorem C169_flat_refuted : exists svd : @svd_t b64, accurate_svd 0 ulp_1 svd /\ Forall (within 4) four /\
  find_rigid_transform svd (P3N four) (P3N four) = Err ValueError /\
  residual (SpecRigid.rigid reye (mk3 0 0 0)) (map Rval3 four) (map Rval3 four) = 0.
Proof.
  destruct perm_close as [P P']. destruct perm_orth as [O O'].
  assert (T : bfin tiny = true /\ Bval tiny = bpow radix2 (-60)).
  { assert (E : b64_me tiny = Some (2 ^ 52, -112)%Z) by (vm_compute; reflexivity). split; [vm_compute; reflexivity|]. rewrite (Bval_me E). change (IZR (2 ^ 52)) with (bpow radix2 52). rewrite <- bpow_plus. reflexivity. }
  destruct T as [FT VT]. assert (Z8 : Bval (nofZ 8) = 8 /\ Bval (nofZ 2) = 2) by (split; apply int_val; lia). destruct Z8 as [Z8 Z2].
  exists (svd_at (mk3 (int3 2 0 0) (int3 0 8 0) (int3 0 0 0)) (perm, mk3 (nofZ 8) (nofZ 2) tiny, perm')). split; [|split; [|split]].
  - apply svd_at_ok with (U := rperm) (V := rperm') (C := mk3 (mk3 2 0 0) (mk3 0 8 0) (mk3 0 0 (- bpow radix2 (-60)))); try (vm_compute; reflexivity); auto.
    + unfold Rval3, map3. cbn [c0 c1 c2]. rewrite Z8, Z2, VT. split; [exact O|]. split; [exact O'|]. cbn [c0 c1 c2]. pose proof (bpow_gt_0 radix2 (-60)). assert (bpow radix2 (-60) <= bpow radix2 0) by (apply bpow_le; lia). change (bpow radix2 0) with 1 in *. repeat (split; [lra|]). unfold rperm, rperm', rdiag, rmmul, rcol0, rcol1, rcol2, rdot. cbn [c0 c1 c2]. f_equal; f_equal; ring.
    + intros M _ (_ & _ & B8 & _) _. cbn [c0 c1 c2 int3] in B8. rewrite Z8, Rabs_pos_eq in B8 by lra. assert (PU : 0 < ulp_1) by exact eps_pos. assert (PM : 0 <= ulp_1 * M) by (apply Rmult_le_pos; lra).
      assert (TM : bpow radix2 (-60) <= ulp_1 * M). { apply Rle_trans with (ulp_1 * 1); [rewrite Rmult_1_r; unfold ulp_1; apply bpow_le; lia|apply Rmult_le_compat_l; lra]. }
      assert (W : forall v w, close3 0 v w -> close3 (ulp_1 * M) v w) by (intros v w H; eapply close3_weak; [exact PM|exact H]).
      split; [|split]; [apply W, int_close; lia|apply W, int_close; lia|]. destruct (@int3_val 0 0 0) as [(F & _) V]; [lia|lia|lia|]. eapply close_of; [exact F|exact V|..]; cbn [c0 c1 c2]; pose proof (bpow_gt_0 radix2 (-60)); rewrite ?Rminus_eq_0, ?Rabs_R0; try lra. replace (0 - - bpow radix2 (-60)) with (bpow radix2 (-60)) by ring. rewrite Rabs_pos_eq; lra.
  - pose proof (Logic.proj1 six_in) as H. unfold six in H. inversion H as [|? ? A H1]; subst. inversion H1 as [|? ? B H2]; subst. inversion H2 as [|? ? C H3]; subst. inversion H3 as [|? ? D H4]; subst. unfold four. repeat (apply Forall_cons; [assumption|]). apply Forall_nil.
  - assert (E : match find_rigid_transform (svd_at (mk3 (int3 2 0 0) (int3 0 8 0) (int3 0 0 0)) (perm, mk3 (nofZ 8) (nofZ 2) tiny, perm')) (P3N four) (P3N four) with Err ValueError => true | _ => false end = true) by (vm_compute; reflexivity).
    destruct (find_rigid_transform _ _ _) as [|[]]; try discriminate E. reflexivity.
  - unfold residual. assert (Z : forall p, rdist (SpecRigid.rigid reye (mk3 0 0 0) p) p = 0).
    { intros [x y z]. unfold rdist, SpecRigid.rigid, rsub, radd, rapply, reye, rnorm, rdot. cbn [c0 c1 c2]. match goal with |- sqrt ?e = 0 => replace e with 0 by ring end. exact sqrt_0. }
    generalize (map Rval3 four). intros l. induction l as [|p l IH]; [reflexivity|]. cbn [combine map rsum fst snd]. rewrite IH, Z. ring.
Qed.
Print Assumptions C169_flat_refuted.
