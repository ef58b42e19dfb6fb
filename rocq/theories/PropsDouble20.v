(** * Property C170: [find_rigid_rotation] with scaling and for a single pair, in doubles. *)
From Coq Require Import Reals ZArith List Bool Lra Lia.
From Flocq Require Import Core IEEE754.BinarySingleNaN.
From Verif Require Import Num B64 BLemmas Vec RVec NpList MRotation MRigid SpecGeom SpecRotation SpecRigid SpecDouble SpecTransD SpecTrigD SpecRigidD PErr PNormD PLine2D PRigidD PRigidD3 PropsDouble PropsDouble19.
Import ListNotations.
Local Open Scope R_scope.

(** ** C170.  With scaling: next to [k] times a rotation that is nearly the best one without scaling,
    where [k] is the ratio of the roots of the sums of squared lengths. *)
Theorem C170_scaled : forall (svd : @svd_t b64) d tau X ps qs r, 0 <= d <= 1 / 1000 -> 0 <= tau -> accurate_svd d tau svd ->
  bpow radix2 (-180) <= X <= bpow radix2 180 -> Forall (within X) ps -> Forall (within X) qs -> Forall ordinary_point ps -> Forall ordinary_point qs ->
  Exists (fun p => Rval3 p <> mk3 0 0 0) ps -> Exists (fun p => Rval3 p <> mk3 0 0 0) qs ->
  length ps = length qs -> length ps <> 1%nat -> (Z.of_nat (length ps) < 2 ^ 30)%Z -> find_rigid_rotation svd (P3N ps) (P3N qs) true = Ok r ->
  let n := INR (length ps) in let k := frob (map Rval3 qs) / frob (map Rval3 ps) in
  exists q, rotation q /\ close33 (k * (10 * d + (3 * n + 60) * ulp_1)) r (map3 (rscale k) q) /\
    forall q', rotation q' -> residual (rapply q) (map Rval3 ps) (map Rval3 qs) <= residual (rapply q') (map Rval3 ps) (map Rval3 qs) + 40 * n * (X * X) * (tau + (n + 3) * ulp_1).
Proof.
  intros svd d tau X ps qs r D PT HS HX Wp Wq Op Oq Zp Zq EL N1 HL H n k. destruct (scaled_near D EL N1 HL Op Oq Zp Zq H) as (r1 & E1 & HC).
  destruct (rotation_nearly D PT HS HX Wp Wq EL N1 ltac:(lia) E1) as (q & Rq & Cq & Bq). exists q. split; [exact Rq|]. split; [exact (HC q Rq Cq)|exact Bq].
Qed.
Print Assumptions C170_scaled.
(** For a single pair the function adds the cross product to both sides; the rotation found still
    nearly minimises the distance from the turned [p] to [q]. *)
Theorem C170_pair : forall (svd : @svd_t b64) d tau X p q r, 0 <= d <= 1 / 1000 -> 0 <= tau -> accurate_svd d tau svd ->
  bpow radix2 (-90) <= X <= bpow radix2 90 -> within X p -> within X q -> find_rigid_rotation svd (P3N [p]) (P3N [q]) false = Ok r ->
  let Y := X + 3 * (X * X) in
  exists m, rotation m /\ close33 (9 * d + 20 * ulp_1) r m /\
    forall m', rotation m' -> residual (rapply m) [Rval3 p] [Rval3 q] <= residual (rapply m') [Rval3 p] [Rval3 q] + Y * Y * (75 * tau + 840 * ulp_1).
Proof. intros svd d tau X p q r D PT HS HX Wp Wq H. exact (pair_nearly D PT HS HX Wp Wq H). Qed.
Print Assumptions C170_pair.

(** the points of C168 with scaling *)
Example C170_example_scaled : accurate_svd 0 0 six_svd /\ Forall (within 4) six /\ Forall (within 4) six_turned /\ Forall ordinary_point six /\ Forall ordinary_point six_turned /\
  Exists (fun p => Rval3 p <> mk3 0 0 0) six /\ Exists (fun p => Rval3 p <> mk3 0 0 0) six_turned /\ exists r, find_rigid_rotation six_svd (P3N six) (P3N six_turned) true = Ok r.
Proof.
  assert (G : forall a b c, (Z.abs a <= 2)%Z -> (Z.abs b <= 2)%Z -> (Z.abs c <= 2)%Z -> (1 <= a * a + b * b + c * c <= 4)%Z -> ordinary_point (int3 a b c)).
  { intros a b c A B C [L U]. destruct (@int3_val a b c ltac:(lia) ltac:(lia) ltac:(lia)) as [(F & _) V]. split; [exact F|right]. rewrite V. assert (E : rdot (mk3 (IZR a) (IZR b) (IZR c)) (mk3 (IZR a) (IZR b) (IZR c)) = IZR (a * a + b * b + c * c)) by (unfold rdot; cbn [c0 c1 c2]; rewrite !plus_IZR, !mult_IZR; reflexivity).
    unfold rnorm. rewrite E. apply IZR_le in L, U. assert (S1 : 1 <= sqrt (IZR (a * a + b * b + c * c))) by (rewrite <- sqrt_1 at 1; now apply sqrt_le_1_alt). assert (S2 : sqrt (IZR (a * a + b * b + c * c)) <= 2) by (rewrite <- (sqrt_square 2) by lra; apply sqrt_le_1_alt; lra).
    split; [apply Rle_trans with (bpow radix2 0); [apply bpow_le; lia|exact S1]|apply Rle_trans with (bpow radix2 1); [exact S2|apply bpow_le; lia]]. }
  split; [exact six_accurate|]. split; [apply six_in|]. split; [apply six_in|]. split; [unfold six; repeat (apply Forall_cons; [apply G; lia|]); apply Forall_nil|]. split; [unfold six_turned; repeat (apply Forall_cons; [apply G; lia|]); apply Forall_nil|].
  split; [apply Exists_cons_hd; destruct (@int3_val 1 0 0) as [_ V]; try lia; rewrite V; intros E; pose proof (f_equal c0 E) as E0; cbn [c0] in E0; lra|]. split; [apply Exists_cons_hd; destruct (@int3_val 0 1 0) as [_ V]; try lia; rewrite V; intros E; pose proof (f_equal c1 E) as E0; cbn [c1] in E0; lra|].
  assert (E : match find_rigid_rotation six_svd (P3N six) (P3N six_turned) true with Ok _ => true | Err _ => false end = true) by (vm_compute; reflexivity). destruct (find_rigid_rotation _ _ _ _) as [r|]; [eauto|discriminate E].
Qed.
(** (1, 0, 0) onto (0, 2, 0): the sums of products [[0, 2, 0], [0, 0, 0], [0, 0, 4]] = u diag(4, 2, 0) v *)
Definition cyc : M3 b64 := mk3 (int3 0 1 0) (int3 0 0 1) (int3 1 0 0).
Definition rcyc : M3 R := mk3 (mk3 0 1 0) (mk3 0 0 1) (mk3 1 0 0).
Definition flip : M3 b64 := mk3 (int3 0 0 1) (int3 0 1 0) (int3 1 0 0).
Definition rflip : M3 R := mk3 (mk3 0 0 1) (mk3 0 1 0) (mk3 1 0 0).
Definition pair_svd : @svd_t b64 := svd_at (mk3 (int3 0 2 0) (int3 0 0 0) (int3 0 0 4)) (cyc, int3 4 2 0, flip).
Example C170_example_pair : accurate_svd 0 0 pair_svd /\ within 4 (int3 1 0 0) /\ within 4 (int3 0 2 0) /\ exists r, find_rigid_rotation pair_svd (P3N [int3 1 0 0]) (P3N [int3 0 2 0]) false = Ok r.
Proof.
  split; [|split; [|split]].
  - unfold pair_svd. apply svd_at_ok with (U := rcyc) (V := rflip) (C := mk3 (mk3 0 2 0) (mk3 0 0 0) (mk3 0 0 4)); try (vm_compute; reflexivity).
    + destruct (@int3_val 4 2 0) as [_ V]; [lia|lia|lia|]. rewrite V. split; [split; unfold rcyc, rmmul, rtrans, reye, rcol0, rcol1, rcol2, rdot; cbn [c0 c1 c2]; f_equal; f_equal; ring|]. split; [split; unfold rflip, rmmul, rtrans, reye, rcol0, rcol1, rcol2, rdot; cbn [c0 c1 c2]; f_equal; f_equal; ring|]. cbn [c0 c1 c2]. repeat (split; [lra|]). unfold rcyc, rflip, rdiag, rmmul, rcol0, rcol1, rcol2, rdot. cbn [c0 c1 c2]. f_equal; f_equal; ring.
    + split; [|split]; apply int_close; lia.
    + split; [|split]; apply int_close; lia.
    + intros M _ _ _. rewrite Rmult_0_l. split; [|split]; apply int_close; lia.
  - pose proof (Logic.proj1 six_in) as H. inversion H; assumption.
  - pose proof (Logic.proj1 six_in) as H. inversion H as [|? ? _ H1]; subst. inversion H1 as [|? ? _ H2]; subst. inversion H2; assumption.
  - assert (E : match find_rigid_rotation pair_svd (P3N [int3 1 0 0]) (P3N [int3 0 2 0]) false with Ok _ => true | Err _ => false end = true) by (vm_compute; reflexivity). destruct (find_rigid_rotation _ _ _ _) as [r|]; [eauto|discriminate E].
Qed.
