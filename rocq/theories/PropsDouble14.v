(** * Property C160: almost_zero and almost_collinear in double precision. *)
From Coq Require Import Reals ZArith List Bool Lra Lia.
From Flocq Require Import Core IEEE754.BinarySingleNaN.
From Verif Require Import Num B64 BLemmas Vec RVec SpecGeom SpecDouble SpecTransD MVx PErr PNormD PTolD PropsDouble PropsDouble6 PropsDouble7.
Import ListNotations.
Local Open Scope R_scope.

(** ** C160.  The test for zero is exact on doubles: no rounding is involved. *)
Theorem C160_almost_zero : forall (v : V3 b64) atol, bfin atol = true ->
  almost_zero v atol = true <-> fin3b v = true /\ Rabs (Bval (c0 v)) <= Bval atol /\ Rabs (Bval (c1 v)) <= Bval atol /\ Rabs (Bval (c2 v)) <= Bval atol.
Proof. intros v t. apply all_zero. Qed.
Print Assumptions C160_almost_zero.
(** exactly collinear vectors (as real vectors) are always found collinear, whatever the tolerance *)
Theorem C160_collinear_found : forall X Y (v w : V3 b64) atol, within X v -> within Y w -> 0 <= X -> 0 <= Y -> X * Y <= bpow radix2 1000 ->
  (exists k l, (k <> 0 \/ l <> 0) /\ rscale k (Rval3 v) = rscale l (Rval3 w)) -> bfin atol = true -> 0 <= Bval atol -> almost_collinear v w atol = true.
Proof.
  intros X Y v w t Wv Ww PX PY B (k & l & NZ & E) Ft Pt. apply (@coll_exact X Y); auto. destruct (Rval3 v) as [x y z], (Rval3 w) as [a b c]. unfold rscale in E. cbn [c0 c1 c2] in E. injection E as E0 E1 E2. unfold rcross, rzero. cbn [c0 c1 c2].
  assert (Q : forall s, k * s = 0 -> l * s = 0 -> s = 0) by (intros s Hk Hl; destruct NZ as [N|N]; [apply Rmult_integral in Hk|apply Rmult_integral in Hl]; tauto).
  f_equal; apply Q.
  - replace (k * (y * c - z * b)) with ((k * y) * c - (k * z) * b) by ring. rewrite E1, E2. ring.
  - replace (l * (y * c - z * b)) with (y * (l * c) - z * (l * b)) by ring. rewrite <- E1, <- E2. ring.
  - replace (k * (z * a - x * c)) with ((k * z) * a - (k * x) * c) by ring. rewrite E0, E2. ring.
  - replace (l * (z * a - x * c)) with (z * (l * a) - x * (l * c)) by ring. rewrite <- E0, <- E2. ring.
  - replace (k * (x * b - y * a)) with ((k * x) * b - (k * y) * a) by ring. rewrite E0, E1. ring.
  - replace (l * (x * b - y * a)) with (x * (l * b) - y * (l * a)) by ring. rewrite <- E0, <- E1. ring.
Qed.
Print Assumptions C160_collinear_found.
(** in general the answer is that of the exact test, except in a band of rounding errors about the tolerance *)
Theorem C160_collinear : forall X Y (v w : V3 b64) atol, bpow radix2 (-190) <= X <= bpow radix2 190 -> bpow radix2 (-190) <= Y <= bpow radix2 190 -> within X v -> within Y w ->
  bfin atol = true -> bpow radix2 (-300) <= Bval atol ->
  let area := rnorm (rcross (Rval3 v) (Rval3 w)) in let m := 10 * (ulp_1 * (X * Y)) in
  (area + m <= Bval atol * (1 - 20 * ulp_1) -> almost_collinear v w atol = true) /\
  (Bval atol * (1 + 20 * ulp_1) < area - m -> almost_collinear v w atol = false).
Proof. intros. apply coll_near; assumption. Qed.
Print Assumptions C160_collinear.
Example C160_example : within 8 (int3 1 2 3) /\ within 8 (int3 4 5 6) /\ within 8 (int3 2 4 6) /\ 2 <= rnorm (rcross (Rval3 (int3 1 2 3)) (Rval3 (int3 4 5 6))) /\
  rscale 2 (Rval3 (int3 1 2 3)) = rscale 1 (Rval3 (int3 2 4 6)) /\ bpow radix2 (-190) <= 8 <= bpow radix2 190 /\
  almost_collinear (int3 1 2 3) (int3 4 5 6) (c0 (int3 1 2 3)) = false /\ almost_collinear (int3 1 2 3) (int3 2 4 6) n0 = true.
Proof.
  destruct (@int3_val 1 2 3) as [W1 V1]; try lia. destruct (@int3_val 4 5 6) as [W2 V2]; try lia. destruct (@int3_val 2 4 6) as [W3 V3]; try lia. destruct W1 as [F1 _], W2 as [F2 _], W3 as [F3 _].
  assert (G : bpow radix2 (-190) <= 8 <= bpow radix2 190). { change 8 with (bpow radix2 3). split; apply bpow_le; lia. }
  split; [|split; [|split; [|split; [|split; [|split; [exact G|]]]]]].
  - split; [assumption|]. change (Rabs (c0 (Rval3 (int3 1 2 3))) <= 8 /\ Rabs (c1 (Rval3 (int3 1 2 3))) <= 8 /\ Rabs (c2 (Rval3 (int3 1 2 3))) <= 8). rewrite V1. cbn [c0 c1 c2]. split; [|split]; apply Rabs_le; lra.
  - split; [assumption|]. change (Rabs (c0 (Rval3 (int3 4 5 6))) <= 8 /\ Rabs (c1 (Rval3 (int3 4 5 6))) <= 8 /\ Rabs (c2 (Rval3 (int3 4 5 6))) <= 8). rewrite V2. cbn [c0 c1 c2]. split; [|split]; apply Rabs_le; lra.
  - split; [assumption|]. change (Rabs (c0 (Rval3 (int3 2 4 6))) <= 8 /\ Rabs (c1 (Rval3 (int3 2 4 6))) <= 8 /\ Rabs (c2 (Rval3 (int3 2 4 6))) <= 8). rewrite V3. cbn [c0 c1 c2]. split; [|split]; apply Rabs_le; lra.
  - rewrite V1, V2. unfold rnorm, rdot, rcross. cbn [c0 c1 c2]. apply Rsqr_incr_0; [|lra|apply sqrt_pos]. rewrite Rsqr_sqrt by lra. unfold Rsqr. lra.
  - rewrite V1, V3. unfold rscale. cbn [c0 c1 c2]. f_equal; ring.
  - split; vm_compute; reflexivity.
Qed.
