(** * Property C171: vertex normals that are not normalised, in double precision. *)
From Coq Require Import Reals ZArith List Bool Lra Lia.
From Flocq Require Import Core IEEE754.BinarySingleNaN.
From Verif Require Import Num B64 BLemmas Vec RVec SpecGeom SpecDouble SpecTransD SpecNormals MNormals PMat3 PErr PNormD PPlaneD PCrossD PSumD PMeanD PNormals PNormals4 PNormalsD PNormalsD2 PropsDouble PropsDouble6 PropsDouble7 PropsDouble13 PropsDouble15.
Import ListNotations.
Local Open Scope R_scope.

(** ** C171.  [ns] are the exact normals of the faces at the vertex, [n] their number and [m] their
    mean; the result is next to the vector along [m] whose length is the root of that of [m]. *)
Theorem C171_vertex_normals_scaled : forall E (v : list (V3 b64)) f, bpow radix2 (-150) <= E <= bpow radix2 150 -> in_range (length v) f -> Forall (fun p => fin3b p = true) v -> Forall (edges_le E (map Rval3 v)) f ->
  exists ws, vert_normals v f false = Ok ws /\ length ws = length v /\
    forall i p, nth_error ws i = Some p -> let ns := normals_at (map Rval3 v) f (Z.of_nat i) in let n := INR (length ns) in let m := rscale (/ n) (rvsum ns) in
      (Z.of_nat (length ns) <= 2 ^ 30)%Z -> (ns = [] -> p = mk3 B754_nan B754_nan B754_nan) /\
      (ns <> [] -> 131072 * n * (ulp_1 * (E * E)) <= rnorm m -> close3 ((80 + 9 * n) * (ulp_1 * (E * E) / sqrt (rnorm m))) p (rscale (/ sqrt (rnorm m)) m)).
Proof.
  intros E v f HE HR HF HS. change ulp_1 with PErr.eps. eexists. split; [exact (scaled_gen HR)|]. split; [now rewrite map_length, seq_length|]. intros i p P. cbv zeta. rewrite (PNormalsD.normals_count (map Rval3 v) f i). intros HC.
  rewrite nth_error_map in P. destruct (nth_error (seq 0 (length v)) i) as [j|] eqn:J; [|discriminate P]. injection P as <-.
  assert (JI : j = i). { apply nth_error_nth with (d := 0%nat) in J as J'. assert (i < length (seq 0 (length v)))%nat by (apply nth_error_Some; congruence). rewrite seq_length in *. rewrite seq_nth in J' by auto. auto. } subst j. split.
  - intros Z. assert (C0 : count_at f i = 0%nat) by (rewrite <- (PNormalsD.normals_count (map Rval3 v) f i), Z; reflexivity). assert (N0 : nonneg f) by (intros t k It Ik; exact (Logic.proj1 (HR t k It Ik))).
    assert (SR : forall k q x, (k < 3)%nat -> srow f q x (3 * i + k) = []).
    { intros k q x K. assert (L : length (srow f q x (3 * i + k)) = 0%nat) by (transitivity (length (row_at f x (3 * i + k))); [unfold srow, row_at; now rewrite !map_length|rewrite (row_count x i N0 K); exact C0]). destruct (srow f q x (3 * i + k)); [reflexivity|discriminate L]. }
    apply root_nan; unfold vmean_at; cbv zeta; pose proof (SR 0%nat) as S0; rewrite Nat.add_0_r in S0; rewrite S0 by lia; rewrite (SR 1%nat), (SR 2%nat) by lia; reflexivity.
  - intros NZ L. assert (C1 : (1 <= Z.of_nat (count_at f i))%Z). { rewrite <- (PNormalsD.normals_count (map Rval3 v)). destruct (normals_at (map Rval3 v) f (Z.of_nat i)); [contradiction|cbn [length]; lia]. }
    exact (@vert_root E HE v f HR HF HS i ltac:(lia) L).
Qed.
Print Assumptions C171_vertex_normals_scaled.
(** the mesh of C161, whose only face has the normal (0, 0, 12): the bound is met, and the second
    mesh has a vertex in no face *)
Example C171_example : let v := [int3 1 1 1; int3 5 1 1; int3 1 4 1] in let f := [mk3 0%Z 1%Z 2%Z] in
  bpow radix2 (-150) <= 4 <= bpow radix2 150 /\ in_range (length v) f /\ Forall (fun p => fin3b p = true) v /\ Forall (edges_le 4 (map Rval3 v)) f /\
  normals_at (map Rval3 v) f 0 = [mk3 0 0 12] /\ 131072 * 1 * (ulp_1 * (4 * 4)) <= rnorm (rscale (/ 1) (rvsum [mk3 0 0 12])) /\ normals_at (map Rval3 (v ++ [int3 7 7 7])) f 3 = [].
Proof.
  destruct C161_example as (A & B & C & D & G & H & _). intros v f. repeat (split; [assumption|]). split; [|unfold normals_at, f; reflexivity].
  cbn [rvsum]. change ulp_1 with PErr.eps. rewrite eps_val. unfold rnorm, rdot, radd, rzero, rscale. cbn [c0 c1 c2]. replace (/ 1 * (0 + 0) * (/ 1 * (0 + 0)) + / 1 * (0 + 0) * (/ 1 * (0 + 0)) + / 1 * (12 + 0) * (/ 1 * (12 + 0))) with (12 * 12) by field. rewrite sqrt_square by lra. lra.
Qed.
