(** * Property C161: face and vertex normals in double precision. *)
From Coq Require Import Reals ZArith List Bool Lra Lia.
From Flocq Require Import Core IEEE754.BinarySingleNaN.
From Verif Require Import Num B64 BLemmas Vec RVec SpecGeom SpecDouble SpecTransD SpecNormals MNormals PMat3 PErr PNormD PPlaneD PCrossD PSumD PMeanD PNormals PNormals4 PNormalsD PropsDouble PropsDouble6 PropsDouble7 PropsDouble13.
Import ListNotations.
Local Open Scope R_scope.

(** rows of vectors as one flat array *)
Definition flatb (l : list (V3 b64)) : list b64 := flat_map (fun p => [c0 p; c1 p; c2 p]) l.
(** the coordinates of the two edges of face [t] at its first corner are at most [E] *)
Definition edges_le (E : R) (v : list (V3 R)) (t : V3 Z) : Prop :=
  coords_le E (rsub (vertex v (c1 t)) (vertex v (c0 t))) /\ coords_le E (rsub (vertex v (c2 t)) (vertex v (c0 t))).
Lemma size_490 x B : 0 <= x -> x <= 4 -> 0 <= B -> B <= bpow radix2 400 -> x * B <= bpow radix2 490.
Proof. intros P0 P1 P2 P3. apply Rle_trans with (bpow radix2 2 * bpow radix2 400); [change (bpow radix2 2) with 4; apply Rmult_le_compat; lra|rewrite <- bpow_plus; apply bpow_le; lia]. Qed.
(** ** C161.  [v] finite vertices, [f] faces with edges up to [E]. *)
Theorem C161_face_normals : forall E (v : list (V3 b64)) f, bpow radix2 (-150) <= E <= bpow radix2 150 -> in_range (length v) f -> Forall (fun p => fin3b p = true) v -> Forall (edges_le E (map Rval3 v)) f ->
  exists ns us, tri_normals_scaled (flatb v) f = Ok (flatb ns) /\ tri_normals (flatb v) f = Ok (flatb us) /\
    Forall2 (fun t n => close3 (9 * (ulp_1 * (E * E))) n (face_normal (map Rval3 v) t)) f ns /\
    Forall2 (fun t u => within 2 u /\ let N := face_normal (map Rval3 v) t in
      (65536 * (ulp_1 * (E * E)) <= rnorm N -> close3 (75 * (ulp_1 * (E * E) / rnorm N)) u (unit_of N))) f us.
Proof.
  intros E v f HE HR HF HS. change ulp_1 with PErr.eps. exists (map (bnormal v) f), (map (fun t => norm_row (bnormal v t)) f). split; [exact (tri_gen HR)|]. split; [exact (tri_unit_gen HR)|].
  assert (A : forall t, In t f -> close3 (9 * (PErr.eps * (E * E))) (bnormal v t) (face_normal (map Rval3 v) t) /\ rnorm (face_normal (map Rval3 v) t) <= 3 * (E * E) /\ coords3 (2 * (E * E)) (face_normal (map Rval3 v) t)).
  { intros t I. rewrite Forall_forall in HS. apply (face_ap HE HF). exact (HS t I). }
  split; apply with_images; apply Forall_forall; intros t I; destruct (A t I) as (C & S & (B0 & B1 & B2)); [exact C|]. destruct (T_pos HE) as (P2 & PT & ST). split.
  - apply row_bounded. destruct C as (Fc & C0 & C1 & C2). split; [exact Fc|].
    assert (Q : 3 * (E * E) <= bpow radix2 490) by (apply size_490; try lra; destruct (EE_span HE) as [_ U]; eapply Rle_trans; [exact U|apply bpow_le; lia]). apply abs_le in C0, C1, C2, B0, B1, B2. split; [|split]; apply abs_le; lra.
  - cbv zeta. intros L. replace (75 * (PErr.eps * (E * E) / rnorm (face_normal (map Rval3 v) t))) with (75 * (1 * 1) * (PErr.eps * (E * E) / rnorm (face_normal (map Rval3 v) t))) by ring. apply (dir_ap HE).
    + split; [lra|]. change (bpow radix2 31) with 2147483648. lra.
    + destruct C as (Fc & C0 & C1 & C2). split; [exact Fc|]. split; [|split]; lra.
    + lra.
    + lra.
Qed.
Print Assumptions C161_face_normals.
(** vertex normals: [n] corners meet at the vertex; none, or at most 2^30 *)
Theorem C161_vertex_normals : forall E (v : list (V3 b64)) f, bpow radix2 (-150) <= E <= bpow radix2 150 -> in_range (length v) f -> Forall (fun p => fin3b p = true) v -> Forall (edges_le E (map Rval3 v)) f ->
  exists ws, vert_normals v f true = Ok ws /\ length ws = length v /\
    forall i p, nth_error ws i = Some p -> let ns := normals_at (map Rval3 v) f (Z.of_nat i) in let n := INR (length ns) in let s := rvsum ns in
      (Z.of_nat (length ns) <= 2 ^ 30)%Z -> within 2 p /\ (ns = [] -> Rval3 p = rzero) /\
      (ns <> [] -> 65536 * (n * n) * (ulp_1 * (E * E)) <= rnorm s -> close3 (75 * (n * n) * (ulp_1 * (E * E) / rnorm s)) p (unit_of s)).
Proof.
  intros E v f HE HR HF HS. change ulp_1 with PErr.eps. eexists. split; [exact (vert_gen HR)|]. split; [now rewrite map_length, seq_length|]. intros i p P. cbv zeta. rewrite (normals_count (map Rval3 v) f i). intros HC.
  rewrite nth_error_map in P. destruct (nth_error (seq 0 (length v)) i) as [j|] eqn:J; [|discriminate P]. injection P as <-.
  assert (JI : j = i). { apply nth_error_nth with (d := 0%nat) in J as J'. assert (i < length (seq 0 (length v)))%nat by (apply nth_error_Some; congruence). rewrite seq_length in *. rewrite seq_nth in J' by auto. auto. } subst j.
  destruct (T_pos HE) as (P2 & PT & ST). split; [|split].
  - apply row_bounded. assert (Q : forall k, (k < 3)%nat -> bfin (nsum (row_at f (ravel3 (map (bnormal v) f)) (3 * i + k))) = true /\ Rabs (Bval (nsum (row_at f (ravel3 (map (bnormal v) f)) (3 * i + k)))) <= bpow radix2 490).
    { intros k K. destruct (@entry_ap E HE v f HR HF HS i k K HC) as (F & D & B). split; [exact F|]. set (n := INR (count_at f i)) in *. assert (N0 : 0 <= n) by apply pos_INR. pose proof (len_real HC) as NB. fold n in NB. pose proof (eps_n HC) as EN. fold n in EN.
      assert (D2 : (9 * n + 126 / 100 * (n * (n + 1))) * (PErr.eps * (E * E)) <= 1 * (n * (E * E))).
      { pose proof eps_pos as P0. pose proof eps_small as S0. replace ((9 * n + 126 / 100 * (n * (n + 1))) * (PErr.eps * (E * E))) with ((9 * PErr.eps + 126 / 100 * (n * PErr.eps + PErr.eps)) * (n * (E * E))) by ring. apply Rmult_le_compat_r; [apply Rmult_le_pos; lra|lra]. }
      assert (Q : 3 * (n * (E * E)) <= bpow radix2 490). { apply size_490; try lra; [apply Rmult_le_pos; lra|]. destruct (EE_span HE) as [_ U]. apply Rle_trans with (bpow radix2 30 * bpow radix2 300); [change (bpow radix2 30) with 1073741824; apply Rmult_le_compat; lra|rewrite <- bpow_plus; apply bpow_le; lia]. }
      apply abs_le in D, B. apply abs_le. lra. }
    pose proof (Q 0%nat ltac:(lia)) as [F0 Q0]. rewrite Nat.add_0_r in F0, Q0. pose proof (Q 1%nat ltac:(lia)) as [F1 Q1]. pose proof (Q 2%nat ltac:(lia)) as [F2 Q2]. unfold within, fin3b, vsum_at. cbv zeta. cbn [c0 c1 c2]. rewrite F0, F1, F2. auto.
  - intros NS. assert (C0 : count_at f i = 0%nat) by (rewrite <- (normals_count (map Rval3 v) f i), NS; reflexivity). assert (NN' := NN HR).
    assert (R : forall k, (k < 3)%nat -> row_at f (ravel3 (map (bnormal v) f)) (3 * i + k) = []) by (intros k K; apply length_zero_iff_nil; rewrite row_count; auto).
    unfold vsum_at. cbv zeta. replace (3 * i)%nat with (3 * i + 0)%nat at 1 by lia. rewrite !R by lia. vm_compute. reflexivity.
  - intros NE L. apply (vert_dir HE HR HF HS); [|exact L]. rewrite <- (normals_count (map Rval3 v) f i) in *. destruct (normals_at (map Rval3 v) f (Z.of_nat i)); [contradiction|]. cbn [length] in *. lia.
Qed.
Print Assumptions C161_vertex_normals.
Example C161_example : let v := [int3 1 1 1; int3 5 1 1; int3 1 4 1] in let f := [mk3 0%Z 1%Z 2%Z] in
  bpow radix2 (-150) <= 4 <= bpow radix2 150 /\ in_range (length v) f /\ Forall (fun p => fin3b p = true) v /\ Forall (edges_le 4 (map Rval3 v)) f /\
  normals_at (map Rval3 v) f 0 = [mk3 0 0 12] /\ 65536 * (1 * 1) * (ulp_1 * (4 * 4)) <= rnorm (rvsum [mk3 0 0 12]) /\
  exists us, tri_normals (flatb v) f = Ok us.
Proof.
  destruct (@int3_val 1 1 1) as [W1 V1]; try lia. destruct (@int3_val 5 1 1) as [W2 V2]; try lia. destruct (@int3_val 1 4 1) as [W3 V3]; try lia. destruct W1 as [F1 _], W2 as [F2 _], W3 as [F3 _]. intros v f.
  assert (G : bpow radix2 (-150) <= 4 <= bpow radix2 150) by (change 4 with (bpow radix2 2); split; apply bpow_le; lia).
  assert (R : in_range (length v) f) by (intros t i [<-|[]] I; cbn in I; cbn [length v]; lia).
  assert (MV : map Rval3 v = [mk3 1 1 1; mk3 5 1 1; mk3 1 4 1]) by (unfold v; cbn [map]; rewrite V1, V2, V3; reflexivity).
  split; [exact G|]. split; [exact R|]. split; [apply Forall_cons; [exact F1|apply Forall_cons; [exact F2|apply Forall_cons; [exact F3|apply Forall_nil]]]|]. rewrite MV. split; [|split; [|split]].
  - apply Forall_cons; [|apply Forall_nil]. unfold edges_le, coords_le, vertex, rsub. cbn [c0 c1 c2]. change (Z.to_nat 0) with 0%nat. change (Z.to_nat 1) with 1%nat. change (Z.to_nat 2) with 2%nat. cbn [nth c0 c1 c2]. repeat split; apply Rabs_le; lra.
  - unfold normals_at, f. cbn [flat_map c0 c1 c2 filter]. change (0 =? 0)%Z with true. change (0 =? 1)%Z with false. change (0 =? 2)%Z with false. cbn [map app]. unfold face_normal, vertex, rcross, rsub. cbn [c0 c1 c2]. change (Z.to_nat 0) with 0%nat. change (Z.to_nat 1) with 1%nat. change (Z.to_nat 2) with 2%nat. cbn [nth c0 c1 c2]. repeat f_equal; lra.
  - cbn [rvsum]. change ulp_1 with PErr.eps. rewrite eps_val. unfold rnorm, rdot, radd, rzero. cbn [c0 c1 c2]. replace ((0 + 0) * (0 + 0) + (0 + 0) * (0 + 0) + (12 + 0) * (12 + 0)) with (12 * 12) by ring. rewrite sqrt_square by lra. lra.
  - eexists. exact (tri_unit_gen R).
Qed.
