(** * Property C174: as_rotation_matrix next to half turns. *)
From Coq Require Import Reals ZArith List Bool Lra Lia Psatz.
From Flocq Require Import Core.
From Verif Require Import Num XLemmas Vec NpList RVec SpecGeom VLemmas PMat3 MRotation SpecRotation PRotation PRotation2 PHalfTurn PropsRotation.
Local Open Scope R_scope.

(** ** C174.  Exact arithmetic; [svd_ok] as in C52.  Everywhere but next to half turns the matrix stays
    where it is up to 2e-5. *)
Theorem C174_elsewhere : forall svd k t R0, rdot k k = 1 -> 0 <= t <= PI -> turns_about k t R0 -> svd_ok svd R0 ->
  1/100000 <= sin t \/ t < PI / 2 \/ t = PI ->
  exists m, as_rotation_matrix svd (RMatrix (finm R0)) = Ok (finm m) /\ mat_within (2/100000) R0 m.
Proof.
  intros svd k t m K B T S H. assert (G : 1/100000 <= sin t \/ t = 0 \/ t = PI -> exists m', as_rotation_matrix svd (RMatrix (finm m)) = Ok (finm m') /\ mat_within (2/100000) m m').
  { intros Q. exists m. split; [exact (C52_as_rotation_matrix svd k t m K B T S Q)|]. intros i j. rewrite Rminus_eq_0, Rabs_R0. lra. }
  destruct (Rlt_le_dec (sin t) (1/100000)) as [L|L]; [|apply G; auto]. destruct H as [H|[H|H]]; [lra| |apply G; auto].
  exists reye. exact (C52_near_identity svd k t m K (conj (proj1 B) H) T S L).
Qed.
Print Assumptions C174_elsewhere.
(** Next to half turns, too, it is not off by more than 1/50. *)
Theorem C174_always : forall svd R0, rotation R0 -> svd_ok svd R0 ->
  exists m, as_rotation_matrix svd (RMatrix (finm R0)) = Ok (finm m) /\ rotation m /\ mat_within (1/50) R0 m.
Proof.
  intros svd m M S. destruct (C52_always_rotation svd m M S) as (m' & E & M'). exists m'. split; [exact E|]. split; [exact M'|].
  destruct (rotation_turns M) as (k & t & K & B & T & Et). assert (W : forall r, as_rotation_matrix svd (RMatrix (finm m)) = Ok (finm r) -> mat_within (1/50) m r -> mat_within (1/50) m m').
  { intros r Er Hr i j. rewrite E in Er. assert (Q : finm m' = finm r) by congruence. assert (Q' : m' = r) by (clear - Q; destruct m' as [[a1 a2 a3] [a4 a5 a6] [a7 a8 a9]], r as [[b1 b2 b3] [b4 b5 b6] [b7 b8 b9]]; unfold finm, fin3, map3 in Q; cbn [c0 c1 c2] in Q; congruence). rewrite Q'. apply Hr. }
  destruct (Rlt_le_dec (sin t) (1/100000)) as [L|L]; [destruct (Rlt_le_dec t (PI / 2)) as [L'|L']|].
  - destruct (C174_elsewhere svd k t m K B T S ltac:(auto)) as (r & Er & Hr). apply (W r Er). intros i j. specialize (Hr i j). lra.
  - assert (HC : cos t <= 0) by (apply cos_le_0; pose proof PI_RGT_0; lra). pose proof (turns_axis_rot K T) as EA. pose proof (half_near k t m K B L HC EA) as HN. set (a := half_axis m) in *. pose proof (half_axis_pos M) as HP. fold a in HP. apply (W (axis_rot t (rscale (/ rnorm a) a))); [|exact HN].
    unfold as_rotation_matrix. rewrite (rodrigues_mat_rot M S). cbn [mapr]. unfold rlog. rewrite <- Et. destruct (Rlt_dec (sin t) (1/100000)) as [_|]; [|lra]. assert (TR : trace m = 1 + 2 * cos t) by (rewrite EA; now apply axis_rot_trace). rewrite TR. destruct (Rlt_dec 0 ((1 + 2 * cos t - 1) / 2)) as [Q|_]; [lra|]. fold a.
    replace (rscale (t / rnorm a) a) with (rscale t (rscale (/ rnorm a) a)) by (rewrite rscale_scale; f_equal; field; lra). rewrite frodrigues_axis; [reflexivity| |pose proof PI2_3_2; unfold reps; lra]. rewrite rdot_scale_l, rdot_scale_r, <- rnorm_sq. field. lra.
  - destruct (C174_elsewhere svd k t m K B T S ltac:(auto)) as (r & Er & Hr). apply (W r Er). intros i j. specialize (Hr i j). lra.
Qed.
Print Assumptions C174_always.
(** A turn about (1, 1, 1000) by pi minus 8e-6: the unit quaternion along (4, 1000, 1000, 1000000). *)
Definition near_half : M3 R :=
  mk3 (mk3 (-999999999984 / 1000002000016) (-6000000 / 1000002000016) (2000008000 / 1000002000016))
      (mk3 (10000000 / 1000002000016) (-999999999984 / 1000002000016) (1999992000 / 1000002000016))
      (mk3 (1999992000 / 1000002000016) (2000008000 / 1000002000016) (999998000016 / 1000002000016)).
Theorem C174_near_half_turn_refuted : exists R0, rotation R0 /\ forall svd, svd_ok svd R0 ->
  exists m, as_rotation_matrix svd (RMatrix (finm R0)) = Ok (finm m) /\ rotation m /\ ~ mat_within (19 / 10000) R0 m.
Proof.
  exists near_half. assert (M : rotation near_half). { split; [split|]; unfold near_half, rmmul, rtrans, reye, rdet, rcol0, rcol1, rcol2, rdot, rcross; cbn [c0 c1 c2]; [f_equal; f_equal; lra|f_equal; f_equal; lra|lra]. }
  split; [exact M|]. intros svd S. unfold as_rotation_matrix. rewrite (rodrigues_mat_rot M S). cbn [mapr]. unfold rlog. set (c := (trace near_half - 1) / 2). assert (C : c = -1 + 32 / 1000002000016) by (unfold c, trace, near_half; cbn [c0 c1 c2]; lra).
  assert (C1 : -1 < c < 0) by lra. assert (SL : sin (acos c) < 1/100000). { rewrite sin_acos by lra. rewrite <- (sqrt_square (1/100000)) by lra. apply sqrt_lt_1_alt. rewrite C. unfold Rsqr. lra. }
  destruct (Rlt_dec (sin (acos c)) (1/100000)) as [_|]; [|lra]. destruct (Rlt_dec 0 c) as [|_]; [lra|].
  pose proof (half_axis_pos M) as HP. set (a := half_axis near_half) in *. set (k := rscale (/ rnorm a) a). assert (K : rdot k k = 1) by (unfold k; rewrite rdot_scale_l, rdot_scale_r, <- rnorm_sq; field; lra).
  replace (rscale (acos c / rnorm a) a) with (rscale (acos c) k) by (unfold k; rewrite rscale_scale; f_equal; field; lra). pose proof (acos_bound c) as AB. assert (AC : reps <= acos c). { destruct (Rle_lt_dec 1 (acos c)) as [Q|Q]; [unfold reps; lra|]. exfalso. pose proof PI2_3_2. assert (0 < cos (acos c)) by (apply cos_gt_0; lra). rewrite cos_acos in H0 by lra. lra. }
  rewrite frodrigues_axis by assumption. exists (axis_rot (acos c) k). split; [reflexivity|]. split; [now apply axis_rot_rotation|]. intros W. specialize (W 1%Z 2%Z). change (Rabs (c2 (c1 near_half) - c2 (c1 (axis_rot (acos c) k))) <= 19 / 10000) in W.
  assert (A0 : 0 <= c0 a /\ c1 a <= 0 /\ 0 <= c2 a).
  { unfold a, half_axis, near_half. cbn [c0 c1 c2]. rewrite (Rlt_bool_true (-6000000 / 1000002000016) 0) by lra. rewrite (Rlt_bool_false (2000008000 / 1000002000016) 0) by lra.
    set (h := sqrt ((-999999999984 / 1000002000016 + 1) * (1/2))). set (g := sqrt ((999998000016 / 1000002000016 + 1) * (1/2))). assert (H0 : 0 <= h) by apply sqrt_pos. assert (G0 : 0 <= g) by apply sqrt_pos. rewrite (Rabs_Ropp h), (Rlt_bool_false (Rabs h) (Rabs h)) by lra. cbn [andb]. lra. }
  destruct A0 as (A0 & A1 & A2). assert (PI' : 0 < / rnorm a) by (apply Rinv_0_lt_compat; lra). assert (K0 : 0 <= c0 k) by (unfold k, rscale; cbn [c0]; nra). assert (K1 : c1 k <= 0) by (unfold k, rscale; cbn [c1]; nra). assert (K2 : 0 <= c2 k) by (unfold k, rscale; cbn [c2]; nra).
  assert (P : 0 <= sin (acos c)) by (apply sin_ge_0; lra). pose proof (COS_bound (acos c)) as CB. assert (Q1 : c2 k * c1 k <= 0) by nra. assert (Q2 : (1 - cos (acos c)) * (c2 k * c1 k) <= 0) by nra. assert (Q3 : 0 <= sin (acos c) * c0 k) by nra.
  unfold near_half, axis_rot in W. cbn [c0 c1 c2] in W. apply Rabs_le_inv in W. lra.
Qed.
Print Assumptions C174_near_half_turn_refuted.
(** how far from a half turn that matrix is, and about which axis it turns *)
Example C174_example : (exists svd : @svd_t xr, svd_ok svd near_half) /\ trace near_half = -1 + 64 / 1000002000016 /\ rapply near_half (mk3 1 1 1000) = mk3 1 1 1000.
Proof.
  split; [|split].
  - destruct C52_example as [svd H]. exists svd. apply H. split; unfold near_half, rmmul, rtrans, reye, rcol0, rcol1, rcol2, rdot; cbn [c0 c1 c2]; f_equal; f_equal; lra.
  - unfold trace, near_half. cbn [c0 c1 c2]. lra.
  - unfold near_half, rapply, rdot. cbn [c0 c1 c2]. f_equal; lra.
Qed.
