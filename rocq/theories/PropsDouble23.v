(** * Property C173: rodrigues of a matrix and as_rotation_matrix in double precision. *)
From Coq Require Import Reals ZArith List Bool Lra Lia.
From Flocq Require Import Core IEEE754.BinarySingleNaN.
From Verif Require Import Num B64 BLemmas Vec RVec VLemmas SpecGeom SpecRotation SpecDouble SpecTransD SpecTrigD SpecRigidD MRotation PMat3 PRotation PErr PNormD PRodD PRigidD PAngleD PXzD PLogD PropsDouble PropsDouble11 PropsDouble19.
Import ListNotations.
Local Open Scope R_scope.

(** ** C173.  [m] is within [e] of the exact turn [m0] about [k] by [t]; [D] bounds what the svd and
    the product of its factors add. *)
Theorem C173_rodrigues_matrix : forall (T : Trans b64) svd d tau e (m : M3 b64) f k t m0, accurate_acos T -> 0 <= d <= 1 / 1000 -> 0 <= tau -> 0 <= e <= 1 / 100 -> accurate_svd d tau svd ->
  rdot k k = 1 -> 0 <= t <= PI -> turns_about k t m0 -> close33 e m m0 -> svd m = Ok f ->
  let D := 9 * d + 20 * ulp_1 + 7 * (e + 2 * tau) in 2 / 100000 <= sin t -> 100 * D <= sin t * sin t ->
  exists r, rodrigues_mat svd m = Ok r /\ close3 (20 * D / sin t) r (rscale t k).
Proof.
  intros T svd d tau e m [[u s] v] k t m0 HA Hd Htau He HS K Ht TA CM E D H1 H2. rewrite (turns_unique K TA (axis_rot_turns t K)) in CM. exact (log_ap HA Hd Htau He HS E K Ht CM H1 H2).
Qed.
Print Assumptions C173_rodrigues_matrix.
(** turns by a small angle, the identity among them: below about 1e-5 the zero vector is returned *)
Theorem C173_small_turn : forall (T : Trans b64) svd d tau e (m : M3 b64) f k t m0, accurate_acos T -> 0 <= d <= 1 / 1000 -> 0 <= tau -> 0 <= e <= 1 / 100 -> accurate_svd d tau svd ->
  rdot k k = 1 -> 0 <= t <= 1 / 1000 -> turns_about k t m0 -> close33 e m m0 -> svd m = Ok f ->
  9 * d + 20 * ulp_1 + 7 * (e + 2 * tau) <= / 2000000000000 ->
  exists r, rodrigues_mat svd m = Ok r /\ close3 (13 / 1000000) r (rscale t k).
Proof.
  intros T svd d tau e m [[u s] v] k t m0 HA Hd Htau He HS K Ht TA CM E H1. rewrite (turns_unique K TA (axis_rot_turns t K)) in CM. exact (log_small HA Hd Htau He HS E K Ht CM H1).
Qed.
Print Assumptions C173_small_turn.
(** as_rotation_matrix gives back a matrix next to the exact turn *)
Theorem C173_as_rotation_matrix : forall (T : Trans b64) svd d tau e (m : M3 b64) f k t m0, accurate_trig T -> accurate_acos T -> 0 <= d <= 1 / 1000 -> 0 <= tau -> 0 <= e <= 1 / 100 -> accurate_svd d tau svd ->
  rdot k k = 1 -> 0 <= t <= PI -> turns_about k t m0 -> close33 e m m0 -> svd m = Ok f ->
  let D := 9 * d + 20 * ulp_1 + 7 * (e + 2 * tau) in 2 / 100000 <= sin t -> 2000 * D <= sin t * sin t ->
  exists R, as_rotation_matrix svd (RMatrix m) = Ok R /\ close33 (270 * D / sin t) R m0.
Proof.
  intros T svd d tau e m f k t m0 HT HA Hd Htau He HS K Ht TA CM E D H1 H2. change ulp_1 with PErr.eps in D. pose proof eps_pos as PE. assert (PD : 20 * PErr.eps <= D) by (unfold D; lra). pose proof (SIN_bound t) as SB.
  destruct (C173_rodrigues_matrix T svd d tau e m f k t m0 HA Hd Htau He HS K Ht TA CM E H1) as (r & Er & Cr); [change ulp_1 with PErr.eps; fold D; lra|]. change ulp_1 with PErr.eps in Cr. fold D in Cr. exists (rodrigues_vec r). unfold as_rotation_matrix. rewrite Er. split; [reflexivity|].
  assert (V : D <= D / sin t) by (apply Rmult_le_reg_r with (sin t); [lra|]; replace (D / sin t * sin t) with D by (field; lra); nra). assert (V1 : D / sin t <= / 2000) by (apply Rmult_le_reg_r with (sin t); [lra|]; replace (D / sin t * sin t) with D by (field; lra); nra).
  replace (20 * D / sin t) with (20 * (D / sin t)) in Cr by (field; lra). replace (270 * D / sin t) with (270 * (D / sin t)) by (field; lra). rewrite (turns_unique K TA (axis_rot_turns t K)). eapply close33_weak; [|exact (exp_ap HT K Ht (dl := 20 * (D / sin t)) ltac:(lra) Cr)]. lra.
Qed.
Print Assumptions C173_as_rotation_matrix.
(** for small turns up to the threshold of the code *)
Theorem C173_as_rotation_matrix_small : forall (T : Trans b64) svd d tau e (m : M3 b64) f k t m0, accurate_trig T -> accurate_acos T -> 0 <= d <= 1 / 1000 -> 0 <= tau -> 0 <= e <= 1 / 100 -> accurate_svd d tau svd ->
  rdot k k = 1 -> 0 <= t <= 1 / 1000 -> turns_about k t m0 -> close33 e m m0 -> svd m = Ok f ->
  9 * d + 20 * ulp_1 + 7 * (e + 2 * tau) <= / 2000000000000 ->
  exists R, as_rotation_matrix svd (RMatrix m) = Ok R /\ close33 (17 / 100000) R m0.
Proof.
  intros T svd d tau e m f k t m0 HT HA Hd Htau He HS K Ht TA CM E H1. pose proof PI2_3_2 as P3. pose proof eps_tiny as PE. destruct (C173_small_turn T svd d tau e m f k t m0 HA Hd Htau He HS K Ht TA CM E H1) as (r & Er & Cr). exists (rodrigues_vec r). unfold as_rotation_matrix. rewrite Er. split; [reflexivity|]. assert (Ht' : 0 <= t <= PI) by lra.
  rewrite (turns_unique K TA (axis_rot_turns t K)). eapply close33_weak; [|exact (exp_ap HT K Ht' (dl := 13 / 1000000) ltac:(lra) Cr)]. lra.
Qed.
Print Assumptions C173_as_rotation_matrix_small.
(** there and back: from a vector to its matrix and to a vector again *)
Theorem C173_round_trip : forall (T : Trans b64) svd d tau (r : V3 b64) f, accurate_trig T -> accurate_acos T -> 0 <= d <= 1 / 1000 -> 0 <= tau -> accurate_svd d tau svd -> fin3b r = true ->
  let t := rnorm (Rval3 r) in t <= PI -> svd (rodrigues_vec r) = Ok f ->
  let D := 9 * d + 1420 * ulp_1 + 14 * tau in 2 / 100000 <= sin t -> 100 * D <= sin t * sin t ->
  exists r', rodrigues_mat svd (rodrigues_vec r) = Ok r' /\ close3 (20 * D / sin t) r' (Rval3 r).
Proof.
  intros T svd d tau r f HT HA Hd Htau HS F t Ht E D H1 H2. change ulp_1 with PErr.eps in D. pose proof eps_tiny as PE. pose proof pi_up as PU. assert (P : 0 <= t) by apply rnorm_pos. assert (Q : 0 < t) by (destruct (Rle_lt_or_eq_dec 0 t P) as [Q|Q]; [exact Q|rewrite <- Q, sin_0 in H1; lra]).
  set (k := rscale (/ t) (Rval3 r)). assert (K : rdot k k = 1) by (unfold k; rewrite rdot_scale_l, rdot_scale_r, <- rnorm_sq; fold t; field; lra). assert (ER : Rval3 r = rscale t k) by (unfold k; rewrite rscale_scale, Rinv_r, rscale_1 by lra; reflexivity).
  assert (TB : t <= bpow radix2 20) by (change (bpow radix2 20) with 1048576; lra). pose proof (rod_ap HT F TB K ER) as RA. fold t in RA. rewrite ER.
  assert (C : close33 (200 * PErr.eps) (rodrigues_vec r) (axis_rot t k)) by (eapply close33_weak; [|exact RA]; apply Rmult_le_compat_r; lra).
  assert (ED : 9 * d + 20 * ulp_1 + 7 * (200 * PErr.eps + 2 * tau) = D) by (change ulp_1 with PErr.eps; unfold D; ring). rewrite <- ED in H2 |- *.
  apply (C173_rodrigues_matrix T svd d tau (200 * PErr.eps) (rodrigues_vec r) f k t (axis_rot t k) HA Hd Htau ltac:(lra) HS K (conj P Ht) (axis_rot_turns t K) C E H1 H2).
Qed.
Print Assumptions C173_round_trip.

(** a decomposition of a matrix next to an orthogonal one: itself, ones and the identity *)
Definition eye3 : M3 b64 := mk3 (int3 1 0 0) (int3 0 1 0) (int3 0 0 1).
Definition near_svd (m : M3 b64) : @svd_t b64 := svd_at m (m, int3 1 1 1, eye3).
Lemma near_svd_ok d m M : 0 <= d <= 1 / 1000 -> orthogonal M -> close33 d m M -> accurate_svd d (2 * d) (near_svd m) /\ near_svd m m = Ok (m, int3 1 1 1, eye3).
Proof.
  intros Hd O C. pose proof C as ((G0 & X0 & X1 & X2) & (G1 & Y0 & Y1 & Y2) & (G2 & Z0 & Z1 & Z2)). split.
  - intros c u s v H. unfold near_svd, svd_at in H. destruct (all9 neqb c m) eqn:E; [|discriminate H]. injection H as <- <- <-. exists M, reye, M. destruct (@int3_val 1 1 1) as [(F1 & _) V1]; [lia|lia|lia|]. rewrite V1.
    split; [split; [exact O|split; [|cbn [c0 c1 c2]; repeat (split; [lra|])]]|].
    + split; unfold rmmul, rtrans, reye, rcol0, rcol1, rcol2, rdot; cbn [c0 c1 c2]; f_equal; f_equal; ring.
    + destruct M as [[a b g] [h i j] [l n o]]. unfold rmmul, rdiag, reye, rcol0, rcol1, rcol2, rdot. cbn [c0 c1 c2]. f_equal; f_equal; ring.
    + split; [exact C|]. split. { assert (I3 : close33 0 eye3 reye) by (split; [|split]; apply int_close; lia). eapply close33_weak; [|exact I3]. lra. } split; [exact F1|].
      intros B W0 W1 W2. unfold all9 in E. cbv zeta in E. apply andb_prop in E. destruct E as [E E2]. apply andb_prop in E. destruct E as [E0 E1]. pose proof (row_eq B _ _ G0 W0 E0) as R0. pose proof (row_eq B _ _ G1 W1 E1) as R1. pose proof (row_eq B _ _ G2 W2 E2) as R2.
      assert (HB : 1 / 2 <= B).
      { destruct W0 as (_ & B0 & B1 & B2). pose proof (f_equal c0 R0) as Q0. pose proof (f_equal c1 R0) as Q1. pose proof (f_equal c2 R0) as Q2. unfold Rval3, map3 in Q0, Q1, Q2. cbn [c0 c1 c2] in Q0, Q1, Q2. rewrite Q0 in B0. rewrite Q1 in B1. rewrite Q2 in B2. destruct O as [O _]. pose proof (f_equal (fun x => c0 (c0 x)) O) as U. unfold rmmul, rtrans, reye, rcol0, rcol1, rcol2, rdot in U. cbn [c0 c1 c2] in U.
        destruct (Rle_lt_dec (1 / 2) B) as [A|A]; [exact A|exfalso]. apply abs_le in B0, B1, B2, X0, X1, X2.
        assert (Rabs (c0 (c0 M)) <= 51 / 100) as A0 by (apply abs_le; lra). assert (Rabs (c1 (c0 M)) <= 51 / 100) as A1 by (apply abs_le; lra). assert (Rabs (c2 (c0 M)) <= 51 / 100) as A2 by (apply abs_le; lra). apply abs_le in A0, A1, A2. assert (SQ : forall x, - (51 / 100) <= x <= 51 / 100 -> x * x <= 27 / 100) by (intros x Hx; nra). pose proof (SQ _ A0). pose proof (SQ _ A1). pose proof (SQ _ A2). lra. }
      assert (LB : d <= 2 * d * B) by nra. assert (T : forall (x y : V3 b64) z, fin3b x = true -> Rval3 x = Rval3 y -> close3 d y z -> close3 (2 * d * B) x z).
      { intros x y z Fx EQ (_ & A0 & A1 & A2). injection EQ as Q0 Q1 Q2. rewrite <- Q0 in A0. rewrite <- Q1 in A1. rewrite <- Q2 in A2. split; [exact Fx|]. repeat split; lra. }
      destruct C as (C0 & C1 & C2). split; [exact (T _ _ _ (Logic.proj1 W0) R0 C0)|]. split; [exact (T _ _ _ (Logic.proj1 W1) R1 C1)|exact (T _ _ _ (Logic.proj1 W2) R2 C2)].
  - assert (S : forall x, bfin x = true -> neqb x x = true) by (intros x F; rewrite (beq_spec F F); apply Req_bool_true; reflexivity). destruct (fin3b_all G0) as (A0 & A1 & A2). destruct (fin3b_all G1) as (B0 & B1 & B2). destruct (fin3b_all G2) as (D0 & D1 & D2).
    unfold near_svd, svd_at, all9. cbv zeta. rewrite !S by assumption. reflexivity.
Qed.
(** a quarter turn about the third axis, and the identity *)
Definition quarter : M3 b64 := mk3 (int3 0 (-1) 0) (int3 1 0 0) (int3 0 0 1).
Example C173_example : accurate_trig rounded_trig /\ accurate_acos rounded_trig /\ rdot ez ez = 1 /\ sin (PI / 2) = 1 /\
  (exists m0, turns_about ez (PI / 2) m0 /\ close33 0 quarter m0 /\ accurate_svd 0 0 (near_svd quarter) /\ exists f, near_svd quarter quarter = Ok f) /\
  (exists m0, turns_about ez 0 m0 /\ close33 0 eye3 m0 /\ accurate_svd 0 0 (near_svd eye3) /\ exists f, near_svd eye3 eye3 = Ok f) /\
  2000 * (9 * 0 + 20 * ulp_1 + 7 * (0 + 2 * 0)) <= 1 * 1 /\ 9 * 0 + 20 * ulp_1 + 7 * (0 + 2 * 0) <= / 2000000000000.
Proof.
  split; [exact rounded_accurate|]. split; [exact rounded_acos|]. assert (K : rdot ez ez = 1) by (unfold rdot, ez; cbn [c0 c1 c2]; ring). split; [exact K|]. split; [exact sin_PI2|]. pose proof eps_tiny as PE. change ulp_1 with PErr.eps.
  assert (G : forall m t, close33 0 m (axis_rot t ez) -> exists m0, turns_about ez t m0 /\ close33 0 m m0 /\ accurate_svd 0 0 (near_svd m) /\ exists f, near_svd m m = Ok f).
  { intros m t C. exists (axis_rot t ez). split; [now apply axis_rot_turns|]. split; [exact C|]. destruct (near_svd_ok 0 m _ ltac:(lra) (Logic.proj1 (axis_rot_rotation t K)) C) as [A B]. rewrite Rmult_0_r in A. split; [exact A|]. eexists. exact B. }
  split; [|split; [|split; lra]]; apply G.
  - assert (Q : axis_rot (PI / 2) ez = mk3 (mk3 0 (-1) 0) (mk3 1 0 0) (mk3 0 0 1)) by (unfold axis_rot, ez; rewrite sin_PI2, cos_PI2; cbn [c0 c1 c2]; f_equal; f_equal; ring). rewrite Q. split; [|split]; apply int_close; lia.
  - assert (Q : axis_rot 0 ez = mk3 (mk3 1 0 0) (mk3 0 1 0) (mk3 0 0 1)) by (unfold axis_rot, ez; rewrite sin_0, cos_0; cbn [c0 c1 c2]; f_equal; f_equal; ring). rewrite Q. split; [|split]; apply int_close; lia.
Qed.
(** the vector (0, 0, 1) there and back *)
Example C173_example_round_trip : let r := int3 0 0 1 in let m := @rodrigues_vec _ _ rounded_trig r in fin3b r = true /\ rnorm (Rval3 r) = 1 /\ 1 <= PI /\ accurate_svd (200 * ulp_1) (2 * (200 * ulp_1)) (near_svd m) /\ (exists f, near_svd m m = Ok f) /\
  2 / 100000 <= sin 1 /\ 100 * (9 * (200 * ulp_1) + 1420 * ulp_1 + 14 * (2 * (200 * ulp_1))) <= sin 1 * sin 1.
Proof.
  cbv zeta. destruct (@int3_val 0 0 1) as [(F & _) V]; [lia|lia|lia|]. assert (N : rnorm (Rval3 (int3 0 0 1)) = 1) by (rewrite V; unfold rnorm, rdot; cbn [c0 c1 c2]; replace (0 * 0 + 0 * 0 + 1 * 1) with 1 by ring; apply sqrt_1). pose proof PI2_3_2 as P3. pose proof eps_tiny as PE. assert (S1 : 5 / 6 * 1 <= sin 1) by (apply sin_low; lra).
  assert (K : rdot ez ez = 1) by (unfold rdot, ez; cbn [c0 c1 c2]; ring). assert (C : close33 (200 * PErr.eps) (@rodrigues_vec _ _ rounded_trig (int3 0 0 1)) (axis_rot 1 ez)).
  { assert (Er : Rval3 (int3 0 0 1) = rscale (rnorm (Rval3 (int3 0 0 1))) ez) by (rewrite N, V; unfold rscale, ez; cbn [c0 c1 c2]; f_equal; ring). assert (TB : rnorm (Rval3 (int3 0 0 1)) <= bpow radix2 20) by (rewrite N; change (bpow radix2 20) with 1048576; lra). pose proof (rod_ap rounded_accurate F TB K Er) as RA. rewrite N in RA. eapply close33_weak; [|exact RA]. lra. }
  destruct (near_svd_ok (200 * PErr.eps) _ _ ltac:(lra) (Logic.proj1 (axis_rot_rotation 1 K)) C) as [A B]. change ulp_1 with PErr.eps. split; [exact F|]. split; [exact N|]. split; [lra|]. split; [exact A|]. split; [eexists; exact B|]. split; [lra|]. nra.
Qed.
