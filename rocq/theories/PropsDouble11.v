(** * Properties C154-C156: rodrigues of a vector, euler and angles in double precision, for every library whose sine, cosine and arc cosine
    are accurate. *)
From Coq Require Import Reals ZArith List Bool Ascii Lra Lia Psatz.
From Flocq Require Import Core IEEE754.BinarySingleNaN.
From Verif Require Import Num B64 BLemmas Vec RVec VLemmas MVx MRotation SpecRotation SpecDouble SpecTransD SpecTrigD PMat3 PRotation PRotation2 PErr PNormD PCrossD PRodD PEulerD PAngleD PropsDouble PropsDouble7.
Import ListNotations.
Local Open Scope R_scope.

(** ** C154.  [m0] is the turn about the unit vector [k] by the length [th] of [r = th k] (any [k] if [r] is zero); angles up to 2^20. *)
Theorem C154_rodrigues : forall (T : Trans b64) (r : V3 b64) (k : V3 R) (m0 : M3 R), accurate_trig T -> fin3b r = true ->
  let th := rnorm (Rval3 r) in th <= bpow radix2 20 -> rdot k k = 1 -> Rval3 r = rscale th k -> turns_about k th m0 ->
  close33 ((87 + 27 * th) * ulp_1) (rodrigues_vec r) m0.
Proof.
  intros T r k m0 HT Fr th Hth K Er Hm. rewrite (turns_unique K Hm (axis_rot_turns th K)). exact (@rod_ap T r k HT Fr Hth K Er).
Qed.
Print Assumptions C154_rodrigues.

(** ** C155.  euler: one turn after the other, in radians and in degrees. *)
Theorem C155_euler : forall (T : Trans b64) (xyz : list b64) (order : list ascii) (m0 : M3 R), accurate_trig T -> Forall (fun x => bfin x = true) xyz ->
  INR (length order) <= 1000000000 -> (forall v, turned (combine (map Bval xyz) order) v (rapply m0 v)) ->
  close33 (25 * INR (length order) * ulp_1) (euler xyz order false) m0.
Proof. intros T xyz order m0 HT HF Hn HM. exact (@euler_rad T HT xyz order m0 HF Hn HM). Qed.
Print Assumptions C155_euler.
Theorem C155_degrees : forall (T : Trans b64) (xyz : list b64) (order : list ascii) (m0 : M3 R) A, accurate_trig T ->
  Forall (fun x => bfin x = true /\ Rabs (Bval x * (PI / 180)) <= A) xyz -> 0 <= A <= 100000000 -> (1 + A) * INR (length order) <= 100000000 ->
  (forall v, turned (combine (map (fun x => Bval x * (PI / 180)) xyz) order) v (rapply m0 v)) ->
  close33 (90 * (1 + A) * INR (length order) * ulp_1) (euler xyz order true) m0.
Proof. intros T xyz order m0 A HT HF [A0 A1] Hn HM. exact (@euler_deg T HT A xyz order m0 HF A0 Hn A1 HM). Qed.
Print Assumptions C155_degrees.

(** ** C156.  [t] is the angle between [v] and [w], in degrees. *)
Theorem C156_angle : forall (T : Trans b64) (v w look : V3 b64) t, accurate_trig T -> accurate_acos T -> fin3b v = true -> fin3b w = true ->
  ordinary (rnorm (Rval3 v)) -> ordinary (rnorm (Rval3 w)) -> angle_between t (Rval3 v) (Rval3 w) ->
  exists a, angle v w look = Ok a /\ bfin a = true /\ 0 <= Bval a /\
    Rabs (cos (Bval a * (PI / 180)) - cos (t * (PI / 180))) <= 100 * ulp_1 /\ Rabs (Bval a - t) <= 1 / 10000.
Proof. intros T v w look t HT HA Fv Fw Sv Sw H. exact (@angle_close T HT HA v w look t Fv Fw Sv Sw H). Qed.
Print Assumptions C156_angle.
(** the sign is that of the triple product when that is clear of rounding errors *)
Theorem C156_signed_angle : forall (T : Trans b64) X Y Z (v w look : V3 b64) t, accurate_trig T -> accurate_acos T ->
  within X v -> within Y w -> within Z look -> Forall (fun x => bpow radix2 (-200) <= x <= bpow radix2 200) [X; Y; Z] ->
  ordinary (rnorm (Rval3 v)) -> ordinary (rnorm (Rval3 w)) -> angle_between t (Rval3 v) (Rval3 w) ->
  let det := rdot (rcross (Rval3 v) (Rval3 w)) (Rval3 look) in let margin := 30 * (ulp_1 * (X * Y * Z)) in
  exists s, signed_angle v w look = Ok s /\ bfin s = true /\
    (margin < det -> 0 <= Bval s /\ Rabs (Bval s - t) <= 1 / 10000) /\ (det < - margin -> Bval s <= 0 /\ Rabs (Bval s + t) <= 1 / 10000) /\
    Rabs (Rabs (Bval s) - t) <= 1 / 10000.
Proof.
  intros T X Y Z v w look t HT HA Wv Ww Wl HF Sv Sw H det margin. inversion HF as [|x1 l1 HX HF1]; subst. inversion HF1 as [|x2 l2 HY HF2]; subst. inversion HF2 as [|x3 l3 HZ HF3]; subst.
  destruct (@angle_close T HT HA v w look t (Logic.proj1 Wv) (Logic.proj1 Ww) Sv Sw H) as (a & Ea & Fa & Pa & _ & Ca). apply abs_le in Ca. destruct H as [Ht _].
  assert (Ba : Rabs (Bval a) <= bpow radix2 1000) by (rewrite Rabs_pos_eq by exact Pa; apply Rle_trans with (bpow radix2 8); [change (bpow radix2 8) with 256; lra|apply bpow_le; lia]).
  destruct (@signed_ap T X Y Z v w look a HX HY HZ Wv Ww Wl Ea Fa Ba) as (s & Es & Fs & Hs & S1 & S2). exists s. split; [exact Es|]. split; [exact Fs|]. split; [|split].
  - intros K. rewrite (S1 K). split; [exact Pa|apply abs_le; lra].
  - intros K. rewrite (S2 K). split; [lra|apply abs_le; lra].
  - replace (Rabs (Bval s)) with (Bval a); [apply abs_le; lra|]. destruct Hs as [-> | ->]; rewrite ?Rabs_Ropp, Rabs_pos_eq; auto.
Qed.
Print Assumptions C156_signed_angle.

(** *** Accurate sines and cosines exist: the correctly rounded ones. *)
Definition of_real (x : R) : b64 := binary_normalize 53 1024 prec_gt_0_53 prec_lt_emax_53 mode_NE
  (Ztrunc (scaled_mantissa radix2 (FLT_exp (-1074) 53) (rnd64 x))) (cexp radix2 (FLT_exp (-1074) 53) (rnd64 x)) false.
Lemma of_real_val x : Rabs x <= 4 -> bfin (of_real x) = true /\ Bval (of_real x) = rnd64 x.
Proof.
  intros H. assert (G : generic_format radix2 (FLT_exp (-1074) 53) (rnd64 x)) by (apply generic_format_round; typeclasses eauto).
  assert (V : F2R (Float radix2 (Ztrunc (scaled_mantissa radix2 (FLT_exp (-1074) 53) (rnd64 x))) (cexp radix2 (FLT_exp (-1074) 53) (rnd64 x))) = rnd64 x) by (symmetry; exact G).
  pose proof (@binary_normalize_correct 53 1024 prec_gt_0_53 prec_lt_emax_53 mode_NE (Ztrunc (scaled_mantissa radix2 (FLT_exp (-1074) 53) (rnd64 x))) (cexp radix2 (FLT_exp (-1074) 53) (rnd64 x)) false) as C. cbv zeta in C. rewrite V, round_eq in C.
  assert (RR : rnd64 (rnd64 x) = rnd64 x) by (apply round_generic; [typeclasses eauto|exact G]). rewrite RR in C.
  assert (B : Rabs (rnd64 x) <= 5). { pose proof (@rnd_err x 4) as E. pose proof eps_pos. pose proof eps_small. assert (bpow radix2 (-1022) <= 4) by (change 4 with (bpow radix2 2); apply bpow_le; lia). specialize (E ltac:(assumption) H). apply abs_le in E, H. apply abs_le. lra. }
  rewrite Rlt_bool_true in C. 2:{ apply Rle_lt_trans with (1 := B). apply Rlt_le_trans with (bpow radix2 10); [cbn; lra|apply bpow_le; lia]. }
  destruct C as (C1 & C2 & _). split; [exact C2|exact C1].
Qed.
Definition rounded_trig : Trans b64 := {| npi := of_real PI; nsin := fun x => of_real (sin (Bval x)); ncos := fun x => of_real (cos (Bval x)); nacos := fun x => if Rle_dec (Rabs (Bval x)) 1 then Ok (of_real (acos (Bval x))) else Err ValueError |}.
Lemma half_ulp_pi x : Rabs x <= PI -> Rabs (rnd64 x - x) <= ulp_1.
Proof.
  intros H. pose proof PI2_3_2 as P3. apply Rle_trans with (/ 2 * ulp radix2 (FLT_exp (-1074) 53) x). { exact (error_le_half_ulp radix2 (FLT_exp (-1074) 53) (fun x => negb (Z.even x)) x). }
  apply Rle_trans with (/ 2 * ulp radix2 (FLT_exp (-1074) 53) PI). { apply Rmult_le_compat_l; [lra|]. apply ulp_le; [typeclasses eauto|typeclasses eauto|rewrite (Rabs_pos_eq PI); lra]. }
  rewrite ulp_neq_0 by lra. unfold cexp. pose proof pi_up as P5.
  rewrite (mag_unique_pos radix2 PI 2) by (change (bpow radix2 (2 - 1)) with 2; change (bpow radix2 2) with 4; lra). change (/ 2) with (bpow radix2 (-1)). rewrite <- bpow_plus. right. reflexivity.
Qed.
Lemma rounded_acos : accurate_acos rounded_trig.
Proof.
  intros x _ Hx. cbn [nacos rounded_trig]. destruct (Rle_dec (Rabs (Bval x)) 1) as [_|N]; [|exfalso; apply N, abs_le; lra]. pose proof (acos_bound (Bval x)) as B. pose proof PI_4 as P4. destruct (@of_real_val (acos (Bval x))) as [F V]; [rewrite Rabs_pos_eq; lra|].
  eexists. split; [reflexivity|]. split; [exact F|]. rewrite V. split; [apply rnd_pos; lra|]. assert (E : Rabs (rnd64 (acos (Bval x)) - acos (Bval x)) <= ulp_1) by (apply half_ulp_pi; rewrite Rabs_pos_eq; lra). assert (0 < ulp_1) by apply bpow_gt_0. lra.
Qed.
Lemma rounded_accurate : accurate_trig rounded_trig.
Proof.
  assert (G : forall x, Rabs x <= 1 -> bfin (of_real x) = true /\ Rabs (Bval (of_real x) - x) <= ulp_1).
  { intros x H. destruct (@of_real_val x) as [F V]; [lra|]. split; [exact F|]. rewrite V. change ulp_1 with PErr.eps. replace PErr.eps with (PErr.eps * 1) by ring. apply rnd_err; [change 1 with (bpow radix2 0); apply bpow_le; lia|exact H]. }
  pose proof PI_4 as P4. pose proof PI2_3_2 as P3. split; [|split; [|split]].
  - intros x _. apply G, abs_le, SIN_bound.
  - intros x _. apply G, abs_le, COS_bound.
  - apply of_real_val. rewrite Rabs_pos_eq; lra.
  - destruct (@of_real_val PI) as [_ V]; [rewrite Rabs_pos_eq; lra|]. cbn [npi rounded_trig]. rewrite V. apply half_ulp_pi. rewrite (Rabs_pos_eq PI); lra.
Qed.
(** r = (1, 2, 2), a turn by 3 about (1/3, 2/3, 2/3) *)
Example C154_example : accurate_trig rounded_trig /\ let r := int3 1 2 2 in let k := mk3 (1/3) (2/3) (2/3) in
  fin3b r = true /\ rnorm (Rval3 r) = 3 /\ rdot k k = 1 /\ Rval3 r = rscale 3 k /\ exists m0, turns_about k 3 m0.
Proof.
  split; [exact rounded_accurate|]. cbn zeta. destruct (@int3_val 1 2 2) as [W V]; try lia. assert (K : rdot (mk3 (1/3) (2/3) (2/3)) (mk3 (1/3) (2/3) (2/3)) = 1) by (unfold rdot; cbn [c0 c1 c2]; lra). split; [exact (Logic.proj1 W)|]. rewrite V. split; [|split; [exact K|split]].
  - unfold rnorm, rdot. cbn [c0 c1 c2]. replace (1 * 1 + 2 * 2 + 2 * 2) with (3 * 3) by ring. apply sqrt_square. lra.
  - unfold rscale. cbn [c0 c1 c2]. f_equal; lra.
  - exists (axis_rot 3 (mk3 (1/3) (2/3) (2/3))). now apply axis_rot_turns.
Qed.
(** 90 and 45 degrees about z and x *)
Example C155_example : let xyz := [nofZ 90; nofZ 45] : list b64 in let order := ["z"%char; "x"%char] in
  Forall (fun x => bfin x = true /\ Rabs (Bval x * (PI / 180)) <= 2) xyz /\ (1 + 2) * INR (length order) <= 100000000 /\
  (exists m0, forall v, turned (combine (map (fun x => Bval x * (PI / 180)) xyz) order) v (rapply m0 v)) /\
  exists m0, forall v, turned (combine (map Bval xyz) order) v (rapply m0 v).
Proof.
  cbn zeta. pose proof PI_4 as P4. pose proof PI_RGT_0 as P0. destruct (@int_val 90) as [F1 V1]; [lia|]. destruct (@int_val 45) as [F2 V2]; [lia|]. split; [|split; [cbn; lra|split]].
  - apply Forall_cons; [|apply Forall_cons; [|apply Forall_nil]]; (split; [assumption|]); rewrite ?V1, ?V2; apply abs_le; lra.
  - destruct (euler_spec (map (fun x => Bval x * (PI / 180)) ([nofZ 90; nofZ 45] : list b64)) ["z"%char; "x"%char]) as (m & _ & _ & HM). exists m. exact HM.
  - destruct (euler_spec (map Bval ([nofZ 90; nofZ 45] : list b64)) ["z"%char; "x"%char]) as (m & _ & _ & HM). exists m. exact HM.
Qed.
(** (3, 4, 0) and (0, 5, 0), seen along (0, 0, 2) *)
Example C156_example : accurate_acos rounded_trig /\ exists t, angle_between t (Rval3 (int3 3 4 0)) (Rval3 (int3 0 5 0)) /\
  rdot (rcross (Rval3 (int3 3 4 0)) (Rval3 (int3 0 5 0))) (Rval3 (int3 0 0 2)) = 30 /\ rnorm (Rval3 (int3 3 4 0)) = 5 /\ rnorm (Rval3 (int3 0 5 0)) = 5.
Proof.
  split; [exact rounded_acos|]. destruct (@int3_val 3 4 0) as [_ V1]; try lia. destruct (@int3_val 0 5 0) as [_ V2]; try lia. destruct (@int3_val 0 0 2) as [_ V3]; try lia. rewrite V1, V2, V3.
  assert (N1 : rnorm (mk3 3 4 0) = 5) by (unfold rnorm, rdot; cbn [c0 c1 c2]; replace (3 * 3 + 4 * 4 + 0 * 0) with (5 * 5) by ring; apply sqrt_square; lra). assert (N2 : rnorm (mk3 0 5 0) = 5) by (unfold rnorm, rdot; cbn [c0 c1 c2]; replace (0 * 0 + 5 * 5 + 0 * 0) with (5 * 5) by ring; apply sqrt_square; lra).
  pose proof (acos_bound (4 / 5)) as B. pose proof PI_RGT_0 as P. assert (E : acos (4 / 5) * (180 / PI) * (PI / 180) = acos (4 / 5)) by (field; lra). exists (acos (4 / 5) * (180 / PI)). split; [|split; [unfold rdot, rcross; cbn [c0 c1 c2]; ring|auto]]. split.
  - split; [apply Rmult_le_pos; [lra|apply Rlt_le, Rdiv_lt_0_compat; lra]|]. apply Rle_trans with (PI * (180 / PI)); [apply Rmult_le_compat_r; [apply Rlt_le, Rdiv_lt_0_compat; lra|lra]|right; field; lra].
  - rewrite E, cos_acos, N1, N2 by lra. unfold rdot. cbn [c0 c1 c2]. lra.
Qed.
