(** * round_to in binary64. *)
From Coq Require Import Reals ZArith List Bool Lra Lia.
From Flocq Require Import Core IEEE754.BinarySingleNaN.
From Verif Require Import Num B64 BLemmas MRounding PErr PUnitsB PNormD.
Import ListNotations.
Local Open Scope R_scope.
Set Implicit Arguments.
Unset Strict Implicit.

(** ** [round(x)] of a double *)
Lemma round_pow m e : zround_pow m e = ZnearestE (IZR m * bpow radix2 e).
Proof.
  unfold zround_pow. destruct (Z.leb_spec 0 e) as [H|H].
  - rewrite <- (IZR_Zpower radix2) by lia. rewrite <- mult_IZR. symmetry. apply (Zrnd_IZR ZnearestE).
  - set (p := (2 ^ (- e))%Z). assert (Hp : (0 < p)%Z) by (apply Z.pow_pos_nonneg; lia). assert (Rp : 0 < IZR p) by now apply IZR_lt.
    replace (IZR m * bpow radix2 e) with (IZR m / IZR p).
    2:{ unfold p. change (2 ^ (- e))%Z with (radix2 ^ (- e))%Z. rewrite IZR_Zpower by lia. rewrite bpow_opp. unfold Rdiv. rewrite Rinv_inv. reflexivity. }
    pose proof (Z.div_mod m p ltac:(lia)) as D. pose proof (Z.mod_pos_bound m p Hp) as B.
    assert (E : IZR m / IZR p = IZR (m / p) + IZR (m mod p) / IZR p) by (rewrite D at 1; rewrite plus_IZR, mult_IZR; field; lra).
    assert (F : Zfloor (IZR m / IZR p) = (m / p)%Z) by (apply Zfloor_div; lia).
    assert (G : (m mod p)%Z <> 0%Z -> Zceil (IZR m / IZR p) = (m / p + 1)%Z).
    { intros N. rewrite Zceil_floor_neq; [now rewrite F|]. rewrite F, E. intros X. apply N. apply eq_IZR. apply Rmult_eq_reg_r with (/ IZR p); [|apply Rinv_neq_0_compat; lra]. unfold Rdiv in X. lra. }
    unfold Znearest. rewrite F. replace (IZR m / IZR p - IZR (m / p)) with (IZR (m mod p) / IZR p) by lra.
    destruct (Z.compare_spec (2 * (m mod p)) p) as [C|C|C].
    + rewrite Rcompare_Eq. 2:{ rewrite <- C at 2. rewrite mult_IZR. assert (0 < IZR (m mod p)) by (apply IZR_lt; lia). field. lra. }
      rewrite G by lia. destruct (Z.even (m / p)); reflexivity.
    + rewrite Rcompare_Lt; [reflexivity|]. apply Rmult_lt_reg_r with (IZR p); [lra|]. unfold Rdiv. rewrite Rmult_assoc, Rinv_l by lra.
      apply IZR_lt in C. rewrite mult_IZR in C. lra.
    + rewrite Rcompare_Gt; [now rewrite G by lia|]. apply Rmult_lt_reg_r with (IZR p); [lra|]. unfold Rdiv. rewrite (Rmult_assoc _ _ (IZR p)), Rinv_l by lra.
      apply IZR_lt in C. rewrite mult_IZR in C. lra.
Qed.
Lemma bround_val (x : b64) : bfin x = true -> nround x = Some (ZnearestE (Bval x)).
Proof.
  intros F. destruct x as [s|s| |s m e H]; try discriminate F; cbn [nround b64_num b64_int].
  - change (Bval (B754_zero s)) with 0. now rewrite (Zrnd_IZR ZnearestE 0).
  - rewrite round_pow. reflexivity.
Qed.
Lemma rnd_ofZ z : rnd64 (IZR z) = IZR z -> Rabs (IZR z) < bpow radix2 1024 -> bfin (nofZ z) = true /\ Bval (nofZ z) = IZR z.
Proof.
  intros G L. change (nofZ z) with (bofZ z). unfold bofZ, bfin, Bval.
  pose proof (@binary_normalize_correct 53 1024 prec_gt_0_53 prec_lt_emax_53 mode_NE z 0 false) as C. cbv zeta in C. rewrite round_eq in C.
  assert (V : F2R (Float radix2 z 0) = IZR z) by (unfold F2R; cbn; ring). rewrite V in C.
  rewrite G in C. rewrite Rlt_bool_true in C by exact L. destruct C as (C1 & C2 & _); auto.
Qed.
(** the integer nearest to a double is a double *)
Lemma ofZ_round (x : b64) : bfin x = true -> bfin (nofZ (ZnearestE (Bval x))) = true /\ Bval (nofZ (ZnearestE (Bval x))) = IZR (ZnearestE (Bval x)).
Proof.
  intros F. destruct (Rle_or_lt (Rabs (Bval x)) (bpow radix2 53)) as [H|H].
  - apply int_val. apply le_IZR. rewrite abs_IZR. change (2 ^ 53)%Z with (Zpower radix2 53). rewrite IZR_Zpower by lia.
    change (bpow radix2 53) with (IZR (2 ^ 53)) in *. apply Rabs_le_inv in H. apply Rabs_le. rewrite <- opp_IZR in *. split; apply IZR_le.
    + rewrite <- (Zrnd_IZR ZnearestE (- 2 ^ 53)). apply Zrnd_le; [typeclasses eauto|exact (Logic.proj1 H)].
    + rewrite <- (Zrnd_IZR ZnearestE (2 ^ 53)). apply Zrnd_le; [typeclasses eauto|exact (Logic.proj2 H)].
  - assert (E : exists z, Bval x = IZR z).
    { destruct x as [s|s| |s m e B]; try discriminate F; [exists 0%Z; reflexivity|].
      change (Bval (B754_finite s m e B)) with (F2R (Float radix2 (SpecFloat.cond_Zopp s (Z.pos m)) e)) in *. destruct (Z_le_dec 0 e) as [He|He].
      - exists (SpecFloat.cond_Zopp s (Z.pos m) * radix2 ^ e)%Z. unfold F2R. cbn [Fnum Fexp]. rewrite mult_IZR, IZR_Zpower by exact He. reflexivity.
      - exfalso. apply (Rlt_not_le _ _ H). unfold F2R. cbn [Fnum Fexp]. rewrite Rabs_mult, (Rabs_pos_eq (bpow radix2 e)) by apply bpow_ge_0.
        rewrite <- abs_IZR. replace (Z.abs (SpecFloat.cond_Zopp s (Z.pos m))) with (Z.pos m) by (destruct s; reflexivity).
        clear H. assert (Pm : (Z.pos m < 2 ^ 53)%Z).
        { assert (B' := B). unfold SpecFloat.bounded, SpecFloat.canonical_mantissa in B'. apply andb_true_iff in B' as [B' _]. clear B F. rename B' into B. apply Zeq_bool_eq in B. unfold SpecFloat.fexp, SpecFloat.emin in B.
          rewrite Digits.Zpos_digits2_pos in B. 
          assert (D : (Digits.Zdigits radix2 (Z.pos m) <= 53)%Z) by lia. pose proof (Digits.Zdigits_correct radix2 (Z.pos m)) as [_ D2]. cbn [Z.abs] in D2.
          eapply Z.lt_le_trans; [exact D2|]. change (2 ^ 53)%Z with (radix2 ^ 53)%Z. apply Zpower_le. exact D. }
        apply IZR_lt in Pm. change (IZR (2 ^ 53)) with (bpow radix2 53) in Pm. assert (bpow radix2 e <= 1) by (change 1 with (bpow radix2 0); apply bpow_le; lia).
        pose proof (bpow_gt_0 radix2 e). assert (0 < IZR (Z.pos m)) by (apply IZR_lt; lia). nra. }
    destruct E as [z E]. rewrite E, (Zrnd_IZR ZnearestE z). apply rnd_ofZ; rewrite <- E; [apply rnd64_B|].
    unfold Bval. apply abs_B2R_lt_emax.
Qed.

(** ** [round_to] *)
Lemma near_half y : Rabs (y - IZR (ZnearestE y)) <= / 2.
Proof. apply Znearest_half. Qed.
Section RoundTo.
Context (x n : b64) (Fx : bfin x = true) (Fn : bfin n = true) (X : Rabs (Bval x) <= bpow radix2 900) (L : bpow radix2 (-900) <= Rabs (Bval n)) (U : Rabs (Bval n) <= bpow radix2 900)
  (Q : Rabs (Bval x / Bval n) <= bpow radix2 1000).
Lemma step_nonzero : Bval n <> 0.
Proof. intros E. rewrite E, Rabs_R0 in L. pose proof (bpow_gt_0 radix2 (-900)). lra. Qed.
Lemma recip : exists r e, pydiv n1 n = Ok r /\ bfin r = true /\ Bval r = rnd64 (/ Bval n) /\ Rabs e <= u64 /\ Bval r = / Bval n * (1 + e) /\ neqb r (nofZ 0) = false.
Proof.
  pose proof step_nonzero as N. assert (A : Rabs (/ Bval n) = / Rabs (Bval n)) by (apply Rabs_inv).
  pose proof (bpow_gt_0 radix2 (-900)) as P. assert (0 < Rabs (Bval n)) by lra.
  assert (I1 : / Rabs (Bval n) <= bpow radix2 900) by (change (900)%Z with (- -900)%Z; rewrite bpow_opp; apply Rinv_le; lra).
  assert (I2 : bpow radix2 (-900) <= / Rabs (Bval n)) by (change (-900)%Z with (- (900))%Z; rewrite bpow_opp; apply Rinv_le; lra).
  assert (O : Bval n1 / Bval n = / Bval n) by (rewrite PUnitsB.one_val; unfold Rdiv; ring).
  destruct (@bdiv_val n1 n) as [V F]; [apply one_fin|exact N|rewrite O, A; eapply Rle_trans; [exact I1|apply bpow_le; lia]|].
  rewrite O in V. destruct (@rnd64_rel (/ Bval n)) as (e & He & Ve); [rewrite A; eapply Rle_trans; [|exact I2]; apply bpow_le; lia|]. change (bpow radix2 (-53)) with u64 in He.
  exists (bdiv n1 n), e. assert (NZ : neqb n (nofZ 0) = false).
  { rewrite beq_spec; auto. apply Req_bool_false. exact N. }
  split; [unfold pydiv; now rewrite NZ|]. split; [exact F|]. split; [exact V|]. split; [exact He|]. split; [now rewrite V|].
  rewrite beq_spec; auto. apply Req_bool_false. rewrite V, Ve. change (Bval (nofZ 0)) with 0. pose proof u64_small. apply Rabs_le_inv in He.
  apply Rmult_integral_contrapositive. split; [now apply Rinv_neq_0_compat|lra].
Qed.
Lemma round_to_ap : exists k y r, round_to x n = Ok y /\ pydiv n1 n = Ok r /\ bfin y = true /\ Bval y = rnd64 (IZR k / Bval r) /\
  Rabs (Bval y - IZR k * Bval n) <= 2 * eps * Rabs (IZR k * Bval n) /\
  Rabs (Bval x - IZR k * Bval n) <= Rabs (Bval n) / 2 + eps * Rabs (Bval x).
Proof.
  pose proof step_nonzero as N. destruct recip as (r & e & Er & Fr & _ & He & Vr & Zr). pose proof u64_pos as Up. pose proof u64_small as Us.
  pose proof (bpow_gt_0 radix2 (-900)) as P9. assert (Np : 0 < Rabs (Bval n)) by lra.
  assert (NZ : neqb n (nofZ 0) = false) by (rewrite beq_spec by auto; apply Req_bool_false; exact N).
  destruct (@bdiv_val x n) as [V F]; auto. set (q := bdiv x n) in *. set (k := ZnearestE (Bval q)).
  destruct (ofZ_round F) as [Fk Vk]. fold k in Fk, Vk.
  assert (Eeps : eps = 2 * u64) by (unfold eps, u64; rewrite (bpow_plus radix2 1 (-53) : bpow radix2 (-52) = _); reflexivity).
  (* the quotient *)
  assert (K : Rabs (Bval x - IZR k * Bval n) <= Rabs (Bval n) / 2 + u64 * Rabs (Bval x)).
  { destruct (Rle_or_lt (bpow radix2 (-1022)) (Rabs (Bval x / Bval n))) as [B|B].
    - destruct (rnd64_rel B) as (d & Hd & Vd). change (bpow radix2 (-53)) with u64 in Hd.
      assert (Vq : Bval q = Bval x / Bval n * (1 + d)) by now rewrite V.
      pose proof (near_half (Bval q)) as H. fold k in H. rewrite Vq in H.
      replace (Bval x - IZR k * Bval n) with ((Bval x / Bval n * (1 + d) - IZR k) * Bval n + (- d) * Bval x) by (field; exact N).
      eapply Rle_trans; [apply Rabs_triang|]. rewrite (Rabs_mult _ (Bval n)), (Rabs_mult (- d)), Rabs_Ropp. apply Rplus_le_compat.
      + unfold Rdiv. rewrite (Rmult_comm (Rabs (Bval n))). apply Rmult_le_compat_r; [lra|exact H].
      + apply Rmult_le_compat_r; [apply Rabs_pos|exact Hd].
    - assert (S : Rabs (Bval q) <= bpow radix2 (-1022)) by (rewrite V; apply rnd64_pow; [lia|lra]).
      assert (k = 0%Z) as ->.
      { unfold k. apply Znearest_imp. rewrite Rminus_0_r. eapply Rle_lt_trans; [exact S|]. change (/ 2) with (bpow radix2 (-1)). apply bpow_lt. lia. }
      rewrite Rmult_0_l, Rminus_0_r.
      assert (Rabs (Bval x) <= Rabs (Bval n) * bpow radix2 (-1022)).
      { unfold Rdiv in B. rewrite Rabs_mult, Rabs_inv in B. apply Rmult_le_reg_r with (/ Rabs (Bval n)); [now apply Rinv_0_lt_compat|]. rewrite Rmult_comm, (Rmult_comm (Rabs (Bval n))), Rmult_assoc, Rinv_r, Rmult_1_r by lra. lra. }
      assert (bpow radix2 (-1022) <= / 2) by (change (/ 2) with (bpow radix2 (-1)); apply bpow_le; lia).
      pose proof (Rabs_pos (Bval x)). assert (Rabs (Bval n) * bpow radix2 (-1022) <= Rabs (Bval n) * / 2) by (apply Rmult_le_compat_l; lra).
      pose proof (Rmult_le_pos u64 (Rabs (Bval x)) ltac:(lra) ltac:(lra)). lra. }
  assert (Kn : Rabs (IZR k * Bval n) <= bpow radix2 902).
  { replace (IZR k * Bval n) with (Bval x - (Bval x - IZR k * Bval n)) by ring. eapply Rle_trans; [apply Rabs_triang|]. rewrite Rabs_Ropp.
    assert (u64 * Rabs (Bval x) <= Rabs (Bval x)) by (pose proof (Rabs_pos (Bval x)); nra).
    replace (bpow radix2 902) with (4 * bpow radix2 900) by (rewrite (bpow_plus radix2 2 900 : bpow radix2 902 = _); simpl; lra). lra. }
  apply Rabs_le_inv in He. assert (De : 1 + e <> 0) by lra.
  assert (Kr : IZR k / Bval r = IZR k * Bval n * / (1 + e)) by (rewrite Vr; field; auto).
  assert (I : 0 < / (1 + e) <= 2) by (split; [apply Rinv_0_lt_compat; lra|replace 2 with (/ / 2) by field; apply Rinv_le; lra]).
  assert (B : Rabs (IZR k / Bval r) <= bpow radix2 903).
  { rewrite Kr, Rabs_mult, (Rabs_pos_eq (/ (1 + e))) by lra. replace (bpow radix2 903) with (bpow radix2 902 * 2) by (rewrite (bpow_plus radix2 902 1 : bpow radix2 903 = _); simpl; lra).
    apply Rmult_le_compat; auto using Rabs_pos; lra. }
  assert (Nr : Bval r <> 0) by (rewrite Vr; apply Rmult_integral_contrapositive; split; [now apply Rinv_neq_0_compat|lra]).
  destruct (@bdiv_val (nofZ k) r) as [Vy Fy]; [exact Fk|exact Nr|rewrite Vk; eapply Rle_trans; [exact B|apply bpow_le; lia]|]. rewrite Vk in Vy.
  exists k, (bdiv (nofZ k) r), r. split.
  { unfold round_to. rewrite Er. cbn [bindr]. unfold pydiv. rewrite NZ. cbn [bindr]. change (ndiv x n) with q. unfold py_round. rewrite (bround_val F). cbn [bindr]. fold k. rewrite Zr. reflexivity. }
  split; [exact Er|]. split; [exact Fy|]. split; [exact Vy|]. split; [|eapply Rle_trans; [exact K|]; pose proof (Rabs_pos (Bval x)); rewrite Eeps; pose proof (Rmult_le_pos u64 (Rabs (Bval x)) ltac:(lra) ltac:(lra)); lra].
  destruct (Z.eq_dec k 0) as [Z|Z].
  - rewrite Vy, Z. unfold Rdiv. rewrite !Rmult_0_l, rnd64_0, Rminus_0_r, Rabs_R0. lra.
  - assert (K1 : 1 <= Rabs (IZR k)) by (rewrite <- abs_IZR; apply IZR_le; lia).
    destruct (@rnd64_rel (IZR k / Bval r)) as (d & Hd & Vd).
    { rewrite Kr, Rabs_mult, (Rabs_pos_eq (/ (1 + e))), Rabs_mult by lra. assert (/ 2 <= / (1 + e)) by (apply Rinv_le; lra).
      apply Rle_trans with (1 * bpow radix2 (-900) * / 2).
      - replace (1 * bpow radix2 (-900) * / 2) with (bpow radix2 (-901)) by (rewrite (bpow_plus radix2 (-900) (-1) : bpow radix2 (-901) = _); simpl; lra). apply bpow_le. lia.
      - apply Rmult_le_compat; try lra. apply Rmult_le_compat; lra. }
    change (bpow radix2 (-53)) with u64 in Hd. rewrite Vy, Vd, Kr.
    replace (IZR k * Bval n * / (1 + e) * (1 + d) - IZR k * Bval n) with (IZR k * Bval n * ((d - e) * / (1 + e))) by (field; auto).
    rewrite Rabs_mult, Rmult_comm. apply Rmult_le_compat_r; [apply Rabs_pos|]. rewrite Rabs_mult, (Rabs_pos_eq (/ (1 + e))) by lra. rewrite Eeps. apply Rabs_le_inv in Hd.
    apply Rle_trans with (2 * u64 * 2); [|lra]. apply Rmult_le_compat; auto using Rabs_pos; try lra. apply Rabs_le. lra.
Qed.
End RoundTo.
Lemma nearest_double (y : b64) z : Bval y = rnd64 z -> forall w : b64, bfin w = true -> Rabs (Bval y - z) <= Rabs (Bval w - z).
Proof.
  intros -> w Fw. destruct (@round_N_pt radix2 (FLT_exp (-1074) 53) _ (fun t => negb (Z.even t)) z) as [_ H]. apply H. apply rnd_id_fmt, rnd64_B.
Qed.
