(** * Double-precision facts about units.py. *)
From Coq Require Import Reals ZArith List String Bool Lra Lia.
From Flocq Require Import Core IEEE754.BinarySingleNaN.
From Verif Require Import Num B64 BLemmas MRounding MUnits SpecUnits PUnits.
Import ListNotations.
Local Open Scope string_scope.
Local Open Scope R_scope.
Set Implicit Arguments.
Unset Strict Implicit.

Lemma dict_find_In A k (d : dict A) a : dict_find k d = Some a -> In (k, a) d.
Proof.
  induction d as [|[k0 b] d IH]; cbn; [discriminate|].
  destruct (String.eqb_spec k k0) as [->|Hne]; intros H; [injection H as ->; auto|auto].
Qed.

Definition lo_b : b64 := blit 1 1024.
Definition hi_b : b64 := bofZ 33554432.
Definition entry_ok (e : string * (string * b64)) : bool :=
  let f := snd (snd e) in bfin f && nle lo_b f && nle f hi_b.
Lemma table_ok : forallb entry_ok unit_table = true.
Proof. vm_compute. reflexivity. Qed.

Lemma lo_val : Bval lo_b = bpow radix2 (-10).
Proof.
  rewrite (@Bval_me lo_b 4503599627370496 (-62)); [|vm_compute; reflexivity].
  simpl. lra.
Qed.
Lemma hi_val : Bval hi_b = bpow radix2 25.
Proof.
  rewrite (@Bval_me hi_b 4503599627370496 (-27)); [|vm_compute; reflexivity].
  simpl. lra.
Qed.
Lemma lo_fin : bfin lo_b = true. Proof. vm_compute. reflexivity. Qed.
Lemma hi_fin : bfin hi_b = true. Proof. vm_compute. reflexivity. Qed.

Lemma entry_bounds u c f : dict_find u (unit_table (F := b64)) = Some (c, f) ->
  bfin f = true /\ bpow radix2 (-10) <= Bval f <= bpow radix2 25.
Proof.
  intros H. apply dict_find_In in H.
  pose proof (proj1 (forallb_forall _ _) table_ok _ H) as E. unfold entry_ok in E. cbn [snd] in E.
  apply andb_true_iff in E. destruct E as [E E3]. apply andb_true_iff in E. destruct E as [E1 E2].
  rewrite ble_spec, lo_val in E2 by (auto using lo_fin).
  rewrite ble_spec, hi_val in E3 by (auto using hi_fin).
  split; auto.
  destruct (Rle_bool_spec (bpow radix2 (-10)) (Bval f)); [|discriminate].
  destruct (Rle_bool_spec (Bval f) (bpow radix2 25)); [|discriminate]. auto.
Qed.

Lemma table_nonzero_b64 : table_nonzero (F := b64).
Proof.
  intros u c f H. destruct (entry_bounds H) as [Ff [Hl _]].
  rewrite beq_spec by (auto; vm_compute; reflexivity).
  replace (Bval (nofZ 0)) with 0 by reflexivity.
  apply Req_bool_false. pose proof (bpow_gt_0 radix2 (-10)). lra.
Qed.

Lemma one_val : Bval n1 = 1.
Proof.
  rewrite (@Bval_me n1 4503599627370496 (-52)); [|vm_compute; reflexivity].
  simpl. lra.
Qed.
Lemma one_fin : bfin n1 = true. Proof. vm_compute. reflexivity. Qed.

Lemma u64_pos : 0 < u64. Proof. apply bpow_gt_0. Qed.
Lemma u64_small : u64 <= /16.
Proof. unfold u64. change (bpow radix2 (-53)) with (/ IZR (2 ^ 53)). simpl. lra. Qed.

(** A factor is the true ratio up to one rounding. *)
Definition near_ratio (f : b64) (r : R) : Prop :=
  bfin f = true /\ exists d, Rabs d <= u64 /\ Bval f = r * (1 + d).

Lemma ratio_bounds x y : bpow radix2 (-10) <= x <= bpow radix2 25 -> bpow radix2 (-10) <= y <= bpow radix2 25 ->
  bpow radix2 (-35) <= x / y <= bpow radix2 35.
Proof.
  intros [H1 H2] [H3 H4]. pose proof (bpow_gt_0 radix2 (-10)). 
  split.
  - apply Rmult_le_reg_r with y; [lra|]. replace (x / y * y) with x by (field; lra).
    apply Rle_trans with (bpow radix2 (-35) * bpow radix2 25).
    + apply Rmult_le_compat_l; [apply bpow_ge_0|auto].
    + rewrite <- bpow_plus. exact H1.
  - apply Rmult_le_reg_r with y; [lra|]. replace (x / y * y) with x by (field; lra).
    apply Rle_trans with (bpow radix2 35 * bpow radix2 (-10)).
    + rewrite <- bpow_plus. exact H2.
    + apply Rmult_le_compat_l; [apply bpow_ge_0|auto].
Qed.

Lemma factor_b64 a b k uc : unit_of_kind a k -> unit_of_kind b k -> accepts uc k ->
  exists f r, factor (F := b64) (Some a) (Some b) uc = Ok f /\ near_ratio f r /\
    bpow radix2 (-35) <= r <= bpow radix2 35 /\
    exists g, factor (F := b64) (Some b) (Some a) uc = Ok g /\ near_ratio g (/ r).
Proof.
  intros [ma Ha] [mb Hb] Acc.
  destruct (get_known (F := b64) Ha) as [fa Fa]. destruct (get_known (F := b64) Hb) as [fb Fb].
  destruct (entry_bounds Fa) as [FFa Ba]. destruct (entry_bounds Fb) as [FFb Bb].
  pose proof (bpow_gt_0 radix2 (-10)) as Hp.
  destruct (String.eqb_spec a b) as [->|Hne].
  { exists n1, 1. rewrite factor_same.
    assert (near_ratio n1 1).
    { split; [apply one_fin|]. exists 0. rewrite Rabs_R0, one_val. split; [apply Rlt_le, u64_pos|ring]. }
    split; [reflexivity|]. split; [assumption|]. split.
    - split; change 1 with (bpow radix2 0); apply bpow_le; lia.
    - exists n1. rewrite Rinv_1. auto. }
  assert (G : forall x y fx fy, x <> y -> x <> "" -> dict_find x (unit_table (F:=b64)) = Some (kind_name k, fx) ->
     dict_find y (unit_table (F:=b64)) = Some (kind_name k, fy) ->
     exists f, factor (F:=b64) (Some x) (Some y) uc = Ok f /\ near_ratio f (Bval fx / Bval fy)).
  { intros x y fx fy Hxy Hx Fx Fy. unfold factor. rewrite blank_Some by auto. cbn [andb].
    rewrite (proj2 (ustr_eqb_neq (Some x) (Some y))) by congruence.
    cbn [units_get]. unfold dict_get. rewrite Fx, Fy. cbn [bindr fst snd].
    rewrite String.eqb_refl. cbn [negb]. rewrite (proj2 (mismatch_accepts _ _) Acc).
    unfold pydiv. rewrite (table_nonzero_b64 Fy). eexists. split; [reflexivity|].
    destruct (entry_bounds Fx) as [? Bx]. destruct (entry_bounds Fy) as [? By].
    pose proof (ratio_bounds Bx By) as [R1 R2].
    assert (Hr : 0 < Bval fx / Bval fy) by (pose proof (bpow_gt_0 radix2 (-35)); lra).
    destruct (@bdiv_val fx fy) as [V Fi]; auto.
    - lra.
    - rewrite Rabs_pos_eq by lra. eapply Rle_trans; [exact R2|]. apply bpow_le. lia.
    - split; auto. change (ndiv fx fy) with (bdiv fx fy). rewrite V.
      apply rnd64_rel. rewrite Rabs_pos_eq by lra. eapply Rle_trans; [|exact R1]. apply bpow_le. lia. }
  destruct (G a b fa fb) as [f [E1 N1]]; auto; [eapply unit_size_nonempty; eauto|].
  destruct (G b a fb fa) as [g [E2 N2]]; auto; [eapply unit_size_nonempty; eauto|].
  exists f, (Bval fa / Bval fb). split; [exact E1|]. split; [exact N1|].
  split; [apply (ratio_bounds Ba Bb)|].
  exists g. split; auto. replace (/ (Bval fa / Bval fb)) with (Bval fb / Bval fa); auto.
  field. lra.
Qed.

Lemma eps2 d e v w : Rabs d <= v -> Rabs e <= w -> v <= /16 -> 
  Rabs ((1 + d) * (1 + e) - 1) <= v + w + /16 * w.
Proof.
  intros Hd He Hv. replace ((1 + d) * (1 + e) - 1) with (d + (e + d * e)) by ring.
  pose proof (Rabs_pos d). pose proof (Rabs_pos e).
  assert (Rabs (d * e) <= /16 * w).
  { rewrite Rabs_mult. apply Rmult_le_compat; auto; lra. }
  eapply Rle_trans; [apply Rabs_triang|]. 
  pose proof (Rabs_triang e (d * e)). lra.
Qed.

Lemma mul_near x f r : bfin x = true -> near_ratio f r ->
  bpow radix2 (-35) <= r <= bpow radix2 35 ->
  bpow radix2 (-950) <= Rabs (Bval x) <= bpow radix2 950 ->
  bfin (bmul x f) = true /\
  exists e, Rabs e <= 2 * u64 + /16 * u64 /\ Bval (bmul x f) = Bval x * r * (1 + e).
Proof.
  intros Fx [Ff [d [Hd Ef]]] [R1 R2] [X1 X2].
  pose proof u64_small as Us. pose proof u64_pos as Up. pose proof (Rabs_def2 d (/8)) as Hdd.
  assert (Hd2 : -/8 < d < /8) by (destruct Hdd; lra).
  assert (Hr : 0 < r) by (pose proof (bpow_gt_0 radix2 (-35)); lra).
  assert (Abs : Rabs (Bval x * Bval f) = Rabs (Bval x) * (r * (1 + d))).
  { rewrite Ef, Rabs_mult, (Rabs_pos_eq (r * (1 + d))); auto.
    apply Rmult_le_pos; lra. }
  assert (P1 : bpow radix2 (-36) <= r * (1 + d)).
  { replace (bpow radix2 (-36)) with (bpow radix2 (-35) * /2) by (rewrite (bpow_plus radix2 (-35) (-1) : bpow radix2 (-36) = _); simpl; lra).
    apply Rmult_le_compat; try lra. apply bpow_ge_0. }
  assert (P2 : r * (1 + d) <= bpow radix2 36).
  { replace (bpow radix2 36) with (bpow radix2 35 * 2) by (rewrite (bpow_plus radix2 35 1 : bpow radix2 36 = _); simpl; lra).
    apply Rmult_le_compat; lra. }
  assert (Q1 : bpow radix2 (-1022) <= Rabs (Bval x * Bval f)).
  { rewrite Abs. eapply Rle_trans with (bpow radix2 (-950) * bpow radix2 (-36)).
    - rewrite <- bpow_plus. apply bpow_le. lia.
    - apply Rmult_le_compat; auto; apply bpow_ge_0. }
  assert (Q2 : Rabs (Bval x * Bval f) <= bpow radix2 1000).
  { rewrite Abs. eapply Rle_trans with (bpow radix2 950 * bpow radix2 36).
    - apply Rmult_le_compat; auto; try apply Rabs_pos.
      apply Rmult_le_pos; lra.
    - rewrite <- bpow_plus. apply bpow_le. lia. }
  destruct (bmul_val Fx Ff Q2) as [V Fi]. split; auto.
  destruct (rnd64_rel Q1) as [e [He Ee]].
  exists ((1 + d) * (1 + e) - 1). split.
  - eapply Rle_trans; [apply (eps2 Hd He Us)|]. lra.
  - rewrite V, Ee, Ef. ring.
Qed.

Lemma convert_round_trip_b64 a b k x y :
  unit_of_kind a k -> unit_of_kind b k -> bfin x = true ->
  bpow radix2 (-900) <= Rabs (Bval x) <= bpow radix2 900 ->
  convert (F := b64) (Some x) (Some a) (Some b) None = Ok (Some y, Some b) ->
  exists z, convert (F := b64) (Some y) (Some b) (Some a) None = Ok (Some z, Some a) /\
    bfin z = true /\ Rabs (Bval z - Bval x) <= 8 * bpow radix2 (-53) * Rabs (Bval x).
Proof.
  intros Ka Kb Fx [X1 X2] H.
  destruct (@factor_b64 a b k None Ka Kb) as (f&r&Ef&Nf&Rr&g&Eg&Ng); [left; left; auto|].
  unfold convert in *. rewrite Ef in H. rewrite Eg. cbn [bindr] in *. injection H as <-.
  eexists. split; [reflexivity|].
  pose proof u64_small as Us. pose proof u64_pos as Up.
  assert (Rinv : bpow radix2 (-35) <= / r <= bpow radix2 35).
  { pose proof (bpow_gt_0 radix2 (-35)). split.
    - change (bpow radix2 (-35)) with (bpow radix2 (-(35))). rewrite bpow_opp. apply Rinv_le; lra.
    - replace (bpow radix2 35) with (/ bpow radix2 (-(35))) by (rewrite bpow_opp; rewrite Rinv_inv; auto).
      apply Rinv_le; auto. apply Rr. }
  assert (Hr : 0 < r) by (pose proof (bpow_gt_0 radix2 (-35)); lra).
  destruct (mul_near (x:=x) Fx Nf Rr) as [F1 [e [He Ee]]].
  { split; [eapply Rle_trans; [|exact X1]|eapply Rle_trans; [exact X2|]]; apply bpow_le; lia. }
  assert (He2 : -/2 < e < /2) by (destruct (Rabs_def2 e (/2)); lra).
  destruct (mul_near (x:=nmul x f) (f:=g) (r := /r)) as [F2 [e' [He' Ee']]]; auto.
  { change (nmul x f) with (bmul x f). rewrite Ee, !Rabs_mult.
    rewrite (Rabs_pos_eq r) by lra. rewrite (Rabs_pos_eq (1 + e)) by lra.
    replace (bpow radix2 (-950)) with (bpow radix2 (-900) * (bpow radix2 (-35) * bpow radix2 (-15))) by (rewrite <- !bpow_plus; auto).
    replace (bpow radix2 950) with (bpow radix2 900 * (bpow radix2 35 * bpow radix2 15)) by (rewrite <- !bpow_plus; auto).
    rewrite !Rmult_assoc.
    assert (bpow radix2 (-15) <= 1 + e).
    { apply Rle_trans with (bpow radix2 (-1)); [apply bpow_le; lia|]. simpl. lra. }
    assert (1 + e <= bpow radix2 15).
    { apply Rle_trans with (bpow radix2 1); [|apply bpow_le; lia]. simpl. lra. }
    split.
    - apply Rmult_le_compat; auto; try apply bpow_ge_0; [apply Rmult_le_pos; apply bpow_ge_0|].
      apply Rmult_le_compat; try apply bpow_ge_0; try lra.
    - apply Rmult_le_compat; auto; try apply Rabs_pos; [apply Rmult_le_pos; lra|].
      apply Rmult_le_compat; try lra. }
  split; [exact F2|].
  change (bmul (nmul x f) g) with (bmul (bmul x f) g) in Ee'. change (nmul x f) with (bmul x f) in *.
  change (nmul (bmul x f) g) with (bmul (bmul x f) g). rewrite Ee', Ee.
  replace (Bval x * r * (1 + e) * / r * (1 + e') - Bval x) with (((1 + e) * (1 + e') - 1) * Bval x) by (field; lra).
  rewrite Rabs_mult. apply Rmult_le_compat_r; [apply Rabs_pos|].
  fold u64.
  replace ((1 + e) * (1 + e') - 1) with (e + (e' + e * e')) by ring.
  assert (Rabs (e * e') <= u64).
  { rewrite Rabs_mult. apply Rle_trans with (/2 * (2 * u64)); [|lra].
    pose proof (Rabs_pos e). pose proof (Rabs_pos e').
    apply Rle_trans with ((2 * u64 + /16 * u64) * (2 * u64 + /16 * u64)); [apply Rmult_le_compat; auto|].
    nra. }
  pose proof (Rabs_triang e (e' + e * e')). pose proof (Rabs_triang e' (e * e')). lra.
Qed.
