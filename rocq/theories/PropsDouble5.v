(** * Properties C137 to C139: rounding to a step, and prettify, on doubles. *)
From Coq Require Import Reals ZArith List String Bool Lra Lia.
From Flocq Require Import Core IEEE754.BinarySingleNaN.
From Verif Require Import Num B64 BLemmas MRounding MUnits SpecUnits SpecValueD SpecRoundD PErr PValueD PRoundD PPrettyD.
Import ListNotations.
Local Open Scope string_scope.
Local Open Scope R_scope.

(** ** C137.  [round_to x n] is within two units in the last place of a whole multiple [k * n]
    that is within half a step of [x], up to the rounding error of [x]. *)
Theorem C137_round_to : forall x n : b64, bfin x = true -> bfin n = true -> Rabs (Bval x) <= bpow radix2 900 ->
  bpow radix2 (-900) <= Rabs (Bval n) <= bpow radix2 900 -> Rabs (Bval x / Bval n) <= bpow radix2 1000 ->
  exists k y, round_to x n = Ok y /\ bfin y = true /\
    Rabs (Bval x - IZR k * Bval n) <= Rabs (Bval n) / 2 + ulp_of_1 * Rabs (Bval x) /\
    Rabs (Bval y - IZR k * Bval n) <= 2 * ulp_of_1 * Rabs (IZR k * Bval n) /\
    (forall j, Rabs (Bval x - IZR j * Bval n) + ulp_of_1 * Rabs (Bval x) < Rabs (Bval n) / 2 -> j = k).
Proof.
  intros x n Fx Fn X [N1 N2] Q. destruct (round_to_ap Fx Fn X N1 N2 Q) as (k & y & r & E & _ & Fy & _ & A & B). exists k, y.
  split; [exact E|]. split; [exact Fy|]. split; [exact B|]. split; [exact A|].
  intros j J. change ulp_of_1 with eps in J. pose proof (bpow_gt_0 radix2 (-900)) as P.
  assert (D : Rabs (IZR (j - k)) * Rabs (Bval n) < 1 * Rabs (Bval n)).
  { rewrite <- Rabs_mult, minus_IZR. replace ((IZR j - IZR k) * Bval n) with ((Bval x - IZR k * Bval n) + - (Bval x - IZR j * Bval n)) by ring.
    eapply Rle_lt_trans; [apply Rabs_triang|]. rewrite Rabs_Ropp. lra. }
  apply Rmult_lt_reg_r in D; [|lra]. rewrite <- abs_IZR in D. apply lt_IZR in D. lia.
Qed.
Print Assumptions C137_round_to.
(** when the reciprocal of the step is a whole number [N], the result is the double nearest to
    the fraction [k / N]: 3.9, not 3.9000000000000004 *)
Theorem C137_decimal : forall (x n r : b64) N, bfin x = true -> bfin n = true -> Rabs (Bval x) <= bpow radix2 900 ->
  bpow radix2 (-900) <= Rabs (Bval n) <= bpow radix2 900 -> Rabs (Bval x / Bval n) <= bpow radix2 1000 ->
  pydiv n1 n = Ok r -> Bval r = IZR N ->
  exists k y, round_to x n = Ok y /\ nearest_double_to y (IZR k / IZR N) /\
    Rabs (Bval x - IZR k * Bval n) <= Rabs (Bval n) / 2 + ulp_of_1 * Rabs (Bval x).
Proof.
  intros x n r N Fx Fn X [N1 N2] Q Er Vr. destruct (round_to_ap Fx Fn X N1 N2 Q) as (k & y & r' & E & Er' & Fy & Vy & _ & B). exists k, y.
  split; [exact E|]. split; [|exact B]. split; [exact Fy|]. intros w Fw. apply nearest_double; [|exact Fw]. rewrite Er in Er'. injection Er' as <-. now rewrite Vy, Vr.
Qed.
Print Assumptions C137_decimal.
(** the steps 0.1, 0.05 and 0.25 of the documentation: the reciprocal is 10, 20 and 4 *)
Example C137_steps : (exists r, pydiv n1 (nlit 1 10 : b64) = Ok r /\ Bval r = 10) /\ (exists r, pydiv n1 (nlit 5 100 : b64) = Ok r /\ Bval r = 20) /\
  (exists r, pydiv n1 (nlit 25 100 : b64) = Ok r /\ Bval r = 4).
Proof.
  split; [|split].
  - destruct (@table_step_spec (nlit 1 10) 10) as (r & E & V & _); [vm_compute; reflexivity|]. exists r. auto.
  - destruct (@table_step_spec (nlit 5 100) 20) as (r & E & V & _); [vm_compute; reflexivity|]. exists r. auto.
  - destruct (@table_step_spec (nlit 25 100) 4) as (r & E & V & _); [vm_compute; reflexivity|]. exists r. auto.
Qed.
(** the documented value 3.8721 rounded to 0.1: it meets the hypotheses, and the answer is 3.9 *)
Example C137_example : let x := blit 38721 10000 in let n := blit 1 10 in
  bfin x = true /\ bfin n = true /\ Rabs (Bval x) <= bpow radix2 900 /\ bpow radix2 (-900) <= Rabs (Bval n) <= bpow radix2 900 /\
  Rabs (Bval x / Bval n) <= bpow radix2 1000 /\ mapr b64_me (round_to x n) = Ok (b64_me (blit 39 10)).
Proof.
  cbv zeta. assert (Vx : 3 <= Bval (blit 38721 10000) <= 4).
  { rewrite (@Bval_me _ 8719194058570649 (-51)) by (vm_compute; reflexivity). change (bpow radix2 (-51)) with (/ 2251799813685248). lra. }
  assert (Vn : / 16 <= Bval (blit 1 10) <= 1).
  { rewrite (@Bval_me _ 7205759403792794 (-56)) by (vm_compute; reflexivity). change (bpow radix2 (-56)) with (/ 72057594037927936). lra. }
  assert (B : forall e, (10 <= e)%Z -> 1024 <= bpow radix2 e) by (intros e He; apply (bpow_le radix2 10 e He)).
  assert (B' : bpow radix2 (-900) <= / 16) by (apply (bpow_le radix2 (-900) (-4)); lia).
  split; [reflexivity|]. split; [reflexivity|]. rewrite !Rabs_pos_eq by lra. pose proof (B 900%Z ltac:(lia)). split; [lra|]. split; [lra|]. split; [|vm_compute; reflexivity].
  pose proof (B 1000%Z ltac:(lia)). assert (0 < Bval (blit 38721 10000) / Bval (blit 1 10)) by (apply Rdiv_lt_0_compat; lra). rewrite Rabs_pos_eq by lra.
  apply Rle_trans with 64; [|lra]. apply Rmult_le_reg_r with (Bval (blit 1 10)); [lra|]. unfold Rdiv. rewrite Rmult_assoc, Rinv_l by lra. lra.
Qed.
(** ** C138.  [prettify] returns the quantity in the display units of both systems (SpecRoundD.v). *)
Theorem C138_prettify : forall (x : b64) u k m p, ordinary_number x -> Rabs (Bval x) <= bpow radix2 800 -> unit_size u = Some (k, m) ->
  (forall q, p = Some q -> (-15 <= q <= 22)%Z) ->
  exists a b, prettify (Some x) (Some u) p = Ok (a, b) /\ displays Metric k p (Bval x * m) a /\ displays UnitedStates k p (Bval x * m) b.
Proof. intros x u k m p O X U P. exact (prettify_displays O X U P). Qed.
Print Assumptions C138_prettify.
(** the documented example: 182.13992 cm is 182.0 cm and 71.75 in *)
Example C138_example : ordinary_number (blit 18213992 100000) /\ Rabs (Bval (blit 18213992 100000)) <= bpow radix2 800 /\ unit_size "cm" = Some (Length, 1 / 100) /\
  mapr (fun ab => (b64_me (fst (fst ab)), snd (fst ab), b64_me (fst (snd ab)), snd (snd ab))) (prettify (Some (blit 18213992 100000)) (Some "cm") None)
  = Ok (b64_me (blit 182 1), Some "cm", b64_me (blit 7175 100), Some "in").
Proof.
  assert (V : 128 <= Bval (blit 18213992 100000) <= 256).
  { rewrite (@Bval_me _ 6408478717510093 (-45)) by (vm_compute; reflexivity). change (bpow radix2 (-45)) with (/ 35184372088832). lra. }
  assert (B : bpow radix2 8 <= bpow radix2 800) by (apply bpow_le; lia). change (bpow radix2 8) with 256 in B.
  assert (B' : bpow radix2 8 <= bpow radix2 900) by (apply bpow_le; lia). change (bpow radix2 8) with 256 in B'.
  assert (B0 : bpow radix2 (-900) <= bpow radix2 0) by (apply bpow_le; lia). change (bpow radix2 0) with 1 in B0.
  split. { split; [reflexivity|]. right. rewrite Rabs_pos_eq by lra. lra. }
  split; [rewrite Rabs_pos_eq by lra; lra|]. split; [reflexivity|]. vm_compute. reflexivity.
Qed.
(** ** C139.  Rounding to five decimals does not give the nearest double: 3 cm at
    [precision=5] is shown as 3.0000000000000004 cm. *)
Theorem C139_five_decimals_refuted :
  ~ (forall (x : b64) u k m p a b j, ordinary_number x -> unit_size u = Some (k, m) -> (0 <= p <= 22)%Z ->
      u = display_unit Metric k -> Bval x = IZR j * powerRZ 10 (- p) ->
      prettify (Some x) (Some u) (Some p) = Ok (a, b) -> Bval (fst a) = Bval x).
Proof.
  intros H.
  assert (V3 : Bval (nofZ 3) = 3) by (rewrite (@Bval_me _ 6755399441055744 (-51)); [change (bpow radix2 (-51)) with (/ 2251799813685248); lra|vm_compute; reflexivity]).
  assert (B : match prettify (F := b64) (Some (nofZ 3)) (Some "cm") (Some 5%Z) with Ok (a, b) => match b64_me (fst a) with Some (m, e) => ((m =? 6755399441055745) && (e =? -51))%Z | None => false end | Err _ => false end = true) by (vm_compute; reflexivity).
  destruct (prettify (F := b64) (Some (nofZ 3)) (Some "cm") (Some 5%Z)) as [[a b]|] eqn:E; [|discriminate].
  destruct (b64_me (fst a)) as [[m e]|] eqn:M; [|discriminate]. apply andb_true_iff in B as [B1 B2]. apply Z.eqb_eq in B1, B2. subst m e.
  assert (O : ordinary_number (nofZ 3)).
  { split; [reflexivity|]. right. rewrite V3, Rabs_pos_eq by lra. split.
    - apply Rle_trans with (bpow radix2 0); [apply bpow_le; lia|simpl; lra].
    - apply Rle_trans with (bpow radix2 2); [simpl; lra|apply bpow_le; lia]. }
  assert (K : Bval (fst a) = Bval (nofZ 3)).
  { apply (H (nofZ 3) "cm" Length (1 / 100) 5%Z a b 300000%Z O eq_refl ltac:(lia) eq_refl); [|exact E]. rewrite V3. simpl. lra. }
  rewrite V3, (Bval_me M) in K. change (bpow radix2 (-51)) with (/ 2251799813685248) in K. lra.
Qed.
Print Assumptions C139_five_decimals_refuted.
