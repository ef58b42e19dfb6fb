(** * prettify in binary64. *)
From Coq Require Import Reals ZArith List String Bool Lra Lia.
From Flocq Require Import Core IEEE754.BinarySingleNaN.
From Verif Require Import Num B64 BLemmas MRounding MUnits SpecUnits PUnits PUnitsB SpecValueD SpecRoundD PValueD PErr PNormD PRoundD.
Import ListNotations.
Local Open Scope string_scope.
Local Open Scope R_scope.
Set Implicit Arguments.
Unset Strict Implicit.

Lemma eps_u64 : eps = 2 * u64.
Proof. unfold eps, u64. rewrite (bpow_plus radix2 1 (-53) : bpow radix2 (-52) = _). reflexivity. Qed.
Lemma display_size s k : exists m, unit_size (display_unit s k) = Some (k, m).
Proof. destruct s, k; eexists; reflexivity. Qed.
Lemma system_default_near (x : b64) u s k m m' : ordinary_number x -> Rabs (Bval x) <= bpow radix2 800 -> unit_size u = Some (k, m) -> unit_size (display_unit s k) = Some (k, m') ->
  exists y, convert_to_system_default (Some x) (Some u) (system_name s) = Ok (Some y, Some (display_unit s k)) /\
    bfin y = true /\ Rabs (Bval y - Bval x * m / m') <= 8 * u64 * Rabs (Bval x * m / m') /\ Rabs (Bval y) <= bpow radix2 840.
Proof.
  intros O X Hu Hd. destruct (factor_true Hu Hd) as (f & e & Ef & Ff & He & Vf & Bf). destruct (mul_factor O Ff Bf) as (Fy & d & Hd' & Vy).
  pose proof u64_pos as Up. pose proof u64_tiny as Ut.
  exists (nmul x f). split.
  { unfold convert_to_system_default. destruct (default_units_spec s (ex := [])) as (dd & E & _ & H1 & _); [constructor|].
    rewrite E. cbn [bindr]. unfold convert_to_default, units_class. rewrite blank_Some by (eapply unit_size_nonempty; eauto).
    destruct (get_known (F := b64) Hu) as [fu Gu]. unfold units_get, dict_get. rewrite ?Gu. cbn [mapr bindr fst]. rewrite H1 by reflexivity. cbn [bindr].
    unfold convert. rewrite Ef. reflexivity. }
  split; [exact Fy|].
  set (T := Bval x * m / m'). assert (E : Bval (nmul x f) = T * ((1 + e) * (1 + d))) by (rewrite Vy, Vf; unfold T, Rdiv; ring).
  split.
  - rewrite E. replace (T * ((1 + e) * (1 + d)) - T) with ((e + d + e * d) * T) by ring. rewrite Rabs_mult. apply Rmult_le_compat_r; [apply Rabs_pos|].
    assert (Rabs (e * d) <= u64) by (rewrite Rabs_mult; apply Rle_trans with (6 * u64 * u64); [apply Rmult_le_compat; auto using Rabs_pos|nra]).
    eapply Rle_trans; [apply Rabs_triang|]. pose proof (Rabs_triang e d). lra.
  - rewrite Vy, Rabs_mult, Rabs_mult, (Rabs_pos_eq (Bval f)) by (pose proof (bpow_gt_0 radix2 (-36)); lra).
    assert (Rabs (1 + d) <= 2) by (apply Rabs_le; apply Rabs_le_inv in Hd'; lra).
    apply Rle_trans with (bpow radix2 800 * bpow radix2 36 * 2).
    + apply Rmult_le_compat; auto using Rabs_pos. { apply Rmult_le_pos; [apply Rabs_pos|pose proof (bpow_gt_0 radix2 (-36)); lra]. } apply Rmult_le_compat; auto using Rabs_pos; [pose proof (bpow_gt_0 radix2 (-36))|]; lra.
    + replace (bpow radix2 800 * bpow radix2 36 * 2) with (bpow radix2 837) by (rewrite (bpow_plus radix2 836 1 : bpow radix2 837 = _), (bpow_plus radix2 800 36 : bpow radix2 836 = _); simpl; lra). apply bpow_le. lia.
Qed.

(** ** a step that is right up to rounding *)
Definition step_near (n : b64) (s : R) : Prop :=
  bfin n = true /\ 0 < s /\ bpow radix2 (-100) <= s <= bpow radix2 100 /\ Rabs (Bval n - s) <= 3 * u64 * s.
Lemma round_near (y n : b64) s T : bfin y = true -> Rabs (Bval y) <= bpow radix2 840 -> step_near n s -> Rabs (Bval y - T) <= 8 * u64 * Rabs T ->
  exists k a r, round_to y n = Ok a /\ bfin a = true /\ pydiv n1 n = Ok r /\ Bval a = rnd64 (IZR k / Bval r) /\
    Rabs (Bval a - IZR k * s) <= 4 * eps * Rabs (IZR k * s) /\ Rabs (T - IZR k * s) <= s / 2 + 8 * eps * (Rabs T + s).
Proof.
  intros Fy Y (Fn & Sp & [S1 S2] & Sn) HT. pose proof u64_pos as Up. pose proof u64_tiny as Ut.
  assert (Nb : (1 - 3 * u64) * s <= Bval n <= (1 + 3 * u64) * s) by (apply Rabs_le_inv in Sn; lra).
  assert (Np : 0 < Bval n) by nra. assert (An : Rabs (Bval n) = Bval n) by (apply Rabs_pos_eq; lra).
  assert (L' : bpow radix2 (-101) <= Bval n) by (rewrite (bpow_plus radix2 (-100) (-1) : bpow radix2 (-101) = _); change (bpow radix2 (-1)) with (/ 2); nra).
  assert (U' : Bval n <= bpow radix2 101) by (rewrite (bpow_plus radix2 100 1 : bpow radix2 101 = _); change (bpow radix2 1) with 2; nra).
  destruct (@round_to_ap y n) as (k & a & r & E & Er & Fa & Va & A1 & A2); auto.
  { eapply Rle_trans; [exact Y|apply bpow_le; lia]. }
  { rewrite An. eapply Rle_trans; [|exact L']. apply bpow_le. lia. }
  { rewrite An. eapply Rle_trans; [exact U'|]. apply bpow_le. lia. }
  { unfold Rdiv. rewrite Rabs_mult, Rabs_inv, An. apply Rle_trans with (bpow radix2 840 * bpow radix2 101).
    - apply Rmult_le_compat; auto using Rabs_pos; [left; now apply Rinv_0_lt_compat|]. change 101%Z with (- -101)%Z. rewrite bpow_opp. apply Rinv_le; [apply bpow_gt_0|exact L'].
    - rewrite <- bpow_plus. apply bpow_le. lia. }
  exists k, a, r. split; [exact E|]. split; [exact Fa|]. split; [exact Er|]. split; [exact Va|].
  rewrite eps_u64 in *. rewrite An in A2. set (K := Rabs (IZR k * s)) in *.
  assert (D1 : Rabs (IZR k * Bval n - IZR k * s) <= 3 * u64 * K).
  { replace (IZR k * Bval n - IZR k * s) with (IZR k * (Bval n - s)) by ring. rewrite Rabs_mult. unfold K. rewrite Rabs_mult, (Rabs_pos_eq s) by lra.
    replace (3 * u64 * (Rabs (IZR k) * s)) with (Rabs (IZR k) * (3 * u64 * s)) by ring. apply Rmult_le_compat_l; [apply Rabs_pos|exact Sn]. }
  assert (Kp : 0 <= K) by apply Rabs_pos.
  assert (Kn : Rabs (IZR k * Bval n) <= (1 + 3 * u64) * K).
  { replace (IZR k * Bval n) with (IZR k * s + (IZR k * Bval n - IZR k * s)) by ring. eapply Rle_trans; [apply Rabs_triang|]. fold K. lra. }
  split.
  - replace (Bval a - IZR k * s) with ((Bval a - IZR k * Bval n) + (IZR k * Bval n - IZR k * s)) by ring. eapply Rle_trans; [apply Rabs_triang|].
    assert (2 * (2 * u64) * Rabs (IZR k * Bval n) <= 2 * (2 * u64) * ((1 + 3 * u64) * K)) by (apply Rmult_le_compat_l; lra).
    assert (u64 * (u64 * K) <= / 1000000 * (u64 * K)) by (apply Rmult_le_compat_r; [apply Rmult_le_pos; lra|lra]).
    pose proof (Rmult_le_pos u64 K ltac:(lra) Kp). nra.
  - set (D := Rabs (T - IZR k * s)). pose proof (Rabs_pos T) as Tp.
    assert (Yb : Rabs (Bval y) <= 2 * Rabs T).
    { replace (Bval y) with (T + (Bval y - T)) by ring. eapply Rle_trans; [apply Rabs_triang|]. assert (8 * u64 * Rabs T <= 1 * Rabs T) by (apply Rmult_le_compat_r; lra). lra. }
    assert (KD : K <= Rabs T + D).
    { pose proof (Rabs_triang T (- (T - IZR k * s))) as Q. rewrite Rabs_Ropp in Q. replace (T + - (T - IZR k * s)) with (IZR k * s) in Q by ring. exact Q. }
    assert (D2 : D <= 8 * u64 * Rabs T + (Bval n / 2 + 2 * u64 * Rabs (Bval y)) + 3 * u64 * K).
    { unfold D. replace (T - IZR k * s) with (- (Bval y - T) + ((Bval y - IZR k * Bval n) + (IZR k * Bval n - IZR k * s))) by ring.
      eapply Rle_trans; [apply Rabs_triang|]. rewrite Rabs_Ropp. eapply Rle_trans; [apply Rplus_le_compat_l, Rabs_triang|]. lra. }
    assert (Dp : 0 <= D) by apply Rabs_pos.
    assert (D3 : D <= 15 * u64 * Rabs T + s / 2 + 3 / 2 * u64 * s + 3 * u64 * D).
    { assert (2 * u64 * Rabs (Bval y) <= 2 * u64 * (2 * Rabs T)) by (apply Rmult_le_compat_l; lra).
      assert (3 * u64 * K <= 3 * u64 * (Rabs T + D)) by (apply Rmult_le_compat_l; lra). lra. }
    assert (D5 : (1 - 3 * u64) * D <= (15 * u64) * Rabs T + s / 2 + 3 / 2 * u64 * s) by lra.
    assert (G : (15 * u64) * Rabs T + s / 2 + 3 / 2 * u64 * s <= (1 - 3 * u64) * (s / 2 + 8 * (2 * u64) * (Rabs T + s))).
    { assert (0 <= u64 * Rabs T) by (apply Rmult_le_pos; lra). assert (0 <= u64 * s) by (apply Rmult_le_pos; lra).
      assert (u64 * (u64 * Rabs T) <= / 1000000 * (u64 * Rabs T)) by (apply Rmult_le_compat_r; lra).
      assert (u64 * (u64 * s) <= / 1000000 * (u64 * s)) by (apply Rmult_le_compat_r; lra). nra. }
    apply Rmult_le_reg_l with (1 - 3 * u64); [lra|]. lra.
Qed.

(** ** the steps *)
Definition prec_num (p : Z) : Z := if (0 <=? p)%Z then 1%Z else (10 ^ (- p))%Z.
Definition prec_den (p : Z) : Z := if (0 <=? p)%Z then (10 ^ p)%Z else 1%Z.
Definition prec_ok (p : Z) : bool :=
  match display_step (F := b64) None (Some p) with
  | Ok n => match b64_me n with Some (m, e) => near_me m e (prec_num p) (prec_den p) | None => false end
  | Err _ => false
  end.
Lemma precs_ok : forallb (fun i => prec_ok (Z.of_nat i - 15)) (seq 0 38) = true.
Proof. vm_compute. reflexivity. Qed.
Lemma ten_bound q : (0 <= q <= 22)%Z -> 1 <= IZR (10 ^ q) <= bpow radix2 100.
Proof.
  intros H. split; [apply IZR_le; pose proof (Z.pow_pos_nonneg 10 q); lia|]. change (bpow radix2 100) with (IZR (2 ^ 100)). apply IZR_le.
  apply Z.le_trans with (10 ^ 22)%Z; [apply Z.pow_le_mono_r; lia|]. vm_compute. discriminate.
Qed.
Lemma inv_bound t : 1 <= t <= bpow radix2 100 -> bpow radix2 (-100) <= / t <= bpow radix2 100.
Proof.
  intros [A B]. split; [change (-100)%Z with (- (100))%Z; rewrite bpow_opp; apply Rinv_le; lra|].
  apply Rle_trans with 1; [rewrite <- Rinv_1; apply Rinv_le; lra|]. change 1 with (bpow radix2 0). apply bpow_le. lia.
Qed.
Lemma step_precision u p : (-15 <= p <= 22)%Z -> exists n, display_step (F := b64) u (Some p) = Ok n /\ step_near n (powerRZ 10 (- p)).
Proof.
  intros H. pose proof (Logic.proj1 (forallb_forall _ _) precs_ok (Z.to_nat (p + 15)) ltac:(apply in_seq; lia)) as K. cbv beta in K.
  replace (Z.of_nat (Z.to_nat (p + 15)) - 15)%Z with p in K by lia. unfold prec_ok in K.
  change (display_step (F := b64) None (Some p)) with (display_step (F := b64) u (Some p)) in K.
  destruct (display_step (F := b64) u (Some p)) as [n|]; [|discriminate]. destruct (b64_me n) as [[m e]|] eqn:M; [|discriminate].
  exists n. split; [reflexivity|]. apply near_me_spec in K. rewrite <- (Bval_me M) in K.
  assert (S : IZR (prec_num p) / IZR (prec_den p) = powerRZ 10 (- p) /\ bpow radix2 (-100) <= IZR (prec_num p) / IZR (prec_den p) <= bpow radix2 100).
  { unfold prec_num, prec_den. destruct (Z.leb_spec 0 p) as [P|P].
    - pose proof (@ten_bound p ltac:(lia)) as B. split.
      + rewrite powerRZ_neg'. unfold Rdiv. rewrite Rmult_1_l. f_equal. rewrite <- (Z2Nat.id p) by lia. rewrite <- pow_IZR, <- pow_powerRZ. reflexivity.
      + unfold Rdiv. rewrite Rmult_1_l. now apply inv_bound.
    - pose proof (@ten_bound (- p) ltac:(lia)) as B. split.
      + unfold Rdiv. rewrite Rinv_1, Rmult_1_r. rewrite <- (Z2Nat.id (- p)) by lia. rewrite <- pow_IZR, <- pow_powerRZ. reflexivity.
      + unfold Rdiv. rewrite Rinv_1, Rmult_1_r. split; [|lra]. apply Rle_trans with 1; [|lra]. change 1 with (bpow radix2 0). apply bpow_le. lia. }
  destruct S as [S B]. rewrite <- S. pose proof (bpow_gt_0 radix2 (-100)). pose proof u64_pos. set (t := IZR (prec_num p) / IZR (prec_den p)) in *.
  assert (0 < t) by lra. split; [now apply bfin_me with (m, e)|]. split; [lra|]. split; [exact B|].
  eapply Rle_trans; [exact K|]. apply Rmult_le_compat_r; lra.
Qed.
Definition table_step (n : b64) (N : Z) : bool :=
  match pydiv n1 n with
  | Ok r => match b64_me n, b64_me r with
            | Some (m, e), Some (a, b) => (near_me m e 1 N && (b <=? 0)%Z && (a =? N * 2 ^ (- b))%Z && (N <=? 2 ^ 60)%Z)%bool
            | _, _ => false
            end
  | Err _ => false
  end.
Lemma table_step_spec n N : table_step n N = true -> exists r, pydiv n1 n = Ok r /\ Bval r = IZR N /\ step_near n (/ IZR N).
Proof.
  unfold table_step. destruct (pydiv n1 n) as [r|]; [|discriminate]. destruct (b64_me n) as [[m e]|] eqn:M; [|discriminate]. destruct (b64_me r) as [[a b]|] eqn:R; [|discriminate].
  intros H. apply andb_true_iff in H as [H N10]. apply andb_true_iff in H as [H A]. apply andb_true_iff in H as [H B]. apply Z.leb_le in B, N10. apply Z.eqb_eq in A.
  assert (Np : (0 < N)%Z).
  { unfold near_me in H. apply andb_true_iff in H as [H _]. apply andb_true_iff in H as [_ H]. now apply Z.ltb_lt in H. }
  exists r. split; [reflexivity|]. split.
  - rewrite (Bval_me R), A, mult_IZR. change 2%Z with (radix_val radix2) at 1. rewrite IZR_Zpower by lia. rewrite Rmult_assoc, <- bpow_plus. replace (- b + b)%Z with 0%Z by lia. cbn. ring.
  - apply near_me_spec in H. rewrite <- (Bval_me M) in H. replace (1 / IZR N) with (/ IZR N) in H by (unfold Rdiv; ring).
    assert (I : 1 <= IZR N <= bpow radix2 100).
    { split; [apply IZR_le; lia|]. apply Rle_trans with (bpow radix2 60); [change (bpow radix2 60) with (IZR (2 ^ 60)); now apply IZR_le|apply bpow_le; lia]. }
    assert (0 < / IZR N) by (apply Rinv_0_lt_compat; lra). pose proof u64_pos.
    split; [now apply bfin_me with (m, e)|]. split; [lra|]. split; [now apply inv_bound|]. eapply Rle_trans; [exact H|]. apply Rmult_le_compat_r; lra.
Qed.
Lemma step_table s k : exists n N r, display_step (F := b64) (Some (display_unit s k)) None = Ok n /\ pydiv n1 n = Ok r /\ Bval r = IZR N /\
  step_near n (/ IZR N) /\ display_increment (display_unit s k) = / IZR N /\ (0 < N)%Z.
Proof.
  assert (G : forall n N, display_step (F := b64) (Some (display_unit s k)) None = Ok n -> table_step n N = true -> display_increment (display_unit s k) = / IZR N -> (0 < N)%Z ->
    exists n N r, display_step (F := b64) (Some (display_unit s k)) None = Ok n /\ pydiv n1 n = Ok r /\ Bval r = IZR N /\ step_near n (/ IZR N) /\ display_increment (display_unit s k) = / IZR N /\ (0 < N)%Z).
  { intros n N E H D P. destruct (table_step_spec H) as (r & R1 & R2 & R3). exists n, N, r. auto 10. }
  destruct s, k; [apply (G (nlit 1 2) 2%Z)|apply (G (nlit 1 2) 2%Z)|apply (G (nlit 1 10) 10%Z)|apply (G (nofZ 1) 1%Z)|apply (G (nlit 1 10) 10%Z)
    |apply (G (nlit 1 4) 4%Z)|apply (G (nofZ 1) 1%Z)|apply (G (nlit 1 10) 10%Z)|apply (G (nofZ 1) 1%Z)|apply (G (nlit 1 10) 10%Z)];
    try reflexivity; try (vm_compute; reflexivity); cbn; lra.
Qed.
Definition clean_ok (p : Z) : bool :=
  match display_step (F := b64) None (Some p) with Ok n => table_step n (10 ^ p) | Err _ => false end.
Lemma cleans_ok : forallb clean_ok [0; 1; 2; 3; 4; 6; 7; 8; 10; 11; 12; 13; 14]%Z = true.
Proof. vm_compute. reflexivity. Qed.
Lemma clean_range p : clean (Some p) -> (0 <= p <= 14)%Z.
Proof. cbn. intuition lia. Qed.
Lemma step_any s k p : (forall q, p = Some q -> (-15 <= q <= 22)%Z) ->
  exists n, display_step (F := b64) (Some (display_unit s k)) p = Ok n /\ step_near n (step_of (display_unit s k) p) /\
    (clean p -> exists N r, pydiv n1 n = Ok r /\ Bval r = IZR N /\ step_of (display_unit s k) p = / IZR N).
Proof.
  intros H. destruct p as [p|]; cbn [step_of].
  - destruct (step_precision (Some (display_unit s k)) (H p eq_refl)) as (n & E & S). exists n. split; [exact E|]. split; [exact S|]. intros C.
    pose proof (Logic.proj1 (forallb_forall _ _) cleans_ok p C) as K. unfold clean_ok in K.
    change (display_step (F := b64) None (Some p)) with (display_step (F := b64) (Some (display_unit s k)) (Some p)) in K. rewrite E in K.
    destruct (table_step_spec K) as (r & R1 & R2 & _). exists (10 ^ p)%Z, r. split; [exact R1|]. split; [exact R2|].
    pose proof (clean_range C). rewrite powerRZ_neg'. f_equal. rewrite <- (Z2Nat.id p) by lia. rewrite <- pow_IZR, <- pow_powerRZ. reflexivity.
  - destruct (step_table s k) as (n & N & r & E & R1 & R2 & S & D & P). exists n. split; [exact E|]. rewrite D. split; [exact S|]. intros _. exists N, r. auto.
Qed.
(** ** [prettify] *)
Section Pretty.
Context (x : b64) (u : string) (k : kind) (m : R) (O : ordinary_number x) (X : Rabs (Bval x) <= bpow radix2 800) (Hu : unit_size u = Some (k, m)).
Lemma shown s p n t m' : unit_size (display_unit s k) = Some (k, m') -> display_step (F := b64) (Some (display_unit s k)) p = Ok n -> step_near n t ->
  exists j a r, (let* c := convert_to_system_default (Some x) (Some u) (system_name s) in round_value p c) = Ok (a, Some (display_unit s k)) /\ bfin a = true /\
    pydiv n1 n = Ok r /\ Bval a = rnd64 (IZR j / Bval r) /\
    Rabs (Bval a - IZR j * t) <= 4 * eps * Rabs (IZR j * t) /\ Rabs (Bval x * m / m' - IZR j * t) <= t / 2 + 8 * eps * (Rabs (Bval x * m / m') + t).
Proof.
  intros Hd Hs Hn. destruct (system_default_near O X Hu Hd) as (y & E & Fy & Hy & By). destruct (round_near Fy By Hn Hy) as (j & a & r & Ea & Fa & Er & Va & A1 & A2).
  exists j, a, r. rewrite E. cbn [bindr]. unfold round_value. cbn [fst snd]. rewrite Hs. cbn [bindr]. rewrite Ea. cbn [bindr]. auto 10.
Qed.
Lemma displayed s p : (forall q, p = Some q -> (-15 <= q <= 22)%Z) ->
  exists a, (let* c := convert_to_system_default (Some x) (Some u) (system_name s) in round_value p c) = Ok a /\ displays s k p (Bval x * m) a.
Proof.
  intros H. destruct (step_any s k H) as (n & E & S & C). destruct (display_size s k) as (m' & Hd). destruct (shown Hd E S) as (j & a & r & E1 & Fa & Er & Va & A1 & A2).
  exists (a, Some (display_unit s k)). split; [exact E1|]. exists m', j. cbn [fst snd]. split; [exact Hd|]. split; [reflexivity|]. split; [exact Fa|]. cbv zeta. split; [exact A2|]. split; [exact A1|].
  intros Cl. destruct (C Cl) as (N & r' & R1 & R2 & R3). rewrite Er in R1. injection R1 as <-. split; [exact Fa|]. intros w Fw. apply nearest_double; [|exact Fw]. rewrite Va, R2, R3. reflexivity.
Qed.
Lemma pretty_split p a b : (let* c := convert_to_system_default (Some x) (Some u) "metric" in round_value p c) = Ok a ->
  (let* c := convert_to_system_default (Some x) (Some u) "united_states" in round_value p c) = Ok b -> prettify (Some x) (Some u) p = Ok (a, b).
Proof.
  unfold prettify. destruct (convert_to_system_default (Some x) (Some u) "metric"); cbn [bindr]; [|discriminate]. intros ->. cbn [bindr].
  destruct (convert_to_system_default (Some x) (Some u) "united_states"); cbn [bindr]; [|discriminate]. intros ->. reflexivity.
Qed.
Lemma prettify_displays p : (forall q, p = Some q -> (-15 <= q <= 22)%Z) ->
  exists a b, prettify (Some x) (Some u) p = Ok (a, b) /\ displays Metric k p (Bval x * m) a /\ displays UnitedStates k p (Bval x * m) b.
Proof.
  intros H. destruct (displayed Metric H) as (a & Ea & Da). destruct (displayed UnitedStates H) as (b & Eb & Db). exists a, b. split; [now apply pretty_split|]. auto.
Qed.
End Pretty.
