(** * Converting, comparing and adding Values in double precision. *)
From Coq Require Import Reals ZArith List String Bool Lra Lia.
From Flocq Require Import Core Plus_error Relative IEEE754.BinarySingleNaN.
From Verif Require Import Num B64 BLemmas MRounding MUnits SpecUnits PUnits PUnitsB MValue SpecValue SpecValueD PValue PErr PScaleD PCutD.
Import ListNotations.
Local Open Scope string_scope.
Local Open Scope R_scope.
Set Implicit Arguments.
Unset Strict Implicit.

(** ** the table holds the true sizes up to rounding *)
Definition near_me (m e num den : Z) : bool :=
  ((e <=? 0) && (0 <? num) && (0 <? den) && (Z.abs (m * den - num * 2 ^ (- e)) * 2 ^ 52 <=? num * 2 ^ (- e)))%Z.
Definition ok_entry (u : string) (num den : Z) : bool :=
  match dict_find u (unit_table (F := b64)) with
  | Some (_, f) => match b64_me f with Some (m, e) => near_me m e num den | None => false end
  | None => false
  end.
Lemma near_me_spec m e num den : near_me m e num den = true ->
  Rabs (IZR m * bpow radix2 e - IZR num / IZR den) <= 2 * u64 * (IZR num / IZR den).
Proof.
  unfold near_me. intros H. apply andb_true_iff in H as [H H4]. apply andb_true_iff in H as [H H3]. apply andb_true_iff in H as [H1 H2].
  apply Z.leb_le in H1, H4. apply Z.ltb_lt in H2, H3.
  assert (D : 0 < IZR den) by now apply IZR_lt. assert (N : 0 < IZR num) by now apply IZR_lt.
  assert (P : bpow radix2 e * IZR (2 ^ (- e)) = 1).
  { change 2%Z with (radix_val radix2) at 1. rewrite IZR_Zpower by lia. rewrite <- bpow_plus. replace (e + - e)%Z with 0%Z by lia. reflexivity. }
  pose proof (bpow_gt_0 radix2 e) as B. assert (Q : 0 < IZR (2 ^ (- e))) by (apply IZR_lt, Z.pow_pos_nonneg; lia).
  apply IZR_le in H4. rewrite mult_IZR, abs_IZR, minus_IZR, !mult_IZR in H4. change (IZR (2 ^ 52)) with (bpow radix2 52) in H4.
  assert (U : u64 * bpow radix2 52 = / 2) by (unfold u64; rewrite <- bpow_plus; change (bpow radix2 (-53 + 52)) with (/ 2); reflexivity).
  pose proof u64_pos. pose proof (bpow_gt_0 radix2 52) as B52.
  assert (E : Rabs (IZR m * bpow radix2 e - IZR num / IZR den) = Rabs (IZR m * IZR den - IZR num * IZR (2 ^ (- e))) * (bpow radix2 e * / IZR den)).
  { rewrite <- (Rabs_pos_eq (bpow radix2 e * / IZR den)) by (apply Rmult_le_pos; [lra|left; now apply Rinv_0_lt_compat]). rewrite <- Rabs_mult. f_equal.
    replace (IZR num / IZR den) with (IZR num / IZR den * (bpow radix2 e * IZR (2 ^ (- e)))) by (rewrite P; ring). field. lra. }
  rewrite E. replace (2 * u64 * (IZR num / IZR den)) with (2 * u64 * (IZR num * IZR (2 ^ (- e))) * (bpow radix2 e * / IZR den)).
  2:{ transitivity (2 * u64 * (IZR num / IZR den) * (bpow radix2 e * IZR (2 ^ (- e)))); [field; lra|rewrite P; ring]. }
  apply Rmult_le_compat_r; [apply Rmult_le_pos; [lra|left; now apply Rinv_0_lt_compat]|].
  apply Rmult_le_reg_r with (bpow radix2 52); [exact B52|]. eapply Rle_trans; [exact H4|].
  replace (2 * u64 * (IZR num * IZR (2 ^ (- e))) * bpow radix2 52) with (2 * (u64 * bpow radix2 52) * (IZR num * IZR (2 ^ (- e)))) by ring.
  rewrite U. lra.
Qed.
Lemma ok_entry_spec u num den c f : ok_entry u num den = true -> dict_find u (unit_table (F := b64)) = Some (c, f) ->
  Rabs (Bval f - IZR num / IZR den) <= 2 * u64 * (IZR num / IZR den).
Proof.
  unfold ok_entry. intros H E. rewrite E in H. destruct (b64_me f) as [[m e]|] eqn:M; [|discriminate]. rewrite (Bval_me M). now apply near_me_spec.
Qed.
Lemma one_of_in l u : one_of l u = true -> In u l.
Proof. unfold one_of. intros H. apply existsb_exists in H as (x & I & E). apply String.eqb_eq in E. now subst. Qed.
Definition sizes : list (list string * (Z * Z)) :=
  [(["m"; "meter"; "meters"], (1, 1)); (["mm"; "millimeter"; "millimeters"], (1, 1000)); (["cm"; "centimeter"; "centimeters"], (1, 100));
   (["in"; "inch"; "inches"], (254, 10000)); (["ft"; "foot"; "feet"], (3048, 10000)); (["fathoms"], (18288, 10000)); (["cubits"], (4572, 10000));
   (["kg"; "kilograms"], (1, 1)); (["g"; "grams"], (1, 1000)); (["lbs"; "pounds"; "lb"], (100000, 220462)); (["stone"], (1000000, 157473));
   (["deg"; "degrees"], (1, 1)); (["rad"; "radians"], (180 * 281474976710656, 884279719003555));
   (["sec"; "second"; "seconds"], (1, 1)); (["min"; "minute"; "minutes"], (60, 1)); (["hr"; "hour"; "hours"], (3600, 1)); (["day"; "days"], (86400, 1));
   (["yr"; "year"; "years"], (86400 * 365242, 1000)); (["hours_per_week"], (1, 1))]%Z.
Lemma sizes_ok : forallb (fun e => forallb (fun u => ok_entry u (fst (snd e)) (snd (snd e))) (fst e)) sizes = true.
Proof. vm_compute. reflexivity. Qed.
Lemma size_ratio u k m : unit_size u = Some (k, m) -> exists names num den, In (names, (num, den)) sizes /\ In u names /\ m = IZR num / IZR den.
Proof.
  unfold unit_size, machine_pi.
  repeat (match goal with |- (if one_of ?l u then _ else _) = _ -> _ => let H := fresh "H" in destruct (one_of l u) eqn:H;
    [apply one_of_in in H; intros [= _ <-]; exists l; do 2 eexists; split; [unfold sizes; cbn [In]; repeat (first [left; reflexivity | right])|split; [exact H|cbn; lra || (field; lra)]]|] end).
  discriminate.
Qed.
Lemma entry_size u k m c f : unit_size u = Some (k, m) -> dict_find u (unit_table (F := b64)) = Some (c, f) ->
  0 < m /\ Rabs (Bval f - m) <= 2 * u64 * m.
Proof.
  intros S E. destruct (size_ratio S) as (names & num & den & I & Iu & ->).
  pose proof (Logic.proj1 (forallb_forall _ _) sizes_ok _ I) as K. cbn [fst snd] in K. pose proof (Logic.proj1 (forallb_forall _ _) K _ Iu) as O.
  split; [|now apply (ok_entry_spec O E)].
  unfold ok_entry in O. rewrite E in O. destruct (b64_me f) as [[a b]|]; [|discriminate]. unfold near_me in O.
  apply andb_true_iff in O as [O _]. apply andb_true_iff in O as [O H3]. apply andb_true_iff in O as [_ H2]. apply Z.ltb_lt in H2, H3.
  apply Rdiv_lt_0_compat; now apply IZR_lt.
Qed.

(** ** the factor and one conversion *)
Lemma u64_tiny : u64 <= / 1000000.
Proof. unfold u64. change (bpow radix2 (-53)) with (/ IZR (2 ^ 53)). simpl. lra. Qed.
Lemma quotient_near d1 d2 : Rabs d1 <= 2 * u64 -> Rabs d2 <= 2 * u64 -> Rabs ((1 + d1) / (1 + d2) - 1) <= 41 / 10 * u64.
Proof.
  intros H1 H2. pose proof u64_pos. pose proof u64_tiny. apply Rabs_le_inv in H1, H2.
  replace ((1 + d1) / (1 + d2) - 1) with ((d1 - d2) / (1 + d2)) by (field; lra).
  apply Rabs_le. split.
  - apply Rmult_le_reg_r with (1 + d2); [lra|]. replace ((d1 - d2) / (1 + d2) * (1 + d2)) with (d1 - d2) by (field; lra). nra.
  - apply Rmult_le_reg_r with (1 + d2); [lra|]. replace ((d1 - d2) / (1 + d2) * (1 + d2)) with (d1 - d2) by (field; lra). nra.
Qed.
Lemma rel_of f m : 0 < m -> Rabs (f - m) <= 2 * u64 * m -> exists d, Rabs d <= 2 * u64 /\ f = m * (1 + d).
Proof.
  intros P H. exists (f / m - 1). split; [|field; lra]. replace (f / m - 1) with ((f - m) * / m) by (field; lra).
  rewrite Rabs_mult, (Rabs_pos_eq (/ m)) by (left; now apply Rinv_0_lt_compat). apply Rmult_le_reg_r with m; [lra|].
  rewrite Rmult_assoc, Rinv_l by lra. lra.
Qed.
Lemma factor_true a b k ma mb : unit_size a = Some (k, ma) -> unit_size b = Some (k, mb) ->
  exists f e, factor (F := b64) (Some a) (Some b) None = Ok f /\ bfin f = true /\ Rabs e <= 6 * u64 /\ Bval f = ma / mb * (1 + e) /\
    bpow radix2 (-36) <= Bval f <= bpow radix2 36.
Proof.
  intros Sa Sb. destruct (get_known (F := b64) Sa) as [fa Fa]. destruct (get_known (F := b64) Sb) as [fb Fb].
  destruct (entry_bounds Fa) as [FFa Ba]. destruct (entry_bounds Fb) as [FFb Bb]. pose proof u64_pos as Up. pose proof u64_tiny as Ut.
  destruct (entry_size Sa Fa) as [Pa Na]. destruct (entry_size Sb Fb) as [Pb Nb].
  destruct (rel_of Pa Na) as (da & Da & Ea). destruct (rel_of Pb Nb) as (db & Db & Eb).
  destruct (String.eqb_spec a b) as [E|NE].
  - subst b. exists n1, 0. rewrite factor_same. assert (ma = mb) as <- by congruence.
    rewrite Rabs_R0, PUnitsB.one_val. split; [reflexivity|]. split; [apply one_fin|]. split; [lra|]. split; [field; lra|].
    split; change 1 with (bpow radix2 0); apply bpow_le; lia.
  - assert (Ef : factor (F := b64) (Some a) (Some b) None = Ok (bdiv fa fb)).
    { unfold factor. rewrite blank_Some by (eapply unit_size_nonempty; eauto). cbn [andb].
      rewrite (Logic.proj2 (ustr_eqb_neq (Some a) (Some b))) by congruence.
      cbn [units_get]. unfold dict_get. rewrite Fa, Fb. cbn [bindr fst snd].
      rewrite String.eqb_refl. cbn [negb]. rewrite (Logic.proj2 (mismatch_accepts _ _)) by (left; left; auto).
      unfold pydiv. now rewrite (table_nonzero_b64 Fb). }
    pose proof (ratio_bounds Ba Bb) as [R1 R2]. assert (Hr : 0 < Bval fa / Bval fb) by (pose proof (bpow_gt_0 radix2 (-35)); lra).
    assert (Hb : 0 < Bval fb) by (pose proof (bpow_gt_0 radix2 (-10)); lra).
    destruct (@bdiv_val fa fb) as [V Ff]; [auto|lra|rewrite Rabs_pos_eq by lra; eapply Rle_trans; [exact R2|apply bpow_le; lia]|].
    destruct (@rnd64_rel (Bval fa / Bval fb)) as (d & Hd & Vd); [rewrite Rabs_pos_eq by lra; eapply Rle_trans; [|exact R1]; apply bpow_le; lia|].
    change (bpow radix2 (-53)) with u64 in Hd.
    assert (Vf : Bval (bdiv fa fb) = Bval fa / Bval fb * (1 + d)) by now rewrite V, Vd. clear V Vd.
    exists (bdiv fa fb), ((1 + da) / (1 + db) * (1 + d) - 1). split; [exact Ef|]. split; [exact Ff|].
    pose proof (quotient_near Da Db) as Q. set (q := (1 + da) / (1 + db)) in *. split; [|split].
    + replace (q * (1 + d) - 1) with ((q - 1) + d + (q - 1) * d) by ring.
      assert (Rabs ((q - 1) * d) <= / 10 * u64).
      { rewrite Rabs_mult. apply Rle_trans with (41 / 10 * u64 * u64); [apply Rmult_le_compat; auto using Rabs_pos|]. nra. }
      eapply Rle_trans; [apply Rabs_triang|]. pose proof (Rabs_triang (q - 1) d). lra.
    + rewrite Vf, Ea, Eb. unfold q. apply Rabs_le_inv in Db. field. lra.
    + rewrite Vf. apply Rabs_le_inv in Hd. pose proof (bpow_gt_0 radix2 (-35)).
      replace (bpow radix2 (-36)) with (bpow radix2 (-35) * /2) by (rewrite (bpow_plus radix2 (-35) (-1) : bpow radix2 (-36) = _); simpl; lra).
      replace (bpow radix2 36) with (bpow radix2 35 * 2) by (rewrite (bpow_plus radix2 35 1 : bpow radix2 36 = _); simpl; lra).
      split; apply Rmult_le_compat; lra.
Qed.
Lemma mul_factor (x f : b64) : ordinary_number x -> bfin f = true -> bpow radix2 (-36) <= Bval f <= bpow radix2 36 ->
  bfin (nmul x f) = true /\ exists e, Rabs e <= u64 /\ Bval (nmul x f) = Bval x * Bval f * (1 + e).
Proof.
  intros (Fx & X) Ff [F1 F2]. pose proof (bpow_gt_0 radix2 (-36)) as P. pose proof u64_pos.
  destruct X as [Z|[X1 X2]].
  - destruct (@bmul_val x f) as [V Fi]; auto; [rewrite Z, Rmult_0_l, Rabs_R0; apply bpow_ge_0|]. split; [exact Fi|]. exists 0. rewrite Rabs_R0. split; [lra|].
    change (nmul x f) with (bmul x f). rewrite V, Z, Rmult_0_l, rnd64_0. ring.
  - assert (A : Rabs (Bval x * Bval f) = Rabs (Bval x) * Bval f) by (rewrite Rabs_mult, (Rabs_pos_eq (Bval f)) by lra; reflexivity).
    destruct (@bmul_val x f) as [V Fi]; auto.
    { rewrite A. eapply Rle_trans with (bpow radix2 900 * bpow radix2 36); [apply Rmult_le_compat; auto using Rabs_pos; lra|]. rewrite <- bpow_plus. apply bpow_le. lia. }
    destruct (@rnd64_rel (Bval x * Bval f)) as (e & He & Ve).
    { rewrite A. eapply Rle_trans with (bpow radix2 (-900) * bpow radix2 (-36)); [rewrite <- bpow_plus; apply bpow_le; lia|]. apply Rmult_le_compat; auto using bpow_ge_0. }
    split; [exact Fi|]. exists e. split; [exact He|]. change (nmul x f) with (bmul x f). now rewrite V, Ve.
Qed.

(** what the other operand becomes: the same Value in the units of the first *)
Lemma comparable_true (v w : value b64) k p q : reads v k p -> reads w k q -> exists y u m, comparable v (PVal w) = Ok (PVal (mkv y (Some u))) /\
  v_units v = Some u /\ unit_size u = Some (k, m) /\ 0 < m /\ p = Bval (v_val v) * m /\
  bfin y = true /\ Rabs (Bval y * m - q) <= 8 * u64 * Rabs q /\ Rabs (Bval y) <= bpow radix2 940.
Proof.
  intros (Ov & u & m & Uv & Su & _ & ->) (Ow & u' & m' & Uw & Su' & _ & ->). pose proof u64_pos as Up. pose proof u64_tiny as Ut.
  destruct (get_known (F := b64) Su) as [fu Fu]. destruct (entry_size Su Fu) as [Pm _].
  unfold comparable, v_convert. rewrite Uv, Uw. destruct (ustr_eqb (Some u) (Some u')) eqn:E.
  - apply ustr_eqb_eq in E. injection E as <-. assert (m' = m) as -> by congruence. exists (v_val w), u, m.
    split; [cbn [mapr bindr]; now rewrite <- Uw; destruct w|]. do 4 (split; [auto|]). destruct Ow as (Fw & Rw). split; [exact Fw|].
    split; [replace (Bval (v_val w) * m - Bval (v_val w) * m) with 0 by ring; rewrite Rabs_R0; apply Rmult_le_pos; [lra|apply Rabs_pos]|].
    destruct Rw as [Z|[_ Rw]]; [rewrite Z, Rabs_R0; apply bpow_ge_0|]. eapply Rle_trans; [exact Rw|apply bpow_le; lia].
  - destruct (factor_true Su' Su) as (f & e & Ef & Ff & He & Vf & Wf). unfold convert. rewrite Ef. cbn [bindr fst snd option_map].
    rewrite (@mk_value_ok b64 b64_num (Some (PNum (nmul (v_val w) f))) (nmul (v_val w) f)); [|reflexivity|right; exists u; split; auto; exists k, m; auto].
    destruct (mul_factor Ow Ff Wf) as (Fy & e' & He' & Vy). exists (nmul (v_val w) f), u, m. split; [reflexivity|]. do 4 (split; [auto|]). split; [exact Fy|]. split.
    + rewrite Vy, Vf. replace (Bval (v_val w) * (m' / m * (1 + e)) * (1 + e') * m - Bval (v_val w) * m') with ((e + e' + e * e') * (Bval (v_val w) * m')) by (field; lra).
      rewrite Rabs_mult. apply Rmult_le_compat_r; [apply Rabs_pos|].
      assert (Rabs (e * e') <= u64). { rewrite Rabs_mult. apply Rle_trans with (6 * u64 * u64); [apply Rmult_le_compat; auto using Rabs_pos|nra]. }
      eapply Rle_trans; [apply Rabs_triang|]. pose proof (Rabs_triang e e'). lra.
    + rewrite Vy, !Rabs_mult. apply Rabs_le_inv in He'. rewrite (Rabs_pos_eq (1 + e')) by lra.
      pose proof (bpow_gt_0 radix2 (-36)). rewrite (Rabs_pos_eq (Bval f)) by lra.
      assert (X : Rabs (Bval (v_val w)) <= bpow radix2 900) by (destruct Ow as (_ & [Z|[_ ?]]); [rewrite Z, Rabs_R0; apply bpow_ge_0|auto]).
      replace (bpow radix2 940) with (bpow radix2 900 * bpow radix2 36 * bpow radix2 4) by (rewrite <- !bpow_plus; reflexivity).
      assert (Q : 2 <= bpow radix2 4) by (change (bpow radix2 4) with 16; lra).
      apply Rmult_le_compat; [apply Rmult_le_pos; [apply Rabs_pos|lra]|lra|apply Rmult_le_compat; auto using Rabs_pos; lra|lra].
Qed.

(** ** comparisons *)
Lemma order_true x y m p q : 0 < m -> p = x * m -> Rabs (y * m - q) <= 8 * u64 * Rabs q -> 8 * u64 * Rabs q < Rabs (p - q) ->
  (x < y <-> p < q) /\ (x <= y <-> p <= q) /\ (y < x <-> q < p) /\ (y <= x <-> q <= p) /\ x <> y /\ p <> q.
Proof.
  intros P -> H L. apply Rabs_le_inv in H. set (T := 8 * u64 * Rabs q) in *.
  assert (C : (x < y /\ x * m < q) \/ (y < x /\ q < x * m)).
  { destruct (Rcase_abs (x * m - q)) as [N|N]; [rewrite Rabs_left in L by lra; left|rewrite Rabs_right in L by lra; right].
    - split; [apply Rmult_lt_reg_r with m; lra|lra].
    - split; [apply Rmult_lt_reg_r with m; lra|lra]. }
  destruct C; repeat split; intros; lra.
Qed.
Lemma compare_true (v w : value b64) k p q : reads v k p -> reads w k q -> 8 * u64 * Rabs q < Rabs (p - q) ->
  answers (py_lt (PVal v) (PVal w)) (p < q) /\ answers (py_le (PVal v) (PVal w)) (p <= q) /\
  answers (py_gt (PVal v) (PVal w)) (p > q) /\ answers (py_ge (PVal v) (PVal w)) (p >= q) /\
  answers (py_eq (PVal v) (PVal w)) (p = q) /\ answers (py_ne (PVal v) (PVal w)) (p <> q).
Proof.
  intros Rv Rw L. destruct (comparable_true Rv Rw) as (y & u & m & E & Uv & Su & Pm & Ep & Fy & Ny & _).
  destruct (order_true Pm Ep Ny L) as (O1 & O2 & O3 & O4 & O5 & O6).
  assert (Fv : bfin (v_val v) = true) by (destruct Rv as ((F & _) & _); exact F).
  cbn [py_lt py_le py_gt py_ge py_eq py_ne dispatch]. unfold v_lt, v_le, v_gt, v_ge, v_eq, v_ne, v_cmp. rewrite E. cbn [bindr pyfloat v_val].
  rewrite !blt_spec, !ble_spec, !beq_spec by auto.
  split; [eexists; split; [reflexivity|]; rewrite <- O1; destruct (Rlt_bool_spec (Bval (v_val v)) (Bval y)); split; intros; auto; try discriminate; lra|].
  split; [eexists; split; [reflexivity|]; rewrite <- O2; destruct (Rle_bool_spec (Bval (v_val v)) (Bval y)); split; intros; auto; try discriminate; lra|].
  split; [eexists; split; [reflexivity|]; unfold Rgt; rewrite <- O3; destruct (Rlt_bool_spec (Bval y) (Bval (v_val v))); split; intros; auto; try discriminate; lra|].
  split; [eexists; split; [reflexivity|]; destruct (Rle_bool_spec (Bval y) (Bval (v_val v))) as [Q|Q]; [assert (q <= p) by now apply O4|assert (~ q <= p) by (rewrite <- O4; lra)]; split; intros; auto; try discriminate; lra|].
  rewrite Req_bool_false by exact O5. cbn [negb]. split; eexists; (split; [reflexivity|]); split; intros; auto; try discriminate; congruence.
Qed.

(** ** sums and differences *)
Lemma u64_eps : u64 = eps / 2.
Proof. unfold u64, eps. change (-52)%Z with (-53 + 1)%Z. rewrite bpow_plus. change (bpow radix2 1) with 2. lra. Qed.
Lemma ordinary_le x : ordinary_number x -> Rabs (Bval x) <= bpow radix2 900.
Proof. intros (_ & [Z|[_ H]]); [rewrite Z, Rabs_R0; apply bpow_ge_0|exact H]. Qed.
Lemma pow_999 : bpow radix2 900 + bpow radix2 940 <= bpow radix2 1000.
Proof.
  apply Rle_trans with (bpow radix2 940 + bpow radix2 940); [apply Rplus_le_compat_r, bpow_le; lia|].
  replace (bpow radix2 940 + bpow radix2 940) with (bpow radix2 941); [apply bpow_le; lia|]. change 941%Z with (940 + 1)%Z. rewrite bpow_plus. change (bpow radix2 1) with 2. ring.
Qed.
Lemma total_err z x y m p q s : 0 < m -> p = x * m -> Rabs (y * m - q) <= 8 * u64 * Rabs q -> Rabs s = 1 ->
  Rabs (z - (x + s * y)) <= eps * Rabs (x + s * y) -> Rabs (z * m - (p + s * q)) <= 6 * eps * (Rabs p + Rabs q).
Proof.
  intros P -> H S Z. pose proof eps_pos as PE. pose proof eps_small as SE. rewrite u64_eps in H.
  replace (z * m - (x * m + s * q)) with ((z - (x + s * y)) * m + s * (y * m - q)) by ring.
  eapply Rle_trans; [apply Rabs_triang|]. rewrite (Rabs_mult (z - (x + s * y)) m), (Rabs_mult s (y * m - q)), S, (Rabs_pos_eq m) by lra.
  assert (Y : Rabs (y * m) <= Rabs q + 8 * (eps / 2) * Rabs q).
  { replace (y * m) with (q + (y * m - q)) by ring. eapply Rle_trans; [apply Rabs_triang|]. lra. }
  assert (X : Rabs (x + s * y) * m <= Rabs (x * m) + Rabs (y * m)).
  { rewrite <- (Rabs_pos_eq m) at 1 by lra. rewrite <- Rabs_mult. replace ((x + s * y) * m) with (x * m + s * (y * m)) by ring.
    eapply Rle_trans; [apply Rabs_triang|]. rewrite (Rabs_mult s), S. lra. }
  assert (W : Rabs (z - (x + s * y)) * m <= eps * (Rabs (x * m) + Rabs (y * m))).
  { apply Rle_trans with (eps * Rabs (x + s * y) * m); [apply Rmult_le_compat_r; lra|]. rewrite Rmult_assoc. apply Rmult_le_compat_l; lra. }
  pose proof (Rabs_pos (x * m)). pose proof (Rabs_pos q).
  assert (eps * (eps * Rabs q) <= / 1000000 * (eps * Rabs q)). { apply Rmult_le_compat_r; [apply Rmult_le_pos; lra|lra]. }
  assert (0 <= eps * Rabs (x * m)) by (apply Rmult_le_pos; lra). assert (0 <= eps * Rabs q) by (apply Rmult_le_pos; lra).
  assert (eps * Rabs (y * m) <= eps * (Rabs q + 8 * (eps / 2) * Rabs q)) by (apply Rmult_le_compat_l; lra). lra.
Qed.
Lemma add_true (v w : value b64) k p q : reads v k p -> reads w k q ->
  (exists r s, py_add (PVal v) (PVal w) = Ok (PVal r) /\ v_units r = v_units v /\ denotes r k s /\ Rabs (s - (p + q)) <= 6 * eps * (Rabs p + Rabs q)) /\
  (exists r s, py_sub (PVal v) (PVal w) = Ok (PVal r) /\ v_units r = v_units v /\ denotes r k s /\ Rabs (s - (p - q)) <= 6 * eps * (Rabs p + Rabs q)).
Proof.
  intros Rv Rw. destruct (comparable_true Rv Rw) as (y & u & m & E & Uv & Su & Pm & Ep & Fy & Ny & By).
  assert (Fv : bfin (v_val v) = true) by (destruct Rv as ((F & _) & _); exact F).
  assert (Bv : Rabs (Bval (v_val v)) <= bpow radix2 900) by (destruct Rv as (O & _); now apply ordinary_le).
  assert (UO : unit_ok (Some u)) by (right; exists u; split; auto; exists k, m; auto). pose proof pow_999 as P9.
  cbn [py_add py_sub dispatch v_add v_sub]. unfold combine. rewrite E. cbn [bindr pyfloat v_val]. rewrite Uv, !mk_num_ok by exact UO. split.
  - destruct (@add_rel (v_val v) y Fv Fy) as [Fz Ez]; [eapply Rle_trans; [apply Rabs_triang|lra]|].
    exists (mkv (nadd (v_val v) y) (Some u)), (Bval (nadd (v_val v) y) * m). split; [reflexivity|]. split; [reflexivity|]. split; [exists u, m; auto|].
    replace (p + q) with (p + 1 * q) by ring. apply (@total_err _ (Bval (v_val v)) (Bval y)); auto; [apply Rabs_R1|]. now rewrite Rmult_1_l.
  - destruct (@sub_rel (v_val v) y Fv Fy) as (Fz & _ & Ez); [unfold Rminus; eapply Rle_trans; [apply Rabs_triang|rewrite Rabs_Ropp; lra]|].
    exists (mkv (nsub (v_val v) y) (Some u)), (Bval (nsub (v_val v) y) * m). split; [reflexivity|]. split; [reflexivity|]. split; [exists u, m; auto|].
    replace (p - q) with (p + -1 * q) by ring. apply (@total_err _ (Bval (v_val v)) (Bval y)); auto; [rewrite Rabs_left by lra; lra|].
    replace (Bval (v_val v) + -1 * Bval y) with (Bval (v_val v) - Bval y) by ring. exact Ez.
Qed.

(** ** conversions and ratios *)
Lemma convert_true (v : value b64) k q b m : reads v k q -> unit_size b = Some (k, m) ->
  exists w s, v_convert v (Some b) = Ok w /\ v_units w = Some b /\ denotes w k s /\ Rabs (s - q) <= 4 * eps * Rabs q.
Proof.
  intros Rv Sb. assert (R0 : reads (mkv (nofZ 0) (Some b)) k 0).
  { split; [split; [reflexivity|left; reflexivity]|]. exists b, m. split; [reflexivity|]. split; [exact Sb|]. split; [reflexivity|]. cbn [v_val]. change (Bval (nofZ 0)) with 0. ring. }
  destruct (comparable_true R0 Rv) as (y & u & m' & E & Uv & Su & Pm & _ & Fy & Ny & _). cbn [v_units] in Uv. injection Uv as <-.
  unfold comparable in E. cbn [v_units] in E. destruct (v_convert v (Some b)) as [w|]; [|discriminate]. injection E as ->.
  exists (mkv y (Some b)), (Bval y * m'). split; [reflexivity|]. split; [reflexivity|]. split; [exists b, m'; auto|]. rewrite u64_eps in Ny. lra.
Qed.
Lemma ratio_true (v w : value b64) k p q : reads v k p -> reads w k q -> q <> 0 -> p = 0 \/ bpow radix2 (-1000) <= Rabs (p / q) <= bpow radix2 990 ->
  exists z, py_truediv (PVal v) (PVal w) = Ok (PVal (mkv z None)) /\ bfin z = true /\ Rabs (Bval z - p / q) <= 6 * eps * Rabs (p / q).
Proof.
  intros Rv Rw NZ HR. destruct (comparable_true Rv Rw) as (y & u & m & E & Uv & Su & Pm & Ep & Fy & Ny & By).
  assert (Fv : bfin (v_val v) = true) by (destruct Rv as ((F & _) & _); exact F). pose proof u64_pos as Up. pose proof u64_tiny as Ut. pose proof u64_eps as Ue.
  assert (AQ : 0 < Rabs q) by now apply Rabs_pos_lt.
  assert (Hy : exists e, Rabs e <= 8 * u64 /\ Bval y = q / m * (1 + e)).
  { exists ((Bval y * m - q) / q). split; [|field; lra]. unfold Rdiv. rewrite Rabs_mult, Rabs_inv. apply Rmult_le_reg_r with (Rabs q); [exact AQ|]. rewrite Rmult_assoc, Rinv_l by lra. lra. }
  destruct Hy as (e & He & Vy). assert (He' := He). apply Rabs_le_inv in He'.
  assert (Yn : Bval y <> 0) by (rewrite Vy; apply Rmult_integral_contrapositive_currified; [apply Rmult_integral_contrapositive_currified; [exact NZ|apply Rinv_neq_0_compat; lra]|lra]).
  assert (Q : Bval (v_val v) / Bval y = p / q * / (1 + e)) by (rewrite Vy, Ep; field; lra).
  assert (J : Rabs (/ (1 + e) - 1) <= 81 / 10 * u64).
  { replace (/ (1 + e) - 1) with (- e * / (1 + e)) by (field; lra). rewrite Rabs_mult, Rabs_Ropp, (Rabs_pos_eq (/ (1 + e))) by (left; apply Rinv_0_lt_compat; lra).
    apply Rmult_le_reg_r with (1 + e); [lra|]. rewrite Rmult_assoc, Rinv_l by lra. nra. }
  cbn [py_truediv dispatch]. unfold v_truediv, divide. rewrite E. cbn [bindr pyfloat v_val]. unfold pydiv.
  rewrite beq_spec by (auto; reflexivity). change (Bval (nofZ 0)) with 0. rewrite Req_bool_false by exact Yn. cbn [bindr mapr]. rewrite mk_num_ok by now left.
  exists (ndiv (v_val v) y). split; [reflexivity|].
  assert (JJ := J). apply Rabs_le_inv in JJ.
  assert (AB : Rabs (Bval (v_val v) / Bval y) = Rabs (p / q) * / (1 + e)) by (rewrite Q, Rabs_mult, (Rabs_pos_eq (/ (1 + e))) by (left; apply Rinv_0_lt_compat; lra); reflexivity).
  assert (I2 : / 2 <= / (1 + e) <= 2) by lra.
  destruct HR as [Z|[R1 R2]].
  - assert (V0 : Bval (v_val v) / Bval y = 0) by (rewrite Q, Z; unfold Rdiv; ring).
    destruct (@bdiv_val (v_val v) y) as [V Fz]; auto; [rewrite V0, Rabs_R0; apply bpow_ge_0|]. split; [exact Fz|]. change (ndiv (v_val v) y) with (bdiv (v_val v) y).
    rewrite V, V0, rnd64_0, Z. replace (0 - 0 / q) with 0 by (unfold Rdiv; ring). rewrite Rabs_R0. apply Rmult_le_pos; [pose proof eps_pos; lra|apply Rabs_pos].
  - destruct (@bdiv_val (v_val v) y) as [V Fz]; auto.
    { rewrite AB. replace (bpow radix2 1000) with (bpow radix2 990 * bpow radix2 10) by (rewrite <- bpow_plus; reflexivity). apply Rmult_le_compat; auto using Rabs_pos; [lra|]. change (bpow radix2 10) with 1024. lra. }
    destruct (@rnd64_rel (Bval (v_val v) / Bval y)) as (d & Hd & Vd).
    { rewrite AB. replace (bpow radix2 (-1022)) with (bpow radix2 (-1000) * bpow radix2 (-22)) by (rewrite <- bpow_plus; reflexivity). apply Rmult_le_compat; auto using bpow_ge_0. apply Rle_trans with (/ 2); [|lra]. change (/ 2) with (bpow radix2 (-1)). apply bpow_le. lia. }
    split; [exact Fz|]. change (ndiv (v_val v) y) with (bdiv (v_val v) y). rewrite V, Vd, Q. change (bpow radix2 (-53)) with u64 in Hd.
    replace (p / q * / (1 + e) * (1 + d) - p / q) with (((/ (1 + e) - 1) + d + (/ (1 + e) - 1) * d) * (p / q)) by ring.
    rewrite Rabs_mult. apply Rmult_le_compat_r; [apply Rabs_pos|].
    assert (Rabs ((/ (1 + e) - 1) * d) <= u64). { rewrite Rabs_mult. apply Rle_trans with (81 / 10 * u64 * u64); [apply Rmult_le_compat; auto using Rabs_pos|nra]. }
    eapply Rle_trans; [apply Rabs_triang|]. pose proof (Rabs_triang (/ (1 + e) - 1) d). lra.
Qed.
