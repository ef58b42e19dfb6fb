(** * The half-turn branch of rodrigues: proofs for property C174. *)
From Coq Require Import Reals ZArith List Bool Lra Lia Psatz.
From Flocq Require Import Core.
From Verif Require Import Num XLemmas Vec NpList RVec SpecGeom VLemmas PMat3 MRotation SpecRotation PRotation PRotation2.
Local Open Scope R_scope.

Lemma abs2 x b : - b <= x <= b -> Rabs x <= b.
Proof. intros [A B]. now apply Rabs_le. Qed.
Lemma sq_near a b d g : 0 <= a -> 0 <= b -> 0 <= g -> d <= g * g -> - d <= a * a - b * b <= d -> - g <= a - b <= g.
Proof. intros A B G D H. split; nra. Qed.
Lemma mul_le0 a b : a <= 0 -> 0 <= b -> a * b <= 0.
Proof. intros; nra. Qed.
Lemma mul_le0' a b : 0 <= a -> b <= 0 -> a * b <= 0.
Proof. intros; nra. Qed.
Lemma mul_nn a b : a <= 0 -> b <= 0 -> 0 <= a * b.
Proof. intros; nra. Qed.
Lemma mul_z a b : 0 <= a -> b < 0 -> 0 <= a * b -> a = 0.
Proof. intros A B C. destruct (Req_dec a 0) as [Z|Z]; [exact Z|]. exfalso. nra. Qed.
Lemma mul_z' a b : 0 <= a -> 0 < b -> 0 <= - a * b -> a = 0.
Proof. intros A B C. destruct (Req_dec a 0) as [Z|Z]; [exact Z|]. exfalso. nra. Qed.
Lemma small_mul a b : 0 <= a <= 45/10000 -> 0 <= b <= 1001/1000 -> a * b <= 46/10000.
Proof. intros; nra. Qed.
Lemma kk_neg k x : 0 <= k -> x <= 0 -> 0 < k * x -> False.
Proof. intros; nra. Qed.
(** one product: the sign read off an entry is right, or the product is small *)
Lemma sign_ok (a p q : R) : 0 <= a -> - (1/100000) <= a - Rabs p <= 1/100000 -> (q < 0 -> p <= 6/1000000) -> (0 <= q -> - (6/1000000) <= p) ->
  - (3/100000) <= (if Rlt_bool q 0 then - a else a) - p <= 3/100000.
Proof.
  intros A H N P. destruct (Rlt_bool_spec q 0) as [L|L]; [specialize (N L)|specialize (P L)]; revert H; unfold Rabs; destruct (Rcase_abs p); lra.
Qed.
Lemma small_sq x y : 0 <= x <= y -> x * y <= 2/100000 -> x <= 45/10000.
Proof. intros H Q. nra. Qed.
(** the three products of the coordinates with the signs that the code chooses *)
Lemma signs h0 h1 h2 p01 p02 p12 q01 q02 q12 kk : 0 <= h0 <= 1001/1000 -> 0 <= h1 <= 1001/1000 -> 0 <= h2 <= 1001/1000 -> 0 <= kk -> p01 * p02 = kk * p12 ->
  - (1/100000) <= h0 * h1 - Rabs p01 <= 1/100000 -> - (1/100000) <= h0 * h2 - Rabs p02 <= 1/100000 -> - (1/100000) <= h1 * h2 - Rabs p12 <= 1/100000 ->
  (q01 < 0 -> p01 <= 6/1000000) -> (0 <= q01 -> - (6/1000000) <= p01) -> (q02 < 0 -> p02 <= 6/1000000) -> (0 <= q02 -> - (6/1000000) <= p02) -> (0 < q12 -> - (6/1000000) <= p12) -> (q12 <= 0 -> p12 <= 6/1000000) ->
  let y := if Rlt_bool q01 0 then - h1 else h1 in let z := if Rlt_bool q02 0 then - h2 else h2 in
  let z := if Rlt_bool (Rabs h0) (Rabs y) && Rlt_bool (Rabs h0) (Rabs z) && negb (Bool.eqb (Rlt_bool 0 q12) (Rlt_bool 0 (y * z))) then - z else z in
  - (95/10000) <= h0 * y - p01 <= 95/10000 /\ - (95/10000) <= h0 * z - p02 <= 95/10000 /\ - (95/10000) <= y * z - p12 <= 95/10000.
Proof.
  intros H0 H1 H2 HK HP A01 A02 A12 N01 P01 N02 P02 P12 N12 y z0 z. assert (Y2 : Rabs y = h1) by (unfold y; destruct (Rlt_bool q01 0); rewrite ?Rabs_Ropp; apply Rabs_pos_eq; lra). assert (Z2 : Rabs z0 = h2) by (unfold z0; destruct (Rlt_bool q02 0); rewrite ?Rabs_Ropp; apply Rabs_pos_eq; lra). assert (X2 : Rabs h0 = h0) by (apply Rabs_pos_eq; lra).
  assert (E1 : - (3/100000) <= h0 * y - p01 <= 3/100000). { assert (Q : 0 <= h0 * h1) by (apply Rmult_le_pos; lra). pose proof (sign_ok (h0 * h1) p01 q01 Q A01 N01 P01) as S. unfold y. destruct (Rlt_bool q01 0); lra. }
  assert (E2 : - (3/100000) <= h0 * z0 - p02 <= 3/100000). { assert (Q : 0 <= h0 * h2) by (apply Rmult_le_pos; lra). pose proof (sign_ok (h0 * h2) p02 q02 Q A02 N02 P02) as S. unfold z0. destruct (Rlt_bool q02 0); lra. }
  (* the product of the signs contradicts the third product: one of the others is small *)
  assert (SM : y * z0 * p12 <= 0 -> h0 * h1 <= 2/100000 \/ h0 * h2 <= 2/100000 \/ h1 * h2 <= 2/100000).
  { intros Q. assert (HS : y * p01 <= 0 \/ z0 * p02 <= 0). { destruct (Rle_lt_dec (y * p01) 0) as [L|L]; [now left|]. destruct (Rle_lt_dec (z0 * p02) 0) as [L'|L']; [now right|]. exfalso. assert (0 < y * p01 * (z0 * p02)) by (apply Rmult_lt_0_compat; lra). replace (y * p01 * (z0 * p02)) with (y * z0 * (p01 * p02)) in H by ring. rewrite HP in H. replace (y * z0 * (kk * p12)) with (kk * (y * z0 * p12)) in H by ring. exact (kk_neg _ _ HK Q H). }
    assert (ONE : forall h q p (v : R), 0 <= h -> v = (if Rlt_bool q 0 then - h else h) -> v * p <= 0 -> (q < 0 -> p <= 6/1000000) -> (0 <= q -> - (6/1000000) <= p) -> h = 0 \/ Rabs p <= 6/1000000).
    { intros h q p v Hh -> HV N P. destruct (Req_dec h 0) as [Z|Z]; [now left|right]. assert (PH : 0 < h) by lra. clear - PH HV N P. destruct (Rlt_bool_spec q 0) as [L|L]; [specialize (N L)|specialize (P L)]; apply abs2; split; nra. }
    destruct HS as [HS|HS].
    - destruct (ONE h1 q01 p01 y (proj1 H1) eq_refl HS N01 P01) as [Z|Z]; [rewrite Z; left; lra|left; lra].
    - destruct (ONE h2 q02 p02 z0 (proj1 H2) eq_refl HS N02 P02) as [Z|Z]; [rewrite Z; right; left; lra|right; left; lra]. }
  assert (YZ : y * z0 = h1 * h2 \/ y * z0 = - (h1 * h2)) by (unfold y, z0; destruct (Rlt_bool q01 0), (Rlt_bool q02 0); lra). assert (Q12 : 0 <= h1 * h2) by (apply Rmult_le_pos; lra). assert (Q01 : 0 <= h0 * h1) by (apply Rmult_le_pos; lra). assert (Q02 : 0 <= h0 * h2) by (apply Rmult_le_pos; lra).
  assert (W02 : h0 * z0 = h0 * h2 \/ h0 * z0 = - (h0 * h2)) by (unfold z0; destruct (Rlt_bool q02 0); lra).
  assert (RIGHT : 0 <= y * z0 * p12 -> - (95/10000) <= y * z0 - p12 <= 95/10000). { intros Q. destruct (Rcase_abs p12) as [C|C]; [rewrite (Rabs_left p12) in A12 by lra|rewrite (Rabs_pos_eq p12) in A12 by lra]; destruct YZ as [E| E]; rewrite E in *; try lra; (destruct (Req_dec p12 0) as [Z|Z]; [lra|]); [pose proof (mul_z _ _ Q12 C Q)|assert (C' : 0 < p12) by lra; pose proof (mul_z' _ _ Q12 C' Q)]; lra. }
  assert (WRONG : h1 * h2 <= 46/10000 -> - (95/10000) <= y * z0 - p12 <= 95/10000). { intros Q. assert (R : Rabs p12 <= 461/100000) by lra. apply Rabs_le_inv in R. destruct YZ as [->| ->]; lra. }
  unfold z. rewrite Y2, Z2, X2. destruct (Rlt_bool_spec h0 h1) as [L1|L1]; [destruct (Rlt_bool_spec h0 h2) as [L2|L2]|]; cbn [andb].
  - destruct (Rlt_bool_spec 0 q12) as [G|G]; [specialize (P12 G)|specialize (N12 G)]; (destruct (Rlt_bool_spec 0 (y * z0)) as [J|J]); cbn [Bool.eqb negb].
    + split; [lra|]. split; [lra|]. destruct (Rle_lt_dec 0 p12) as [C|C]; [apply RIGHT, Rmult_le_pos; lra|]. rewrite (Rabs_left p12) in A12 by lra. apply WRONG. lra.
    + (* flipped *) split; [lra|]. split.
      * assert (B : h0 * h2 <= 46/10000). { destruct (Rle_lt_dec 0 p12) as [C|C]; [|rewrite (Rabs_left p12) in A12 by lra; assert (h0 * h2 <= h1 * h2) by (apply Rmult_le_compat_r; lra); lra]. destruct SM as [S|[S|S]]; [apply mul_le0; lra| | |].
          - assert (h0 <= 45/10000) by (apply small_sq with h1; lra). apply small_mul; lra.
          - lra.
          - assert (h0 * h2 <= h1 * h2) by (apply Rmult_le_compat_r; lra). lra. }
        assert (R : Rabs p02 <= 461/100000) by lra. apply Rabs_le_inv in R. destruct W02 as [W|W]; lra.
      * destruct (Rcase_abs p12) as [C|C]; [rewrite (Rabs_left p12) in A12 by lra|rewrite (Rabs_pos_eq p12) in A12 by lra]; destruct YZ as [W|W]; lra.
    + (* flipped *) split; [lra|]. split.
      * assert (B : h0 * h2 <= 46/10000). { destruct (Rle_lt_dec p12 0) as [C|C]; [|rewrite (Rabs_pos_eq p12) in A12 by lra; assert (h0 * h2 <= h1 * h2) by (apply Rmult_le_compat_r; lra); lra]. destruct SM as [S|[S|S]]; [apply mul_le0'; lra| | |].
          - assert (h0 <= 45/10000) by (apply small_sq with h1; lra). apply small_mul; lra.
          - lra.
          - assert (h0 * h2 <= h1 * h2) by (apply Rmult_le_compat_r; lra). lra. }
        assert (R : Rabs p02 <= 461/100000) by lra. apply Rabs_le_inv in R. destruct W02 as [W|W]; lra.
      * destruct (Rcase_abs p12) as [C|C]; [rewrite (Rabs_left p12) in A12 by lra|rewrite (Rabs_pos_eq p12) in A12 by lra]; destruct YZ as [W|W]; lra.
    + split; [lra|]. split; [lra|]. destruct (Rle_lt_dec p12 0) as [C|C]; [apply RIGHT, mul_nn; lra|]. rewrite (Rabs_pos_eq p12) in A12 by lra. apply WRONG. lra.
  - split; [lra|]. split; [lra|]. destruct (Rle_lt_dec 0 (y * z0 * p12)) as [C|C]; [now apply RIGHT|]. apply WRONG. destruct SM as [S|[S|S]]; [lra| | |lra].
    + assert (h1 * h2 <= h0 * h1) by (rewrite (Rmult_comm h0 h1); apply Rmult_le_compat_l; lra). lra.
    + assert (h2 <= 45/10000) by (apply small_sq with h0; lra). rewrite Rmult_comm. apply small_mul; lra.
  - split; [lra|]. split; [lra|]. destruct (Rle_lt_dec 0 (y * z0 * p12)) as [C|C]; [now apply RIGHT|]. apply WRONG. destruct SM as [S|[S|S]]; [lra| | |lra].
    + assert (h1 <= 45/10000) by (apply small_sq with h0; lra). apply small_mul; lra.
    + assert (h1 * h2 <= h0 * h2) by (apply Rmult_le_compat_r; lra). lra.
Qed.

Lemma unit_b u : u * u <= 1 -> -1 <= u <= 1.
Proof. intros; split; nra. Qed.
Lemma mul_i i u : 0 <= i <= 1 -> -1 <= u <= 1 -> -1 <= i * u <= 1.
Proof. intros; split; nra. Qed.
Lemma mul_s s u : 0 <= s <= 1/100000 -> -1 <= u <= 1 -> - (1/100000) <= s * u <= 1/100000.
Proof. intros; split; nra. Qed.
Lemma mul_uv u v : -1 <= u <= 1 -> -1 <= v <= 1 -> -1 <= u * v <= 1.
Proof. intros; split; nra. Qed.
Lemma mul_wq w q d : 1 - d <= w <= 1 -> -1 <= q <= 1 -> - d <= w * q - q <= d.
Proof. intros; split; nra. Qed.
Lemma inv_b w d : 0 <= d -> 0 <= w -> w * (1 + d) = 1 -> 1 - d <= w <= 1.
Proof. intros; split; nra. Qed.
Lemma root_b i : 0 < i -> i * i <= 1 -> i <= 1.
Proof. intros; nra. Qed.
Lemma coord_cases (P : R -> R -> Prop) a b : (P (c0 a) (c0 b) /\ P (c1 a) (c1 b) /\ P (c2 a) (c2 b)) -> forall j, P (coord j a) (coord j b).
Proof. intros (A & B & C) j. unfold coord. destruct j as [|[p|p|]|p]; auto. Qed.
Lemma half_near k t m : rdot k k = 1 -> 0 <= t <= PI -> sin t < 1/100000 -> cos t <= 0 -> m = axis_rot t k ->
  mat_within (1/50) m (axis_rot t (rscale (/ rnorm (half_axis m)) (half_axis m))).
Proof.
  intros K Ht Hs Hc EM. pose proof (axis_rot_rotation t K) as M. rewrite <- EM in M. assert (PS : 0 <= sin t) by (apply sin_ge_0; lra). pose proof (sin2_cos2 t) as SC. unfold Rsqr in SC. pose proof (COS_bound t) as CB. set (c := cos t) in *. set (s := sin t) in *. set (d := 1 + c).
  assert (D : 0 <= d <= / 10000000000). { unfold d. split; [lra|]. assert (s * s <= / 10000000000) by nra. assert ((1 + c) * (1 - c) <= / 10000000000) by lra. nra. }
  pose proof (half_axis_norm M) as HN. assert (TR : trace m = 1 + 2 * c) by (rewrite EM; now apply axis_rot_trace). rewrite TR in HN. replace ((1 + 2 * c + 3) / 2) with (1 + d) in HN by (unfold d; field). pose proof (half_axis_pos M) as NP. rewrite <- rnorm_sq in HN. set (n := rnorm (half_axis m)) in *.
  destruct k as [k0 k1 k2]. unfold rdot in K. cbn [c0 c1 c2] in K. assert (S0 : 0 <= k0 * k0) by nra. assert (S1 : 0 <= k1 * k1) by nra. assert (S2 : 0 <= k2 * k2) by nra.
  assert (BK : forall x, x * x <= 1 -> -1 <= x <= 1) by (intros x Hx; now apply unit_b). pose proof (BK k0 ltac:(lra)) as B0. pose proof (BK k1 ltac:(lra)) as B1. pose proof (BK k2 ltac:(lra)) as B2.
  (* the entries *)
  set (g x := sqrt ((c + (1 - c) * (x * x) + 1) * (1/2))). assert (GS : forall x, 0 <= x * x <= 1 -> 0 <= g x /\ g x * g x = d / 2 + (1 - d / 2) * (x * x) /\ x * x <= g x * g x <= x * x + d / 2 /\ g x * g x <= 1).
  { intros x Hx. split; [apply sqrt_pos|]. assert (E : g x * g x = d / 2 + (1 - d / 2) * (x * x)) by (unfold g; rewrite sqrt_sqrt; [unfold d; field|]; assert (0 <= (1 - c) * (x * x)) by (apply Rmult_le_pos; lra); lra). split; [exact E|]. rewrite E. clear - D Hx. set (w := x * x) in *. clearbody w d. assert (0 <= d * w <= d) by (split; nra). assert (d * (1 - w) <= 1 * (1 - w)) by (apply Rmult_le_compat_r; lra). repeat split; lra. }
  destruct (GS k0 ltac:(lra)) as (G0 & _ & GA0 & GB0). destruct (GS k1 ltac:(lra)) as (G1 & _ & GA1 & GB1). destruct (GS k2 ltac:(lra)) as (G2 & _ & GA2 & GB2).
  assert (PR : forall x y, 0 <= x * x <= 1 -> 0 <= y * y <= 1 -> - (1/100000) <= g x * g y - Rabs (x * y) <= 1/100000).
  { intros x y Hx Hy. destruct (GS x Hx) as (X0 & _ & XA & XB). destruct (GS y Hy) as (Y0 & _ & YA & YB). apply sq_near with (d := d); [apply Rmult_le_pos; assumption|apply Rabs_pos|lra|lra|]. replace (Rabs (x * y) * Rabs (x * y)) with (x * x * (y * y)) by (rewrite <- Rabs_mult, (Rabs_pos_eq (x * y * (x * y))) by (replace (x * y * (x * y)) with (x * x * (y * y)) by ring; apply Rmult_le_pos; lra); ring).
    replace (g x * g y * (g x * g y)) with (g x * g x * (g y * g y)) by ring. clear - Hx Hy XA XB YA YB D. set (a := g x * g x) in *. set (b := g y * g y) in *. set (u := x * x) in *. set (v := y * y) in *. clearbody a b u v. replace (a * b - u * v) with ((a - u) * b + u * (b - v)) by ring. assert (0 <= (a - u) * b <= d / 2 * 1) by (split; [apply Rmult_le_pos; lra|apply Rmult_le_compat; lra]). assert (0 <= u * (b - v) <= 1 * (d / 2)) by (split; [apply Rmult_le_pos; lra|apply Rmult_le_compat; lra]). lra. }
  assert (SG : forall p w, -1 <= w <= 1 -> ((1 - c) * p + s * w < 0 -> p <= 6/1000000) /\ (0 <= (1 - c) * p + s * w -> - (6/1000000) <= p)). { intros p w Hw. pose proof (mul_s s w ltac:(lra) Hw). assert (HC : 199/100 <= 1 - c <= 2) by (unfold d in D; lra). clear - H HC. set (u := 1 - c) in *. clearbody u. split; intros; nra. }
  pose proof (signs (g k0) (g k1) (g k2) (k0 * k1) (k0 * k2) (k1 * k2) ((1 - c) * (k1 * k0) - s * k2) ((1 - c) * (k2 * k0) + s * k1) ((1 - c) * (k2 * k1) - s * k0) (k0 * k0)) as SI.
  assert (UB : forall x, 0 <= x -> x * x <= 1 -> 0 <= x <= 1001/1000) by (intros x A B; pose proof (unit_b x B); lra).
  specialize (SI (UB _ G0 GB0) (UB _ G1 GB1) (UB _ G2 GB2) S0 ltac:(ring) (PR k0 k1 ltac:(lra) ltac:(lra)) (PR k0 k2 ltac:(lra) ltac:(lra)) (PR k1 k2 ltac:(lra) ltac:(lra))).
  destruct (SG (k0 * k1) (- k2) ltac:(lra)) as [I1 I2]. destruct (SG (k0 * k2) k1 ltac:(lra)) as [I3 I4]. destruct (SG (k1 * k2) (- k0) ltac:(lra)) as [I5 I6].
  specialize (SI ltac:(intros; apply I1; lra) ltac:(intros; apply I2; lra) ltac:(intros; apply I3; lra) ltac:(intros; apply I4; lra) ltac:(intros; apply I6; lra)).
  assert (N12 : (1 - c) * (k2 * k1) - s * k0 <= 0 -> k1 * k2 <= 6/1000000). { intros Q. destruct (SG (- (k1 * k2)) k0 ltac:(lra)) as [_ J]. assert (- (6/1000000) <= - (k1 * k2)) by (apply J; lra). lra. }
  specialize (SI N12). cbv zeta in SI.
  assert (HA : half_axis m = mk3 (g k0) (c1 (half_axis m)) (c2 (half_axis m))) by (rewrite EM; reflexivity).
  assert (SI' : - (95/10000) <= g k0 * c1 (half_axis m) - k0 * k1 <= 95/10000 /\ - (95/10000) <= g k0 * c2 (half_axis m) - k0 * k2 <= 95/10000 /\ - (95/10000) <= c1 (half_axis m) * c2 (half_axis m) - k1 * k2 <= 95/10000) by (rewrite EM; exact SI). clear SI.
  assert (SQ1 : c1 (half_axis m) * c1 (half_axis m) = g k1 * g k1). { rewrite EM. unfold half_axis. cbn [c0 c1 c2]. destruct (Rlt_bool _ _); unfold g, axis_rot; cbn [c0 c1 c2]; fold c; ring. }
  assert (SQ2 : c2 (half_axis m) * c2 (half_axis m) = g k2 * g k2). { rewrite EM. unfold half_axis. cbn [c0 c1 c2]. match goal with |- context [if ?b then _ else _] => destruct b end; match goal with |- context [if ?b then _ else _] => destruct b end; unfold g, axis_rot; cbn [c0 c1 c2]; fold c; ring. }
  rewrite HA. set (x := g k0) in *. set (y := c1 (half_axis m)) in *. set (z := c2 (half_axis m)) in *. clearbody x y z n. clear HA GS PR SG I1 I2 I3 I4 I5 I6 N12 BK UB TR M.
  destruct SI' as (E01 & E02 & E12). set (i := / n). assert (IN : i * i * (1 + d) = 1) by (rewrite <- HN; unfold i; field; lra). assert (PI1 : 0 < i) by (apply Rinv_0_lt_compat; lra). assert (IB : 1 - d <= i * i <= 1) by (apply inv_b; [lra|apply Rmult_le_pos; lra|exact IN]).
  assert (Y1 : y * y <= 1) by lra. assert (Z1 : z * z <= 1) by lra. assert (I1 : i <= 1) by (apply root_b; lra). assert (CO : forall u, u * u <= 1 -> -1 <= i * u <= 1) by (intros u Hu; apply mul_i; [lra|now apply unit_b]).
  pose proof (CO x GB0) as X'. pose proof (CO y Y1) as Y'. pose proof (CO z Z1) as Z'. assert (SW : forall u v, -1 <= u <= 1 -> -1 <= v <= 1 -> - (2/100000) <= s * u - s * v <= 2/100000) by (intros u v Hu Hv; pose proof (mul_s s u ltac:(lra) Hu); pose proof (mul_s s v ltac:(lra) Hv); lra).
  assert (OFF : forall u v p, u * u <= 1 -> v * v <= 1 -> - (95/10000) <= u * v - p <= 95/10000 -> - (1901/100000) <= (1 - c) * p - (1 - c) * (i * u * (i * v)) <= 1901/100000).
  { intros u v p Hu Hv Q. replace (i * u * (i * v)) with (i * i * (u * v)) by ring. assert (UV : -1 <= u * v <= 1) by (apply mul_uv; now apply unit_b). set (w := i * i) in *. set (q := u * v) in *. pose proof (mul_wq w q d IB UV). assert (R : - (9501/1000000) <= p - w * q <= 9501/1000000) by lra. assert (HC : 1 <= 1 - c <= 2) by lra. replace ((1 - c) * p - (1 - c) * (w * q)) with ((1 - c) * (p - w * q)) by ring. clear - R HC. set (r := p - w * q) in *. set (b := 1 - c) in *. clearbody r b. split; nra. }
  pose proof (OFF x y _ GB0 Y1 E01) as O01. pose proof (OFF x z _ GB0 Z1 E02) as O02. pose proof (OFF y z _ Y1 Z1 E12) as O12. pose proof (OFF x x (k0 * k0) GB0 GB0 ltac:(lra)) as O00. pose proof (OFF y y (k1 * k1) Y1 Y1 ltac:(lra)) as O11. pose proof (OFF z z (k2 * k2) Z1 Z1 ltac:(lra)) as O22.
  pose proof (SW _ _ B0 X') as W0. pose proof (SW _ _ B1 Y') as W1. pose proof (SW _ _ B2 Z') as W2. clear - O01 O02 O12 O00 O11 O22 W0 W1 W2 EM.
  assert (FIN : forall r, coord r m = coord r m) by reflexivity. rewrite EM. intros r q. apply (coord_cases (fun a b => Rabs (a - b) <= 1/50)). unfold coord. destruct r as [|[r|r|]|r]; unfold axis_rot, rscale; cbn [c0 c1 c2]; fold c s i; repeat split; apply abs2; lra.
Qed.
