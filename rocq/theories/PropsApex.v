(** * Properties C71 and C77: inflection_points. *)
From Coq Require Import Reals ZArith List Bool Lra Lia.
From Verif Require Import Num XLemmas Vec RVec VLemmas NpList MApex SpecApex PApex.
Import ListNotations.
Local Open Scope R_scope.

(** ** C71.  With [u], [y] the coordinates along span and axis: [dx] is the derivative of
    [u] by position; provided neighbouring entries of [dx] differ, the returned points are,
    in order, the input points at which the second derivative of [y] over the coordinates
    [dx] and its successor have no common sign. *)
Theorem C71_inflection_points : forall ps axis span, (2 <= length ps)%nat ->
  let u := map (fun p => rdot p span) ps in let y := map (fun p => rdot p axis) ps in
  exists dx, derivative (positions (length ps)) u dx /\
    (spread dx -> exists g1 g2, derivative dx y g1 /\ derivative dx g1 g2 /\
       inflection_points (map fin3 ps) (fin3 axis) (fin3 span) =
         Ok (map fin3 (map (fun i => nth i ps rzero) (filter (sign_change g2) (seq 0 (length ps - 1)))))).
Proof.
  intros ps axis span L u y. assert (Lu : length u = length ps) by apply map_length. assert (Ly : length y = length ps) by apply map_length.
  set (dx := ends (positions (length ps)) u (rmid (positions (length ps)) u)). exists dx.
  assert (D : derivative (positions (length ps)) u dx) by (apply ends_derivative; [rewrite positions_length|lia|apply positions_spread]; auto).
  split; [exact D|]. intros S. assert (Ld : length dx = length ps) by (rewrite <- Lu; exact (proj1 D)).
  set (g1 := ends dx y (rmid dx y)). assert (D1 : derivative dx y g1) by (apply ends_derivative; [congruence|lia|auto]).
  assert (L1 : length g1 = length ps) by (rewrite <- Ly; exact (proj1 D1)).
  set (g2 := ends dx g1 (rmid dx g1)). assert (D2 : derivative dx g1 g2) by (apply ends_derivative; [congruence|lia|auto]).
  assert (L2 : length g2 = length ps) by (rewrite <- L1; exact (proj1 D2)).
  exists g1, g2. split; [exact D1|]. split; [exact D2|]. unfold inflection_points.
  assert (F : forall w, map (fun p => vdot p (fin3 w)) (map fin3 ps) = map Fin (map (fun p => rdot p w) ps)) by (intros w; rewrite !map_map; apply map_ext; intros p; apply fdot).
  rewrite !F. fold u y. rewrite gradient_unit_ok by lia. rewrite Lu. fold dx. cbn [bindr]. rewrite gradient_ok by (auto; lia). fold g1. cbn [bindr]. rewrite gradient_ok by (auto; lia). fold g2. cbn [bindr].
  rewrite flat_mask, L2. change (plus 0) with (fun n : nat => n). rewrite map_id.
  rewrite (@take_ok _ _ (fin3 rzero)).
  - rewrite map_map. f_equal. apply map_ext. intros i. apply map_nth.
  - intros i I. apply filter_In in I. destruct I as [I _]. apply in_seq in I. rewrite map_length. lia.
Qed.
Print Assumptions C71_inflection_points.
(** fewer than two points are refused *)
Theorem C71_too_few : forall (ps : list (V3 xr)) axis span, (length ps < 2)%nat -> inflection_points ps axis span = Err ValueError.
Proof. intros ps axis span L. unfold inflection_points. rewrite gradient_short by now rewrite map_length. reflexivity. Qed.
Print Assumptions C71_too_few.
(** the description determines the derivative *)
Theorem C71_derivative_unique : forall x f g g', length x = length f -> (2 <= length f)%nat -> spread x -> derivative x f g -> derivative x f g' -> g = g'.
Proof.
  intros x f g g' L L2 S (A1 & A2 & A3 & A4) (B1 & B2 & B3 & B4). apply nth_ext with (d := 0) (d' := 0); [congruence|]. intros i I. rewrite A1 in I. fold (at_ g i) (at_ g' i).
  assert (U : forall a b s s', line_slope x f a b s -> line_slope x f a b s' -> at_ x a <> at_ x b -> s = s').
  { intros a b s s' H1 H2 N. unfold line_slope in *. apply Rmult_eq_reg_r with (at_ x b - at_ x a); lra. }
  destruct (Nat.eq_dec i 0) as [->|I0]; [apply (U _ _ _ _ A2 B2), (S 0%nat); lia|].
  destruct (Nat.eq_dec (i + 1) (length f)) as [E|E].
  - replace i with (length f - 1)%nat by lia. apply (U _ _ _ _ A3 B3). pose proof (proj1 (S (length f - 2)%nat)) as H. replace (length f - 2 + 1)%nat with (length f - 1)%nat in H by lia. apply H. lia.
  - destruct (A4 i ltac:(lia) ltac:(lia)) as (a & b & c & H & ->). destruct (B4 i ltac:(lia) ltac:(lia)) as (a' & b' & c' & H' & ->).
    assert (P0 : at_ x (i - 1) <> at_ x i). { pose proof (proj1 (S (i - 1)%nat)) as Q. replace (i - 1 + 1)%nat with i in Q by lia. apply Q. lia. }
    assert (P1 : at_ x i <> at_ x (i + 1)) by (apply (S i); lia).
    assert (P2 : at_ x (i - 1) <> at_ x (i + 1)). { pose proof (proj2 (S (i - 1)%nat)) as Q. replace (i - 1 + 2)%nat with (i + 1)%nat in Q by lia. apply Q. lia. }
    pose proof (H (i - 1)%nat ltac:(cbn; auto)) as Q0. pose proof (H i ltac:(cbn; auto)) as Q1. pose proof (H (i + 1)%nat ltac:(cbn; auto)) as Q2.
    rewrite (H' (i - 1)%nat ltac:(cbn; auto)) in Q0. rewrite (H' i ltac:(cbn; auto)) in Q1. rewrite (H' (i + 1)%nat ltac:(cbn; auto)) in Q2.
    set (x0 := at_ x (i - 1)) in *. set (x1 := at_ x i) in *. set (x2 := at_ x (i + 1)) in *.
    assert (R1 : (b' - b) + (c' - c) * (x0 + x1) = 0). { apply Rmult_eq_reg_r with (x1 - x0); [|lra]. lra. }
    assert (R2 : (b' - b) + (c' - c) * (x1 + x2) = 0). { apply Rmult_eq_reg_r with (x2 - x1); [|lra]. lra. }
    assert (R3 : c' - c = 0). { apply Rmult_eq_reg_r with (x2 - x0); [|lra]. lra. }
    assert (R4 : c' = c) by lra. subst c'. assert (b' = b) by lra. subst b'. reflexivity.
Qed.
Print Assumptions C71_derivative_unique.

(** ** C77.  REFUTED: [dx] enters as coordinates, not as spacing, so the second derivative
    is not that of the curve.  Four points of the parabola y = x x: strictly convex, and yet
    the first point is reported as an inflection. *)
Definition convex_graph (ps : list (V3 R)) (axis span : V3 R) : Prop :=
  forall i j k, (i < j < k)%nat -> (k < length ps)%nat ->
    let at1 n := rdot (nth n ps rzero) span in let at2 n := rdot (nth n ps rzero) axis in
    at1 i < at1 j < at1 k /\
    (at2 j - at2 i) * (at1 k - at1 j) < (at2 k - at2 j) * (at1 j - at1 i).
Lemma slope_eq x f i j s k : line_slope x f i j s -> at_ x j - at_ x i <> 0 -> k * (at_ x j - at_ x i) = at_ f j - at_ f i -> s = k.
Proof. unfold line_slope. intros H N E. apply Rmult_eq_reg_r with (at_ x j - at_ x i); lra. Qed.
Ltac list_field := repeat (apply f_equal2; [field|]); reflexivity.
Theorem C77_refuted : exists ps axis span, convex_graph ps axis span /\
  inflection_points (map fin3 ps) (fin3 axis) (fin3 span) = Ok (map fin3 [hd rzero ps]).
Proof.
  set (ps := [mk3 0 0 0; mk3 1 1 0; mk3 5 25 0; mk3 8 64 0]). exists ps, (mk3 0 1 0), (mk3 1 0 0). split.
  - intros i j k I K. cbv zeta. unfold ps in *. cbn [length] in K. assert (C : (i = 0 /\ j = 1 /\ k = 2 \/ i = 0 /\ j = 1 /\ k = 3 \/ i = 0 /\ j = 2 /\ k = 3 \/ i = 1 /\ j = 2 /\ k = 3)%nat) by lia.
    destruct C as [(->&->&->)|[(->&->&->)|[(->&->&->)|(->&->&->)]]]; unfold rdot; cbn [nth c0 c1 c2]; lra.
  - unfold inflection_points.
    assert (F : forall w, map (fun p => vdot p (fin3 w)) (map fin3 ps) = map Fin (map (fun p => rdot p w) ps)) by (intros w; rewrite !map_map; apply map_ext; intros p; apply fdot).
    rewrite !F. set (u := map _ ps). set (y := map (fun p => rdot p (mk3 0 1 0)) ps).
    assert (Eu : u = [0; 1; 5; 8]) by (unfold u, ps, rdot; cbn [map c0 c1 c2]; repeat f_equal; lra). assert (Ey : y = [0; 1; 25; 64]) by (unfold y, ps, rdot; cbn [map c0 c1 c2]; repeat f_equal; lra).
    assert (S : spread [1; 5/2; 7/2; 3]).
    { intros i. cbn [length]. split; intros H; (assert (C : (i = 0 \/ i = 1 \/ i = 2)%nat) by lia); destruct C as [->|[->| ->]]; unfold at_; cbn [plus nth]; try lra; lia. }
    assert (E0 : ends (positions 4) [0; 1; 5; 8] (rmid (positions 4) [0; 1; 5; 8]) = [1; 5/2; 7/2; 3]).
    { unfold ends, rmid, positions, at_, mid. cbn [length seq map nth app Nat.sub INR]. list_field. }
    assert (E1 : ends [1; 5/2; 7/2; 3] [0; 1; 25; 64] (rmid [1; 5/2; 7/2; 3] [0; 1; 25; 64]) = [2/3; 44/3; -180; -78]).
    { unfold ends, rmid, at_, mid. cbn [length nth app Nat.sub]. list_field. }
    assert (E2 : ends [1; 5/2; 7/2; 3] [2/3; 44/3; -180; -78] (rmid [1; 5/2; 7/2; 3] [2/3; 44/3; -180; -78]) = [28/3; -1696/15; -640/3; -204]).
    { unfold ends, rmid, at_, mid. cbn [length nth app Nat.sub]. list_field. }
    rewrite Eu, Ey. rewrite gradient_unit_ok by (cbn; lia). cbn [length]. rewrite E0. cbn [bindr]. rewrite gradient_ok by (auto; cbn; lia). rewrite E1. cbn [bindr]. rewrite gradient_ok by (auto; cbn; lia). rewrite E2. cbn [bindr].
    rewrite flat_mask. change (plus 0) with (fun n : nat => n). rewrite map_id. cbn [length Nat.sub seq filter]. unfold sign_change, at_. cbn [plus nth].
    destruct (Rle_dec (28/3 * (-1696/15)) 0); [|lra]. destruct (Rle_dec (-1696/15 * (-640/3)) 0); [lra|]. destruct (Rle_dec (-640/3 * -204) 0); [lra|]. reflexivity.
Qed.
Print Assumptions C77_refuted.
(** the four points of C77 meet the hypothesis of C71 *)
Example C71_example : derivative (positions 4) [0; 1; 5; 8] [1; 5/2; 7/2; 3] /\ spread [1; 5/2; 7/2; 3].
Proof.
  split.
  - replace [1; 5/2; 7/2; 3] with (ends (positions 4) [0; 1; 5; 8] (rmid (positions 4) [0; 1; 5; 8])).
    + apply ends_derivative; [reflexivity|cbn; lia|apply positions_spread].
    + unfold ends, rmid, positions, at_, mid. cbn [length seq map nth app Nat.sub INR]. list_field.
  - intros i. cbn [length]. split; intros H; (assert (C : (i = 0 \/ i = 1 \/ i = 2)%nat) by lia); destruct C as [->|[->| ->]]; unfold at_; cbn [plus nth]; try lra; lia.
Qed.
