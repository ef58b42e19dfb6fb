(** * Packaged statements about units.py and rounding.py. *)
From Coq Require Import Reals ZArith List String Bool Lra Lia.
From Flocq Require Import Core.Raux Core.Generic_fmt Core.Round_NE.
From Verif Require Import Num XLemmas MRounding MUnits SpecUnits PUnits.
Import ListNotations.
Local Open Scope string_scope.
Local Open Scope R_scope.
Set Implicit Arguments.
Unset Strict Implicit.

Lemma convert_same_quantity a b k ma mb x :
  unit_size a = Some (k, ma) -> unit_size b = Some (k, mb) ->
  exists y, convert (Some (Fin x)) (Some a) (Some b) None = Ok (Some (Fin y), Some b) /\
            y * mb = x * ma.
Proof.
  intros Ha Hb. pose proof (unit_size_pos Hb). eexists. split; [apply (convert_quantity x Ha Hb)|]. field. lra.
Qed.

Lemma convert_round_trip a b k x : unit_of_kind a k -> unit_of_kind b k ->
  exists y, convert (Some (Fin x)) (Some a) (Some b) None = Ok (Some (Fin y), Some b) /\
            convert (Some (Fin y)) (Some b) (Some a) None = Ok (Some (Fin x), Some a).
Proof.
  intros [ma Ha] [mb Hb]. pose proof (unit_size_pos Ha). pose proof (unit_size_pos Hb).
  eexists. split; [apply (convert_quantity x Ha Hb)|].
  rewrite (convert_quantity _ Hb Ha). do 4 f_equal. field. lra.
Qed.

Lemma convert_chain a b c k x : unit_of_kind a k -> unit_of_kind b k -> unit_of_kind c k ->
  exists y z, convert (Some (Fin x)) (Some a) (Some b) None = Ok (Some (Fin y), Some b) /\
            convert (Some (Fin y)) (Some b) (Some c) None = Ok (Some (Fin z), Some c) /\
            convert (Some (Fin x)) (Some a) (Some c) None = Ok (Some (Fin z), Some c).
Proof.
  intros [ma Ha] [mb Hb] [mc Hc]. pose proof (unit_size_pos Ha). pose proof (unit_size_pos Hb). pose proof (unit_size_pos Hc).
  do 2 eexists. split; [apply (convert_quantity x Ha Hb)|]. split; [apply (convert_quantity _ Hb Hc)|].
  rewrite (convert_quantity _ Ha Hc). do 4 f_equal. field. lra.
Qed.

Lemma convert_order a b k x x' : unit_of_kind a k -> unit_of_kind b k ->
  exists y y', convert (Some (Fin x)) (Some a) (Some b) None = Ok (Some (Fin y), Some b) /\
               convert (Some (Fin x')) (Some a) (Some b) None = Ok (Some (Fin y'), Some b) /\
               (x < x' <-> y < y') /\ (x = 0 <-> y = 0).
Proof.
  intros [ma Ha] [mb Hb]. pose proof (unit_size_pos Ha). pose proof (unit_size_pos Hb).
  do 2 eexists. split; [apply (convert_quantity x Ha Hb)|]. split; [apply (convert_quantity x' Ha Hb)|].
  assert (0 < ma / mb) by (apply Rdiv_lt_0_compat; lra).
  split; split; intros.
  - now apply Rmult_lt_compat_r.
  - eapply Rmult_lt_reg_r; eauto.
  - subst; ring.
  - apply Rmult_integral in H2. destruct H2; lra.
Qed.

Lemma convert_list_spec a b k ma mb xs :
  unit_size a = Some (k, ma) -> unit_size b = Some (k, mb) ->
  exists ys, convert_list (map Fin xs) (Some a) (Some b) = Ok (map Fin ys) /\
             Forall2 (fun x y => y * mb = x * ma) xs ys.
Proof.
  intros Ha Hb. pose proof (unit_size_pos Hb). eexists. split; [apply (convert_list_quantity xs Ha Hb)|].
  induction xs; cbn; constructor; auto. field. lra.
Qed.

Lemma system_default_same x u k m s : unit_size u = Some (k, m) ->
  exists y m', convert_to_system_default (Some (Fin x)) (Some u) (system_name s)
                 = Ok (Some (Fin y), Some (display_unit s k)) /\
               unit_size (display_unit s k) = Some (k, m') /\ y * m' = x * m.
Proof.
  intros Hu. destruct (display_unit_kind s k) as [m' Hm']. pose proof (unit_size_pos Hm').
  do 2 eexists. split; [apply (system_default_quantity x Hu Hm')|]. split; [exact Hm'|]. field. lra.
Qed.

Lemma round_to_spec x n : n <> 0 ->
  exists k, round_to (Fin x) (Fin n) = Ok (Fin (IZR k * n)) /\
    (forall j, Rabs (x - IZR k * n) <= Rabs (x - IZR j * n)) /\
    (forall j, j <> k -> Rabs (x - IZR j * n) = Rabs (x - IZR k * n) -> Z.Even k).
Proof.
  intros Hn. eexists. split; [apply (round_to_value x Hn)|]. split.
  - intros j. now apply nearest_mult.
  - intros j Hj E. apply Z.even_spec. now apply nearest_tie with j.
Qed.

Lemma round_to_mono x x' n y y' : 0 < n -> x <= x' ->
  round_to (Fin x) (Fin n) = Ok (Fin y) -> round_to (Fin x') (Fin n) = Ok (Fin y') -> y <= y'.
Proof.
  intros Hn Hx. rewrite !round_to_value by lra. intros [= <-] [= <-]. now apply round_mono.
Qed.

Lemma round_to_idem x n y : n <> 0 -> round_to (Fin x) (Fin n) = Ok (Fin y) ->
  round_to (Fin y) (Fin n) = Ok (Fin y).
Proof.
  intros Hn. rewrite !round_to_value by auto. intros [= <-]. do 2 f_equal. now apply round_idem.
Qed.

Lemma round_to_zero x : round_to (Fin x) (Fin 0) = Err ZeroDivisionError.
Proof. unfold round_to, n1. rewrite xofZ, xpydiv0. reflexivity. Qed.

Lemma pow10_pos p : 0 < 10 ^ p.
Proof. apply pow_lt. lra. Qed.
Lemma IZR_pow10 p : IZR (10 ^ Z.of_nat p) = 10 ^ p.
Proof. symmetry. apply pow_IZR. Qed.

Lemma rounded_list_spec xs p :
  exists ys, rounded_list (map (option_map Fin) xs) p = Ok (map (option_map Fin) ys) /\
    Forall2 (fun x y => match x, y with
      | None, None => True
      | Some x, Some y => exists k, y = IZR k / 10 ^ p /\ forall j, Rabs (x - y) <= Rabs (x - IZR j / 10 ^ p)
      | _, _ => False end) xs ys.
Proof.
  induction xs as [|x xs [ys [E H]]]; cbn [map].
  - exists []. split; constructor.
  - unfold rounded_list in *. cbn [traverse]. rewrite E.
    pose proof (pow10_pos p).
    destruct x as [x|]; cbn [option_map].
    + unfold round_places. rewrite xofZ, IZR_pow10, xmul. unfold py_round. rewrite xround. cbn [bindr].
      rewrite xofZ, xdivE by lra. cbn [bindr mapr].
      exists (Some (IZR (ZnearestE (x * 10 ^ p)) / 10 ^ p) :: ys). split; [reflexivity|].
      constructor; auto. eexists. split; [reflexivity|]. intros j.
      pose proof (@nearest_mult x (/ 10 ^ p) j) as Hn.
      replace (x / / 10 ^ p) with (x * 10 ^ p) in Hn by (field; lra).
      apply Hn. apply Rinv_neq_0_compat. lra.
    + cbn [bindr]. exists (None :: ys). split; [reflexivity|]. constructor; auto.
Qed.

Lemma prettify_spec x u k m precision : unit_size u = Some (k, m) ->
  exists xm xu mm mu,
    prettify (Some (Fin x)) (Some u) precision =
      Ok ((Fin xm, Some (display_unit Metric k)), (Fin xu, Some (display_unit UnitedStates k))) /\
    unit_size (display_unit Metric k) = Some (k, mm) /\
    unit_size (display_unit UnitedStates k) = Some (k, mu) /\
    let sm := step_of (display_unit Metric k) precision in
    let su := step_of (display_unit UnitedStates k) precision in
    (exists j, xm = IZR j * sm) /\ Rabs (x * m / mm - xm) <= sm / 2 /\
    (exists j, xu = IZR j * su) /\ Rabs (x * m / mu - xu) <= su / 2.
Proof.
  intros Hu. destruct (display_unit_kind Metric k) as [mm Hm]. destruct (display_unit_kind UnitedStates k) as [mu Hus].
  do 4 eexists. split; [apply (prettify_value x precision Hu Hm Hus)|]. split; [exact Hm|]. split; [exact Hus|].
  intros sm su. fold sm su.
  pose proof (step_of_pos (display_unit Metric k) precision) as P1. fold sm in P1.
  pose proof (step_of_pos (display_unit UnitedStates k) precision) as P2. fold su in P2.
  split; [eauto|]. split; [|split; [eauto|]].
  - replace (x * m / mm) with (x * (m / mm)) by (unfold Rdiv; ring).
    pose proof (@nearest_half (x * (m/mm)) sm). rewrite (Rabs_pos_eq sm) in H by lra. apply H. lra.
  - replace (x * m / mu) with (x * (m / mu)) by (unfold Rdiv; ring).
    pose proof (@nearest_half (x * (m/mu)) su). rewrite (Rabs_pos_eq su) in H by lra. apply H. lra.
Qed.
