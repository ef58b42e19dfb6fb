(** * conjGradSolve with one unknown (C87). *)
From Coq Require Import Reals ZArith List Bool Lra Lia Psatz.
From Verif Require Import Num XLemmas Vec NpList SpecGeom MLinalg SpecLinalg PLinalg MCg.
Import ListNotations.
Local Open Scope R_scope.
Set Implicit Arguments.
Unset Strict Implicit.

(** a (1, 1) array holding [x] *)
Definition single (m : mat xr) (x : xr) : Prop := m_rows m = 1%nat /\ m_cols m = 1%nat /\ m_at m 0%nat 0%nat = x.
Notation one a := (mk_sbsm (rmat 1 1 (fun _ _ => a)) [] []).
Lemma matvec2_one a m x : single m x -> exists w, matvec2 (one a) m = Ok w /\ single w (nmul (Fin a) x).
Proof.
  destruct m as [r c f]. intros (R1 & C1 & E). cbn in R1, C1, E. subst r c. unfold matvec2. cbn -[Rmult Rplus].
  eexists. split; [reflexivity|]. split; [reflexivity|]. split; [reflexivity|]. cbn -[Rmult Rplus]. rewrite E. destruct x; cbn; [|reflexivity]. f_equal. ring.
Qed.
Lemma zip_one f m k x y : single m x -> single k y -> exists w, mat_zip f m k = Ok w /\ single w (f x y).
Proof.
  intros (R1 & C1 & E1) (R2 & C2 & E2). unfold mat_zip. rewrite R1, C1, R2, C2. cbn. eexists. split; [reflexivity|]. repeat split. cbn. now rewrite E1, E2.
Qed.
Lemma dot_one m k x y : single m x -> single k y -> exists w, mat_dot m k = Ok w /\ single w (nmul x y).
Proof.
  intros (R1 & C1 & E1) (R2 & C2 & E2). unfold mat_dot. rewrite R1, C1, R2, C2. cbn. eexists. split; [reflexivity|]. repeat split. cbn. rewrite E1, E2.
  unfold sum_to, nsum. cbn. destruct x, y; cbn; try reflexivity. f_equal. ring.
Qed.
Ltac one_step := match goal with
  | |- context [matvec2 (one ?a) ?m] => let w := fresh "w" in let E := fresh in let S := fresh "S" in
      edestruct (@matvec2_one a m) as (w & E & S); [eassumption|rewrite E; cbn [bindr]]
  | |- context [mat_zip ?f ?m ?k] => let w := fresh "w" in let E := fresh in let S := fresh "S" in
      edestruct (@zip_one f m k) as (w & E & S); [eassumption|eassumption|rewrite E; cbn [bindr]]
  | |- context [mat_dot ?m ?k] => let w := fresh "w" in let E := fresh in let S := fresh "S" in
      edestruct (@dot_one m k) as (w & E & S); [eassumption|eassumption|rewrite E; cbn [bindr]]
  end.
Lemma truth_one w x : single w x -> arr_truth (A2 w) = Ok (negb (neqb x n0)).
Proof. destruct w as [r c f]. intros (R1 & C1 & E). cbn in R1, C1, E. subst. reflexivity. Qed.
Lemma small_one w x (tol : xr) : single w x ->
  arr_truth (A2 (mkmat (m_rows w) (m_cols w) (fun i j => if nlt (nsqrt (m_at w i j)) tol then nofZ 1 else n0))) = Ok (nlt (nsqrt x) tol).
Proof.
  destruct w as [r c f]. intros (R1 & C1 & E). cbn in R1, C1, E. subst. unfold arr_truth, arr_entries. cbn [m_rows m_cols m_at seq flat_map map app].
  destruct (nlt _ _); cbn; rewrite ?Raux.Req_bool_true, ?Raux.Req_bool_false by lra; reflexivity.
Qed.

Lemma cg_step_one a b tol x r d vb vx vr vd : single b vb -> single x vx -> single r vr -> single d vd ->
  let x' := nadd vx (nmul (ndiv (nmul vd vr) (nmul vd (nmul (Fin a) vd))) vd) in
  let r' := nsub vb (nmul (Fin a) x') in
  let d' := nadd r' (nmul (ndiv (nopp (nmul r' (nmul (Fin a) vd))) (nmul vd (nmul (Fin a) vd))) vd) in
  exists mx mr md, cg_step (one a) b tol x r d = Ok (mx, mr, md, nlt (nsqrt (nmul r' r')) tol) /\ single mx x' /\ single mr r' /\
    (nlt (nsqrt (nmul r' r')) tol = false -> single md d').
Proof.
  intros B X R D x' r' d'. unfold cg_step. do 9 one_step. rewrite (small_one tol S7). cbn [bindr]. fold x' in S5, S6, S7 |- *. fold r' in S6, S7 |- *.
  destruct (nlt _ _).
  - do 3 eexists. split; [reflexivity|]. split; [exact S4|]. split; [exact S6|]. discriminate.
  - do 4 one_step. do 3 eexists. split; [reflexivity|]. split; [exact S4|]. split; [exact S6|]. intros _. eassumption.
Qed.
(** the right-hand side: one number, as a (1, 1) column or in a 1-d array *)
Definition right_side (v : arr xr) (b : R) : Prop := v = A2 (rmat 1 1 (fun _ _ => b)) \/ v = A1 [Fin b].
Lemma right_side_mat v b : right_side v b -> match v with A1 l => length l | A2 m => m_rows m end = 1%nat /\
  single (match v with A1 l => as_column l | A2 m => m end) (Fin b).
Proof. intros [-> | ->]; repeat split. Qed.
Lemma solve_one v a b tol g : right_side v b -> g <> 0 ->
  let r := b - a * g in
  let x' := nadd (Fin g) (nmul (ndiv (Fin (r * r)) (Fin (r * (a * r)))) (Fin r)) in
  exists m, conjGradSolve (one a) v (Some (A2 (rmat 1 1 (fun _ _ => g)))) tol None = Ok (m, Some 0%nat) /\ single m x'.
Proof.
  intros HV G r x'. destruct (right_side_mat HV) as [LB SB]. unfold conjGradSolve, first_guess.
  assert (SG : single (rmat 1 1 (fun _ _ => g)) (Fin g)) by repeat split.
  rewrite (truth_one SG). cbn [bindr]. unfold n0. rewrite xofZ. xs. rewrite Raux.Req_bool_false by auto. cbn [negb bindr].
  do 2 one_step. rewrite ?LB. cbn [cg_loop].
  destruct (@cg_step_one a _ tol _ _ _ _ _ _ _ SB SG S0 S0) as (mx & mr & md & E & M & _). rewrite E. cbn [bindr]. exists mx. split; [destruct (nlt _ _); reflexivity|]. exact M.
Qed.

(** once NaN, always NaN *)
Lemma loop_nan a b tol vb todo : single b vb -> forall x r d i last vr vd, single x NaN -> single r vr -> single d vd ->
  exists m, cg_loop (one a) b tol x r d i todo last = Ok (m, match todo with O => last | S k => Some (i + k)%nat end) /\ single m NaN.
Proof.
  intros SB. induction todo as [|todo IH]; intros x r d i last vr vd SX SR SD; cbn [cg_loop]; [eauto|].
  destruct (@cg_step_one a _ tol _ _ _ _ _ _ _ SB SX SR SD) as (mx & mr & md & E & M & M2 & M3). rewrite E. cbn [bindr].
  assert (Z : nlt (nsqrt (nmul (nsub vb (nmul (Fin a) (nadd NaN (nmul (ndiv (nmul vd vr) (nmul vd (nmul (Fin a) vd))) vd))))
     (nsub vb (nmul (Fin a) (nadd NaN (nmul (ndiv (nmul vd vr) (nmul vd (nmul (Fin a) vd))) vd)))))) tol = false) by (destruct vb; reflexivity).
  rewrite Z in *. specialize (M3 eq_refl). destruct (IH mx mr md (S i) (Some i) _ _ M M2 M3) as (m & Em & Sm). exists m. split; [|exact Sm]. rewrite Em.
  destruct todo; do 3 f_equal; lia.
Qed.
Lemma solve_passes v a b tol g k : right_side v b -> a <> 0 -> g <> 0 -> a * g <> b ->
  exists m, conjGradSolve (one a) v (Some (A2 (rmat 1 1 (fun _ _ => g)))) (Fin tol) (Some (S k)) =
    Ok (m, Some (if Raux.Rlt_bool 0 tol then 0%nat else k)) /\ single m (if Raux.Rlt_bool 0 tol then Fin (b / a) else match k with O => Fin (b / a) | S _ => NaN end).
Proof.
  intros HV A G NE. destruct (right_side_mat HV) as [LB SB]. assert (D : b - a * g <> 0) by lra. unfold conjGradSolve, first_guess.
  assert (SG : single (rmat 1 1 (fun _ _ => g)) (Fin g)) by repeat split.
  rewrite (truth_one SG). cbn [bindr]. unfold n0. rewrite xofZ. xs. rewrite Raux.Req_bool_false by auto. cbn [negb bindr].
  do 2 one_step. rewrite ?LB. cbn [cg_loop].
  destruct (@cg_step_one a _ (Fin tol) _ _ _ _ _ _ _ SB SG S0 S0) as (mx & mr & md & E & M1 & M2 & M3). rewrite E. cbn [bindr].
  set (r := b - a * g) in *.
  assert (X1 : nadd (Fin g) (nmul (ndiv (nmul (Fin r) (Fin r)) (nmul (Fin r) (nmul (Fin a) (Fin r)))) (Fin r)) = Fin (b / a)).
  { xs. rewrite xdivE by (repeat apply Rmult_integral_contrapositive_currified; auto). xs. f_equal. unfold r. field. auto. }
  change (nsub (Fin b) (nmul (Fin a) (Fin g))) with (Fin r) in *. rewrite X1 in *.
  assert (X2 : nsub (Fin b) (nmul (Fin a) (Fin (b / a))) = Fin 0) by (xs; f_equal; field; auto). rewrite X2 in *.
  assert (X3 : nlt (nsqrt (nmul (Fin 0) (Fin 0))) (Fin tol) = Raux.Rlt_bool 0 tol).
  { xs. cbn. rewrite Rmult_0_l, ?sqrt_0. destruct (Raux.Rlt_bool_spec 0 0); [lra|]. now rewrite ?sqrt_0. }
  rewrite X3 in *. destruct (Raux.Rlt_bool 0 tol).
  - exists mx. auto.
  - specialize (M3 eq_refl).
    assert (X4 : nadd (Fin 0) (nmul (ndiv (nopp (nmul (Fin 0) (nmul (Fin a) (Fin r)))) (nmul (Fin r) (nmul (Fin a) (Fin r)))) (Fin r)) = Fin 0).
    { xs. rewrite xdivE by (repeat apply Rmult_integral_contrapositive_currified; auto). xs. f_equal. field. auto. }
    rewrite X4 in M3. destruct k as [|k]; cbn [cg_loop]; [exists mx; auto|].
    destruct (@cg_step_one a _ (Fin tol) _ _ _ _ _ _ _ SB M1 M2 M3) as (my & ms & me & E2 & N1 & N2 & N3). rewrite E2. cbn [bindr].
    assert (Y1 : nadd (Fin (b / a)) (nmul (ndiv (nmul (Fin 0) (Fin 0)) (nmul (Fin 0) (nmul (Fin a) (Fin 0)))) (Fin 0)) = NaN).
    { xs. replace (0 * (a * 0)) with 0 by ring. rewrite xdiv0. reflexivity. }
    rewrite Y1 in *. change (nsub (Fin b) (nmul (Fin a) NaN)) with NaN in *. change (nlt (nsqrt (nmul NaN NaN)) (Fin tol)) with false in *. specialize (N3 eq_refl).
    destruct (@loop_nan a _ (Fin tol) _ k SB _ _ _ 2%nat (Some 1%nat) _ _ N1 N2 N3) as (m & Em & Sm). exists m. split; [|exact Sm]. rewrite Em. destruct k; reflexivity.
Qed.
