(** * matvec with dense columns and no dense row (C63). *)
From Coq Require Import Reals ZArith List Bool Lra Lia Psatz.
From Verif Require Import Num XLemmas Vec NpList SpecGeom MLinalg SpecLinalg PLinalg MCg SpecCg PCg.
Import ListNotations.
Local Open Scope R_scope.
Set Implicit Arguments.
Unset Strict Implicit.

Lemma big_plus n (f g : nat -> R) : big n (fun i => f i + g i) = big n f + big n g.
Proof. unfold big. induction (seq 0 n) as [|a l IH]; cbn [map rsum]; [lra|]. rewrite IH. lra. Qed.

Lemma big_complement cs n (f : nat -> R) : length cs = n ->
  big (length (flatnonzero 0 cs)) (fun k => f (nth k (flatnonzero 0 cs) 0%nat)) +
  big (length (flatnonzero 0 (complement cs))) (fun k => f (nth k (flatnonzero 0 (complement cs)) 0%nat)) = big n f.
Proof.
  intros L. rewrite <- (big_mask f L). rewrite <- (@big_mask n (complement cs) f) by (unfold complement; now rewrite map_length).
  rewrite <- big_plus. apply big_ext. intros i Hi. rewrite masked_complement by lia. destruct (masked cs i); cbn [negb]; lra.
Qed.

Lemma matvec_dense_columns_ok r c A rm cm q w : (rm = [] \/ length rm = r) -> (cm = [] \/ length cm = c) ->
  flatnonzero 0 (complement (or_all_true r rm)) = [] \/ r = 1%nat -> flatnonzero 0 (complement (or_all_true c cm)) <> [] ->
  exists m, matvec (mk_sbsm (rmat r c A) rm cm) (A2 (rmat c q w)) = Ok (A2 m) /\ is_mat m r q (fun i j => big c (fun k => A i k * w k j)).
Proof.
  intros Hr Hc ND DC. pose proof (@block_ss_is r c A rm cm) as BSS. pose proof (@block_ds_is r c A rm cm Hc) as BDS.
  pose proof (@block_dd_is r c A rm cm Hc) as BDD. pose proof (@block_sd_is r c A rm cm DC) as BSD.
  set (s := mk_sbsm (rmat r c A) rm cm) in *. set (rs := or_all_true r rm) in *. set (cs := or_all_true c cm) in *.
  assert (RL : length rs = r) by now apply or_all_true_length. assert (CL : length cs = c) by now apply or_all_true_length.
  assert (CDL : length (complement cs) = c) by (unfold complement; now rewrite map_length).
  assert (RS : length (flatnonzero 0 rs) = r /\ (forall i, (i < r)%nat -> pos rs i = i) \/ (r = 1%nat /\ flatnonzero 0 rs = [])).
  { destruct ND as [ND|R1].
    - left. assert (Rall : forall j, (j < r)%nat -> masked rs j = true) by (intros j Hj; apply no_false_all; auto; now rewrite RL).
      assert (E : flatnonzero 0 rs = seq 0 r) by (rewrite fnz_all, RL; auto; now rewrite RL).
      split; [now rewrite E, seq_length|]. intros i Hi. destruct (pos_spec (Rall i Hi)) as [L P]. rewrite E in L, P. rewrite seq_length in L. rewrite seq_nth in P by auto. exact P.
    - destruct rs as [|x [|y rs']]; try (cbn in RL; lia). destruct x; [left|right; split; auto]. subst r. split; [reflexivity|]. intros i Hi. now assert (i = 0%nat) as -> by lia. }
  unfold matvec. change (r_s s) with rs. change (c_s s) with cs.
  cbn [arr_dot arr_mask].
  destruct (mat_dot_fin BSS (rmat_is c q w)) as (b&E1&I1). rewrite E1. cbn [bindr].
  assert (VD : is_mat (take_rows (rmat c q w) (flatnonzero 0 (complement cs))) (length (flatnonzero 0 (complement cs))) q
    (fun l j => w (nth l (flatnonzero 0 (complement cs)) 0%nat) j)).
  { apply (@take_rows_is _ c q _ w (rmat_is c q w)). intros l Hl. apply fnz_lt in Hl. now rewrite CDL in Hl. }
  destruct (mat_dot_fin BSD VD) as (x&E2&I2).
  assert (VC : is_mat (take_rows (rmat c q w) (flatnonzero 0 cs)) (length (flatnonzero 0 cs)) q (fun l j => w (nth l (flatnonzero 0 cs) 0%nat) j)).
  { apply (@take_rows_is _ c q _ w (rmat_is c q w)). intros l Hl. rewrite <- CL. now apply fnz_lt. }
  destruct (mat_dot_fin BDS VC) as (y1&E3&I3). destruct (mat_dot_fin BDD VD) as (y2&E4&I4).
  rewrite E2. cbn [bindr]. cbn [arr_set].
  destruct I1 as (R1&C1&I1). destruct I2 as (R2&C2&I2). destruct I3 as (R3&C3&I3). destruct I4 as (R4&C4&I4).
  unfold set2 at 1. rewrite R2, C2, C1, !Nat.eqb_refl.
  assert (COND : (Nat.eqb r (length (flatnonzero 0 rs)) || Nat.eqb r 1) = true).
  { destruct RS as [[RS _]|[RS _]]; rewrite RS, !Nat.eqb_refl; cbn; auto using orb_true_r. }
  rewrite COND. cbn [orb andb bindr].
  rewrite E3. cbn [bindr]. rewrite E4. cbn [bindr arr_add]. rewrite R3, R4, C3, C4, !Nat.eqb_refl. cbn [andb bindr].
  cbn [arr_set]. unfold set2. cbn [m_rows m_cols]. rewrite !Nat.eqb_refl. cbn [orb andb bindr].
  eexists. split; [reflexivity|]. split; [exact R1|]. split; [reflexivity|]. intros i j Hi Hj. cbn [m_at].
  rewrite masked_complement by lia. destruct (masked rs i) eqn:Ei; cbn [negb].
  - destruct RS as [[RS PI]|[_ RS]]; [|apply fnz_in in Ei; rewrite RS in Ei; destruct Ei].
    rewrite RS, Nat.eqb_refl, PI, I1, I2 by auto. rewrite Ei. xs. f_equal.
    rewrite <- (big_complement (fun k => A i k * w k j) CL), <- (big_mask (fun k => A i k * w k j) CL). f_equal.
    apply big_ext. intros k Hk. cbn [andb]. destruct (masked cs k); lra.
  - assert (Md : masked (complement rs) i = true) by (rewrite masked_complement by lia; now rewrite Ei).
    destruct (pos_spec Md) as [L E]. rewrite I3, I4 by (auto; lia). xs. f_equal. rewrite E.
    apply (big_complement (fun k => A i k * w k j) CL).
Qed.
