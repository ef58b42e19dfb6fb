(** * Values: lemmas at double precision, and the rounding theorem. *)
From Coq Require Import Reals ZArith List String Bool Lra Lia.
From Flocq Require Import Core BinarySingleNaN.
From Coq Require Import SpecFloat.
From Verif Require Import Num B64 XLemmas BLemmas MRounding MUnits SpecUnits PUnits PUnits2 PUnitsB MValue MJson SpecValue PValue.
Import ListNotations.
Local Open Scope string_scope.
Local Open Scope R_scope.
Set Implicit Arguments.
Unset Strict Implicit.

Lemma b64_eqb_sym (x y : b64) : neqb x y = neqb y x.
Proof.
  change (Beqb x y = Beqb y x).
  unfold Beqb, SFeqb. fold (Bcompare x y). fold (Bcompare y x).
  rewrite (Bcompare_swap _ _ x y). destruct (Bcompare x y) as [[]|]; reflexivity.
Qed.

Lemma eq_sym_same_units (x y : b64) u :
  py_eq (PVal (mkv x u)) (PVal (mkv y u)) = py_eq (PVal (mkv y u)) (PVal (mkv x u)).
Proof.
  cbn [py_eq dispatch]. unfold v_eq, v_cmp, comparable, v_convert. cbn [v_units].
  rewrite (proj2 (ustr_eqb_eq u u) eq_refl). cbn [mapr bindr pyfloat v_val]. now rewrite b64_eqb_sym.
Qed.

Lemma incompatible_double (v w : value b64) :
  incompatible (v_units v) (v_units w) ->
  let V := PVal v in let W := PVal w in
  raises (py_lt V W) /\ raises (py_le V W) /\ raises (py_eq V W) /\ raises (py_ne V W) /\
  raises (py_gt V W) /\ raises (py_ge V W) /\ raises (py_add V W) /\ raises (py_sub V W) /\
  raises (py_mul V W) /\
  (v_units v <> None -> py_truediv V W = Err ValueError /\ py_floordiv V W = Err ValueError) /\
  (v_units v = None -> py_truediv V W = Err KeyError /\ py_floordiv V W = Err KeyError).
Proof.
  intros H V W. subst V W.
  cbn [py_lt py_le py_eq py_ne py_gt py_ge py_add py_sub py_mul py_truediv py_floordiv dispatch v_add v_sub v_mul].
  unfold v_lt, v_le, v_eq, v_ne, v_gt, v_ge, v_truediv, v_floordiv.
  rewrite !(cmp_incompatible table_nonzero_b64) by auto.
  rewrite !(combine_incompatible table_nonzero_b64) by auto.
  rewrite !(divide_incompatible table_nonzero_b64) by auto.
  repeat (split; [eexists; reflexivity|]).
  split; intros E; destruct (v_units v); auto; congruence.
Qed.

Lemma constructor_spec (x : b64) u :
  (unit_ok u -> mk_value (Some (PNum x)) u = Ok (mkv x u)) /\
  (~ unit_ok u -> mk_value (Some (PNum x)) u = Err ValueError) /\
  mk_value (F := b64) None u = Err ValueError.
Proof.
  split; [intros H; now apply mk_value_ok|]. split; [|reflexivity].
  intros H. unfold mk_value. cbn [set_value pyfloat bindr]. destruct u as [s|].
  - destruct (existsb _ _) eqn:E; auto. apply in_all_units in E. exfalso. apply H. right. eauto.
  - exfalso. apply H. now left.
Qed.

Lemma round_partial x u n : unit_ok u -> n <> 0 ->
  (exists z, v_round Python2 (mkv (Fin x) u) (Fin n) = Ok (PNum (Fin (IZR z * n))) /\
     forall j : Z, Rabs (x - IZR z * n) <= Rabs (x - IZR j * n)) /\
  (forall places, exists z, v_round_places (mkv (Fin x) u) places = Ok (mkv (Fin (IZR z / 10 ^ places)) u) /\
     Rabs (x - IZR z / 10 ^ places) <= / 2 / 10 ^ places).
Proof.
  intros Hu Hn. split.
  - exists (ZnearestE (x / n)). split; [now apply round_py2|]. intros j. now apply nearest_mult.
  - intros p. exists (ZnearestE (x * 10 ^ p)). pose proof (pow10_pos p) as Hp.
    rewrite round_places_ok, IZR_pow10 by auto. split; [reflexivity|].
    pose proof (Znearest_half (fun x => negb (Z.even x)) (x * 10 ^ p)) as H.
    replace (x - IZR (ZnearestE (x * 10 ^ p)) / 10 ^ p) with
      ((x * 10 ^ p - IZR (ZnearestE (x * 10 ^ p))) / 10 ^ p) by (field; lra).
    unfold Rdiv. rewrite Rabs_mult, (Rabs_pos_eq (/ 10 ^ p)) by (left; now apply Rinv_0_lt_compat).
    apply Rmult_le_compat_r; [left; now apply Rinv_0_lt_compat|]. lra.
Qed.
