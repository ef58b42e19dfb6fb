(** * Rounding for display (C15). *)
From Coq Require Import Reals ZArith String List Bool Lra Lia.
From Verif Require Import Num B64 MRounding MUnits SpecUnits MValue SpecValue PValue.
Import ListNotations.
Set Implicit Arguments.
Unset Strict Implicit.
Local Open Scope string_scope.

(** ** C15.  [prettified] under Python 2 gives the numbers and units of [prettify] on the
    number; under Python 3 it raises TypeError whenever [prettify] on the number returns. *)
Definition as_number (p : b64 * ustr) : pyobj b64 * ustr := (PNum (fst p), snd p).
Lemma convert_v (v : value b64) u system : unit_ok (v_units v) ->
  convert_to_system_default_v v u system =
  mapr (fun p => (PVal (mkv match fst p with Some x => x | None => v_val v end (v_units v)), snd p))
    (convert_to_system_default (Some (v_val v)) u system).
Proof.
  intros U. unfold convert_to_system_default_v, convert_to_system_default, convert_to_default. destruct (default_units system []) as [d|e]; [|reflexivity]. cbn [bindr].
  destruct (units_class u) as [[c|]|e]; cbn [bindr mapr fst snd]; [| |reflexivity].
  - destruct (dict_get c d) as [t|e]; [|reflexivity]. cbn [bindr]. unfold convert. destruct (factor u (Some t) None) as [k|e]; [|reflexivity]. cbn [bindr mapr fst snd].
    cbn [v_mul]. rewrite (mk_num_ok _ U). reflexivity.
  - destruct v; reflexivity.
Qed.
Lemma convert_some (x : b64) u system p : convert_to_system_default (Some x) u system = Ok p -> exists y, fst p = Some y.
Proof.
  unfold convert_to_system_default, convert_to_default. destruct (default_units system []) as [d|e]; [|discriminate]. cbn [bindr].
  destruct (units_class u) as [[c|]|e]; cbn [bindr]; [| |discriminate].
  - destruct (dict_get c d) as [t|e]; [|discriminate]. cbn [bindr]. unfold convert. destruct (factor u (Some t) None) as [k|e]; [|discriminate]. cbn [bindr]. intros [= <-]. cbn. eauto.
  - intros [= <-]. cbn. eauto.
Qed.
Lemma round_v2 (x : b64) u t : unit_ok u -> round_value_v Python2 None (PVal (mkv x u), t) = mapr as_number (round_value None (Some x, t)).
Proof.
  intros U. unfold round_value_v, round_value. cbn [fst snd]. destruct (display_step t None) as [n|e]; [|reflexivity]. cbn [bindr].
  unfold round_to_v, round_to. destruct (pydiv n1 n) as [r|e]; [|reflexivity]. cbn [bindr v_truediv divide v_val v_units]. destruct (pydiv x n) as [q|e]; [|reflexivity].
  cbn [bindr]. rewrite (mk_num_ok _ U). cbn [mapr bindr builtin_round v_val]. destruct (py_round q) as [k|e]; [|reflexivity]. cbn [bindr]. now destruct (pydiv (nofZ k) r).
Qed.
Lemma round_v3 (x : b64) u t p : unit_ok u -> round_value None (Some x, t) = Ok p -> round_value_v Python3 None (PVal (mkv x u), t) = Err TypeError.
Proof.
  intros U. unfold round_value_v, round_value. cbn [fst snd]. destruct (display_step t None) as [n|e]; [|discriminate]. cbn [bindr].
  unfold round_to_v, round_to. destruct (pydiv n1 n) as [r|e]; [|discriminate]. cbn [bindr v_truediv divide v_val v_units]. destruct (pydiv x n) as [q|e]; [|discriminate].
  cbn [bindr]. now rewrite (mk_num_ok _ U).
Qed.
Theorem C15_prettified : forall v : value b64, unit_ok (v_units v) ->
  v_prettified Python2 v = mapr (fun ab => (as_number (fst ab), as_number (snd ab))) (prettify (Some (v_val v)) (v_units v) None) /\
  (forall ab, prettify (Some (v_val v)) (v_units v) None = Ok ab -> v_prettified Python3 v = Err TypeError).
Proof.
  intros v U. unfold v_prettified, prettify. rewrite !(convert_v _ _ U). destruct (convert_to_system_default (Some (v_val v)) (v_units v) "metric") as [[m t]|e] eqn:E; [|split; [reflexivity|discriminate]].
  destruct (convert_some E) as [y Ey]. cbn [fst] in Ey. subst m. cbn [mapr bindr fst snd]. split.
  - rewrite round_v2 by exact U. destruct (round_value None (Some y, t)) as [a|e]; [|reflexivity]. cbn [mapr bindr].
    destruct (convert_to_system_default (Some (v_val v)) (v_units v) "united_states") as [[m t']|e] eqn:E'; [|reflexivity]. destruct (convert_some E') as [y' Ey]. cbn [fst] in Ey. subst m.
    cbn [mapr bindr fst snd]. rewrite round_v2 by exact U. now destruct (round_value None (Some y', t')).
  - intros ab. destruct (round_value None (Some y, t)) as [a|e] eqn:R; [|discriminate]. intros _. now rewrite (round_v3 U R).
Qed.
Print Assumptions C15_prettified.
Example C15_prettified_example : unit_ok (Some "cm") /\
  match prettify (Some (nofZ 182 : b64)) (Some "cm") None with Ok ((_, Some a), (_, Some b)) => (a, b) = ("cm", "in") | _ => False end.
Proof. split; [right; exists "cm"; split; auto; exists Length; eexists; reflexivity|vm_compute; reflexivity]. Qed.
