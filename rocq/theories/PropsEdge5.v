(** * Property C164 and further cases of C08, C65, C94, C99 and C135. *)
From Coq Require Import Reals ZArith List String Bool Lra Lia.
From Flocq Require Import Core.
From Verif Require Import Num XLemmas B64 Vec NpList MRounding MUnits SpecUnits MValue MJson SpecValue PUnits PUnitsB PValue PropsUnits PropsValue.
Import ListNotations.
Local Open Scope string_scope.
Local Open Scope R_scope.

(** ** C164.  The attributes of a Value named after units: the quantity in that unit. *)
Theorem C164_attribute : forall (v : value xr) k q b m, quantity v k q -> unit_size b = Some (k, m) ->
  exists y, v_getattr v b = Ok (mkv (Fin y) (Some b)) /\ y * m = q.
Proof.
  intros v k q b m Q B. assert (R : recognised b) by (exists k, m; exact B). unfold v_getattr. rewrite (proj2 (in_all_units (F := xr) b) R).
  assert (W : quantity (mkv (Fin 1) (Some b)) k (1 * m)) by (exists 1, b, m; auto). destruct (v_convert_exact W Q) as (x & m' & y & Ex & Ep & Hm & Eq & C & _). cbn [v_units v_val] in *. exists y. split; [exact C|].
  injection Ex as <-. assert (m' = m) as -> by lra. now symmetry.
Qed.
Print Assumptions C164_attribute.
(** Other names, units of another kind, and any unit of a Value without one *)
Theorem C164_no_attribute : forall (v : value b64) b, (~ recognised b -> v_getattr v b = Err AttributeError) /\
  (incompatible (Some b) (v_units v) -> v_getattr v b = Err ValueError).
Proof.
  intros v b. unfold v_getattr. split.
  - intros H. destruct (existsb _ _) eqn:E; [|reflexivity]. apply in_all_units in E. contradiction.
  - intros I. assert (R : recognised b). { destruct I as [(sa & sb & ka & kb & [= <-] & _ & K & _)|[(E & _)|(_ & s & [= <-] & R)]]; [now exists ka|discriminate E|exact R]. }
    rewrite (proj2 (in_all_units (F := b64) b) R). exact (convert_incompatible table_nonzero_b64 (v := mkv (nofZ 1) (Some b)) I).
Qed.
Print Assumptions C164_no_attribute.
Example C164_attribute_example : quantity (mkv (Fin 3) (Some "m")) Length 3 /\ unit_size "cm" = Some (Length, 1 / 100) /\ ~ recognised "parsec" /\ incompatible (Some "kg") (Some "m").
Proof.
  split; [exists 3, "m", 1; repeat split; lra|]. split; [reflexivity|]. split; [intros (k & m & E); discriminate E|]. left. exists "kg", "m", Weight, Length. repeat split; try (eexists; reflexivity). discriminate.
Qed.
(** A history: every operation leaves all existing objects as they are and adds at most one,
    except the assignment of a number to the attribute [value] of a Value, which adds none
    and changes this Value's number, and nothing else. *)
Theorem C164_history : forall (ops : list (vop b64)) o k x, nth_error (vrun ops) k = Some x ->
  ((forall j, o <> OAssignValue k j) -> nth_error (vrun (ops ++ [o])) k = Some x) /\
  (forall j v y, o = OAssignValue k j -> x = PVal v -> nth_error (vrun ops) j = Some (PNum y) ->
     nth_error (vrun (ops ++ [o])) k = Some (PVal (mkv y (v_units v))) /\ List.length (vrun (ops ++ [o])) = List.length (vrun ops)).
Proof.
  intros ops o k x E. assert (A : vrun (ops ++ [o]) = vstep (vrun ops) o) by (unfold vrun; now rewrite fold_left_app). rewrite A. clear A. set (s := vrun ops) in *.
  assert (RS : forall (l : list (pyobj b64)) i y, (i < List.length l)%nat -> nth_error (replace i y l) i = Some y /\ List.length (replace i y l) = List.length l).
  { induction l as [|h l IH]; intros [|i] y H; cbn in *; try lia; [now split|]. destruct (IH i y) as [P Q]; [lia|]. split; [exact P|now rewrite Q]. }
  assert (RO : forall (l : list (pyobj b64)) i y, i <> k -> nth_error (replace i y l) k = nth_error l k).
  { clear. revert k. intros k l. revert k. induction l as [|h l IH]; intros [|k] [|i] y H; cbn; try reflexivity; [congruence|]. apply IH. congruence. }
  assert (L : (k < List.length s)%nat) by (apply nth_error_Some; congruence). split.
  - intros D. unfold vstep. destruct (vrun1 s o) as [r|]; [|exact E]. destruct o; try (rewrite nth_error_app1 by exact L; exact E). rewrite RO; [exact E|]. intros ->. exact (D j eq_refl).
  - intros j v y -> -> EJ. unfold vstep. cbn [vrun1]. unfold lookup_v, lookup. rewrite E, EJ. cbn [bindr assign_value set_value pyfloat mapr]. apply RS. exact L.
Qed.
Print Assumptions C164_history.
Example C164_history_example : nth_error (vrun [ONum (nofZ 3 : b64); ONum (nofZ 5); ONew (Some 0%nat) (Some "m"); OAssignValue 2 1]) 2 = Some (PVal (mkv (nofZ 5) (Some "m"))).
Proof. reflexivity. Qed.

(** ** C08.  NaN cannot be rounded. *)
Theorem C08_nan : forall n, n <> 0 -> round_to NaN (Fin n) = Err ValueError.
Proof. intros n H. unfold round_to, pydiv, n1. cbn. rewrite Req_bool_false by exact H. reflexivity. Qed.
Print Assumptions C08_nan.
