(** * The coordinate manager on doubles: proofs for property C158. *)
From Coq Require Import String Reals ZArith List Bool Lra Lia.
From Verif Require Import Num B64 BLemmas Vec RVec NpList MVx MRotation MComposite MCoord SpecCoord SpecDouble SpecTransD PErr PTransD PTransD2 PComposite PCoord.
Import ListNotations.
Local Open Scope R_scope.
Set Implicit Arguments.
Unset Strict Implicit.

Section Manager.
Context {B : Type}.
Variables (inv : M4 b64 -> res (M4 b64)) (as_rot : rot_arg b64 -> res (M3 b64)).

Lemma after_split os1 : forall ts os2, after inv as_rot ts (os1 ++ os2) = after inv as_rot (after inv as_rot ts os1) os2.
Proof. intros ts os2. unfold after. now rewrite fold_left_app. Qed.
Lemma tags_split (h1 h2 h3 : list (event b64 B)) a b : not_tagged a (h2 ++ TagAs b :: h3) -> not_tagged b h3 ->
  exists T1 T2 T3 : transforms b64, let m := history inv as_rot (h1 ++ TagAs a :: h2 ++ TagAs b :: h3) in
    transform m = T1 ++ T2 ++ T3 /\ lookup (tags_to_indices m) a = Some (length T1) /\ lookup (tags_to_indices m) b = Some (length T1 + length T2)%nat /\
    after inv as_rot T1 (transform_calls h2) = T1 ++ T2.
Proof.
  intros Ha Hb. set (T1 := after inv as_rot [] (transform_calls h1)).
  destruct (after_appends inv as_rot (transform_calls h2) T1) as [T2 E2].
  destruct (after_appends inv as_rot (transform_calls h3) (T1 ++ T2)) as [T3 E3].
  exists T1, T2, T3. cbv zeta. repeat split; auto.
  - unfold history. rewrite run_transform. cbn [new_manager transform]. rewrite calls_app.
    change (TagAs a :: h2 ++ TagAs b :: h3) with ([TagAs a] ++ h2 ++ TagAs b :: h3). rewrite !calls_app.
    change (transform_calls [TagAs a]) with (@nil (op b64)). change (TagAs b :: h3) with ([TagAs b] ++ h3). rewrite !calls_app.
    change (transform_calls [TagAs b]) with (@nil (op b64)). cbn [app]. rewrite !after_split. fold T1. rewrite E2, E3. now rewrite app_assoc.
  - apply lookup_tagged, Ha.
  - change (h1 ++ TagAs a :: h2 ++ TagAs b :: h3) with (h1 ++ (TagAs a :: h2) ++ TagAs b :: h3). rewrite app_assoc, lookup_tagged by auto.
    f_equal. rewrite <- app_length, <- E2. f_equal. rewrite calls_app, after_split. reflexivity.
Qed.
(** the parts that successful calls add do not depend on what is already there *)
Lemma parts_new os fg T1 T2 : Forall2 (fun o p => part inv as_rot o (fst p) (snd p)) os fg -> after inv as_rot T1 os = T1 ++ T2 -> after inv as_rot [] os = T2 /\ length T2 = length os.
Proof.
  intros H E. destruct (after_parts H) as (st & A & F). rewrite A in E. apply app_inv_head in E. subst st. split; [apply (A [])|]. now rewrite (Forall2_len F), (Forall2_len H).
Qed.
Lemma reads_forward (h1 h2 h3 : list (event b64 B)) a b xs fg : readable b -> not_tagged a (h2 ++ TagAs b :: h3) -> not_tagged b h3 ->
  Forall2 (fun o p => part inv as_rot o (fst p) (snd p)) (transform_calls h2) fg -> transform_calls h2 <> [] ->
  set_then_read (history inv as_rot (h1 ++ TagAs a :: h2 ++ TagAs b :: h3)) a (Points xs) b
  = mapr (fun ys => Value (Points ys)) (call (after inv as_rot [] (transform_calls h2)) xs None false).
Proof.
  intros Rb Ha Hb H NE. destruct (tags_split h1 Ha Hb) as (T1 & T2 & T3 & T & La & Lb & E). destruct (parts_new H E) as [E2 L2].
  rewrite (set_then_read_eq _ Rb La). unfold do_transform. rewrite La, Lb, T.
  assert (P : (0 < length T2)%nat) by (rewrite L2; destruct (transform_calls h2); [contradiction|cbn; lia]).
  destruct (Nat.eqb_spec (length T1) (length T1 + length T2)) as [Z|Z]; [lia|]. rewrite (proj2 (Nat.ltb_lt _ _)) by lia. rewrite call_middle, E2. destruct (call T2 xs None false); reflexivity.
Qed.
Lemma reads_backward (h1 h2 h3 : list (event b64 B)) a b xs fg : readable a -> not_tagged a (h2 ++ TagAs b :: h3) -> not_tagged b h3 ->
  Forall2 (fun o p => part inv as_rot o (fst p) (snd p)) (transform_calls h2) fg -> transform_calls h2 <> [] ->
  set_then_read (history inv as_rot (h1 ++ TagAs a :: h2 ++ TagAs b :: h3)) b (Points xs) a
  = mapr (fun ys => Value (Points ys)) (call (after inv as_rot [] (transform_calls h2)) xs None true).
Proof.
  intros Rb Ha Hb H NE. destruct (tags_split h1 Ha Hb) as (T1 & T2 & T3 & T & La & Lb & E). destruct (parts_new H E) as [E2 L2].
  rewrite (set_then_read_eq _ Rb Lb). unfold do_transform. rewrite La, Lb, T.
  assert (P : (0 < length T2)%nat) by (rewrite L2; destruct (transform_calls h2); [contradiction|cbn; lia]).
  destruct (Nat.eqb_spec (length T1 + length T2) (length T1)) as [Z|Z]; [lia|]. rewrite (proj2 (Nat.ltb_ge _ _)) by lia. rewrite call_middle, E2. destruct (call T2 xs None true); reflexivity.
Qed.
Lemma range_call os1 os2 os3 xs fg r : Forall2 (fun o p => part inv as_rot o (fst p) (snd p)) os2 fg ->
  let i := length (after inv as_rot [] os1) in
  call (after inv as_rot [] (os1 ++ os2 ++ os3)) xs (Some (Some (Z.of_nat i), Some (Z.of_nat (i + length os2)))) r = call (after inv as_rot [] os2) xs None r.
Proof.
  intros H i. rewrite !after_split. fold i. set (T1 := after inv as_rot [] os1). destruct (after_appends inv as_rot os2 T1) as [T2 E2]. destruct (after_appends inv as_rot os3 (T1 ++ T2)) as [T3 E3].
  rewrite E2, E3. destruct (parts_new H E2) as [E L2]. rewrite E, <- app_assoc, <- L2. apply call_middle.
Qed.
End Manager.
