(** * Properties C82-C86: the Python protocols of Value, and the unit listings. *)
From Coq Require Import Reals ZArith List String Bool Permutation Lra Lia.
From Flocq Require Import Core BinarySingleNaN.
From Verif Require Import Num B64 XLemmas MRounding MUnits SpecUnits PUnits MValue PValue MProtocol.
Import ListNotations.
Local Open Scope string_scope.
Local Open Scope R_scope.

(** ** C82.  Indexing gives the number and the unit. *)
Theorem C82_getitem : forall (v : value xr), v_getitem v (PNum (Fin 0)) = Ok (Number (v_val v)) /\ v_getitem v (PNum (Fin 1)) = Ok (Units (v_units v)) /\
  forall k, k <> 0 -> k <> 1 -> v_getitem v (PNum (Fin k)) = Err KeyError.
Proof.
  intros v. unfold v_getitem, key_is. cbn [bindr]. split; [|split; [|intros k H0 H1]]; cbn.
  - now rewrite Req_bool_true.
  - rewrite Req_bool_false by lra. now rewrite Req_bool_true.
  - now rewrite !Req_bool_false.
Qed.
Print Assumptions C82_getitem.
(** but no Value can be unpacked, listed or iterated over: the iteration asks for a third
    item, and is answered with KeyError *)
Theorem C115_unpack_refuted : forall (v : value xr) n, (3 <= n)%nat -> v_items v n = Some (Err KeyError).
Proof.
  intros v n H. destruct n as [|[|[|n]]]; try lia. unfold v_items. destruct (C82_getitem v) as (A & B & C).
  change (defines "__iter__") with false. change (defines "__getitem__") with true. cbn [sequence_items]. cbv iota.
  change (0 + 1)%Z with 1%Z. change (1 + 1)%Z with 2%Z. change (nofZ 0) with (Fin 0). change (nofZ 1) with (Fin 1). change (nofZ 2) with (Fin 2).
  rewrite A, B, C by lra. reflexivity.
Qed.
Print Assumptions C115_unpack_refuted.
Example C82_example : v_items (mkv (Fin 3) (Some "cm")) 5 <> Some (Ok [Number (Fin 3); Units (Some "cm")]).
Proof. rewrite C115_unpack_refuted by lia. discriminate. Qed.

(** ** C83.  Under Python 3 every Value is true, zero included. *)
Theorem C83_truth_refuted : forall v : value b64, v_bool Python3 v = true.
Proof. reflexivity. Qed.
Print Assumptions C83_truth_refuted.
(** under Python 2, for which the method is named, the claim holds *)
Theorem C83_truth_python2 : forall x u, v_bool Python2 (mkv (Fin x) u) = false <-> x = 0.
Proof.
  intros x u. change (v_bool Python2 (mkv (Fin x) u)) with (negb (Req_bool x 0)). destruct (Req_bool_spec x 0); cbn; split; intros; try congruence; contradiction.
Qed.
Print Assumptions C83_truth_python2.
Example C83_example : exists v : value b64, v_bool Python2 v = false /\ v_bool Python3 v = true.
Proof. exists (mkv (nofZ 0) (Some "cm")). now vm_compute. Qed.

(** ** C84.  No Value can be hashed, so none can be a dictionary key or set element. *)
Theorem C84_hash_refuted : forall id (v : value b64), v_hash id v = Err TypeError.
Proof. reflexivity. Qed.
Print Assumptions C84_hash_refuted.

(** ** C85.  [int] drops the fraction, and the unit. *)
Theorem C85_int : forall x u, exists z, v_int (mkv (Fin x) u) = Ok z /\ Rabs (IZR z) <= Rabs x /\ Rabs (x - IZR z) < 1 /\ 0 <= x * IZR z.
Proof.
  intros x u. unfold v_int. cbn [v_val nlt nceil nopp nofZ xr_num x1 option_map xcmp]. destruct (Rlt_bool_spec x 0) as [H|H].
  - exists (Zceil x). split; [reflexivity|]. pose proof (Zceil_ub x). pose proof (Zceil_lb x).
    assert (Z : (Zceil x <= 0)%Z) by (apply Zceil_glb; lra). apply IZR_le in Z. repeat split.
    + rewrite !Rabs_left1 by lra. lra.
    + apply Rabs_def1; lra.
    + nra.
  - exists (- Zceil (- x))%Z. split; [reflexivity|]. rewrite opp_IZR. pose proof (Zceil_ub (- x)). pose proof (Zceil_lb (- x)).
    assert (Z : (Zceil (- x) <= 0)%Z) by (apply Zceil_glb; lra). apply IZR_le in Z. repeat split.
    + rewrite !Rabs_pos_eq by lra. lra.
    + apply Rabs_def1; lra.
    + nra.
Qed.
Print Assumptions C85_int.
Theorem C85_not_finite : forall u, v_int (mkv B754_nan u) = Err ValueError /\ forall s, v_int (mkv (B754_infinity s) u) = Err OverflowError.
Proof. intros u. split; [reflexivity|intros []; reflexivity]. Qed.
Print Assumptions C85_not_finite.
Example C85_example : v_int (mkv (nlit (-7) 2 : b64) (Some "cm")) = Ok (-3)%Z /\ v_int (mkv (nlit 7 2 : b64) None) = Ok 3%Z.
Proof. split; vm_compute; reflexivity. Qed.

(** ** C86.  The listings: each class once, and each unit in the list of its own kind only. *)
Theorem C86_classes : forall arrange, (forall l, Permutation (arrange l) l) ->
  Permutation (all_units_classes (F := b64) arrange) (map kind_name [Length; Weight; Angle; Time; TimeRate]).
Proof. intros arrange H. unfold all_units_classes. rewrite H. cbn. apply Permutation_refl. Qed.
Print Assumptions C86_classes.
Definition listing (k : kind) : list string :=
  match k with Length => lengths (F := b64) | Weight => weights (F := b64) | Angle => angles (F := b64) | Time => times (F := b64) | TimeRate => time_rates (F := b64) end.
Lemma table_keys : NoDup (map fst (unit_table (F := b64))).
Proof.
  cbv [unit_table map fst]. repeat (constructor; [cbn; intros X; repeat (destruct X as [X|X]; [discriminate X|]); exact X|]). constructor.
Qed.
Lemma find_in {A} k (a : A) d : dict_find k d = Some a -> In (k, a) d.
Proof.
  induction d as [|[k' b] d IH]; cbn; [discriminate|]. destruct (String.eqb_spec k k') as [->|N]; [intros [= ->]; auto|auto].
Qed.
Lemma in_find {A} k (a : A) d : NoDup (map fst d) -> In (k, a) d -> dict_find k d = Some a.
Proof.
  induction d as [|[k' b] d IH]; cbn; [tauto|]. intros H [[= -> ->]|I]; [now rewrite String.eqb_refl|]. inversion H; subst.
  destruct (String.eqb_spec k k') as [->|N]; [|auto]. exfalso. apply H2. apply in_map_iff. now exists (k', a).
Qed.
Theorem C86_listings : forall k, NoDup (listing k) /\ forall u, In u (listing k) <-> unit_of_kind u k.
Proof.
  intros k. assert (E : listing k = units_in_class (F := b64) (kind_name k)) by (destruct k; unfold listing, lengths, weights, angles, times, time_rates; apply (f_equal (units_in_class (F := b64))); reflexivity). rewrite E. clear E. unfold units_in_class. split.
  - generalize table_keys. generalize (unit_table (F := b64)). induction d as [|e d IH]; cbn [map filter]; [constructor|]. intros H. inversion H; subst.
    destruct (String.eqb _ _); cbn [map]; auto. constructor; auto. intros X. apply H2. apply in_map_iff in X as (y & <- & Y). apply filter_In in Y as [Y _]. now apply in_map.
  - intros u. split.
    + intros H. apply in_map_iff in H as ([u' [c x]] & <- & H). apply filter_In in H as [H C]. cbn [fst snd] in *.
      apply String.eqb_eq in C. subst c. apply (in_find _ _ _ table_keys) in H. pose proof (class_find (F := b64) u') as K. rewrite H in K. cbn [option_map fst] in K.
      destruct (unit_size u') as [[k' m]|] eqn:S; [|discriminate K]. cbn in K. exists m. rewrite S. destruct k, k'; try discriminate K; reflexivity.
    + intros [m H]. destruct (get_known (F := b64) (s := u) (k := k) H) as (f & G). apply in_map_iff. exists (u, (kind_name k, f)). split; [reflexivity|].
      apply filter_In. split; [now apply find_in|]. apply String.eqb_refl.
Qed.
Print Assumptions C86_listings.
Example C86_example : unit_of_kind "stone" Weight /\ ~ In "stone" (listing Length).
Proof. split; [eexists; reflexivity|]. cbn. intros X. repeat (destruct X as [X|X]; [discriminate X|]). exact X. Qed.
