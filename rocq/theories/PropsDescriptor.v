(** * Property C95: attributes made with setter_property. *)
From Coq Require Import List String Bool.
From Verif Require Import Num MDescriptor.
Import ListNotations.
Local Open Scope string_scope.

(** a setter that checks its argument and, if [check] accepts it, stores [conv v] under its
    own name and updates attributes that are derived from it, but no other setter's *)
Definition stores {V} (cls : list (setter (V := V))) (p : setter) (conv : V -> res V) : Prop :=
  forall d v, match conv v with
    | Ok w => snd (sp_fn p d v) = Ok tt /\ fst (sp_fn p d v) (sp_name p) = Some w /\
              forall q, In q cls -> sp_name q <> sp_name p -> fst (sp_fn p d v) (sp_name q) = d (sp_name q)
    | Err e => sp_fn p d v = (d, Err e)
    end.
Lemma found {V} (cls : list (setter (V := V))) p : In p cls -> NoDup (map sp_name cls) -> find_sp cls (sp_name p) = Some p.
Proof.
  unfold find_sp. induction cls as [|q cls IH]; [intros []|]. cbn [map find]. intros I D. inversion D as [|? ? NI D']; subst. destruct I as [->|I]; [now rewrite String.eqb_refl|].
  destruct (String.eqb_spec (sp_name q) (sp_name p)) as [E|]; [|auto]. exfalso. apply NI. rewrite E. now apply in_map.
Qed.
(** Assigning goes through the setter: what it accepts is then read back converted, what it
    refuses leaves the object as it was; other such attributes keep their values.  Deleting is
    assigning None.  An attribute that was never assigned reads as None. *)
Theorem C95_assign_read : forall V (vNone : V) cls p conv, In p cls -> NoDup (map sp_name cls) -> stores cls p conv ->
  forall d v d' o, py_setattr cls d (sp_name p) v = (d', o) ->
  (forall w, conv v = Ok w -> o = Ok tt /\ py_getattr vNone cls d' (sp_name p) = Ok w /\
     forall q, In q cls -> sp_name q <> sp_name p -> py_getattr vNone cls d' (sp_name q) = py_getattr vNone cls d (sp_name q)) /\
  (forall e, conv v = Err e -> o = Err e /\ d' = d).
Proof.
  intros V vNone cls p conv I D S d v d' o. unfold py_setattr, py_getattr. rewrite (found _ _ I D). unfold sp_set. intros E. specialize (S d v). rewrite E in S. cbn [fst snd] in S. split.
  - intros w C. rewrite C in S. destruct S as (So & Sp & Sq). split; [exact So|]. split; [unfold sp_get; now rewrite Sp|]. intros q Iq NE. rewrite (found _ _ Iq D). unfold sp_get. now rewrite Sq.
  - intros e C. rewrite C in S. injection S as -> ->. auto.
Qed.
Print Assumptions C95_assign_read.
Theorem C95_delete : forall V (vNone : V) cls p, In p cls -> NoDup (map sp_name cls) -> forall d,
  py_delattr vNone cls d (sp_name p) = py_setattr cls d (sp_name p) vNone /\
  (d (sp_name p) = None -> py_getattr vNone cls d (sp_name p) = Ok vNone) /\ sp_get vNone p None = Err AttributeError.
Proof. intros V vNone cls p I D d. unfold py_delattr, py_setattr, py_getattr. rewrite (found _ _ I D). split; [reflexivity|]. split; [|reflexivity]. intros E. unfold sp_get. now rewrite E. Qed.
Print Assumptions C95_delete.
(** The Polyline pattern: [v] is checked and stored, and an edge attribute derived. *)
Definition poly_v : setter (V := nat) := mksetter "v" (fun d v => if Nat.ltb v 100 then (put (put d "v" (Some v)) "e" (Some (v - 1))%nat, Ok tt) else (d, Err ValueError)).
Definition poly_closed : setter (V := nat) := mksetter "closed" (fun d v => (put d "closed" (Some v), Ok tt)).
Example C95_example : stores [poly_v; poly_closed] poly_v (fun v => if Nat.ltb v 100 then Ok v else Err ValueError) /\ NoDup (map sp_name [poly_v; poly_closed]).
Proof.
  split.
  - intros d v. cbn [poly_v sp_fn sp_name]. destruct (Nat.ltb v 100); [|reflexivity]. split; [reflexivity|]. split; [reflexivity|]. intros q [<-|[<-|[]]] NE; [contradiction|reflexivity].
  - cbn. repeat constructor; cbn; intuition discriminate.
Qed.
