(** * What Values denote (independent of the model's functions). *)
From Coq Require Import Reals String List Bool.
From Verif Require Import Num MUnits SpecUnits MValue MJson.
Import ListNotations.
Local Open Scope R_scope.

(** The Value [v] denotes the physical quantity [q] of kind [k], measured in
    the base unit of [k]. *)
Definition quantity (v : value xr) (k : kind) (q : R) : Prop :=
  exists x u m, v_val v = Fin x /\ v_units v = Some u /\ unit_size u = Some (k, m) /\ q = x * m.

(** The unit argument is None or a recognised unit. *)
Definition unit_ok (u : option string) : Prop := u = None \/ exists s, u = Some s /\ recognised s.

(** Two unit arguments that do not denote quantities of one kind: different
    kinds, or exactly one of them unitless. *)
Definition incompatible (a b : option string) : Prop :=
  (exists sa sb ka kb, a = Some sa /\ b = Some sb /\ unit_of_kind sa ka /\ unit_of_kind sb kb /\ ka <> kb)
  \/ (a = None /\ exists s, b = Some s /\ recognised s)
  \/ (b = None /\ exists s, a = Some s /\ recognised s).

(** [r] is the boolean answer to the question [P]. *)
Definition answers (r : res bool) (P : Prop) : Prop := exists b, r = Ok b /\ (b = true <-> P).

(** [r] is an exception. *)
Definition raises {A} (r : res A) : Prop := exists e, r = Err e.

(** All Values inside an object, at any depth of list nesting. *)
Fixpoint values_in {F} (o : pyobj F) : list (value F) :=
  match o with
  | PNum _ => []
  | PVal v => [v]
  | PList l => flat_map values_in l
  end.

(** All Values inside a document, at any depth. *)
Fixpoint doc_values {F} (t : doc F) : list (value F) :=
  match t with
  | DList l => flat_map doc_values l
  | DObj d => flat_map (fun kv => doc_values (snd kv)) d
  | DVal v => [v]
  | DArr dt a => match dt with Some t => doc_values t | None => [] end ++ doc_values a
  | DSparse d => flat_map (fun kv => doc_values (snd kv)) d
  | _ => []
  end.

Definition markers : list string := ["__value__"; "__ndarray__"; "__scipy.sparse.sparsematrix__"]%string.

(** A document that dumps() accepts and whose plain dictionaries use none of
    the marker keys.  Dictionaries have distinct keys, Values valid units. *)
Inductive plain {F} : doc F -> Prop :=
| plain_null : plain DNull
| plain_bool b : plain (DBool b)
| plain_num x : plain (DNum x)
| plain_str s : plain (DStr s)
| plain_val v : unit_ok (v_units v) -> plain (DVal v)
| plain_list l : Forall plain l -> plain (DList l)
| plain_obj d : Forall (fun kv => plain (snd kv)) d -> NoDup (map fst d) ->
    (forall k, In k (map fst d) -> ~ In k markers) -> plain (DObj d).
