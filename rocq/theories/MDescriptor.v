(** * Model of blmath/util/decorators.py. *)
From Coq Require Import List String Bool.
From Verif Require Import Num.
Import ListNotations.
Local Open Scope string_scope.

Section Descriptor.
(** Python values; [None] is [vNone] *)
Context {V : Type} (vNone : V).
(** the instance's [__dict__] *)
Definition attrs := string -> option V.
Definition put (d : attrs) (k : string) (v : option V) : attrs := fun k' => if String.eqb k' k then v else d k'.
(** decorators.py:6-9 [__init__]: the decorated function, named [sp_name], may change the
    instance and may raise *)
Record setter := mksetter { sp_name : string; sp_fn : attrs -> V -> attrs * res unit }.
(** decorators.py:10-14 [__get__]; read on the class, [obj] is None and has no [__dict__] *)
Definition sp_get (p : setter) (obj : option attrs) : res V :=
  match obj with
  | None => Err AttributeError
  | Some d => match d (sp_name p) with Some v => Ok v | None => Ok vNone end
  end.
(** decorators.py:15-16 [__set__]; 17-18 [__delete__] *)
Definition sp_set (p : setter) (d : attrs) (v : V) : attrs * res unit := sp_fn p d v.
Definition sp_delete (p : setter) (d : attrs) : attrs * res unit := sp_fn p d vNone.

(** Python's attribute access for a class whose descriptors are [cls] and that has no other
    attributes: a descriptor with [__set__] goes before the instance's [__dict__] *)
Definition find_sp (cls : list setter) (k : string) : option setter := find (fun p => String.eqb (sp_name p) k) cls.
Definition py_getattr (cls : list setter) (d : attrs) (k : string) : res V :=
  match find_sp cls k with
  | Some p => sp_get p (Some d)
  | None => match d k with Some v => Ok v | None => Err AttributeError end
  end.
Definition py_setattr (cls : list setter) (d : attrs) (k : string) (v : V) : attrs * res unit :=
  match find_sp cls k with Some p => sp_set p d v | None => (put d k (Some v), Ok tt) end.
Definition py_delattr (cls : list setter) (d : attrs) (k : string) : attrs * res unit :=
  match find_sp cls k with
  | Some p => sp_delete p d
  | None => match d k with Some _ => (put d k None, Ok tt) | None => (d, Err AttributeError) end
  end.
End Descriptor.
