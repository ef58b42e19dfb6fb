(** * Model of blmath/util/json.py and of [Value.for_json]/[from_json].

    The JSON text itself (simplejson's printer and parser, including the
    repr/float round trip) is not modelled: [json] is the syntax tree. *)
From Coq Require Import ZArith List String Bool.
From Verif Require Import Num MRounding MUnits MValue.
Import ListNotations.
Local Open Scope string_scope.

Section Json.
Context {F : Type} {N : Num F}.

Inductive json :=
| JNull | JBool (b : bool) | JNum (x : F) | JStr (s : string)
| JList (l : list json) | JObj (d : list (string * json)).

(** Python objects that the module reads and writes.  [DArr] is an ndarray
    (with the dtype it was given and its nested data), [DSparse] a scipy
    sparse matrix (the fields it was built from); numpy/scipy construction is
    not modelled further. *)
Inductive doc :=
| DNull | DBool (b : bool) | DNum (x : F) | DStr (s : string)
| DList (l : list doc) | DObj (d : list (string * doc))
| DVal (v : value F)
| DArr (dtype : option doc) (data : doc)
| DSparse (fields : list (string * doc)).

(** value.py:175-180 [for_json]. *)
Definition for_json (v : value F) : json :=
  JObj [("__value__", JObj [("value", JNum (v_val v));
                            ("units", match v_units v with None => JNull | Some s => JStr s end)])].

(** util/json.py:24-25, 32-33 [dump], [dumps] with [for_json=True]: Values are
    replaced by [for_json()], arrays and matrices are not serialisable. *)
Fixpoint encode (t : doc) : res json :=
  match t with
  | DNull => Ok JNull
  | DBool b => Ok (JBool b)
  | DNum x => Ok (JNum x)
  | DStr s => Ok (JStr s)
  | DList l => mapr JList (traverse encode l)
  | DObj d => mapr JObj (traverse (fun kv => mapr (pair (fst kv)) (encode (snd kv))) d)
  | DVal v => Ok (for_json v)
  | DArr _ _ => Err TypeError
  | DSparse _ => Err TypeError
  end.

(** [float(x)] of a decoded object, as needed by the [value] setter.
    SIMPLIFICATION: [float] of a string is reported as a ValueError (numeric
    strings are not parsed). *)
Definition doc_float (t : doc) : res F :=
  match t with
  | DNum x => Ok x
  | DBool b => Ok (nofZ (if b then 1 else 0)%Z)
  | DVal v => Ok (v_val v)
  | DStr _ => Err ValueError
  | _ => Err TypeError
  end.

(** value.py:182-188 [from_json]: [Value( **data['__value__'])], with the
    constructor of value.py:7-16.  A missing or unexpected keyword is a
    TypeError. *)
Definition from_json (x : doc) : res (value F) :=
  match x with
  | DObj kw =>
      if negb (forallb (fun kv => (String.eqb (fst kv) "value" || String.eqb (fst kv) "units")%bool) kw)
      then Err TypeError
      else match dict_find "value" kw with
           | None => Err TypeError
           | Some DNull => Err ValueError
           | Some val =>
               let* y := doc_float val in
               match dict_find "units" kw with
               | None => mk_num y None
               | Some DNull => mk_num y None
               | Some (DStr s) => mk_num y (Some s)
               | Some _ => Err ValueError
               end
           end
  | _ => Err TypeError
  end.

Definition has {A} (k : string) (d : dict A) : bool :=
  match dict_find k d with Some _ => true | None => false end.

(** util/json.py:7-21 [decode_json(dct)]. *)
Definition decode_json (d : dict doc) : res doc :=
  match dict_find "__value__" d with
  | Some x => mapr DVal (from_json x)
  | None =>
      match dict_find "__ndarray__" d with
      | Some a => Ok (DArr (dict_find "dtype" d) a)
      | None =>
          if has "__scipy.sparse.sparsematrix__" d then
            if negb (forallb (fun k => has k d) ["dtype"; "shape"; "data"; "format"; "row"; "col"])
            then Ok (DObj d)
            else Ok (DSparse d)
          else Ok (DObj d)
      end
  end.

(** util/json.py:28-29, 36-37 [load], [loads] with [object_hook=decode_json]:
    simplejson builds each object (a later duplicate key wins) and passes it
    to the hook, innermost first. *)
Fixpoint decode (j : json) : res doc :=
  match j with
  | JNull => Ok DNull
  | JBool b => Ok (DBool b)
  | JNum x => Ok (DNum x)
  | JStr s => Ok (DStr s)
  | JList l => mapr DList (traverse decode l)
  | JObj d =>
      let* kvs := traverse (fun kv => mapr (pair (fst kv)) (decode (snd kv))) d in
      decode_json (dict_update [] kvs)
  end.
End Json.
Arguments json : clear implicits.
Arguments doc : clear implicits.
