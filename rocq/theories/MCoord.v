(** * Model of blmath/geometry/transform/coordinate_manager.py. *)
From Coq Require Import String ZArith List Bool.
From Verif Require Import Num Vec NpList MRotation MComposite.
Import ListNotations.
Local Open Scope string_scope.

(** attribute names that Python finds without calling [__getattr__]: the methods
    of the class (coordinate_manager.py:18-118) and those of [object] *)
Definition class_attributes : list string :=
  ["append_transform4"; "append_transform3"; "scale"; "convert_units"; "translate"; "reorient"; "rotate"; "tag_as"; "do_transform";
   "__class__"; "__delattr__"; "__dict__"; "__dir__"; "__doc__"; "__eq__"; "__format__"; "__ge__"; "__getattr__"; "__getattribute__"; "__gt__";
   "__hash__"; "__init__"; "__init_subclass__"; "__le__"; "__lt__"; "__module__"; "__ne__"; "__new__"; "__reduce__"; "__reduce_ex__";
   "__repr__"; "__setattr__"; "__sizeof__"; "__str__"; "__subclasshook__"; "__weakref__"].
(** the entries of the instance's [__dict__] (lines 20-30) *)
Definition instance_attributes : list string := ["tags_to_indices"; "points_tag"; "points"; "_transform"].

Section Coord.
Context {F : Type} {N : Num F} {B : Type}.

(** An (n, 3) array, or an object with an attribute [v] (an array or None) and
    other content [rest]. *)
Inductive value := Points (ps : list (V3 F)) | MeshObj (v : option (list (V3 F))) (rest : B).
(** coordinate_manager.py:18-30: [tags_to_indices], the set value with its tag
    ([points_tag], [points_or_mesh]), and the composite transform. *)
Record manager := mkManager {
  tags_to_indices : list (string * nat);
  current : option (string * value);
  transform : transforms F }.
Definition new_manager : manager := mkManager [] None [].

(** [d[k]] and [k in d]; the latest entry is first *)
Definition lookup (d : list (string * nat)) (k : string) : option nat :=
  match find (fun e => String.eqb (fst e) k) d with Some e => Some (snd e) | None => None end.

(** coordinate_manager.py:47-61 [tag_as(name)] *)
Definition tag_as (m : manager) (name : string) : manager :=
  mkManager ((name, length (transform m)) :: tags_to_indices m) (current m) (transform m).
(** coordinate_manager.py:32-45: the transform methods (they return None) *)
Definition add_transform (inv : inv_t) (as_rot : rot_arg F -> res (M3 F)) (m : manager) (o : op F) : res manager :=
  let* r := apply_op inv as_rot (transform m) o in
  Ok (mkManager (tags_to_indices m) (current m) (fst r)).
(** coordinate_manager.py:63-97 [do_transform(points_or_mesh, from_tag, to_tag)].
    An unknown tag: line 79 reads [e.message], which Python 3 exceptions lack,
    so AttributeError. *)
Definition do_transform (m : manager) (x : value) (from_tag to_tag : string) : res value :=
  let go points :=
    match lookup (tags_to_indices m) from_tag, lookup (tags_to_indices m) to_tag with
    | Some from_index, Some to_index =>
        if Nat.eqb from_index to_index then Ok points
        else if Nat.ltb from_index to_index
        then call (transform m) points (Some (Some (Z.of_nat from_index), Some (Z.of_nat to_index))) false
        else call (transform m) points (Some (Some (Z.of_nat to_index), Some (Z.of_nat from_index))) true
    | _, _ => Err AttributeError
    end in
  match x with
  | MeshObj None _ => Ok x
  | MeshObj (Some points) rest => let* p := go points in Ok (MeshObj (Some p) rest)
  | Points points => let* p := go points in Ok (Points p)
  end.
(** coordinate_manager.py:99-108 [__setattr__(name, value)] *)
Definition set_attr (m : manager) (name : string) (x : value) : res manager :=
  match lookup (tags_to_indices m) name with
  | None => Err AttributeError
  | Some _ => Ok (mkManager (tags_to_indices m) (Some (name, x)) (transform m))
  end.
(** Reading an attribute: Python's own lookup first ([Internal]: the method or
    private field of that name), then coordinate_manager.py:110-118 [__getattr__]. *)
Inductive read_result := Value (x : value) | Internal.
Definition get_attr (m : manager) (name : string) : res read_result :=
  let found := existsb (String.eqb name) (class_attributes ++ instance_attributes ++
                 match current m with Some _ => ["points_or_mesh"] | None => [] end) in
  if found then Ok Internal
  else match current m with
       | None => Err ValueError
       | Some (points_tag, x) => mapr Value (do_transform m x points_tag name)
       end.

(** Public calls; a call that raises changes nothing. *)
Inductive event := Do (o : op F) | TagAs (name : string) | SetAttr (name : string) (x : value).
Definition step (inv : inv_t) (as_rot : rot_arg F -> res (M3 F)) (m : manager) (e : event) : manager :=
  match e with
  | Do o => match add_transform inv as_rot m o with Ok m' => m' | Err _ => m end
  | TagAs name => tag_as m name
  | SetAttr name x => match set_attr m name x with Ok m' => m' | Err _ => m end
  end.
Definition history (inv : inv_t) (as_rot : rot_arg F -> res (M3 F)) (es : list event) : manager :=
  fold_left (step inv as_rot) es new_manager.
End Coord.
Arguments value F B : clear implicits.
Arguments manager F B : clear implicits.
Arguments event F B : clear implicits.
Arguments read_result F B : clear implicits.
