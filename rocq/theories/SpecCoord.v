(** * Specification vocabulary for the coordinate manager. *)
From Coq Require Import String ZArith List Bool.
From Verif Require Import Num Vec RVec MRotation MComposite MCoord.
Import ListNotations.
Local Open Scope string_scope.

(** Names a tag must not have to be readable: the methods and fields of the
    object itself, and Python's own attributes. *)
Definition python_name (s : string) : Prop := String.prefix "__" s = true.
Definition own_names : list string :=
  ["append_transform4"; "append_transform3"; "scale"; "convert_units"; "translate"; "reorient"; "rotate";
   "tag_as"; "do_transform"; "tags_to_indices"; "points_tag"; "points"; "_transform"; "points_or_mesh"].
Definition readable (s : string) : Prop := ~ python_name s /\ ~ In s own_names.

Section Spec.
Context {F B : Type} {N : Num F}.
(** [m.a = x] and then [m.b] *)
Definition set_then_read (m : manager F B) (a : string) (x : value F B) (b : string) : res (read_result F B) :=
  let* m' := set_attr m a x in get_attr m' b.
(** the transform calls of a history, in order *)
Definition transform_calls (es : list (event F B)) : list (op F) :=
  flat_map (fun e => match e with Do o => [o] | _ => [] end) es.
Definition not_tagged (a : string) (es : list (event F B)) : Prop := ~ In (TagAs a) es.
End Spec.
