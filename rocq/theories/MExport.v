(** * Model of the exporting methods of Polyline, and of two one-line methods of Plane. *)
From Coq Require Import ZArith List String Bool.
From Verif Require Import Num Vec NpList MRounding MPlane MPolyline MValue MJson.
Import ListNotations.
Local Open Scope string_scope.

Section Export.
Context {F : Type} {N : Num F}.
(** [np.around(x, decimals)]: times the power of ten, to the nearest integer (half to even),
    divided again; what is not finite stays as it is *)
Definition around (decimals : nat) (x : F) : F :=
  match round_places x decimals with Ok y => y | Err _ => x end.
(** polyline.py:62-66 [to_dict]; without vertices the loop over None is a TypeError.  The
    edges stay an index array (or None). *)
Definition edge_doc (e : edge) : doc F := DList [DNum (nofZ (Z.of_nat (fst e))); DNum (nofZ (Z.of_nat (snd e)))].
Definition to_dict (p : polyline F) (decimals : nat) : res (doc F) :=
  match p_v p with
  | None => Err TypeError
  | Some v => Ok (DObj
      [("vertices", DList (map (fun x => DList (map (fun c => DNum (around decimals c)) [c0 x; c1 x; c2 x])) v));
       ("edges", match p_e p with None => DNull | Some es => DArr (Some (DStr "int64")) (DList (map edge_doc es)) end)])
  end.
(** polyline.py:54-60 [as_lines]: the arguments given to [lace.lines.Lines] *)
Definition as_lines (p : polyline F) : option (list (V3 F)) * option (list edge) := (p_v p, p_e p).
(** plane.py:127-132 [normal]; 196-200 [polyline_xsection] (deprecated) *)
Definition plane_normal (q : plane F) : V3 F := pl_n q.
Definition polyline_xsection (q : plane F) (p : polyline F) := intersect_plane p q.
End Export.
