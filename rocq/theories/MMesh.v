(** * Model of the mesh slicer: blmath/geometry/primitives/plane.py:238-431.

    Python's iteration orders are a schedule: [key_order t keys] is the order in which a
    dict with these keys is iterated at time [t], [pop_at t s] the element [set.pop]
    removes; [t] counts the uses.  Loops take fuel: the result [None] means that the loop
    is still running when the fuel is used up. *)
From Coq Require Import ZArith List Bool Arith.
From Verif Require Import Num Vec NpList MPlane MSegment MPolyline.
Import ListNotations.
Local Open Scope num_scope.

(** dicts with integer keys, as association lists in insertion order *)
Section Dict.
Context {A : Type}.
Definition dict := list (nat * A).
Fixpoint dget (d : dict) (k : nat) : option A :=
  match d with [] => None | (j, x) :: d' => if Nat.eqb j k then Some x else dget d' k end.
Fixpoint dset (d : dict) (k : nat) (x : A) : dict :=
  match d with [] => [(k, x)] | (j, y) :: d' => if Nat.eqb j k then (j, x) :: d' else (j, y) :: dset d' k x end.
Definition ddel (d : dict) (k : nat) : dict := filter (fun jx => negb (Nat.eqb (fst jx) k)) d.
End Dict.
Arguments dict A : clear implicits.
Definition mem (v : nat) (s : list nat) : bool := existsb (Nat.eqb v) s.
(** [s.add(v)], [s.remove(v)] *)
Definition sadd (v : nat) (s : list nat) : list nat := if mem v s then s else s ++ [v].
Definition srem (v : nat) (s : list nat) : list nat := filter (fun u => negb (Nat.eqb u v)) s.

Record schedule := mksched { key_order : nat -> list nat -> list nat; pop_at : nat -> list nat -> nat }.

(** plane.py:327-377 class [Graph]: [size] and [d] *)
Definition adj := dict (list nat).
Record graph := mkgraph { g_size : nat; g_d : adj }.
(** plane.py:337-345 [add_edge]; the arguments may be None ([None >= 0] raises) *)
Definition add_edge (g : graph) (u v : option nat) : res graph :=
  match u with
  | None => Err TypeError
  | Some u =>
      if Nat.ltb u (g_size g) then
        match v with
        | None => Err TypeError
        | Some v =>
            if Nat.ltb v (g_size g) then
              let d := g_d g in
              let d := match dget d u with None => dset d u [] | Some _ => d end in
              let d := match dget d v with None => dset d v [] | Some _ => d end in
              let d := match dget d u with None => d | Some s => dset d u (sadd v s) end in
              let d := match dget d v with None => d | Some s => dset d v (sadd u s) end in
              Ok (mkgraph (g_size g) d)
            else Err AssertionError
        end
      else Err AssertionError
  end.
(** plane.py:334-336 [add_edges] *)
Fixpoint add_edges (g : graph) (es : list (nat * nat)) : res graph :=
  match es with [] => Ok g | (u, v) :: es => let* g := add_edge g (Some u) (Some v) in add_edges g es end.
(** plane.py:346-354 [remove_edge] *)
Definition discard (d : adj) (u v : nat) : adj :=
  match dget d u with Some s => if mem v s then dset d u (srem v s) else d | None => d end.
Definition drop_empty (d : adj) (v : nat) : adj :=
  match dget d v with Some [] => ddel d v | _ => d end.
Definition remove_edge (d : adj) (u v : nat) : adj := drop_empty (drop_empty (discard (discard d u v) v u) v) u.
(** plane.py:368-377: the main loop of [pop_euler_path]; the top of the stack comes first *)
Fixpoint walk (sch : schedule) (fuel t : nat) (d : adj) (stack path : list nat) : option (res (list nat * adj * nat)) :=
  match stack with
  | [] => Some (Ok (path, d, t))
  | v :: below =>
      match fuel with
      | O => None
      | S fuel =>
          match dget d v with
          | Some [] => Some (Err KeyError)
          | Some s =>
              let u := pop_at sch t s in
              let d := dset d v (srem u s) in
              walk sch fuel (S t) (remove_edge d u v) (u :: stack) path
          | None => walk sch fuel t d below (path ++ [v])
          end
      end
  end.
(** plane.py:355-377 [pop_euler_path] *)
Definition odd_degree (d : adj) (x : nat) : bool := match dget d x with Some s => Nat.odd (length s) | None => false end.
Definition pop_euler_path (sch : schedule) (fuel t : nat) (d : adj) (allow_multiple_connected_components : bool)
    : option (res (option (list nat) * adj * nat)) :=
  let keys := key_order sch t (map fst d) in
  match keys with
  | [] => Some (Err OtherException)
  | first :: _ =>
      let odd := filter (odd_degree d) keys ++ [first] in
      if negb allow_multiple_connected_components && Nat.ltb 3 (length odd) then Some (Ok (None, d, S t))
      else match walk sch fuel (S t) d [hd first odd] [] with
           | None => None
           | Some (Err e) => Some (Err e)
           | Some (Ok (path, d, t)) => Some (Ok (Some path, d, t))
           end
  end.
(** plane.py:398-401: the loop over the components *)
Fixpoint extract (sch : schedule) (fuel t : nat) (d : adj) : option (res (list (list nat))) :=
  match d with
  | [] => Some (Ok [])
  | _ =>
      match fuel with
      | O => None
      | S fuel =>
          match pop_euler_path sch fuel t d true with
          | None => None
          | Some (Err e) => Some (Err e)
          | Some (Ok (None, _, _)) => Some (Err ValueError)
          | Some (Ok (Some path, d, t)) =>
              match extract sch fuel t d with
              | Some (Ok paths) => Some (Ok (path :: paths))
              | r => r
              end
          end
      end
  end.

Section Mesh.
Context {F : Type} {N : Num F}.
(** plane.py:283-315 class [EdgeMap] *)
Record edge_map := mkem { em_d : dict (dict nat); em_values : list (V3 F) }.
Definition em_order (u v : nat) : nat * nat := if Nat.ltb u v then (u, v) else (v, u).
Definition em_add (m : edge_map) (u v : nat) (val : V3 F) : edge_map :=
  let (low, high) := em_order u v in
  let d := match dget (em_d m) low with None => dset (em_d m) low [] | Some _ => em_d m end in
  let values := em_values m ++ [val] in
  mkem (dset d low (dset match dget d low with Some dl => dl | None => [] end high (length values - 1)%nat)) values.
Definition em_index (m : edge_map) (u v : nat) : option nat :=
  let (low, high) := em_order u v in
  match dget (em_d m) low with Some dl => dget dl high | None => None end.
Definition em_contains (m : edge_map) (u v : nat) : bool :=
  let (low, high) := em_order u v in
  match dget (em_d m) low with Some dl => match dget dl high with Some _ => true | None => false end | None => false end.
(** plane.py:322-324 *)
Fixpoint em_fill (m : edge_map) (pes : list (V3 F * (nat * nat))) : edge_map :=
  match pes with
  | [] => m
  | (val, (u, v)) :: pes => em_fill (if em_contains m u v then m else em_add m u v val) pes
  end.
(** plane.py:379-393 *)
Definition link_face (m : edge_map) (g : graph) (f : face) : res graph :=
  let '(a, b, c) := f in
  let e0 := em_index m a b in let e1 := em_index m a c in let e2 := em_index m b c in
  match e0 with
  | None => add_edge g e1 e2
  | Some _ => match e1 with None => add_edge g e0 e2 | Some _ => add_edge g e0 e1 end
  end.
Fixpoint link_faces (m : edge_map) (g : graph) (fs : list face) : res graph :=
  match fs with [] => Ok g | f :: fs => let* g := link_face m g f in link_faces m g fs end.
(** plane.py:402-410: a component's vertices and whether it is closed.  SIMPLIFICATION:
    computed after the loop over the components instead of inside it. *)
Definition component (verts : list (V3 F)) (path : list nat) : res (list (V3 F) * bool) :=
  let* cv := take verts path in
  match cv with
  | [] => Err IndexError
  | first :: rest => if veqb first (last cv first) then Ok (rest, true) else Ok (cv, false)
  end.
(** plane.py:280 *)
Definition face_edges (fs : list face) : list (nat * nat) :=
  map (fun f => let '(a, b, c) := f in (a, b)) fs ++ map (fun f => let '(a, b, c) := f in (b, c)) fs ++
  map (fun f => let '(a, b, c) := f in (c, a)) fs.
(** plane.py:256-414 up to the choice of the component *)
Definition section_components (sch : schedule) (fuel : nat) (p : plane F) (m : mesh F) : option (res (list (list (V3 F) * bool))) :=
  match mesh_intersecting_faces p m with
  | Err e => Some (Err e)
  | Ok [] => Some (Ok [])
  | Ok fs =>
      let es := face_edges fs in
      match take (m_v m) (map fst es), take (m_v m) (map snd es) with
      | Ok va, Ok vb =>
          let (pts, valid) := line_segment_xsections p va vb in
          let im := em_fill (mkem [] []) (combine (compress valid pts) (compress valid es)) in
          let verts := em_values im in
          match link_faces im (mkgraph (length verts) []) fs with
          | Err e => Some (Err e)
          | Ok g =>
              match extract sch fuel 0 (g_d g) with
              | None => None
              | Some (Err e) => Some (Err e)
              | Some (Ok paths) => Some (traverse (component verts) paths)
              end
          end
      | Err e, _ | _, Err e => Some (Err e)
      end
  end.
(** [np.argmin]: the first minimum; a NaN counts as smaller than any number. *)
Definition argmin (l : list F) : res nat :=
  argbest (fun x best => if best =? best then (x <? best) || negb (x =? x) else false) l.
(** plane.py:256-422 [mesh_xsections]; [query] stands for [cKDTree(neighborhood).query],
    giving the distance of each point to the neighborhood. *)
Definition mesh_xsections (sch : schedule) (fuel : nat) (p : plane F) (m : mesh F) (neighborhood : option (V3 F -> F))
    : option (res (list (polyline F))) :=
  match section_components sch fuel p m with
  | None => None
  | Some (Err e) => Some (Err e)
  | Some (Ok comps) =>
      Some match neighborhood with
           | Some query =>
               if Nat.eqb (length comps) 0 then Ok []
               else if Nat.eqb (length comps) 1 then traverse (fun vc => init_points (Some (fst vc)) (snd vc)) comps
               else
                 let means := map (fun vc => nsum (map query (fst vc)) / nofZ (Z.of_nat (length (fst vc)))) comps in
                 let* i := argmin means in
                 let* vc := getitem comps i in
                 let* q := init_points (Some (fst vc)) true in
                 Ok [q]
           | None => traverse (fun vc => init_points (Some (fst vc)) (snd vc)) comps
           end
  end.
(** plane.py:238-249 [mesh_xsection] *)
Definition mesh_xsection (sch : schedule) (fuel : nat) (p : plane F) (m : mesh F) (neighborhood : option (V3 F -> F))
    : option (res (polyline F)) :=
  match mesh_xsections sch fuel p m neighborhood with
  | None => None
  | Some (Err e) => Some (Err e)
  | Some (Ok []) => Some (init_points None false)
  | Some (Ok ps) => Some (init_points (Some (concat (map (fun q => match p_v q with Some v => v | None => [] end) ps))) true)
  end.
End Mesh.
