(** * Model of blmath/geometry/primitives/polyline.py.

    A Polyline object is the record of its three instance attributes.  A method
    that assigns attributes returns the new state together with its outcome, so
    that the state left behind by an exception is visible. *)
From Coq Require Import String DecimalString DecimalNat ZArith List Bool.
From Verif Require Import Num Vec NpList MVx MPlane MSegment.
Import ListNotations.
Local Open Scope num_scope.

Section Polyline.
Context {F : Type} {N : Num F}.

Definition edge := (nat * nat)%type.
(** polyline.py:22-32: [__dict__['v']], [__dict__['closed']], [__dict__['e']]. *)
Record polyline := mkpoly { p_v : option (list (V3 F)); p_closed : bool; p_e : option (list edge) }.

(** What is assigned to [v]: None, a two-dimensional numeric array (rows,
    columns, entries), or something numpy or the validation rejects. *)
Inductive array_in := InNone | In2 (rows cols : nat) (at_ : nat -> nat -> F) | InBad (e : exc).
(** numerics/coercion.py:1-46 [as_numeric_array(val, dtype=np.float64,
    shape=(-1, 3), allow_none=True)]. *)
Definition as_points (a : array_in) : res (option (list (V3 F))) :=
  match a with
  | InNone => Ok None
  | InBad e => Err e
  | In2 r c at_ =>
      if Nat.eqb c 3 then Ok (Some (map (fun i => mk3 (at_ i 0%nat) (at_ i 1%nat) (at_ i 2%nat)) (seq 0 r)))
      else if Nat.eqb r 3 then Ok (Some (map (fun j => mk3 (at_ 0%nat j) (at_ 1%nat j) (at_ 2%nat j)) (seq 0 c)))
      else Err ValueError
  end.

(** polyline.py:73-79, the edge array. [np.arange(-1)] is empty. *)
Definition make_edges (num_vertices : nat) (closed : bool) : res (list edge) :=
  let num_edges := if closed then num_vertices else (num_vertices - 1)%nat in
  let edges := map (fun i => (i, S i)) (seq 0 num_edges) in
  if closed then
    match edges with
    | [] => Err IndexError
    | e0 :: _ => Ok (removelast edges ++ [(fst (last edges e0), 0%nat)])
    end
  else Ok edges.
(** polyline.py:68-83 [_update_edges]. *)
Definition update_edges (p : polyline) : polyline * res unit :=
  match p_v p with
  | None => (mkpoly None (p_closed p) None, Ok tt)
  | Some v =>
      match make_edges (length v) (p_closed p) with
      | Ok es => (mkpoly (Some v) (p_closed p) (Some es), Ok tt)
      | Err x => (p, Err x)
      end
  end.
(** predicates.py:12 through coercion.py:30: every entry is finite. *)
Definition numeric (l : list (V3 F)) : bool := forallb (fun v => all3 (map3 nfinite v)) l.
(** polyline.py:85-94, setting [v] to an array already in shape (n, 3):
    NaN or infinite entries are refused before anything is assigned. *)
Definition set_points (p : polyline) (v : option (list (V3 F))) : polyline * res unit :=
  if match v with None => true | Some l => numeric l end
  then update_edges (mkpoly v (p_closed p) (p_e p))
  else (p, Err ValueError).
(** polyline.py:85-94 [v] setter. *)
Definition set_v (p : polyline) (a : array_in) : polyline * res unit :=
  match as_points a with
  | Ok v => set_points p v
  | Err x => (p, Err x)
  end.
(** polyline.py:96-103 [closed] setter. *)
Definition set_closed (p : polyline) (c : bool) : polyline * res unit :=
  update_edges (mkpoly (p_v p) c (p_e p)).
(** polyline.py:22-32 [__init__] (an object whose constructor raises is not
    seen by the caller). *)
Definition init (a : array_in) (closed : bool) : res polyline :=
  let (p, r) := set_v (mkpoly None closed None) a in let* _ := r in Ok p.
Definition init_points (v : option (list (V3 F))) (closed : bool) : res polyline :=
  let (p, r) := set_points (mkpoly None closed None) v in let* _ := r in Ok p.
(** polyline.py:43-44 [__len__]. *)
Definition poly_len (p : polyline) : res nat :=
  match p_v p with None => Err TypeError | Some v => Ok (length v) end.
(** polyline.py:46-52 [copy]. *)
Definition copy (p : polyline) : res polyline := init_points (p_v p) (p_closed p).

(** [v[e]] for an array of index pairs. *)
Definition take_pairs {A} (v : list A) (es : list edge) : res (list (A * A)) :=
  traverse (fun e => let* a := getitem v (fst e) in let* b := getitem v (snd e) in Ok (a, b)) es.
(** polyline.py:114-119 [segments]; [v[None]] adds an axis (not modelled:
    reported as OtherException), [None[...]] is a TypeError. *)
Definition segments (p : polyline) : res (list (V3 F * V3 F)) :=
  match p_v p, p_e p with
  | Some v, Some es => take_pairs v es
  | None, _ => Err TypeError
  | Some _, None => Err OtherException
  end.
(** polyline.py:121-130 [segment_lengths]. SIMPLIFICATION: [x ** 0.5] is the
    square root. *)
Definition segment_lengths (p : polyline) : res (list F) :=
  match p_e p with
  | None => Ok []
  | Some _ => let* ss := segments p in Ok (map (fun ab => vnorm (vsub (snd ab) (fst ab))) ss)
  end.
(** polyline.py:132-138 [total_length]. *)
Definition total_length (p : polyline) : res F := let* l := segment_lengths p in Ok (nsum l).
(** polyline.py:140-146 [segment_vectors]. *)
Definition segment_vectors (p : polyline) : res (list (V3 F)) :=
  let* ss := segments p in Ok (map (fun ab => vsub (snd ab) (fst ab)) ss).

(** polyline.py:148-152 [flip]; [np.flipud(None)] is a ValueError. *)
Definition flip (p : polyline) : polyline * res unit :=
  match p_v p with
  | None => (p, Err ValueError)
  | Some v => set_points p (Some (rev v))
  end.

(** Python slices [l[z:]] and [l[0:z]] for any integer [z]. *)
Definition slice_pos {A} (l : list A) (z : Z) : nat :=
  let n := Z.of_nat (length l) in
  Z.to_nat (if (z <? 0)%Z then Z.max 0 (n + z) else Z.min z n).
Definition slice_from {A} (l : list A) (z : Z) : list A := skipn (slice_pos l z) l.
Definition slice_to {A} (l : list A) (z : Z) : list A := firstn (slice_pos l z) l.
(** [np.arange(a, b)] for integers. *)
Definition zarange (a b : Z) : list Z := map (fun k => (a + Z.of_nat k)%Z) (seq 0 (Z.to_nat (b - a))).
(** polyline.py:154-178 [reindexed(index, ret_edge_mapping=True)]. *)
Definition reindexed (p : polyline) (index : Z) : res (polyline * list Z) :=
  if p_closed p then
    match p_v p with
    | None => Err TypeError
    | Some v =>
        let* q := init_points (Some (slice_from v index ++ slice_to v index)) true in
        Ok (q, zarange index (Z.of_nat (length v)) ++ zarange 0 index)
    end
  else Err ValueError.

(** polyline.py:203-208, the points contributed by one segment, where
    [x = length / max_length]: [num_segments = np.ceil(x)] is compared with 1,
    and [np.int] of a non-finite number raises. *)
Definition subdivide (start_point end_point : V3 F) (x : F) : res (list (V3 F)) :=
  match nceil x with
  | Some k => if (k <=? 1)%Z then Ok [start_point] else partition_segment start_point end_point (IntArg k) false
  | None => if x <=? nofZ 1 then Ok [start_point] else if x =? x then Err OverflowError else Err ValueError
  end.
(** polyline.py:198-208, the loop; [new_v] and [idx] are the accumulators. *)
Fixpoint partition_loop (ss : list (V3 F * V3 F)) (xs : list F) (new_v : list (V3 F)) (idx : list nat)
  : res (list (V3 F) * list nat) :=
  match ss, xs with
  | ab :: ss', x :: xs' =>
      let* pts := subdivide (fst ab) (snd ab) x in
      partition_loop ss' xs' (new_v ++ pts) (idx ++ [length new_v])
  | _, _ => Ok (new_v, idx)
  end.
(** polyline.py:180-216 [partition_by_length(max_length, ret_indices=True)]. *)
Definition partition_by_length (p : polyline) (max_length : F) : polyline * res (list nat) :=
  let body : res (list (V3 F) * list nat) :=
    let* lengths := segment_lengths p in
    let* ss := match p_e p with None => Ok [] | Some _ => segments p end in
    let* acc := partition_loop ss (map (fun l => l / max_length) lengths) [] [] in
    let (new_v, idx) := acc in
    if p_closed p then Ok (new_v, idx)
    else match p_v p with
         | None => Err TypeError
         | Some [] => Err IndexError
         | Some (x :: v) => Ok (new_v ++ [last (x :: v) x], idx ++ [length new_v])
         end in
  match body with
  | Err x => (p, Err x)
  | Ok (new_v, idx) => let (q, r) := set_points p (Some new_v) in (q, mapr (fun _ => idx) r)
  end.

(** polyline.py:218-226 [apex]. *)
Definition poly_apex (p : polyline) (axis : V3 F) : res (V3 F) :=
  match p_v p with None => Err AttributeError | Some v => apex v axis end.

(** polyline.py:228-245 [intersect_plane(plane, ret_edge_indices=True)]. *)
Definition intersect_plane (p : polyline) (pl : plane F) : res (list (V3 F) * list nat) :=
  match p_v p, p_e p with
  | Some v, Some es =>
      let sgn_dists := signed_distance pl v in
      let* sgns := take_pairs (map nsign sgn_dists) es in
      let which_es := map (fun ab => negb (nabs (fst ab + snd ab) =? nofZ 2)) sgns in
      let* ds := take_pairs sgn_dists (compress which_es es) in
      let endpoint_distances := map (fun ab => (nabs (fst ab), nabs (snd ab))) ds in
      let t := map (fun ab => (fst ab / (fst ab + snd ab), snd ab / (fst ab + snd ab))) endpoint_distances in
      let* ss := segments p in
      let pts := map2 (fun ab (s : V3 F * V3 F) =>
                         vadd (vscale (nofZ 1 - fst ab) (fst s)) (vscale (nofZ 1 - snd ab) (snd s)))
                      t (compress which_es ss) in
      Ok (pts, flatnonzero 0 which_es)
  | None, _ => Err TypeError
  | Some _, None => Err OtherException
  end.

(** polyline.py:247-267 [_cut_by_plane_open]. *)
Definition cut_by_plane_open (p : polyline) (pl : plane F) (intersection_point : V3 F) (i : nat) : res polyline :=
  match p_v p, p_e p with
  | Some v, Some es =>
      let* e := getitem es i in
      let* vecs := segment_vectors p in
      let* vec := getitem vecs i in
      if n0 <? sproj1 vec (normal pl)
      then init_points (Some (intersection_point :: skipn (snd e) v)) false
      else init_points (Some (firstn (S (fst e)) v ++ [intersection_point])) false
  | _, _ => Err TypeError
  end.

(** [np.array([maybe_point])], or no rows (polyline.py:312-316). *)
Definition to_array (o : option (V3 F)) : list (V3 F) := match o with None => [] | Some x => [x] end.
(** [l[-1]] *)
Definition getlast {A} (l : list A) : res A :=
  match l with [] => Err IndexError | x :: _ => Ok (last l x) end.
(** polyline.py:269-324 [_cut_by_plane_closed]. *)
Definition cut_by_plane_closed (p : polyline) (pl : plane F) : res polyline :=
  match p_v p with
  | None => Err TypeError
  | Some v =>
      let v_sign := sign pl v in
      let* s0 := getitem v_sign 0 in
      let* index :=
        if s0 =? nofZ (-1)
        then getitem (flatnonzero 0 (map (fun s => n0 <=? s) v_sign)) 0
        else let* i := getlast (flatnonzero 0 (map (fun s => s <? n0) v_sign)) in Ok (S i) in
      let* working := let* qm := reindexed p (Z.of_nat index) in Ok (fst qm) in
      match p_v working with
      | None => Err TypeError
      | Some w =>
          let v_sign := sign pl w in
          let* ss := segments working in
          let* s0 := getitem v_sign 0 in
          let* start :=
            if s0 =? n0 then Ok None
            else let* ab := getlast ss in Ok (line_segment_xsection pl (fst ab) (snd ab)) in
          let* end_index := getlast (flatnonzero 0 (map (fun s => n0 <=? s) v_sign)) in
          let* send := getitem v_sign end_index in
          let* end_ :=
            if send =? n0 then Ok None
            else let* ab := getitem ss end_index in Ok (line_segment_xsection pl (fst ab) (snd ab)) in
          init_points (Some (to_array start ++ firstn (S end_index) w ++ to_array end_)) false
      end
  end.
(** polyline.py:326-362 [cut_by_plane]. *)
Definition cut_by_plane (p : polyline) (pl : plane F) : res polyline :=
  let* r := intersect_plane p pl in
  let (pts, idx) := r in
  match idx with
  | [] => Err ValueError
  | i0 :: rest =>
      if p_closed p then
        if negb (Nat.eqb (length idx) 2) then Err ValueError else cut_by_plane_closed p pl
      else if Nat.ltb 1 (length idx) then Err ValueError
      else let* x := getitem pts 0 in cut_by_plane_open p pl x i0
  end.
(** plane.py:196-200 [polyline_xsection] (deprecated): the method of the polyline. *)
Definition polyline_xsection (pl : plane F) (p : polyline) : res (list (V3 F) * list nat) := intersect_plane p pl.
(** polyline.py:105-112 [e]: what the last assignment stored. *)
Definition get_e (p : polyline) : option (list edge) := p_e p.
(** [str.format] of a length. *)
Definition dec_string (n : nat) : string := NilZero.string_of_uint (Nat.to_uint n).
(** polyline.py:34-41 [__repr__]. *)
Definition poly_repr (p : polyline) : res string :=
  match p_v p with
  | Some (_ :: _) =>
      let* n := poly_len p in
      Ok (if p_closed p then ("<closed Polyline with " ++ dec_string n ++ " verts>")%string
          else ("<open Polyline with " ++ dec_string n ++ " verts>")%string)
  | _ => Ok "<Polyline with no verts>"%string
  end.
End Polyline.
Arguments polyline F : clear implicits.
Arguments array_in F : clear implicits.
