(** * Model of blmath/optimization/objectives/normals.py.

    Arrays are flat lists; [reshape((-1, 3))] and [ravel()] are explicit.  The nodes
    are modelled by the functions their methods compute, and VertNormals also by the
    machine of its cached sub-graph. *)
From Coq Require Import ZArith List Bool.
From Verif Require Import Num Vec NpList.
Import ListNotations.
Local Open Scope num_scope.

(** [a.reshape((-1, 3))] / [.ravel()] *)
Fixpoint reshape3 {A} (l : list A) : res (list (V3 A)) :=
  match l with
  | [] => Ok []
  | x :: y :: z :: l' => let* r := reshape3 l' in Ok (mk3 x y z :: r)
  | _ => Err ValueError
  end.
Definition ravel3 {A} (l : list (V3 A)) : list A := flat_map (fun v => [c0 v; c1 v; c2 v]) l.
(** [a[i]] with Python's negative indices *)
Definition pyget {A} (l : list A) (i : Z) : res A :=
  let n := Z.of_nat (length l) in
  if (i <? - n)%Z || (n <=? i)%Z then Err IndexError
  else getitem l (Z.to_nat (if (i <? 0)%Z then i + n else i)%Z).
Definition column (k : Z) (f : V3 Z) : res Z := pyget [c0 f; c1 f; c2 f] k.

Section Sparse.
Context {F : Type} {N : Num F}.
(** A scipy sparse matrix by its shape and stored entries (row, column, value);
    repeated positions add up. *)
Record sparse := mksparse { sp_rows : nat; sp_cols : nat; sp_entries : list (nat * nat * F) }.
(** [m.dot(x)].  SIMPLIFICATION: repeated positions are not merged beforehand. *)
Definition sp_dot (m : sparse) (x : list F) : res (list F) :=
  if Nat.eqb (length x) (sp_cols m) then
    Ok (map (fun i => nsum (map (fun e => snd e * nth (snd (fst e)) x n0)
                              (filter (fun e => Nat.eqb (fst (fst e)) i) (sp_entries m))))
          (seq 0 (sp_rows m)))
  else Err ValueError.
Definition sp_neg (m : sparse) : sparse :=
  mksparse (sp_rows m) (sp_cols m) (map (fun e => (fst e, - snd e)) (sp_entries m)).
(** [m - k] for equal shapes *)
Definition sp_sub (m k : sparse) : sparse :=
  mksparse (sp_rows m) (sp_cols m) (sp_entries m ++ sp_entries (sp_neg k)).
(** [csc_matrix((data, indices, indptr), shape)]: column [j] holds the entries
    numbered [indptr[j]] up to [indptr[j+1]]. *)
Definition csc (data : list F) (indices indptr : list nat) (rows cols : nat) : sparse :=
  mksparse rows cols
    (flat_map (fun j => map (fun k => (nth k indices 0%nat, j, nth k data n0))
                          (seq (nth j indptr 0%nat) (nth (S j) indptr 0%nat - nth j indptr 0%nat)))
       (seq 0 cols)).
(** [csc_matrix((data, (i, j)), shape)]; indices outside the shape are refused *)
Definition coo (data : list F) (i j : list Z) (rows cols : nat) : res sparse :=
  let out n k := (k <? 0)%Z || (Z.of_nat n <=? k)%Z in
  if existsb (out rows) i || existsb (out cols) j then Err ValueError
  else Ok (mksparse rows cols (combine (combine (map Z.to_nat i) (map Z.to_nat j)) data)).
End Sparse.
Arguments sparse F : clear implicits.

(** normals.py:35-39 (and 172-177): for [size] entries, [arange(0, (size+1)*3, 3)] and
    the row numbers of the block-diagonal pattern. *)
Definition block_indptr (size : nat) : list nat := map (fun k => 3 * k)%nat (seq 0 (S size)).
Definition block_indices (size : nat) : res (list nat) :=
  let stacked := flat_map (fun k => [k; k; k]) (seq 0 size) in
  let* rows := reshape3 stacked in
  let* blocks := reshape3 rows in
  Ok (ravel3 (ravel3 (map mtrans blocks))).

Section Nodes.
Context {F : Type} {N : Num F}.

(** [data.ravel()] of a stack of 3x3 blocks as a csc matrix over that pattern *)
Definition block_csc (blocks : list (M3 F)) (indices indptr : list nat) (size : nat) : sparse F :=
  csc (ravel3 (ravel3 blocks)) indices indptr size size.

(** normals.py:14-22 NormalizedNx3.on_changed, compute_r *)
Definition row_ss (p : V3 F) : F :=
  let ss := vdot p p in if ss =? n0 then nlit 1 10000000000 else ss.
Definition normalized_value (v : list F) : res (list F) :=
  let* rows := reshape3 v in Ok (ravel3 (map (fun p => vdivs p (nsqrt (row_ss p))) rows)).
(** normals.py:24-41 NormalizedNx3.compute_dr_wrt(self.v).
    SIMPLIFICATION: [ss ** (-3/2)] is [1 / (ss * sqrt ss)]. *)
Definition normalized_block (p : V3 F) : M3 F :=
  let ss := row_ss p in
  let k := nofZ 1 / (ss * nsqrt ss) in
  let b := map3 (map3 (fun x => (- x) * k)) (mouter p p) in
  let s_inv := nofZ 1 / nsqrt ss in
  mk3 (mk3 (c0 (c0 b) + s_inv) (c1 (c0 b)) (c2 (c0 b)))
      (mk3 (c0 (c1 b)) (c1 (c1 b) + s_inv) (c2 (c1 b)))
      (mk3 (c0 (c2 b)) (c1 (c2 b)) (c2 (c2 b) + s_inv)).
Definition normalized_dr (v : list F) : res (sparse F) :=
  let* rows := reshape3 v in
  let* indices := block_indices (length v) in
  Ok (block_csc (map normalized_block rows) indices (block_indptr (length v)) (length v)).

(** normals.py:107-140 TriEdges and _edges_for *)
Definition edges_for (v : list F) (f : list (V3 Z)) (cplus cminus : Z) : res (list F) :=
  let* rows := reshape3 v in
  let* plus := traverse (fun t => let* i := column cplus t in pyget rows i) f in
  let* minus := traverse (fun t => let* i := column cminus t in pyget rows i) f in
  Ok (ravel3 (map2 vsub plus minus)).
Definition edges_dr (v : list F) (f : list (V3 Z)) (cplus cminus : Z) : res (sparse F) :=
  let* vplus := traverse (column cplus) f in
  let* vminus := traverse (column cminus) f in
  let three l := flat_map (fun i => [i * 3; i * 3 + 1; i * 3 + 2]%Z) l in
  let is := map Z.of_nat (seq 0 (3 * length f)) in
  let ones := repeat (nofZ 1) (3 * length f) in
  let mk item := coo ones is item (3 * length f) (length v) in
  let* dr_vplus := mk (three vplus) in
  let* dr_vminus := mk (three vminus) in
  Ok (sp_sub dr_vplus dr_vminus).

(** normals.py:196-211 CrossProduct.Ax and normals.py:214-231 Bx (on columns split by normals.py:150-160 on_changed), one 3x3 block per row *)
Definition ax (a : V3 F) : M3 F :=
  mk3 (mk3 n0 (- c2 a) (c1 a)) (mk3 (c2 a) n0 (- c0 a)) (mk3 (- c1 a) (c0 a) n0).
Definition bx (b : V3 F) : M3 F :=
  mk3 (mk3 n0 (c2 b) (- c1 b)) (mk3 (- c2 b) n0 (c0 b)) (mk3 (c1 b) (- c0 b) n0).
(** normals.py:162-165 CrossProduct.compute_r via _call_einsum_matvec (normals.py:234-236; _call_einsum_matmat, normals.py:238-240, is never called) *)
Definition cross_value (a b : list F) : res (list F) :=
  let* a := reshape3 a in
  let* b := reshape3 b in
  if Nat.eqb (length a) (length b) then Ok (ravel3 (map2 mapply (map ax a) b)) else Err ValueError.
(** normals.py:167-193 CrossProduct.compute_dr_wrt: [wrt_a] tells whether the object
    is [self.a] (otherwise [self.b]).  [cache] holds [self.indices], [self.indptr]. *)
Definition pattern := option (list nat * list nat).
Definition cross_dr (cache : pattern) (a b : list F) (wrt_a : bool) : res (sparse F * pattern) :=
  let* ra := reshape3 a in
  let* rb := reshape3 b in
  let sz := length a in
  let stale := match cache with
               | None => true
               | Some (indices, _) => negb (Nat.eqb (length indices) (sz * 3))
               end in
  let* (indices, indptr) :=
    if stale then let* i := block_indices sz in Ok (i, block_indptr sz)
    else match cache with Some c => Ok c | None => Err OtherException end in
  let blocks := if wrt_a then map bx rb else map ax ra in
  Ok (sp_neg (block_csc blocks indices indptr sz), Some (indices, indptr)).

(** normals.py:99-103 TriNormals, TriNormalsScaled *)
Definition tri_normals_scaled (v : list F) (f : list (V3 Z)) : res (list F) :=
  let* e1 := edges_for v f 1 0 in
  let* e2 := edges_for v f 2 0 in
  cross_value e1 e2.
Definition tri_normals (v : list F) (f : list (V3 Z)) : res (list F) :=
  let* t := tri_normals_scaled v f in normalized_value t.

(** normals.py:66-75: the matrix adding up, for each vertex, the rows of its faces *)
Definition faces_by_vertex (v : list (V3 F)) (f : list (V3 Z)) : res (sparse F) :=
  let is := ravel3 f in
  let js := flat_map (fun k => [k; k; k]) (map Z.of_nat (seq 0 (length f))) in
  let off k := map (fun i => i * 3 + k)%Z in
  coo (repeat (nofZ 1) (3 * (3 * length f))) (off 0%Z is ++ off 1%Z is ++ off 2%Z is) (off 0%Z js ++ off 1%Z js ++ off 2%Z js)
    (3 * length v) (3 * length f).
(** normals.py:77-91: the value of the sub-graph built from [fbv] and [f], at [v] *)
Definition graph_value (fbv : sparse F) (f : list (V3 Z)) (normalized : bool) (v : list (V3 F)) : res (list (V3 F)) :=
  let* tns := tri_normals_scaled (ravel3 v) f in
  if normalized then
    let* tmp := sp_dot fbv tns in
    let* r := normalized_value tmp in
    reshape3 r
  else
    let* test := sp_dot fbv (repeat (nofZ 1) (sp_cols fbv)) in
    let scaled := mksparse (sp_rows fbv) (sp_cols fbv)
                    (map (fun e => (fst e, nofZ 1 / nth (fst (fst e)) test n0 * snd e)) (sp_entries fbv)) in
    let* m := sp_dot scaled tns in
    let* rows := reshape3 m in
    Ok (map (fun p => vdivs p (nsqrt (nsqrt (vdot p p)))) rows).
(** A new node with these inputs. *)
Definition vert_normals (v : list (V3 F)) (f : list (V3 Z)) (normalized : bool) : res (list (V3 F)) :=
  let* fbv := faces_by_vertex v f in graph_value fbv f normalized v.

(** ** VertNormals as an object: normals.py:47-91 with chumpy's change tracking.
    Setting an attribute marks it changed; reading [.r] calls [on_changed] with the
    set of changed names (kept if it raises) and then computes.
    SIMPLIFICATION: [v] is an (n, 3) array; chumpy's result cache is not modelled
    (nothing changes between setting and reading). *)
Record built := mkbuilt { b_fbv : sparse F; b_f : list (V3 Z); b_normalized : bool; b_v : list (V3 F) }.
Record node := mknode {
  nd_v : list (V3 F); nd_f : list (V3 Z); nd_normalized : option bool;
  nd_changed_v : bool; nd_changed_f : bool; nd_changed_normalized : bool;
  nd_built : option built }.
Inductive event := SetV (v : list (V3 F)) | SetF (f : list (V3 Z)) | SetNormalized (b : bool) | Read.
(** normals.py:54-88 on_changed *)
Definition on_changed (nd : node) : node * res unit :=
  let normalized := match nd_normalized nd with Some b => b | None => true end in
  let nd := mknode (nd_v nd) (nd_f nd) (Some normalized) (nd_changed_v nd) (nd_changed_f nd)
              (nd_changed_normalized nd) (nd_built nd) in
  let done b := mknode (nd_v nd) (nd_f nd) (Some normalized) false false false (Some b) in
  let rebuild :=
    match faces_by_vertex (nd_v nd) (nd_f nd) with
    | Ok fbv => (done (mkbuilt fbv (nd_f nd) normalized (nd_v nd)), Ok tt)
    | Err e => (nd, Err e)
    end in
  match nd_built nd with
  | Some b => if negb (nd_changed_f nd) && Nat.eqb (sp_rows (b_fbv b)) (3 * length (nd_v nd))
              then (done (mkbuilt (b_fbv b) (b_f b) (b_normalized b) (nd_v nd)), Ok tt)
              else rebuild
  | None => rebuild
  end.
Definition read (nd : node) : node * res (list (V3 F)) :=
  let '(nd, r) := if nd_changed_v nd || nd_changed_f nd || nd_changed_normalized nd
                  then on_changed nd else (nd, Ok tt) in
  (nd, let* _ := r in
       match nd_built nd with
       | Some b => graph_value (b_fbv b) (b_f b) (b_normalized b) (b_v b)
       | None => Err AttributeError
       end).
Definition step (nd : node) (e : event) : node * list (res (list (V3 F))) :=
  match e with
  | SetV v => (mknode v (nd_f nd) (nd_normalized nd) true (nd_changed_f nd) (nd_changed_normalized nd) (nd_built nd), [])
  | SetF f => (mknode (nd_v nd) f (nd_normalized nd) (nd_changed_v nd) true (nd_changed_normalized nd) (nd_built nd), [])
  | SetNormalized b => (mknode (nd_v nd) (nd_f nd) (Some b) (nd_changed_v nd) (nd_changed_f nd) true (nd_built nd), [])
  | Read => let '(nd', r) := read nd in (nd', [r])
  end.
Fixpoint run (nd : node) (es : list event) : node * list (res (list (V3 F))) :=
  match es with
  | [] => (nd, [])
  | e :: es' => let '(nd1, o1) := step nd e in let '(nd2, o2) := run nd1 es' in (nd2, o1 ++ o2)
  end.
(** [VertNormals(v=v, f=f)] or [VertNormals(v=v, f=f, normalized=b)] *)
Definition new_node (v : list (V3 F)) (f : list (V3 Z)) (normalized : option bool) : node :=
  mknode v f normalized true true (match normalized with Some _ => true | None => false end) None.
End Nodes.
