(** * Model of the derivatives of the composed nodes of optimization/objectives/normals.py.

    chumpy's [dr_wrt] follows the chain rule: the derivative of a node with respect to [v]
    is the sum, over its arguments, of the node's own Jacobian (compute_dr_wrt) times the
    derivative of the argument; that of [ch.MatVecMult(m, x)] with respect to [x] is [m].
    SIMPLIFICATION: the product of Jacobians is represented by its action on a displacement
    [h] of [v], so each matrix is applied in turn and no sparse product is formed. *)
From Coq Require Import ZArith List Bool.
From Verif Require Import Num Vec NpList MNormals.
Import ListNotations.
Local Open Scope num_scope.

Section Dr.
Context {F : Type} {N : Num F}.
(** normals.py:102-103 TriNormalsScaled: the derivative of CrossProduct(TriEdges(f, 1, 0, v),
    TriEdges(f, 2, 0, v)) (107-133, 167-193) applied to [h]; [cache] is the index pattern kept
    by the CrossProduct node. *)
Definition tri_normals_scaled_dr (cache : pattern) (v : list F) (f : list (V3 Z)) (h : list F) : res (list F * pattern) :=
  let* e1 := edges_for v f 1 0 in
  let* e2 := edges_for v f 2 0 in
  let* m1 := edges_dr v f 1 0 in
  let* m2 := edges_dr v f 2 0 in
  let* d1 := sp_dot m1 h in
  let* d2 := sp_dot m2 h in
  let* (ja, cache) := cross_dr cache e1 e2 true in
  let* (jb, cache) := cross_dr cache e1 e2 false in
  let* ra := sp_dot ja d1 in
  let* rb := sp_dot jb d2 in
  Ok (map2 nadd ra rb, cache).
(** normals.py:99-100 TriNormals: the derivative of NormalizedNx3(TriNormalsScaled(v, f)) applied to [h] *)
Definition tri_normals_dr (cache : pattern) (v : list F) (f : list (V3 Z)) (h : list F) : res (list F * pattern) :=
  let* t := tri_normals_scaled v f in
  let* j := normalized_dr t in
  let* (dt, cache) := tri_normals_scaled_dr cache v f h in
  let* d := sp_dot j dt in
  Ok (d, cache).
(** normals.py:93-95 VertNormals.compute_dr_wrt(self.v), for [normalized]: the derivative of
    NormalizedNx3(ch.MatVecMult(faces_by_vertex, tns)) (77-83) applied to [h].  The case
    [normalized=False] (84-88) is built from chumpy's own operators and is not modelled. *)
Definition vert_normals_dr (cache : pattern) (v : list (V3 F)) (f : list (V3 Z)) (h : list F) : res (list F * pattern) :=
  let* fbv := faces_by_vertex v f in
  let* t := tri_normals_scaled (ravel3 v) f in
  let* s := sp_dot fbv t in
  let* j := normalized_dr s in
  let* (dt, cache) := tri_normals_scaled_dr cache (ravel3 v) f h in
  let* ds := sp_dot fbv dt in
  let* d := sp_dot j ds in
  Ok (d, cache).
End Dr.
