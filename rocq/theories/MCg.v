(** * Model of the solvers: blmath/numerics/linalg/static_block_sparse_matrix.py
    [conjGradSolve] and blmath/numerics/linalg/sparse_cg.py. *)
From Coq Require Import ZArith List Bool.
From Verif Require Import Num Vec NpList MLinalg.
Import ListNotations.
Local Open Scope num_scope.

Section Cg.
Context {F : Type} {N : Num F}.

(** ** static_block_sparse_matrix.py:151-170 [conjGradSolve] *)
Definition arr_entries (a : arr F) : list F :=
  match a with
  | A1 l => l
  | A2 m => flat_map (fun i => map (m_at m i) (seq 0 (m_cols m))) (seq 0 (m_rows m))
  end.
(** the truth value of an array: of its only entry; ambiguous (ValueError) for more than one *)
Definition arr_truth (a : arr F) : res bool :=
  match arr_entries a with
  | [] => Ok false
  | [x] => Ok (negb (x =? n0))
  | _ => Err ValueError
  end.
(** line 153 [x0 if x0 else np.zeros(b)]: [np.zeros] takes [b] for a shape, and the entries
    of a shape must be integers.  SIMPLIFICATION: an empty [b], for which [np.zeros(b)] is a
    0-d array, and integer arrays [b] are not modelled. *)
Definition first_guess (x0 : option (arr F)) : res (arr F) :=
  match x0 with
  | None => Err TypeError
  | Some x => let* t := arr_truth x in if t then Ok x else Err TypeError
  end.
(** elementwise operations on two-axis arrays.  SIMPLIFICATION: equal shapes; other shapes,
    which only broadcasting could combine, are reported as ValueError. *)
Definition mat_zip (f : F -> F -> F) (a b : mat F) : res (mat F) :=
  if Nat.eqb (m_rows a) (m_rows b) && Nat.eqb (m_cols a) (m_cols b)
  then Ok (mkmat (m_rows a) (m_cols a) (fun i j => f (m_at a i j) (m_at b i j)))
  else Err ValueError.
Definition matvec2 (s : sbsm F) (x : mat F) : res (mat F) :=
  let* y := matvec s (A2 x) in
  match y with A2 m => Ok m | A1 _ => Err ValueError end.
(** lines 161-169: one pass of the loop; true when it leaves the loop by [break] *)
Definition cg_step (s : sbsm F) (b : mat F) (tol : F) (x r d : mat F) : res (mat F * mat F * mat F * bool) :=
  let* u := matvec2 s d in
  let* dr := mat_dot d r in
  let* du := mat_dot d u in
  let* alpha := mat_zip ndiv dr du in
  let* ad := mat_zip nmul alpha d in
  let* x := mat_zip nadd x ad in
  let* ax := matvec2 s x in
  let* r := mat_zip nsub b ax in
  let* rr := mat_dot r r in
  let small := mkmat (m_rows rr) (m_cols rr) (fun i j => if nsqrt (m_at rr i j) <? tol then nofZ 1 else n0) in
  let* done := arr_truth (A2 small) in
  if done then Ok (x, r, d, true)
  else
    let* ru := mat_dot r u in
    let* beta := mat_zip (fun p q => (- p) / q) ru du in
    let* bd := mat_zip nmul beta d in
    let* d := mat_zip nadd r bd in
    Ok (x, r, d, false).
(** lines 160-169: the loop; the result [i] is the number of the last pass *)
Fixpoint cg_loop (s : sbsm F) (b : mat F) (tol : F) (x r d : mat F) (i todo : nat) (last : option nat) : res (mat F * option nat) :=
  match todo with
  | O => Ok (x, last)
  | S todo =>
      let* q := cg_step s b tol x r d in
      let '(x, r, d, done) := q in
      if done then Ok (x, Some i) else cg_loop s b tol x r d (S i) todo (Some i)
  end.
(** lines 151-170.  Only a guess with a single entry gets past line 153, so [b - self.matvec(x)]
    is reached with one unknown; a 1-d [b] of one entry is then like a column. *)
Definition conjGradSolve (s : sbsm F) (b : arr F) (x0 : option (arr F)) (tol : F) (maxiter : option nat) : res (mat F * option nat) :=
  let n := match b with A1 l => length l | A2 m => m_rows m end in
  let* x := first_guess x0 in
  match x with
  | A1 l => let* _ := matvec s (A1 l) in Err OtherException   (* not reached: matvec refuses 1-d arrays *)
  | A2 x =>
      let b := match b with A1 l => as_column l | A2 m => m end in
      let* ax := matvec2 s x in
      let* r := mat_zip nsub b ax in
      let num := match maxiter with Some (S k) => S k | _ => n end in
      cg_loop s b tol x r r 0 num None
  end.

(** ** sparse_cg.py:1-32 [block_sparse_cg_solve] *)
(** line 18: per column, fewer than 1000 stored entries and not none.  [counts] are the
    numbers of stored entries of the columns (lines 16-17). *)
Definition a_sparsity (counts : list nat) : list bool := map (fun n => Nat.ltb n 1000 && Nat.ltb 0 n) counts.
(** line 20: the columns of the dense corner that are not all zero *)
Definition non_zero_columns (dd : mat F) : list bool :=
  map (fun j => existsb (fun i => negb (m_at dd i j =? n0)) (seq 0 (m_rows dd))) (seq 0 (m_cols dd)).
(** [v[idx]] and [ans[idx] = vals] *)
Definition gather (v : list F) (idx : list nat) : list F := map (fun i => nth i v n0) idx.
Fixpoint scatter (ans : list F) (idx : list nat) (vals : list F) : list F :=
  match idx, vals with
  | i :: idx, x :: vals => scatter (firstn i ans ++ x :: skipn (S i) ans) idx vals
  | _, _ => ans
  end.
Definition mat_apply (m : mat F) (v : list F) : list F :=
  map (fun i => sum_to (m_cols m) (fun k => m_at m i k * nth k v n0)) (seq 0 (m_rows m)).
(** lines 19-29: the preconditioner.  [inv] stands for [scipy.linalg.inv], [factorized] for
    [scipy.sparse.linalg.factorized]; both may raise. *)
Definition a_inv_mult (inv : mat F -> res (mat F)) (factorized : mat F -> res (list F -> list F)) (a : mat F) (counts : list nat)
  : res (list F -> list F) :=
  let mask := a_sparsity counts in
  let blocks := mk_sbsm a mask mask in
  let nz := non_zero_columns (block_dd blocks) in
  let keep := flatnonzero 0 nz in
  let* dense_inv := inv (take_columns (take_rows (block_dd blocks) keep) keep) in
  let* solver := factorized (sparse_block blocks) in
  let sparse_rows := flatnonzero 0 (r_s blocks) in
  let dense_rows := flatnonzero 0 (complement (r_s blocks)) in
  let dense_used := compress nz dense_rows in
  Ok (fun v =>
    let ans_sparse := solver (gather v sparse_rows) in
    let ans_dense := mat_apply dense_inv (gather v dense_used) in
    let ans := repeat n0 (length sparse_rows + length dense_rows) in
    let ans := scatter ans sparse_rows ans_sparse in
    scatter ans dense_used ans_dense).
(** lines 31-32: [cg] stands for [scipy.sparse.linalg.cg] with tolerance 1e-5; the matrix,
    the right-hand side and the preconditioner are passed on. *)
Definition block_sparse_cg_solve inv factorized (cg : mat F -> list F -> (list F -> list F) -> list F) (a : mat F) (counts : list nat) (x : list F)
  : res (list F) :=
  let* precon := a_inv_mult inv factorized a counts in
  Ok (cg a x precon).
End Cg.
