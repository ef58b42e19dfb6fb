(** * Properties C87 and C135 (conjGradSolve) and C88 (block_sparse_cg_solve). *)
From Coq Require Import Reals ZArith List Bool Lra Lia Psatz.
From Verif Require Import Num XLemmas Vec NpList SpecGeom MLinalg SpecLinalg PLinalg MCg SpecCg PCg PCg2 PCg3.
Import ListNotations.
Local Open Scope R_scope.

(** ** C135.  Without a first guess every call raises, and so does every guess of two or more
    entries, or of one entry in a 1-d array. *)
Theorem C135_refuted : forall s b (tol : xr) maxiter, conjGradSolve s b None tol maxiter = Err TypeError /\
  (forall x y l, conjGradSolve s b (Some (A1 (x :: y :: l))) tol maxiter = Err ValueError) /\
  (forall k f, conjGradSolve s b (Some (A2 (mkmat (S (S k)) 1 f))) tol maxiter = Err ValueError).
Proof. intros s b tol maxiter. repeat split; reflexivity. Qed.
Print Assumptions C135_refuted.
Theorem C135_single_1d_refused : forall A rm cm b g (tol : xr) maxiter, (rm = [] \/ length rm = 1%nat) -> (cm = [] \/ length cm = 1%nat) ->
  conjGradSolve (mk_sbsm (rmat 1 1 A) rm cm) b (Some (A1 [Fin g])) tol maxiter = Err (if Req_EM_T g 0 then TypeError else ValueError).
Proof.
  intros A rm cm b g tol maxiter Hr Hc. unfold conjGradSolve. cbn [first_guess arr_truth arr_entries bindr]. unfold n0. rewrite xofZ. xs.
  destruct (Req_EM_T g 0) as [Z|Z]; [rewrite Raux.Req_bool_true by exact Z|rewrite Raux.Req_bool_false by exact Z]; cbn [negb bindr]; [reflexivity|].
  rewrite (@matvec_1d_fails 1 1 A rm cm) by auto. reflexivity.
Qed.
Print Assumptions C135_single_1d_refused.
(** ** C87.  What remains: one unknown, a (1, 1) guess that is neither zero nor already the solution;
    the right-hand side a (1, 1) column or a 1-d array of one entry *)
Theorem C87_one_unknown : forall a b v g tol, (v = A2 (rmat 1 1 (fun _ _ => b)) \/ v = A1 [Fin b]) -> a <> 0 -> g <> 0 -> a * g <> b ->
  exists m, conjGradSolve (mk_sbsm (rmat 1 1 (fun _ _ => a)) [] []) v (Some (A2 (rmat 1 1 (fun _ _ => g)))) tol None
    = Ok (m, Some 0%nat) /\ is_mat m 1 1 (fun _ _ => b / a).
Proof.
  intros a b v g tol HV A G NE. destruct (solve_one a tol HV G) as (m & E & R1 & C1 & V). exists m. split; [exact E|]. split; auto. split; auto.
  intros i j Hi Hj. assert (i = 0%nat) as -> by lia. assert (j = 0%nat) as -> by lia. rewrite V.
  assert (D : b - a * g <> 0) by lra. rewrite xdivE by (repeat apply Rmult_integral_contrapositive_currified; auto). xs. f_equal. field. auto.
Qed.
Print Assumptions C87_one_unknown.
(** and with a number of passes given: a positive tolerance ends it after the first, which is
    exact; without one, every further pass divides zero by zero *)
Theorem C87_passes : forall a b v g tol k, (v = A2 (rmat 1 1 (fun _ _ => b)) \/ v = A1 [Fin b]) -> a <> 0 -> g <> 0 -> a * g <> b -> exists m,
  conjGradSolve (mk_sbsm (rmat 1 1 (fun _ _ => a)) [] []) v (Some (A2 (rmat 1 1 (fun _ _ => g)))) (Fin tol) (Some (S k))
    = Ok (m, Some (if Rlt_dec 0 tol then 0%nat else k)) /\
  (0 < tol \/ k = 0%nat -> is_mat m 1 1 (fun _ _ => b / a)) /\ (tol <= 0 -> (0 < k)%nat -> m_at m 0%nat 0%nat = NaN).
Proof.
  intros a b v g tol k HV A G NE. destruct (solve_passes tol k HV A G NE) as (m & E & R1 & C1 & V). exists m. destruct (Rlt_dec 0 tol) as [T|T].
  - rewrite Raux.Rlt_bool_true in E, V by exact T. split; [exact E|]. split; [|lra]. intros _. split; auto. split; auto.
    intros i j Hi Hj. assert (i = 0%nat) as -> by lia. assert (j = 0%nat) as -> by lia. exact V.
  - rewrite Raux.Rlt_bool_false in E, V by lra. split; [exact E|]. split.
    + intros [H|H]; [lra|]. subst k. split; auto. split; auto. intros i j Hi Hj. assert (i = 0%nat) as -> by lia. assert (j = 0%nat) as -> by lia. exact V.
    + intros _ K. rewrite V. destruct k; [lia|reflexivity].
Qed.
Print Assumptions C87_passes.
(** a guess that already is the solution comes back as NaN *)
Theorem C135_exact_guess_refuted : forall a b v g tol, (v = A2 (rmat 1 1 (fun _ _ => b)) \/ v = A1 [Fin b]) -> g <> 0 -> a * g = b ->
  exists m, conjGradSolve (mk_sbsm (rmat 1 1 (fun _ _ => a)) [] []) v (Some (A2 (rmat 1 1 (fun _ _ => g)))) tol None
    = Ok (m, Some 0%nat) /\ m_at m 0%nat 0%nat = NaN.
Proof.
  intros a b v g tol HV G <-. destruct (solve_one a tol HV G) as (m & E & R1 & C1 & V). exists m. split; [exact E|]. rewrite V.
  replace ((a * g - a * g) * (a * (a * g - a * g))) with 0 by ring. now rewrite xdiv0.
Qed.
Print Assumptions C135_exact_guess_refuted.
Example C87_example : (2 : R) <> 0 /\ (1 : R) <> 0 /\ (2 * 1 : R) <> 6.
Proof. repeat split; lra. Qed.

(** ** C88.  The preconditioner handed to cg inverts the block-diagonal part of the matrix
    (sparse columns and other columns apart) on the columns it uses, and is zero on the
    others. *)
Theorem C88_preconditioner : forall inv factorized n A counts P, inv_ok inv -> factorized_ok factorized -> length counts = n -> (0 < n)%nat ->
  a_inv_mult inv factorized (rmat n n A) counts = Ok P -> forall v, length v = n ->
  exists y, P (map Fin v) = map Fin y /\ length y = n /\
    (forall i, (i < n)%nat -> used n counts A i -> row_times n (block_diagonal counts A) y i = entry v i) /\
    (forall i, (i < n)%nat -> ~ used n counts A i -> entry y i = 0).
Proof. intros inv factorized n A counts P I Fz LC N0 E v L. exact (precon_ok I Fz LC N0 E L). Qed.
Print Assumptions C88_preconditioner.
(** what it does not use is nothing but zeros *)
Theorem C88_unused_columns_are_zero : forall n A counts i, psd n A -> (i < n)%nat -> ~ used n counts A i ->
  forall j, (j < n)%nat -> A i j = 0 /\ A j i = 0.
Proof. intros. eapply dropped_zero; eauto. Qed.
Print Assumptions C88_unused_columns_are_zero.
(** it is symmetric, and positive on the columns of the matrix that are not zero: what
    conjugate gradients need *)
Theorem C88_symmetric_positive : forall inv factorized n A counts P, inv_ok inv -> factorized_ok factorized -> length counts = n -> (0 < n)%nat ->
  psd n A -> a_inv_mult inv factorized (rmat n n A) counts = Ok P ->
  exists p : list R -> list R, (forall v, length v = n -> P (map Fin v) = map Fin (p v) /\ length (p v) = n) /\
    (forall u v, length u = n -> length v = n -> dot_n n u (p v) = dot_n n v (p u)) /\
    (forall v, length v = n -> 0 <= dot_n n v (p v)) /\
    (forall v, length v = n -> dot_n n v (p v) = 0 -> forall i j, (i < n)%nat -> (j < n)%nat -> A i j <> 0 -> entry v i = 0).
Proof.
  intros inv factorized n A counts P I Fz LC N0 PS E. pose proof (precon_ok I Fz LC N0 E) as H.
  set (unfin := fun x => match x with Fin a => a | NaN => 0 end). exists (fun v => map unfin (P (map Fin v))).
  assert (K : forall v, length v = n -> P (map Fin v) = map Fin (map unfin (P (map Fin v))) /\ length (map unfin (P (map Fin v))) = n /\ solves n A counts v (map unfin (P (map Fin v)))).
  { intros v L. destruct (H v L) as (y & Ey & Ly & S). rewrite Ey. assert (Q : map unfin (map Fin y) = y) by (rewrite map_map; apply map_id). rewrite Q. auto. }
  split; [intros v L; destruct (K v L) as (A1 & A2 & _); auto|]. split; [|split].
  - intros u v Lu Lv. destruct (K u Lu) as (_ & _ & U), (K v Lv) as (_ & _ & V). apply (solves_symmetric LC N0 (proj1 PS) U V).
  - intros v Lv. destruct (K v Lv) as (_ & _ & V). apply (solves_positive LC N0 PS V).
  - intros v Lv Z i j Hi Hj NZ. destruct (K v Lv) as (_ & _ & V). apply (solves_positive LC N0 PS V); auto.
    destruct (@used_dec n A counts LC N0 i Hi) as [U|U]; auto. exfalso. apply NZ. exact (proj1 (dropped_zero PS Hi U Hj)).
Qed.
Print Assumptions C88_symmetric_positive.
(** so the result meets whatever cg promises for such a preconditioner *)
Theorem C88_solve : forall inv factorized cg n A counts b, inv_ok inv -> factorized_ok factorized -> length counts = n -> (0 < n)%nat -> psd n A ->
  (forall P (p : list R -> list R), (forall v, length v = n -> P (map Fin v) = map Fin (p v) /\ length (p v) = n) ->
    (forall u v, length u = n -> length v = n -> dot_n n u (p v) = dot_n n v (p u)) ->
    (forall v, length v = n -> 0 <= dot_n n v (p v)) ->
    (forall v, length v = n -> dot_n n v (p v) = 0 -> forall i j, (i < n)%nat -> (j < n)%nat -> A i j <> 0 -> entry v i = 0) ->
    exists x, cg (rmat n n A) (map Fin b) P = map Fin x /\
      big n (fun i => Rsqr (row_times n A x i - entry b i)) <= Rsqr (1 / 100000) * dot_n n b b) ->
  (exists e, block_sparse_cg_solve inv factorized cg (rmat n n A) counts (map Fin b) = Err e) \/
  exists x, block_sparse_cg_solve inv factorized cg (rmat n n A) counts (map Fin b) = Ok (map Fin x) /\
    big n (fun i => Rsqr (row_times n A x i - entry b i)) <= Rsqr (1 / 100000) * dot_n n b b.
Proof.
  intros inv factorized cg n A counts b I Fz LC N0 PS C. unfold block_sparse_cg_solve.
  destruct (a_inv_mult inv factorized (rmat n n A) counts) as [P|e] eqn:E; cbn [bindr]; [|eauto]. right.
  destruct (C88_symmetric_positive inv factorized n A counts P I Fz LC N0 PS E) as (p & H1 & H2 & H3 & H4).
  destruct (C P p H1 H2 H3 H4) as (x & Ex & R). exists x. rewrite Ex. auto.
Qed.
Print Assumptions C88_solve.
(** one sparse and one other column, with solvers for single entries *)
Definition inv1 (m : mat xr) : res (mat xr) :=
  match m_rows m, m_cols m, m_at m 0 0 with
  | 1%nat, 1%nat, Fin a => if Req_EM_T a 0 then Err LinAlgError else Ok (rmat 1 1 (fun _ _ => / a))
  | _, _, _ => Err LinAlgError
  end.
Definition factorized1 (m : mat xr) : res (list xr -> list xr) :=
  match m_rows m, m_cols m, m_at m 0 0 with
  | 1%nat, 1%nat, Fin a => if Req_EM_T a 0 then Err OtherException else Ok (map (fun x => ndiv x (Fin a)))
  | _, _, _ => Err OtherException
  end.
Example C88_example : inv_ok inv1 /\ factorized_ok factorized1 /\ psd 2 (fun i j => kron i j * (2 + INR i)) /\
  exists P, a_inv_mult inv1 factorized1 (rmat 2 2 (fun i j => kron i j * (2 + INR i))) [1%nat; 1000%nat] = Ok P.
Proof.
  split; [|split; [|split]].
  - intros m k B w (R1 & C1 & E). unfold inv1. rewrite R1, C1. destruct k as [|[|k]]; try discriminate. rewrite E by lia. destruct (Req_EM_T (B 0%nat 0%nat) 0) as [|NZ]; [discriminate|].
    intros [= <-]. exists (fun _ _ => / B 0%nat 0%nat). split; [apply rmat_is|]. intros i j Hi Hj. assert (i = 0%nat) as -> by lia. assert (j = 0%nat) as -> by lia. unfold big, kron. cbn. field. auto.
  - intros m k B f (R1 & C1 & E). unfold factorized1. rewrite R1, C1. destruct k as [|[|k]]; try discriminate. rewrite E by lia. destruct (Req_EM_T (B 0%nat 0%nat) 0) as [|NZ]; [discriminate|].
    intros [= <-] [|v0 [|]] L; try discriminate L. exists [v0 / B 0%nat 0%nat]. split; [cbn [map]; now rewrite xdivE|]. split; [reflexivity|]. intros i Hi. assert (i = 0%nat) as -> by lia. unfold row_times, entry, big. cbn. field. auto.
  - split.
    + intros i j Hi Hj. destruct i as [|[|]], j as [|[|]]; try lia; cbn; ring.
    + intros v. unfold row_times, big, kron. cbn. nra.
  - unfold a_inv_mult, inv1, factorized1. change (a_sparsity [1%nat; 1000%nat]) with [true; false]. cbn.
    replace (Raux.Req_bool (1 * (2 + 1)) 0) with false by (symmetry; apply Raux.Req_bool_false; lra). cbn.
    destruct (Req_EM_T (1 * (2 + 1)) 0) as [Z|_]; [exfalso; lra|].
    destruct (Req_EM_T (1 * (2 + 0)) 0) as [Z|_]; [exfalso; lra|]. cbn. eauto.
Qed.
