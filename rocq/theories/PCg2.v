(** * Positive semidefinite matrices, and the preconditioner as an operator (C88). *)
From Coq Require Import Reals ZArith List Bool Lra Lia Psatz.
From Verif Require Import Num XLemmas Vec NpList SpecGeom MLinalg SpecLinalg PLinalg MCg SpecCg PCg.
Import ListNotations.
Local Open Scope R_scope.
Set Implicit Arguments.
Unset Strict Implicit.

Section Form.
Context (n : nat) (A : nat -> nat -> R).
Definition bl (f g : nat -> R) : R := big n (fun i => f i * big n (fun j => A i j * g j)).
Lemma bl_ext f f' g g' : (forall i, (i < n)%nat -> f i = f' i) -> (forall i, (i < n)%nat -> g i = g' i) -> bl f g = bl f' g'.
Proof. intros H K. apply big_ext. intros i Hi. rewrite H by auto. f_equal. apply big_ext. intros j Hj. now rewrite K. Qed.
Lemma bl_add_l f f' g : bl (fun i => f i + f' i) g = bl f g + bl f' g.
Proof. unfold bl. rewrite <- big_add. apply big_ext. intros. ring. Qed.
Lemma bl_scale_l t f g : bl (fun i => t * f i) g = t * bl f g.
Proof. unfold bl. rewrite <- big_scale. apply big_ext. intros. ring. Qed.
Lemma bl_add_r f g g' : bl f (fun i => g i + g' i) = bl f g + bl f g'.
Proof.
  unfold bl. rewrite <- big_add. apply big_ext. intros i Hi. rewrite <- Rmult_plus_distr_l. f_equal. rewrite <- big_add. apply big_ext. intros. ring.
Qed.
Lemma bl_scale_r t f g : bl f (fun i => t * g i) = t * bl f g.
Proof.
  unfold bl. rewrite <- big_scale. apply big_ext. intros i Hi.
  transitivity (f i * (t * big n (fun j => A i j * g j))); [|ring]. f_equal. rewrite <- big_scale. apply big_ext. intros. ring.
Qed.
Lemma bl_swap f g : symmetric n A -> bl f g = bl g f.
Proof.
  intros S. unfold bl. transitivity (big n (fun i => big n (fun j => f i * (A i j * g j)))).
  { apply big_ext. intros i Hi. now rewrite big_scale. }
  rewrite big_swap. apply big_ext. intros j Hj. rewrite <- big_scale. apply big_ext. intros i Hi. rewrite (S i j) by auto. ring.
Qed.
Lemma bl_kron i g : (i < n)%nat -> bl (kron i) g = big n (fun j => A i j * g j).
Proof. intros H. unfold bl. now apply (@big_kron_l n i (fun k => big n (fun j => A k j * g j))). Qed.
Lemma entry_fun f i : (i < n)%nat -> entry (map f (seq 0 n)) i = f i.
Proof. intros H. unfold entry. now apply map_seq_nth. Qed.
Lemma psd_form f : psd n A -> 0 <= bl f f.
Proof.
  intros [_ P]. specialize (P (map f (seq 0 n))). replace (bl f f) with (big n (fun i => entry (map f (seq 0 n)) i * row_times n A (map f (seq 0 n)) i)); [exact P|].
  apply big_ext. intros i Hi. rewrite entry_fun by auto. f_equal. apply big_ext. intros j Hj. now rewrite entry_fun.
Qed.
Lemma psd_null f : psd n A -> bl f f = 0 -> forall i, (i < n)%nat -> big n (fun j => A i j * f j) = 0.
Proof.
  intros P Z i Hi. pose proof (proj1 P) as S. set (a := big n (fun j => A i j * f j)). set (c := bl (kron i) (kron i)).
  assert (C : 0 <= c) by now apply psd_form.
  set (t := - a / (c + 1)). pose proof (@psd_form (fun k => f k + t * kron i k) P) as Q.
  rewrite bl_add_l, !bl_add_r, !bl_scale_l, !bl_scale_r, Z in Q. rewrite (bl_swap f (kron i) S) in Q. rewrite (bl_kron f Hi) in Q. fold a c in Q.
  assert (E : 0 + t * a + (t * a + t * (t * c)) = - (a * a) * (c + 2) / ((c + 1) * (c + 1))) by (unfold t; field; lra). rewrite E in Q.
  assert (D : 0 < (c + 1) * (c + 1)) by nra. apply (Rmult_le_compat_r _ _ _ (Rlt_le _ _ D)) in Q. rewrite Rmult_0_l in Q.
  replace (- (a * a) * (c + 2) / ((c + 1) * (c + 1)) * ((c + 1) * (c + 1))) with (- (a * a) * (c + 2)) in Q by (field; lra).
  assert (0 <= a * a) by nra. assert (a * a = 0) by nra. nra.
Qed.
End Form.

(** a dense column of a positive semidefinite matrix that is left out is zero *)
Lemma dropped_zero n A counts i : psd n A -> (i < n)%nat -> ~ used n counts A i -> forall j, (j < n)%nat -> A i j = 0 /\ A j i = 0.
Proof.
  intros P Hi U j Hj. assert (D : A i i = 0).
  { destruct (Req_dec (A i i) 0); auto. exfalso. apply U. unfold used. destruct (sparse_column counts i) eqn:S; [now left|]. right. exists i. auto. }
  assert (K : forall k, (k < n)%nat -> big n (fun l => A k l * kron i l) = A k i).
  { intros k Hk. transitivity (big n (fun l => kron i l * A k l)); [apply big_ext; intros; ring|now apply big_kron_l]. }
  assert (Z : bl n A (kron i) (kron i) = 0) by (rewrite bl_kron by auto; now rewrite K).
  pose proof (psd_null P Z Hj) as E. rewrite K in E by auto. split; auto. rewrite (proj1 P) by auto. exact E.
Qed.

Section Operator.
Context (n : nat) (A : nat -> nat -> R) (counts : list nat) (LC : length counts = n) (N0 : (0 < n)%nat).
(** what precon_ok says of the pair (v, y) *)
Definition solves (v y : list R) : Prop :=
  (forall i, (i < n)%nat -> used n counts A i -> row_times n (block_diagonal counts A) y i = entry v i) /\
  (forall i, (i < n)%nat -> ~ used n counts A i -> entry y i = 0).
Lemma used_dec i : (i < n)%nat -> used n counts A i \/ ~ used n counts A i.
Proof.
  intros H. rewrite (@used_iff n A counts LC N0 i H). set (s := flatnonzero _ _). set (d := compress _ _).
  destruct (in_dec Nat.eq_dec i s), (in_dec Nat.eq_dec i d); tauto.
Qed.
Lemma dot_solves u yu yv : solves u yu -> (forall i, (i < n)%nat -> ~ used n counts A i -> entry yv i = 0) ->
  dot_n n u yv = bl n (block_diagonal counts A) (entry yv) (entry yu).
Proof.
  intros [S _] Z. apply big_ext. intros i Hi. destruct (used_dec Hi) as [U|U].
  - rewrite <- (S i Hi U). unfold row_times. ring.
  - rewrite (Z i Hi U). ring.
Qed.
Lemma bd_symmetric : symmetric n A -> symmetric n (block_diagonal counts A).
Proof.
  intros S i j Hi Hj. unfold block_diagonal. destruct (sparse_column counts i), (sparse_column counts j); cbn; auto.
Qed.
Lemma solves_symmetric u v yu yv : symmetric n A -> solves u yu -> solves v yv -> dot_n n u yv = dot_n n v yu.
Proof.
  intros S U V. rewrite (dot_solves U (proj2 V)), (dot_solves V (proj2 U)). apply bl_swap. now apply bd_symmetric.
Qed.
Lemma bd_split y : bl n (block_diagonal counts A) y y =
  bl n A (fun i => if sparse_column counts i then y i else 0) (fun i => if sparse_column counts i then y i else 0) +
  bl n A (fun i => if sparse_column counts i then 0 else y i) (fun i => if sparse_column counts i then 0 else y i).
Proof.
  unfold bl. rewrite <- big_add. apply big_ext. intros i Hi. destruct (sparse_column counts i) eqn:S.
  - rewrite Rmult_0_l, Rplus_0_r. f_equal. apply big_ext. intros j Hj. unfold block_diagonal. rewrite S. destruct (sparse_column counts j); cbn; ring.
  - rewrite Rmult_0_l, Rplus_0_l. f_equal. apply big_ext. intros j Hj. unfold block_diagonal. rewrite S. destruct (sparse_column counts j); cbn; ring.
Qed.
Lemma solves_positive v y : psd n A -> solves v y -> 0 <= dot_n n v y /\ (dot_n n v y = 0 -> forall i, (i < n)%nat -> used n counts A i -> entry v i = 0).
Proof.
  intros P V. rewrite (dot_solves V (proj2 V)), bd_split. set (ys := fun i => if sparse_column counts i then entry y i else 0). set (yd := fun i => if sparse_column counts i then 0 else entry y i).
  pose proof (psd_form ys P) as P1. pose proof (psd_form yd P) as P2. split; [lra|]. intros Z i Hi U. rewrite <- (proj1 V i Hi U).
  assert (Z1 : bl n A ys ys = 0) by lra. assert (Z2 : bl n A yd yd = 0) by lra. unfold row_times.
  destruct (sparse_column counts i) eqn:S.
  - rewrite <- (psd_null P Z1 Hi). apply big_ext. intros j Hj. unfold block_diagonal, ys. rewrite S. destruct (sparse_column counts j); cbn; ring.
  - rewrite <- (psd_null P Z2 Hi). apply big_ext. intros j Hj. unfold block_diagonal, yd. rewrite S. destruct (sparse_column counts j); cbn; ring.
Qed.
End Operator.
