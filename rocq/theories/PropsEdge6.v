(** * Further cases of C65, C94, C99 and C135. *)
From Coq Require Import Reals ZArith List Bool Lra Lia.
From Verif Require Import Num XLemmas Vec NpList MVx MPlane MPolyline MNormals MLinalg MCg PNormals2.
Import ListNotations.

(** ** C65.  Arguments of different lengths are refused. *)
Theorem C65_lengths : forall F (N : Num F) (a b : list F), length a <> length b -> cross_value a b = Err ValueError.
Proof.
  intros F N a b H. unfold cross_value.
  assert (R : forall l : list F, (exists r, reshape3 l = Ok r /\ length l = (3 * length r)%nat) \/ reshape3 l = Err ValueError).
  { intros l. destruct (reshape3 l) as [r|e] eqn:E; [left; exists r; split; [reflexivity|]; eapply reshape_length; eauto|right]. revert e E. assert (G : forall n (l : list F) e, (length l <= n)%nat -> reshape3 l = Err e -> e = ValueError).
    { induction n as [|n IH]; intros [|x [|y [|z l']]] e Hl E; cbn in *; try discriminate E; try (injection E as <-; reflexivity); try lia. destruct (reshape3 l') as [r|e'] eqn:E'; [discriminate E|]. cbn in E. injection E as <-. apply (IH l' e'); [lia|exact E']. }
    intros e E. f_equal. exact (G _ _ _ (le_n _) E). }
  destruct (R a) as [(ra & -> & La)| ->]; [|reflexivity]. destruct (R b) as [(rb & -> & Lb)| ->]; [|reflexivity]. cbn [bindr]. destruct (Nat.eqb_spec (length ra) (length rb)) as [E|E]; [lia|reflexivity].
Qed.
Print Assumptions C65_lengths.

(** ** C99.  A polyline made with an array of no points: closed, it is refused; open, it has
    no segments and length 0 and can be copied and flipped; what needs a point raises. *)
Theorem C99_no_rows : forall F (N : Num F), init_points (F := F) (Some []) true = Err IndexError /\
  exists p : polyline F, init_points (Some []) false = Ok p /\ p_v p = Some [] /\ p_closed p = false /\
  poly_len p = Ok 0%nat /\ copy p = Ok p /\ segments p = Ok [] /\ segment_vectors p = Ok [] /\ segment_lengths p = Ok [] /\ total_length p = Ok (nofZ 0) /\
  flip p = (p, Ok tt) /\ (forall axis, poly_apex p axis = Err ValueError) /\
  (forall pl, intersect_plane p pl = Ok ([], []) /\ cut_by_plane p pl = Err ValueError) /\
  (forall m, partition_by_length p m = (p, Err IndexError)).
Proof. intros F N. split; [reflexivity|]. eexists. repeat (split; [reflexivity|]). split; [split; reflexivity|]. intros m. reflexivity. Qed.
Print Assumptions C99_no_rows.

(** ** C135.  An empty first guess is treated as none. *)
Theorem C135_empty_guess : forall s b (tol : xr) maxiter f n, conjGradSolve s b (Some (A1 [])) tol maxiter = Err TypeError /\
  conjGradSolve s b (Some (A2 (mkmat 0 n f))) tol maxiter = Err TypeError.
Proof. intros. split; reflexivity. Qed.
Print Assumptions C135_empty_guess.
