(** * Property C94: points given as a list are copied. *)
From Coq Require Import ZArith List Bool Arith Lia.
From Verif Require Import Num Vec NpList MMemory SpecMemory PMemory PropsShared.
Import ListNotations.

Section Shared.
Context {F : Type} {N : Num F}.
Lemma nth_rows (l : list (V3 F)) : forall j v, nth_error l j = Some v -> let c := flat_map (fun v => [c0 v; c1 v; c2 v]) l in
  nth_error c (3 * j) = Some (c0 v) /\ nth_error c (3 * j + 1) = Some (c1 v) /\ nth_error c (3 * j + 2) = Some (c2 v).
Proof.
  induction l as [|x l IH]; intros [|j] v E; try discriminate E; cbv zeta in *.
  - injection E as ->. repeat split.
  - cbn [flat_map]. destruct (IH j v E) as (A & B & C). replace (3 * S j) with (3 + 3 * j) by lia. repeat split; cbn [app Nat.add nth_error]; assumption.
Qed.
(** A list of points with finite coordinates: the polyline has those vertices in that order,
    in an array of its own that no array known before can reach; otherwise ValueError. *)
Theorem C94_list : forall (s : store) (l : list (V3 F)) closed, sound (fm s) -> sound (im s) -> l <> [] ->
  (forallb (fun v => all3 (map3 nfinite v)) l = false -> exists p, new_polyline s (AList l) closed = (s, p, Err ValueError)) /\
  (forallb (fun v => all3 (map3 nfinite v)) l = true -> exists s' p rv a, new_polyline s (AList l) closed = (s', p, Ok tt) /\
     o_v p = Some rv /\ o_closed p = closed /\ obj (fm s') rv = Some a /\ a_shape a = [length l; 3] /\
     (forall j v, nth_error l j = Some v -> read (fm s') rv (3 * j) = Ok (c0 v) /\ read (fm s') rv (3 * j + 1) = Ok (c1 v) /\ read (fm s') rv (3 * j + 2) = Ok (c2 v)) /\
     (forall r b k x, obj (fm s) r = Some b -> a_buf b <> a_buf a /\ obj (fm s') r = Some b /\ read (fm s') r k = read (fm s) r k /\
        forall i, read (fst (write (fm s') r k x)) rv i = read (fm s') rv i)).
Proof.
  intros s l closed Sf Si NE. set (xs := flat_map (fun v => [c0 v; c1 v; c2 v]) l).
  split; intros Fi; unfold new_polyline, set_v, coerce; fold xs; rewrite Fi; [eexists; reflexivity|].
  destruct (fresh (fm s) xs [length l; 3]) as [m rv] eqn:EF. pose proof (f_equal fst EF) as Em. pose proof (f_equal snd EF) as Er. cbn [fst snd] in Em, Er.
  assert (Oa : obj m rv = Some (mkarr (length (bufs (fm s))) [length l; 3] (seq 0 (length xs)) true)).
  { rewrite <- Em, <- Er. unfold fresh, new_obj. cbn [fst snd]. unfold obj. cbn [objs]. rewrite nth_error_app2 by lia. now rewrite Nat.sub_diag. }
  set (a := mkarr (length (bufs (fm s))) [length l; 3] (seq 0 (length xs)) true) in *.
  destruct (update_edges (mkstore m (im s)) (mkpobj (Some rv) closed None)) as [[s' p] [[]|e]] eqn:U.
  - pose proof (@update_edges_ok F (mkstore m (im s)) s' _ p Si U) as (Ef & Ev & Ec & _). cbn [fm o_v o_closed] in Ef, Ev, Ec.
    exists s', p, rv, a. split; [exact U|]. split; [exact Ev|]. split; [exact Ec|]. rewrite Ef. split; [exact Oa|]. split; [reflexivity|]. split.
    + intros j v Ej. pose proof (nth_rows l j v Ej) as (A & B & C). fold xs in A, B, C. rewrite <- Em, <- Er, !fresh_read, A, B, C. repeat split.
    + intros r b k x Ob. assert (Lb : a_buf b < length (bufs (fm s))) by apply (Sf r b Ob). assert (Or : obj m r = Some b).
      { rewrite <- Em. unfold fresh, new_obj. cbn [fst]. unfold obj. cbn [objs]. rewrite nth_error_app1; [exact Ob|apply nth_error_Some; unfold obj in Ob; congruence]. }
      assert (D : a_buf b <> a_buf a) by (cbn; lia). split; [exact D|]. split; [exact Or|]. split; [|exact (write_apart k x Or Oa D)].
      unfold read. rewrite Or, Ob. destruct (nth_error (a_cells b) k); [|reflexivity]. rewrite <- Em. unfold fresh, new_obj. cbn [fst bufs]. now rewrite app_nth1 by exact Lb.
  - exfalso. unfold update_edges in U. cbn [o_v fm] in U. rewrite Oa in U. cbn [a_shape a nth] in U. destruct l as [|v0 l]; [now apply NE|]. cbn [length Nat.eqb] in U. rewrite andb_false_r in U.
    cbn [im] in U. destruct (fresh (im s) _ _) as [m1 re]. discriminate U.
Qed.
End Shared.
Print Assumptions C94_list.
Example C94_list_example : exists (s : store (F := xr)) l, sound (fm s) /\ sound (im s) /\ l <> [] /\ forallb (fun v => all3 (map3 nfinite v)) l = true.
Proof.
  exists (mkstore (mkmem [] []) (mkmem [] [])), [mk3 (nofZ 1%Z) (nofZ 2%Z) (nofZ 3%Z); mk3 (nofZ 4%Z) (nofZ 5%Z) (nofZ 6%Z)].
  repeat split; try discriminate; destruct r; discriminate.
Qed.
