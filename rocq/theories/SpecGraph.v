(** * Specification vocabulary for undirected graphs (independent of the model). *)
From Coq Require Import List Arith.
Import ListNotations.

(** a graph is a list of edges; orientation and repetition do not count *)
Definition unordered (e : nat * nat) : nat * nat := (Nat.min (fst e) (snd e), Nat.max (fst e) (snd e)).
Definition pair_dec : forall e f : nat * nat, {e = f} + {e <> f}.
Proof. decide equality; apply Nat.eq_dec. Defined.
Definition distinct (es : list (nat * nat)) : list (nat * nat) := nodup pair_dec (map unordered es).
Definition joined (es : list (nat * nat)) (u v : nat) : Prop := In (u, v) es \/ In (v, u) es.
Definition loop_free (es : list (nat * nat)) : Prop := forall u, ~ In (u, u) es.
Definition incident (x : nat) (e : nat * nat) : bool := Nat.eqb (fst e) x || Nat.eqb (snd e) x.
(** the number of distinct edges at [x] *)
Definition degree (es : list (nat * nat)) (x : nat) : nat := length (filter (incident x) (distinct es)).
Inductive connected (es : list (nat * nat)) (x : nat) : nat -> Prop :=
  | connected_refl : connected es x x
  | connected_step : forall y z, connected es x y -> joined es y z -> connected es x z.
(** no connected component has three vertices of odd degree *)
Definition at_most_two_odd (es : list (nat * nat)) : Prop :=
  forall a b c, Nat.odd (degree es a) = true -> Nat.odd (degree es b) = true -> Nat.odd (degree es c) = true ->
    connected es a b -> connected es a c -> a = b \/ a = c \/ b = c.
(** consecutive entries *)
Fixpoint steps (p : list nat) : list (nat * nat) :=
  match p with x :: (y :: _) as q => (x, y) :: steps q | _ => [] end.
