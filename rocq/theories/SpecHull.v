(** * Specification vocabulary for convex hulls (independent of the model). *)
From Coq Require Import Reals List.
From Verif Require Import Vec RVec SpecGeom.
Import ListNotations.
Local Open Scope R_scope.

(** [n] non-negative weights with sum 1; the weighted mean of numbers *)
Definition weights (n : nat) (ws : list R) : Prop := length ws = n /\ Forall (fun w => 0 <= w) ws /\ rsum ws = 1.
Definition mix (ws l : list R) : R := rsum (map (fun wl => fst wl * snd wl) (combine ws l)).
(** [x] is a convex combination of [ps] *)
Definition in_hull (ps : list (V3 R)) (x : V3 R) : Prop :=
  exists ws, weights (length ps) ws /\ c0 x = mix ws (map c0 ps) /\ c1 x = mix ws (map c1 ps) /\ c2 x = mix ws (map c2 ps).
Definition in_hull2 (ps : list (R * R)) (x : R * R) : Prop :=
  exists ws, weights (length ps) ws /\ fst x = mix ws (map fst ps) /\ snd x = mix ws (map snd ps).
(** the entries of [l] at the positions [is]; [l] without entry [i] *)
Definition pick {A} (d : A) (l : list A) (is : list nat) : list A := map (fun i => nth i l d) is.
Definition without {A} (i : nat) (l : list A) : list A := firstn i l ++ skipn (S i) l.
(** [is] are positions of points whose convex combinations include all the points *)
Definition hull_of (ps : list (R * R)) (is : list nat) : Prop :=
  is <> [] /\ (forall i, In i is -> (i < length ps)%nat) /\ forall x, In x ps -> in_hull2 (pick (0, 0) ps is) x.
(** no point is a convex combination of the others *)
Definition corners2 (ps : list (R * R)) : Prop := forall i, (i < length ps)%nat -> ~ in_hull2 (without i ps) (nth i ps (0, 0)).
Definition corners (ps : list (V3 R)) : Prop := forall i, (i < length ps)%nat -> ~ in_hull (without i ps) (nth i ps rzero).
