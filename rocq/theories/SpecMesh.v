(** * Specification vocabulary for triangle meshes and plane sections. *)
From Coq Require Import Reals List Arith Relations.
From Verif Require Import Vec RVec SpecGeom SpecHull.
Import ListNotations.
Local Open Scope R_scope.

Definition corner_list (f : nat * nat * nat) : list nat := let '(a, b, c) := f in [a; b; c].
(** three distinct corners *)
Definition proper (f : nat * nat * nat) : Prop := NoDup (corner_list f).
Definition same_corners (f g : nat * nat * nat) : Prop := forall i, In i (corner_list f) <-> In i (corner_list g).
(** no two faces with the same corners *)
Definition no_repeats (fs : list (nat * nat * nat)) : Prop := ForallOrdPairs (fun f g => ~ same_corners f g) fs.
(** at most two faces at an edge *)
Definition has_edge (a b : nat) (f : nat * nat * nat) : bool := existsb (Nat.eqb a) (corner_list f) && existsb (Nat.eqb b) (corner_list f).
Definition two_faces_per_edge (fs : list (nat * nat * nat)) : Prop := forall a b, a <> b -> (length (filter (has_edge a b) fs) <= 2)%nat.
(** the positions of the corners *)
Definition triangle (vs : list (V3 R)) (f : nat * nat * nat) : list (V3 R) := map (fun i => nth i vs rzero) (corner_list f).
(** the common points of a triangle and a plane are the points of a segment / there are none *)
Definition is_section (p n : V3 R) (tri : list (V3 R)) (xy : V3 R * V3 R) : Prop :=
  forall z, in_hull tri z /\ on_plane p n z <-> on_segment (fst xy) (snd xy) z.
Definition misses (p n : V3 R) (tri : list (V3 R)) : Prop := forall z, in_hull tri z -> ~ on_plane p n z.
(** both faces have an edge with its end points on different sides of the plane *)
Definition share_cut_edge (p n : V3 R) (vs : list (V3 R)) (f g : nat * nat * nat) : Prop :=
  exists a b, has_edge a b f = true /\ has_edge a b g = true /\ sdist p n (nth a vs rzero) * sdist p n (nth b vs rzero) < 0.
(** every edge belongs to exactly two faces *)
Definition watertight (fs : list (nat * nat * nat)) : Prop :=
  forall f a b, In f fs -> a <> b -> has_edge a b f = true -> length (filter (has_edge a b) fs) = 2%nat.
(** within the group, faces are connected across cut edges / no cut edge joins the groups *)
Definition one_piece (p n : V3 R) (vs : list (V3 R)) (g : list (nat * nat * nat)) : Prop :=
  forall f f', In f g -> In f' g -> clos_refl_sym_trans _ (fun a b => In a g /\ In b g /\ share_cut_edge p n vs a b) f f'.
Definition separate (p n : V3 R) (vs : list (V3 R)) (g h : list (nat * nat * nat)) : Prop :=
  forall f f', In f g -> In f' h -> ~ share_cut_edge p n vs f f'.
