(** * Property C158: ranges of a composite and the coordinate manager in double precision. *)
From Coq Require Import String Reals ZArith List Bool Lra Lia.
From Flocq Require Import Core IEEE754.BinarySingleNaN.
From Verif Require Import Num B64 BLemmas Vec RVec NpList MVx SpecUnits MUnits MRotation MComposite MCoord SpecCoord SpecDouble SpecTransD PErr PTransD PTransD2 PCoordD PropsDouble6.
Import ListNotations.
Local Open Scope R_scope.

(** ** C158.  [part], [reach], [size_of] and [moves] as in C140 (SpecTransD.v). *)
Definition all_parts inv as_rot (os : list (op b64)) (fg : list (rigid * rigid)) : Prop := Forall2 (fun o p => part inv as_rot o (fst p) (snd p)) os fg.
Definition each_close e (f : V3 R -> V3 R) (xs ys : list (V3 b64)) : Prop := Forall2 (fun x y => close3 e y (f (Rval3 x))) xs ys.

(** the parts from number [i] on, as many as [os2] has; the calls of [os1] and [os3] may be any,
    also ones that raise *)
Theorem C158_range : forall inv as_rot os1 os2 os3 fg M xs bs l s bs' l' s', all_parts inv as_rot os2 fg -> (Z.of_nat (List.length os2) <= 2 ^ 30)%Z ->
  ordinary M -> Forall (within M) xs -> Forall2 size_of (map fst fg) bs -> reach bs l s -> Forall2 size_of (map snd fg) bs' -> reach_back bs' l' s' ->
  let i := List.length (after inv as_rot [] os1) in let range := Some (Some (Z.of_nat i), Some (Z.of_nat (i + List.length os2))) in
  let n := INR (List.length os2) in
  (exists ys, call (after inv as_rot [] (os1 ++ os2 ++ os3)) xs range false = Ok ys /\ each_close (30 * n * ulp_1 * (l * M + s)) (moves (map fst fg)) xs ys) /\
  (exists ys, call (after inv as_rot [] (os1 ++ os2 ++ os3)) xs range true = Ok ys /\ each_close (30 * n * ulp_1 * (l' * M + s')) (moves (rev (map snd fg))) xs ys).
Proof.
  intros inv as_rot os1 os2 os3 fg M xs bs l s bs' l' s' H N OM W Sf Rf Sb Rb i range n. unfold range, i. rewrite !(@range_call inv as_rot os1 os2 os3 xs fg) by exact H. split.
  - exact (C140_forward inv as_rot os2 fg M xs bs l s H N OM W Sf Rf).
  - exact (C140_reverse inv as_rot os2 fg M xs bs' l' s' H N OM W Sb Rb).
Qed.
Print Assumptions C158_range.

(** points set at tag [a] and read at the later tag [b]: the exact maps of the calls between the
    two tags, in order; nothing else in the history matters *)
Theorem C158_manager_forward : forall (B : Type) inv as_rot (h1 h2 h3 : list (event b64 B)) a b fg M xs bs l s,
  readable b -> not_tagged a (h2 ++ TagAs b :: h3) -> not_tagged b h3 -> all_parts inv as_rot (transform_calls h2) fg ->
  (Z.of_nat (List.length (transform_calls h2)) <= 2 ^ 30)%Z -> ordinary M -> Forall (within M) xs -> Forall2 size_of (map fst fg) bs -> reach bs l s ->
  exists ys, set_then_read (history inv as_rot (h1 ++ TagAs a :: h2 ++ TagAs b :: h3)) a (Points xs) b = Ok (Value (Points ys)) /\
    each_close (30 * INR (List.length (transform_calls h2)) * ulp_1 * (l * M + s)) (moves (map fst fg)) xs ys.
Proof.
  intros B inv as_rot h1 h2 h3 a b fg M xs bs l s Rb Ha Hb H N OM W Sf Rf. destruct (C140_forward inv as_rot _ fg M xs bs l s H N OM W Sf Rf) as (ys & E & C). exists ys. split; [|exact C].
  rewrite (@reads_forward B inv as_rot h1 h2 h3 a b xs fg Rb Ha Hb H), E; [reflexivity|]. intros Z. rewrite Z in H. inversion H; subst. inversion Sf; subst. now apply (reach_ne Rf).
Qed.
Print Assumptions C158_manager_forward.
Theorem C158_manager_backward : forall (B : Type) inv as_rot (h1 h2 h3 : list (event b64 B)) a b fg M xs bs l s,
  readable a -> not_tagged a (h2 ++ TagAs b :: h3) -> not_tagged b h3 -> all_parts inv as_rot (transform_calls h2) fg ->
  (Z.of_nat (List.length (transform_calls h2)) <= 2 ^ 30)%Z -> ordinary M -> Forall (within M) xs -> Forall2 size_of (map snd fg) bs -> reach_back bs l s ->
  exists ys, set_then_read (history inv as_rot (h1 ++ TagAs a :: h2 ++ TagAs b :: h3)) b (Points xs) a = Ok (Value (Points ys)) /\
    each_close (30 * INR (List.length (transform_calls h2)) * ulp_1 * (l * M + s)) (moves (rev (map snd fg))) xs ys.
Proof.
  intros B inv as_rot h1 h2 h3 a b fg M xs bs l s Rb Ha Hb H N OM W Sf Rf. destruct (C140_reverse inv as_rot _ fg M xs bs l s H N OM W Sf Rf) as (ys & E & C). exists ys. split; [|exact C].
  rewrite (@reads_backward B inv as_rot h1 h2 h3 a b xs fg Rb Ha Hb H), E; [reflexivity|]. intros Z. rewrite Z in H. inversion H; subst. inversion Sf; subst. now apply (reach_back_ne Rf).
Qed.
Print Assumptions C158_manager_backward.
(** set at [a], read at [b], set there, read back at [a] *)
Theorem C158_round_trip : forall (B : Type) inv as_rot (h1 h2 h3 : list (event b64 B)) a b fg M xs bs l s bs' l' s',
  readable a -> readable b -> not_tagged a (h2 ++ TagAs b :: h3) -> not_tagged b h3 -> all_parts inv as_rot (transform_calls h2) fg ->
  (Z.of_nat (List.length (transform_calls h2)) <= 2 ^ 30)%Z -> ordinary M -> Forall (within M) xs ->
  Forall2 size_of (map fst fg) bs -> reach bs l s -> Forall2 size_of (map snd fg) bs' -> reach_back bs' l' s' ->
  Forall (fun p => forall x, move (snd p) (move (fst p) x) = x) fg -> ordinary (2 * (l * M + s)) ->
  let m := history inv as_rot (h1 ++ TagAs a :: h2 ++ TagAs b :: h3) in
  exists ys zs, set_then_read m a (Points xs) b = Ok (Value (Points ys)) /\ set_then_read m b (Points ys) a = Ok (Value (Points zs)) /\
    each_close (30 * INR (List.length (transform_calls h2)) * ulp_1 * (3 * l' * (l * M + s) + s')) (fun x => x) xs zs.
Proof.
  intros B inv as_rot h1 h2 h3 a b fg M xs bs l s bs' l' s' Ra Rb Ha Hb H N OM W Sf Rf Sb Rbk U O2 m. destruct (C140_round_trip inv as_rot _ fg M xs bs l s bs' l' s' H N OM W Sf Rf Sb Rbk U O2) as (ys & zs & E1 & E2 & C). exists ys, zs.
  assert (NE : transform_calls h2 <> []) by (intros Z; rewrite Z in H; inversion H; subst; inversion Sf; subst; now apply (reach_ne Rf)). unfold m.
  rewrite (@reads_forward B inv as_rot h1 h2 h3 a b xs fg Rb Ha Hb H NE), (@reads_backward B inv as_rot h1 h2 h3 a b ys fg Ra Ha Hb H NE), E1, E2. split; [reflexivity|]. split; [reflexivity|exact C].
Qed.
Print Assumptions C158_round_trip.

(** the three parts of C140 between two tags, other calls around them *)
Example C158_example : let h2 := [Do (Scale (nofZ 2)); TagAs "mid"%string; Do (Translate (int3d 1 2 3)); Do (ConvertUnits (Some "cm"%string) (Some "m"%string))] : list (event b64 unit) in
  let h3 := [Do (Scale (nofZ 7)); TagAs "end"%string] in
  transform_calls h2 = three_parts /\ readable "body" /\ readable "scan" /\ not_tagged "body" (h2 ++ TagAs "scan"%string :: h3) /\ not_tagged "scan" h3 /\
  all_parts no_inverse no_rotation (transform_calls h2) three_maps /\ Forall (within 4) [int3d 1 2 3; int3d (-4) 0 1].
Proof.
  intros h2 h3. destruct C140_example as (H & W & _). split; [reflexivity|]. split; [|split; [|split; [|split; [|split]]]]; [| | | |exact H|exact W].
  - split; [discriminate|]. cbn. intros K. repeat (destruct K as [K|K]; [discriminate|]). exact K.
  - split; [discriminate|]. cbn. intros K. repeat (destruct K as [K|K]; [discriminate|]). exact K.
  - intros K. cbn in K. repeat (destruct K as [K|K]; [discriminate|]). exact K.
  - intros K. cbn in K. repeat (destruct K as [K|K]; [discriminate|]). exact K.
Qed.
