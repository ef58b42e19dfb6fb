(** * Specification vocabulary for the normals nodes (independent of the model). *)
From Coq Require Import Reals ZArith List.
From Verif Require Import Num Vec RVec SpecGeom.
Import ListNotations.
Local Open Scope R_scope.

(** rows of vectors as one flat array of numbers *)
Definition flat (l : list (V3 R)) : list xr := flat_map (fun v => [Fin (c0 v); Fin (c1 v); Fin (c2 v)]) l.
(** row-wise operation on two stacks *)
Definition rowwise (op : V3 R -> V3 R -> V3 R) (a b : list (V3 R)) : list (V3 R) :=
  map (fun ab => op (fst ab) (snd ab)) (combine a b).
(** vertex number [i], and the normal of a face given by vertex numbers, not
    normalised: (b - a) x (c - a) *)
Definition vertex (v : list (V3 R)) (i : Z) : V3 R := nth (Z.to_nat i) v rzero.
Definition face_normal (v : list (V3 R)) (t : V3 Z) : V3 R :=
  rcross (rsub (vertex v (c1 t)) (vertex v (c0 t))) (rsub (vertex v (c2 t)) (vertex v (c0 t))).
(** every face refers to existing vertices *)
Definition in_range (n : nat) (f : list (V3 Z)) : Prop :=
  forall t i, In t f -> In i [c0 t; c1 t; c2 t] -> (0 <= i < Z.of_nat n)%Z.
(** a vector divided by its length *)
Definition runit (v : V3 R) : V3 R := rscale (/ rnorm v) v.
Fixpoint rvsum (l : list (V3 R)) : V3 R := match l with [] => rzero | x :: l' => radd x (rvsum l') end.
(** the normals of the faces meeting vertex [w], once for each corner that does *)
Definition normals_at (v : list (V3 R)) (f : list (V3 Z)) (w : Z) : list (V3 R) :=
  flat_map (fun t => map (fun _ => face_normal v t) (filter (Z.eqb w) [c0 t; c1 t; c2 t])) f.
(** number [i] of a stack *)
Definition row (l : list (V3 R)) (i : nat) : V3 R := nth i l rzero.
(** column [k] of a face *)
Definition corner_of (t : V3 Z) (k : nat) : Z := nth k [c0 t; c1 t; c2 t] 0%Z.

(** ** histories of a VertNormals object (over any type of arrays) *)
Section History.
Context {A B Out : Type}.
Inductive change := ChangeV (v : A) | ChangeF (f : B) | ChangeNormalized (b : bool) | ReadValue.
(** what every read should return: the value of a new node with the inputs of the moment *)
Fixpoint fresh_reads (value : A -> B -> bool -> Out) (v : A) (f : B) (n : bool) (es : list change) : list Out :=
  match es with
  | [] => []
  | ChangeV v' :: es' => fresh_reads value v' f n es'
  | ChangeF f' :: es' => fresh_reads value v f' n es'
  | ChangeNormalized b :: es' => fresh_reads value v f b es'
  | ReadValue :: es' => value v f n :: fresh_reads value v f n es'
  end.
(** between two reads, [normalized] takes another value only if [f] is also set;
    [read]: some read came before, [fset], [nset]: since the last read, [f] was set,
    [normalized] was set to another value *)
Fixpoint with_f (n read fset nset : bool) (es : list change) : bool :=
  match es with
  | [] => true
  | ChangeV _ :: es' => with_f n read fset nset es'
  | ChangeF _ :: es' => with_f n read true nset es'
  | ChangeNormalized b :: es' => with_f b read fset (nset || negb (Bool.eqb b n)) es'
  | ReadValue :: es' => (negb read || fset || negb nset) && with_f n true false false es'
  end.
End History.
Arguments change : clear implicits.
