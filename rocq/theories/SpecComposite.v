(** * Specification vocabulary for composite transforms.

    [acts o f]: the call [o] adds a part that moves a point [p] to [f p]; a call
    that raises adds nothing. *)
From Coq Require Import Reals ZArith List String.
From Verif Require Import Num Vec RVec SpecUnits MUnits MRotation MComposite.
Import ListNotations.
Local Open Scope R_scope.

Section Spec.
Variables (inv : M4 xr -> res (M4 xr)) (as_rot : rot_arg xr -> res (M3 xr)).
Definition succeeds (o : op xr) : Prop := forall ts, exists x, apply_op inv as_rot ts o = Ok x.
Definition raises (o : op xr) : Prop := forall ts, exists e, apply_op inv as_rot ts o = Err e.

Inductive acts : op xr -> (V3 R -> V3 R) -> Prop :=
  | acts_scale k : 0 < k -> acts (Scale (Fin k)) (fun p => rscale k p)
  | acts_convert f t a b : unit_size f = Some (Length, a) -> unit_size t = Some (Length, b) ->
      acts (ConvertUnits (Some f) (Some t)) (fun p => rscale (a / b) p)
  | acts_convert_same u : acts (ConvertUnits u u) (fun p => p)
  | acts_convert_blank u w : unspecified u -> unspecified w -> acts (ConvertUnits u w) (fun p => p)
  | acts_translate v : acts (Translate (fin3 v)) (fun p => radd p v)
  | acts_reorient up look m : rotation_from_up_and_look up look = Ok (finm m) ->
      acts (Reorient up look) (rapply m)
  | acts_rotate r m : as_rot r = Ok (finm m) -> acts (Rotate r) (rapply m)
  | acts_append3 m r : succeeds (Append3 (Mat33 (finm m)) r) -> acts (Append3 (Mat33 (finm m)) r) (rapply m)
  | acts_append4 A t r : succeeds (Append4 (finm4 (affine A t)) r) ->
      acts (Append4 (finm4 (affine A t)) r) (fun p => radd (rapply A p) t)
  | acts_raises o : raises o -> acts o (fun p => p).

(** [A p + t] and [B p + u] undo each other. *)
Definition inverse_affine (A : M3 R) (t : V3 R) (B : M3 R) (u : V3 R) : Prop :=
  (forall p, radd (rapply B (radd (rapply A p) t)) u = p) /\
  (forall p, radd (rapply A (radd (rapply B p) u)) t = p).
(** A valid call: rotations are by rotation matrices, and a matrix is added with
    its inverse, or with an inverse that [np.linalg.inv] computes correctly. *)
Inductive valid : op xr -> Prop :=
  | valid_scale k : valid (Scale (Fin k))
  | valid_convert f t : valid (ConvertUnits f t)
  | valid_translate v : valid (Translate (fin3 v))
  | valid_reorient up look : valid (Reorient (fin3 up) (fin3 look))
  | valid_rotate r m : as_rot r = Ok (finm m) -> rotation m -> valid (Rotate r)
  | valid_append3 A B : inverse_affine A rzero B rzero -> valid (Append3 (Mat33 (finm A)) (Some (Mat33 (finm B))))
  | valid_append3_inv A B u : inverse_affine A rzero B u -> inv (finm4 (affine A rzero)) = Ok (finm4 (affine B u)) ->
      valid (Append3 (Mat33 (finm A)) None)
  | valid_append4 A t B u : inverse_affine A t B u -> valid (Append4 (finm4 (affine A t)) (Some (finm4 (affine B u))))
  | valid_append4_inv A t B u : inverse_affine A t B u -> inv (finm4 (affine A t)) = Ok (finm4 (affine B u)) ->
      valid (Append4 (finm4 (affine A t)) None)
  | valid_raises o : raises o -> valid o.
End Spec.

(** [fs] one after the other *)
Definition in_turn (fs : list (V3 R -> V3 R)) (p : V3 R) : V3 R := fold_left (fun q f => f q) fs p.
