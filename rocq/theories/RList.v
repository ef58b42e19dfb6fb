(** * Real vectors of any dimension, as lists (specification vocabulary). *)
From Coq Require Import Reals List Lra Lia.
From Verif Require Import NpList SpecGeom.
Import ListNotations.
Local Open Scope R_scope.

Definition lzero (d : nat) : list R := repeat 0 d.
Definition ladd (u v : list R) : list R := map2 Rplus u v.
Definition lsub (u v : list R) : list R := map2 Rminus u v.
Definition lscale (s : R) (v : list R) : list R := map (Rmult s) v.
Definition ldot (u v : list R) : R := rsum (map2 Rmult u v).
Definition lnorm (v : list R) : R := sqrt (ldot v v).
(** [sum_i cs_i * vs_i], vectors of dimension [d] *)
Fixpoint lincomb (d : nat) (cs : list R) (vs : list (list R)) : list R :=
  match cs, vs with
  | c :: cs', v :: vs' => ladd (lscale c v) (lincomb d cs' vs')
  | _, _ => lzero d
  end.
Definition in_span (d : nat) (vs : list (list R)) (x : list R) : Prop :=
  exists cs, length cs = length vs /\ x = lincomb d cs vs.
Definition independent (d : nat) (vs : list (list R)) : Prop :=
  forall cs, length cs = length vs -> lincomb d cs vs = lzero d -> Forall (fun c => c = 0) cs.
