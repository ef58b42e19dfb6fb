(** * What is asked of the singular value decomposition in doubles. *)
From Coq Require Import Reals ZArith List.
From Flocq Require Import Core.
From Verif Require Import Num B64 BLemmas Vec RVec SpecGeom SpecDouble SpecTrigD SpecRotation MRotation.
Import ListNotations.
Local Open Scope R_scope.

(** Whenever [np.linalg.svd] returns, its two square factors are within [d] of orthogonal matrices,
    entry by entry.  Nothing is asked when it raises. *)
Definition orthogonal_factors (d : R) (svd : @svd_t b64) : Prop :=
  forall c u s v, svd c = Ok (u, s, v) -> exists U V, orthogonal U /\ orthogonal V /\ close33 d u U /\ close33 d v V.
(** Moreover the singular values are those of a decomposition of a matrix that differs from the one
    given by at most [tau] times the largest entry of the latter. *)
Definition accurate_svd (d tau : R) (svd : @svd_t b64) : Prop :=
  forall c u s v, svd c = Ok (u, s, v) -> exists U V C, svd_of C U (Rval3 s) V /\ close33 d u U /\ close33 d v V /\ fin3b s = true /\
    forall M, within M (c0 c) -> within M (c1 c) -> within M (c2 c) -> close33 (tau * M) c C.
(** a finite point that is the origin or of ordinary length *)
Definition ordinary_point (p : V3 b64) : Prop := fin3b p = true /\ (Rval3 p = rzero \/ bpow radix2 (-180) <= rnorm (Rval3 p) <= bpow radix2 180).
(** the root of the sum of the squared lengths *)
Definition frob (ps : list (V3 R)) : R := sqrt (rsum (map (fun p => rdot p p) ps)).
