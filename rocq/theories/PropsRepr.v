(** * Property C157: repr of a Polyline, its edges attribute and the deprecated Plane.polyline_xsection. *)
From Coq Require Import String Ascii DecimalString DecimalNat Reals ZArith List Bool Lra Lia Sorted.
From Verif Require Import Num Vec RVec SpecGeom SpecPoly NpList MVx MPlane MSegment MPolyline VLemmas PPlane PPolyline PPolyline2 PPolyline3 PropsPolyline.
Import ListNotations.
Local Open Scope R_scope.

(** what a string of decimal digits means; [None] if it is not one *)
Definition digit (c : ascii) : option nat := let n := nat_of_ascii c in if (Nat.leb 48 n && Nat.leb n 57)%bool then Some (n - 48)%nat else None.
Fixpoint read_from (acc : nat) (s : string) : option nat :=
  match s with EmptyString => Some acc | String c r => match digit c with Some d => read_from (10 * acc + d) r | None => None end end.
Definition read_decimal (s : string) : option nat := match s with EmptyString => None | _ => read_from 0 s end.

Lemma read_uint d : forall acc, read_from acc (NilEmpty.string_of_uint d) = Some (Nat.of_uint_acc d acc).
Proof.
  induction d as [|d IH|d IH|d IH|d IH|d IH|d IH|d IH|d IH|d IH|d IH]; intros acc; [reflexivity|..]; cbn [NilEmpty.string_of_uint read_from Nat.of_uint_acc];
    match goal with |- context [digit ?c] => let x := eval vm_compute in (digit c) in change (digit c) with x end; cbv beta iota; rewrite IH; do 2 f_equal; rewrite Nat.tail_mul_spec; lia.
Qed.
Lemma read_dec n : read_decimal (dec_string n) = Some n.
Proof.
  unfold dec_string. rewrite <- (Unsigned.of_to n) at 2. destruct (Nat.to_uint n) as [|d|d|d|d|d|d|d|d|d|d] eqn:E; [reflexivity|..]; rewrite <- E; unfold Nat.of_uint; rewrite <- (read_uint (Nat.to_uint n) 0), E; reflexivity.
Qed.

(** repr never raises; it tells open from closed and the number of vertices *)
Theorem C157_repr : forall F (N : Num F) (p : polyline F),
  match p_v p with
  | Some (v :: vs) => exists d, read_decimal d = Some (List.length (v :: vs)) /\
      poly_repr p = Ok ("<" ++ (if p_closed p then "closed" else "open") ++ " Polyline with " ++ d ++ " verts>")%string
  | _ => poly_repr p = Ok "<Polyline with no verts>"%string
  end.
Proof.
  intros F N [[[|v vs]|] c e]; cbn [p_v]; [reflexivity| |reflexivity]. exists (dec_string (List.length (v :: vs))). split; [apply read_dec|]. destruct c; reflexivity.
Qed.
Print Assumptions C157_repr.
(** the edges read after any history are those of the vertices and the closedness (same exception as C30) *)
Theorem C157_edges_attribute : forall F (N : Num F) (a : array_in F) c p0 (ops : list op), init a c = Ok p0 ->
  let p := run p0 ops in ~ closed_without_vertices p -> get_e p = match p_v p with None => None | Some v => Some (chain_edges (List.length v) (p_closed p)) end.
Proof.
  intros F N a c p0 ops H p H2. destruct (@C30_edges_match_after_any_history F N a c p0 ops H) as [K|K]; [|contradiction]. unfold edges_match in K. fold p in K. unfold get_e. destruct (p_v p); exact K.
Qed.
Print Assumptions C157_edges_attribute.
(** the deprecated method finds the crossings of C31 *)
Theorem C157_polyline_xsection : forall p n pl, mk_plane (fin3 p) (fin3 n) = Ok pl ->
  forall c vs P, is_polyline c vs P -> Forall (fun ab => ~ lies_in p n ab) (segs c vs) ->
  exists xs idx, polyline_xsection pl P = Ok (map fin3 xs, idx) /\
    StronglySorted lt idx /\ (forall i, In i idx <-> exists ab, nth_error (segs c vs) i = Some ab /\ meets p n ab) /\
    Forall2 (fun i x => exists ab, nth_error (segs c vs) i = Some ab /\ on_plane p n x /\ on_segment (fst ab) (snd ab) x) idx xs.
Proof. intros p n pl Hpl c vs P HP HF. exact (C31_intersect_plane Hpl HP HF). Qed.
Print Assumptions C157_polyline_xsection.
Example C157_example : poly_repr (mkpoly (Some (repeat (mk3 (Fin 0) (Fin 1) (Fin 2)) 12)) true None) = Ok "<closed Polyline with 12 verts>"%string /\ read_decimal "12" = Some 12%nat /\ read_decimal "1x" = None.
Proof. repeat split. Qed.
