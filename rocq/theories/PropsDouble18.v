(** * Property C166: inflection points of evenly sampled curves. *)
From Coq Require Import Reals ZArith List Bool Lra Lia Sorted.
From Flocq Require Import Core IEEE754.BinarySingleNaN.
From Verif Require Import Num B64 BLemmas Vec NpList MApex PNormD PInflD.
Import ListNotations.
Local Open Scope R_scope.

(** ** C166.  REFUTED: numpy takes the spacing as coordinates, and for even spacing these are all
    equal, so the slopes are infinite and their differences not a number.
    Coordinates [u] along the span that advance by a constant step [h], and [y] along the axis that
    rise ([s = false]) or fall ([s = true]) from each point to the next: no inflection is found,
    whatever the shape of the curve. *)
Theorem C166_evenly_sampled : forall (ps : list (V3 b64)) (axis span : V3 b64) (h : b64) (s : bool),
  let u := map (fun p => vdot p span) ps in let y := map (fun p => vdot p axis) ps in
  (2 <= length ps)%nat -> bfin h = true -> Bval h <> 0 -> Rabs (Bval h) <= bpow radix2 999 ->
  Forall (fun x => bfin x = true /\ Rabs (Bval x) <= bpow radix2 999) u ->
  Forall (fun x => bfin x = true /\ Rabs (Bval x) <= bpow radix2 999) y ->
  Sorted (fun a b => Bval b - Bval a = Bval h) u ->
  Sorted (fun a b => if s then Bval b < Bval a else Bval a < Bval b) y ->
  inflection_points ps axis span = Ok [].
Proof. intros ps axis span h s. exact (@inflection_even ps axis span h s). Qed.
Print Assumptions C166_evenly_sampled.

Definition cubic : list (V3 b64) := map (fun k => mk3 (nofZ k) (nofZ (k * k * k)) (nofZ 0)) [-3; -2; -1; 0; 1; 2; 3]%Z.
Definition ex_axis : V3 b64 := mk3 (nofZ 0) (nofZ 1) (nofZ 0).
Definition ex_span : V3 b64 := mk3 (nofZ 1) (nofZ 0) (nofZ 0).
Lemma sval (x : b64) z m e : b64_me x = Some (m, e) -> (e <= 0)%Z -> (m = z * 2 ^ (- e))%Z -> Bval x = IZR z.
Proof.
  intros E L M. rewrite (Bval_me E), M, mult_IZR. replace (2 ^ (- e))%Z with (radix2 ^ (- e))%Z by reflexivity. rewrite IZR_Zpower by lia. rewrite Rmult_assoc, <- bpow_plus. replace (- e + e)%Z with 0%Z by lia. cbn. ring.
Qed.
Lemma small z : (Z.abs z <= 100)%Z -> Rabs (IZR z) <= bpow radix2 999.
Proof.
  intros H. apply Rle_trans with 100; [rewrite <- abs_IZR; now apply IZR_le|]. apply Rle_trans with (bpow radix2 7); [change (bpow radix2 7) with 128; lra|]. apply bpow_le. lia.
Qed.
(** the values along span and axis, as reals *)
Lemma cubic_vals : map Bval (map (fun p => vdot p ex_span) cubic) = map IZR [-3; -2; -1; 0; 1; 2; 3]%Z /\ map Bval (map (fun p => vdot p ex_axis) cubic) = map IZR [-27; -8; -1; 0; 1; 8; 27]%Z.
Proof.
  unfold cubic. rewrite !map_map. cbn [map Z.mul Pos.mul].
  split; repeat (apply f_equal2; [eapply sval; [vm_compute; reflexivity|lia|reflexivity]|]); reflexivity.
Qed.
Lemma sorted_vals (P : R -> R -> Prop) (l : list b64) : Sorted P (map Bval l) -> Sorted (fun a b => P (Bval a) (Bval b)) l.
Proof.
  intros H. induction l as [|a l IH]; [constructor|]. cbn [map] in H. inversion H as [|? ? S HD]; subst. constructor; [auto|]. destruct l as [|b l]; [constructor|]. constructor. inversion HD; subst; auto.
Qed.
Lemma cubic_ok : inflection_points cubic ex_axis ex_span = Ok [] /\ Forall (fun x => bfin x = true /\ Rabs (Bval x) <= bpow radix2 999) (map (fun p => vdot p ex_span) cubic).
Proof.
  destruct cubic_vals as [VU VY].
  assert (FB : forall (l : list b64) zs, forallb bfin l = true -> map Bval l = map IZR zs -> Forall (fun z => (Z.abs z <= 100)%Z) zs -> Forall (fun x => bfin x = true /\ Rabs (Bval x) <= bpow radix2 999) l).
  { induction l as [|x l IH]; intros [|z zs] B E F; try discriminate E; [constructor|]. cbn [forallb] in B. apply andb_true_iff in B as [B1 B2]. injection E as E1 E2. inversion F; subst. constructor; [split; [exact B1|rewrite E1; now apply small]|eauto]. }
  assert (FU : Forall (fun x => bfin x = true /\ Rabs (Bval x) <= bpow radix2 999) (map (fun p => vdot p ex_span) cubic)) by (eapply FB; [vm_compute; reflexivity|exact VU|repeat constructor; lia]).
  split; [|exact FU].
  apply (C166_evenly_sampled cubic ex_axis ex_span (nofZ 1) false).
  - cbn. lia.
  - vm_compute. reflexivity.
  - destruct one_val as [-> _]. lra.
  - destruct one_val as [-> _]. apply (small 1). lia.
  - exact FU.
  - eapply FB; [vm_compute; reflexivity|exact VY|repeat constructor; lia].
  - apply (sorted_vals (fun a b => b - a = Bval (nofZ 1))). rewrite VU. destruct one_val as [-> _]. cbn [map]. repeat constructor; lra.
  - apply (sorted_vals (fun a b => a < b)). rewrite VY. cbn [map]. repeat constructor; lra.
Qed.
(** The cubic y = x x x at x = -3, ..., 3: it bends down before 0 and up after it, and yet no
    inflection point is reported. *)
Theorem C166_refuted : exists (ps : list (V3 b64)) (axis span : V3 b64) (xs ys : list R),
  map Bval (map (fun p => vdot p span) ps) = xs /\ map Bval (map (fun p => vdot p axis) ps) = ys /\
  Sorted (fun a b => b - a = 1) xs /\
  (forall i, (1 <= i <= 2)%nat -> nth (i - 1) ys 0 - 2 * nth i ys 0 + nth (i + 1) ys 0 < 0) /\
  (forall i, (4 <= i <= 5)%nat -> 0 < nth (i - 1) ys 0 - 2 * nth i ys 0 + nth (i + 1) ys 0) /\
  length ps = 7%nat /\ inflection_points ps axis span = Ok [].
Proof.
  exists cubic, ex_axis, ex_span. do 2 eexists. destruct cubic_vals as [VU VY]. split; [exact VU|]. split; [exact VY|]. split; [cbn [map]; repeat constructor; lra|].
  split; [|split; [|split; [reflexivity|exact (proj1 cubic_ok)]]].
  - intros i I. assert (C : (i = 1 \/ i = 2)%nat) by lia. destruct C as [->| ->]; cbn [map nth Nat.sub plus]; lra.
  - intros i I. assert (C : (i = 4 \/ i = 5)%nat) by lia. destruct C as [->| ->]; cbn [map nth Nat.sub plus]; lra.
Qed.
Print Assumptions C166_refuted.
