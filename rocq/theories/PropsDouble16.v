(** * Property C162: Gram-Schmidt in double precision. *)
From Coq Require Import Reals ZArith List Bool Lra Lia.
From Flocq Require Import Core IEEE754.BinarySingleNaN.
From Verif Require Import Num B64 BLemmas NpList SpecGeom RList SpecDouble SpecTransD SpecNumerics MNumerics PGramD PropsDouble.
Import ListNotations.
Local Open Scope R_scope.

Definition tiny : b64 := nlit 1 (2 ^ 27).
Definition one : b64 := nofZ 1.
Definition zer : b64 := nofZ 0.
Lemma tiny_val : Bval tiny = / 134217728 /\ Bval one = 1 /\ Bval zer = 0.
Proof.
  split; [|split].
  - rewrite (@Bval_me tiny 4503599627370496 (-79)) by (vm_compute; reflexivity). change (bpow radix2 (-79)) with (/ 604462909807314587353088). lra.
  - rewrite (@Bval_me one 4503599627370496 (-52)) by (vm_compute; reflexivity). change (bpow radix2 (-52)) with (/ 4503599627370496). lra.
  - reflexivity.
Qed.
Definition lauchli : list (list b64) := [[one; tiny; zer; zer]; [one; zer; tiny; zer]; [one; zer; zer; tiny]].
(** ** C162.  Three independent rows of doubles whose computed orthonormal rows are finite,
    while the second and the third are at 60 degrees to each other (as exact real vectors). *)
Theorem C162_orthonormal_refuted : exists vs rs r2 r3, independent 4 (map (map Bval) vs) /\ Forall (Forall (fun x => bfin x = true)) vs /\
  orthonormalize vs None = Ok rs /\ nth_error rs 1 = Some r2 /\ nth_error rs 2 = Some r3 /\
  Forall (fun x => bfin x = true) r2 /\ Forall (fun x => bfin x = true) r3 /\ 49 / 100 <= ldot (map Bval r2) (map Bval r3) /\ ldot (map Bval r2) (map Bval r2) <= 101 / 100 /\ ldot (map Bval r3) (map Bval r3) <= 101 / 100.
Proof.
  destruct tiny_val as (VT & V1 & V0). exists lauchli.
  assert (I : independent 4 (map (map Bval) lauchli)).
  { intros cs L H. destruct cs as [|a [|b [|c [|x cs]]]]; try discriminate L. unfold lauchli in H. cbn [map] in H. rewrite VT, V1, V0 in H. cbn in H. injection H as H1 H2 H3 H4.
    constructor; [lra|]. constructor; [lra|]. constructor; [lra|constructor]. }
  assert (E : match orthonormalize lauchli None with Ok [_; [a; b; c; d]; [a'; b'; c'; d']] => map b64_me [a; b; c; d; a'; b'; c'; d'] | _ => [] end =
    [Some (0, 0); Some (-6369051672525772, -53); Some (6369051672525772, -53); Some (0, 0); Some (0, 0); Some (-6369051672525772, -53); Some (0, 0); Some (6369051672525772, -53)]%Z) by (vm_compute; reflexivity).
  destruct (orthonormalize lauchli None) as [rs|] eqn:R; [|discriminate E]. destruct rs as [|r1 [|r2 [|r3 [|r4 rs]]]]; try discriminate E; try (destruct r2 as [|a [|b [|c [|d [|x r2]]]]]; discriminate E).
  2: { destruct r2 as [|a [|b [|c [|d [|x r2]]]]]; try discriminate E. destruct r3 as [|a' [|b' [|c' [|d' [|x' r3]]]]]; discriminate E. }
  destruct r2 as [|a [|b [|c [|d [|x r2]]]]]; try discriminate E. destruct r3 as [|a' [|b' [|c' [|d' [|x' r3]]]]]; try discriminate E. cbn [map] in E. injection E as Ea Eb Ec Ed Ea' Eb' Ec' Ed'.
  pose proof (bfin_me Ea) as Fa. pose proof (bfin_me Eb) as Fb. pose proof (bfin_me Ec) as Fc. pose proof (bfin_me Ed) as Fd. pose proof (bfin_me Ea') as Fa'. pose proof (bfin_me Eb') as Fb'. pose proof (bfin_me Ec') as Fc'. pose proof (bfin_me Ed') as Fd'.
  apply Bval_me in Ea, Eb, Ec, Ed, Ea', Eb', Ec', Ed'. change (bpow radix2 (-53)) with (/ 9007199254740992) in *.
  exists [r1; [a; b; c; d]; [a'; b'; c'; d']], [a; b; c; d], [a'; b'; c'; d']. split; [exact I|]. split; [|split; [reflexivity|split; [reflexivity|split; [reflexivity|]]]].
  - assert (Ft : bfin tiny = true) by (vm_compute; reflexivity). assert (F1 : bfin one = true) by (vm_compute; reflexivity). assert (F0 : bfin zer = true) by reflexivity. repeat apply Forall_cons; try apply Forall_nil; assumption.
  - split; [repeat apply Forall_cons; try apply Forall_nil; assumption|]. split; [repeat apply Forall_cons; try apply Forall_nil; assumption|].
    cbn [map]. rewrite Ea, Eb, Ec, Ed, Ea', Eb', Ec', Ed'. unfold ldot, map2. cbn [combine map fst snd rsum]. lra.
Qed.
Print Assumptions C162_orthonormal_refuted.

(** Two rows do stay orthogonal up to rounding.  The bound is relative: for coordinates up to
    [X] and [Y] and a first row at least as long as [X], the exact dot product of the two
    returned rows is at most 9 n^3 u X Y, and every coordinate of the second is within
    9 n^3 u Y of the exact projection's. *)
Theorem C162_two_rows : forall (u w : list b64) X Y,
  let n := INR (length u) in let ru := map Bval u in let rw := map Bval w in
  bpow radix2 (-100) <= X <= bpow radix2 100 -> bpow radix2 (-100) <= Y <= bpow radix2 100 ->
  Forall2 (fun a b => bfin a = true /\ bfin b = true /\ Rabs (Bval a) <= X /\ Rabs (Bval b) <= Y) u w ->
  (1 <= Z.of_nat (length u) <= 2 ^ 20)%Z -> X * X <= ldot ru ru ->
  exists o, orthogonalize [u; w] = [u; o] /\ length o = length u /\ Forall (fun x => bfin x = true) o /\
    Rabs (ldot ru (map Bval o)) <= 9 * (n * n * ulp_1 * n) * (X * Y) /\
    (forall i a b, nth_error u i = Some a -> nth_error w i = Some b -> exists c, nth_error o i = Some c /\ Rabs (Bval c - (Bval b - ldot ru rw / ldot ru ru * Bval a)) <= 9 * (n * n * ulp_1 * n) * Y).
Proof.
  intros u w X Y n ru rw HX HY H HN HU. rewrite (gram_two H). eexists. split; [reflexivity|]. exact (two_rows HX HY H HN HU).
Qed.
Print Assumptions C162_two_rows.
Example C162_two_rows_ex : exists (u w : list b64) X Y, bpow radix2 (-100) <= X <= bpow radix2 100 /\ bpow radix2 (-100) <= Y <= bpow radix2 100 /\
  Forall2 (fun a b => bfin a = true /\ bfin b = true /\ Rabs (Bval a) <= X /\ Rabs (Bval b) <= Y) u w /\ (1 <= Z.of_nat (length u) <= 2 ^ 20)%Z /\ X * X <= ldot (map Bval u) (map Bval u).
Proof.
  destruct tiny_val as (VT & V1 & V0). exists [one; tiny; zer; zer], [one; zer; tiny; zer], 1, 1.
  assert (B : bpow radix2 (-100) <= 1 <= bpow radix2 100) by (change 1 with (bpow radix2 0); split; apply bpow_le; lia). split; [exact B|]. split; [exact B|].
  assert (Ft : bfin tiny = true) by (vm_compute; reflexivity). assert (F1 : bfin one = true) by (vm_compute; reflexivity). assert (F0 : bfin zer = true) by reflexivity.
  split; [|split; [cbn [length]; lia|cbn [map]; rewrite VT, V1, V0; unfold ldot, map2; cbn [combine map fst snd rsum]; lra]].
  assert (A1 : Rabs (Bval one) <= 1) by (rewrite V1, Rabs_pos_eq; lra). assert (At : Rabs (Bval tiny) <= 1) by (rewrite VT, Rabs_pos_eq; lra). assert (A0 : Rabs (Bval zer) <= 1) by (rewrite V0, Rabs_pos_eq; lra).
  repeat apply Forall2_cons; try apply Forall2_nil; repeat (split; [assumption|]); assumption.
Qed.
