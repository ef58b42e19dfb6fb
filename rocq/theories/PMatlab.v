(** * Proofs about the MATLAB-style helpers. *)
From Coq Require Import Reals ZArith List Bool Arith Lra Lia.
From Verif Require Import Num XLemmas Vec NpList MLinalg SpecLinalg SpecGeom PLinalg PPlane2 MNormals MMatlab SpecMatlab.
Import ListNotations.
Set Implicit Arguments.
Unset Strict Implicit.

Lemma bcast_dim_ok x y : fits x y -> bcast_dim x y = Ok (stretched x y).
Proof.
  intros H. unfold bcast_dim, stretched. destruct (Nat.eqb_spec x y) as [->|N]; [destruct y as [|[|]]; reflexivity|].
  destruct (Nat.eqb_spec x 1) as [->|N1]; [reflexivity|]. destruct H as [H|[H|H]]; try contradiction. subst y.
  destruct (Nat.eqb_spec 1 1); [|contradiction]. destruct x as [|[|]]; try contradiction; reflexivity.
Qed.
Lemma bcast_dim_err x y : ~ fits x y -> bcast_dim x y = Err ValueError.
Proof. unfold fits, bcast_dim. intros H. destruct (Nat.eqb_spec x y), (Nat.eqb_spec x 1), (Nat.eqb_spec y 1); tauto. Qed.
Lemma fits_dec x y : {fits x y} + {~ fits x y}.
Proof. unfold fits. destruct (Nat.eq_dec x y), (Nat.eq_dec x 1), (Nat.eq_dec y 1); tauto. Qed.
Lemma pick_along d i : pick d i = along d i.
Proof. unfold pick, along. destruct d as [|[|]]; reflexivity. Qed.

(** what [bcast] computes *)
Definition bcast_is {F} (op : F -> F -> F) (a b m : mat F) : Prop :=
  fits (m_rows a) (m_rows b) /\ fits (m_cols a) (m_cols b) /\
  m_rows m = stretched (m_rows a) (m_rows b) /\ m_cols m = stretched (m_cols a) (m_cols b) /\
  forall i j, (i < m_rows m)%nat -> (j < m_cols m)%nat ->
    m_at m i j = op (m_at a (along (m_rows a) i) (along (m_cols a) j)) (m_at b (along (m_rows b) i) (along (m_cols b) j)).
Lemma bcast_ok {F} (op : F -> F -> F) a b m : bcast op a b = Ok m -> bcast_is op a b m.
Proof.
  unfold bcast. destruct (fits_dec (m_rows a) (m_rows b)) as [R|R]; [rewrite (bcast_dim_ok R)|rewrite (bcast_dim_err R); discriminate].
  destruct (fits_dec (m_cols a) (m_cols b)) as [C|C]; [rewrite (bcast_dim_ok C)|rewrite (bcast_dim_err C); discriminate].
  cbn [bindr]. intros [= <-]. repeat split; auto. intros i j _ _. cbn [m_at]. now rewrite !pick_along.
Qed.
Lemma bcast_some {F} (op : F -> F -> F) a b : fits (m_rows a) (m_rows b) -> fits (m_cols a) (m_cols b) -> exists m, bcast op a b = Ok m.
Proof. intros R C. unfold bcast. rewrite (bcast_dim_ok R), (bcast_dim_ok C). cbn. eauto. Qed.
Lemma bcast_none {F} (op : F -> F -> F) a b : ~ (fits (m_rows a) (m_rows b) /\ fits (m_cols a) (m_cols b)) -> bcast op a b = Err ValueError.
Proof.
  intros H. unfold bcast. destruct (fits_dec (m_rows a) (m_rows b)) as [R|R]; [|now rewrite (bcast_dim_err R)].
  rewrite (bcast_dim_ok R). cbn [bindr]. destruct (fits_dec (m_cols a) (m_cols b)) as [C|C]; [tauto|]. now rewrite (bcast_dim_err C).
Qed.

(** a row repeated, against a column *)
Lemma tile_ok {F} (op : F -> F -> F) a b m : m_rows a = 1%nat -> m_cols b = 1%nat -> bcast op (tile_rows a (m_rows b)) b = Ok m -> bcast_is op a b m.
Proof.
  intros Ra Cb E. apply bcast_ok in E as (R & C & Er & Ec & E). cbn [tile_rows m_rows m_cols m_at] in *. rewrite Ra, Nat.mul_1_r in *.
  split; [unfold fits; auto|]. split; [unfold fits; auto|]. rewrite Er, Ec, Ra, Cb in *.
  split; [cbn; unfold stretched; destruct (m_rows b) as [|[|]]; reflexivity|]. split; [reflexivity|].
  intros i j Hi Hj. rewrite E by auto. rewrite Nat.mod_1_r. f_equal.
Qed.

(** ** sparse *)
Lemma in_combine_map {A B} (f : A -> B) l k : combine (map f l) (map f k) = map (fun p => (f (fst p), f (snd p))) (combine l k).
Proof. revert k. induction l as [|a l IH]; intros [|b k]; cbn; auto. now rewrite IH. Qed.
Lemma big_cons n f : big (S n) f = (f 0%nat + big n (fun k => f (S k)))%R.
Proof. unfold big. cbn [seq map rsum]. now rewrite <- seq_shift, map_map. Qed.
Lemma sp_at_ok i j data r c R C : length i = length data -> length j = length data -> (forall z, In z i -> 0 <= z)%Z -> (forall z, In z j -> 0 <= z)%Z ->
  sp_at (mksparse R C (combine (combine (map Z.to_nat i) (map Z.to_nat j)) (map Fin data))) r c = Fin (accumulated i j data (Z.of_nat r) (Z.of_nat c)).
Proof.
  intros Li Lj Pi Pj. unfold sp_at. cbn [sp_entries].
  assert (G : exists l, map snd (filter (fun e : nat * nat * xr => Nat.eqb (fst (fst e)) r && Nat.eqb (snd (fst e)) c)
      (combine (combine (map Z.to_nat i) (map Z.to_nat j)) (map Fin data))) = map Fin l /\ rsum l = accumulated i j data (Z.of_nat r) (Z.of_nat c)).
  { unfold accumulated. revert i j Li Lj Pi Pj. induction data as [|x data IH]; intros [|a i] [|b j]; try discriminate; intros Li Lj Pi Pj.
    - exists []. split; reflexivity.
    - injection Li as Li. injection Lj as Lj. destruct (IH i j Li Lj) as (l & E & S); [intros; apply Pi; now right|intros; apply Pj; now right|].
      cbn [map combine filter fst snd length]. rewrite big_cons. cbn [nth]. rewrite <- S.
      assert (Ea : Nat.eqb (Z.to_nat a) r = Z.eqb a (Z.of_nat r)).
      { specialize (Pi a (or_introl eq_refl)). destruct (Nat.eqb_spec (Z.to_nat a) r), (Z.eqb_spec a (Z.of_nat r)); auto; lia. }
      assert (Eb : Nat.eqb (Z.to_nat b) c = Z.eqb b (Z.of_nat c)).
      { specialize (Pj b (or_introl eq_refl)). destruct (Nat.eqb_spec (Z.to_nat b) c), (Z.eqb_spec b (Z.of_nat c)); auto; lia. }
      rewrite Ea, Eb. destruct (Z.eqb a _ && Z.eqb b _)%bool.
      + exists (x :: l). cbn [map snd]. rewrite E. split; reflexivity.
      + exists l. split; [exact E|]. lra. }
  destruct G as (l & -> & <-). now rewrite nsum_fin.
Qed.

Lemma fold_max l z : (z <= fold_left Z.max l z)%Z /\ (forall y, In y l -> y <= fold_left Z.max l z)%Z /\ (fold_left Z.max l z = z \/ In (fold_left Z.max l z) l).
Proof.
  revert z. induction l as [|a l IH]; intros z; cbn [fold_left].
  - split; [lia|]. split; [intros y []|auto].
  - destruct (IH (Z.max z a)) as (A & B & C). split; [lia|]. split.
    + intros y [->|H]; [lia|auto].
    + destruct C as [C|C]; [|right; now right]. destruct (Z.max_spec z a) as [[L M]|[L M]]; rewrite M in C at 2; [right; left; lia|left; lia].
Qed.
Lemma extent_ok i n : extent i = Some n -> (forall z, In z i -> 0 <= z)%Z -> (forall z, In z i -> (z < Z.of_nat n)%Z) /\ In (Z.of_nat n - 1)%Z i.
Proof.
  destruct i as [|z l]; [discriminate|]. cbn [extent]. intros [= <-] P. destruct (fold_max l z) as (A & B & C).
  assert (0 <= z)%Z by (apply P; now left). rewrite Z2Nat.id by lia. split.
  - intros y [->|H']; [lia|]. specialize (B y H'). lia.
  - replace (fold_left Z.max l z + 1 - 1)%Z with (fold_left Z.max l z) by lia. destruct C as [->|C]; [now left|now right].
Qed.

Lemma coo_ok {F} (data : list F) i j m n s : coo data i j m n = Ok s ->
  (forall z, In z i -> (0 <= z < Z.of_nat m)%Z) /\ (forall z, In z j -> (0 <= z < Z.of_nat n)%Z) /\
  s = mksparse m n (combine (combine (map Z.to_nat i) (map Z.to_nat j)) data).
Proof.
  unfold coo. destruct (existsb _ i) eqn:Ei; [discriminate|]. destruct (existsb _ j) eqn:Ej; [discriminate|]. cbn [orb]. intros [= <-].
  assert (G : forall k l, existsb (fun z => (z <? 0)%Z || (Z.of_nat k <=? z)%Z) l = false -> forall z, In z l -> (0 <= z < Z.of_nat k)%Z).
  { intros k l H z Hz. destruct (Z.ltb_spec z 0) as [L|L].
    - exfalso. assert (existsb (fun z => (z <? 0)%Z || (Z.of_nat k <=? z)%Z) l = true); [|congruence]. apply existsb_exists. exists z. split; auto. apply orb_true_intro. left. now apply Z.ltb_lt.
    - destruct (Z.leb_spec (Z.of_nat k) z) as [M|M]; [|lia].
      exfalso. assert (existsb (fun z => (z <? 0)%Z || (Z.of_nat k <=? z)%Z) l = true); [|congruence]. apply existsb_exists. exists z. split; auto. apply orb_true_intro. right. now apply Z.leb_le. }
  split; [exact (G _ _ Ei)|split; [exact (G _ _ Ej)|reflexivity]].
Qed.
Lemma coo_some {F} (data : list F) i j m n : (forall z, In z i -> (0 <= z < Z.of_nat m)%Z) -> (forall z, In z j -> (0 <= z < Z.of_nat n)%Z) ->
  exists s, coo data i j m n = Ok s.
Proof.
  intros Hi Hj. unfold coo.
  assert (G : forall k l, (forall z, In z l -> (0 <= z < Z.of_nat k)%Z) -> existsb (fun z => (z <? 0)%Z || (Z.of_nat k <=? z)%Z) l = false).
  { intros k l H. destruct (existsb _ l) eqn:E; auto. apply existsb_exists in E as (z & Hz & E). specialize (H z Hz).
    apply orb_prop in E as [E|E]; [apply Z.ltb_lt in E|apply Z.leb_le in E]; lia. }
  rewrite (G _ _ Hi), (G _ _ Hj). cbn. eauto.
Qed.
