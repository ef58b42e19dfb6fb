(** * Properties C57 - C61: coercion, predicates, operations, Gram-Schmidt. *)
From Coq Require Import Reals ZArith QArith List Bool Lra Lia.
From Flocq Require Import Core.Raux Core.Zaux.
From Flocq Require Import IEEE754.BinarySingleNaN.
From Verif Require Import Num B64 BLemmas XLemmas Vec NpList SpecGeom RList PRList MNumerics SpecNumerics PNumerics PGram MPolyline.
Import ListNotations.
Local Open Scope R_scope.
Set Implicit Arguments.
Unset Strict Implicit.

(** C57 for every shape and every pattern, at any number type. *)
Theorem C57_as_numeric_array : forall F (N : Num F) (a : arg F) p allow_none empty_as_none,
  match as_numeric_array a p allow_none empty_as_none with
  | Ok None => allow_none = true /\ (a = ANone \/ exists x, a = ANum x /\ empty_as_none = true /\ nd_shape x = [0%nat])
  | Ok (Some b) => exists x, a = ANum x /\ all_finite b /\ (b = x \/ transposed x b) /\
      (p = None -> b = x) /\
      (forall pat, p = Some pat -> fits pat (nd_shape b) /\ (fits pat (nd_shape x) -> b = x))
  | Err e => e = ValueError /\
      ((a = ANone /\ allow_none = false) \/ a = AOther \/
       exists x, a = ANum x /\
         ((exists i, in_bounds i (nd_shape x) /\ nfinite (nd_at x i) = false) \/
          (exists pat, p = Some pat /\ ~ fits pat (nd_shape x) /\ ~ fits pat (rev (nd_shape x)))))
  end.
Proof. exact as_numeric_array_spec. Qed.
Print Assumptions C57_as_numeric_array.
(** Wrong rank or dimensions are always refused (unless None is returned for an
    empty array), and inputs that fit are always taken. *)
Theorem C57_decided : forall F (N : Num F) (x : nd F) pat allow_none empty_as_none,
  ~ (allow_none = true /\ empty_as_none = true /\ nd_shape x = [0%nat]) ->
  (~ fits pat (nd_shape x) -> ~ fits pat (rev (nd_shape x)) ->
     as_numeric_array (ANum x) (Some pat) allow_none empty_as_none = Err ValueError) /\
  (all_finite x -> fits pat (nd_shape x) ->
     as_numeric_array (ANum x) (Some pat) allow_none empty_as_none = Ok (Some x)) /\
  (~ all_finite x -> as_numeric_array (ANum x) (Some pat) allow_none empty_as_none = Err ValueError).
Proof.
  intros F N x pat an en NE. pose proof (as_numeric_array_spec N (ANum x) (Some pat) an en) as S.
  destruct (as_numeric_array (ANum x) (Some pat) an en) as [[b|]|e].
  - destruct S as (x'&E&Fin'&D&_&P). injection E as <-. destruct (P pat eq_refl) as [P1 P2]. split; [|split].
    + intros N1 N2. destruct D as [->|[Sh _]]; [contradiction|]. rewrite Sh in P1. contradiction.
    + intros _ P3. now rewrite (P2 P3).
    + intros NF. destruct D as [->|[Sh At]]; [contradiction|]. exfalso. apply NF. intros i Hi.
      specialize (Fin' (rev i)). rewrite At, rev_involutive, Sh in Fin'. apply Fin'. now apply in_bounds_rev.
  - destruct S as (Ea&[D|(x'&E&Ee&Es)]); [discriminate|]. injection E as <-. tauto.
  - destruct S as (->&S). split; [auto|]. split; [|auto]. intros Fx Px.
    destruct S as [[D _]|[D|(x'&E&D)]]; try discriminate. injection E as <-. exfalso.
    destruct D as [(i&B&Nf)|(pat'&E&N1&_)]; [|injection E as <-; contradiction]. rewrite (Fx i B) in Nf. discriminate.
Qed.
Print Assumptions C57_decided.
Example C57_example :
  let a := mknd [3%nat; 1%nat] (fun i => Fin (INR (nth 0 i 0%nat))) in
  all_finite a /\ as_numeric_array (ANum a) (Some [(-1)%Z; 3%Z]) false false = Ok (Some (nd_T a)) /\
  fits [(-1)%Z; 3%Z] [1%nat; 3%nat] /\ ~ fits [(-1)%Z; 3%Z] [3%nat; 1%nat] /\
  as_numeric_array (ANum a) (Some [(-1)%Z; 4%Z]) false false = Err ValueError.
Proof.
  cbv zeta. split; [intros i _; reflexivity|]. split; [reflexivity|]. split; [constructor; [left; reflexivity|]; constructor; [right; reflexivity|constructor]|]. split; [|reflexivity].
  intros H. inversion_clear H as [|? ? ? ? _ T]. inversion_clear T as [|? ? ? ? D _]. destruct D; lia.
Qed.
(** Polyline's model of the same call is an instance of it. *)
Definition points_nd (l : list (V3 xr)) : nd xr :=
  mknd [length l; 3%nat] (fun i => let p := nth (nth 0 i 0%nat) l (mk3 NaN NaN NaN) in
                                  match nth 1 i 0%nat with 0%nat => c0 p | 1%nat => c1 p | _ => c2 p end).
Example points_nd_accepted : forall l, length l <> 0%nat -> Forall (fun p => exists q, p = fin3 q) l ->
  as_numeric_array (ANum (points_nd l)) (Some [(-1)%Z; 3%Z]) true false = Ok (Some (points_nd l)).
Proof.
  intros l NE H. apply C57_decided; [intros [_ [D _]]; discriminate| |].
  - intros i Hi. inversion_clear Hi as [|i0 n i' s' L T]. inversion_clear T as [|i1 n i'' s'' L1 T1]. inversion_clear T1.
    cbn [points_nd nd_at nth]. rewrite Forall_forall in H. destruct (H (nth i0 l (mk3 NaN NaN NaN))) as [q ->]; [now apply nth_In|].
    destruct i1 as [|[|i1]]; reflexivity.
  - constructor; [left; reflexivity|]. constructor; [right; reflexivity|constructor].
Qed.

(** C58 *)
Section C58.
Context {F : Type} {N : Num F}.
(** Scalars: exactly the real numbers, two Decimal values apart. *)
Theorem C58_scalars : forall s : pyscalar F,
  (forall q, s = PDec (DFinite q) -> ~ (q == 0)%Q) -> s <> PDec DNaN ->
  isnumeric (PS s) = true <-> real_number s.
Proof. exact scalar_spec. Qed.
(** Arrays, of any nesting, of values numpy stores natively. *)
Theorem C58_arrays : forall l : list (pyval F), (forall s, leaf s (PL l) -> native s) ->
  isnumeric (PL l) = true <-> (exists sh, has_shape (PL l) sh) /\ forall s, leaf s (PL l) -> real_number s.
Proof. exact array_native. Qed.
(** Arrays of ints of any size, fractions and finite floats are accepted. *)
Theorem C58_plain_arrays : forall (l : list (pyval F)) sh, has_shape (PL l) sh ->
  (forall s, leaf s (PL l) -> plain_number s) -> isnumeric (PL l) = true.
Proof. exact array_plain. Qed.
(** Arrays of bools, and arrays with a string or a None anywhere, are not. *)
Theorem C58_bad_arrays : forall l : list (pyval F),
  ((exists s, leaf s (PL l)) -> (forall s, leaf s (PL l) -> exists b, s = PBool b) -> isnumeric (PL l) = false) /\
  (forall s, leaf s (PL l) -> s = PNone \/ s = PStr -> isnumeric (PL l) = false).
Proof. intros l. split; [apply array_bools|apply array_bad]. Qed.
(** but bools beside numbers are (C133) *)
Theorem C133_mixed_refuted : forall (l : list (pyval F)) sh, has_shape (PL l) sh ->
  (forall s, leaf s (PL l) -> plain_number s \/ exists b, s = PBool b) -> (exists s, leaf s (PL l) /\ plain_number s) -> isnumeric (PL l) = true.
Proof. exact array_mixed. Qed.
Theorem C58_scalar_or_array : forall v : pyval F,
  ~ (isnumericscalar v = true /\ isnumericarray v = true) /\
  (isnumeric v = true <-> isnumericscalar v = true \/ isnumericarray v = true) /\
  (isnumericarray v = true -> exists l, v = PL l) /\ (isnumericscalar v = true -> exists s, v = PS s).
Proof.
  intros v. unfold isnumericscalar, isnumericarray. destruct v as [s|l].
  - split; [destruct (has_iter (PS s)); cbn; intros [A B]; discriminate|]. split.
    + destruct (has_iter (PS s)); cbn; intuition congruence.
    + split; [|eauto]. destruct s; discriminate.
  - cbn [has_iter negb andb]. split; [intros [D _]; discriminate|]. split; [intuition discriminate|]. split; [eauto|discriminate].
Qed.
End C58.
Print Assumptions C58_scalars.
Print Assumptions C58_arrays.
Print Assumptions C58_plain_arrays.
Print Assumptions C58_bad_arrays.
Print Assumptions C133_mixed_refuted.
Print Assumptions C58_scalar_or_array.
Theorem C58_empty : forall c, is_empty_arraylike c = true <->
  c = CNone \/ (exists s, c = CNdarray s /\ In 0%nat s) \/ c = CList 0 \/ c = CTuple 0.
Proof.
  intros c. split.
  - destruct c as [|s|n|n|]; cbn; intros H; auto; try discriminate.
    + right. left. exists s. split; auto. apply Nat.eqb_eq in H. induction s as [|k s IH]; [discriminate|]. cbn in H.
      apply Nat.eq_mul_0 in H as [->|H]; [now left|right; auto].
    + destruct n; [auto|discriminate].
    + destruct n; [auto|discriminate].
  - intros [->|[(s&->&H)|[->| ->]]]; auto. cbn. apply Nat.eqb_eq. induction s as [|k s IH]; [destruct H|]. cbn.
    destruct H as [->|H]; auto. rewrite IH by auto. lia.
Qed.
Print Assumptions C58_empty.
(** C133: a Decimal zero is refused, a Decimal NaN taken, and
    a bool is taken when it stands beside a number. *)
Theorem C133_decimals_and_bools_refuted :
  (real_number (F:=xr) (PDec (DFinite 0)) /\ isnumeric (F:=xr) (PS (PDec (DFinite 0))) = false) /\
  (~ real_number (F:=xr) (PDec DNaN) /\ isnumeric (F:=xr) (PS (PDec DNaN)) = true) /\
  (~ real_number (F:=xr) (PBool true) /\ isnumeric (F:=xr) (PL [PS (PBool true); PS (PInt 2)]) = true).
Proof. cbn. intuition. Qed.
Print Assumptions C133_decimals_and_bools_refuted.
Example C58_example :
  isnumeric (PL [PL [PS (PInt 1); PS (PFloat (Fin 2))]; PL [PS (PFloat (Fin 0)); PS (PInt 3)]]) = true /\
  has_shape (PL [PL [PS (PInt 1); PS (PFloat (Fin 2))]; PL [PS (PFloat (Fin 0)); PS (PInt 3)]]) [2%nat; 2%nat] /\
  has_shape (F:=xr) (PL [PS (PBool true); PS (PInt 2)]) [2%nat] /\ isnumeric (F:=xr) (PL [PS (PBool true); PS (PInt 2)]) = true /\
  isnumeric (PL [PS (PInt 1); PS (PFloat NaN)]) = false /\ isnumeric (PS (PFrac 1)) (F:=xr) = true.
Proof. repeat split; repeat constructor. Qed.

(** C59 over all doubles.  [quotient_or_default] says what one output element must be. *)
Definition quotient_or_default (dflt a b out : b64) : Prop :=
  (bfin a = true -> bfin b = true ->
     (Bval b <> 0 -> Rabs (rnd64 (Bval a / Bval b)) < bpow radix2 1024 ->
        bfin out = true /\ Bval out = rnd64 (Bval a / Bval b)) /\
     (Bval b = 0 \/ bpow radix2 1024 <= Rabs (rnd64 (Bval a / Bval b)) -> out = dflt)) /\
  (bfin a = false -> out = dflt) /\
  (bfin a = true -> bfin b = false -> is_nan b = true -> out = dflt) /\
  (bfin a = true -> bfin b = false -> is_nan b = false -> bfin out = true /\ Bval out = 0).
Lemma safe_div_spec dflt a b : quotient_or_default dflt a b (safe_div dflt a b).
Proof. split; [intros; now apply safe_div_finite|apply safe_div_nonfinite]. Qed.
Lemma safe_div_fin dflt a b : bfin dflt = true -> bfin (safe_div dflt a b) = true.
Proof. intros H. unfold safe_div. change (@nfinite b64 _) with bfin. destruct (bfin (a / b)%num) eqn:E; auto. Qed.
Theorem C59_zero_safe_divide : forall (la lb : list b64) dflt x, length la = length lb ->
  (exists out, zero_safe_divide (OArray la) (OArray lb) dflt = Ok out /\ length out = length la /\
     (bfin dflt = true -> Forall (fun o => bfin o = true) out) /\
     forall i a b, nth_error la i = Some a -> nth_error lb i = Some b ->
       exists o, nth_error out i = Some o /\ quotient_or_default dflt a b o) /\
  (exists out, zero_safe_divide (OArray la) (OScalar x) dflt = Ok out /\ length out = length la /\
     (bfin dflt = true -> Forall (fun o => bfin o = true) out) /\
     forall i a, nth_error la i = Some a -> exists o, nth_error out i = Some o /\ quotient_or_default dflt a x o) /\
  (exists out, zero_safe_divide (OScalar x) (OArray lb) dflt = Ok out /\ length out = length lb /\
     (bfin dflt = true -> Forall (fun o => bfin o = true) out) /\
     forall i b, nth_error lb i = Some b -> exists o, nth_error out i = Some o /\ quotient_or_default dflt x b o).
Proof.
  intros la lb dflt x L. split; [|split].
  - cbn [zero_safe_divide]. unfold broadcast. rewrite L, Nat.eqb_refl. cbn [mapr].
    exists (map2 (safe_div dflt) la lb). split; [|split; [|split]].
    + f_equal. unfold map2. rewrite map_map. reflexivity.
    + rewrite map2_length, L. apply Nat.min_id.
    + intros D. apply Forall_map, Forall_forall. intros [a b] _. now apply safe_div_fin.
    + intros i a b A B. exists (safe_div dflt a b). split; [|apply safe_div_spec].
      clear L. unfold map2. revert lb i A B. induction la as [|a0 la IH]; intros [|b0 lb] [|i] A B; try discriminate; cbn in *.
      * congruence.
      * now apply IH.
  - cbn [zero_safe_divide]. exists (map (fun a => safe_div dflt a x) la). split; [reflexivity|]. split; [apply map_length|]. split.
    + intros D. apply Forall_map, Forall_forall. intros a _. now apply safe_div_fin.
    + intros i a A. exists (safe_div dflt a x). split; [|apply safe_div_spec]. now apply (map_nth_error (fun a => safe_div dflt a x)).
  - cbn [zero_safe_divide]. exists (map (safe_div dflt x) lb). split; [reflexivity|]. split; [apply map_length|]. split.
    + intros D. apply Forall_map, Forall_forall. intros a _. now apply safe_div_fin.
    + intros i a A. exists (safe_div dflt x a). split; [|apply safe_div_spec]. now apply (map_nth_error (safe_div dflt x)).
Qed.
Print Assumptions C59_zero_safe_divide.
(** Two plain numbers are refused, as are two arrays of different lengths above 1. *)
Theorem C59_refusals : forall (a b dflt : b64) la lb,
  zero_safe_divide (OScalar a) (OScalar b) dflt = Err TypeError /\
  (length la <> length lb -> length la <> 1%nat -> length lb <> 1%nat ->
   zero_safe_divide (OArray la) (OArray lb) dflt = Err ValueError).
Proof.
  intros. split; [reflexivity|]. intros H1 H2 H3. cbn [zero_safe_divide]. unfold broadcast.
  destruct (Nat.eqb_spec (length la) (length lb)); [congruence|].
  destruct la as [|x [|x1 la]]; destruct lb as [|y [|y1 lb]]; cbn in *; try reflexivity; lia.
Qed.
Print Assumptions C59_refusals.
(** An array with one entry stands for that number. *)
Theorem C59_one_entry : forall (x dflt : b64) l,
  zero_safe_divide (OArray [x]) (OArray l) dflt = zero_safe_divide (OScalar x) (OArray l) dflt /\
  zero_safe_divide (OArray l) (OArray [x]) dflt = zero_safe_divide (OArray l) (OScalar x) dflt.
Proof.
  intros x dflt l. cbn [zero_safe_divide]. unfold broadcast. destruct l as [|y [|z l]]; cbn [length Nat.eqb mapr map map2 combine fst snd]; rewrite ?map_map; split; reflexivity.
Qed.
Print Assumptions C59_one_entry.
Example C59_example : mapr (map b64_me)
  (zero_safe_divide (OArray [bofZ 1; bofZ 0; bofZ 6]) (OArray [bofZ 0; bofZ 0; bofZ 3]) (bofZ 7))
  = Ok (map b64_me [bofZ 7; bofZ 7; bofZ 2]).
Proof. vm_compute. reflexivity. Qed.

(** C60 *)
Theorem C60_scale_to_range : forall a lo hi r_min r_max, In lo a -> In hi a -> Forall (fun x => lo <= x <= hi) a -> lo < hi ->
  exists k c, let f x := k * x + c in
    scale_to_range (finl a) (Fin r_min) (Fin r_max) = Ok (finl (map f a)) /\
    f lo = r_min /\ f hi = r_max /\
    (r_min <= r_max -> Forall (fun y => r_min <= y <= r_max) (map f a)) /\
    (r_min < r_max -> forall x y, x < y <-> f x < f y).
Proof.
  intros a lo hi r1 r2 Il Ih B L. destruct (scale_spec r1 r2 Il Ih B L) as (out&E&->).
  exists ((r2 - r1) / (hi - lo)), (r1 - (r2 - r1) / (hi - lo) * lo). cbv zeta.
  assert (EQ : forall x, (r2 - r1) / (hi - lo) * x + (r1 - (r2 - r1) / (hi - lo) * lo) = (r2 - r1) / (hi - lo) * (x - lo) + r1) by (intros; ring).
  split; [rewrite E; do 2 f_equal; apply map_ext; intros; symmetry; apply EQ|].
  split; [ring|]. split; [field; lra|]. split.
  - intros LE. apply Forall_map. revert B. apply Forall_impl. intros x Hx. rewrite EQ.
    assert (Q : 0 <= (x - lo) / (hi - lo) <= 1).
    { split; [apply Rmult_le_pos; [lra|]; apply Rlt_le, Rinv_0_lt_compat; lra|]. apply Rmult_le_reg_r with (hi - lo); [lra|].
      unfold Rdiv. rewrite Rmult_assoc, Rinv_l by lra. lra. }
    replace ((r2 - r1) / (hi - lo) * (x - lo)) with ((r2 - r1) * ((x - lo) / (hi - lo))) by (field; lra).
    assert (0 <= (r2 - r1) * ((x - lo) / (hi - lo))) by (apply Rmult_le_pos; lra).
    assert ((r2 - r1) * ((x - lo) / (hi - lo)) <= (r2 - r1) * 1) by (apply Rmult_le_compat_l; lra). lra.
  - intros LT x y. assert (P : 0 < (r2 - r1) / (hi - lo)) by (apply Rdiv_lt_0_compat; lra). split; intros H.
    + apply Rplus_lt_compat_r, Rmult_lt_compat_l; lra.
    + apply Rplus_lt_reg_r in H. now apply Rmult_lt_reg_l in H.
Qed.
Print Assumptions C60_scale_to_range.
Theorem C60_constant : forall c n r_min r_max,
  scale_to_range (finl (repeat c (S n))) (Fin r_min) (Fin r_max) = Ok (repeat NaN (S n)) /\
  scale_to_range (finl []) (Fin r_min) (Fin r_max) = Err ValueError.
Proof. intros. split; [apply scale_constant|reflexivity]. Qed.
Print Assumptions C60_constant.
Example C60_example : exists k c, let f x := k * x + c in
  scale_to_range (finl [3; 1; 2]) (Fin 10) (Fin 20) = Ok (finl (map f [3; 1; 2])) /\ f 1 = 10 /\ f 3 = 20.
Proof.
  destruct (@C60_scale_to_range [3; 1; 2] 1 3 10 20) as (k&c&H1&H2&H3&_); cbn; auto; try lra.
  - constructor; [lra|]. constructor; [lra|]. constructor; [lra|constructor].
  - exists k, c. auto.
Qed.

(** C61 *)
Theorem C61_orthogonalize : forall d vs, Forall (fun v => length v = d) vs -> independent d vs -> exists os,
  orthogonalize (map finl vs) = map finl os /\ length os = length vs /\ Forall (fun v => length v = d) os /\
  Forall (fun u => ldot u u <> 0) os /\ pairwise_orthogonal os /\
  (forall k x, in_span d (firstn k os) x <-> in_span d (firstn k vs) x) /\
  (forall k w u, nth_error vs k = Some w -> nth_error os k = Some u -> in_span d (firstn k vs) (lsub w u)).
Proof. intros d vs H I. destruct (gram_schmidt_spec H I) as (os&E). exists os. exact E. Qed.
Print Assumptions C61_orthogonalize.
(** orthonormalize: the rows it returns are the orthogonalized ones, scaled to
    unit length exactly at the requested indices (all of them by default). *)
Theorem C61_orthonormalize : forall d vs idxs, Forall (fun v => length v = d) vs -> independent d vs ->
  (forall l, idxs = Some l -> Forall (fun i => (- Z.of_nat (length vs) <= i < Z.of_nat (length vs))%Z) l) ->
  exists os rs, orthogonalize (map finl vs) = map finl os /\ length os = length vs /\
    orthonormalize (map finl vs) idxs = Ok (map finl rs) /\ length rs = length vs /\ pairwise_orthogonal rs /\
    (forall k x, in_span d (firstn k rs) x <-> in_span d (firstn k vs) x) /\
    forall j u, nth_error os j = Some u ->
      let requested := match idxs with
                       | None => True
                       | Some l => Exists (fun i => (Z.of_nat j = i \/ Z.of_nat j = i + Z.of_nat (length vs))%Z) l
                       end in
      (requested -> exists v, nth_error rs j = Some v /\ lnorm v = 1 /\ u = lscale (lnorm u) v /\ 0 < lnorm u) /\
      (~ requested -> nth_error rs j = Some u).
Proof. exact orthonormalize_spec. Qed.
Print Assumptions C61_orthonormalize.
Theorem C61_index_error : forall d vs idxs i, Forall (fun v => length v = d) vs -> independent d vs ->
  In i idxs -> ~ (- Z.of_nat (length vs) <= i < Z.of_nat (length vs))%Z ->
  orthonormalize (map finl vs) (Some idxs) = Err IndexError.
Proof.
  intros d vs idxs i H I In' B. destruct (gram_schmidt_spec H I) as (os&E&L&_). unfold orthonormalize. rewrite E.
  apply normalize_rows_bad with (i := i); auto. now rewrite map_length, L.
Qed.
Print Assumptions C61_index_error.
Example C61_example : independent 2 [[3; 1]; [2; 2]].
Proof.
  intros cs L H. destruct cs as [|a [|b [|x cs]]]; try discriminate. cbn in H. injection H as H1 H2.
  constructor; [lra|]. constructor; [lra|constructor].
Qed.
