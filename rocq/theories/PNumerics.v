(** * Proofs about coercion, predicates and operations. *)
From Coq Require Import Reals ZArith QArith List Bool Lra Lia.
From Flocq Require Import Core.Raux Core.Zaux Core.Generic_fmt IEEE754.BinarySingleNaN.
From Verif Require Import Num B64 XLemmas BLemmas Vec NpList MNumerics RList SpecGeom SpecNumerics PRList.
Import ListNotations.
Set Implicit Arguments.
Unset Strict Implicit.

(** ** as_numeric_array *)
Lemma indices_spec s i : In i (indices s) <-> in_bounds i s.
Proof.
  unfold in_bounds. revert i. induction s as [|n s IH]; intros i; cbn.
  - split; [intros [<-|[]]; constructor|intros H; inversion H; auto].
  - rewrite in_flat_map. split.
    + intros (k&Hk&H). apply in_map_iff in H as (j&<-&Hj). apply in_seq in Hk. constructor; [lia|]. now apply IH.
    + intros H. inversion H as [|k n' j s' Hk Hj E1 E2]; subst. exists k. split; [apply in_seq; lia|].
      apply in_map_iff. exists j. split; auto. now apply IH.
Qed.
Lemma numeric_spec F (N : Num F) (a : nd F) : nd_numeric a = true <-> all_finite a.
Proof.
  unfold nd_numeric, all_finite. rewrite forallb_forall. split; intros H i Hi; apply H, indices_spec, Hi.
Qed.
Lemma dims_match_spec p s : length p = length s -> dims_match p s = true <-> fits p s.
Proof.
  unfold dims_match, fits. revert s. induction p as [|e p IH]; intros [|n s] L; try discriminate; cbn.
  - split; [constructor|auto].
  - rewrite andb_true_iff, orb_true_iff, !Z.eqb_eq, IH by (cbn in L; lia). split.
    + intros [H1 H2]. now constructor.
    + intros H. now inversion H.
Qed.
Lemma in_bounds_rev i s : in_bounds i s -> in_bounds (rev i) (rev s).
Proof.
  unfold in_bounds. induction 1 as [|a b l k H H1 IH]; cbn; [constructor|]. apply Forall2_app; auto.
Qed.
Lemma finite_T F (N : Num F) (a : nd F) : all_finite a -> all_finite (nd_T a).
Proof.
  intros H i Hi. cbn in *. apply H. rewrite <- (rev_involutive (nd_shape a)). now apply in_bounds_rev.
Qed.
Lemma not_forall_indices F (N : Num F) (a : nd F) : nd_numeric a = false ->
  exists i, in_bounds i (nd_shape a) /\ nfinite (nd_at a i) = false.
Proof.
  unfold nd_numeric. intros H. assert (G : forall l, forallb (fun i => nfinite (nd_at a i)) l = false ->
    exists i, In i l /\ nfinite (nd_at a i) = false).
  { induction l as [|i l IH]; cbn; [discriminate|]. destruct (nfinite (nd_at a i)) eqn:E; cbn; [|eauto].
    intros K. destruct (IH K) as (j&Hj&Ej). eauto. }
  destruct (G _ H) as (i&Hi&E). exists i. split; auto. now apply indices_spec.
Qed.
Lemma fits_length p s : fits p s -> length p = length s.
Proof. unfold fits. induction 1; cbn; auto. Qed.

Lemma as_numeric_array_spec F (N : Num F) (a : arg F) p an en :
  match as_numeric_array a p an en with
  | Ok None => an = true /\ (a = ANone \/ exists x, a = ANum x /\ en = true /\ nd_shape x = [0%nat])
  | Ok (Some b) => exists x, a = ANum x /\ all_finite b /\ (b = x \/ transposed x b) /\
      (p = None -> b = x) /\
      (forall pat, p = Some pat -> fits pat (nd_shape b) /\ (fits pat (nd_shape x) -> b = x))
  | Err e => e = ValueError /\
      ((a = ANone /\ an = false) \/ a = AOther \/
       exists x, a = ANum x /\
         ((exists i, in_bounds i (nd_shape x) /\ nfinite (nd_at x i) = false) \/
          (exists pat, p = Some pat /\ ~ fits pat (nd_shape x) /\ ~ fits pat (rev (nd_shape x)))))
  end.
Proof.
  destruct a as [|a|]; cbn [as_numeric_array].
  - destruct an; auto.
  - destruct (nd_numeric a) eqn:En; cbn [negb].
    2:{ split; auto. right. right. exists a. split; auto. left. now apply not_forall_indices. }
    assert (Fa : all_finite a) by now apply numeric_spec.
    destruct (list_eq_dec Nat.eq_dec (nd_shape a) [0%nat]) as [E0|E0].
    + destruct an, en; cbn [andb]; try (split; [auto|right; exists a; auto]).
      all: destruct p as [p|]; [|exists a; repeat split; auto; discriminate].
      all: destruct (Nat.eqb_spec (length p) (length (nd_shape a))) as [L|L]; cbn [negb];
        [|split; auto; right; right; exists a; split; auto; right; exists p; split; auto; split; intros H; apply fits_length in H; rewrite ?rev_length in H; auto].
      all: destruct (dims_match p (nd_shape a)) eqn:M1;
        [exists a; split; [auto|]; split; [auto|]; split; [auto|]; split; [auto|]; intros pat [= <-]; split; auto; now apply dims_match_spec|].
      all: destruct (dims_match p (nd_shape (nd_T a))) eqn:M2.
      all: try (exists a; split; auto; split; [now apply finite_T|]; split; [right; split; auto|];
          split; [discriminate|]; intros pat [= <-]; split; [apply dims_match_spec; auto; cbn; now rewrite rev_length|];
          intros H; apply dims_match_spec in H; auto; congruence).
      all: split; auto; right; right; exists a; split; auto; right; exists p; split; auto; split; intros H;
        apply dims_match_spec in H; rewrite ?rev_length; auto; cbn in M2; congruence.
    + rewrite andb_false_r. destruct p as [p|]; [|exists a; repeat split; auto; discriminate].
      destruct (Nat.eqb_spec (length p) (length (nd_shape a))) as [L|L]; cbn [negb];
        [|split; auto; right; right; exists a; split; auto; right; exists p; split; auto; split; intros H; apply fits_length in H; rewrite ?rev_length in H; auto].
      destruct (dims_match p (nd_shape a)) eqn:M1;
        [exists a; split; [auto|]; split; [auto|]; split; [auto|]; split; [auto|]; intros pat [= <-]; split; auto; now apply dims_match_spec|].
      destruct (dims_match p (nd_shape (nd_T a))) eqn:M2.
      * exists a. split; auto. split; [now apply finite_T|]. split; [right; split; auto|].
        split; [discriminate|]. intros pat [= <-]. split; [apply dims_match_spec; auto; cbn; now rewrite rev_length|].
        intros H. apply dims_match_spec in H; auto. congruence.
      * split; auto. right. right. exists a. split; auto. right. exists p. split; auto. split; intros H;
        apply dims_match_spec in H; rewrite ?rev_length; auto; cbn in M2; congruence.
  - split; auto.
Qed.

(** ** predicates *)
Section Pred.
Context {F : Type} {N : Num F}.
Lemma scalar_spec (s : pyscalar F) : (forall q, s = PDec (DFinite q) -> ~ q == 0) -> s <> PDec DNaN ->
  isnumeric (PS s) = true <-> real_number s.
Proof.
  intros H1 H2. destruct s as [|b|z|x|re im| |x|q]; cbn; try tauto; try (split; [discriminate|tauto]).
  - destruct (fits_int64 z); [tauto|]. unfold mathy. cbn. destruct (z =? 0)%Z; cbn; tauto.
  - unfold mathy. destruct x as [q| | |]; cbn; try tauto; try (split; [discriminate|tauto]).
    destruct (Qeq_bool q 0) eqn:E; cbn; [|tauto]. apply Qeq_bool_iff in E. elim (H1 q eq_refl E).
  - unfold mathy. cbn. destruct (Qeq_bool q 0); cbn; tauto.
Qed.

Section PyInd.
Variable P : pyval F -> Prop.
Hypothesis HS : forall s, P (PS s).
Hypothesis HL : forall l, Forall P l -> P (PL l).
Fixpoint pyval_rect' (v : pyval F) : P v :=
  match v with
  | PS s => HS s
  | PL l => HL ((fix go (l : list (pyval F)) : Forall P l :=
                   match l with [] => Forall_nil P | x :: l' => Forall_cons x (pyval_rect' x) (go l') end) l)
  end.
End PyInd.
Lemma leaves_PL (l : list (pyval F)) : leaves (PL l) = flat_map (@leaves F) l.
Proof. induction l as [|x l IH]; auto. Qed.
Lemma leaves_spec (v : pyval F) : forall s, In s (leaves v) <-> leaf s v.
Proof.
  induction v as [t|l IH] using pyval_rect'; intros s.
  - cbn. split; [intros [->|[]]; constructor|intros H; inversion H; auto].
  - rewrite leaves_PL, in_flat_map. rewrite Forall_forall in IH. split.
    + intros (x&Hx&Hs). econstructor; eauto. now apply IH.
    + intros H. inversion H as [|s' x l' Hx Hs]; subst. exists x. split; auto. now apply IH.
Qed.
Lemma shape_go (l : list (pyval F)) : l <> [] -> shape_of (PL l) =
  match l with
  | [] => Some [0%nat]
  | [x] => match shape_of x with Some s => Some (1%nat :: s) | None => None end
  | x :: l' => match shape_of x, shape_of (PL l') with
               | Some s, Some (n :: s') => if list_eq_dec Nat.eq_dec s s' then Some (S n :: s') else None
               | _, _ => None
               end
  end.
Proof. destruct l as [|x [|y l]]; auto. Qed.
Lemma shape_sound (v : pyval F) : forall sh, shape_of v = Some sh <-> has_shape v sh.
Proof.
  induction v as [t|l IH] using pyval_rect'; intros sh.
  - cbn. split; [intros [= <-]; constructor|intros H; inversion H; auto].
  - destruct l as [|x l].
    { cbn. split; [intros [= <-]; constructor|intros H; inversion H; auto]. }
    revert sh x IH. induction l as [|y l IHl]; intros sh x IH.
    + rewrite shape_go by discriminate. inversion IH as [|x' l' Hx _]; subst. split.
      * destruct (shape_of x) as [s|] eqn:E; [|discriminate]. intros [= <-]. apply (@hs_list _ x [] s); auto. now apply Hx.
      * intros H. inversion H as [| |x' l' s H1 H2]; subst. apply Hx in H1. now rewrite H1.
    + rewrite shape_go by discriminate. inversion IH as [|x' l' Hx Hl]; subst. split.
      * destruct (shape_of x) as [s|] eqn:E; [|discriminate].
        destruct (shape_of (PL (y :: l))) as [[|n s']|] eqn:E2; try discriminate.
        destruct (list_eq_dec Nat.eq_dec s s') as [->|]; [|discriminate]. intros [= <-].
        apply (IHl _ y Hl) in E2. inversion E2 as [| |y' l' s H1 H2]; subst. cbn [length].
        apply (@hs_list _ x (y :: l) s'); [now apply Hx|constructor; auto].
      * intros H. inversion H as [| |x' l' s H1 H2]; subst. apply Hx in H1. rewrite H1.
        inversion H2; subst. assert (E : has_shape (PL (y :: l)) (S (length l) :: s)) by now constructor.
        apply (IHl _ y Hl) in E. rewrite E. destruct (list_eq_dec Nat.eq_dec s s); [reflexivity|congruence].
Qed.
Lemma infer_max (ss : list (pyscalar F)) s0 : let t := infer (s0 :: ss) in
  (exists s, In s (s0 :: ss) /\ kind s = t) /\ Forall (fun s => (rank (kind s) <= rank t)%nat) (s0 :: ss).
Proof.
  cbn [infer].
  assert (G : forall t0, let t := fold_left promote (map kind ss) t0 in
     ((t = t0) \/ exists s, In s ss /\ kind s = t) /\ (rank t0 <= rank t)%nat /\ Forall (fun s => (rank (kind s) <= rank t)%nat) ss).
  { induction ss as [|s ss IH]; intros t0; cbn [map fold_left].
    - cbn. repeat split; auto. 
    - specialize (IH (promote t0 (kind s))). cbv zeta in IH. destruct IH as ([E|(s'&I&E)]&L&A).
      + unfold promote in *. destruct (Nat.leb_spec (rank t0) (rank (kind s))) as [C|C].
        * split; [right; exists s; split; [now left|auto]|]. split; [lia|]. constructor; auto. 
        * split; [left; auto|]. split; [auto|]. constructor; auto. lia.
      + unfold promote in *. destruct (Nat.leb_spec (rank t0) (rank (kind s))) as [C|C].
        * split; [right; exists s'; split; [now right|auto]|]. split; [lia|]. constructor; auto.
        * split; [right; exists s'; split; [now right|auto]|]. split; [lia|]. constructor; auto. lia. }
  destruct (G (kind s0)) as ([E|(s&I&E)]&L&A).
  - split; [exists s0; split; [now left|auto]|]. constructor; auto.
  - split; [exists s; split; [now right|auto]|]. constructor; auto.
Qed.
Lemma mathy_plain (ss : list (pyscalar F)) : Forall plain_number ss -> mathy ss = true.
Proof.
  unfold mathy. intros H. apply andb_true_iff. split.
  - apply forallb_forall. rewrite Forall_forall in H. intros s Hs. apply H in Hs. destruct s; cbn in *; tauto.
  - induction H as [|s ss Hs _ IH]; cbn; auto. destruct s as [|b|z|x|re im| |x|q]; cbn in *; try tauto.
    + destruct (z =? 0)%Z; auto.
    + destruct (x =? n0)%num; auto.
    + destruct (Qeq_bool q 0); auto.
Qed.
Lemma array_plain (l : list (pyval F)) sh : has_shape (PL l) sh -> (forall s, leaf s (PL l) -> plain_number s) ->
  isnumeric (PL l) = true.
Proof.
  intros H A. unfold isnumeric. apply shape_sound in H. rewrite H.
  assert (B : Forall plain_number (leaves (PL l))) by (apply Forall_forall; intros s Hs; apply A, leaves_spec, Hs).
  destruct (leaves (PL l)) as [|s0 ss]; [reflexivity|].
  pose proof (infer_max ss s0) as M. cbv zeta in M. destruct M as ((s&I&E)&_).
  rewrite Forall_forall in B. pose proof (B _ I) as Bs.
  destruct (infer (s0 :: ss)) eqn:K; auto.
  - destruct s; cbn in *; try tauto; try discriminate. destruct (fits_int64 z); discriminate.
  - apply forallb_forall. intros t Ht. apply B in Ht. destruct t; cbn in *; tauto.
  - destruct s; cbn in *; try tauto; try discriminate. destruct (fits_int64 z); discriminate.
  - destruct s; cbn in *; try tauto; try discriminate. destruct (fits_int64 z); discriminate.
  - apply mathy_plain. now apply Forall_forall.
Qed.
Definition plain_or_bool (s : pyscalar F) : Prop := plain_number s \/ exists b, s = PBool b.
Lemma mathy_mixed (ss : list (pyscalar F)) : Forall plain_or_bool ss -> mathy ss = true.
Proof.
  unfold mathy. intros H. apply andb_true_iff. split.
  - apply forallb_forall. rewrite Forall_forall in H. intros s Hs. apply H in Hs. destruct Hs as [Hs|[b ->]]; [|reflexivity]. destruct s; cbn in *; tauto.
  - induction H as [|s ss Hs _ IH]; cbn; auto. destruct Hs as [Hs|[[] ->]]; [|exact IH|reflexivity]. destruct s as [|b|z|x|re im| |x|q]; cbn in *; try tauto.
    + destruct (z =? 0)%Z; auto.
    + destruct (x =? n0)%num; auto.
    + destruct (Qeq_bool q 0); auto.
Qed.
Lemma array_mixed (l : list (pyval F)) sh : has_shape (PL l) sh -> (forall s, leaf s (PL l) -> plain_number s \/ exists b, s = PBool b) ->
  (exists s, leaf s (PL l) /\ plain_number s) -> isnumeric (PL l) = true.
Proof.
  intros H A (s1 & L1 & P1). unfold isnumeric. apply shape_sound in H. rewrite H. apply leaves_spec in L1.
  assert (B : Forall plain_or_bool (leaves (PL l))) by (apply Forall_forall; intros s Hs; apply A, leaves_spec, Hs).
  destruct (leaves (PL l)) as [|s0 ss]; [destruct L1|].
  pose proof (infer_max ss s0) as M. cbv zeta in M. destruct M as ((s&I&E)&M).
  rewrite Forall_forall in B, M. pose proof (B _ I) as Bs. pose proof (M _ L1) as R1.
  destruct (infer (s0 :: ss)) eqn:K; auto.
  - destruct s1; cbn in *; try tauto; try lia. destruct (fits_int64 z); cbn in R1; lia.
  - apply forallb_forall. intros t Ht. apply B in Ht. destruct Ht as [Ht|[b ->]]; [|reflexivity]. destruct t; cbn in *; tauto.
  - destruct Bs as [Bs|[b ->]]; [|discriminate]. destruct s; cbn in *; try tauto; try discriminate. destruct (fits_int64 z); discriminate.
  - destruct Bs as [Bs|[b ->]]; [|discriminate]. destruct s; cbn in *; try tauto; try discriminate. destruct (fits_int64 z); discriminate.
  - apply mathy_mixed. now apply Forall_forall.
Qed.
Lemma array_native (l : list (pyval F)) : (forall s, leaf s (PL l) -> native s) ->
  isnumeric (PL l) = true <-> (exists sh, has_shape (PL l) sh) /\ forall s, leaf s (PL l) -> real_number s.
Proof.
  intros A. assert (B : Forall native (leaves (PL l))) by (apply Forall_forall; intros s Hs; apply A, leaves_spec, Hs).
  split.
  - unfold isnumeric. destruct (shape_of (PL l)) as [sh|] eqn:S; [|discriminate]. apply shape_sound in S. intros H.
    split; [eauto|]. intros s Hs. apply leaves_spec in Hs. destruct (leaves (PL l)) as [|s0 ss]; [destruct Hs|].
    pose proof (infer_max ss s0) as M. cbv zeta in M. destruct M as ((t&I&E)&M).
    rewrite Forall_forall in M, B. pose proof (M _ Hs) as Ms. pose proof (B _ Hs) as Bs.
    destruct (infer (s0 :: ss)) eqn:K; try discriminate.
    + destruct s; cbn in *; try tauto; lia.
    + rewrite forallb_forall in H. apply H in Hs. destruct s; cbn in *; try tauto; lia.
    + apply B in I. destruct t; cbn in *; try tauto; try discriminate. unfold fits_int64 in E.
      replace ((- 2 ^ 63 <=? z) && (z <? 2 ^ 63))%Z with true in E; [discriminate|].
      symmetry. apply andb_true_iff. rewrite Z.leb_le, Z.ltb_lt. auto.
  - intros [[sh S] R]. apply (array_plain S). intros s Hs. pose proof (A _ Hs) as Ns. apply R in Hs.
    destruct s; cbn in *; tauto.
Qed.
Lemma array_bools (l : list (pyval F)) : (exists s, leaf s (PL l)) -> (forall s, leaf s (PL l) -> exists b, s = PBool b) ->
  isnumeric (PL l) = false.
Proof.
  intros [s1 H1] A. unfold isnumeric. destruct (shape_of (PL l)); auto. apply leaves_spec in H1.
  assert (B : forall s, In s (leaves (PL l)) -> exists b, s = PBool b) by (intros s Hs; apply A, leaves_spec, Hs).
  destruct (leaves (PL l)) as [|s0 ss]; [destruct H1|].
  pose proof (infer_max ss s0) as M. cbv zeta in M. destruct M as ((t&I&E)&M). destruct (B _ I) as [b ->]. cbn [kind] in E. now rewrite <- E.
Qed.
Lemma array_bad (l : list (pyval F)) s : leaf s (PL l) -> s = PNone \/ s = PStr -> isnumeric (PL l) = false.
Proof.
  intros H D. unfold isnumeric. destruct (shape_of (PL l)); auto. apply leaves_spec in H.
  destruct (leaves (PL l)) as [|s0 ss]; [destruct H|].
  pose proof (infer_max ss s0) as M. cbv zeta in M. destruct M as (_&M). rewrite Forall_forall in M. pose proof (M _ H) as R.
  assert (mathy (s0 :: ss) = false).
  { unfold mathy. apply andb_false_iff. left. apply not_true_iff_false. rewrite forallb_forall. intros Q. apply Q in H.
    destruct D as [->| ->]; discriminate. }
  destruct (infer (s0 :: ss)); auto; destruct D as [->| ->]; cbn in R; lia.
Qed.
End Pred.

(** ** zero_safe_divide at IEEE doubles *)
Definition safe_div (dflt a b : b64) : b64 := if nfinite (ndiv a b) then ndiv a b else dflt.
Local Open Scope R_scope.
Lemma bdiv_cases (a b : b64) : bfin a = true -> Bval b <> 0 ->
  (Rabs (rnd64 (Bval a / Bval b)) < bpow radix2 1024 /\ bfin (bdiv a b) = true /\ Bval (bdiv a b) = rnd64 (Bval a / Bval b)) \/
  (bpow radix2 1024 <= Rabs (rnd64 (Bval a / Bval b)) /\ bfin (bdiv a b) = false).
Proof.
  intros Fa Zb. unfold bdiv, Bval, bfin in *.
  pose proof (@Bdiv_correct 53 1024 prec_gt_0_53 prec_lt_emax_53 mode_NE a b Zb) as C.
  rewrite round_eq in C. destruct (Rlt_bool_spec (Rabs (rnd64 (B2R a / B2R b))) (bpow radix2 1024)) as [L|L].
  - left. destruct C as (C1&C2&_). rewrite C2. auto.
  - right. split; auto. destruct (Bdiv mode_NE a b); cbn in *; auto; unfold binary_overflow in C; cbn in C; discriminate.
Qed.
Lemma bdiv_zero (a b : b64) : bfin b = true -> Bval b = 0 -> bfin (bdiv a b) = false.
Proof.
  intros Fb Zb. destruct b as [s|s| |s m e h]; try discriminate.
  - destruct a; reflexivity.
  - exfalso. unfold Bval in Zb. cbn in Zb. apply Float_prop.eq_0_F2R in Zb. destruct s; discriminate.
Qed.
Lemma safe_div_finite dflt a b : bfin a = true -> bfin b = true ->
  (Bval b <> 0 -> Rabs (rnd64 (Bval a / Bval b)) < bpow radix2 1024 ->
     bfin (safe_div dflt a b) = true /\ Bval (safe_div dflt a b) = rnd64 (Bval a / Bval b)) /\
  (Bval b = 0 \/ bpow radix2 1024 <= Rabs (rnd64 (Bval a / Bval b)) -> safe_div dflt a b = dflt).
Proof.
  intros Fa Fb. unfold safe_div. change (@nfinite b64 _) with bfin. change (@ndiv b64 _) with bdiv. split.
  - intros Zb L. destruct (bdiv_cases Fa Zb) as [(_&F&V)|(L'&_)]; [|lra]. rewrite F. auto.
  - intros D. destruct (Req_dec (Bval b) 0) as [Z|Z].
    + now rewrite bdiv_zero.
    + destruct D as [D|D]; [contradiction|]. destruct (bdiv_cases Fa Z) as [(L&_)|(_&F)]; [lra|]. now rewrite F.
Qed.
Lemma safe_div_nonfinite dflt a b :
  (bfin a = false -> safe_div dflt a b = dflt) /\
  (bfin a = true -> bfin b = false -> is_nan b = true -> safe_div dflt a b = dflt) /\
  (bfin a = true -> bfin b = false -> is_nan b = false -> bfin (safe_div dflt a b) = true /\ Bval (safe_div dflt a b) = 0).
Proof.
  unfold safe_div. change (@nfinite b64 _) with bfin. change (@ndiv b64 _) with bdiv.
  split; [|split]; destruct a, b; cbn; try discriminate; auto.
Qed.

(** ** scale_to_range *)
Definition rmin_list (x : R) (l : list R) : R := fold_left (fun a b => if Rlt_bool b a then b else a) l x.
Definition rmax_list (x : R) (l : list R) : R := fold_left (fun a b => if Rlt_bool a b then b else a) l x.
Lemma amin_fin x l : amin (finl (x :: l)) = Ok (Fin (rmin_list x l)).
Proof.
  unfold amin, finl, rmin_list. cbn [map]. f_equal. revert x. induction l as [|y l IH]; intros x; auto.
  cbn [map fold_left]. xs. destruct (Rlt_bool y x); apply IH.
Qed.
Lemma amax_fin x l : amax (finl (x :: l)) = Ok (Fin (rmax_list x l)).
Proof.
  unfold amax, finl, rmax_list. cbn [map]. f_equal. revert x. induction l as [|y l IH]; intros x; auto.
  cbn [map fold_left]. xs. destruct (Rlt_bool x y); apply IH.
Qed.
Lemma rmin_list_spec x l : In (rmin_list x l) (x :: l) /\ Forall (fun y => rmin_list x l <= y) (x :: l).
Proof.
  unfold rmin_list. revert x. induction l as [|y l IH]; intros x; cbn [fold_left].
  - split; [now left|]. constructor; [lra|constructor].
  - destruct (Rlt_bool_spec y x) as [H|H].
    + destruct (IH y) as [I A]. split; [now right|]. inversion A; subst. constructor; [lra|auto].
    + destruct (IH x) as [I A]. split; [cbn in *; tauto|]. inversion A; subst. constructor; auto. constructor; auto. lra.
Qed.
Lemma rmax_list_spec x l : In (rmax_list x l) (x :: l) /\ Forall (fun y => y <= rmax_list x l) (x :: l).
Proof.
  unfold rmax_list. revert x. induction l as [|y l IH]; intros x; cbn [fold_left].
  - split; [now left|]. constructor; [lra|constructor].
  - destruct (Rlt_bool_spec x y) as [H|H].
    + destruct (IH y) as [I A]. split; [now right|]. inversion A; subst. constructor; [lra|auto].
    + destruct (IH x) as [I A]. split; [cbn in *; tauto|]. inversion A; subst. constructor; auto. constructor; auto. lra.
Qed.
Lemma scale_spec a lo hi r1 r2 : In lo a -> In hi a -> Forall (fun x => lo <= x <= hi) a -> lo < hi ->
  exists out, scale_to_range (finl a) (Fin r1) (Fin r2) = Ok (finl out) /\
    out = map (fun x => (r2 - r1) / (hi - lo) * (x - lo) + r1) a.
Proof.
  intros Il Ih A L. destruct a as [|x l]; [destruct Il|].
  destruct (rmin_list_spec x l) as [M1 M2].
  assert (E : rmin_list x l = lo).
  { rewrite Forall_forall in M2, A. apply Rle_antisym; [now apply M2|apply A, M1]. }
  unfold scale_to_range. rewrite amin_fin. cbn [bindr]. rewrite E.
  replace (map (fun x0 : xr => (x0 - Fin lo)%num) (finl (x :: l))) with (finl (map (fun y => y - lo) (x :: l)))
    by (unfold finl; rewrite !map_map; apply map_ext; reflexivity).
  cbn [map]. rewrite amax_fin. cbn [bindr].
  destruct (rmax_list_spec (x - lo) (map (fun y => y - lo) l)) as [N1 N2].
  assert (E2 : rmax_list (x - lo) (map (fun y => y - lo) l) = hi - lo).
  { change (x - lo :: map (fun y => y - lo) l) with (map (fun y => y - lo) (x :: l)) in N1, N2.
    rewrite Forall_forall in N2, A. apply Rle_antisym.
    - apply in_map_iff in N1 as (y&<-&Hy). apply A in Hy. lra.
    - apply N2. apply in_map_iff. eauto. }
  rewrite E2. exists (map (fun x => (r2 - r1) / (hi - lo) * (x - lo) + r1) (x :: l)). split; auto. f_equal.
  change (x - lo :: map (fun y => y - lo) l) with (map (fun y => y - lo) (x :: l)).
  unfold finl. rewrite !map_map. apply map_ext. intros y. xs. rewrite xdivE by lra. xs. f_equal. field. lra.
Qed.
Lemma sub_repeat c m : map (fun x0 : xr => (x0 - Fin c)%num) (finl (repeat c m)) = finl (repeat 0 m).
Proof. induction m as [|m IH]; auto. unfold finl in *. cbn [repeat map]. rewrite IH. xs. do 2 f_equal. ring. Qed.
Lemma nan_repeat m r1 r2 :
  map (fun x : xr => ((Fin r2 - Fin r1) * x / Fin 0 + Fin r1)%num) (finl (repeat 0 m)) = repeat NaN m.
Proof. induction m as [|m IH]; auto. unfold finl in *. cbn [repeat map]. rewrite IH. xs. rewrite xdiv0. reflexivity. Qed.
Lemma scale_constant c n r1 r2 : scale_to_range (finl (repeat c (S n))) (Fin r1) (Fin r2) = Ok (repeat NaN (S n)).
Proof.
  assert (Cl : forall (c x : R), In x (repeat c (S n)) -> x = c) by (intros c' x Hx; now apply repeat_spec in Hx).
  unfold scale_to_range. change (amin (finl (repeat c (S n)))) with (amin (finl (c :: repeat c n))).
  rewrite amin_fin. cbn [bindr]. destruct (rmin_list_spec c (repeat c n)) as [M _]. apply (Cl c) in M. rewrite M, sub_repeat.
  change (amax (finl (repeat 0 (S n)))) with (amax (finl (0 :: repeat 0 n))). rewrite amax_fin. cbn [bindr].
  destruct (rmax_list_spec 0 (repeat 0 n)) as [M2 _]. apply (Cl 0) in M2. rewrite M2. f_equal. apply nan_repeat.
Qed.
