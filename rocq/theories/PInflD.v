(** * inflection_points of evenly sampled curves of doubles: proofs for property C166. *)
From Coq Require Import Reals ZArith List Bool Lra Lia Sorted.
From Flocq Require Import Core Plus_error Mult_error IEEE754.BinarySingleNaN.
From Verif Require Import Num B64 BLemmas Vec NpList MApex PNormD.
Import ListNotations.
Local Open Scope R_scope.
Set Implicit Arguments.
Unset Strict Implicit.

Section Const.
Context {F : Type} {N : Num F}.
Context (Q : F -> F -> Prop) (z c : F) (H1 : forall a b, Q a b -> ndiv (nsub b a) z = c) (H2 : forall a b d, Q a b -> Q b d -> ndiv (nsub d a) (nmul (nofZ 2) z) = c).
Lemma inner_const f : Sorted Q f -> inner_uniform z f = repeat c (length f - 2).
Proof.
  intros SS. induction SS as [|a f SS IH HD]; [reflexivity|]. destruct f as [|b f]; [reflexivity|]. destruct f as [|d f]; [reflexivity|].
  assert (Q1 : Q a b) by (inversion HD; auto). assert (Q2 : Q b d) by (inversion SS as [|? ? ? T]; inversion T; auto).
  change (inner_uniform z (a :: b :: d :: f)) with (ndiv (nsub d a) (nmul (nofZ 2) z) :: inner_uniform z (b :: d :: f)). rewrite IH, (H2 Q1 Q2).
  replace (length (a :: b :: d :: f) - 2)%nat with (Datatypes.S (length (b :: d :: f) - 2)) by (cbn; lia). reflexivity.
Qed.
Lemma sorted_end l a b : Sorted Q (l ++ [a; b]) -> Q a b.
Proof. induction l as [|x l IH]; intros SS; cbn [app] in SS; [inversion SS as [|? ? ? T]; inversion T; auto|]. inversion SS; auto. Qed.
Lemma grad_const f : (2 <= length f)%nat -> Sorted Q f -> with_ends z z f (inner_uniform z f) = Ok (repeat c (length f)).
Proof.
  intros L SS. unfold with_ends. rewrite inner_const by auto. destruct f as [|x0 [|x1 f]]; cbn [length] in L; try lia.
  assert (Q0 : Q x0 x1) by (inversion SS as [|? ? ? T]; inversion T; auto).
  destruct (rev (x0 :: x1 :: f)) as [|y1 [|y0 r]] eqn:R.
  - apply (f_equal (@length F)) in R. rewrite rev_length in R. cbn in R. lia.
  - apply (f_equal (@length F)) in R. rewrite rev_length in R. cbn in R. lia.
  - assert (E : x0 :: x1 :: f = rev r ++ [y0; y1]) by (rewrite <- (rev_involutive (x0 :: x1 :: f)), R; cbn [rev]; now rewrite <- app_assoc).
    assert (Q1 : Q y0 y1) by (apply sorted_end with (rev r); now rewrite <- E). rewrite (H1 Q0), (H1 Q1). cbn [length Nat.sub]. rewrite Nat.sub_0_r. f_equal.
    assert (RC : repeat c (length f) ++ [c] = c :: repeat c (length f)) by (symmetry; apply (repeat_cons (length f) c)). rewrite RC. reflexivity.
Qed.
End Const.
Lemma sorted_repeat {A} (c : A) n (Q : A -> A -> Prop) : Q c c -> Sorted Q (repeat c n).
Proof. intros H. induction n as [|n IH]; [constructor|]. cbn [repeat]. constructor; [exact IH|]. destruct n; constructor; auto. Qed.
Lemma diff_repeat (x : b64) n : diff (repeat x (S n)) = repeat (nsub x x) n.
Proof. unfold diff, map2. cbn [repeat tl]. induction n as [|n IH]; [reflexivity|]. cbn [repeat combine map fst snd] in *. now rewrite IH. Qed.

Lemma Rdiv_1 x : x / 1 = x.
Proof. field. Qed.
Definition pzero : b64 := B754_zero false.
Definition inf (s : bool) : b64 := B754_infinity s.
Lemma sub_self (x : b64) : bfin x = true -> nsub x x = pzero.
Proof.
  intros Fx. change (nsub x x) with (bsub x x). unfold bsub. pose proof (@Bminus_correct 53 1024 prec_gt_0_53 prec_lt_emax_53 mode_NE x x Fx Fx) as C.
  replace (B2R x - B2R x) with 0 in C by ring. rewrite round_0 in C by apply valid_rnd_round_mode. rewrite Rabs_R0, Rlt_bool_true in C by apply bpow_gt_0. destruct C as (C1 & C2 & C3).
  rewrite Rcompare_Eq in C3 by reflexivity. rewrite andb_negb_r in C3.
  destruct (Bminus mode_NE x x) as [s|s| |s m e H]; try discriminate C2; cbn [Bsign] in C3; [subst s; reflexivity|].
  exfalso. unfold B2R, F2R in C1. cbn [Fnum Fexp] in C1. apply Rmult_integral in C1 as [E|E]; [apply (eq_IZR _ 0) in E; destruct s; discriminate E|pose proof (bpow_gt_0 radix2 e); lra].
Qed.
Lemma big : bpow radix2 1000 = 2 * bpow radix2 999.
Proof. change 1000%Z with (1 + 999)%Z. rewrite bpow_plus. reflexivity. Qed.
(** a difference of doubles that are not equal, over +0 *)
Lemma over_zero (a b : b64) (s : bool) : bfin a = true -> bfin b = true -> Rabs (Bval a) <= bpow radix2 999 -> Rabs (Bval b) <= bpow radix2 999 ->
  (if s then Bval b < Bval a else Bval a < Bval b) -> ndiv (nsub b a) pzero = inf s.
Proof.
  intros Fa Fb La Lb O. assert (LD : Rabs (Bval b - Bval a) <= bpow radix2 1000). { rewrite big. apply Rabs_le_inv in La, Lb. apply Rabs_le. lra. }
  destruct (bsub_val Fb Fa LD) as [V FV]. change (bsub b a) with (nsub b a) in V, FV. set (r := nsub b a) in *.
  assert (NZ : rnd64 (Bval b - Bval a) <> 0).
  { unfold rnd64, Rminus. apply round_plus_neq_0; [typeclasses eauto|typeclasses eauto|typeclasses eauto| | |destruct s; lra].
    - rewrite <- (rnd64_B b). apply generic_format_round; typeclasses eauto.
    - apply generic_format_opp. rewrite <- (rnd64_B a). apply generic_format_round; typeclasses eauto. }
  assert (SG : if s then Bval r < 0 else 0 < Bval r).
  { rewrite V. destruct s.
    - assert (rnd64 (Bval b - Bval a) <= 0) by (rewrite <- rnd64_0; apply rnd64_le; lra). lra.
    - assert (0 <= rnd64 (Bval b - Bval a)) by (rewrite <- rnd64_0; apply rnd64_le; lra). lra. }
  clear V NZ. destruct r as [t|t| |t m e H]; try discriminate FV.
  - exfalso. destruct s; unfold Bval in SG; cbn [B2R] in SG; lra.
  - replace s with t; [now destruct t|]. unfold Bval, B2R, F2R in SG. cbn [Fnum Fexp] in SG. pose proof (bpow_gt_0 radix2 e) as P. destruct t, s; auto; exfalso; cbn [SpecFloat.cond_Zopp] in SG.
    + assert (IZR (Z.neg m) < 0) by now apply IZR_lt. change (- Z.pos m)%Z with (Z.neg m) in SG. nra.
    + assert (0 < IZR (Z.pos m)) by now apply IZR_lt. nra.
Qed.
Lemma two_zero : nmul (nofZ 2) pzero = pzero.
Proof. reflexivity. Qed.
Lemma nan_over x : ndiv (B754_nan : b64) x = B754_nan.
Proof. reflexivity. Qed.
Lemma one_val : Bval (nofZ 1) = 1 /\ bfin (nofZ 1 : b64) = true.
Proof. split; [rewrite (@Bval_me (nofZ 1) 4503599627370496 (-52)) by (vm_compute; reflexivity)|vm_compute; reflexivity]. change (bpow radix2 (-52)) with (/ 4503599627370496). field. Qed.
Lemma two_val : Bval (nmul (nofZ 2) (nofZ 1) : b64) = 2 /\ bfin (nmul (nofZ 2) (nofZ 1) : b64) = true.
Proof. split; [rewrite (@Bval_me (nmul (nofZ 2) (nofZ 1)) 4503599627370496 (-51)) by (vm_compute; reflexivity)|vm_compute; reflexivity]. change (bpow radix2 (-51)) with (/ 2251799813685248). field. Qed.
Lemma same (x y : b64) : bfin x = true -> bfin y = true -> Bval x = Bval y -> Bval y <> 0 -> x = y.
Proof.
  intros Fx Fy E N. apply B2R_inj; auto.
  - destruct x as [t|t| |t m e H]; try discriminate Fx; [exfalso; apply N; rewrite <- E; reflexivity|reflexivity].
  - destruct y as [t|t| |t m e H]; try discriminate Fy; [exfalso; apply N; reflexivity|reflexivity].
Qed.
Theorem inflection_even (ps : list (V3 b64)) (axis span : V3 b64) (h : b64) (s : bool) :
  let u := map (fun p => vdot p span) ps in let y := map (fun p => vdot p axis) ps in
  (2 <= length ps)%nat -> bfin h = true -> Bval h <> 0 -> Rabs (Bval h) <= bpow radix2 999 ->
  Forall (fun x => bfin x = true /\ Rabs (Bval x) <= bpow radix2 999) u -> Forall (fun x => bfin x = true /\ Rabs (Bval x) <= bpow radix2 999) y ->
  Sorted (fun a b => Bval b - Bval a = Bval h) u -> Sorted (fun a b => if s then Bval b < Bval a else Bval a < Bval b) y ->
  inflection_points ps axis span = Ok [].
Proof.
  intros u y L Fh Nh Lh FU FY SU SY. unfold inflection_points. fold u y.
  assert (Lu : length u = length ps) by apply map_length. assert (Ly : length y = length ps) by apply map_length.
  set (OK := fun x : b64 => bfin x = true /\ Rabs (Bval x) <= bpow radix2 999) in *.
  assert (SF : forall (Q : b64 -> b64 -> Prop) l, Forall OK l -> Sorted Q l -> Sorted (fun a b => OK a /\ OK b /\ Q a b) l).
  { intros Q l Fl S. induction S as [|a l S IH HD]; [constructor|]. inversion Fl as [|? ? Fa Fl']; subst. constructor; [auto|]. destruct HD as [|b l]; constructor. inversion Fl'; subst. auto. }
  destruct one_val as [O1 O2]. destruct two_val as [T1 T2].
  assert (N1 : Bval (nofZ 1) <> 0) by lra. assert (N2 : Bval (nmul (nofZ 2) (nofZ 1) : b64) <> 0) by lra.
  assert (DX : gradient_unit u = Ok (repeat h (length u))).
  { unfold gradient_unit. eapply grad_const; [| |lia|apply (SF _ _ FU SU)].
    - intros a b ((Fa & La) & (Fb & Lb) & E). assert (B1 : Rabs (Bval b - Bval a) <= bpow radix2 1000) by (rewrite E, big; pose proof (bpow_gt_0 radix2 999); lra).
      destruct (bsub_val Fb Fa B1) as [V FV]. change (bsub b a) with (nsub b a) in V, FV. rewrite E, rnd64_B in V.
      assert (B2 : Rabs (Bval (nsub b a) / Bval (nofZ 1)) <= bpow radix2 1000) by (rewrite V, O1, Rdiv_1, big; pose proof (bpow_gt_0 radix2 999); lra).
      destruct (bdiv_val FV N1 B2) as [W FW]. apply same; auto. change (ndiv ?x ?y) with (bdiv x y). rewrite W, V, O1, Rdiv_1, rnd64_B. reflexivity.
    - intros a b d ((Fa & La) & (Fb & Lb) & E) (_ & (Fd & Ld) & E').
      assert (D2 : Bval d - Bval a = 2 * Bval h) by lra.
      assert (B1 : Rabs (Bval d - Bval a) <= bpow radix2 1000) by (rewrite D2, Rabs_mult, (Rabs_pos_eq 2), big by lra; lra).
      destruct (bsub_val Fd Fa B1) as [V FV]. change (bsub d a) with (nsub d a) in V, FV. rewrite D2 in V.
      assert (R2 : rnd64 (2 * Bval h) = 2 * Bval h).
      { apply round_generic; [apply valid_rnd_N|]. rewrite Rmult_comm. change 2 with (bpow radix2 1). apply mult_bpow_pos_exact_FLT; [|lia]. rewrite <- (rnd64_B h). apply generic_format_round; typeclasses eauto. }
      rewrite R2 in V. set (two := nmul (nofZ 2) (nofZ 1) : b64) in *.
      assert (EQ : Bval (nsub d a) / Bval two = Bval h) by (rewrite V, T1; field).
      assert (B2 : Rabs (Bval (nsub d a) / Bval two) <= bpow radix2 1000) by (rewrite EQ, big; pose proof (bpow_gt_0 radix2 999); lra).
      destruct (bdiv_val FV N2 B2) as [W FW]. apply same; auto. change (ndiv ?x ?y) with (bdiv x y). rewrite W, EQ. apply rnd64_B. }
  rewrite DX. cbn [bindr]. rewrite Lu. destruct (length ps) as [|n] eqn:LP; [lia|].
  assert (DF : diff (repeat h (S n)) = repeat pzero n) by (rewrite diff_repeat, sub_self by auto; reflexivity).
  assert (G : forall f : list b64, length f = S n -> gradient f (repeat h (S n)) = with_ends pzero pzero f (inner_uniform pzero f)).
  { intros f Lf. unfold gradient. rewrite repeat_length, Lf, Nat.eqb_refl. cbn [negb]. rewrite DF. destruct n as [|n]; [lia|]. cbn [repeat]. 
    assert (FA : forall k, forallb (fun d : b64 => neqb d pzero) (repeat pzero k) = true) by (induction k as [|k IH]; [reflexivity|exact IH]).
    change (pzero :: repeat pzero n) with (repeat pzero (S n)). now rewrite FA. }
  rewrite G by auto. 
  assert (E1 : with_ends pzero pzero y (inner_uniform pzero y) = Ok (repeat (inf s) (S n))).
  { rewrite <- Ly. eapply grad_const; [| |lia|apply (SF _ _ FY SY)].
    - intros a b ((Fa & La) & (Fb & Lb) & E). now apply over_zero.
    - intros a b d ((Fa & La) & (Fb & Lb) & E) (_ & (Fd & Ld) & E'). rewrite two_zero. apply over_zero; auto. destruct s; lra. }
  rewrite E1. cbn [bindr]. rewrite G by apply repeat_length.
  assert (E2 : with_ends pzero pzero (repeat (inf s) (S n)) (inner_uniform pzero (repeat (inf s) (S n))) = Ok (repeat B754_nan (S n))).
  { rewrite <- (repeat_length (inf s) (S n)) at 3. apply (grad_const (Q := fun a b => a = inf s /\ b = inf s)).
    - intros a b [-> ->]. destruct s; reflexivity.
    - intros a b d [-> _] [_ ->]. destruct s; reflexivity.
    - rewrite repeat_length. lia.
    - apply sorted_repeat. auto. }
  rewrite E2. cbn [bindr].
  assert (E3 : forall k m, flatnonzero k (map2 (fun a b : b64 => nle (nmul a b) n0) (repeat B754_nan m) (tl (repeat B754_nan m))) = []).
  { intros k [|m]; [reflexivity|]. cbn [repeat tl]. unfold map2. revert k. induction m as [|m IH]; intros k; [reflexivity|]. cbn [repeat combine map fst snd flatnonzero].
    change (nle (nmul (B754_nan : b64) B754_nan) n0) with false. cbv iota. apply IH. }
  rewrite E3. reflexivity.
Qed.
