(** * scale_to_range keeps the order of doubles: proofs for property C163. *)
From Coq Require Import Reals ZArith List Bool Lra Lia.
From Flocq Require Import Core IEEE754.BinarySingleNaN.
From Verif Require Import Num B64 BLemmas NpList MNumerics PScaleD.
Import ListNotations.
Local Open Scope R_scope.
Set Implicit Arguments.
Unset Strict Implicit.

(** ** a finite result is the rounded exact one, of finite operands *)
Lemma over_fin (b : b64) s : B2SF b = binary_overflow 53 1024 mode_NE s -> bfin b = false.
Proof. destruct b; intros H; try reflexivity; discriminate H. Qed.
Lemma fadd x y : bfin (nadd x y) = true -> bfin x = true /\ bfin y = true /\ Bval (nadd x y) = rnd64 (Bval x + Bval y).
Proof.
  intros F. change (nadd x y) with (badd x y) in *. assert (A : bfin x = true /\ bfin y = true) by (destruct x as [s|s| |s m e H], y as [t|t| |t m' e' H']; try destruct s; try destruct t; try (split; reflexivity); discriminate F). destruct A as [Fx Fy]. split; [exact Fx|]. split; [exact Fy|].
  unfold badd, Bval, bfin in *. pose proof (@Bplus_correct 53 1024 prec_gt_0_53 prec_lt_emax_53 mode_NE x y Fx Fy) as C. rewrite round_eq in C. destruct (Rlt_bool _ _); [exact (Logic.proj1 C)|]. destruct C as [C _]. apply over_fin in C. unfold bfin in C. congruence.
Qed.
Lemma fsub x y : bfin (nsub x y) = true -> bfin x = true /\ bfin y = true /\ Bval (nsub x y) = rnd64 (Bval x - Bval y).
Proof.
  intros F. change (nsub x y) with (bsub x y) in *. assert (A : bfin x = true /\ bfin y = true) by (destruct x as [s|s| |s m e H], y as [t|t| |t m' e' H']; try destruct s; try destruct t; try (split; reflexivity); discriminate F). destruct A as [Fx Fy]. split; [exact Fx|]. split; [exact Fy|].
  unfold bsub, Bval, bfin in *. pose proof (@Bminus_correct 53 1024 prec_gt_0_53 prec_lt_emax_53 mode_NE x y Fx Fy) as C. rewrite round_eq in C. destruct (Rlt_bool _ _); [exact (Logic.proj1 C)|]. destruct C as [C _]. apply over_fin in C. unfold bfin in C. congruence.
Qed.
Lemma fmul x y : bfin (nmul x y) = true -> bfin x = true /\ bfin y = true /\ Bval (nmul x y) = rnd64 (Bval x * Bval y).
Proof.
  intros F. change (nmul x y) with (bmul x y) in *. assert (A : bfin x = true /\ bfin y = true) by (destruct x as [s|s| |s m e H], y as [t|t| |t m' e' H']; try destruct s; try destruct t; try (split; reflexivity); discriminate F). destruct A as [Fx Fy]. split; [exact Fx|]. split; [exact Fy|].
  unfold bmul, Bval, bfin in *. pose proof (@Bmult_correct 53 1024 prec_gt_0_53 prec_lt_emax_53 mode_NE x y) as C. rewrite round_eq in C. destruct (Rlt_bool _ _); [exact (Logic.proj1 C)|]. apply over_fin in C. unfold bfin in C. congruence.
Qed.
(** the divisor may be infinite *)
Lemma fdiv x y : bfin (ndiv x y) = true -> bfin x = true /\ (bfin y = true -> Bval y <> 0 /\ Bval (ndiv x y) = rnd64 (Bval x / Bval y)).
Proof.
  intros F. change (ndiv x y) with (bdiv x y) in *. split; [destruct x as [s|s| |s m e H], y as [t|t| |t m' e' H']; try reflexivity; discriminate F|].
  intros Fy. assert (N : Bval y <> 0).
  { destruct y as [t|t| |t m' e' H']; try discriminate Fy; [destruct x; discriminate F|]. unfold Bval, B2R, F2R. cbn [Fnum Fexp]. intros E. apply Rmult_integral in E as [E|E]; [apply (eq_IZR _ 0) in E; destruct t; discriminate E|pose proof (bpow_gt_0 radix2 e'); lra]. }
  split; [exact N|]. unfold bdiv, Bval, bfin in *. pose proof (@Bdiv_correct 53 1024 prec_gt_0_53 prec_lt_emax_53 mode_NE x y N) as C. rewrite round_eq in C. destruct (Rlt_bool _ _); [exact (Logic.proj1 C)|]. apply over_fin in C. unfold bfin in C. congruence.
Qed.

Section Order.
Context (a : list b64) (lo hi : b64) (FA : Forall (fun x => bfin x = true) a) (out : list b64) (HO : scale_to_range a lo hi = Ok out) (FO : Forall (fun x => bfin x = true) out).
Lemma scale_form : exists m s, let g x := rnd64 (rnd64 (rnd64 ((rnd64 (Bval hi - Bval lo)) * rnd64 (Bval x - Bval m)) / Bval s) + Bval lo) in
  0 < Bval s /\ In m a /\ Forall (fun x => Bval m <= Bval x) a /\ bfin lo = true /\ length out = length a /\ forall i x y, nth_error a i = Some x -> nth_error out i = Some y -> Bval y = g x.
Proof.
  assert (NE : a <> []) by (intros ->; discriminate HO). destruct (amin_ap NE FA) as (m & Em & Im & Lm). unfold scale_to_range in HO. rewrite Em in HO. cbn [bindr] in HO.
  destruct (amax (map (fun x => nsub x m) a)) as [s|] eqn:Es; [|discriminate HO]. cbn [bindr] in HO. rewrite map_map in HO. set (f := fun x => nadd (ndiv (nmul (nsub hi lo) (nsub x m)) s) lo) in *. assert (O : map f a = out) by (injection HO; auto). clear HO. subst out. rewrite Forall_map, Forall_forall in FO. rewrite Forall_forall in FA, Lm.
  assert (FD : Forall (fun x => bfin x = true) (map (fun x => nsub x m) a)).
  { apply Forall_map, Forall_forall. intros x I. pose proof (FO x I) as FX. unfold f in FX. apply fadd in FX as (FX & _ & _). apply fdiv in FX as (FX & _). apply fmul in FX as (_ & FX & _). exact FX. }
  destruct (@amax_ap (map (fun x => nsub x m) a)) as (s' & Es' & Is & Ls); [destruct a; [congruence|discriminate]|exact FD|]. assert (s' = s) as -> by (rewrite Es in Es'; injection Es'; auto). clear Es'.
  assert (Fs : bfin s = true) by (rewrite Forall_forall in FD; exact (FD _ Is)). rewrite Forall_map, Forall_forall in FD. exists m, s. cbv zeta.
  assert (G : forall x, In x a -> bfin lo = true /\ Bval s <> 0 /\ Bval (f x) = rnd64 (rnd64 (rnd64 ((rnd64 (Bval hi - Bval lo)) * rnd64 (Bval x - Bval m)) / Bval s) + Bval lo)).
  { intros x I. pose proof (FO x I) as FX. unfold f in *. apply fadd in FX as (FX & F1 & ->). apply fdiv in FX as (FX & F2). destruct (F2 Fs) as [F3 ->]. apply fmul in FX as (F4 & F5 & ->). apply fsub in F4 as (_ & _ & ->). apply fsub in F5 as (_ & _ & ->). auto. }
  split; [|split; [exact Im|split; [apply Forall_forall; exact Lm|split; [exact (Logic.proj1 (G _ Im))|split; [apply map_length|]]]]].
  - assert (P : 0 <= Bval s). { apply in_map_iff in Is as (x & <- & Ix). destruct (fsub (FD x Ix)) as (_ & _ & ->). rewrite <- rnd64_0. apply rnd64_le. pose proof (Lm x Ix). lra. } destruct (G _ Im) as (_ & N & _). lra.
  - intros i x y Ex Ey. rewrite nth_error_map, Ex in Ey. injection Ey as <-. apply G. eapply nth_error_In; exact Ex.
Qed.
Theorem scale_order : length out = length a /\
  (forall i j xi xj yi yj, nth_error a i = Some xi -> nth_error a j = Some xj -> nth_error out i = Some yi -> nth_error out j = Some yj -> Bval xi <= Bval xj ->
    (Bval lo <= Bval hi -> Bval yi <= Bval yj) /\ (Bval hi <= Bval lo -> Bval yj <= Bval yi)) /\
  (forall i xi yi, nth_error a i = Some xi -> nth_error out i = Some yi -> Forall (fun x => Bval xi <= Bval x) a -> Bval yi = Bval lo) /\
  (forall y, In y out -> (Bval lo <= Bval hi -> Bval lo <= Bval y) /\ (Bval hi <= Bval lo -> Bval y <= Bval lo)).
Proof.
  destruct scale_form as (m & s & H). cbv zeta in H. destruct H as (Ps & Im & Lm & Fl & L & G).
  assert (UP : forall A B, A <= B -> rnd64 (rnd64 (A / Bval s) + Bval lo) <= rnd64 (rnd64 (B / Bval s) + Bval lo)).
  { intros A B H. apply rnd64_le, Rplus_le_compat_r, rnd64_le. apply Rmult_le_compat_r; [apply Rlt_le, Rinv_0_lt_compat; exact Ps|exact H]. }
  assert (W : (Bval lo <= Bval hi -> 0 <= rnd64 (Bval hi - Bval lo)) /\ (Bval hi <= Bval lo -> rnd64 (Bval hi - Bval lo) <= 0)).
  { split; intros H; [rewrite <- rnd64_0 at 1|rewrite <- rnd64_0]; apply rnd64_le; lra. }
  set (w := rnd64 (Bval hi - Bval lo)) in *.
  assert (MONO : forall x x', Bval x <= Bval x' -> let g x := rnd64 (rnd64 (rnd64 (w * rnd64 (Bval x - Bval m)) / Bval s) + Bval lo) in (Bval lo <= Bval hi -> g x <= g x') /\ (Bval hi <= Bval lo -> g x' <= g x)).
  { intros x x' H g. assert (D : rnd64 (Bval x - Bval m) <= rnd64 (Bval x' - Bval m)) by (apply rnd64_le; lra). unfold g. split; intros Q; apply UP, rnd64_le; [apply Rmult_le_compat_l; tauto|]. apply Rmult_le_compat_neg_l; tauto. }
  assert (Z : rnd64 (rnd64 (rnd64 (w * rnd64 (Bval m - Bval m)) / Bval s) + Bval lo) = Bval lo).
  { replace (Bval m - Bval m) with 0 by ring. rewrite rnd64_0, Rmult_0_r, rnd64_0. unfold Rdiv. rewrite Rmult_0_l, rnd64_0, Rplus_0_l. apply rnd64_B. }
  rewrite Forall_forall in Lm. split; [exact L|]. split; [|split].
  - intros i j xi xj yi yj E1 E2 E3 E4 H. rewrite (G _ _ _ E1 E3), (G _ _ _ E2 E4). exact (MONO _ _ H).
  - intros i xi yi E1 E3 H. rewrite (G _ _ _ E1 E3). rewrite Forall_forall in H. replace (Bval xi) with (Bval m); [exact Z|]. apply Rle_antisym; [apply Lm; eapply nth_error_In; exact E1|exact (H _ Im)].
  - intros y I. apply In_nth_error in I as [i E3]. destruct (nth_error a i) as [x|] eqn:E1; [|apply nth_error_None in E1; assert (i < length out)%nat by (apply nth_error_Some; congruence); lia]. rewrite (G _ _ _ E1 E3). assert (I : In x a) by (eapply nth_error_In; exact E1).
    pose proof (MONO _ _ (Lm _ I)) as Q. cbv zeta beta in Q. rewrite Z in Q. exact Q.
Qed.
End Order.
