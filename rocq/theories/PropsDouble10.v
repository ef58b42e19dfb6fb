(** * Properties C152, C153: rotation_from_up_and_look in double precision. *)
From Coq Require Import Reals ZArith List Bool Lra Lia Psatz.
From Flocq Require Import Core IEEE754.BinarySingleNaN.
From Verif Require Import Num B64 BLemmas Vec RVec VLemmas SpecGeom MVx MRotation SpecRotation SpecDouble SpecTransD SpecTrigD PMat3 PErr PNormD PCrossD PUpLookD PropsDouble PropsDouble7 PropsDouble8.
Import ListNotations.
Local Open Scope R_scope.

(** ** C152.  [m0] is the rotation that takes [up] to the positive y axis and [look] into the half plane x = 0, z > 0: there is at most
    one.  How far [look] is from the direction of [up] is the z coordinate of its image, relative to the size [L] of its coordinates. *)
Definition upright (up look : V3 R) (m0 : M3 R) : Prop :=
  rotation m0 /\ (exists l, 0 < l /\ rapply m0 up = rscale l ey) /\ c0 (rapply m0 look) = 0 /\ 0 < c2 (rapply m0 look).
Lemma rows m : orthogonal m -> rdot (c0 m) (c0 m) = 1 /\ rdot (c1 m) (c1 m) = 1 /\ rdot (c2 m) (c2 m) = 1 /\ rdot (c0 m) (c1 m) = 0 /\ rdot (c0 m) (c2 m) = 0 /\ rdot (c1 m) (c2 m) = 0.
Proof.
  intros [O _]. destruct m as [[a0 a1 a2] [b0 b1 b2] [d0 d1 d2]]. unfold rmmul, rtrans, reye, rcol0, rcol1, rcol2 in O. cbn [c0 c1 c2] in *. injection O as E1 E2 E3 E4 E5 E6 E7 E8 E9. auto 10.
Qed.
Lemma expand m v : orthogonal m -> v = radd (rscale (rdot (c0 m) v) (c0 m)) (radd (rscale (rdot (c1 m) v) (c1 m)) (rscale (rdot (c2 m) v) (c2 m))).
Proof.
  intros O. transitivity (rapply (rtrans m) (rapply m v)); [symmetry; now apply rotation_inv_l|]. destruct m as [[a0 a1 a2] [b0 b1 b2] [d0 d1 d2]], v as [x y z]. unfold rapply, rtrans, rcol0, rcol1, rcol2, rdot, radd, rscale. cbn [c0 c1 c2]. f_equal; ring.
Qed.
Lemma upright_rows up look m0 : upright up look m0 -> let Y := unit_of up in let Zp := rsub look (rscale (rdot look Y) Y) in
  c1 m0 = Y /\ c2 m0 = unit_of Zp /\ c0 m0 = rcross Y (unit_of Zp) /\ rnorm Zp = c2 (rapply m0 look) /\ 0 < rnorm up.
Proof.
  intros ([O D] & (l & Pl & Hu) & Hx & Hz) Y Zp. destruct (rows m0 O) as (R00 & R11 & R22 & R01 & R02 & R12). unfold rapply in Hu, Hx, Hz |- *. cbn [c0 c1 c2] in *. set (a := c0 m0) in *. set (b := c1 m0) in *. set (c := c2 m0) in *. unfold ey, rscale in Hu. cbn [c0 c1 c2] in Hu. injection Hu as U0 U1 U2.
  assert (NB : rnorm b = 1) by (unfold rnorm; rewrite R11; apply sqrt_1). assert (NC : rnorm c = 1) by (unfold rnorm; rewrite R22; apply sqrt_1).
  assert (EU : up = rscale l b) by (rewrite (expand m0 up O); fold a b c; rewrite U0, U1, U2; destruct a as [x0 x1 x2], b as [y0 y1 y2], c as [z0 z1 z2]; unfold radd, rscale; cbn [c0 c1 c2]; f_equal; ring).
  assert (NU : rnorm up = l) by (rewrite EU, rnorm_scale, NB, Rabs_pos_eq; lra).
  assert (EY : Y = b) by (unfold Y, unit_of; rewrite NU, EU, rscale_scale, Rinv_l, rscale_1 by lra; reflexivity).
  set (be := rdot b look) in *. set (g := rdot c look) in *. assert (EL : look = radd (rscale be b) (rscale g c)) by (rewrite (expand m0 look O) at 1; fold a b c; rewrite Hx; fold be g; destruct a as [x0 x1 x2], b as [y0 y1 y2], c as [z0 z1 z2]; unfold radd, rscale; cbn [c0 c1 c2]; f_equal; ring).
  assert (EZ : Zp = rscale g c). { unfold Zp. rewrite EY, (rdot_sym look b). fold be. rewrite EL at 1. destruct b as [y0 y1 y2], c as [z0 z1 z2]. unfold radd, rscale, rsub. cbn [c0 c1 c2]. f_equal; ring. }
  assert (NZ : rnorm Zp = g) by (rewrite EZ, rnorm_scale, NC, Rabs_pos_eq; lra). assert (EC : unit_of Zp = c) by (unfold unit_of; rewrite NZ, EZ, rscale_scale, Rinv_l, rscale_1 by lra; reflexivity).
  split; [symmetry; exact EY|]. split; [symmetry; exact EC|]. split; [|split; [exact NZ|lra]]. rewrite EY, EC. symmetry. apply frame_cross; auto. rewrite <- rdot_cross_cyc. exact D.
Qed.
Theorem C152_up_and_look : forall L (up look : V3 b64) m0, fin3b up = true -> bpow radix2 (-400) <= rnorm (Rval3 up) <= bpow radix2 400 -> ordinary_edge L -> within L look ->
  upright (Rval3 up) (Rval3 look) m0 -> let rho := c2 (rapply m0 (Rval3 look)) / L in bpow radix2 (-20) <= rho ->
  exists m, rotation_from_up_and_look up look = Ok m /\ close33 (580 * u / rho) m m0.
Proof.
  intros L up look m0 Fu Su HL Wl HU rho HR. destruct (upright_rows _ _ m0 HU) as (E1 & E2 & E0 & EN & _). assert (PL : 0 < L) by (destruct HL as [H _]; pose proof (bpow_gt_0 radix2 (-150)); lra). pose proof (bpow_gt_0 radix2 (-20)) as PB.
  assert (LZ : bpow radix2 (-20) * L <= rnorm (rsub (Rval3 look) (rscale (rdot (Rval3 look) (unit_of (Rval3 up))) (unit_of (Rval3 up))))).
  { rewrite EN. apply Rle_trans with (rho * L); [apply Rmult_le_compat_r; lra|right; unfold rho; field; lra]. }
  destruct (@look_ap up look Fu Su L HL Wl LZ) as (m & HM & A & B & C). exists m. split; [exact HM|]. rewrite EN in A, C. fold rho in A, C. rewrite <- E2 in A, C. rewrite <- E1 in A, B. rewrite E2, E1, <- E0 in A.
  destruct (@k_rho up look Su L HL Wl LZ) as ([PR R2] & _ & RE). rewrite EN in PR, R2, RE. fold rho in PR, R2, RE. assert (PE : 0 < eps / rho) by (apply Rmult_lt_0_compat; [exact eps_pos|now apply Rinv_0_lt_compat]).
  replace (580 * u / rho) with (580 * (eps / rho)) by (change u with eps; field; lra).
  assert (W : forall d v w, d <= 580 * (eps / rho) -> close3 d v w -> close3 (580 * (eps / rho)) v w) by (intros d v w Hd (F & X0 & X1 & X2); split; [exact F|]; repeat split; eapply Rle_trans; eauto).
  split; [exact A|]. split; [apply W with (2 := B); lra|apply W with (2 := C); lra].
Qed.
Print Assumptions C152_up_and_look.
(** up = (0, 2, 0), look = (3, 1, -4): the rotation has rows (-4/5, 0, -3/5), (0, 1, 0), (3/5, 0, -4/5) and takes look to (0, 1, 5) *)
Example C152_example : let m0 := mk3 (mk3 (-4/5) 0 (-3/5)) (mk3 0 1 0) (mk3 (3/5) 0 (-4/5)) in
  upright (Rval3 (int3 0 2 0)) (Rval3 (int3 3 1 (-4))) m0 /\ within 16 (int3 3 1 (-4)) /\ c2 (rapply m0 (Rval3 (int3 3 1 (-4)))) / 16 = 5/16 /\ rnorm (Rval3 (int3 0 2 0)) = 2.
Proof.
  cbn zeta. destruct (@int3_val 0 2 0) as [_ V1]; try lia. destruct (@int3_val 3 1 (-4)) as [W V2]; try lia. rewrite V1, V2. split; [|split; [exact W|split]].
  - split; [apply rotation_intro; unfold rdot, rcross; cbn [c0 c1 c2]; lra|]. split; [exists 2; split; [lra|]; unfold rapply, rdot, rscale, ey; cbn [c0 c1 c2]; f_equal; lra|]. unfold rapply, rdot. cbn [c0 c1 c2]. lra.
  - unfold rapply, rdot. cbn [c0 c1 c2]. lra.
  - unfold rnorm, rdot. cbn [c0 c1 c2]. replace (0 * 0 + 2 * 2 + 0 * 0) with (2 * 2) by ring. apply sqrt_square. lra.
Qed.

(** ** C153.  Collinear doubles are not always refused: for up = look = (1, 1, 0) the result is a matrix whose first row is zero. *)
Theorem C153_collinear_refuted : let v := int3 1 1 0 in exists m, rotation_from_up_and_look v v = Ok m /\
  Rval3 (c0 m) = rzero /\ fin3b (c1 m) = true /\ fin3b (c2 m) = true.
Proof.
  cbn zeta. assert (E : match rotation_from_up_and_look (int3 1 1 0) (int3 1 1 0) with Ok m => neqb (c0 (c0 m)) n0 && neqb (c1 (c0 m)) n0 && neqb (c2 (c0 m)) n0 && fin3b (c0 m) && fin3b (c1 m) && fin3b (c2 m) | Err _ => false end = true) by (vm_compute; reflexivity).
  destruct (rotation_from_up_and_look (int3 1 1 0) (int3 1 1 0)) as [m|]; [|discriminate E]. exists m. split; [reflexivity|]. repeat (apply andb_prop in E; destruct E as [E ?]). split; [|auto]. match goal with H : fin3b (c0 m) = true |- _ => destruct (fin_parts H) as (F0 & F1 & F2) end.
  assert (Z : forall x : b64, bfin x = true -> neqb x n0 = true -> Bval x = 0).
  { intros x F H'. rewrite beq_spec in H' by (auto; reflexivity). destruct (Req_bool_spec (Bval x) (Bval n0)) as [Q|Q]; [rewrite Q; reflexivity|discriminate H']. }
  unfold Rval3, map3, rzero. f_equal; apply Z; assumption.
Qed.
Print Assumptions C153_collinear_refuted.
