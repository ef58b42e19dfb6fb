(** * Extreme elements, dot products and scaling to a range in binary64. *)
From Coq Require Import Reals ZArith List Bool Lra Lia Psatz.
From Flocq Require Import Core Plus_error Relative.
From Verif Require Import Num B64 BLemmas Vec RVec VLemmas NpList MVx MSegment MNumerics SpecPoly SpecDouble PErr PFar PNormB PSliceF PNormD PPlaneD PPartD.
Import ListNotations.
Local Open Scope R_scope.
Set Implicit Arguments.
Unset Strict Implicit.

(** ** minimum, maximum, argmax of finite doubles *)
Lemma amin_ap (l : list b64) : l <> [] -> Forall (fun x => bfin x = true) l ->
  exists m, amin l = Ok m /\ In m l /\ Forall (fun x => Bval m <= Bval x) l.
Proof.
  destruct l as [|x l]; [congruence|]. intros _ H. inversion_clear H as [|? ? Fx Fl]. unfold amin. eexists. split; [reflexivity|].
  revert x Fx. induction Fl as [|y l Fy Fl IH]; intros x Fx; cbn [fold_left].
  - split; [now left|]. constructor; [lra|constructor].
  - rewrite blt_spec by auto. destruct (Rlt_bool_spec (Bval y) (Bval x)) as [L|L].
    + destruct (IH y Fy) as [I A]. inversion_clear A as [|? ? A1 A2]. split; [right; exact I|]. constructor; [lra|]. now constructor.
    + destruct (IH x Fx) as [I A]. inversion_clear A as [|? ? A1 A2]. split; [destruct I; [now left|right; now right]|]. constructor; [exact A1|]. constructor; [lra|auto].
Qed.
Lemma amax_ap (l : list b64) : l <> [] -> Forall (fun x => bfin x = true) l ->
  exists m, amax l = Ok m /\ In m l /\ Forall (fun x => Bval x <= Bval m) l.
Proof.
  destruct l as [|x l]; [congruence|]. intros _ H. inversion_clear H as [|? ? Fx Fl]. unfold amax. eexists. split; [reflexivity|].
  revert x Fx. induction Fl as [|y l Fy Fl IH]; intros x Fx; cbn [fold_left].
  - split; [now left|]. constructor; [lra|constructor].
  - rewrite blt_spec by auto. destruct (Rlt_bool_spec (Bval x) (Bval y)) as [L|L].
    + destruct (IH y Fy) as [I A]. inversion_clear A as [|? ? A1 A2]. split; [right; exact I|]. constructor; [lra|]. now constructor.
    + destruct (IH x Fx) as [I A]. inversion_clear A as [|? ? A1 A2]. split; [destruct I; [now left|right; now right]|]. constructor; [exact A1|]. constructor; [lra|auto].
Qed.
Lemma argbest_d (pre l : list b64) best bi : Forall (fun x => bfin x = true) l -> bfin best = true ->
  nth_error pre bi = Some best -> (forall j y, nth_error pre j = Some y -> Bval y <= Bval best) -> (forall j y, (j < bi)%nat -> nth_error pre j = Some y -> Bval y < Bval best) ->
  let better := fun x best : b64 => (if best =? best then (best <? x) || negb (x =? x) else false)%num in
  exists m, nth_error (pre ++ l) (argbest_from better best bi (length pre) l) = Some m /\
    (forall j y, nth_error (pre ++ l) j = Some y -> Bval y <= Bval m) /\
    (forall j y, (j < argbest_from better best bi (length pre) l)%nat -> nth_error (pre ++ l) j = Some y -> Bval y < Bval m).
Proof.
  intros Fl Fb H1 H2 H3 better. revert pre best bi Fb H1 H2 H3. induction Fl as [|x l Fx Fl IH]; intros pre best bi Fb H1 H2 H3; cbn [argbest_from].
  - rewrite app_nil_r. eauto.
  - replace (pre ++ x :: l) with ((pre ++ [x]) ++ l) by (rewrite <- app_assoc; auto).
    replace (S (length pre)) with (length (pre ++ [x])) by (rewrite app_length; cbn; lia).
    assert (NB : forall j y, nth_error (pre ++ [x]) j = Some y -> (j < length pre)%nat /\ nth_error pre j = Some y \/ j = length pre /\ y = x).
    { intros j y Hj. destruct (Nat.lt_ge_cases j (length pre)); [rewrite nth_error_app1 in Hj by auto; auto|].
      rewrite nth_error_app2 in Hj by auto. destruct (j - length pre)%nat as [|[|m]] eqn:E; cbn in Hj; try discriminate.
      injection Hj as <-. right. split; [lia|auto]. }
    assert (Lb : (bi < length pre)%nat) by (apply nth_error_Some; congruence).
    assert (BE : better x best = Rlt_bool (Bval best) (Bval x)).
    { unfold better. rewrite !beq_spec, blt_spec by auto. rewrite !Req_bool_true by auto. cbn. now rewrite orb_false_r. }
    rewrite BE. destruct (Rlt_bool_spec (Bval best) (Bval x)) as [L|L]; apply IH; auto.
    + rewrite nth_error_app2, Nat.sub_diag; auto.
    + intros j y Hj. apply NB in Hj as [[_ Hj]|[_ ->]]; [|lra]. apply H2 in Hj. lra.
    + intros j y Hlt Hj. apply NB in Hj as [[_ Hj]|[-> _]]; [|lia]. apply H2 in Hj. lra.
    + rewrite nth_error_app1; auto.
    + intros j y Hj. apply NB in Hj as [[_ Hj]|[_ ->]]; [|lra]. eauto.
    + intros j y Hlt Hj. apply NB in Hj as [[_ Hj]|[-> _]]; [eauto|lia].
Qed.
Lemma argmax_ap (l : list b64) : l <> [] -> Forall (fun x => bfin x = true) l -> exists i m, argmax l = Ok i /\ nth_error l i = Some m /\
  (forall j y, nth_error l j = Some y -> Bval y <= Bval m) /\ (forall j y, (j < i)%nat -> nth_error l j = Some y -> Bval y < Bval m).
Proof.
  destruct l as [|x l]; [congruence|]. intros _ H. inversion_clear H as [|? ? Fx Fl]. unfold argmax. cbn [argbest].
  destruct (@argbest_d [x] l x 0%nat Fl Fx) as (m & H1 & H2 & H3).
  - reflexivity.
  - intros [|[|j]] y Hj; cbn in Hj; try discriminate. injection Hj as <-. lra.
  - intros j y Hj. lia.
  - eexists. exists m. split; [reflexivity|]. auto.
Qed.

(** ** the dot product *)
Lemma dot_ap2 X Y v a : rel (X * Y) -> 0 < X -> 0 < Y -> within X v -> within Y a ->
  bfin (vdot v a) = true /\ Rabs (Bval (vdot v a) - rdot (Rval3 v) (Rval3 a)) <= 10 * (eps * (X * Y)).
Proof.
  intros HZ PX PY Wv Wn. destruct (within_fin Wv) as (F0 & F1 & F2). destruct (within_fin Wn) as (G0 & G1 & G2).
  destruct Wv as (_ & V0 & V1 & V2), Wn as (_ & N0 & N1 & N2). set (Z := X * Y) in *. pose proof (rel_pos HZ) as PZ. pose proof eps_pos as PE. pose proof eps_small as SE.
  assert (EX : 0 < eps * Z) by nra. assert (EX' : eps * Z <= Z / 1000000) by nra.
  assert (P : forall x y, Rabs x <= X -> Rabs y <= Y -> Rabs (x * y) <= Z) by (intros x y Hx Hy; apply mul_bound; auto; lra).
  assert (MZ : mid Z) by (replace Z with (1 * Z) by ring; apply rel_mid; [auto|lra]).
  destruct (mul_ap F0 G0 MZ (P _ _ V0 N0)) as [P0 E0]. destruct (mul_ap F1 G1 MZ (P _ _ V1 N1)) as [P1 E1]. destruct (mul_ap F2 G2 MZ (P _ _ V2 N2)) as [P2 E2].
  pose proof (P _ _ V0 N0) as B0. pose proof (P _ _ V1 N1) as B1. pose proof (P _ _ V2 N2) as B2.
  apply abs_le in E0, E1, E2, B0, B1, B2.
  destruct (@add_ap _ _ (3 * Z) P0 P1) as [S1 E3]; [apply rel_mid; auto; lra|apply abs_le; lra|]. apply abs_le in E3.
  destruct (@add_ap _ _ (4 * Z) S1 P2) as [S2 E4]; [apply rel_mid; auto; lra|apply abs_le; lra|]. apply abs_le in E4.
  change (vdot v a) with (nadd (nadd (nmul (c0 v) (c0 a)) (nmul (c1 v) (c1 a))) (nmul (c2 v) (c2 a))).
  split; [exact S2|]. unfold rdot, Rval3, map3. cbn [c0 c1 c2]. apply abs_le; lra.
Qed.
Lemma argmax_close e (f : V3 b64 -> b64) (g : V3 b64 -> R) ps : ps <> [] -> Forall (fun p => bfin (f p) = true /\ Rabs (Bval (f p) - g p) <= e) ps ->
  exists i p, argmax (map f ps) = Ok i /\ nth_error ps i = Some p /\ (forall q, In q ps -> g q <= g p + 2 * e) /\
    (forall j q, (j < i)%nat -> nth_error ps j = Some q -> nlt (f q) (f p) = true).
Proof.
  intros H A. rewrite Forall_forall in A. destruct (@argmax_ap (map f ps)) as (i & m & E & N & L & L2); [destruct ps; [congruence|discriminate]|apply Forall_map, Forall_forall; intros p I; apply (A p I)|].
  rewrite nth_error_map in N. destruct (nth_error ps i) as [p|] eqn:Ep; [|discriminate]. injection N as <-. exists i, p. split; [exact E|]. split; [exact Ep|]. split.
  - intros q I. destruct (In_nth_error _ _ I) as [j J]. assert (Q := L j (f q)). rewrite nth_error_map, J in Q. specialize (Q eq_refl).
    destruct (A q I) as [_ E1]. destruct (A p (nth_error_In _ _ Ep)) as [_ E2]. apply abs_le in E1, E2. lra.
  - intros j q Hj J. assert (Q := L2 j (f q) Hj). rewrite nth_error_map, J in Q. specialize (Q eq_refl). rewrite blt_spec; [now apply Rlt_bool_true|apply (A q), (nth_error_In _ _ J)|apply (A p), (nth_error_In _ _ Ep)].
Qed.
Lemma apex_ap X Y ps a : rel (X * Y) -> 0 < X -> 0 < Y -> ps <> [] -> Forall (within X) ps -> within Y a ->
  exists p, In p ps /\ apex ps a = Ok p /\ forall q, In q ps -> rdot (Rval3 q) (Rval3 a) <= rdot (Rval3 p) (Rval3 a) + 20 * (eps * (X * Y)).
Proof.
  intros HZ PX PY HN HW Wa. destruct (@argmax_close (10 * (eps * (X * Y))) (fun p => vdot p a) (fun p => rdot (Rval3 p) (Rval3 a)) ps HN) as (i & p & E & N & L & _).
  { rewrite Forall_forall in HW |- *. intros p I. apply dot_ap2; auto. }
  exists p. split; [eapply nth_error_In; eauto|]. split; [unfold apex; rewrite E; cbn [bindr]; unfold getitem; now rewrite N|]. intros q I. specialize (L q I). cbv beta in L. lra.
Qed.

(** ** distances *)
Section Dist.
Context (M : R) (HM : bpow radix2 (-300) <= M <= bpow radix2 300).
Let T := eps * M.
Lemma distance_ap a b : within M a -> within M b -> bfin (vnorm (vsub b a)) = true /\ Rabs (Bval (vnorm (vsub b a)) - rdist (Rval3 b) (Rval3 a)) <= 60 * T.
Proof.
  intros Wa Wb. destruct (diff_ap HM Wa Wb) as [CD WD]. fold T in CD. set (v := vsub b a) in *. pose proof (size_pos HM) as PM. destruct (size_T HM) as [PT ST]. fold T in PT, ST. pose proof eps_pos as PE. pose proof eps_small as SE.
  pose proof (@close_norm (2 * T) _ _ ltac:(lra) CD) as NL. change (rnorm (rsub (Rval3 b) (Rval3 a))) with (rdist (Rval3 b) (Rval3 a)) in NL. set (L := rdist (Rval3 b) (Rval3 a)) in *. apply abs_le in NL.
  destruct (Rle_lt_dec (rnorm (Rval3 v)) (bpow radix2 (-400))) as [C|C].
  - destruct (small_norm HM (Logic.proj1 CD) C) as [Fl Vl]. split; [exact Fl|]. pose proof (rnorm_pos (Rval3 v)).
    assert (TL : bpow radix2 (-352) <= T) by (unfold T, eps; change (-352)%Z with (-52 + -300)%Z; rewrite bpow_plus; apply Rmult_le_compat_l; [apply bpow_ge_0|apply HM]).
    assert (bpow radix2 (-400) <= bpow radix2 (-352)) by (apply bpow_le; lia). assert (bpow radix2 (-399) <= bpow radix2 (-352)) by (apply bpow_le; lia). apply abs_le. lra.
  - assert (U6 : rnorm (Rval3 v) <= 6 * M) by (replace (6 * M) with (2 * (3 * M)) by ring; destruct WD as (_ & D0 & D1 & D2); apply rnorm_small; auto; lra).
    assert (SP : span_ok (rnorm (Rval3 v))).
    { split; [lra|]. apply Rle_trans with (1 := U6). apply Rle_trans with (8 * bpow radix2 300); [destruct HM; lra|]. change 8 with (bpow radix2 3). rewrite <- bpow_plus. apply bpow_le. lia. }
    destruct (norm_ap (Logic.proj1 CD) SP) as [Fl El]. split; [exact Fl|]. set (L' := rnorm (Rval3 v)) in *.
    assert (E54 : 9 * eps * L' <= 54 * T) by (unfold T; nra). apply abs_le in El. apply abs_le. lra.
Qed.
Lemma farthest_ap from ps : within M from -> ps <> [] -> Forall (within M) ps -> exists i p, nth_error ps i = Some p /\ farthest from ps = Ok (p, i) /\
  forall q, In q ps -> rdist (Rval3 q) (Rval3 from) <= rdist (Rval3 p) (Rval3 from) + 120 * T.
Proof.
  intros Wf HN HW. destruct (@argmax_close (60 * T) (fun p => vnorm (vsub p from)) (fun p => rdist (Rval3 p) (Rval3 from)) ps HN) as (i & p & E & N & L & _).
  { rewrite Forall_forall in HW |- *. intros p I. apply distance_ap; auto. }
  exists i, p. split; [exact N|]. split; [unfold farthest; rewrite E; cbn [bindr]; unfold getitem; now rewrite N|]. intros q I. specialize (L q I). cbv beta in L. lra.
Qed.
End Dist.

(** ** scaling to a range *)
Lemma sub_rel x y : bfin x = true -> bfin y = true -> Rabs (Bval x - Bval y) <= bpow radix2 1000 ->
  bfin (nsub x y) = true /\ Bval (nsub x y) = rnd64 (Bval x - Bval y) /\ Rabs (Bval (nsub x y) - (Bval x - Bval y)) <= eps * Rabs (Bval x - Bval y).
Proof.
  intros Fx Fy H. change (nsub x y) with (bsub x y). destruct (@bsub_val x y Fx Fy H) as [-> ->]. split; [reflexivity|]. split; [reflexivity|].
  assert (GY : generic_format radix2 (FLT_exp (-1074) 53) (- Bval y)) by (apply generic_format_opp, rnd_id_fmt, rnd64_B).
  destruct (@FLT_plus_error_N_ex radix2 (-1074) 53 ltac:(reflexivity) (fun x => negb (Z.even x)) (Bval x) (- Bval y) (rnd_id_fmt (rnd64_B x)) GY) as (d & Hd & E).
  change (round radix2 (FLT_exp (-1074) 53) (Znearest (fun x => negb (Z.even x))) (Bval x + - Bval y)) with (rnd64 (Bval x - Bval y)) in E. change (Bval x + - Bval y) with (Bval x - Bval y) in E. rewrite E.
  replace ((Bval x - Bval y) * (1 + d) - (Bval x - Bval y)) with (d * (Bval x - Bval y)) by ring. rewrite Rabs_mult. apply Rmult_le_compat_r; [apply Rabs_pos|]. apply Rle_trans with (1 := Hd).
  unfold u_ro. change (bpow radix2 (- (53) + 1)) with eps. pose proof eps_pos. apply Rmult_le_reg_r with (1 + / 2 * eps); [lra|]. unfold Rdiv. rewrite Rmult_assoc, Rinv_l by lra. nra.
Qed.
Section Scale.
Context (Q : R) (HQ : bpow radix2 (-400) <= Q <= bpow radix2 400) (lo hi : b64) (Fl : bfin lo = true) (Fh : bfin hi = true) (Bl : Rabs (Bval lo) <= Q) (Bh : Rabs (Bval hi) <= Q).
Lemma Q_mid k : 1 <= k <= 1000 -> mid (k * Q).
Proof. intros H. apply rel_mid; [|exact H]. destruct HQ. split; [apply Rle_trans with (bpow radix2 (-400))|apply Rle_trans with (bpow radix2 400)]; auto; apply bpow_le; lia. Qed.
Lemma scale_one (d s : b64) D S : bfin d = true -> bfin s = true -> bpow radix2 (-500) <= S <= bpow radix2 500 -> 0 <= D <= S -> Rabs (Bval d - D) <= eps * D -> Rabs (Bval s - S) <= eps * S -> 0 <= Bval d <= Bval s ->
  let q := nadd (ndiv (nmul (nsub hi lo) d) s) lo in bfin q = true /\ Rabs (Bval q - ((Bval hi - Bval lo) * (D / S) + Bval lo)) <= 24 * (eps * Q) /\ (Bval d = 0 -> Bval q = Bval lo).
Proof.
  intros Fd Fs HS HD Ed Es Hds q. pose proof eps_pos as PE. pose proof eps_small as SE. assert (PQ : 0 < Q) by (destruct HQ as [H _]; pose proof (bpow_gt_0 radix2 (-400)); lra). assert (PS : 0 < S) by (destruct HS as [H _]; pose proof (bpow_gt_0 radix2 (-500)); lra).
  set (t := eps * Q). assert (Pt : 0 < t) by (unfold t; nra). assert (St : t <= Q / 1000000) by (unfold t; nra). assert (SS : eps * S <= S / 1000000) by nra. assert (SD : eps * D <= eps * S) by nra.
  apply abs_le in Ed, Es. assert (Ls : S / 2 <= Bval s) by lra. assert (Us : Bval s <= 2 * S) by lra. pose proof Bl as Bl'. pose proof Bh as Bh'. apply abs_le in Bl', Bh'.
  destruct (@sub_ap hi lo (2 * Q) Fh Fl) as [Fw Ew]; [apply Q_mid; lra|apply abs_le; lra|]. replace (eps * (2 * Q)) with (2 * t) in Ew by (unfold t; ring). set (w := nsub hi lo) in *. pose proof Ew as Ew'. apply abs_le in Ew'.
  assert (Bw : Rabs (Bval w) <= 3 * Q) by (apply abs_le; lra).
  assert (P1 : Rabs (Bval w * Bval d) <= 3 * Q * Bval s) by (apply mul_bound; auto; try lra; rewrite Rabs_pos_eq; lra).
  assert (M1 : mid (3 * Q * Bval s)).
  { destruct HQ as [Q1 Q2], HS as [S1 S2]. split.
    - apply Rle_trans with (bpow radix2 (-400) * bpow radix2 (-500) * / 2); [change (/ 2) with (bpow radix2 (-1)); rewrite <- !bpow_plus; apply bpow_le; lia|]. pose proof (bpow_gt_0 radix2 (-400)). pose proof (bpow_gt_0 radix2 (-500)). assert (bpow radix2 (-400) * bpow radix2 (-500) <= Q * S) by (apply Rmult_le_compat; lra). assert (0 < bpow radix2 (-400) * bpow radix2 (-500)) by (apply Rmult_lt_0_compat; lra). assert (Q * (S / 2) <= Q * Bval s) by (apply Rmult_le_compat_l; lra). lra.
    - apply Rle_trans with (8 * (bpow radix2 400 * bpow radix2 500)); [|change 8 with (bpow radix2 3); rewrite <- !bpow_plus; apply bpow_le; lia]. assert (0 < Q * S) by (apply Rmult_lt_0_compat; lra). assert (Q * S <= bpow radix2 400 * bpow radix2 500) by (apply Rmult_le_compat; lra). assert (Q * Bval s <= Q * (2 * S)) by (apply Rmult_le_compat_l; lra). lra. }
  destruct (mul_ap Fw Fd M1 P1) as [Fp Ep]. replace (eps * (3 * Q * Bval s)) with (3 * t * Bval s) in Ep by (unfold t; ring). set (p := nmul w d) in *.
  assert (Ps : 0 < Bval s) by lra. assert (DV : forall x B, Rabs x <= B * Bval s -> Rabs (x / Bval s) <= B).
  { intros x B H. unfold Rdiv. rewrite Rabs_mult, (Rabs_pos_eq (/ Bval s)) by (apply Rlt_le, Rinv_0_lt_compat; lra). apply Rmult_le_reg_r with (Bval s); [lra|]. rewrite Rmult_assoc, Rinv_l by lra. lra. }
  apply DV in Ep. assert (P2 := DV _ _ P1). replace ((Bval p - Bval w * Bval d) / Bval s) with (Bval p / Bval s - Bval w * Bval d / Bval s) in Ep by (field; lra). apply abs_le in Ep, P2.
  destruct (@div_ap p s (4 * Q) Fp) as [Fq Eq]; [apply Q_mid; lra|lra|apply abs_le; lra|]. replace (eps * (4 * Q)) with (4 * t) in Eq by (unfold t; ring). set (r := ndiv p s) in *. apply abs_le in Eq.
  destruct (@add_ap r lo (6 * Q) Fq Fl) as [Fz Ez]; [apply Q_mid; lra|apply abs_le; lra|]. fold q in Fz, Ez. replace (eps * (6 * Q)) with (6 * t) in Ez by (unfold t; ring). apply abs_le in Ez.
  set (rho := D / S). assert (R01 : 0 <= rho <= 1).
  { unfold rho, Rdiv. assert (0 < / S) by now apply Rinv_0_lt_compat. split; [apply Rmult_le_pos; lra|]. apply Rmult_le_reg_r with S; [lra|]. rewrite Rmult_assoc, Rinv_l; lra. }
  assert (ED : D = rho * S) by (unfold rho; field; lra).
  assert (K : Rabs (Bval d / Bval s - rho) <= 3 * eps).
  { replace (Bval d / Bval s - rho) with ((Bval d - rho * Bval s) / Bval s) by (field; lra). apply DV. assert (A : Rabs (rho * (Bval s - S)) <= 1 * (eps * S)) by (apply mul_bound; try nra; [rewrite Rabs_pos_eq; lra|apply abs_le; lra]). apply abs_le in A. apply abs_le. assert (eps * S <= 3 / 2 * eps * Bval s) by nra. lra. }
  assert (K1 : Rabs (Bval w * (Bval d / Bval s - rho)) <= 3 * Q * (3 * eps)) by (apply mul_bound; auto; lra). replace (3 * Q * (3 * eps)) with (9 * t) in K1 by (unfold t; ring).
  assert (K2 : Rabs ((Bval w - (Bval hi - Bval lo)) * rho) <= 2 * t * 1) by (apply mul_bound; [lra|lra|exact Ew|rewrite Rabs_pos_eq; lra]).
  apply abs_le in K1, K2. split; [exact Fz|]. split.
  - apply abs_le. replace (Bval w * Bval d / Bval s) with (Bval w * (Bval d / Bval s)) in * by (field; lra). fold t. lra.
  - intros Z. assert (Zp : Bval p = 0).
    { unfold p. change (nmul w d) with (bmul w d). destruct (@bmul_val w d) as [-> _]; auto; rewrite Z, Rmult_0_r; [rewrite Rabs_R0; apply bpow_ge_0|apply rnd64_0]. }
    assert (Zr : Bval r = 0).
    { unfold r. change (ndiv p s) with (bdiv p s). destruct (@bdiv_val p s) as [-> _]; auto; rewrite ?Zp; unfold Rdiv; rewrite ?Rmult_0_l; [lra|rewrite Rabs_R0; apply bpow_ge_0|apply rnd64_0]. }
    unfold q. change (nadd r lo) with (badd r lo). destruct (@badd_val r lo) as [-> _]; auto; rewrite Zr, Rplus_0_l; [apply Rle_trans with (1 := Bl); apply Rle_trans with (1 := proj2 HQ); apply bpow_le; lia|apply rnd64_B].
Qed.
Theorem scale_ap (a : list b64) mn mx : In mn a -> In mx a -> Forall (fun x => bfin x = true /\ Bval mn <= Bval x <= Bval mx) a ->
  bpow radix2 (-500) <= Bval mx - Bval mn <= bpow radix2 500 ->
  exists out, scale_to_range a lo hi = Ok out /\ Forall2 (fun x y => bfin y = true /\
    Rabs (Bval y - ((Bval hi - Bval lo) * ((Bval x - Bval mn) / (Bval mx - Bval mn)) + Bval lo)) <= 24 * (eps * Q) /\ (Bval x = Bval mn -> Bval y = Bval lo)) a out.
Proof.
  intros I1 I2 HA HS. set (S := Bval mx - Bval mn) in *. assert (NE : a <> []) by (intros ->; inversion I1).
  assert (FA : Forall (fun x => bfin x = true) a) by (eapply Forall_impl; [|exact HA]; cbv beta; tauto).
  destruct (amin_ap NE FA) as (m & Em & Im & Lm). rewrite Forall_forall in HA, Lm.
  assert (Vm : Bval m = Bval mn) by (pose proof (Lm _ I1); pose proof (HA _ Im); lra). assert (Fm : bfin m = true) by apply (HA _ Im).
  assert (BS : bpow radix2 500 <= bpow radix2 1000) by (apply bpow_le; lia).
  assert (SUB : forall x, In x a -> bfin (nsub x m) = true /\ Bval (nsub x m) = rnd64 (Bval x - Bval mn) /\ Rabs (Bval (nsub x m) - (Bval x - Bval mn)) <= eps * (Bval x - Bval mn)).
  { intros x I. destruct (HA x I) as [Fx Bx]. destruct (@sub_rel x m Fx Fm) as (A & B & C); rewrite Vm in *; [apply abs_le; unfold S in HS; lra|]. rewrite (Rabs_pos_eq (Bval x - Bval mn)) in C by lra. auto. }
  destruct (@amax_ap (map (fun x => nsub x m) a)) as (s & Es & Is & Ls); [destruct a; [congruence|discriminate]|apply Forall_map, Forall_forall; intros x I; apply (SUB x I)|].
  assert (Vs : Bval s = rnd64 S).
  { rewrite Forall_map, Forall_forall in Ls. apply Rle_antisym.
    - apply in_map_iff in Is as (x & <- & Ix). destruct (SUB x Ix) as (_ & -> & _). apply rnd64_le. pose proof (HA x Ix). unfold S. lra.
    - pose proof (Ls _ I2) as L. destruct (SUB mx I2) as (_ & E & _). rewrite E in L. exact L. }
  assert (Hs : bfin s = true /\ Rabs (Bval s - S) <= eps * S).
  { split; [apply in_map_iff in Is as (x & <- & Ix); apply (SUB x Ix)|]. rewrite Vs. destruct (SUB mx I2) as (_ & E & C). rewrite E in C. exact C. }
  unfold scale_to_range. rewrite Em. cbn [bindr]. rewrite Es. cbn [bindr]. eexists. split; [reflexivity|]. rewrite map_map.
  assert (G : forall l, incl l a -> Forall2 (fun x y => bfin y = true /\ Rabs (Bval y - ((Bval hi - Bval lo) * ((Bval x - Bval mn) / S) + Bval lo)) <= 24 * (eps * Q) /\ (Bval x = Bval mn -> Bval y = Bval lo)) l (map (fun x => nadd (ndiv (nmul (nsub hi lo) (nsub x m)) s) lo) l)).
  { induction l as [|x l IH]; intros Hl; cbn [map]; constructor; [|apply IH; intros z Iz; apply Hl; now right]. assert (Ix : In x a) by (apply Hl; now left). destruct (SUB x Ix) as (F & E & C). destruct (HA x Ix) as [_ Bx].
    destruct (@scale_one (nsub x m) s (Bval x - Bval mn) S) as (G1 & G2 & G3); auto; try (unfold S; lra); try apply Hs.
    - rewrite E, Vs. split; [rewrite <- rnd64_0; apply rnd64_le; lra|apply rnd64_le; unfold S; lra].
    - split; [exact G1|]. split; [exact G2|]. intros Z. apply G3. rewrite E, Z. replace (Bval mn - Bval mn) with 0 by ring. apply rnd64_0. }
  apply G. intros z. exact (fun i => i).
Qed.
End Scale.
