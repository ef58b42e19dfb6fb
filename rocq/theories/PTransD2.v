(** * Composite transforms of doubles: the parts, and the whole. *)
From Coq Require Import String Reals ZArith List Bool Lra Lia.
From Flocq Require Import Core IEEE754.BinarySingleNaN.
From Verif Require Import Num B64 BLemmas Vec RVec NpList MVx SpecUnits MUnits PUnits PUnitsB MRotation MComposite PComposite PCompositeB SpecDouble SpecTransD SpecValueD PErr PNormD PValueD PTransD PRoundD PPrettyD.
Import ListNotations.
Local Open Scope R_scope.
Set Implicit Arguments.
Unset Strict Implicit.

Lemma zero_rows e a : 0 <= e -> 0 <= a -> forall A, rows_le (e * a) (rmsub A A).
Proof.
  intros E H [[x0 x1 x2] [y0 y1 y2] [z0 z1 z2]]. unfold rows_le, rmsub, rsub, abs_sum. cbn. rewrite !Rminus_eq_0, Rabs_R0. assert (0 <= e * a) by nra. lra.
Qed.
Lemma zero_coords e a : 0 <= e -> 0 <= a -> forall t, coords_le (e * a) (rsub t t).
Proof. intros E H [x y z]. unfold coords_le, rsub. cbn. rewrite !Rminus_eq_0, Rabs_R0. assert (0 <= e * a) by nra. lra. Qed.
Lemma eps5_pos : 0 <= 5 * eps. Proof. apply eps5. Qed.
Lemma exact_near m f a s : matrix_of m f -> size_of f (a, s) -> near (5 * eps) a s m f.
Proof.
  intros (R0 & R1 & R2 & R3) [HA HT]. destruct f as [A t]. cbn [fst snd] in *.
  assert (L : lin m = A).
  { destruct R0 as ((_ & E0) & (_ & E1) & (_ & E2) & _), R1 as ((_ & E3) & (_ & E4) & (_ & E5) & _), R2 as ((_ & E6) & (_ & E7) & (_ & E8) & _).
    unfold lin, row4. rewrite E0, E1, E2, E3, E4, E5, E6, E7, E8. destruct A as [[? ? ?] [? ? ?] [? ? ?]]. reflexivity. }
  assert (O : off m = t).
  { destruct R0 as (_ & _ & _ & _ & E0), R1 as (_ & _ & _ & _ & E1), R2 as (_ & _ & _ & _ & E2). unfold off. rewrite E0, E1, E2. now destruct t. }
  split.
  { unfold fin_m4, fin_v4. unfold row_of in *. tauto. }
  split. { unfold lrow, is_0001. unfold row_of in R3. tauto. }
  split; [exact HA|]. split; [exact HT|]. cbn [fst snd]. rewrite L, O. split; [apply zero_rows|apply zero_coords]; auto using eps5_pos; [exact (rows_pos HA)|exact (coords_pos HT)].
Qed.
Lemma fin3b_fin v : fin3b v = true -> bfin (c0 v) = true /\ bfin (c1 v) = true /\ bfin (c2 v) = true.
Proof. unfold fin3b. rewrite !andb_true_iff. tauto. Qed.
Lemma linear_matrix m x : finmb m -> convert_33_to_44 (Mat33 m) = Ok x -> matrix_of x (linear (Rvalm m)).
Proof.
  intros (F0 & F1 & F2) [= <-]. apply fin3b_fin in F0, F1, F2. unfold matrix_of, row_of, linear, Rvalm, Rval3, map3, rzero. cbn [c0 c1 c2 d0 d1 d2 d3 fst snd].
  pose proof zero_fin. pose proof zero_val. pose proof one_fin. pose proof one_val. tauto.
Qed.
Lemma finmb_trans m : finmb m -> finmb (mtrans m).
Proof. unfold finmb, fin3b, mtrans, mcol0, mcol1, mcol2, map3. cbn. rewrite !andb_true_iff. tauto. Qed.
Lemma Rvalm_trans m : Rvalm (mtrans m) = rtrans (Rvalm m).
Proof. reflexivity. Qed.
Lemma shift_matrix v : fin3b v = true -> matrix_of (translation_matrix v) (shift (Rval3 v)).
Proof.
  intros F. apply fin3b_fin in F. unfold matrix_of, row_of, shift, translation_matrix, reye, Rval3, map3. cbn [c0 c1 c2 d0 d1 d2 d3 fst snd].
  pose proof zero_fin. pose proof zero_val. pose proof one_fin. pose proof one_val. tauto.
Qed.
Lemma opp_fin3 v : fin3b v = true -> fin3b (vopp v) = true /\ Rval3 (vopp v) = rscale (-1) (Rval3 v).
Proof.
  intros F. apply fin3b_fin in F as (F0 & F1 & F2). unfold fin3b, vopp, Rval3, rscale, map3. cbn [c0 c1 c2 nopp b64_num].
  assert (G : forall x : b64, bfin (bopp x) = bfin x) by (intros x; unfold bfin, bopp; apply is_finite_Bopp).
  assert (V : forall x : b64, Bval (bopp x) = -1 * Bval x) by (intros x; unfold Bval, bopp; rewrite B2R_Bopp; ring).
  rewrite !G, F0, F1, F2, !V. split; reflexivity.
Qed.
Lemma times_near k c e a s x : bfin k = true -> Bval k = c * (1 + e) -> Rabs e <= 5 * eps -> convert_33_to_44 (Mat33 (diag_repeat k)) = Ok x ->
  size_of (times c) (a, s) -> near (5 * eps) a s x (times c).
Proof.
  intros F V E [= <-] [HA HT]. pose proof eps5_pos as P4. pose proof (rows_pos HA) as Pa. cbn [fst snd] in *. pose proof zero_fin as ZF. pose proof zero_val as ZV. pose proof one_fin as OF. pose proof one_val as OV.
  split. { unfold fin_m4, fin_v4. cbn [diag_repeat c0 c1 c2 d0 d1 d2 d3]. tauto. }
  split. { unfold lrow, is_0001. cbn [d0 d1 d2 d3]. tauto. }
  split; [exact HA|]. split; [exact HT|].
  assert (C : Rabs (c * (1 + e) - c) <= 5 * eps * a).
  { replace (c * (1 + e) - c) with (e * c) by ring. rewrite Rabs_mult. apply Rmult_le_compat; auto using Rabs_pos. destruct HA as [H _]. unfold times, abs_sum in H. cbn in H. rewrite Rabs_R0 in H. lra. }
  split.
  - unfold lin, row4, times, rmsub, rsub, rows_le, abs_sum, diag_repeat. cbn [c0 c1 c2 d0 d1 d2 d3 fst snd]. rewrite V.
    change (Bval (B754_zero false)) with 0. rewrite !Rminus_eq_0, Rabs_R0. repeat split; lra.
  - unfold off, times, rsub, rzero, coords_le. cbn [c0 c1 c2 d0 d1 d2 d3 fst snd]. change (Bval (B754_zero false)) with 0. rewrite !Rminus_eq_0, Rabs_R0. pose proof (coords_pos HT). assert (0 <= 5 * eps * s) by nra. repeat split; lra.
Qed.
Lemma length_factor f t a b : unit_size f = Some (Length, a) -> unit_size t = Some (Length, b) ->
  factor (F := b64) (Some f) (Some t) (Some "length"%string) = factor (Some f) (Some t) None.
Proof.
  intros Hf Ht. destruct (get_known (F := b64) Hf) as [ff Gf]. destruct (get_known (F := b64) Ht) as [ft Gt].
  unfold factor. destruct (blank (Some f) && blank (Some t)); [reflexivity|]. destruct (ustr_eqb (Some f) (Some t)); [reflexivity|].
  cbn [units_get]. unfold dict_get. rewrite Gf, Gt. reflexivity.
Qed.
(** the reciprocal of a factor that is [c] up to [d] *)
Lemma recip_near k c e : bfin k = true -> Bval k = c * (1 + e) -> Rabs e <= 3 * eps -> bpow radix2 (-401) <= Bval k <= bpow radix2 401 -> 0 < c ->
  exists e', bfin (ndiv (nofZ 1) k) = true /\ Bval (ndiv (nofZ 1) k) = / c * (1 + e') /\ Rabs e' <= 5 * eps.
Proof.
  intros F V E B C. pose proof eps_pos as PE. pose proof eps_small as SE. pose proof (bpow_gt_0 radix2 (-401)) as PB.
  change (ndiv (nofZ 1) k) with (bdiv (nofZ 1) k). assert (Hz : Bval (nofZ 1) / Bval k = / Bval k) by (rewrite one_val; unfold Rdiv; ring).
  assert (P : 0 < Bval k) by lra.
  assert (U : / Bval k <= bpow radix2 401) by (change 401%Z with (- (-401))%Z; rewrite bpow_opp; apply Rinv_le; lra).
  assert (L : bpow radix2 (-401) <= / Bval k) by (change (-401)%Z with (- (401))%Z; rewrite bpow_opp; apply Rinv_le; lra).
  destruct (@bdiv_val (nofZ 1) k one_fin) as [W Fw]; [lra|rewrite Hz, Rabs_pos_eq by lra; eapply Rle_trans; [exact U|apply bpow_le; lia]|].
  assert (L' : bpow radix2 (-1022) <= / Bval k) by (eapply Rle_trans; [|exact L]; apply bpow_le; lia).
  pose proof (@rnd_err (/ Bval k) (/ Bval k) L' ltac:(rewrite Rabs_pos_eq by lra; lra)) as K. rewrite Hz in W. rewrite <- W in K.
  set (w := Bval (bdiv (nofZ 1) k)) in *. exists (w * c - 1). split; [exact Fw|]. split; [field; lra|].
  apply abs_le in E. apply abs_le in K. set (q := / (1 + e)). assert (Q : / Bval k = / c * q) by (rewrite V; unfold q; rewrite Rinv_mult; reflexivity).
  assert (Q1 : q * (1 + e) = 1) by (unfold q; field; lra). assert (Pq : 0 < q) by (unfold q; apply Rinv_0_lt_compat; lra).
  assert (Q2 : q - 1 = - e * q) by lra. assert (Hq : q <= 1 + 5 * eps) by nra. assert (Hq' : 1 - 3 * eps <= q) by nra.
  assert (Ha : - 31 / 10 * eps <= q - 1 <= 31 / 10 * eps) by (rewrite Q2; split; nra).
  rewrite Q in K. assert (Cw : - (eps * q) <= w * c - q <= eps * q).
  { assert (I : / c * c = 1) by (field; lra). split.
    - apply Rle_trans with ((- (eps * (/ c * q)) + / c * q) * c - q); [right; replace ((- (eps * (/ c * q)) + / c * q) * c - q) with (- (eps * q) * (/ c * c) + q * (/ c * c) - q) by ring; rewrite I; ring|].
      apply Rplus_le_compat_r. apply Rmult_le_compat_r; lra.
    - apply Rle_trans with ((eps * (/ c * q) + / c * q) * c - q); [|right; replace ((eps * (/ c * q) + / c * q) * c - q) with (eps * q * (/ c * c) + q * (/ c * c) - q) by ring; rewrite I; ring].
      apply Rplus_le_compat_r. apply Rmult_le_compat_r; lra. }
  assert (eps * q <= 9 / 10 * eps \/ True) by tauto. assert (Hk : eps * q <= eps * (1 + 5 * eps)) by (apply Rmult_le_compat_l; lra).
  apply abs_le. assert (eps * eps <= eps * / 1000000000000) by (apply Rmult_le_compat_l; lra). lra.
Qed.
Section Parts.
Context (inv : M4 b64 -> res (M4 b64)) (as_rot : rot_arg b64 -> res (M3 b64)).
Lemma ordinary_pos x : ordinary x -> 0 < x.
Proof. intros [H _]. pose proof (bpow_gt_0 radix2 (-400)). lra. Qed.
Lemma scale_adds (k : b64) : bfin k = true -> 0 < Bval k -> exists mf mr, convert_33_to_44 (Mat33 (diag_repeat k)) = Ok mf /\ convert_33_to_44 (Mat33 (diag_repeat (ndiv (nofZ 1) k))) = Ok mr /\
  forall ts, scale inv ts k = Ok (ts ++ [(mf, mr)], length ts).
Proof.
  intros F P. eexists. eexists. split; [reflexivity|]. split; [reflexivity|]. intros ts. unfold scale.
  replace (nle k n0) with false; [reflexivity|]. symmetry. rewrite (ble_spec F zero_fin), zero_val. apply Rle_bool_false. exact P.
Qed.
Lemma scale_part k c e : bfin k = true -> Bval k = c * (1 + e) -> Rabs e <= 3 * eps -> bpow radix2 (-401) <= Bval k <= bpow radix2 401 -> 0 < c ->
  exists mf mr, (forall ts, scale inv ts k = Ok (ts ++ [(mf, mr)], length ts)) /\
    (forall a s, size_of (times c) (a, s) -> near (5 * eps) a s mf (times c)) /\ (forall a s, size_of (times (/ c)) (a, s) -> near (5 * eps) a s mr (times (/ c))).
Proof.
  intros F V E B C. pose proof eps_pos. pose proof (bpow_gt_0 radix2 (-401)). destruct (recip_near F V E B C) as (e' & F' & V' & E').
  destruct (@scale_adds k F ltac:(lra)) as (mf & mr & Cf & Cr & A). exists mf, mr. split; [exact A|]. split; intros a s S.
  - apply (times_near F V); auto. lra.
  - apply (times_near F' V'); auto.
Qed.
Lemma part_adds o f g : part inv as_rot o f g -> exists mf mr, (forall ts, exists i, apply_op inv as_rot ts o = Ok (ts ++ [(mf, mr)], i)) /\
  (forall a s, size_of f (a, s) -> near (5 * eps) a s mf f) /\ (forall a s, size_of g (a, s) -> near (5 * eps) a s mr g).
Proof.
  assert (L3 : forall m r : M3 b64, finmb m -> finmb r -> exists mf mr, (forall ts, append_transform3 inv ts (Mat33 m) (Some (Mat33 r)) = Ok (ts ++ [(mf, mr)], length ts)) /\
    (forall a s, size_of (linear (Rvalm m)) (a, s) -> near (5 * eps) a s mf (linear (Rvalm m))) /\ (forall a s, size_of (linear (Rvalm r)) (a, s) -> near (5 * eps) a s mr (linear (Rvalm r)))).
  { intros m r Fm Fr. eexists. eexists. split; [reflexivity|]. split; intros a s; apply exact_near; apply linear_matrix; auto. }
  intros P. destruct P as [k F O|f t a b Hf Ht|v F|up look m Em Fm|r m Em Fm|m r Fm Fr|m r f g Hf Hg|m r f g Ei Hf Hg].
  - assert (B : bpow radix2 (-401) <= Bval k <= bpow radix2 401).
    { destruct O as [O1 O2]. split; [eapply Rle_trans; [|exact O1]|eapply Rle_trans; [exact O2|]]; apply bpow_le; lia. }
    pose proof eps_pos. destruct (@scale_part k (Bval k) 0 F) as (mf & mr & A & N1 & N2); [ring|rewrite Rabs_R0; lra|exact B|exact (ordinary_pos O)|].
    exists mf, mr. split; [|auto]. intros ts. cbn [apply_op]. rewrite A. eexists. reflexivity.
  - destruct (factor_true Hf Ht) as (k & e & Ef & F & E & V & B). assert (a / b > 0 /\ b / a = / (a / b)) as [Pab Hba].
    { assert (0 < a /\ 0 < b) as [Pa Pb] by (split; eapply unit_size_pos; eassumption). split; [apply Rdiv_lt_0_compat; lra|field; lra]. }
    assert (E' : Rabs e <= 3 * eps) by (rewrite eps_u64; lra).
    assert (B' : bpow radix2 (-401) <= Bval k <= bpow radix2 401).
    { destruct B as [O1 O2]. split; [eapply Rle_trans; [|exact O1]|eapply Rle_trans; [exact O2|]]; apply bpow_le; lia. }
    destruct (@scale_part k (a / b) e F V E' B' Pab) as (mf & mr & A & N1 & N2). exists mf, mr. rewrite Hba. split; [|auto]. intros ts. cbn [apply_op]. unfold convert_units.
    rewrite (length_factor Hf Ht), Ef. cbn [bindr]. rewrite A. eexists. reflexivity.
  - destruct (opp_fin3 F) as [F' V']. exists (translation_matrix v), (translation_matrix (vopp v)). split; [intros ts; eexists; reflexivity|]. split; intros a s; apply exact_near; [now apply shift_matrix|].
    rewrite <- V'. now apply shift_matrix.
  - destruct (L3 m (mtrans m) Fm (finmb_trans Fm)) as (mf & mr & A & N1 & N2). exists mf, mr. split; [|auto]. intros ts. cbn [apply_op]. unfold reorient. rewrite Em. cbn [bindr]. rewrite A. eexists. reflexivity.
  - destruct (L3 m (mtrans m) Fm (finmb_trans Fm)) as (mf & mr & A & N1 & N2). exists mf, mr. split; [|auto]. intros ts. cbn [apply_op]. unfold rotate. rewrite Em. cbn [bindr]. rewrite A. eexists. reflexivity.
  - destruct (L3 m r Fm Fr) as (mf & mr & A & N1 & N2). exists mf, mr. split; [|auto]. intros ts. cbn [apply_op]. rewrite A. eexists. reflexivity.
  - exists m, r. split; [intros ts; eexists; reflexivity|]. split; intros a s; now apply exact_near.
  - exists m, r. split; [intros ts; cbn [apply_op]; unfold append_transform4; rewrite Ei; eexists; reflexivity|]. split; intros a s; now apply exact_near.
Qed.
Lemma after_parts os fg : Forall2 (fun o p => part inv as_rot o (fst p) (snd p)) os fg ->
  exists st : list (M4 b64 * M4 b64), (forall ts, after inv as_rot ts os = ts ++ st) /\
    Forall2 (fun t p => (forall a s, size_of (fst p) (a, s) -> near (5 * eps) a s (fst t) (fst p)) /\ (forall a s, size_of (snd p) (a, s) -> near (5 * eps) a s (snd t) (snd p))) st fg.
Proof.
  induction 1 as [|o p os fg H _ (st & A & N)].
  - exists []. split; [intros ts; cbn; now rewrite app_nil_r|constructor].
  - destruct (part_adds H) as (mf & mr & Ao & N1 & N2). exists ((mf, mr) :: st). split; [|constructor; auto].
    intros ts. cbn [after fold_left]. destruct (Ao ts) as (i & E). rewrite E. change ((mf, mr) :: st) with ([(mf, mr)] ++ st). rewrite app_assoc. apply A.
Qed.
Lemma size_bound n : (Z.of_nat n <= 2 ^ 30)%Z -> 30 * INR n * eps <= / 100.
Proof.
  intros H. assert (I : INR n <= 1073741824) by (rewrite INR_IZR_INZ; now apply IZR_le).
  rewrite eps_val. pose proof (pos_INR n). lra.
Qed.
Lemma rel_apply l s M : ordinary l -> 0 <= s <= bpow radix2 400 -> ordinary M -> rel (l * M + s).
Proof.
  intros [L1 L2] [S1 S2] [M1 M2]. pose proof (bpow_gt_0 radix2 (-400)). split.
  - apply Rle_trans with (bpow radix2 (-400) * bpow radix2 (-400)); [rewrite <- bpow_plus; apply bpow_le; lia|]. assert (bpow radix2 (-400) * bpow radix2 (-400) <= l * M) by (apply Rmult_le_compat; lra). lra.
  - assert (l * M <= bpow radix2 400 * bpow radix2 400) by (apply Rmult_le_compat; lra). rewrite <- bpow_plus in H0. change (400 + 400)%Z with 800%Z in H0.
    assert (bpow radix2 400 <= bpow radix2 800) by (apply bpow_le; lia). apply Rle_trans with (2 * bpow radix2 800); [lra|]. change 2 with (bpow radix2 1). rewrite <- bpow_plus. apply bpow_le. lia.
Qed.
Lemma reach_end bs l s : reach bs l s -> ordinary l /\ 0 <= s <= bpow radix2 400.
Proof.
  assert (Z : forall s, s = 0 \/ ordinary s -> 0 <= s <= bpow radix2 400).
  { intros x [->|H]; [pose proof (bpow_gt_0 radix2 400); lra|]. pose proof (ordinary_pos H). destruct H. lra. }
  intros []; auto.
Qed.
Lemma reach_back_end bs l s : reach_back bs l s -> ordinary l /\ 0 <= s <= bpow radix2 400.
Proof.
  assert (Z : forall s, s = 0 \/ ordinary s -> 0 <= s <= bpow radix2 400).
  { intros x [->|H]; [pose proof (bpow_gt_0 radix2 400); lra|]. pose proof (ordinary_pos H). destruct H. lra. }
  intros []; auto.
Qed.
Lemma forall2_imp (A B : Type) (P Q : A -> B -> Prop) l k : (forall a b, P a b -> Q a b) -> Forall2 P l k -> Forall2 Q l k.
Proof. intros I. induction 1; constructor; auto. Qed.
Section Whole.
Context (os : list (op b64)) (fg : list (rigid * rigid)) (H : Forall2 (fun o p => part inv as_rot o (fst p) (snd p)) os fg) (N : (Z.of_nat (length os) <= 2 ^ 30)%Z).
Context (M : R) (xs : list (V3 b64)) (OM : ordinary M) (W : Forall (within M) xs).
Lemma stored_pieces (st : list (M4 b64 * M4 b64)) (pick : forall A, A * A -> A) bs : length st = length fg ->
  Forall2 (fun t p => forall a s, size_of (pick _ p) (a, s) -> near (5 * eps) a s (pick _ t) (pick _ p)) st fg -> Forall2 size_of (map (pick _) fg) bs ->
  Forall2 piece_near (combine (map (pick _) st) (map (pick _) fg)) bs.
Proof.
  intros _ F. clear H. revert bs. induction F as [|t p st' fg' Hp F IH]; intros bs K; cbn [map combine] in *; inversion K as [|? b ? ? Hb Kb]; subst; [constructor|]. constructor; [|now apply IH].
  destruct b as [a s]. unfold piece_near. cbn [fst snd]. now apply Hp.
Qed.
Lemma split_combine (A B : Type) (l : list A) (k : list B) : length l = length k -> map fst (combine l k) = l /\ map snd (combine l k) = k.
Proof. revert k. induction l as [|x l IH]; intros [|y k] E; try discriminate; [split; reflexivity|]. cbn in *. destruct (IH k) as [-> ->]; [lia|]. auto. Qed.
Lemma forward_true bs l s : Forall2 size_of (map fst fg) bs -> reach bs l s ->
  exists ys, call (after inv as_rot [] os) xs None false = Ok ys /\ Forall2 (fun x y => close3 (30 * INR (length os) * eps * (l * M + s)) y (moves (map fst fg) (Rval3 x))) xs ys.
Proof.
  intros Sb Rb. destruct (after_parts H) as (st & A & F). rewrite A. cbn [app].
  pose proof (Forall2_len F) as Ls. pose proof (Forall2_len H) as Lo.
  assert (F1 : Forall2 (fun t p => forall a s, size_of (fst p) (a, s) -> near (5 * eps) a s (fst t) (fst p)) st fg) by (eapply forall2_imp; [|exact F]; intros t p [K _]; exact K).
  pose proof (@stored_pieces st (fun A => @fst A A) bs Ls F1 Sb : Forall2 piece_near (combine (map fst st) (map fst fg)) bs) as P. destruct (@split_combine _ _ (map fst st) (map fst fg)) as [E1 E2]; [now rewrite !map_length|].
  assert (Ln : @length piece (combine (map fst st) (map fst fg)) = length os) by (unfold piece; rewrite combine_length, !map_length; lia).
  destruct (fwd_near Rb P) as (g & G & Mg); [rewrite Ln; now apply size_bound|]. rewrite Ln in G. rewrite E2 in Mg.
  destruct (reach_end Rb) as [Ol Os]. pose proof eps_pos as PE.
  assert (L1 : 1 <= INR (length os)). { change 1 with (INR 1). apply le_INR. rewrite Lo. destruct fg; [|cbn; lia]. exfalso. inversion Sb; subst. now apply (reach_ne Rb). }
  assert (E : 0 <= 30 * INR (length os) * eps - 25 * eps <= / 100) by (pose proof (size_bound N); split; [nra|lra]).
  destruct (apply_near G E (rel_apply Ol Os OM) W) as (ys & Ey & C). exists ys. split.
  - rewrite <- Ey. unfold call, matrix_for, prod_with. rewrite E1. destruct st as [|t st']; [inversion F; subst; inversion Sb; subst; exfalso; now apply (reach_ne Rb)|].
    cbn [map]. f_equal. rewrite <- (map_map fst m4trans). rewrite fold_trans. generalize (fold_left (fun acc a => m4mul a acc) (map fst st') (fst t)). intros [[? ? ? ?] [? ? ? ?] [? ? ? ?] [? ? ? ?]]. reflexivity.
  - pose proof (rel_pos (rel_apply Ol Os OM)) as PX. eapply forall2_imp; [|exact C]. intros x y (Fy & C0 & C1 & C2). rewrite Mg in *.
    assert (B : (30 * INR (length os) * eps - 25 * eps + 8 * eps) * (l * M + s) <= 30 * INR (length os) * eps * (l * M + s)) by (apply Rmult_le_compat_r; lra).
    split; [exact Fy|]. lra.
Qed.
Lemma reverse_true bs l s : Forall2 size_of (map snd fg) bs -> reach_back bs l s ->
  exists ys, call (after inv as_rot [] os) xs None true = Ok ys /\ Forall2 (fun x y => close3 (30 * INR (length os) * eps * (l * M + s)) y (moves (rev (map snd fg)) (Rval3 x))) xs ys.
Proof.
  intros Sb Rb. destruct (after_parts H) as (st & A & F). rewrite A. cbn [app].
  pose proof (Forall2_len F) as Ls. pose proof (Forall2_len H) as Lo.
  assert (F1 : Forall2 (fun t p => forall a s, size_of (snd p) (a, s) -> near (5 * eps) a s (snd t) (snd p)) st fg) by (eapply forall2_imp; [|exact F]; intros t p [_ K]; exact K).
  pose proof (@stored_pieces st (fun A => @snd A A) bs Ls F1 Sb : Forall2 piece_near (combine (map snd st) (map snd fg)) bs) as P. destruct (@split_combine _ _ (map snd st) (map snd fg)) as [E1 E2]; [now rewrite !map_length|].
  assert (Ln : @length piece (combine (map snd st) (map snd fg)) = length os) by (unfold piece; rewrite combine_length, !map_length; lia).
  destruct (bwd_near Rb P) as (g & G & Mg); [rewrite Ln; now apply size_bound|]. rewrite Ln in G. rewrite E2 in Mg.
  destruct (reach_back_end Rb) as [Ol Os]. pose proof eps_pos as PE.
  assert (L1 : 1 <= INR (length os)). { change 1 with (INR 1). apply le_INR. rewrite Lo. destruct fg; [|cbn; lia]. exfalso. inversion Sb; subst. now apply (reach_back_ne Rb). }
  assert (E : 0 <= 30 * INR (length os) * eps - 25 * eps <= / 100) by (pose proof (size_bound N); split; [nra|lra]).
  destruct (apply_near G E (rel_apply Ol Os OM) W) as (ys & Ey & C). exists ys. split.
  - rewrite <- Ey. unfold call, matrix_for, prod_with. rewrite E1. destruct st as [|t st']; [inversion F; subst; inversion Sb; subst; exfalso; now apply (reach_back_ne Rb)|]. reflexivity.
  - pose proof (rel_pos (rel_apply Ol Os OM)) as PX. eapply forall2_imp; [|exact C]. intros x y (Fy & C0 & C1 & C2). rewrite Mg in *.
    assert (B : (30 * INR (length os) * eps - 25 * eps + 8 * eps) * (l * M + s) <= 30 * INR (length os) * eps * (l * M + s)) by (apply Rmult_le_compat_r; lra).
    split; [exact Fy|]. lra.
Qed.
End Whole.
End Parts.

(** ** There and back *)
Lemma move_bound f b M x : size_of f b -> coords_le M x -> coords_le (fst b * M + snd b) (move f x).
Proof. intros [(A0 & A1 & A2) (T0 & T1 & T2)] C. split; [|split]; cbn [move radd rapply c0 c1 c2]; now apply move_size. Qed.
Lemma moves_bound bs l s : reach bs l s -> forall fs M x, Forall2 size_of fs bs -> coords_le M x -> coords_le (l * M + s) (moves fs x).
Proof.
  induction 1 as [a s Ha Hs|bs a s l t H IH Ha Hs Hal Hts]; intros fs M x F C.
  - inversion F as [|f ? ? ? Hf Hn]; subst. inversion Hn; subst. exact (move_bound Hf C).
  - apply snoc_inv in F as (fs' & f & -> & F & Hf). rewrite moves_app. pose proof (move_bound Hf (IH fs' M x F C)) as K. cbn [fst snd] in K.
    replace (a * l * M + (a * t + s)) with (a * (l * M + t) + s) by ring. exact K.
Qed.
Lemma moves_lip bs l s : reach_back bs l s -> forall gs E x y, Forall2 size_of gs bs -> coords_le E (rsub x y) -> coords_le (l * E) (rsub (moves (rev gs) x) (moves (rev gs) y)).
Proof.
  assert (G : forall f b E x y, size_of f b -> coords_le E (rsub x y) -> coords_le (fst b * E) (rsub (move f x) (move f y))).
  { intros f b E x y [(A0 & A1 & A2) _] C. replace (rsub (move f x) (move f y)) with (rapply (fst f) (rsub x y)).
    2:{ unfold move, rapply, radd, rsub, rdot. cbn [c0 c1 c2]. f_equal; ring. }
    pose proof (coords_pos C). split; [|split]; cbn [rapply c0 c1 c2]; (eapply Rle_trans; [apply (rdot_le _ C)|]; now apply Rmult_le_compat_r). }
  induction 1 as [a s Ha Hs|bs a s l t H IH Ha Hs Hal Hts]; intros gs E x y F C.
  - inversion F as [|f ? ? ? Hf Hn]; subst. inversion Hn; subst. exact (G _ _ _ _ _ Hf C).
  - apply snoc_inv in F as (gs' & g & -> & F & Hg). rewrite rev_app_distr. cbn [rev app moves fold_left]. rewrite Rmult_assoc. apply IH; [exact F|]. exact (G _ _ _ _ _ Hg C).
Qed.
Lemma moves_undo fg : Forall (fun p => forall x, move (snd p) (move (fst p) x) = x) fg -> forall x, moves (rev (map snd fg)) (moves (map fst fg) x) = x.
Proof.
  induction 1 as [|p fg Hp H IH]; intros x; [reflexivity|]. cbn [map rev]. rewrite moves_app. cbn [moves fold_left]. 
  change (fold_left (fun q f => move f q) (map fst fg) (move (fst p) x)) with (moves (map fst fg) (move (fst p) x)). fold (moves (rev (map snd fg)) (moves (map fst fg) (move (fst p) x))). rewrite IH. apply Hp.
Qed.
Lemma round_trip inv as_rot os fg M xs bs l s bs' l' s' : Forall2 (fun o p => part inv as_rot o (fst p) (snd p)) os fg -> (Z.of_nat (length os) <= 2 ^ 30)%Z ->
  ordinary M -> Forall (within M) xs -> Forall2 size_of (map fst fg) bs -> reach bs l s -> Forall2 size_of (map snd fg) bs' -> reach_back bs' l' s' ->
  Forall (fun p => forall x, move (snd p) (move (fst p) x) = x) fg -> ordinary (2 * (l * M + s)) ->
  exists ys zs, call (after inv as_rot [] os) xs None false = Ok ys /\ call (after inv as_rot [] os) ys None true = Ok zs /\
    Forall2 (fun x z => close3 (30 * INR (length os) * eps * (3 * l' * (l * M + s) + s')) z (Rval3 x)) xs zs.
Proof.
  intros H N OM W Sf Rf Sb Rb U O2. destruct (forward_true H N OM W Sf Rf) as (ys & Ey & Cy).
  pose proof (size_bound N) as NB. pose proof eps_pos as PE. pose proof (pos_INR (length os)) as PN. destruct (reach_end Rf) as [Ol Os]. destruct (reach_back_end Rb) as [Ol' Os'].
  pose proof (ordinary_pos Ol). pose proof (ordinary_pos Ol'). pose proof (ordinary_pos OM). assert (PX : 0 < l * M + s) by (assert (0 < l * M) by nra; lra). set (X := l * M + s) in *.
  set (k := 30 * INR (length os) * eps) in *. assert (Pk : 0 <= k) by (unfold k; apply Rmult_le_pos; lra).
  assert (kX : k * X <= / 100 * X) by (apply Rmult_le_compat_r; lra).
  assert (Wy : Forall (within (2 * X)) ys).
  { clear Ey. revert W. induction Cy as [|x y xs ys (Fy & C0 & C1 & C2) Cy IH]; intros W; inversion W as [|? ? Wx Wxs]; subst; constructor; [|now apply IH].
    destruct Wx as (_ & B). pose proof (moves_bound Rf Sf (B : coords_le M (Rval3 x))) as (D0 & D1 & D2). fold X in D0, D1, D2. split; [exact Fy|].
    apply abs_le in C0, C1, C2, D0, D1, D2. split; [|split]; apply abs_le; lra. }
  destruct (reverse_true H N O2 Wy Sb Rb) as (zs & Ez & Cz). fold k in Cz. exists ys, zs. split; [exact Ey|]. split; [exact Ez|].
  clear Ey Ez Wy W. revert zs Cz. induction Cy as [|x y xs ys (Fy & C0 & C1 & C2) Cy IH]; intros zs Cz; inversion Cz as [|? z ? ? (Fz & D0 & D1 & D2) Czs]; subst; constructor; [|now apply IH].
  pose proof (@moves_lip _ _ _ Rb (map snd fg) (k * X) (Rval3 y) (moves (map fst fg) (Rval3 x)) Sb (conj C0 (conj C1 C2))) as (E0 & E1 & E2). rewrite (moves_undo U) in E0, E1, E2.
  cbn [rsub c0 c1 c2] in E0, E1, E2. set (q := moves (rev (map snd fg)) (Rval3 y)) in *.
  assert (B : k * (3 * l' * X + s') = l' * (k * X) + k * (l' * (2 * X) + s')) by ring. rewrite B.
  split; [exact Fz|]. apply abs_le in D0, D1, D2, E0, E1, E2. split; [|split]; apply abs_le; lra.
Qed.
