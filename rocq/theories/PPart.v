(** * Proofs about partition_by_length for max_length that is not positive. *)
From Coq Require Import Reals ZArith List Bool Lra Lia.
From Flocq Require Import Core.Raux Core.Zaux IEEE754.BinarySingleNaN.
From Verif Require Import Num B64 BLemmas Vec NpList SpecPoly MSegment MPolyline PPolyline PPolyline2.
Import ListNotations.
Set Implicit Arguments.
Unset Strict Implicit.

(** ** when no segment is divided *)
Section Generic.
Context {F : Type} {N : Num F}.
Definition keeps_one (x : F) : Prop := forall a b, subdivide a b x = Ok [a].
Lemma loop_keeps (ss : list (V3 F * V3 F)) xs nv idx : Forall keeps_one xs -> length xs = length ss ->
  partition_loop ss xs nv idx = Ok (nv ++ map fst ss, idx ++ seq (length nv) (length ss)).
Proof.
  revert ss nv idx. induction xs as [|x xs IH]; intros [|s ss] nv idx H L; try discriminate L; cbn [partition_loop map length seq]; [now rewrite !app_nil_r|].
  inversion_clear H as [|? ? Hx Hs]. rewrite Hx. cbn [bindr]. rewrite IH by (cbn in L; auto). f_equal. f_equal; rewrite <- app_assoc; cbn [app]; [reflexivity|].
  now rewrite app_length, Nat.add_comm.
Qed.
Lemma partition_keeps c (vs : list (V3 F)) m ls : numeric vs = true -> vs <> [] -> segment_lengths (poly c vs) = Ok ls ->
  Forall (fun l => keeps_one (l / m)%num) ls -> partition_by_length (poly c vs) m = (poly c vs, Ok (seq 0 (length vs))).
Proof.
  intros Hn Hv E H. unfold partition_by_length. rewrite E. cbn [bindr poly p_e p_v p_closed]. fold (poly c vs). rewrite segments_poly. cbn [bindr].
  assert (L : length ls = length (segs c vs)). { unfold segment_lengths in E. cbn [poly p_e] in E. fold (poly c vs) in E. rewrite segments_poly in E. injection E as <-. apply map_length. }
  rewrite loop_keeps; [|apply Forall_map; exact H|now rewrite map_length]. cbn [bindr app length].
  destruct c.
  - rewrite map_fst_segs_closed, closed_segs_length. rewrite set_points_some by auto. cbn [poly p_closed]. destruct vs; [congruence|]. reflexivity.
  - destruct vs as [|x w]; [congruence|]. cbv iota beta. rewrite map_fst_segs_open. rewrite set_points_some by auto. cbn [poly p_closed andb]. cbn [mapr]. f_equal. f_equal.
    rewrite map_length. rewrite open_segs_length. cbn [length]. rewrite Nat.sub_succ, Nat.sub_0_r. now rewrite seq_S.
Qed.
Lemma partition_first_fails (p : polyline F) m l ls e : segment_lengths p = Ok (l :: ls) -> (forall a b, subdivide a b (l / m)%num = Err e) ->
  partition_by_length p m = (p, Err e).
Proof.
  intros E H. unfold partition_by_length. rewrite E. cbn [bindr map]. unfold segment_lengths in E. destruct (p_e p); [|discriminate E].
  destruct (segments p) as [[|s ss]|]; try discriminate E. cbn [bindr partition_loop]. now rewrite H.
Qed.
Lemma subdivide_some (a b : V3 F) x l : subdivide a b x = Ok l -> l <> [].
Proof.
  unfold subdivide. destruct (nceil x) as [k|].
  - destruct (Z.leb_spec k 1) as [_|K]; [intros [= <-]; discriminate|]. unfold partition_segment. destruct (Z.ltb_spec k 2) as [|_]; [lia|]. intros [= <-] E.
    apply (f_equal (@length _)) in E. unfold linspace01, narange in E. rewrite !map_length, seq_length in E. cbn in E. lia.
  - destruct (x <=? nofZ 1)%num; [intros [= <-]; discriminate|]. destruct (x =? x)%num; discriminate.
Qed.
Lemma loop_some (ss : list (V3 F * V3 F)) xs nv idx nv' idx' : partition_loop ss xs nv idx = Ok (nv', idx') ->
  nv <> [] \/ ss <> [] /\ xs <> [] -> nv' <> [].
Proof.
  revert xs nv idx. induction ss as [|s ss IH]; intros [|x xs] nv idx E H; cbn [partition_loop] in E; try (injection E as <- <-; destruct H as [H|[H1 H2]]; congruence).
  destruct (subdivide (fst s) (snd s) x) as [pts|] eqn:Ep; [|discriminate E]. cbn [bindr] in E. apply (IH _ _ _ E). left. apply subdivide_some in Ep.
  destruct nv; [exact Ep|discriminate].
Qed.
Lemma partition_unchanged c (vs : list (V3 F)) m q e : vs <> [] -> partition_by_length (poly c vs) m = (q, Err e) -> q = poly c vs.
Proof.
  intros Hv H. unfold partition_by_length in H. destruct (segment_lengths (poly c vs)) as [ls|] eqn:El; [|injection H; auto].
  assert (L : length ls = length (segs c vs)). { unfold segment_lengths in El. cbn [poly p_e] in El. fold (poly c vs) in El. rewrite segments_poly in El. injection El as <-. apply map_length. }
  cbn [bindr poly p_e p_v p_closed] in H. fold (poly c vs) in H. rewrite segments_poly in H. cbn [bindr] in H.
  destruct (partition_loop _ _ _ _) as [[nv idx]|] eqn:Ep; [|injection H; auto]. cbn [bindr] in H.
  assert (K : forall nv' (idx' : list nat), nv' <> [] -> (let (q, r) := set_points (poly c vs) (Some nv') in (q, mapr (fun _ => idx') r)) = (q, Err e) -> q = poly c vs).
  { intros nv' idx' Hn. destruct (numeric nv') eqn:En.
    - rewrite set_points_some by auto. destruct nv'; [congruence|]. cbn [poly p_closed length Nat.eqb]. rewrite andb_false_r. discriminate.
    - unfold set_points. rewrite En. intros [= <- _]. reflexivity. }
  destruct c.
  - apply (K nv idx); [|exact H]. apply (loop_some Ep). right. assert (S0 : segs true vs <> []) by (intros Z; apply (f_equal (@length _)) in Z; rewrite closed_segs_length in Z; destruct vs; [congruence|discriminate]).
    split; [exact S0|]. intros Z. apply S0. apply (f_equal (@length _)) in Z. rewrite map_length, L in Z. destruct (segs true vs); [reflexivity|discriminate].
  - destruct vs as [|x w]; [congruence|]. apply (K _ _) in H; [exact H|]. intros Z. now apply app_eq_nil in Z as [_ Z].
Qed.
End Generic.

(** ** computed lengths are never negative or NaN *)
Definition good (x : b64) : Prop := is_nan x = false /\ Bsign x = false.
Lemma is_nan_inf (x : b64) s : B2SF x = SpecFloat.S754_infinity s -> x = B754_infinity s.
Proof. destruct x; cbn; intros E; try discriminate. now injection E as <-. Qed.
Lemma fin_not_nan (x : b64) : is_finite x = true -> is_nan x = false.
Proof. now destruct x. Qed.
Lemma good_sq (x : b64) : is_nan x = false -> good (bmul x x).
Proof.
  intros H. unfold good, bmul. destruct x as [s|s| |s m e P]; try discriminate; [now destruct s|now destruct s|].
  pose proof (@Bmult_correct 53 1024 prec_gt_0_53 prec_lt_emax_53 mode_NE (B754_finite s m e P) (B754_finite s m e P)) as C.
  destruct (Rlt_bool _ _).
  - destruct C as (_ & C1 & C2). pose proof (fin_not_nan C1) as Nn.
    split; auto. rewrite (C2 Nn). now destruct s.
  - cbn [Bsign] in C. rewrite xorb_nilpotent in C. apply is_nan_inf in C. rewrite C. split; reflexivity.
Qed.
Lemma good_B2R x : good x -> (0 <= B2R x)%R.
Proof.
  intros [H1 H2]. destruct x as [s|s| |s m e P]; cbn; try apply Rle_refl. cbn in H2. subst s. apply Float_prop.F2R_ge_0. cbn. lia.
Qed.
Lemma good_plus x y : good x -> good y -> good (badd x y).
Proof.
  intros Gx Gy. unfold badd. pose proof (good_B2R Gx) as Px. pose proof (good_B2R Gy) as Py.
  destruct Gx as [X1 X2], Gy as [Y1 Y2].
  destruct (is_finite x) eqn:Fx, (is_finite y) eqn:Fy.
  - pose proof (@Bplus_correct 53 1024 prec_gt_0_53 prec_lt_emax_53 mode_NE x y Fx Fy) as C. destruct (Rlt_bool _ _).
    + destruct C as (_ & C1 & C2). split; [exact (fin_not_nan C1)|]. rewrite C2, X2, Y2.
      destruct (Rcompare_spec (B2R x + B2R y) 0); [exfalso; apply (Rlt_irrefl 0); apply Rle_lt_trans with (B2R x + B2R y)%R; auto; now apply Rplus_le_le_0_compat|reflexivity|reflexivity].
    + destruct C as (C & _). rewrite X2 in C. apply is_nan_inf in C. rewrite C. split; reflexivity.
  - destruct y as [s|s| |s m e P]; try discriminate. cbn in Y2. subst s. destruct x as [s|s| |s m e P]; try discriminate; split; reflexivity.
  - destruct x as [s|s| |s m e P]; try discriminate. cbn in X2. subst s. destruct y as [s|s| |s m e P]; try discriminate; split; reflexivity.
  - destruct x as [s|s| |s m e P]; try discriminate. destruct y as [t|t| |t m e P]; try discriminate. cbn in X2, Y2. subst s t. split; reflexivity.
Qed.
Lemma sqrt_sign x : is_nan (bsqrt x) = true \/ Bsign (bsqrt x) = false \/ exists s, bsqrt x = B754_zero s.
Proof.
  unfold bsqrt. destruct (is_nan (@Bsqrt 53 1024 prec_gt_0_53 prec_lt_emax_53 mode_NE x)) eqn:E; [now left|right].
  destruct (@Bsqrt_correct 53 1024 prec_gt_0_53 prec_lt_emax_53 mode_NE x) as (_ & _ & C). destruct x as [s|s| |s m e P].
  - right. now exists s.
  - destruct s; [discriminate E|left; reflexivity].
  - discriminate E.
  - destruct s; [discriminate E|]. left. now rewrite C.
Qed.
Lemma good_sqrt x : good x -> good (bsqrt x).
Proof.
  intros [G1 G2]. assert (E : is_nan (bsqrt x) = false).
  { unfold bsqrt. destruct (@Bsqrt_correct 53 1024 prec_gt_0_53 prec_lt_emax_53 mode_NE x) as (_ & C & _). destruct x as [s|s| |s m e P]; cbn in G2; try subst s; try reflexivity; try discriminate.
    exact (fin_not_nan C). }
  split; auto. unfold bsqrt in *. now rewrite (proj2 (proj2 (@Bsqrt_correct 53 1024 prec_gt_0_53 prec_lt_emax_53 mode_NE x)) E).
Qed.
Lemma sub_not_nan (x y : b64) : is_finite x = true -> is_finite y = true -> is_nan (bsub x y) = false.
Proof.
  intros Hx Hy. unfold bsub. pose proof (@Bminus_correct 53 1024 prec_gt_0_53 prec_lt_emax_53 mode_NE x y Hx Hy) as C. destruct (Rlt_bool _ _).
  - destruct C as (_ & C & _). exact (fin_not_nan C).
  - destruct C as (C & _). apply is_nan_inf in C. now rewrite C.
Qed.
Definition fin_v (v : V3 b64) : Prop := all3 (map3 nfinite v) = true.
Lemma good_norm a b : fin_v a -> fin_v b -> good (vnorm (vsub b a)).
Proof.
  unfold fin_v, all3. cbn [map3 c0 c1 c2]. rewrite !andb_true_iff. intros [[A0 A1] A2] [[B0 B1] B2].
  unfold vnorm. apply good_sqrt. unfold vdot, vsub, zip3. cbn [c0 c1 c2]. apply good_plus; [apply good_plus|]; apply good_sq, sub_not_nan; assumption.
Qed.
Lemma good_lengths c (vs : list (V3 b64)) : numeric vs = true ->
  exists ls, segment_lengths (poly c vs) = Ok ls /\ length ls = length (segs c vs) /\ Forall good ls.
Proof.
  intros H. unfold numeric in H. rewrite forallb_forall in H. exists (map (fun ab => vnorm (vsub (snd ab) (fst ab))) (segs c vs)). split.
  - unfold segment_lengths. cbn [poly p_e]. fold (poly c vs). rewrite segments_poly. reflexivity.
  - split; [apply map_length|]. apply Forall_map, Forall_forall. intros [a b] I. apply segs_in in I as [I J]. cbn [fst snd]. apply good_norm; now apply H.
Qed.

(** ** quotients *)
Lemma keeps_sign (x : b64) : is_nan x = false -> Bsign x = true \/ (exists s, x = B754_zero s) -> keeps_one x.
Proof.
  intros Nn S a b. unfold subdivide. destruct x as [s|s| |s m e P]; try discriminate.
  - reflexivity.
  - destruct S as [S|[t D]]; [|discriminate]. cbn in S. subst s. reflexivity.
  - destruct S as [S|[t D]]; [|discriminate]. cbn in S. subst s. cbn [nceil b64_num b64_int SpecFloat.cond_Zopp].
    destruct (Z.leb_spec (zceil_pow (- Z.pos m) e) 1) as [_|D]; [reflexivity|exfalso]. unfold zceil_pow in D. destruct (Z.leb_spec 0 e) as [E|E].
    + assert (0 < 2 ^ e)%Z by (apply Z.pow_pos_nonneg; lia). nia.
    + assert (P2 : (0 < 2 ^ (- e))%Z) by (apply Z.pow_pos_nonneg; lia). rewrite Z.opp_involutive in D. assert (0 <= Z.pos m / 2 ^ (- e))%Z by (apply Z.div_pos; lia). lia.
Qed.
Lemma div_negative (l m : b64) : good l -> is_finite m = true -> (Bval m < 0)%R -> keeps_one (l / m)%num.
Proof.
  intros [G1 G2] Fm Hm. assert (Sm : Bsign m = true). { destruct m as [s|s| |s k e P]; try discriminate; [exfalso; apply (Rlt_irrefl 0); exact Hm|]. destruct s; [reflexivity|]. exfalso. apply (Rlt_irrefl 0). apply Rle_lt_trans with (Bval (B754_finite false k e P)); [|exact Hm]. apply Float_prop.F2R_ge_0. cbn. lia. }
  change (keeps_one (bdiv l m)). apply keeps_sign.
  - unfold bdiv. pose proof (@Bdiv_correct 53 1024 prec_gt_0_53 prec_lt_emax_53 mode_NE l m (Rlt_not_eq _ _ Hm)) as C.
    destruct l as [s|s| |s k e P]; [destruct m as [t|t| |t k e P]; try discriminate; [exfalso; apply (Rlt_irrefl 0); exact Hm|reflexivity]|destruct m as [t|t| |t k e P]; try discriminate; reflexivity|discriminate|].
    destruct (Rlt_bool _ _).
    + destruct C as (_ & C & _). exact (fin_not_nan C).
    + apply is_nan_inf in C. now rewrite C.
  - unfold bdiv. pose proof (@Bdiv_correct 53 1024 prec_gt_0_53 prec_lt_emax_53 mode_NE l m (Rlt_not_eq _ _ Hm)) as C.
    left. destruct l as [s|s| |s k e P]; [destruct m as [t|t| |t k e P]; try discriminate; [exfalso; apply (Rlt_irrefl 0); exact Hm|cbn in G2, Sm; subst; reflexivity]|destruct m as [t|t| |t k e P]; try discriminate; cbn in G2, Sm; subst; reflexivity|discriminate|].
    destruct (Rlt_bool _ _).
    + destruct C as (_ & C1 & C2). rewrite C2, G2, Sm; [reflexivity|]. exact (fin_not_nan C1).
    + rewrite G2, Sm in C. apply is_nan_inf in C. now rewrite C.
Qed.
