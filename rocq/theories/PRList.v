(** * Algebra of list vectors. *)
From Coq Require Import Reals List Lra Lia.
From Verif Require Import NpList SpecGeom RList.
Import ListNotations.
Local Open Scope R_scope.
Set Implicit Arguments.
Unset Strict Implicit.

Lemma map2_length A B C (f : A -> B -> C) l k : length (map2 f l k) = min (length l) (length k).
Proof. unfold map2. now rewrite map_length, combine_length. Qed.
Lemma map2_cons A B C (f : A -> B -> C) a l b k : map2 f (a :: l) (b :: k) = f a b :: map2 f l k.
Proof. reflexivity. Qed.
Ltac vecind := intros; repeat match goal with
  | l : list R |- _ => revert l end.
Lemma lzero_length d : length (lzero d) = d. Proof. apply repeat_length. Qed.
Lemma ladd_length u v d : length u = d -> length v = d -> length (ladd u v) = d.
Proof. intros <- H. unfold ladd. rewrite map2_length, H. apply Nat.min_id. Qed.
Lemma lsub_length u v d : length u = d -> length v = d -> length (lsub u v) = d.
Proof. intros <- H. unfold lsub. rewrite map2_length, H. apply Nat.min_id. Qed.
Lemma lscale_length s v : length (lscale s v) = length v.
Proof. apply map_length. Qed.

Lemma ladd_comm u v : ladd u v = ladd v u.
Proof. revert v. induction u as [|a u IH]; intros [|b v]; auto. unfold ladd in *. rewrite !map2_cons, IH. f_equal. ring. Qed.
Lemma ladd_assoc u v w : ladd (ladd u v) w = ladd u (ladd v w).
Proof.
  revert v w. induction u as [|a u IH]; intros [|b v] [|c w]; auto. unfold ladd in *. rewrite !map2_cons, IH. f_equal. ring.
Qed.
Lemma ladd_0_r d u : length u = d -> ladd u (lzero d) = u.
Proof. intros <-. induction u as [|a u IH]; auto. unfold ladd, lzero in *. cbn [length repeat]. rewrite map2_cons, IH. f_equal. ring. Qed.
Lemma ladd_0_l d u : length u = d -> ladd (lzero d) u = u.
Proof. intros. rewrite ladd_comm. now apply ladd_0_r. Qed.
Lemma lsub_0_r d u : length u = d -> lsub u (lzero d) = u.
Proof. intros <-. induction u as [|a u IH]; auto. unfold lsub, lzero in *. cbn [length repeat]. rewrite map2_cons, IH. f_equal. ring. Qed.
Lemma lsub_add u v : lsub u v = ladd u (lscale (-1) v).
Proof. revert v. induction u as [|a u IH]; intros [|b v]; auto. unfold lsub, ladd, lscale in *. cbn [map]. rewrite !map2_cons, IH. f_equal. ring. Qed.
Lemma lscale_add s u v : lscale s (ladd u v) = ladd (lscale s u) (lscale s v).
Proof. revert v. induction u as [|a u IH]; intros [|b v]; auto. unfold ladd, lscale in *. cbn [map]. rewrite !map2_cons. cbn [map]. rewrite IH. f_equal. ring. Qed.
Lemma lscale_scale s t u : lscale s (lscale t u) = lscale (s * t) u.
Proof. unfold lscale. rewrite map_map. apply map_ext. intros. ring. Qed.
Lemma lscale_plus s t u : lscale (s + t) u = ladd (lscale s u) (lscale t u).
Proof. induction u as [|a u IH]; auto. unfold ladd, lscale in *. cbn [map]. rewrite map2_cons, IH. f_equal. ring. Qed.
Lemma lscale_1 u : lscale 1 u = u.
Proof. unfold lscale. rewrite <- map_id. apply map_ext. intros. ring. Qed.
Lemma lscale_0 u : lscale 0 u = lzero (length u).
Proof. induction u as [|a u IH]; auto. unfold lscale, lzero in *. cbn [map length repeat]. rewrite IH. f_equal. ring. Qed.
Lemma lscale_zero s d : lscale s (lzero d) = lzero d.
Proof. unfold lscale, lzero. induction d as [|d IH]; auto. cbn. rewrite IH. f_equal. ring. Qed.
Lemma lsub_self u : lsub u u = lzero (length u).
Proof. induction u as [|a u IH]; auto. unfold lsub, lzero in *. cbn [length repeat]. rewrite map2_cons, IH. f_equal. ring. Qed.
Lemma lsub_move u v w d : length u = d -> length v = d -> length w = d -> lsub u v = w <-> u = ladd w v.
Proof.
  intros Hu Hv Hw. split.
  - intros <-. rewrite lsub_add, ladd_assoc. replace (ladd (lscale (-1) v) v) with (lzero d).
    + now rewrite ladd_0_r.
    + rewrite <- (lscale_1 v) at 2. rewrite <- lscale_plus. replace (-1 + 1) with 0 by ring. now rewrite lscale_0, Hv.
  - intros ->. rewrite lsub_add, ladd_assoc. rewrite <- (lscale_1 v) at 1. rewrite <- lscale_plus.
    replace (1 + -1) with 0 by ring. rewrite lscale_0, Hv. now apply ladd_0_r.
Qed.

Lemma ldot_cons a u b v : ldot (a :: u) (b :: v) = a * b + ldot u v.
Proof. reflexivity. Qed.
Lemma ldot_sym u v : ldot u v = ldot v u.
Proof. revert v. induction u as [|a u IH]; intros [|b v]; auto. rewrite !ldot_cons, IH. ring. Qed.
Lemma ldot_scale_l s u v : ldot (lscale s u) v = s * ldot u v.
Proof.
  revert v. induction u as [|a u IH]; intros [|b v]; try (cbn; ring).
  cbn [lscale map]. rewrite !ldot_cons. fold (lscale s u). rewrite IH. ring.
Qed.
Lemma ldot_scale_r s u v : ldot u (lscale s v) = s * ldot u v.
Proof. rewrite ldot_sym, ldot_scale_l, ldot_sym. auto. Qed.
Lemma ldot_add_l u v w : length u = length v -> ldot (ladd u v) w = ldot u w + ldot v w.
Proof.
  revert v w. induction u as [|a u IH]; intros [|b v] [|c w] H; try discriminate; try (cbn; ring).
  unfold ladd. rewrite map2_cons, !ldot_cons. fold (ladd u v). rewrite IH by (cbn in H; lia). ring.
Qed.
Lemma ldot_add_r u v w : length v = length w -> ldot u (ladd v w) = ldot u v + ldot u w.
Proof. intros H. rewrite ldot_sym, ldot_add_l by auto. now rewrite (ldot_sym v), (ldot_sym w). Qed.
Lemma ldot_sub_l u v w : length u = length v -> ldot (lsub u v) w = ldot u w - ldot v w.
Proof. intros H. rewrite lsub_add, ldot_add_l by now rewrite lscale_length. rewrite ldot_scale_l. ring. Qed.
Lemma ldot_zero_l d u : ldot (lzero d) u = 0.
Proof. revert u. induction d as [|d IH]; intros [|b u]; auto. unfold lzero in *. cbn [repeat]. rewrite ldot_cons, IH. ring. Qed.
Lemma ldot_zero_r d u : ldot u (lzero d) = 0.
Proof. rewrite ldot_sym. apply ldot_zero_l. Qed.
Lemma ldot_pos u : 0 <= ldot u u.
Proof. induction u as [|a u IH]; [cbn; lra|]. rewrite ldot_cons. nra. Qed.
Lemma ldot_self_0 u : ldot u u = 0 -> u = lzero (length u).
Proof.
  induction u as [|a u IH]; auto. rewrite ldot_cons. pose proof (ldot_pos u). intros H1.
  assert (a * a = 0) by nra. assert (a = 0) as -> by nra. unfold lzero in *. cbn [length repeat]. f_equal. apply IH. nra.
Qed.

Lemma lincomb_length d cs vs : Forall (fun v => length v = d) vs -> length (lincomb d cs vs) = d.
Proof.
  intros H. revert cs. induction H as [|v vs Hv H IH]; intros [|c cs]; cbn; try apply lzero_length.
  apply ladd_length; [now rewrite lscale_length|apply IH].
Qed.
Lemma lincomb_app d cs ds vs ws : Forall (fun v => length v = d) vs -> Forall (fun v => length v = d) ws -> length cs = length vs ->
  lincomb d (cs ++ ds) (vs ++ ws) = ladd (lincomb d cs vs) (lincomb d ds ws).
Proof.
  intros H K. revert cs. induction H as [|v vs Hv H IH]; intros [|c cs] L; try discriminate; cbn [app lincomb].
  - symmetry. apply ladd_0_l. now apply lincomb_length.
  - rewrite IH by (cbn in L; lia). now rewrite ladd_assoc.
Qed.
Lemma lincomb_add d cs ds vs : Forall (fun v => length v = d) vs -> length cs = length vs -> length ds = length vs ->
  lincomb d (map2 Rplus cs ds) vs = ladd (lincomb d cs vs) (lincomb d ds vs).
Proof.
  intros H. revert cs ds. induction H as [|v vs Hv H IH]; intros [|c cs] [|e ds] L M; try discriminate.
  - change (lzero d = ladd (lzero d) (lzero d)). rewrite ladd_0_r; auto. apply lzero_length.
  - rewrite map2_cons. cbn [lincomb]. rewrite IH by (cbn in *; lia). rewrite lscale_plus.
    rewrite !ladd_assoc. f_equal. rewrite <- !ladd_assoc. f_equal. apply ladd_comm.
Qed.
Lemma lincomb_scale d s cs vs : Forall (fun v => length v = d) vs ->
  lincomb d (map (Rmult s) cs) vs = lscale s (lincomb d cs vs).
Proof.
  intros H. revert cs. induction H as [|v vs Hv H IH]; intros [|c cs]; cbn [map lincomb]; try now rewrite lscale_zero.
  now rewrite IH, lscale_add, lscale_scale.
Qed.
Lemma lincomb_zeros d n vs : Forall (fun v => length v = d) vs -> lincomb d (repeat 0 n) vs = lzero d.
Proof.
  intros H. revert n. induction H as [|v vs Hv H IH]; intros [|n]; cbn [repeat lincomb]; auto.
  rewrite IH, lscale_0, Hv. apply ladd_0_r. apply lzero_length.
Qed.

(** ** Spans *)
Section Span.
Context (d : nat).
Definition dim (vs : list (list R)) : Prop := Forall (fun v => length v = d) vs.
Lemma span_length vs x : dim vs -> in_span d vs x -> length x = d.
Proof. intros D (cs&_&->). now apply lincomb_length. Qed.
Lemma span_zero vs : dim vs -> in_span d vs (lzero d).
Proof. intros D. exists (repeat 0 (length vs)). split; [apply repeat_length|]. symmetry. now apply lincomb_zeros. Qed.
Lemma span_add vs x y : dim vs -> in_span d vs x -> in_span d vs y -> in_span d vs (ladd x y).
Proof.
  intros D (cs&L&->) (ds&M&->). exists (map2 Rplus cs ds). split; [rewrite map2_length; lia|].
  symmetry. now apply lincomb_add.
Qed.
Lemma span_scale vs s x : dim vs -> in_span d vs x -> in_span d vs (lscale s x).
Proof. intros D (cs&L&->). exists (map (Rmult s) cs). split; [now rewrite map_length|]. symmetry. now apply lincomb_scale. Qed.
Lemma span_app_l vs ws x : dim vs -> dim ws -> in_span d vs x -> in_span d (vs ++ ws) x.
Proof.
  intros D E (cs&L&->). exists (cs ++ repeat 0 (length ws)). split; [rewrite !app_length, repeat_length; lia|].
  rewrite lincomb_app, lincomb_zeros by auto. symmetry. apply ladd_0_r. now apply lincomb_length.
Qed.
Lemma span_last vs w : dim vs -> length w = d -> in_span d (vs ++ [w]) w.
Proof.
  intros D E. exists (repeat 0 (length vs) ++ [1]). split; [rewrite !app_length, repeat_length; reflexivity|].
  rewrite lincomb_app, lincomb_zeros; auto; [|now rewrite repeat_length].
  cbn. rewrite lscale_1, ladd_0_r by auto. now rewrite ladd_0_l.
Qed.
Lemma span_app_inv vs w x : dim vs -> length w = d -> in_span d (vs ++ [w]) x ->
  exists c y, in_span d vs y /\ x = ladd y (lscale c w).
Proof.
  intros D E (cs&L&->). rewrite app_length in L. cbn in L.
  assert (exists c cs', cs = cs' ++ [c] /\ length cs' = length vs) as (c&cs'&->&L').
  { destruct (rev cs) as [|c r] eqn:Er.
    - apply (f_equal (@length R)) in Er. rewrite rev_length in Er. cbn in Er. lia.
    - exists c, (rev r). assert (cs = rev r ++ [c]) by (rewrite <- (rev_involutive cs), Er; reflexivity).
      split; auto. subst cs. rewrite app_length in L. cbn in L. lia. }
  exists c, (lincomb d cs' vs). split; [exists cs'; auto|].
  rewrite lincomb_app by (auto; now constructor). cbn. f_equal. apply ladd_0_r. now rewrite lscale_length.
Qed.
Lemma independent_app_l vs ws : dim vs -> dim ws -> independent d (vs ++ ws) -> independent d vs.
Proof.
  intros D E I cs L Z. specialize (I (cs ++ repeat 0 (length ws))).
  rewrite !app_length, repeat_length in I. rewrite lincomb_app, lincomb_zeros in I by auto.
  rewrite ladd_0_r in I by now apply lincomb_length. specialize (I ltac:(lia) Z). now apply Forall_app in I.
Qed.
Lemma independent_last vs w : dim vs -> length w = d -> independent d (vs ++ [w]) -> ~ in_span d vs w.
Proof.
  intros D E I (cs&L&H). specialize (I (cs ++ [-1])).
  rewrite !app_length, lincomb_app in I by (auto; now constructor).
  cbn [length lincomb] in I. rewrite <- H in I. rewrite ladd_0_r in I by now rewrite lscale_length.
  rewrite <- lsub_add, lsub_self, E in I. specialize (I ltac:(lia) eq_refl).
  apply Forall_app in I as [_ I]. inversion I. lra.
Qed.
Lemma dot_span vs x y : dim vs -> in_span d vs x -> Forall (fun v => ldot v y = 0) vs -> ldot x y = 0.
Proof.
  intros D (cs&L&->) H. clear L. revert cs. induction H as [|v vs Hv H IH]; intros [|c cs]; cbn [lincomb]; try apply ldot_zero_l.
  inversion D; subst. rewrite ldot_add_l, ldot_scale_l, Hv, IH; auto; [ring|].
  rewrite lscale_length. rewrite lincomb_length; auto.
Qed.
End Span.
