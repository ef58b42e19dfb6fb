(** * Proofs about Gram-Schmidt. *)
From Coq Require Import Reals ZArith List Bool Lra Lia.
From Verif Require Import Num XLemmas Vec NpList MNumerics RList SpecGeom SpecNumerics PRList.
Import ListNotations.
Local Open Scope R_scope.
Set Implicit Arguments.
Unset Strict Implicit.

Lemma finl_map2 (f : xr -> xr -> xr) (g : R -> R -> R) u v : (forall a b, f (Fin a) (Fin b) = Fin (g a b)) ->
  map2 f (finl u) (finl v) = finl (map2 g u v).
Proof.
  intros H. revert v. induction u as [|a u IH]; intros [|b v]; auto. unfold finl in *. cbn [map]. rewrite !map2_cons.
  cbn [map]. now rewrite IH, H.
Qed.
Lemma nsum_fin l : nsum (finl l) = Fin (rsum l).
Proof.
  unfold nsum. assert (G : forall a, fold_left nadd (finl l) (Fin a) = Fin (a + rsum l)).
  { induction l as [|x l IH]; intros a; cbn [finl map fold_left rsum]; [f_equal; ring|].
    change (map Fin l) with (finl l). xs. rewrite IH. f_equal. ring. }
  unfold n0. rewrite xofZ, G. f_equal. ring.
Qed.
Lemma gdot_fin u v : gdot (finl u) (finl v) = Fin (ldot u v).
Proof. unfold gdot, ldot. rewrite (@finl_map2 nmul Rmult) by reflexivity. apply nsum_fin. Qed.
Definition lproj (u v : list R) : list R := lscale (ldot u v / ldot u u) u.
Lemma gproj_fin u v : ldot u u <> 0 -> gproj (finl u) (finl v) = finl (lproj u v).
Proof.
  intros H. unfold gproj, lproj. rewrite !gdot_fin, xdivE by auto. unfold finl, lscale. rewrite !map_map. apply map_ext. reflexivity.
Qed.
Lemma n0_repeat d : repeat n0 d = finl (lzero d).
Proof. unfold finl, lzero. induction d as [|d IH]; auto. cbn [repeat map]. now rewrite IH. Qed.
Definition lsum (d : nat) (rows : list (list R)) : list R := fold_left ladd rows (lzero d).
Lemma rows_sum_fin d rows : rows_sum d (map finl rows) = finl (lsum d rows).
Proof.
  unfold rows_sum, lsum. rewrite n0_repeat. generalize (lzero d). induction rows as [|r rows IH]; intros z; auto.
  cbn [map fold_left]. rewrite (@finl_map2 nadd Rplus) by reflexivity. apply IH.
Qed.
Lemma lsum_snoc d rows r : lsum d (rows ++ [r]) = ladd (lsum d rows) r.
Proof. unfold lsum. now rewrite fold_left_app. Qed.

(** one step *)
Definition lstep (os : list (list R)) (w : list R) : list R := lsub w (lsum (length w) (map (fun u => lproj u w) os)).
Lemma orthogonalize_snoc (vs : list (list xr)) w : orthogonalize (vs ++ [w]) =
  orthogonalize vs ++ [map2 nsub w (rows_sum (length w) (map (fun u => gproj u w) (orthogonalize vs)))].
Proof. unfold orthogonalize. now rewrite fold_left_app. Qed.
Lemma step_fin os w : Forall (fun u => ldot u u <> 0) os ->
  map2 nsub (finl w) (rows_sum (length (finl w)) (map (fun u => gproj u (finl w)) (map finl os))) = finl (lstep os w).
Proof.
  intros H. unfold lstep. rewrite map_map.
  replace (map (fun x => gproj (finl x) (finl w)) os) with (map finl (map (fun u => lproj u w) os)).
  - rewrite rows_sum_fin. assert (length (finl w) = length w) as -> by apply map_length. now apply finl_map2.
  - rewrite map_map. induction H as [|u os Hu H IH]; auto. cbn [map]. now rewrite IH, gproj_fin.
Qed.

Section Step.
Context (d : nat).
Notation dim := (dim d).
Lemma lproj_length u w : length u = d -> length (lproj u w) = d.
Proof. intros H. unfold lproj. now rewrite lscale_length. Qed.
Lemma lsum_spec os w : dim os -> length w = d ->
  length (lsum d (map (fun u => lproj u w) os)) = d /\ in_span d os (lsum d (map (fun u => lproj u w) os)) /\
  forall x, (forall u, In u os -> ldot u x = 0) -> ldot x (lsum d (map (fun u => lproj u w) os)) = 0.
Proof.
  intros D Hw. induction os as [|u os IH] using rev_ind.
  - cbn. split; [apply lzero_length|]. split; [apply span_zero; constructor|]. intros. apply ldot_zero_r.
  - apply Forall_app in D as [D Du]. assert (H1 : length u = d) by now inversion Du. destruct (IH D) as (L&S&O).
    rewrite map_app. cbn [map]. rewrite lsum_snoc.
    assert (Lp := @lproj_length u w H1).
    split; [now apply ladd_length|]. split.
    + apply span_add; [apply Forall_app; auto| |].
      * apply span_app_l; auto.
      * unfold lproj. apply span_scale; [apply Forall_app; auto|]. now apply span_last.
    + intros x Hx. rewrite ldot_add_r by congruence. rewrite O by (intros v Hv; apply Hx, in_or_app; auto).
      unfold lproj. rewrite ldot_scale_r, (ldot_sym x u), Hx; [ring|]. apply in_or_app. right. now left.
Qed.
Lemma sum_dot os w v : dim os -> length w = d -> pairwise_orthogonal os -> Forall (fun u => ldot u u <> 0) os -> In v os ->
  ldot v (lsum d (map (fun u => lproj u w) os)) = ldot v w.
Proof.
  intros D Hw. induction os as [|u os IH] using rev_ind; intros P Z I; [destruct I|].
  apply Forall_app in D as [D Du]. assert (H1 : length u = d) by now inversion Du. clear Du.
  apply Forall_app in Z as [Z Zu]. assert (H2 : ldot u u <> 0) by now inversion Zu.
  destruct (lsum_spec D Hw) as (L&_&O).
  assert (Px : forall x, In x os -> ldot u x = 0 /\ ldot x u = 0).
  { intros x Ix. apply In_nth_error in Ix as [i Hi]. assert (i < length os)%nat by (apply nth_error_Some; congruence).
    assert (E : nth_error (os ++ [u]) (length os) = Some u) by (rewrite nth_error_app2, Nat.sub_diag; auto).
    assert (E2 : nth_error (os ++ [u]) i = Some x) by (rewrite nth_error_app1; auto).
    split; [apply (P _ _ _ _ E E2); lia|apply (P _ _ _ _ E2 E); lia]. }
  rewrite map_app. cbn [map]. rewrite lsum_snoc. rewrite ldot_add_r by (rewrite L; symmetry; now apply lproj_length).
  unfold lproj at 2. rewrite ldot_scale_r. apply in_app_or in I as [I|[<-|[]]].
  - rewrite IH; auto; [destruct (Px _ I) as [_ ->]; ring|].
    intros i j a b Ea Eb. apply P; rewrite nth_error_app1; auto; apply nth_error_Some; congruence.
  - rewrite O by (intros x Ix; now apply Px). field. auto.
Qed.
Lemma lstep_length os w : dim os -> length w = d -> length (lstep os w) = d.
Proof. intros D Hw. unfold lstep. rewrite Hw. apply lsub_length; auto. now apply lsum_spec. Qed.
Lemma lstep_orth os w v : dim os -> length w = d -> pairwise_orthogonal os -> Forall (fun u => ldot u u <> 0) os -> In v os ->
  ldot (lstep os w) v = 0.
Proof.
  intros D Hw P Z I. destruct (lsum_spec D Hw) as (L&_&_).
  unfold lstep. rewrite Hw, ldot_sub_l by congruence. rewrite (ldot_sym (lsum _ _)), sum_dot, (ldot_sym w); auto. ring.
Qed.
Lemma lstep_eq os w : dim os -> length w = d -> w = ladd (lstep os w) (lsum d (map (fun u => lproj u w) os)).
Proof.
  intros D Hw. destruct (lsum_spec D Hw) as (L&_&_). apply (@lsub_move w _ (lstep os w) d); auto.
  - now apply lstep_length.
  - unfold lstep. now rewrite Hw.
Qed.

Lemma firstn_snoc A (l : list A) x k : (k <= length l)%nat -> firstn k (l ++ [x]) = firstn k l.
Proof. intros H. rewrite firstn_app. replace (k - length l)%nat with 0%nat by lia. cbn. now rewrite app_nil_r. Qed.
Lemma dim_firstn k vs : dim vs -> dim (firstn k vs).
Proof. intros D. revert k. induction D; intros [|k]; cbn; constructor; auto. apply IHD. Qed.

Lemma gram_schmidt_spec vs : dim vs -> independent d vs -> exists os,
  orthogonalize (map finl vs) = map finl os /\ length os = length vs /\ dim os /\
  Forall (fun u => ldot u u <> 0) os /\ pairwise_orthogonal os /\
  (forall k x, in_span d (firstn k os) x <-> in_span d (firstn k vs) x) /\
  (forall k w u, nth_error vs k = Some w -> nth_error os k = Some u -> in_span d (firstn k vs) (lsub w u)).
Proof.
  induction vs as [|w vs IH] using rev_ind; intros D I.
  - exists []. cbn. repeat split; auto; try constructor; try tauto.
    + intros i j u v E. destruct i; discriminate.
    + intros k w u E. destruct k; discriminate.
  - apply Forall_app in D as [D Dw]. assert (Hw : length w = d) by now inversion Dw.
    assert (Iv : independent d vs) by (eapply independent_app_l; eauto).
    destruct (IH D Iv) as (os&E&L&Do&Z&P&S&T). clear IH.
    set (u := lstep os w). assert (Lu : length u = d) by now apply lstep_length.
    destruct (lsum_spec Do Hw) as (Ls&Ss&_). set (q := lsum d _) in *.
    assert (Ew : w = ladd u q) by now apply lstep_eq.
    assert (Sall : forall x, in_span d os x <-> in_span d vs x).
    { intros x. specialize (S (length vs) x). rewrite <- L in S at 1. now rewrite !firstn_all in S. }
    assert (Zu : ldot u u <> 0).
    { intros Z0. apply ldot_self_0 in Z0. rewrite Lu in Z0. apply (independent_last D Hw I). apply Sall. rewrite Ew, Z0.
      rewrite ladd_0_l; auto. }
    exists (os ++ [u]). split.
    { rewrite map_app. cbn [map]. rewrite orthogonalize_snoc, E, step_fin by auto. now rewrite map_app. }
    split; [rewrite !app_length; cbn; lia|]. split; [apply Forall_app; auto|]. split; [apply Forall_app; auto|]. split; [|split].
    + intros i j a b Ea Eb Nij.
      assert (Bd : forall i a, nth_error (os ++ [u]) i = Some a -> (i < length os)%nat /\ nth_error os i = Some a \/ i = length os /\ a = u).
      { intros i' a' H. destruct (Nat.lt_ge_cases i' (length os)) as [C|C].
        - left. rewrite nth_error_app1 in H; auto.
        - right. rewrite nth_error_app2 in H by lia. destruct (i' - length os)%nat as [|[|n]] eqn:Ei; cbn in H; try discriminate.
          injection H as <-. split; auto. lia. }
      destruct (Bd _ _ Ea) as [[Ci Hi]|[Ci ->]]; destruct (Bd _ _ Eb) as [[Cj Hj]|[Cj ->]].
      * now apply (P i j).
      * rewrite ldot_sym. apply lstep_orth; auto. eapply nth_error_In; eauto.
      * apply lstep_orth; auto. eapply nth_error_In; eauto.
      * lia.
    + intros k x. destruct (Nat.le_gt_cases k (length vs)) as [C|C].
      * rewrite !firstn_snoc by lia. apply S.
      * rewrite !firstn_all2 by (rewrite app_length; cbn; lia). split.
        -- intros Hx. apply span_app_inv in Hx as (c&y&Hy&->); auto. apply Sall in Hy.
           assert (Dx : dim (vs ++ [w])) by (apply Forall_app; auto).
           apply span_add; auto; [now apply span_app_l|]. apply span_scale; auto.
           replace u with (ladd w (lscale (-1) q)).
           ++ apply span_add; auto; [now apply span_last|]. apply span_scale; auto. apply span_app_l; auto. now apply Sall.
           ++ rewrite <- lsub_add. apply (@lsub_move w q u d); auto.
        -- intros Hx. apply span_app_inv in Hx as (c&y&Hy&->); auto. apply Sall in Hy.
           assert (Dx : dim (os ++ [u])) by (apply Forall_app; auto). assert (Du : dim [u]) by (constructor; [exact Lu|constructor]).
           apply span_add; auto; [now apply span_app_l|]. apply span_scale; auto. rewrite Ew.
           apply span_add; auto; [now apply span_last|]. apply span_app_l; auto.
    + intros k x y Ex Ey. destruct (Nat.lt_ge_cases k (length vs)) as [C|C].
      * rewrite nth_error_app1 in Ex by auto. rewrite nth_error_app1 in Ey by lia. rewrite firstn_snoc by lia. now apply T.
      * assert (k < length (vs ++ [w]))%nat by (apply nth_error_Some; congruence). rewrite app_length in H. cbn in H.
        assert (k = length vs) as -> by lia. rewrite nth_error_app2, Nat.sub_diag in Ex by lia.
        rewrite <- L in Ey. rewrite nth_error_app2, Nat.sub_diag in Ey by lia. cbn in Ex, Ey. injection Ex as <-. injection Ey as <-.
        rewrite firstn_snoc, firstn_all by lia. replace (lsub w u) with q; [now apply Sall|].
        symmetry. apply (@lsub_move w u q d); auto. now rewrite ladd_comm.
Qed.
End Step.

(** ** normalisation of selected rows *)
Definition lunit (u : list R) : list R := lscale (/ lnorm u) u.
Lemma lnorm_sq u : lnorm u * lnorm u = ldot u u.
Proof. unfold lnorm. apply sqrt_sqrt, ldot_pos. Qed.
Lemma lnorm_pos u : ldot u u <> 0 -> 0 < lnorm u.
Proof. intros H. apply sqrt_lt_R0. pose proof (ldot_pos u). lra. Qed.
Lemma unit_row_fin u : ldot u u <> 0 -> unit_row (finl u) = finl (lunit u).
Proof.
  intros H. unfold unit_row, lunit. rewrite gdot_fin. rewrite xsqrtE by apply ldot_pos. fold (lnorm u).
  unfold finl, lscale. rewrite !map_map. apply map_ext. intros x. apply lnorm_pos in H. rewrite xdivE by lra. f_equal. field. lra.
Qed.
Lemma lunit_dot u : ldot u u <> 0 -> ldot (lunit u) (lunit u) = 1.
Proof.
  intros H. unfold lunit. rewrite ldot_scale_l, ldot_scale_r, <- lnorm_sq. apply lnorm_pos in H. field. lra.
Qed.
Lemma lunit_idem u : ldot u u <> 0 -> lunit (lunit u) = lunit u.
Proof.
  intros H. unfold lunit at 1. assert (lnorm (lunit u) = 1) as ->.
  { unfold lnorm. rewrite lunit_dot by auto. apply sqrt_1. }
  replace (/ 1) with 1 by field. apply lscale_1.
Qed.
Lemma update_length A (l : list A) i f : length (update l i f) = length l.
Proof. revert i. induction l as [|x l IH]; intros [|i]; cbn; auto. Qed.
Lemma update_nth A (l : list A) i f j : nth_error (update l i f) j = if Nat.eqb i j then option_map f (nth_error l j) else nth_error l j.
Proof. revert i j. induction l as [|x l IH]; intros [|i] [|j]; cbn; auto. destruct (Nat.eqb i j); auto. Qed.
Lemma update_map A B (g : A -> B) l i (f : A -> A) (f' : B -> B) : (forall x, In x l -> f' (g x) = g (f x)) ->
  update (map g l) i f' = map g (update l i f).
Proof.
  revert i. induction l as [|x l IH]; intros [|i] H; cbn; auto; f_equal.
  - apply H. now left.
  - apply IH. intros. apply H. now right.
Qed.
Lemma py_index_ok n i j : py_index n i = Ok j <->
  (0 <= i < Z.of_nat n /\ Z.of_nat j = i \/ - Z.of_nat n <= i < 0 /\ Z.of_nat j = i + Z.of_nat n)%Z.
Proof.
  unfold py_index. destruct (Z.ltb_spec i 0) as [H|H].
  - destruct ((0 <=? i + Z.of_nat n)%Z && (i + Z.of_nat n <? Z.of_nat n)%Z) eqn:E.
    + apply andb_true_iff in E as [E1 E2]. apply Z.leb_le in E1. split; [intros [= <-]; lia|]. intros. f_equal. lia.
    + split; [discriminate|]. intros. apply andb_false_iff in E as [E|E]; [apply Z.leb_gt in E|apply Z.ltb_ge in E]; lia.
  - destruct ((0 <=? i)%Z && (i <? Z.of_nat n)%Z) eqn:E.
    + apply andb_true_iff in E as [E1 E2]. apply Z.ltb_lt in E2. split; [intros [= <-]; lia|]. intros. f_equal. lia.
    + split; [discriminate|]. intros. apply andb_false_iff in E as [E|E]; [apply Z.leb_gt in E|apply Z.ltb_ge in E]; lia.
Qed.
Lemma py_index_err n i e : py_index n i = Err e -> e = IndexError /\ ~ (- Z.of_nat n <= i < Z.of_nat n)%Z.
Proof.
  unfold py_index. destruct (Z.ltb_spec i 0) as [H|H]; destruct (_ && _) eqn:E; try discriminate; intros [= <-]; split; auto;
  apply andb_false_iff in E as [E|E]; try apply Z.leb_gt in E; try apply Z.ltb_ge in E; lia.
Qed.
(** row [j] of [os] is addressed by Python index [i] *)
Definition addresses (n : nat) (i : Z) (j : nat) : Prop :=
  (0 <= i < Z.of_nat n /\ Z.of_nat j = i \/ - Z.of_nat n <= i < 0 /\ Z.of_nat j = i + Z.of_nat n)%Z.
Lemma normalize_rows_ok os idxs : Forall (fun u => ldot u u <> 0) os ->
  Forall (fun i => (- Z.of_nat (length os) <= i < Z.of_nat (length os))%Z) idxs ->
  exists rs, normalize_rows (map finl os) idxs = Ok (map finl rs) /\ length rs = length os /\
    forall j u, nth_error os j = Some u ->
      (Exists (fun i => addresses (length os) i j) idxs -> nth_error rs j = Some (lunit u)) /\
      (~ Exists (fun i => addresses (length os) i j) idxs -> nth_error rs j = Some u).
Proof.
  intros Z A. revert os Z A. induction idxs as [|i idxs IH]; intros os Z A.
  - exists os. cbn. split; auto. split; auto. intros j u E. split; auto. intros H. inversion H.
  - inversion A as [|i' idxs' Ai Aidx]; subst. cbn [normalize_rows]. rewrite map_length.
    destruct (py_index (length os) i) as [k|e] eqn:Ek; [|apply py_index_err in Ek as [_ Ek]; lia].
    cbn [bindr]. rewrite (@update_map _ _ finl os k lunit) by (intros x Hx; rewrite Forall_forall in Z; now apply unit_row_fin, Z).
    set (os' := update os k lunit). assert (L' : length os' = length os) by apply update_length.
    assert (Z' : Forall (fun u => ldot u u <> 0) os').
    { apply Forall_forall. intros x Hx. apply In_nth_error in Hx as [j Hj]. unfold os' in Hj. rewrite update_nth in Hj.
      destruct (Nat.eqb k j).
      - destruct (nth_error os j) as [y|] eqn:Ey; [|discriminate]. injection Hj as <-. apply nth_error_In in Ey.
        rewrite Forall_forall in Z. apply Z in Ey. rewrite lunit_dot by auto. lra.
      - apply nth_error_In in Hj. rewrite Forall_forall in Z. auto. }
    destruct (IH os' Z') as (rs&E&Lr&H); [rewrite L'; auto|]. exists rs. split; auto. split; [lia|].
    intros j u Ej. rewrite L' in H.
    assert (Cu : ldot u u <> 0) by (rewrite Forall_forall in Z; eapply Z, nth_error_In; eauto).
    assert (Ej' : nth_error os' j = Some (if Nat.eqb k j then lunit u else u)).
    { unfold os'. rewrite update_nth, Ej. destruct (Nat.eqb k j); auto. }
    destruct (H _ _ Ej') as [H1 H2]. pose proof (proj1 (py_index_ok _ _ _) Ek) as Ak. fold (addresses (length os) i k) in Ak.
    assert (AD : forall j', addresses (length os) i j' -> j' = k) by (unfold addresses in *; lia).
    assert (DX : Exists (fun i => addresses (length os) i j) idxs \/ ~ Exists (fun i => addresses (length os) i j) idxs).
    { destruct (Exists_dec (fun i => addresses (length os) i j) idxs) as [C|C]; auto.
      intros i0. unfold addresses. destruct (Z_le_dec 0 i0).
      - destruct (Z_lt_dec i0 (Z.of_nat (length os))), (Z.eq_dec (Z.of_nat j) i0); try (left; lia); right; lia.
      - destruct (Z_le_dec (- Z.of_nat (length os)) i0), (Z.eq_dec (Z.of_nat j) (i0 + Z.of_nat (length os))); try (left; lia); right; lia. }
    destruct (Nat.eqb_spec k j) as [<-|Nk].
    + split; [|intros C; elim C; now left]. intros _. destruct DX as [DX|DX]; [rewrite H1 by auto|now apply H2].
      now rewrite lunit_idem.
    + split; [|intros C; apply H2; intros C'; apply C; now right].
      intros C. inversion C as [i0 l0 C0|i0 l0 C0]; subst; [apply AD in C0; congruence|auto].
Qed.
Lemma normalize_rows_bad os idxs i : In i idxs -> ~ (- Z.of_nat (length os) <= i < Z.of_nat (length os))%Z ->
  @normalize_rows xr _ os idxs = Err IndexError.
Proof.
  revert os. induction idxs as [|k idxs IH]; intros os I B; [destruct I|]. cbn.
  destruct (py_index (length os) k) as [j|e] eqn:E; cbn.
  - destruct I as [->|I].
    + apply py_index_ok in E. lia.
    + apply IH; auto. now rewrite update_length.
  - now apply py_index_err in E as [-> _].
Qed.

(** ** orthonormalize as a whole *)
Definition multiple (u v : list R) : Prop := exists s, s <> 0 /\ v = lscale s u.
Lemma multiple_sym u v : multiple u v -> multiple v u.
Proof.
  intros (s&H&->). exists (/ s). split; [now apply Rinv_neq_0_compat|]. rewrite lscale_scale, Rinv_l by auto. now rewrite lscale_1.
Qed.
Lemma span_multiple d us vs x : Forall2 multiple us vs -> in_span d us x -> in_span d vs x.
Proof.
  intros H (cs&L&->). revert cs L. induction H as [|u v us vs (s&Hs&->) H IH]; intros cs L.
  - exists []. destruct cs; auto.
  - destruct cs as [|c cs]; [discriminate|]. injection L as L. destruct (IH cs L) as (ds&Ld&E). exists (c / s :: ds).
    split; [cbn; auto|]. cbn [lincomb]. rewrite E, lscale_scale. do 2 f_equal. now field.
Qed.
Lemma span_multiple_iff d us vs x : Forall2 multiple us vs -> in_span d us x <-> in_span d vs x.
Proof.
  intros H. split; apply span_multiple; auto. clear -H. induction H; constructor; auto. now apply multiple_sym.
Qed.
Lemma Forall2_firstn A B (P : A -> B -> Prop) l m k : Forall2 P l m -> Forall2 P (firstn k l) (firstn k m).
Proof. intros H. revert k. induction H; intros [|k]; cbn; auto. Qed.
Lemma Forall2_nth_intro A B (P : A -> B -> Prop) l m : length l = length m ->
  (forall i a b, nth_error l i = Some a -> nth_error m i = Some b -> P a b) -> Forall2 P l m.
Proof.
  revert m. induction l as [|a l IH]; intros [|b m] L H; try discriminate; constructor.
  - now apply (H 0%nat).
  - apply IH; [now injection L|]. intros i. apply (H (S i)).
Qed.
Lemma orthonormalize_spec : forall d vs idxs, Forall (fun v => length v = d) vs -> independent d vs ->
  (forall l, idxs = Some l -> Forall (fun i => (- Z.of_nat (length vs) <= i < Z.of_nat (length vs))%Z) l) ->
  exists os rs, orthogonalize (map finl vs) = map finl os /\ length os = length vs /\
    orthonormalize (map finl vs) idxs = Ok (map finl rs) /\ length rs = length vs /\ pairwise_orthogonal rs /\
    (forall k x, in_span d (firstn k rs) x <-> in_span d (firstn k vs) x) /\
    forall j u, nth_error os j = Some u ->
      let requested := match idxs with
                       | None => True
                       | Some l => Exists (fun i => (Z.of_nat j = i \/ Z.of_nat j = i + Z.of_nat (length vs))%Z) l
                       end in
      (requested -> exists v, nth_error rs j = Some v /\ lnorm v = 1 /\ u = lscale (lnorm u) v /\ 0 < lnorm u) /\
      (~ requested -> nth_error rs j = Some u).
Proof.
  intros d vs idxs Dv I B. destruct (gram_schmidt_spec Dv I) as (os&E&L&Do&Zo&Po&Sp&_).
  set (l := match idxs with Some l => l | None => map Z.of_nat (seq 0 (length vs)) end).
  assert (Bl : Forall (fun i => (- Z.of_nat (length os) <= i < Z.of_nat (length os))%Z) l).
  { rewrite L. unfold l. destruct idxs as [l'|]; [now apply B|]. apply Forall_map, Forall_forall. intros k Hk. apply in_seq in Hk. lia. }
  destruct (normalize_rows_ok Zo Bl) as (rs&Er&Lr&Hr). exists os, rs. split; auto. split; auto.
  split; [unfold orthonormalize; rewrite E, map_length; exact Er|]. split; [lia|].
  assert (DX : forall j, (j < length os)%nat -> forall i, (- Z.of_nat (length os) <= i < Z.of_nat (length os))%Z ->
      addresses (length os) i j <-> (Z.of_nat j = i \/ Z.of_nat j = i + Z.of_nat (length vs))%Z).
  { intros j Hj i Hi. unfold addresses. lia. }
  assert (DE : forall j, Exists (fun i => addresses (length os) i j) l \/ ~ Exists (fun i => addresses (length os) i j) l).
  { intros j. destruct (Exists_dec (fun i => addresses (length os) i j) l) as [C|C]; auto.
    intros i0. unfold addresses. destruct (Z_le_dec 0 i0).
    - destruct (Z_lt_dec i0 (Z.of_nat (length os))), (Z.eq_dec (Z.of_nat j) i0); try (left; lia); right; lia.
    - destruct (Z_le_dec (- Z.of_nat (length os)) i0), (Z.eq_dec (Z.of_nat j) (i0 + Z.of_nat (length os))); try (left; lia); right; lia. }
  assert (ML : Forall2 multiple os rs).
  { apply Forall2_nth_intro; auto. intros i u v Hu Hv. destruct (Hr _ _ Hu) as [H1 H2].
    assert (Cu : ldot u u <> 0) by (rewrite Forall_forall in Zo; eapply Zo, nth_error_In; eauto). apply lnorm_pos in Cu.
    destruct (DE i) as [C|C].
    - rewrite (H1 C) in Hv. injection Hv as <-. exists (/ lnorm u). split; [apply Rinv_neq_0_compat; lra|reflexivity].
    - rewrite (H2 C) in Hv. injection Hv as <-. exists 1. split; [lra|]. symmetry. apply lscale_1. }
  split; [|split].
  - intros i j u v Hu Hv N.
    assert (G : forall k w, nth_error rs k = Some w -> exists w0, nth_error os k = Some w0 /\ multiple w0 w).
    { clear -ML. induction ML as [|a b os rs M ML IH]; intros [|k] w H; try discriminate.
      - injection H as <-. exists a. auto.
      - now apply IH. }
    destruct (G _ _ Hu) as (u0&Hu0&s&_&->). destruct (G _ _ Hv) as (v0&Hv0&t&_&->).
    rewrite ldot_scale_l, ldot_scale_r, (Po i j u0 v0 Hu0 Hv0 N). ring.
  - intros k x. rewrite <- Sp. symmetry. apply span_multiple_iff. now apply Forall2_firstn.
  - intros j u Hu. destruct (Hr _ _ Hu) as [H1 H2].
    assert (Lj : (j < length os)%nat) by (apply nth_error_Some; congruence).
    assert (Cu : ldot u u <> 0) by (rewrite Forall_forall in Zo; eapply Zo, nth_error_In; eauto).
    pose proof (lnorm_pos Cu) as Pu.
    assert (GU : exists v, Some (lunit u) = Some v /\ lnorm v = 1 /\ u = lscale (lnorm u) v /\ 0 < lnorm u).
    { exists (lunit u). split; auto. split; [unfold lnorm; rewrite lunit_dot by auto; apply sqrt_1|]. split; auto.
      unfold lunit. rewrite lscale_scale, Rinv_r by lra. symmetry. apply lscale_1. }
    cbv zeta. destruct idxs as [l'|].
    + assert (EQ : Exists (fun i => (Z.of_nat j = i \/ Z.of_nat j = i + Z.of_nat (length vs))%Z) l' <-> Exists (fun i => addresses (length os) i j) l).
      { unfold l in *. rewrite !Exists_exists. rewrite Forall_forall in Bl.
        split; intros (i&Hi&Q); exists i; (split; [auto|]); apply (DX j Lj i); auto. }
      split; intros Q.
      * rewrite H1 by now apply EQ. exact GU.
      * apply H2. intros C. apply Q. now apply EQ.
    + split; [|tauto]. intros _. rewrite H1; [exact GU|]. apply Exists_exists. exists (Z.of_nat j). split.
      * unfold l. apply in_map, in_seq. lia.
      * unfold addresses. lia.
Qed.
