(** * Proofs about value.py. *)
From Coq Require Import Reals ZArith List String Bool Lra Lia.
From Flocq Require Import Core.Raux Core.Generic_fmt Core.Round_NE.
From Verif Require Import Num XLemmas MRounding MUnits SpecUnits PUnits MValue MJson SpecValue.
Import ListNotations.
Local Open Scope string_scope.
Local Open Scope R_scope.
Set Implicit Arguments.
Unset Strict Implicit.

Section Gen.
Context {F : Type} {N : Num F}.

Lemma pyobj_ind' (P : pyobj F -> Prop) :
  (forall x, P (PNum x)) -> (forall v, P (PVal v)) ->
  (forall l, Forall P l -> P (PList l)) -> forall o, P o.
Proof.
  intros Hn Hv Hl. fix IH 1. intros [x|v|l]; [apply Hn|apply Hv|apply Hl].
  induction l as [|o l IHl]; constructor; [apply IH|apply IHl].
Qed.

Lemma in_all_units s : existsb (String.eqb s) (all_units (F := F)) = true <-> recognised s.
Proof.
  transitivity (In s (map fst (unit_table (F := F)))).
  { unfold all_units. rewrite existsb_exists. split.
    - intros (x&Hx&E). apply String.eqb_eq in E. now subst.
    - intros H. exists s. split; auto. apply String.eqb_refl. }
  split; intros H.
  - destruct (unit_size s) as [[k m]|] eqn:E; [exists k, m; auto|].
    apply (get_unknown (F := F)) in E. apply dict_find_None in E. contradiction.
  - destruct H as (k&m&E). destruct (get_known (F := F) E) as [f Hf].
    destruct (in_dec string_dec s (map fst (unit_table (F := F)))); auto.
    apply dict_find_None in n. congruence.
Qed.

Lemma mk_value_ok val x u : set_value val = Ok x -> unit_ok u ->
  mk_value (F := F) val u = Ok (mkv x u).
Proof.
  intros E [->|(s&->&Hs)]; unfold mk_value; rewrite E; cbn [bindr]; auto.
  apply in_all_units in Hs. now rewrite Hs.
Qed.
Lemma mk_num_ok x u : unit_ok u -> mk_num (F := F) x u = Ok (mkv x u).
Proof. intros H. unfold mk_num. apply mk_value_ok; auto. Qed.

Lemma mk_value_inv val u v : mk_value (F := F) val u = Ok v ->
  exists x, set_value val = Ok x /\ v = mkv x u /\ unit_ok u.
Proof.
  unfold mk_value. destruct (set_value val) as [x|]; cbn [bindr]; [|discriminate].
  destruct u as [s|].
  - destruct (existsb _ _) eqn:E; [|discriminate]. intros [= <-].
    exists x. split; auto. split; auto. right. exists s. split; auto. now apply in_all_units in E.
  - intros [= <-]. exists x. split; auto. split; auto. now left.
Qed.

Lemma convert_unit_ok (v : value F) u w : v_convert (F := F) v u = Ok w -> unit_ok (v_units v) -> unit_ok (v_units w).
Proof.
  unfold v_convert. destruct (ustr_eqb _ _); [congruence|].
  destruct (v_units v) as [s|]; [|discriminate].
  destruct (convert _ _ _ _) as [r|]; cbn [bindr]; [|discriminate].
  intros H _. apply mk_value_inv in H. destruct H as (x&_&->&H). exact H.
Qed.
Lemma convert_same v : v_convert (F := F) v (v_units v) = Ok v.
Proof. unfold v_convert. rewrite (proj2 (ustr_eqb_eq _ _)); auto. Qed.

(** ** C12 *)
Section Incompatible.
Hypothesis TN : table_nonzero (F := F).

Lemma convert_incompatible (v w : value F) : incompatible (v_units v) (v_units w) ->
  v_convert (F := F) w (v_units v) = Err (match v_units v with None => KeyError | Some _ => ValueError end).
Proof.
  intros [(sa&sb&ka&kb&E1&E2&Ka&Kb&Hne)|[(E1&s&E2&Hs)|(E1&s&E2&Hs)]]; unfold v_convert; rewrite E1, E2.
  - rewrite (proj2 (ustr_eqb_neq _ _)).
    2:{ intros [= <-]. apply Hne. eapply kind_unique; eauto. }
    unfold convert.
    destruct (@factor_known F N TN sb sa kb ka None) as [_ H]; auto.
    { intros ->. apply Hne. eapply kind_unique; eauto. }
    rewrite H; auto.
  - cbn [ustr_eqb]. unfold convert. rewrite factor_missing; auto; try congruence.
    + intros [B _]. apply blank_unspecified in B. destruct Hs as (k&m&Hs).
      apply unit_size_nonempty in Hs. destruct B; congruence.
    + right. intros x; congruence.
  - reflexivity.
Qed.

Lemma combine_incompatible f (v w : value F) : incompatible (v_units v) (v_units w) ->
  combine (F := F) f v (PVal w) = Err (match v_units v with None => KeyError | Some _ => ValueError end).
Proof. intros H. unfold combine, comparable. now rewrite convert_incompatible. Qed.
Lemma cmp_incompatible c (v w : value F) : incompatible (v_units v) (v_units w) ->
  v_cmp (F := F) c v (PVal w) = Err (match v_units v with None => KeyError | Some _ => ValueError end).
Proof. intros H. unfold v_cmp, comparable. now rewrite convert_incompatible. Qed.
Lemma divide_incompatible d (v w : value F) : incompatible (v_units v) (v_units w) ->
  divide (F := F) d v (PVal w) = Err (match v_units v with None => KeyError | Some _ => ValueError end).
Proof. intros H. unfold divide, comparable. rewrite convert_incompatible by auto. destruct (v_units v); reflexivity. Qed.
End Incompatible.

(** ** C11: lists *)
Lemma traverse_ok A B (f : A -> res B) l rs : traverse f l = Ok rs <-> Forall2 (fun x r => f x = Ok r) l rs.
Proof.
  revert rs. induction l as [|x l IH]; cbn; intros rs.
  - split; [intros [= <-]; constructor | inversion 1; auto].
  - split.
    + destruct (f x) eqn:E; cbn [bindr]; [|discriminate].
      destruct (traverse f l); cbn [bindr]; [|discriminate].
      intros [= <-]. constructor; auto. now apply IH.
    + inversion 1; subst. rewrite H2. cbn [bindr]. apply IH in H4. now rewrite H4.
Qed.
Lemma mapr_list A (f : A -> res (pyobj F)) l r :
  mapr PList (traverse f l) = Ok r <-> exists rs, r = PList rs /\ Forall2 (fun x r => f x = Ok r) l rs.
Proof.
  split.
  - destruct (traverse f l) as [rs|] eqn:E; cbn; [|discriminate]. intros [= <-].
    exists rs. split; auto. now apply traverse_ok.
  - intros (rs&->&H). apply traverse_ok in H. now rewrite H.
Qed.

(** ** C13 *)
Definition all_ok (o : pyobj F) := Forall (fun v => unit_ok (v_units v)) (values_in o).

Lemma all_ok_list l : all_ok (PList l) <-> Forall all_ok l.
Proof.
  unfold all_ok. cbn [values_in]. induction l as [|x l IH]; cbn.
  - split; constructor.
  - rewrite Forall_app, IH. split; [intros []; constructor; auto | inversion 1; auto].
Qed.
Lemma all_ok_num x : all_ok (PNum x). Proof. constructor. Qed.
Lemma all_ok_val v : all_ok (PVal v) <-> unit_ok (v_units v).
Proof. unfold all_ok. cbn. split; [inversion 1; auto | constructor; auto]. Qed.

Lemma mapr_val r o : mapr PVal r = Ok o -> exists v : value F, r = Ok v /\ o = PVal v.
Proof. destruct r; cbn; [intros [= <-]; eauto|discriminate]. Qed.
Lemma mk_ok val u o : mapr PVal (mk_value (F := F) val u) = Ok o -> all_ok o.
Proof.
  intros H. apply mapr_val in H. destruct H as (v&H&->). apply mk_value_inv in H.
  destruct H as (x&_&->&H). now apply all_ok_val.
Qed.
Lemma traverse_all A (f : A -> res (pyobj F)) l o :
  Forall (fun x => forall r, f x = Ok r -> all_ok r) l ->
  mapr (@PList F) (traverse f l) = Ok o -> all_ok o.
Proof.
  intros Hf H. apply mapr_list in H. destruct H as (rs&->&H). apply all_ok_list.
  induction H; constructor; inversion Hf; subst; auto.
Qed.

Lemma combine_ok f v o r : combine (F := F) f v o = Ok r -> all_ok r.
Proof.
  unfold combine. destruct (comparable v o) as [c|]; cbn [bindr]; [|discriminate].
  destruct (pyfloat c); cbn [bindr]; [|discriminate]. apply mk_ok.
Qed.
Lemma v_mul_ok v o : forall r, v_mul (F := F) v o = Ok r -> all_ok r.
Proof.
  induction o as [x|w|l IH] using pyobj_ind'; cbn [v_mul]; intros r.
  - apply mk_ok.
  - discriminate.
  - now apply traverse_all.
Qed.
Lemma v_add_ok v o : forall r, v_add (F := F) v o = Ok r -> all_ok r.
Proof.
  induction o as [x|w|l IH] using pyobj_ind'; cbn [v_add]; intros r.
  - apply combine_ok.
  - apply combine_ok.
  - now apply traverse_all.
Qed.
Lemma v_sub_ok v o : forall r, v_sub (F := F) v o = Ok r -> all_ok r.
Proof.
  induction o as [x|w|l IH] using pyobj_ind'; cbn [v_sub]; intros r.
  - apply combine_ok.
  - apply combine_ok.
  - now apply traverse_all.
Qed.
Lemma v_rsub_ok v o : forall r, v_rsub (F := F) v o = Ok r -> all_ok r.
Proof.
  induction o as [x|w|l IH] using pyobj_ind'; cbn [v_rsub]; intros r.
  - apply combine_ok.
  - apply combine_ok.
  - apply traverse_all. eapply Forall_impl; [|exact IH]. intros [y|w|m] Hy q; auto.
    intros H. eapply v_sub_ok; eauto.
Qed.
Lemma divide_ok d v o r : divide (F := F) d v o = Ok r -> all_ok r.
Proof.
  unfold divide. destruct o as [x|w|l]; [|destruct (comparable _ _) as [c|[]]; try discriminate|discriminate].
  - destruct (d _ _); cbn [bindr]; [|discriminate]. apply mk_ok.
  - destruct (pyfloat c); cbn [bindr]; [|discriminate].
    destruct (d _ _); cbn [bindr]; [|discriminate]. apply mk_ok.
Qed.
Lemma dispatch_ok (op rop : value F -> pyobj F -> res (pyobj F)) a b r :
  (forall v o r, op v o = Ok r -> all_ok r) -> (forall v o r, rop v o = Ok r -> all_ok r) ->
  dispatch op rop a b = Ok r -> all_ok r.
Proof. intros H1 H2. destruct a, b; cbn; try discriminate; eauto. Qed.

Lemma bin_ok s i j f r : (forall a b r, f a b = Ok r -> all_ok r) ->
  bin (F := F) s i j f = Ok r -> all_ok r.
Proof.
  intros H. unfold bin. destruct (lookup s i); cbn [bindr]; [|discriminate].
  destruct (lookup s j); cbn [bindr]; [|discriminate]. apply H.
Qed.
Lemma lookup_ok (s : list (pyobj F)) i o : Forall all_ok s -> lookup s i = Ok o -> all_ok o.
Proof.
  unfold lookup. intros Hs. destruct (nth_error s i) eqn:E; [|discriminate]. intros [= <-].
  rewrite Forall_forall in Hs. apply Hs. eapply nth_error_In; eauto.
Qed.
Lemma lookup_v_ok (s : list (pyobj F)) i v : Forall all_ok s -> lookup_v s i = Ok v -> unit_ok (v_units v).
Proof.
  unfold lookup_v. intros Hs. destruct (lookup s i) as [[x|w|l]|] eqn:E; cbn [bindr]; try discriminate.
  intros [= <-]. apply lookup_ok in E; auto. now apply all_ok_val.
Qed.
Lemma un_ok s i (f : value F -> res (value F)) r : Forall all_ok s -> (forall v w, unit_ok (v_units v) -> f v = Ok w -> unit_ok (v_units w)) ->
  un (F := F) s i f = Ok r -> all_ok r.
Proof.
  intros Hs H. unfold un. destruct (lookup_v s i) eqn:E; cbn [bindr]; [|discriminate].
  intros M. apply mapr_val in M. destruct M as (w&E2&->). apply all_ok_val. eapply H; eauto.
  eapply lookup_v_ok; eauto.
Qed.
Lemma mk_num_units x u w : mk_num (F := F) x u = Ok w -> unit_ok (v_units w).
Proof. intros H. apply mk_value_inv in H. destruct H as (y&_&->&H). exact H. Qed.

Lemma vrun1_ok s o r : Forall all_ok s -> vrun1 (F := F) s o = Ok r -> all_ok r.
Proof.
  intros Hs. destruct o; cbn [vrun1].
  - intros [= <-]. apply all_ok_num.
  - apply traverse_all. apply Forall_forall. intros i _ q. now apply lookup_ok.
  - destruct val as [i|]; [|discriminate].
    destruct (lookup s i); cbn [bindr]; [|discriminate]. apply mk_ok.
  - apply un_ok; auto. intros v w Hv H. eapply convert_unit_ok; eauto.
  - apply un_ok; auto. intros v w Hv. unfold v_convert_to_system_default.
    destruct (units_class _) as [[c|]|]; cbn [bindr]; try discriminate.
    + destruct (default_units _ _); cbn [bindr]; [|discriminate].
      destruct (dict_get _ _); cbn [bindr]; [|discriminate]. intros H. eapply convert_unit_ok; eauto.
    + destruct (default_units _ _); cbn [bindr]; discriminate.
  - apply un_ok; auto. intros v w Hv. unfold v_getattr. destruct (existsb _ _); [|discriminate].
    intros H. eapply convert_unit_ok; eauto.
  - apply un_ok; auto. intros v w Hv. unfold v_round_places. destruct (round_places _ _); cbn [bindr]; [|discriminate].
    apply mk_num_units.
  - apply un_ok; auto. intros v w Hv. apply mk_num_units.
  - apply un_ok; auto. intros v w Hv. apply mk_num_units.
  - apply un_ok; auto. intros v w Hv [= <-]. auto.
  - apply bin_ok. intros a b q. apply dispatch_ok; intros v p t; apply v_add_ok.
  - apply bin_ok. intros a b q. apply dispatch_ok; intros v p t; [apply v_sub_ok|apply v_rsub_ok].
  - apply bin_ok. intros a b q. apply dispatch_ok; intros v p t; apply v_mul_ok.
  - apply bin_ok. intros a b q. apply dispatch_ok; intros v p t; [apply divide_ok|discriminate].
  - apply bin_ok. intros a b q. apply dispatch_ok; intros v p t; [apply divide_ok|discriminate].
  - destruct (lookup_v s i) eqn:E; cbn [bindr]; [|discriminate].
    destruct (lookup s j) eqn:E2; cbn [bindr]; [|discriminate].
    intros H. apply mapr_val in H. destruct H as (w&H&->). unfold assign_value in H.
    destruct (set_value _) in H; cbn [bindr] in H; [|discriminate]. injection H as <-.
    apply all_ok_val. cbn. eapply lookup_v_ok; eauto.
Qed.
Lemma Forall_replace A (P : A -> Prop) i x l : P x -> Forall P l -> Forall P (replace i x l).
Proof. intros Hx Hl. revert i. induction Hl; intros [|i]; cbn; constructor; auto. Qed.
Lemma vstep_ok s o : Forall all_ok s -> Forall all_ok (vstep (F := F) s o).
Proof.
  intros Hs. unfold vstep. destruct (vrun1 s o) as [r|] eqn:E; auto.
  apply vrun1_ok in E; auto.
  assert (Forall all_ok (s ++ [r])) by (apply Forall_app; auto).
  destruct o; auto. now apply Forall_replace.
Qed.
Lemma vrun_ok ops : Forall all_ok (vrun (F := F) ops).
Proof.
  unfold vrun. assert (H : Forall all_ok []) by constructor. revert H. generalize (@nil (pyobj F)).
  induction ops as [|o ops IH]; cbn; intros s Hs; auto. apply IH, vstep_ok, Hs.
Qed.
Lemma vrun_units ops o v : In o (vrun (F := F) ops) -> In v (values_in o) -> unit_ok (v_units v).
Proof.
  intros H1 H2. pose proof (vrun_ok ops) as H. rewrite Forall_forall in H. specialize (H _ H1).
  unfold all_ok in H. rewrite Forall_forall in H. auto.
Qed.

(** ** C15 *)
Lemma round_py3 v n : exists e, v_round (F := F) Python3 v n = Err e.
Proof.
  unfold v_round, round_to_v. destruct (pydiv n1 n); cbn [bindr]; [|eauto].
  destruct (v_truediv v (PNum n)) as [[x|w|l]|]; cbn; eauto.
Qed.
Lemma prettified_py3 v : exists e, v_prettified (F := F) Python3 v = Err e.
Proof.
  unfold v_prettified. destruct (convert_to_system_default_v _ _ _) as [m|]; cbn [bindr]; [|eauto].
  unfold round_value_v. destruct (display_step _ _) as [n|]; cbn [bindr]; [|eauto].
  destruct (fst m); cbn [bindr]; eauto.
  unfold round_to_v. destruct (pydiv n1 n); cbn [bindr]; [|eauto].
  destruct (v_truediv _ _) as [[x'|w|l]|]; cbn; eauto.
Qed.
End Gen.

(** ** Exact arithmetic *)
Lemma quantity_unit_ok v k q : quantity v k q -> unit_ok (v_units v).
Proof. intros (x&u&m&_&->&H&_). right. exists u. split; auto. exists k, m. auto. Qed.

(** The converted right operand. *)
Lemma v_convert_exact v w k p q : quantity v k p -> quantity w k q ->
  exists x m y, v_val v = Fin x /\ p = x * m /\ 0 < m /\ q = y * m /\
    v_convert w (v_units v) = Ok (mkv (Fin y) (v_units v)) /\
    (forall u, v_units v = Some u -> unit_size u = Some (k, m)).
Proof.
  intros (x&a&ma&Ex&Ea&Ha&Ep) (y&b&mb&Ey&Eb&Hb&Eq).
  pose proof (unit_size_pos Ha). pose proof (unit_size_pos Hb).
  exists x, ma, (y * (mb / ma)). repeat (split; [auto; fail|]).
  split; [subst; field; lra|]. split.
  2:{ rewrite Ea. intros u [= <-]. auto. }
  rewrite Ea. unfold v_convert. rewrite Eb.
  destruct (ustr_eqb (Some a) (Some b)) eqn:E.
  - apply ustr_eqb_eq in E. injection E as <-. rewrite Ha in Hb. injection Hb as <-.
    replace (y * (ma / ma)) with y by (field; lra). destruct w; cbn in *; subst; auto.
  - rewrite Ey, (convert_quantity y Hb Ha). cbn [bindr fst snd option_map].
    apply mk_value_ok; auto. right. exists a. split; auto. exists k, ma. auto.
Qed.

Lemma sign_mult x y m : 0 < m -> (x * m < y * m <-> x < y) /\ (x * m = y * m <-> x = y) /\ (x * m <= y * m <-> x <= y).
Proof. intros H. repeat split; intros; nra. Qed.

Ltac cmp2 :=
  match goal with |- answers (Ok ?b) _ => exists b; split; [reflexivity|] end.

Lemma cmp_exact v w k p q : quantity v k p -> quantity w k q ->
  answers (py_lt (PVal v) (PVal w)) (p < q) /\
  answers (py_le (PVal v) (PVal w)) (p <= q) /\
  answers (py_eq (PVal v) (PVal w)) (p = q) /\
  answers (py_ne (PVal v) (PVal w)) (p <> q) /\
  answers (py_gt (PVal v) (PVal w)) (p > q) /\
  answers (py_ge (PVal v) (PVal w)) (p >= q).
Proof.
  intros Hv Hw. destruct (v_convert_exact Hv Hw) as (x&m&y&Ex&Ep&Hm&Eq&C&_).
  cbn [py_lt py_le py_eq py_ne py_gt py_ge dispatch].
  unfold v_lt, v_le, v_eq, v_ne, v_gt, v_ge, v_cmp, comparable. rewrite C. cbn [mapr bindr pyfloat v_val].
  rewrite Ex, ?xlt, ?xle, ?xeqb. subst p q. clear - Hm.
  destruct (sign_mult x y Hm) as (H1&H2&H3).
  destruct (sign_mult y x Hm) as (H4&H5&H6).
  repeat match goal with |- _ /\ _ => split end; cmp2; xdec; cbn; split; intros; try discriminate; try reflexivity;
    try tauto; try nra; exfalso; nra.
Qed.

(** Plain numbers and unitless Values. *)
Lemma cmp_number x u y :
  let v := PVal (mkv (Fin x) u) in let n := PNum (Fin y) in
  (answers (py_lt v n) (x < y) /\ answers (py_le v n) (x <= y) /\ answers (py_eq v n) (x = y) /\
   answers (py_ne v n) (x <> y) /\ answers (py_gt v n) (x > y) /\ answers (py_ge v n) (x >= y)) /\
  (answers (py_lt n v) (y < x) /\ answers (py_le n v) (y <= x) /\ answers (py_eq n v) (y = x) /\
   answers (py_ne n v) (y <> x) /\ answers (py_gt n v) (y > x) /\ answers (py_ge n v) (y >= x)).
Proof.
  cbn [py_lt py_le py_eq py_ne py_gt py_ge dispatch].
  unfold v_lt, v_le, v_eq, v_ne, v_gt, v_ge, v_cmp, comparable. cbn [bindr pyfloat v_val].
  rewrite ?xlt, ?xle, ?xeqb.
  repeat match goal with |- _ /\ _ => split end; cmp2; xdec; cbn; split; intros; try discriminate; try reflexivity;
    try tauto; try lra; exfalso; lra.
Qed.

Lemma cmp_same_units x y u :
  let v := PVal (mkv (Fin x) u) in let w := PVal (mkv (Fin y) u) in
  answers (py_lt v w) (x < y) /\ answers (py_le v w) (x <= y) /\ answers (py_eq v w) (x = y) /\
  answers (py_ne v w) (x <> y) /\ answers (py_gt v w) (x > y) /\ answers (py_ge v w) (x >= y).
Proof.
  cbn [py_lt py_le py_eq py_ne py_gt py_ge dispatch].
  unfold v_lt, v_le, v_eq, v_ne, v_gt, v_ge, v_cmp, comparable, v_convert. cbn [v_units].
  rewrite (proj2 (ustr_eqb_eq u u) eq_refl). cbn [mapr bindr pyfloat v_val].
  rewrite ?xlt, ?xle, ?xeqb.
  repeat match goal with |- _ /\ _ => split end; cmp2; xdec; cbn; split; intros; try discriminate; try reflexivity;
    try tauto; try lra; exfalso; lra.
Qed.

Lemma answers_true r P : answers r P -> (r = Ok true <-> P).
Proof. intros (b&->&H). rewrite <- H. split; congruence. Qed.

Lemma order_laws u v w k p q r : quantity u k p -> quantity v k q -> quantity w k r ->
  let U := PVal u in let V := PVal v in let W := PVal w in
  (py_eq U V = Ok true <-> py_eq V U = Ok true) /\
  (py_eq U V = Ok true -> py_eq V W = Ok true -> py_eq U W = Ok true) /\
  (py_lt U V = Ok true -> py_lt V W = Ok true -> py_lt U W = Ok true) /\
  ((py_lt U V = Ok true /\ py_eq U V <> Ok true /\ py_gt U V <> Ok true) \/
   (py_lt U V <> Ok true /\ py_eq U V = Ok true /\ py_gt U V <> Ok true) \/
   (py_lt U V <> Ok true /\ py_eq U V <> Ok true /\ py_gt U V = Ok true)).
Proof.
  intros Hu Hv Hw U V W.
  destruct (cmp_exact Hu Hv) as (L1&_&E1&_&G1&_).
  destruct (cmp_exact Hv Hu) as (_&_&E2&_).
  destruct (cmp_exact Hv Hw) as (L3&_&E3&_).
  destruct (cmp_exact Hu Hw) as (L4&_&E4&_).
  apply answers_true in L1, E1, G1, E2, L3, E3, L4, E4. unfold U, V, W.
  rewrite L1, E1, G1, E2, L3, E3, L4, E4.
  split; [split; auto|]. split; [intros; lra|]. split; [intros; lra|].
  destruct (Rtotal_order p q) as [|[|]]; [left|right; left|right; right]; repeat split; try assumption; try lra.
Qed.

(** C11 *)

Lemma addsub_exact v w k p q : quantity v k p -> quantity w k q ->
  (exists r, py_add (PVal v) (PVal w) = Ok (PVal r) /\ v_units r = v_units v /\ quantity r k (p + q)) /\
  (exists r, py_sub (PVal v) (PVal w) = Ok (PVal r) /\ v_units r = v_units v /\ quantity r k (p - q)).
Proof.
  intros Hv Hw. destruct (v_convert_exact Hv Hw) as (x&m&y&Ex&Ep&Hm&Eq&C&S).
  cbn [py_add py_sub dispatch v_add v_sub]. unfold combine, comparable. rewrite C. cbn [mapr bindr pyfloat v_val].
  rewrite Ex, xadd, xsub. rewrite !mk_num_ok by (eapply quantity_unit_ok; eauto). cbn [mapr].
  destruct Hv as (_&u&_&_&Eu&_&_).
  split; eexists; (split; [reflexivity|]); (split; [reflexivity|]); cbn.
  - exists (x + y), u, m. cbn. repeat split; auto. subst; ring.
  - exists (x - y), u, m. cbn. repeat split; auto. subst; ring.
Qed.

Lemma number_exact x u n : unit_ok u ->
  let v := PVal (mkv (Fin x) u) in let N := PNum (Fin n) in
  py_add v N = Ok (PVal (mkv (Fin (x + n)) u)) /\ py_add N v = Ok (PVal (mkv (Fin (n + x)) u)) /\
  py_sub v N = Ok (PVal (mkv (Fin (x - n)) u)) /\ py_sub N v = Ok (PVal (mkv (Fin (n - x)) u)) /\
  py_mul v N = Ok (PVal (mkv (Fin (x * n)) u)) /\ py_mul N v = Ok (PVal (mkv (Fin (n * x)) u)) /\
  (n <> 0 -> py_truediv v N = Ok (PVal (mkv (Fin (x / n)) u))) /\
  (n = 0 -> py_truediv v N = Err ZeroDivisionError /\ py_floordiv v N = Err ZeroDivisionError).
Proof.
  intros Hu v N. subst v N. cbn [py_add py_sub py_mul py_truediv py_floordiv dispatch v_add v_radd v_sub v_rsub v_mul v_rmul].
  unfold combine, comparable, v_truediv, v_floordiv, divide, pyfloordiv.
  cbn [bindr pyfloat v_val v_units]. xs. rewrite !mk_num_ok by auto. cbn [mapr].
  rewrite (Rplus_comm n x), (Rmult_comm n x).
  repeat (split; [reflexivity|]). split.
  - intros Hn. rewrite xpydivE by auto. cbn [bindr]. now rewrite mk_num_ok.
  - intros ->. now rewrite xpydiv0.
Qed.

Lemma floordiv_spec a b : b <> 0 -> exists z, pyfloordiv (Fin a) (Fin b) = Ok (Fin (IZR z)) /\
  IZR z <= a / b < IZR z + 1.
Proof.
  intros Hb. unfold pyfloordiv. rewrite xpydivE by auto. cbn [bindr]. rewrite xopp, xceil, xofZ.
  eexists. split; [reflexivity|]. rewrite opp_IZR.
  pose proof (Zceil_ub (- (a / b))). pose proof (Zceil_lb (- (a / b))). lra.
Qed.

Lemma div_exact v w k p q : quantity v k p -> quantity w k q ->
  (q <> 0 -> py_truediv (PVal v) (PVal w) = Ok (PVal (mkv (Fin (p / q)) None)) /\
     exists z, py_floordiv (PVal v) (PVal w) = Ok (PVal (mkv (Fin (IZR z)) None)) /\ IZR z <= p / q < IZR z + 1) /\
  (q = 0 -> py_truediv (PVal v) (PVal w) = Err ZeroDivisionError /\
            py_floordiv (PVal v) (PVal w) = Err ZeroDivisionError).
Proof.
  intros Hv Hw. destruct (v_convert_exact Hv Hw) as (x&m&y&Ex&Ep&Hm&Eq&C&S).
  cbn [py_truediv py_floordiv dispatch]. unfold v_truediv, v_floordiv, divide, comparable.
  rewrite C. cbn [mapr bindr pyfloat v_val]. rewrite Ex. split.
  - intros Hq. assert (y <> 0) by (intros ->; apply Hq; subst; ring).
    replace (p / q) with (x / y) by (subst; field; lra).
    rewrite xpydivE by auto. cbn [bindr mapr]. split; [reflexivity|].
    destruct (floordiv_spec x H) as (z&E&B). exists z. rewrite E. auto.
  - intros Hq. assert (y = 0) by (subst q; apply Rmult_integral in Hq; destruct Hq; auto; lra).
    subst y. unfold pyfloordiv. rewrite xpydiv0. auto.
Qed.

Lemma floordiv_number x u n : unit_ok u -> n <> 0 ->
  exists z, py_floordiv (PVal (mkv (Fin x) u)) (PNum (Fin n)) = Ok (PVal (mkv (Fin (IZR z)) u)) /\
    IZR z <= x / n < IZR z + 1.
Proof.
  intros Hu Hn. destruct (floordiv_spec x Hn) as (z&E&B). exists z. split; auto.
  cbn [py_floordiv dispatch]. unfold v_floordiv, divide. cbn [v_val v_units]. rewrite E. cbn [bindr].
  now rewrite mk_num_ok.
Qed.

Lemma unary_exact x u : unit_ok u ->
  v_neg (mkv (Fin x) u) = Ok (mkv (Fin (- x)) u) /\ v_abs (mkv (Fin x) u) = Ok (mkv (Fin (Rabs x)) u) /\
  v_pos (mkv (Fin x) u) = mkv (Fin x) u.
Proof. intros Hu. unfold v_neg, v_abs, v_pos. cbn [v_val v_units]. xs. rewrite !mk_num_ok by auto. auto. Qed.

Lemma unitless_exact x y :
  let v := PVal (mkv (Fin x) None) in let w := PVal (mkv (Fin y) None) in
  py_add v w = Ok (PVal (mkv (Fin (x + y)) None)) /\ py_sub v w = Ok (PVal (mkv (Fin (x - y)) None)) /\
  (y <> 0 -> py_truediv v w = Ok (PVal (mkv (Fin (x / y)) None))).
Proof.
  split; [reflexivity|]. split; [reflexivity|]. intros Hy.
  cbn [py_truediv dispatch]. unfold v_truediv, divide, comparable, v_convert. cbn [v_units ustr_eqb mapr bindr pyfloat v_val].
  now rewrite xpydivE.
Qed.

Lemma lists_exact (v : value xr) l r :
  (py_add (PVal v) (PList l) = Ok r <-> exists rs, r = PList rs /\ Forall2 (fun x y => py_add (PVal v) x = Ok y) l rs) /\
  (py_sub (PVal v) (PList l) = Ok r <-> exists rs, r = PList rs /\ Forall2 (fun x y => py_sub (PVal v) x = Ok y) l rs) /\
  (py_sub (PList l) (PVal v) = Ok r <-> exists rs, r = PList rs /\ Forall2 (fun x y => py_sub x (PVal v) = Ok y) l rs) /\
  (py_mul (PVal v) (PList l) = Ok r <-> exists rs, r = PList rs /\ Forall2 (fun x y => py_mul (PVal v) x = Ok y) l rs) /\
  (py_mul (PList l) (PVal v) = py_mul (PVal v) (PList l)) /\
  (py_add (PList l) (PVal v) = py_add (PVal v) (PList l)).
Proof.
  cbn [py_add py_sub py_mul dispatch v_add v_radd v_sub v_rsub v_mul v_rmul].
  rewrite !mapr_list. split; [reflexivity|]. split; [reflexivity|]. split; [|split; [reflexivity|split; reflexivity]].
  split; intros (rs&->&H); exists rs; (split; [reflexivity|]); 
    (induction H as [|[n|w|m] y l' rs' H1 H2 IH]; constructor; auto).
Qed.

(** C15, Python 2. *)
Lemma round_py2 x u n : unit_ok u -> n <> 0 ->
  v_round Python2 (mkv (Fin x) u) (Fin n) = Ok (PNum (Fin (IZR (ZnearestE (x / n)) * n))).
Proof.
  intros Hu Hn. unfold v_round, round_to_v, n1. rewrite xofZ, xpydivE by auto. cbn [bindr].
  unfold v_truediv, divide. cbn [v_val v_units]. rewrite xpydivE by auto. cbn [bindr].
  rewrite mk_num_ok by auto. cbn [mapr bindr builtin_round v_val].
  unfold py_round. rewrite xround. cbn [bindr]. rewrite xofZ, xpydivE.
  - cbn [mapr]. do 3 f_equal. field. auto.
  - apply Rinv_neq_0_compat in Hn. intros H. apply Hn. lra.
Qed.
Lemma round_places_ok x u p : unit_ok u ->
  v_round_places (mkv (Fin x) u) p =
    Ok (mkv (Fin (IZR (ZnearestE (x * IZR (10 ^ Z.of_nat p))) / IZR (10 ^ Z.of_nat p))) u).
Proof.
  intros Hu. unfold v_round_places, round_places. cbn [v_val v_units]. xs. unfold py_round. xs. cbn [bindr].
  rewrite xofZ, xdivE.
  - now rewrite mk_num_ok.
  - apply not_0_IZR. pose proof (Z.pow_pos_nonneg 10 (Z.of_nat p)). lia.
Qed.
