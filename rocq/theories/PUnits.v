(** * Proofs about units.py. *)
From Coq Require Import Reals ZArith List String Bool Lra Lia.
From Flocq Require Import Core.Raux Core.Generic_fmt Core.Round_NE.
From Verif Require Import Num XLemmas MRounding MUnits SpecUnits.
Import ListNotations.
Local Open Scope string_scope.
Local Open Scope R_scope.
Set Implicit Arguments.
Unset Strict Implicit.

(** The exact table agrees with the specification. *)
Lemma np_pi_xr : (np_pi : xr) = Fin machine_pi.
Proof. reflexivity. Qed.
Lemma machine_pi_pos : 0 < machine_pi. Proof. unfold machine_pi. lra. Qed.

Ltac tbl :=
  repeat (rewrite ?np_pi_xr, ?xofZ, ?xlit, ?xmul;
          try (rewrite xdivE by (pose proof machine_pi_pos; lra)));
  try reflexivity; try (f_equal; pose proof machine_pi_pos; try field; try lra).

Lemma vals_xr :
  (u_m : xr) = Fin 1 /\ (u_mm : xr) = Fin (1/1000) /\ (u_cm : xr) = Fin (1/100) /\
  (u_in : xr) = Fin (254/10000) /\ (u_ft : xr) = Fin (3048/10000) /\
  (u_fathoms : xr) = Fin (18288/10000) /\ (u_cubits : xr) = Fin (4572/10000) /\
  (u_kg : xr) = Fin 1 /\ (u_g : xr) = Fin (1/1000) /\ (u_lbs : xr) = Fin (100000/220462) /\
  (u_stone : xr) = Fin (1000000/157473) /\ (u_deg : xr) = Fin 1 /\
  (u_rad : xr) = Fin (180/machine_pi) /\ (u_sec : xr) = Fin 1 /\ (u_min : xr) = Fin 60 /\
  (u_hr : xr) = Fin 3600 /\ (u_day : xr) = Fin 86400 /\
  (u_yr : xr) = Fin (86400 * 365242/1000) /\ (u_hpw : xr) = Fin 1.
Proof.
  unfold u_yr, u_day, u_hr, u_min, u_mm, u_cm, u_g, u_lbs, u_stone, u_rad, u_m, u_kg, u_deg, u_sec, u_hpw, u_in, u_ft, u_fathoms, u_cubits, nZ.
  repeat split; tbl.
Qed.

Definition xentry (s : string) : option (string * xr) :=
  option_map (fun km => (kind_name (fst km), Fin (snd km))) (unit_size s).

Lemma find_xentry s : dict_find s (unit_table (F := xr)) = xentry s.
Proof.
  unfold xentry, unit_size, one_of, existsb, unit_table.
  destruct vals_xr as (E1&E2&E3&E4&E5&E6&E7&E8&E9&E10&E11&E12&E13&E14&E15&E16&E17&E18&E19).
  rewrite E1,E2,E3,E4,E5,E6,E7,E8,E9,E10,E11,E12,E13,E14,E15,E16,E17,E18,E19.
  cbn [dict_find].
  repeat match goal with
  | |- context [String.eqb s ?k] => destruct (String.eqb s k); [reflexivity|cbn [orb]]
  end.
  reflexivity.
Qed.

Lemma unit_size_pos s k m : unit_size s = Some (k, m) -> 0 < m.
Proof.
  unfold unit_size. intros H.
  repeat match type of H with
  | (if ?b then _ else _) = _ => destruct b; [injection H as <- <-; try lra | ]
  end; try discriminate.
  apply Rdiv_lt_0_compat; [lra | apply machine_pi_pos].
Qed.

Lemma kind_name_inj k k' : kind_name k = kind_name k' -> k = k'.
Proof. destruct k, k'; cbn; congruence. Qed.
Lemma kind_name_nonempty k : kind_name k <> "".
Proof. destruct k; cbn; congruence. Qed.

Lemma unit_size_nonempty s k m : unit_size s = Some (k, m) -> s <> "".
Proof. intros H ->. cbn in H. discriminate. Qed.

Lemma blank_Some s : s <> "" -> blank (Some s) = false.
Proof. intros H. cbn. now apply String.eqb_neq. Qed.

Lemma blank_unspecified u : blank u = true <-> unspecified u.
Proof.
  unfold unspecified. destruct u as [s|]; cbn.
  - rewrite String.eqb_eq. split; [intros ->; auto | intros [?|[= ->]]; congruence].
  - split; auto.
Qed.

Lemma ustr_eqb_eq a b : ustr_eqb a b = true <-> a = b.
Proof.
  destruct a, b; cbn; try (split; congruence).
  rewrite String.eqb_eq. split; congruence.
Qed.
Lemma ustr_eqb_neq a b : ustr_eqb a b = false <-> a <> b.
Proof. rewrite <- ustr_eqb_eq. destruct (ustr_eqb a b); split; congruence. Qed.

Lemma units_get_known s k m : unit_size s = Some (k, m) ->
  units_get (Some s) = Ok (kind_name k, Fin m).
Proof. intros H. cbn. unfold dict_get. rewrite find_xentry. unfold xentry. now rewrite H. Qed.

(** C01 *)
Lemma factor_value a b k ma mb uc :
  unit_size a = Some (k, ma) -> unit_size b = Some (k, mb) ->
  (uc = None \/ uc = Some "" \/ uc = Some (kind_name k)) ->
  factor (Some a) (Some b) uc = Ok (Fin (ma / mb)).
Proof.
  intros Ha Hb Huc.
  pose proof (unit_size_pos Ha). pose proof (unit_size_pos Hb).
  unfold factor. rewrite blank_Some by (eapply unit_size_nonempty; eauto). cbn [andb].
  destruct (ustr_eqb (Some a) (Some b)) eqn:E.
  - apply ustr_eqb_eq in E. injection E as ->.
    assert (ma = mb) by congruence. subst. unfold n1. rewrite xofZ. do 2 f_equal. field. lra.
  - rewrite (units_get_known Ha), (units_get_known Hb). cbn [bindr fst snd].
    rewrite String.eqb_refl. cbn [negb].
    assert (class_mismatch uc (kind_name k) = false) as ->.
    { unfold class_mismatch. destruct Huc as [->|[->| ->]]; cbn; auto.
      rewrite String.eqb_refl. now rewrite andb_false_r. }
    apply xpydivE. lra.
Qed.

Lemma factor_laws a b c k :
  unit_of_kind a k -> unit_of_kind b k -> unit_of_kind c k ->
  exists fab fba fbc fac,
    factor (Some a) (Some b) None = Ok (Fin fab) /\
    factor (Some b) (Some a) None = Ok (Fin fba) /\
    factor (Some b) (Some c) None = Ok (Fin fbc) /\
    factor (Some a) (Some c) None = Ok (Fin fac) /\
    factor (Some a) (Some a) None = Ok (Fin 1) /\
    0 < fab /\ fab * fba = 1 /\ fab * fbc = fac.
Proof.
  intros [ma Ha] [mb Hb] [mc Hc].
  pose proof (unit_size_pos Ha). pose proof (unit_size_pos Hb). pose proof (unit_size_pos Hc).
  exists (ma/mb), (mb/ma), (mb/mc), (ma/mc).
  rewrite !(factor_value (uc:=None) Ha Hb), !(factor_value (uc:=None) Hb Ha),
    !(factor_value (uc:=None) Hb Hc), !(factor_value (uc:=None) Ha Hc), !(factor_value (uc:=None) Ha Ha) by auto.
  repeat split; auto; try (do 2 f_equal; field; lra); try (field; lra).
  apply Rdiv_lt_0_compat; lra.
Qed.

(** C02: the decision table, at any instance with non-zero raw factors. *)
Section Decision.
Context {F : Type} {N : Num F}.
Definition table_nonzero := forall u c f,
  dict_find u (unit_table (F := F)) = Some (c, f) -> neqb f (nofZ 0) = false.

Lemma class_find s :
  option_map fst (dict_find s (unit_table (F := F))) = option_map (fun km => kind_name (fst km)) (unit_size s).
Proof.
  unfold unit_size, one_of, existsb, unit_table. cbn [dict_find].
  repeat match goal with
  | |- context [String.eqb s ?k] => destruct (String.eqb s k); [reflexivity|cbn [orb]]
  end.
  reflexivity.
Qed.

Lemma get_known s k m : unit_size s = Some (k, m) ->
  exists f, dict_find s (unit_table (F := F)) = Some (kind_name k, f).
Proof.
  intros H. pose proof (class_find s) as C. rewrite H in C.
  destruct (dict_find s unit_table) as [[c f]|]; cbn in C; [|discriminate].
  injection C as ->. eauto.
Qed.
Lemma get_unknown s : unit_size s = None -> dict_find s (unit_table (F := F)) = None.
Proof.
  intros H. pose proof (class_find s) as C. rewrite H in C.
  destruct (dict_find s unit_table) as [[c f]|]; cbn in C; [discriminate|auto].
Qed.


Lemma unit_size_dec s : {km | unit_size s = Some km} + {unit_size s = None}.
Proof. destruct (unit_size s); eauto. Qed.

Lemma not_missing u : ~ missing u -> exists s k m, u = Some s /\ unit_size s = Some (k, m).
Proof.
  intros H. destruct u as [s|]; [|exfalso; apply H; intros s; discriminate].
  destruct (unit_size s) as [[k m]|] eqn:E.
  - exists s, k, m. auto.
  - exfalso. apply H. intros s' [= <-] [k [m Hm]]. congruence.
Qed.

Lemma missing_get u : missing u -> units_get (F := F) u = Err KeyError.
Proof.
  intros H. destruct u as [s|]; cbn; auto.
  unfold dict_get. rewrite get_unknown; auto.
  destruct (unit_size s) as [[k m]|] eqn:E; auto.
  exfalso. apply (H s eq_refl). exists k, m. auto.
Qed.

Lemma mismatch_accepts uc k : class_mismatch uc (kind_name k) = false <-> accepts uc k.
Proof.
  unfold class_mismatch, accepts. rewrite <- blank_unspecified.
  destruct (blank uc) eqn:E; cbn [negb andb].
  - split; auto.
  - rewrite negb_false_iff, ustr_eqb_eq. split; auto. intros [?|?]; [discriminate|auto].
Qed.

Lemma factor_same a uc : factor (F := F) a a uc = Ok n1.
Proof.
  unfold factor. destruct (blank a && blank a); auto.
  now rewrite (proj2 (ustr_eqb_eq a a)).
Qed.
Lemma factor_blank a b uc : blank a = true -> blank b = true -> factor (F := F) a b uc = Ok n1.
Proof. intros Ha Hb. unfold factor. now rewrite Ha, Hb. Qed.

Lemma factor_missing a b uc : ~ (blank a = true /\ blank b = true) -> a <> b ->
  missing a \/ missing b -> factor (F := F) a b uc = Err KeyError.
Proof.
  intros Hb Hne Hm. unfold factor.
  replace (blank a && blank b)%bool with false
    by (symmetry; destruct (blank a), (blank b); cbn; auto; exfalso; apply Hb; auto).
  rewrite (proj2 (ustr_eqb_neq a b)) by auto.
  destruct Hm as [Hm|Hm].
  - now rewrite (missing_get Hm).
  - destruct (units_get a) as [p|e] eqn:E; cbn [bindr].
    + now rewrite (missing_get Hm).
    + destruct a; cbn in E; unfold dict_get in E; [destruct (dict_find _ _); congruence|congruence].
Qed.

Lemma factor_known (TN : table_nonzero) a b ka kb uc : a <> b ->
  unit_of_kind a ka -> unit_of_kind b kb ->
  (ka = kb -> accepts uc ka -> exists x, factor (F := F) (Some a) (Some b) uc = Ok x) /\
  (ka <> kb \/ ~ accepts uc ka -> factor (F := F) (Some a) (Some b) uc = Err ValueError).
Proof.
  intros Hne [ma Ha] [mb Hb]. unfold factor.
  rewrite blank_Some by (eapply unit_size_nonempty; eauto). cbn [andb].
  rewrite (proj2 (ustr_eqb_neq (Some a) (Some b))) by congruence.
  destruct (get_known Ha) as [fa Fa]. destruct (get_known Hb) as [fb Fb].
  cbn [units_get]. unfold dict_get. rewrite Fa, Fb. cbn [bindr fst snd].
  split.
  - intros <- Acc. rewrite String.eqb_refl. cbn [negb].
    rewrite (proj2 (mismatch_accepts _ _) Acc).
    unfold pydiv. rewrite (TN _ _ _ Fb). eauto.
  - intros [Hk|Hacc].
    + destruct (String.eqb_spec (kind_name ka) (kind_name kb)) as [E|E]; cbn [negb]; auto.
      apply kind_name_inj in E. contradiction.
    + destruct (negb _); auto.
      destruct (class_mismatch uc (kind_name ka)) eqn:M; auto.
      apply mismatch_accepts in M. contradiction.
Qed.

Lemma missing_dec u : missing u \/ exists s k, u = Some s /\ unit_of_kind s k.
Proof.
  destruct u as [s|]; [|left; intros s; discriminate].
  destruct (unit_size s) as [[k m]|] eqn:E.
  - right. exists s, k. split; auto. exists m. auto.
  - left. intros s' [= <-] [k [m Hm]]. congruence.
Qed.

Lemma kind_unique s k k' : unit_of_kind s k -> unit_of_kind s k' -> k = k'.
Proof. intros [m Hm] [m' Hm']. congruence. Qed.
Lemma kind_dec (k k' : kind) : {k = k'} + {k <> k'}.
Proof. decide equality. Qed.

Lemma factor_decision (TN : table_nonzero) a b uc :
  (convertible a b uc /\ exists x, factor (F := F) a b uc = Ok x) \/
  (~ convertible a b uc /\
   ((~ missing a /\ ~ missing b /\ factor (F := F) a b uc = Err ValueError) \/
    ((missing a \/ missing b) /\ factor (F := F) a b uc = Err KeyError))).
Proof.
  unfold convertible. rewrite <- !blank_unspecified.
  destruct (ustr_eqb a b) eqn:Eab.
  { apply ustr_eqb_eq in Eab. subst. left. split; [right; left; auto|]. exists n1. apply factor_same. }
  apply ustr_eqb_neq in Eab.
  destruct (blank a && blank b)%bool eqn:Ebl.
  { apply andb_true_iff in Ebl. destruct Ebl. left. split; [left; auto|]. exists n1. now apply factor_blank. }
  assert (Hbl : ~ (blank a = true /\ blank b = true)).
  { intros [A B]. rewrite A, B in Ebl. discriminate. }
  destruct (missing_dec a) as [Ma|(sa&ka&->&Ka)].
  { right. split.
    - intros [?|[?|(sa&sb&k&->&->&Ka&Kb&_)]]; auto. apply (Ma sa eq_refl). exists k; auto.
    - right. split; auto. apply factor_missing; auto. }
  destruct (missing_dec b) as [Mb|(sb&kb&->&Kb)].
  { right. split.
    - intros [?|[?|(sa'&sb&k&E&->&Ka'&Kb&_)]]; auto. apply (Mb sb eq_refl). exists k; auto.
    - right. split; auto. apply factor_missing; auto. }
  assert (Hne : sa <> sb) by congruence.
  destruct (factor_known TN uc Hne Ka Kb) as [P1 P2].
  assert (NM : forall s k, unit_of_kind s k -> ~ missing (Some s)).
  { intros s k Hk H. apply (H s eq_refl). exists k; auto. }
  destruct (kind_dec ka kb) as [Ek|Ek].
  - destruct (class_mismatch uc (kind_name ka)) eqn:M.
    + assert (NA : ~ accepts uc ka) by (intros A; apply mismatch_accepts in A; congruence).
      right. split.
      * intros [?|[?|(sa'&sb'&k&E1&E2&Ka'&Kb'&A)]]; auto. injection E1 as <-.
        rewrite (kind_unique Ka Ka') in NA. auto.
      * left. repeat split; eauto.
    + apply mismatch_accepts in M. left. split; [|auto].
      right. right. exists sa, sb, ka. subst kb. repeat split; auto.
  - right. split.
    + intros [?|[?|(sa'&sb'&k&E1&E2&Ka'&Kb'&A)]]; auto. injection E1 as <-. injection E2 as <-.
      apply Ek. rewrite (kind_unique Ka Ka'), (kind_unique Kb Kb'). auto.
    + left. repeat split; eauto.
Qed.
Lemma convert_raises a b uc v e :
  convert (F := F) v a b uc = Err e <-> factor (F := F) a b uc = Err e.
Proof.
  unfold convert. destruct (factor a b uc); cbn [bindr].
  - destruct v; split; congruence.
  - split; congruence.
Qed.
End Decision.

Lemma table_nonzero_xr : table_nonzero (F := xr).
Proof.
  intros u c f H. rewrite find_xentry in H. unfold xentry in H.
  destruct (unit_size u) as [[k m]|] eqn:E; cbn in H; [|discriminate].
  injection H as <- <-. rewrite xofZ, xeqb. apply Req_bool_false.
  pose proof (unit_size_pos E). lra.
Qed.

(** C03 *)
(** C04 *)
Lemma convert_quantity a b k ma mb x :
  unit_size a = Some (k, ma) -> unit_size b = Some (k, mb) ->
  convert (Some (Fin x)) (Some a) (Some b) None = Ok (Some (Fin (x * (ma / mb))), Some b).
Proof.
  intros Ha Hb. unfold convert. rewrite (factor_value (uc:=None) Ha Hb) by auto. reflexivity.
Qed.

Lemma convert_list_quantity a b k ma mb xs :
  unit_size a = Some (k, ma) -> unit_size b = Some (k, mb) ->
  convert_list (map Fin xs) (Some a) (Some b) = Ok (map Fin (map (fun x => x * ma / mb) xs)).
Proof.
  intros Ha Hb. unfold convert_list. rewrite (factor_value (uc:=None) Ha Hb) by auto. cbn [bindr].
  f_equal. rewrite !map_map. apply map_ext. intros x. rewrite xmul. f_equal.
  pose proof (unit_size_pos Hb). field. lra.
Qed.

(** C05 *)
Lemma dict_find_set A k k' (a : A) d :
  dict_find k (dict_set k' a d) = if String.eqb k k' then Some a else dict_find k d.
Proof.
  induction d as [|[k0 b] d IH]; cbn.
  - destruct (String.eqb k k'); auto.
  - destruct (String.eqb_spec k' k0) as [->|Hne]; cbn.
    + destruct (String.eqb k k0); auto.
    + rewrite IH. destruct (String.eqb_spec k k0) as [->|]; auto.
      destruct (String.eqb_spec k0 k'); congruence.
Qed.
Lemma dict_find_None A k (d : dict A) : ~ In k (map fst d) <-> dict_find k d = None.
Proof.
  induction d as [|[k0 b] d IH]; cbn; [tauto|].
  destruct (String.eqb_spec k k0) as [->|Hne].
  - split; [intros H; exfalso; auto|discriminate].
  - rewrite <- IH. split; intros H; [intros H'; apply H; auto | intros [?|?]; [congruence|auto]].
Qed.
Lemma dict_find_update A k (d e : dict A) : NoDup (map fst e) ->
  dict_find k (dict_update d e) =
  match dict_find k e with Some a => Some a | None => dict_find k d end.
Proof.
  revert d. induction e as [|[k0 b] e IH]; intros d ND; cbn; auto.
  inversion ND as [|? ? Hin ND']; subst. unfold dict_update in IH. rewrite IH by auto.
  rewrite dict_find_set. destruct (String.eqb_spec k k0) as [->|Hne]; auto.
  cbn in Hin. apply dict_find_None in Hin. now rewrite Hin.
Qed.

Lemma default_units_spec s ex : NoDup (map fst ex) ->
  exists d, default_units (system_name s) ex = Ok d /\
    (forall c u, dict_find c ex = Some u -> dict_find c d = Some u) /\
    (forall k, dict_find (kind_name k) ex = None -> dict_find (kind_name k) d = Some (display_unit s k)) /\
    (forall c, dict_find c ex = None -> (forall k, c <> kind_name k) -> dict_find c d = None).
Proof.
  intros ND. unfold default_units.
  assert (exists base, dict_get (system_name s) default_table = Ok base /\
     NoDup (map fst base) /\
     (forall k, dict_find (kind_name k) base = Some (display_unit s k)) /\
     (forall c, (forall k, c <> kind_name k) -> dict_find c base = None)) as (base&E&NDb&H1&H2).
  { assert (Hk : forall c, (forall k, c <> kind_name k) ->
       String.eqb c "length" = false /\ String.eqb c "weight" = false /\ String.eqb c "angle" = false /\
       String.eqb c "time" = false /\ String.eqb c "time_rate" = false).
    { intros c Hc. repeat split; apply String.eqb_neq;
      [apply (Hc Length)|apply (Hc Weight)|apply (Hc Angle)|apply (Hc Time)|apply (Hc TimeRate)]. }
    assert (NDk : NoDup ["length"; "weight"; "angle"; "time"; "time_rate"]).
    { repeat constructor; cbn; intuition discriminate. }
    destruct s; eexists; (split; [reflexivity|]); (split; [exact NDk|]);
      (split; [intros []; reflexivity | intros c Hc; destruct (Hk c Hc) as (A&B&C&D&E); cbn; now rewrite A,B,C,D,E]). }
  rewrite E. cbn [bindr]. eexists. split; [reflexivity|].
  split; [|split].
  - intros c u H. rewrite dict_find_update by auto. now rewrite H.
  - intros k H. rewrite dict_find_update by auto. rewrite H.
    rewrite dict_find_update by auto. now rewrite H1.
  - intros c H Hc. rewrite dict_find_update by auto. rewrite H.
    rewrite dict_find_update by auto. now rewrite H2.
Qed.

Lemma display_unit_kind s k : unit_of_kind (display_unit s k) k.
Proof. destruct s, k; cbn; eexists; reflexivity. Qed.

Lemma system_default_quantity x u s k m m' :
  unit_size u = Some (k, m) -> unit_size (display_unit s k) = Some (k, m') ->
  convert_to_system_default (Some (Fin x)) (Some u) (system_name s)
    = Ok (Some (Fin (x * (m / m'))), Some (display_unit s k)).
Proof.
  intros Hu Hd. unfold convert_to_system_default.
  destruct (default_units_spec s (ex := [])) as (d&E&_&H1&_); [constructor|].
  rewrite E. cbn [bindr]. unfold convert_to_default, units_class.
  rewrite blank_Some by (eapply unit_size_nonempty; eauto).
  rewrite (units_get_known Hu). cbn [mapr bindr fst].
  unfold dict_get. rewrite H1 by reflexivity. cbn [bindr].
  now apply convert_quantity with k.
Qed.

Lemma system_default_blank x u s : blank u = true ->
  convert_to_system_default (F := xr) x u (system_name s) = Ok (x, u).
Proof.
  intros Hb. unfold convert_to_system_default.
  destruct (default_units_spec s (ex := [])) as (d&E&_&H1&_); [constructor|].
  rewrite E. cbn [bindr]. unfold convert_to_default, units_class. now rewrite Hb.
Qed.

(** C08 *)
Lemma round_to_value x n : n <> 0 ->
  round_to (Fin x) (Fin n) = Ok (Fin (IZR (ZnearestE (x / n)) * n)).
Proof.
  intros Hn. unfold round_to, n1. rewrite xofZ.
  rewrite !xpydivE by auto. cbn [bindr]. unfold py_round. rewrite xround. cbn [bindr].
  rewrite xofZ, xpydivE.
  - do 2 f_equal. field. auto.
  - apply Rinv_neq_0_compat in Hn. intros H. apply Hn. lra.
Qed.

Lemma nearest_mult x n j : n <> 0 ->
  Rabs (x - IZR (ZnearestE (x / n)) * n) <= Rabs (x - IZR j * n).
Proof.
  intros Hn.
  assert (forall i, x - IZR i * n = n * (x / n - IZR i)) as Hs by (intros; field; auto).
  rewrite !Hs, !Rabs_mult. apply Rmult_le_compat_l; [apply Rabs_pos|].
  set (y := x / n). pose proof (Znearest_half (fun x => negb (Z.even x)) y) as H2.
  fold (ZnearestE y) in H2. set (k := ZnearestE y) in *.
  destruct (Z.eq_dec j k) as [->|Hj]; [lra|].
  assert (Hd : 1 <= Rabs (IZR j - IZR k)).
  { rewrite <- minus_IZR, <- abs_IZR. apply IZR_le. lia. }
  assert (Rabs (IZR j - IZR k) <= Rabs (y - IZR k) + Rabs (y - IZR j)).
  { replace (IZR j - IZR k) with ((y - IZR k) + - (y - IZR j)) by ring.
    eapply Rle_trans; [apply Rabs_triang|]. rewrite Rabs_Ropp. lra. }
  lra.
Qed.

Lemma nearest_half x n : n <> 0 -> Rabs (x - IZR (ZnearestE (x / n)) * n) <= Rabs n / 2.
Proof.
  intros Hn. replace (x - IZR (ZnearestE (x / n)) * n) with (n * (x / n - IZR (ZnearestE (x / n)))) by (field; auto).
  rewrite Rabs_mult. pose proof (Znearest_half (fun x => negb (Z.even x)) (x/n)).
  pose proof (Rabs_pos n).
  assert (Rabs n * Rabs (x / n - IZR (ZnearestE (x / n))) <= Rabs n * (/2)) by (apply Rmult_le_compat_l; auto).
  lra.
Qed.

Lemma nearest_tie x n j : n <> 0 -> j <> ZnearestE (x / n) ->
  Rabs (x - IZR j * n) = Rabs (x - IZR (ZnearestE (x / n)) * n) ->
  Z.even (ZnearestE (x / n)) = true.
Proof.
  intros Hn Hj E.
  assert (forall i, x - IZR i * n = n * (x / n - IZR i)) as Hs by (intros; field; auto).
  rewrite !Hs, !Rabs_mult in E. apply Rmult_eq_reg_l in E; [|now apply Rabs_no_R0].
  set (y := x / n) in *. clearbody y. clear Hs.
  pose proof (Znearest_half (fun x => negb (Z.even x)) y) as H2. fold (ZnearestE y) in H2.
  set (k := ZnearestE y) in *.
  (* j and k are different integers at the same distance <= 1/2: distance exactly 1/2 *)
  assert (Hd : 1 <= Rabs (IZR j - IZR k)).
  { rewrite <- minus_IZR, <- abs_IZR. apply IZR_le. lia. }
  assert (Hh : Rabs (y - IZR k) = /2).
  { assert (Rabs (IZR j - IZR k) <= Rabs (y - IZR k) + Rabs (y - IZR j)).
    { replace (IZR j - IZR k) with ((y - IZR k) + - (y - IZR j)) by ring.
      eapply Rle_trans; [apply Rabs_triang|]. rewrite Rabs_Ropp. lra. }
    lra. }
  (* so y = floor y + 1/2 *)
  assert (Hf : y - IZR (Zfloor y) = /2).
  { destruct (Req_dec (y - IZR (Zfloor y)) (/2)) as [|Hne]; auto.
    pose proof (Znearest_N_strict (fun x => negb (Z.even x)) y Hne) as H3.
    fold (ZnearestE y) in H3. fold k in H3. lra. }
  assert (Zceil y = (Zfloor y + 1)%Z) as Hc.
  { apply Zceil_floor_neq. intros Heq. rewrite Heq in Hf. lra. }
  unfold k, ZnearestE, Znearest. rewrite Hf, Rcompare_Eq by auto.
  destruct (Z.even (Zfloor y)) eqn:Ev; cbn [negb]; auto.
  rewrite Hc. rewrite Z.even_add, Ev. reflexivity.
Qed.

Lemma round_mono x x' n : 0 < n -> x <= x' ->
  IZR (ZnearestE (x / n)) * n <= IZR (ZnearestE (x' / n)) * n.
Proof.
  intros Hn Hx. apply Rmult_le_compat_r; [lra|]. apply IZR_le.
  apply (@Zrnd_le ZnearestE _). apply Rmult_le_compat_r; auto. apply Rlt_le, Rinv_0_lt_compat, Hn.
Qed.

Lemma round_idem k n : n <> 0 -> IZR (ZnearestE (IZR k * n / n)) * n = IZR k * n.
Proof.
  intros Hn. replace (IZR k * n / n) with (IZR k) by (field; auto).
  rewrite (@Zrnd_IZR ZnearestE _). auto.
Qed.

(** C07 *)
Lemma powerRZ_IZR p : (0 <= p)%Z -> IZR (10 ^ p) = powerRZ 10 p.
Proof.
  intros H. rewrite <- (Z2Nat.id p) at 1 2 by auto.
  rewrite <- pow_powerRZ, <- pow_IZR. reflexivity.
Qed.
Lemma powerRZ10_pos p : 0 < powerRZ 10 p.
Proof. apply powerRZ_lt. lra. Qed.

Lemma display_step_value u precision :
  display_step (F := xr) (Some u) precision = Ok (Fin (step_of u precision)).
Proof.
  unfold display_step, step_of. destruct precision as [p|].
  - unfold n1. destruct (Z.leb_spec 0 p) as [Hp|Hp].
    + rewrite !xofZ, powerRZ_IZR by auto. pose proof (powerRZ10_pos p).
      rewrite xpydivE by lra. do 2 f_equal. rewrite powerRZ_neg'. field. lra.
    + rewrite xofZ, xlit, Z2Pos.id by (apply Z.pow_pos_nonneg; lia).
      rewrite powerRZ_IZR by lia. pose proof (powerRZ10_pos (-p)).
      rewrite xpydivE.
      * do 2 f_equal. field. lra.
      * apply Rgt_not_eq. apply Rdiv_lt_0_compat; lra.
  - unfold display_increment, nearest_table. cbn [dict_find].
    destruct (String.eqb u "cm"); [do 2 f_equal; rewrite xlit; auto|].
    destruct (String.eqb u "in"); [do 2 f_equal; rewrite xlit; auto|].
    destruct (String.eqb u "kg"); [do 2 f_equal; rewrite xlit; auto|].
    destruct (String.eqb u "lb"); [do 2 f_equal; rewrite xlit; auto|].
    destruct (String.eqb u "yr"); [do 2 f_equal; rewrite xlit; auto|].
    do 2 f_equal; rewrite xlit; auto.
Qed.

Lemma step_of_pos u precision : 0 < step_of u precision.
Proof.
  destruct precision; cbn; [apply powerRZ10_pos|].
  unfold display_increment. repeat destruct (String.eqb _ _); lra.
Qed.

Lemma prettify_value x u k m mm mu precision :
  unit_size u = Some (k, m) ->
  unit_size (display_unit Metric k) = Some (k, mm) ->
  unit_size (display_unit UnitedStates k) = Some (k, mu) ->
  let sm := step_of (display_unit Metric k) precision in
  let su := step_of (display_unit UnitedStates k) precision in
  prettify (Some (Fin x)) (Some u) precision =
    Ok ((Fin (IZR (ZnearestE (x * (m/mm) / sm)) * sm), Some (display_unit Metric k)),
        (Fin (IZR (ZnearestE (x * (m/mu) / su)) * su), Some (display_unit UnitedStates k))).
Proof.
  intros Hu Hm Hus sm su. unfold prettify.
  change "metric" with (system_name Metric). change "united_states" with (system_name UnitedStates).
  rewrite (system_default_quantity x (s:=Metric) Hu Hm).
  rewrite (system_default_quantity x (s:=UnitedStates) Hu Hus). cbn [bindr].
  unfold round_value. cbn [fst snd]. rewrite !display_step_value. cbn [bindr].
  fold sm su. rewrite !round_to_value; auto; apply Rgt_not_eq, step_of_pos.
Qed.
