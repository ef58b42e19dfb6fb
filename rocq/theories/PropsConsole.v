(** * Property C70: reading numbers from the console. *)
From Coq Require Import Ascii String List Bool Lia Reals.
From Verif Require Import Num MUnits MValue MConsole.
Import ListNotations.

(** ** Specification: lines without anything but white space; the number a line holds *)
Definition white (c : ascii) : bool := existsb (Nat.eqb (nat_of_ascii c)) [9; 10; 11; 12; 13; 28; 29; 30; 31; 32]%nat.
Definition blank (line : string) : Prop := forall i c, String.get i line = Some c -> white c = true.
(** a line between white space *)
Definition trimmed (line core : string) : Prop :=
  exists l r, line = (l ++ core ++ r)%string /\ blank l /\ blank r /\
    (core <> ""%string -> (exists c s, core = String c s /\ white c = false) /\ (exists c s, core = (s ++ String c "")%string /\ white c = false)).

Lemma space_white c : space c = white c.
Proof. destruct c as [[] [] [] [] [] [] [] []]; reflexivity. Qed.
Lemma blank_nil : blank "".
Proof. intros i c E. destruct i; discriminate E. Qed.
Lemma blank_cons c s : blank (String c s) <-> white c = true /\ blank s.
Proof.
  split.
  - intros H. split; [now apply (H 0)|]. intros i d E. now apply (H (S i)).
  - intros [H1 H2] [|i] d E; cbn in E; [congruence|eauto].
Qed.
Lemma blank_rstrip s : blank s -> rstrip s = ""%string.
Proof. induction s as [|c s IH]; [reflexivity|]. intros H. apply blank_cons in H. destruct H as [H1 H2]. cbn [rstrip]. now rewrite IH, space_white, H1. Qed.
Lemma blank_lstrip l s : blank l -> lstrip (l ++ s) = lstrip s.
Proof. induction l as [|c l IH]; [reflexivity|]. intros H. apply blank_cons in H. destruct H as [H1 H2]. cbn [append lstrip]. rewrite space_white, H1. auto. Qed.
Lemma rstrip_end s c r : white c = false -> blank r -> rstrip (s ++ String c r) = (s ++ String c "")%string.
Proof.
  intros H R. induction s as [|d s IH]; cbn [append rstrip].
  - rewrite (blank_rstrip _ R), space_white, H. reflexivity.
  - rewrite IH. destruct (s ++ String c "")%string eqn:E; [destruct s; discriminate E|reflexivity].
Qed.
Lemma app_assoc_s a b c : (a ++ (b ++ c))%string = ((a ++ b) ++ c)%string.
Proof. induction a as [|x a IH]; cbn; congruence. Qed.
Lemma app_nil_s a : (a ++ "")%string = a.
Proof. induction a as [|x a IH]; cbn; congruence. Qed.
Lemma strip_trimmed line core : trimmed line core -> strip line = core.
Proof.
  intros (l & r & -> & L & R & C). unfold strip. rewrite blank_lstrip by auto. destruct core as [|c0 s0].
  - cbn [append]. replace r with (r ++ "")%string by apply app_nil_s. rewrite blank_lstrip by auto. reflexivity.
  - destruct C as ((c & s & E & H) & c' & s' & E' & H'); [discriminate|]. rewrite E' in E |- *. 
    replace (lstrip ((s' ++ String c' "") ++ r)) with ((s' ++ String c' "") ++ r)%string by (rewrite E; cbn [append lstrip]; now rewrite space_white, H).
    rewrite <- app_assoc_s. cbn [append]. now apply rstrip_end.
Qed.
Lemma trimmed_exists line : exists core, trimmed line core.
Proof.
  assert (B : forall s, blank s \/ exists l c r, s = (l ++ String c r)%string /\ blank l /\ white c = false).
  { induction s as [|c s IH]; [left; apply blank_nil|]. destruct (white c) eqn:E.
    - destruct IH as [H|(l & d & r & -> & H1 & H2)]; [left; now apply blank_cons|]. right. exists (String c l), d, r. split; [reflexivity|]. split; [now apply blank_cons|auto].
    - right. exists ""%string, c, s. split; [reflexivity|]. split; [apply blank_nil|auto]. }
  assert (E : forall s, blank s \/ exists l c r, s = (l ++ String c r)%string /\ blank r /\ white c = false).
  { induction s as [|c s IH]; [left; apply blank_nil|]. destruct IH as [H|(l & d & r & -> & H1 & H2)].
    - destruct (white c) eqn:S; [left; now apply blank_cons|]. right. exists ""%string, c, s. auto.
    - right. exists (String c l), d, r. auto. }
  destruct (B line) as [H|(l & c & r & -> & L & C)].
  - exists ""%string, line, ""%string. split; [cbn; now rewrite app_nil_s|]. split; [auto|]. split; [apply blank_nil|congruence].
  - destruct (E (String c r)) as [H|(m & d & q & E1 & Q & D)]; [apply blank_cons in H; destruct H; congruence|].
    exists (m ++ String d "")%string, l, q. split; [rewrite E1; f_equal; rewrite <- app_assoc_s; reflexivity|]. split; [auto|]. split; [auto|]. intros _. split; [|eauto].
    destruct m as [|x m]; cbn in E1 |- *; injection E1 as <- _; eauto.
Qed.
Section Claims.
Context {F : Type} {N : Num F}.
(** [parse] is the built-in [float]: the claims hold for any of its behaviours. *)
(** the line holds the number [x] / is blank / is neither *)
Definition holds (parse : string -> option F) (line : string) (x : F) : Prop :=
  exists core, trimmed line core /\ core <> ""%string /\ parse core = Some x.
Definition junk (parse : string -> option F) (line : string) : Prop :=
  exists core, trimmed line core /\ core <> ""%string /\ parse core = None.
Definition empty (line : string) : Prop := trimmed line "".
Lemma line_cases parse line : empty line \/ (exists x, holds parse line x) \/ junk parse line.
Proof.
  destruct (trimmed_exists line) as [core T]. destruct core as [|c s]; [now left|right]. destruct (parse (String c s)) as [x|] eqn:P; [left|right].
  - exists x, (String c s). repeat split; auto. discriminate.
  - exists (String c s). repeat split; auto. discriminate.
Qed.
Lemma prompt_holds (parse : string -> option F) d line x rest : holds parse line x -> prompt parse d (line :: rest) = Answer (Some x) rest.
Proof. intros (core & T & NE & P). cbn [prompt]. rewrite (strip_trimmed _ _ T). destruct core; [congruence|]. now rewrite P. Qed.
Lemma prompt_junk (parse : string -> option F) d line rest : junk parse line -> prompt parse d (line :: rest) = prompt parse d rest.
Proof. intros (core & T & NE & P). cbn [prompt]. rewrite (strip_trimmed _ _ T). destruct core; [congruence|]. now rewrite P. Qed.
Lemma prompt_empty (parse : string -> option F) d line rest : empty line -> prompt parse d (line :: rest) = match d with Some x => Answer x rest | None => prompt parse d rest end.
Proof. intros T. cbn [prompt]. now rewrite (strip_trimmed _ _ T). Qed.

(** Without [allow_empty]: the first line holding a number is the answer, and the lines
    after it are left; as long as there is none the call waits. *)
Theorem C70_input_float : forall parse lines,
  (forall pre line x rest, lines = pre ++ line :: rest -> Forall (fun l => empty l \/ junk parse l) pre -> holds parse line x ->
     input_float parse false lines = Answer (Some x) rest) /\
  (Forall (fun l => empty l \/ junk parse l) lines -> input_float parse false lines = Waiting) /\
  (forall rest, input_float parse false lines <> Answer None rest).
Proof.
  intros parse lines. split; [|split].
  - intros pre line x rest -> H P. unfold input_float. induction H as [|l pre [E|J] _ IH]; cbn [app].
    + now apply prompt_holds.
    + rewrite prompt_empty by auto. auto.
    + rewrite prompt_junk by auto. auto.
  - intros H. unfold input_float. induction H as [|l pre [E|J] _ IH]; [reflexivity| |].
    + rewrite prompt_empty by auto. auto.
    + rewrite prompt_junk by auto. auto.
  - unfold input_float. induction lines as [|l lines IH]; intros rest; [discriminate|]. destruct (line_cases parse l) as [E|[[x X]|J]].
    + rewrite prompt_empty by auto. apply IH.
    + rewrite (prompt_holds _ _ _ _ _ X). discriminate.
    + rewrite prompt_junk by auto. apply IH.
Qed.
(** With [allow_empty]: the first line that is blank or holds a number decides. *)
Theorem C70_allow_empty : forall parse lines,
  (forall pre line x rest, lines = pre ++ line :: rest -> Forall (junk parse) pre -> holds parse line x ->
     input_float parse true lines = Answer (Some x) rest) /\
  (forall pre line rest, lines = pre ++ line :: rest -> Forall (junk parse) pre -> empty line ->
     input_float parse true lines = Answer None rest) /\
  (Forall (junk parse) lines -> input_float parse true lines = Waiting).
Proof.
  intros parse lines. unfold input_float. split; [|split].
  - intros pre line x rest -> H P. induction H as [|l pre J _ IH]; cbn [app]; [now apply prompt_holds|rewrite prompt_junk by auto; auto].
  - intros pre line rest -> H P. induction H as [|l pre J _ IH]; cbn [app]; [now rewrite prompt_empty by auto|rewrite prompt_junk by auto; auto].
  - intros H. induction H as [|l pre J _ IH]; [reflexivity|rewrite prompt_junk by auto; auto].
Qed.
(** [input_value]: the number with the given units, or None exactly for an allowed empty
    answer; an unknown unit is refused by [Value] after the answer. *)
Theorem C70_input_value : forall parse units allow_empty lines,
  (forall x rest, input_float parse allow_empty lines = Answer (Some x) rest ->
     input_value parse units allow_empty lines =
       Answer (if match units with None => true | Some u => existsb (String.eqb u) (all_units (F := F)) end
               then Ok (Some (mkv x units)) else Err ValueError) rest) /\
  (forall rest, input_float parse allow_empty lines = Answer None rest -> allow_empty = true /\ input_value parse units allow_empty lines = Answer (Ok None) rest) /\
  (input_float parse allow_empty lines = Waiting -> input_value parse units allow_empty lines = Waiting) /\
  (forall rest, input_value parse units allow_empty lines = Answer (Ok None) rest -> allow_empty = true /\ input_float parse allow_empty lines = Answer None rest).
Proof.
  intros parse units ae lines. unfold input_value. split; [|split; [|split]].
  - intros x rest ->. f_equal. unfold mk_num, mk_value. cbn [set_value pyfloat bindr]. destruct units as [u|]; [|reflexivity]. now destruct (existsb (String.eqb u) all_units).
  - intros rest E. rewrite E. split; [|reflexivity]. destruct ae; [reflexivity|]. now apply (proj2 (proj2 (C70_input_float parse lines))) in E.
  - intros ->. reflexivity.
  - intros rest E. destruct (input_float parse ae lines) as [|[x|] r] eqn:I; try discriminate E.
    + unfold mk_num, mk_value in E. cbn [set_value pyfloat bindr] in E. destruct units as [u|]; [|discriminate E]. destruct (existsb (String.eqb u) all_units); discriminate E.
    + injection E as ->. split; [|reflexivity]. destruct ae; [reflexivity|]. now apply (proj2 (proj2 (C70_input_float parse lines))) in I.
Qed.
End Claims.
Print Assumptions C70_input_float.
Print Assumptions C70_allow_empty.
Print Assumptions C70_input_value.
Example C70_example : let parse s := if String.eqb s "3" then Some (Fin 3%R) else None in
  junk parse "abc" /\ empty "  " /\ holds parse " 3 " (Fin 3%R) /\
  input_float parse false ["abc"; "  "; " 3 "; "4"]%string = Answer (Some (Fin 3%R)) ["4"%string].
Proof.
  cbv zeta. assert (T : trimmed " 3 " "3").
  { exists " "%string, " "%string. split; [reflexivity|]. split; [apply blank_cons; split; [reflexivity|apply blank_nil]|]. split; [apply blank_cons; split; [reflexivity|apply blank_nil]|].
    intros _. split; [exists "3"%char, ""%string; auto|exists "3"%char, ""%string; auto]. }
  split; [|split; [|split; [|reflexivity]]].
  - exists "abc"%string. split; [|split; [discriminate|reflexivity]]. exists ""%string, ""%string. split; [reflexivity|]. split; [apply blank_nil|]. split; [apply blank_nil|].
    intros _. split; [exists "a"%char, "bc"%string; auto|exists "c"%char, "ab"%string; auto].
  - exists "  "%string, ""%string. split; [reflexivity|]. split; [repeat (apply blank_cons; split; [reflexivity|]); apply blank_nil|]. split; [apply blank_nil|congruence].
  - exists "3"%string. split; [exact T|]. split; [discriminate|reflexivity].
Qed.
