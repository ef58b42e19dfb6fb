(** * Which exceptions are raised: Values, units, vectors, JSON, sparse matrices (C05, C07, C11,
    C14, C16, C37, C82, C91), and the basis vectors (C101). *)
From Coq Require Import Reals ZArith String List Bool Lra Lia.
From Verif Require Import Num B64 Vec RVec SpecGeom NpList MRounding MUnits SpecUnits MValue SpecValue MJson PJson MProtocol MVx MPlane MSegment
  MNormals MMatlab VLemmas XLemmas PUnits PUnits2.
Import ListNotations.
Set Implicit Arguments.
Unset Strict Implicit.
Local Open Scope string_scope.

(** ** C11.  The exception of every unsupported operation. *)
Theorem C11_exceptions : forall (v w : value b64) (o : pyobj b64) (n : b64) l,
  py_mul (PVal v) (PVal w) = Err ValueError /\
  py_truediv (PNum n) (PVal v) = Err ValueError /\ py_truediv (PList l) (PVal v) = Err ValueError /\
  py_floordiv (PNum n) (PVal v) = Err ValueError /\ py_floordiv (PList l) (PVal v) = Err ValueError /\
  py_truediv (PVal v) (PList l) = Err TypeError /\ py_floordiv (PVal v) (PList l) = Err TypeError /\
  py_mod (PVal v) o = Err AttributeError /\ py_pow (PVal v) o = Err AttributeError /\
  py_mod (PNum n) (PVal v) = Err TypeError /\ py_pow (PNum n) (PVal v) = Err TypeError /\
  py_lt (PVal v) (PList l) = Err TypeError /\ py_eq (PVal v) (PList l) = Err TypeError.
Proof. intros. repeat split. Qed.
Print Assumptions C11_exceptions.
(** A list of numbers and Values with a Value in it cannot be multiplied. *)
Theorem C11_list_with_value : forall (v w : value b64) l,
  Forall (fun o => match o with PList _ => False | _ => True end) l -> In (PVal w) l ->
  py_mul (PVal v) (PList l) = Err ValueError /\ py_mul (PList l) (PVal v) = Err ValueError.
Proof.
  intros v w l H I. enough (E : traverse (v_mul v) l = Err ValueError) by (split; change (mapr (@PList b64) (traverse (v_mul v) l) = Err ValueError); now rewrite E).
  induction l as [|o l IH]; [destruct I|]. inversion_clear H as [|? ? Ho Hl]. cbn [traverse]. destruct o as [x|w'|l']; [|reflexivity|destruct Ho].
  destruct I as [D|I]; [discriminate|]. cbn [v_mul]. unfold mk_num, mk_value. cbn [set_value pyfloat bindr].
  destruct (v_units v) as [s|]; [destruct (existsb _ _)|]; cbn [mapr bindr]; try reflexivity; now rewrite IH.
Qed.
Print Assumptions C11_list_with_value.
Example C11_list_with_value_example : let w := mkv (nofZ 1 : b64) (Some "cm") in
  Forall (fun o => match o with PList _ => False | _ => True end) [PNum (nofZ 2); PVal w] /\ In (PVal w) [PNum (nofZ 2); PVal w].
Proof. intros w. split; [repeat apply Forall_cons; auto|right; now left]. Qed.

(** ** C05, C07.  A Value without units has no system default; None cannot be prettified. *)
Theorem C05_unitless_value : forall x s, v_convert_to_system_default (mkv (x : b64) None) (system_name s) = Err KeyError.
Proof. intros x []; reflexivity. Qed.
Print Assumptions C05_unitless_value.
Theorem C05_unknown_system : forall (v : value b64) u x system ex, (forall s, system <> system_name s) -> unit_ok u ->
  default_units system ex = Err KeyError /\ convert_to_system_default (F := b64) x u system = Err KeyError /\
  (unit_ok (v_units v) -> v_convert_to_system_default v system = Err KeyError).
Proof.
  intros v u x system ex H U. assert (E : forall ex, default_units system ex = Err KeyError).
  { intros ex'. unfold default_units, dict_get. assert (D : dict_find system default_table = None); [|now rewrite D].
    unfold default_table. cbn [dict_find]. pose proof (H Metric) as H1. pose proof (H UnitedStates) as H2. cbn [system_name] in H1, H2.
    destruct (String.eqb_spec system "metric"); [contradiction|]. destruct (String.eqb_spec system "united_states"); [contradiction|]. reflexivity. }
  split; [apply E|]. split; [unfold convert_to_system_default; now rewrite E|]. intros UV. unfold v_convert_to_system_default. rewrite E.
  destruct UV as [->|(s & -> & k & m & K)]; [reflexivity|]. destruct (units_class _) as [c|e] eqn:C; [reflexivity|]. cbn [bindr].
  unfold units_class in C. destruct (blank (Some s)); [discriminate|]. unfold units_get, dict_get in C. destruct (dict_find s unit_table); [discriminate|]. cbn in C. congruence.
Qed.
Print Assumptions C05_unknown_system.

(** None in a known unit, or in none, cannot be prettified. *)
Theorem C07_none : forall u precision, unit_ok u -> prettify (F := xr) None u precision = Err TypeError.
Proof.
  intros u precision H. unfold prettify. assert (A : exists w, convert_to_system_default (F := xr) None u "metric" = Ok (None, w)).
  { destruct H as [->|(s & -> & k & m & K)]; [exists None; reflexivity|]. 
    destruct (@system_default_same 0 s k m Metric K) as (y & m' & E & _). revert E. unfold convert_to_system_default, convert_to_default, convert. cbn [system_name].
    destruct (default_units _ _) as [d|e]; cbn [bindr]; [|intros D; discriminate D]. destruct (units_class _) as [[c|]|e]; cbn [bindr]; [|eauto|intros D; discriminate D].
    destruct (dict_get c d) as [t|e]; cbn [bindr]; [|intros D; discriminate D]. destruct (factor _ _ _) as [f|e]; cbn [bindr]; [eauto|intros D; discriminate D]. }
  destruct A as (w & ->). cbn [bindr]. unfold round_value. cbn [fst snd].
  assert (D : exists q, display_step (F := xr) w precision = Ok q). { destruct w as [w|]; [rewrite display_step_value; eauto|]. exact (ex_intro _ _ (display_step_value "" precision)). }
  destruct D as (q & ->). reflexivity.
Qed.
Print Assumptions C07_none.

(** ** C16.  Arrays with neither one nor two axes are refused. *)
Theorem C16_other_ranks : forall F (N : Num F) (w : V3 F) axis, normalize (@OtherNdim F) = Err ValueError /\
  proj OtherNdim w = Err ValueError /\ reject OtherNdim w = Err ValueError /\ magnitude (@OtherNdim F) = Err ValueError /\
  reject_axis (@OtherNdim F) axis = Err ValueError /\ reject_axis_squash (@OtherNdim F) axis = Err ValueError.
Proof. intros F N w axis. repeat split. unfold reject_axis_squash. now destruct (negb _). Qed.
Print Assumptions C16_other_ranks.

(** ** C101.  The six basis vectors: unit, in opposite pairs, the first three right-handed;
    any vector is the sum of its projections on them. *)
Theorem C101_basis : exists x y z : V3 R, basis_x = fin3 x /\ basis_y = fin3 y /\ basis_z = fin3 z /\
  basis_neg_x = fin3 (rscale (-1) x) /\ basis_neg_y = fin3 (rscale (-1) y) /\ basis_neg_z = fin3 (rscale (-1) z) /\
  rnorm x = 1%R /\ rnorm y = 1%R /\ rnorm z = 1%R /\ rdot x y = 0%R /\ rdot y z = 0%R /\ rdot z x = 0%R /\
  rcross x y = z /\ rcross y z = x /\ rcross z x = y /\
  forall v, v = mk3 (rdot v x) (rdot v y) (rdot v z).
Proof.
  exists (mk3 1 0 0)%R, (mk3 0 1 0)%R, (mk3 0 0 1)%R.
  repeat match goal with |- _ /\ _ => split end;
    try (unfold basis_x, basis_y, basis_z, basis_neg_x, basis_neg_y, basis_neg_z, fin3, rscale, n0; unfold map3; cbn [c0 c1 c2]; rewrite ?xofZ; repeat (f_equal; try lra));
    try (unfold rnorm, rdot; cbn [c0 c1 c2]; match goal with |- sqrt ?e = _ => replace e with 1%R by ring; apply sqrt_1 end);
    try (unfold rdot; cbn [c0 c1 c2]; lra); try (unfold rcross; cbn [c0 c1 c2]; f_equal; lra).
  intros [a b c]. unfold rdot; cbn [c0 c1 c2]. f_equal; lra.
Qed.
Print Assumptions C101_basis.
(** ** C37.  No points, no partition. *)
Theorem C37_no_points : forall F (N : Num F) n, partition (@nil (V3 F)) n = Err IndexError.
Proof. reflexivity. Qed.
Print Assumptions C37_no_points.

(** ** C91.  Whatever is not returned is a ValueError, except a number of rows without a
    number of columns. *)
Theorem C91_exceptions : forall F (N : Num F) i j (data : list F) m n e, matlab_sparse i j data m n = Err e ->
  e = ValueError \/ (e = TypeError /\ m <> None /\ n = None /\ length (nd_entries i) = length (nd_entries j)).
Proof.
  intros F N i j data m n e. unfold matlab_sparse. destruct (Nat.eqb_spec (length (nd_entries i)) (length (nd_entries j))) as [L|L]; [|intros [= <-]; auto].
  assert (C : forall sh, csc_coo data (nd_entries i) (nd_entries j) sh = Err e -> e = ValueError).
  { intros sh. unfold csc_coo. destruct (match sh with Some _ => _ | None => _ end) as [[r c]|e'] eqn:S; cbn [bindr fst snd].
    - destruct (_ && _); [|congruence]. unfold coo. destruct (_ || _); congruence.
    - intros [= <-]. destruct sh; [discriminate|]. destruct (extent (nd_entries i)); [destruct (extent (nd_entries j))|]; congruence. }
  destruct m as [m|]; [destruct n as [n|]|].
  - intros E. left. eapply C; eauto.
  - intros [= <-]. right. repeat split; auto. discriminate.
  - intros E. left. eapply C; eauto.
Qed.
Print Assumptions C91_exceptions.

(** ** C82.  Every index but 0 and 1. *)
Theorem C82_other_keys : forall (v w : value xr) l, v_getitem v (PList l) = Err KeyError /\
  (forall x, x <> 0%R -> x <> 1%R -> v_getitem v (PNum (Fin x)) = Err KeyError) /\ v_getitem v (PNum NaN) = Err KeyError /\
  v_getitem v (PVal w) = v_getitem v (PNum (v_val w)).
Proof.
  intros v w l. split; [reflexivity|]. split; [|split; [reflexivity|]].
  - intros x H0 H1. unfold v_getitem, key_is. cbn [bindr]. rewrite !xofZ. xs. rewrite !Flocq.Core.Raux.Req_bool_false by auto. reflexivity.
  - unfold v_getitem, key_is, v_eq, v_cmp. reflexivity.
Qed.
Print Assumptions C82_other_keys.

(** ** C14.  What [dumps] refuses, and what [loads] makes of the marked objects. *)
Inductive holds_array {F} : doc F -> Prop :=
| ha_array dt a : holds_array (DArr dt a)
| ha_sparse d : holds_array (DSparse d)
| ha_list l x : In x l -> holds_array x -> holds_array (DList l)
| ha_obj d k x : In (k, x) d -> holds_array x -> holds_array (DObj d).
Theorem C14_dumps_refuses : forall t : doc b64,
  (holds_array t /\ encode t = Err TypeError) \/ (~ holds_array t /\ exists j, encode t = Ok j).
Proof.
  assert (T : forall A B (f : A -> res B) (P : A -> Prop) l, Forall (fun x => (P x /\ f x = Err TypeError) \/ (~ P x /\ exists j, f x = Ok j)) l ->
    ((exists x, In x l /\ P x) /\ traverse f l = Err TypeError) \/ (~ (exists x, In x l /\ P x) /\ exists js, traverse f l = Ok js)).
  { intros A B f P l H. induction H as [|x l [(Px & E)|(Px & j & E)] H IH]; cbn [traverse].
    - right. split; [intros (x & [] & _)|eauto].
    - left. split; [exists x; split; [now left|auto]|]. now rewrite E.
    - rewrite E. cbn [bindr]. destruct IH as [((y & I & Py) & E2)|(NP & js & E2)]; rewrite E2; cbn [bindr].
      + left. split; [exists y; split; [now right|auto]|reflexivity].
      + right. split; [|eauto]. intros (y & [<-|I] & Py); [auto|]. apply NP. eauto. }
  intros t. induction t as [|b|x|s|l IH|d IH|v|dt a|d] using doc_ind'; try (right; split; [intros H; inversion H|eexists; reflexivity]).
  - cbn [encode]. destruct (T _ _ encode holds_array l IH) as [((x & I & H) & E)|(NP & js & E)]; rewrite E; cbn [mapr].
    + left. split; [econstructor; eauto|reflexivity].
    + right. split; [|eauto]. intros H. inversion H; subst. eauto.
  - cbn [encode]. set (f := fun kv : string * doc b64 => mapr (pair (fst kv)) (encode (snd kv))).
    destruct (T _ _ f (fun kv => holds_array (snd kv)) d) as [((x & I & H) & E)|(NP & js & E)].
    { eapply Forall_impl; [|exact IH]. intros [k x] [(H & E)|(H & j & E)]; cbn [fst snd] in *; unfold f; cbn [fst snd]; rewrite E; cbn [mapr]; eauto. }
    + rewrite E. left. destruct x as [k x]. split; [econstructor; eauto|reflexivity].
    + rewrite E. right. split; [|eexists; reflexivity]. intros H. inversion H as [| | |? k x I Hx]; subst. apply NP. exists (k, x). auto.
  - left. split; [constructor|reflexivity].
  - left. split; [constructor|reflexivity].
Qed.
Print Assumptions C14_dumps_refuses.
(** an object marked as a sparse matrix is one if it has all six fields, and is left alone
    otherwise *)
Theorem C14_sparse_fields : forall d : dict (doc b64), dict_find "__value__" d = None -> dict_find "__ndarray__" d = None ->
  dict_find "__scipy.sparse.sparsematrix__" d <> None ->
  (decode_json d = Ok (DSparse d) /\ forall k, In k ["dtype"; "shape"; "data"; "format"; "row"; "col"] -> dict_find k d <> None) \/
  (decode_json d = Ok (DObj d) /\ exists k, In k ["dtype"; "shape"; "data"; "format"; "row"; "col"] /\ dict_find k d = None).
Proof.
  intros d H1 H2 H3. unfold decode_json. rewrite H1, H2.
  assert (H : has "__scipy.sparse.sparsematrix__" d = true) by (unfold has; destruct (dict_find "__scipy.sparse.sparsematrix__" d); [reflexivity|congruence]). rewrite H.
  destruct (forallb _ _) eqn:E; cbn [negb].
  - left. split; [reflexivity|]. intros k I. rewrite forallb_forall in E. specialize (E k I). unfold has in E. destruct (dict_find k d); [discriminate|discriminate].
  - right. split; [reflexivity|]. cbn [forallb] in E. unfold has in E.
    repeat (apply andb_false_iff in E as [E|E]; [match type of E with context [dict_find ?k d] => exists k; split; [cbn; tauto|destruct (dict_find k d); [discriminate|reflexivity]] end|]). discriminate.
Qed.
Print Assumptions C14_sparse_fields.
(** a marked Value needs a number (true counts as 1 and false as 0) and a recognised unit *)
Theorem C14_value_fields : forall (x u : doc b64),
  let d := [("__value__", DObj [("value", x); ("units", u)])] in
  (forall y s, x = DNum y -> u = DStr s -> decode_json d = mapr DVal (mk_num y (Some s))) /\
  (forall y, x = DNum y -> u = DNull -> decode_json d = Ok (DVal (mkv y None))) /\
  (forall b, x = DBool b -> u = DNull -> decode_json d = Ok (DVal (mkv (nofZ (if b then 1 else 0)) None))) /\
  (forall s, x = DStr s -> decode_json d = Err ValueError) /\ (x = DNull -> decode_json d = Err ValueError) /\
  (forall l, x = DList l -> decode_json d = Err TypeError) /\ (forall o, x = DObj o -> decode_json d = Err TypeError) /\
  decode_json [("__value__", DObj [("units", u)])] = Err TypeError /\ decode_json [("__value__", DNum (nofZ 1 : b64))] = Err TypeError.
Proof. intros x u d. repeat split; intros; subst; reflexivity. Qed.
Print Assumptions C14_value_fields.
