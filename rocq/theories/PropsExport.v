(** * Property C96: Polyline.to_dict. *)
From Coq Require Import Reals ZArith List String Bool Lra Lia.
From Flocq Require Import Core.
From Verif Require Import Num XLemmas Vec NpList MRounding MPlane MPolyline MValue MJson MExport.
Import ListNotations.
Local Open Scope string_scope.
Local Open Scope R_scope.

(** Every vertex is there, in order, with each coordinate a multiple of [10^-decimals] no
    further than half of that away; the edges are those of the polyline. *)
Definition rounded (d : nat) (x y : R) : Prop := Rabs (y - x) <= / 2 * / 10 ^ d /\ exists k, y = IZR k / 10 ^ d.
Lemma around_ok d x : exists y, around d (Fin x) = Fin y /\ rounded d x y.
Proof.
  unfold around, round_places, py_round. cbn [nofZ]. assert (P : 0 < 10 ^ d) by (apply pow_lt; lra).
  assert (E : IZR (10 ^ Z.of_nat d) = 10 ^ d) by (rewrite <- pow_IZR; reflexivity).
  rewrite xofZ, E, xmul, xround.
  assert (H : Rabs (x * 10 ^ d - IZR (ZnearestE (x * 10 ^ d))) <= / 2) by apply Znearest_half. revert H. generalize (ZnearestE (x * 10 ^ d)). intros z H. cbn [bindr]. rewrite xofZ, xdivE by lra. eexists. split; [reflexivity|]. split; [|eauto].
  set (k := IZR z) in *.
  replace (k / 10 ^ d - x) with (- (x * 10 ^ d - k) * / 10 ^ d) by (field; lra). rewrite Rabs_mult, Rabs_Ropp, (Rabs_pos_eq (/ 10 ^ d)) by (left; now apply Rinv_0_lt_compat).
  apply Rmult_le_compat_r; [left; now apply Rinv_0_lt_compat|]. exact H.
Qed.
Theorem C96_to_dict : forall v closed e d, exists rows, to_dict (mkpoly (Some (map fin3 v)) closed (Some e)) d =
    Ok (DObj [("vertices", DList (map (fun r => DList [DNum (Fin (c0 r)); DNum (Fin (c1 r)); DNum (Fin (c2 r))]) rows));
              ("edges", DArr (Some (DStr "int64")) (DList (map (fun ab => DList [DNum (Fin (INR (fst ab))); DNum (Fin (INR (snd ab)))]) e)))]) /\
    Forall2 (fun p r => rounded d (c0 p) (c0 r) /\ rounded d (c1 p) (c1 r) /\ rounded d (c2 p) (c2 r)) v rows.
Proof.
  intros v closed e d. unfold to_dict. cbn [p_v p_e].
  assert (G : exists rows, map (fun x : V3 xr => DList [DNum (around d (c0 x)); DNum (around d (c1 x)); DNum (around d (c2 x))]) (map fin3 v) =
      map (fun r : V3 R => DList [DNum (Fin (c0 r)); DNum (Fin (c1 r)); DNum (Fin (c2 r))]) rows /\
      Forall2 (fun p r => rounded d (c0 p) (c0 r) /\ rounded d (c1 p) (c1 r) /\ rounded d (c2 p) (c2 r)) v rows).
  { induction v as [|p v IH]; [exists []; split; [reflexivity|constructor]|]. destruct IH as (rows & E & F).
    destruct (around_ok d (c0 p)) as (a & Ea & Ra). destruct (around_ok d (c1 p)) as (b & Eb & Rb). destruct (around_ok d (c2 p)) as (c & Ec & Rc).
    exists (mk3 a b c :: rows). cbn [map c0 c1 c2 fin3 map3]. rewrite E, Ea, Eb, Ec. split; [reflexivity|]. constructor; auto. }
  destruct G as (rows & E & F). exists rows. cbn [map]. rewrite E. split; [|exact F]. rewrite (map_ext edge_doc (fun ab => DList [DNum (Fin (INR (fst ab))); DNum (Fin (INR (snd ab)))])); [reflexivity|].
  intros [a b]. unfold edge_doc. cbn [fst snd]. now rewrite !xofZ, <- !INR_IZR_INZ.
Qed.
Print Assumptions C96_to_dict.
(** But what it returns cannot be written as JSON, by this package's own [dumps]: the edges
    are an index array.  Without vertices there is no dictionary at all. *)
Theorem C119_json_refuted : forall F (N : Num F) v closed e d,
  (exists t, to_dict (mkpoly (Some v) closed (Some e)) d = Ok t /\ encode t = Err TypeError) /\
  to_dict (mkpoly None closed None) d = Err TypeError.
Proof.
  intros F N v closed e d. split; [|reflexivity]. eexists. split; [reflexivity|]. cbn [encode traverse fst snd].
  set (l := map _ v). assert (G : exists js, traverse encode l = Ok js).
  { unfold l. clear. cbn [map]. induction v as [|p v [js IH]]; [eexists; reflexivity|]. cbn [map traverse encode mapr bindr]. rewrite IH. cbn. eauto. }
  destruct G as (js & ->). reflexivity.
Qed.
Print Assumptions C119_json_refuted.
Example C96_example : exists t, to_dict (mkpoly (Some (map fin3 [mk3 1 2 3])) false (Some [])) 3 = Ok t /\ encode t = Err TypeError.
Proof. eexists. split; reflexivity. Qed.
