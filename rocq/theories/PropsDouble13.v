(** * Property C159: centroid and translation in double precision. *)
From Coq Require Import Reals ZArith List Bool Lra Lia.
From Flocq Require Import Core IEEE754.BinarySingleNaN.
From Verif Require Import Num B64 BLemmas Vec RVec SpecGeom SpecDouble SpecTransD MRotation PErr PNormD PMeanD PropsDouble PropsDouble6 PropsDouble7.
Import ListNotations.
Local Open Scope R_scope.

Lemma with_images A B (P : A -> B -> Prop) (h : A -> B) l : Forall (fun x => P x (h x)) l -> Forall2 P l (map h l).
Proof. induction 1; constructor; auto. Qed.
Lemma comp_close e g (f : V3 R -> R) ps qs : Forall2 (fun p q => close3 e q (rsub (Rval3 p) g)) ps qs -> (forall x y, close3 e x y -> Rabs (f (Rval3 x) - f y) <= e) -> (forall a b, f (rsub a b) = f a - f b) ->
  Forall2 (fun p q => Rabs (f q - (f p - f g)) <= e) (map Rval3 ps) (map Rval3 qs).
Proof. intros H K L. induction H as [|p q ps qs E _ IH]; cbn [map]; constructor; [|exact IH]. rewrite <- L. exact (K q _ E). Qed.
(** ** C159.  [n] points with coordinates up to [M]; [centroid] is the exact one. *)
Theorem C159_translation : forall M (ps : list (V3 b64)), ordinary M -> Forall (within M) ps -> ps <> [] -> (Z.of_nat (length ps) <= 2 ^ 30)%Z ->
  let n := INR (length ps) in let g := centroid (map Rval3 ps) in
  exists qs f, translation ps None = (qs, f) /\ close3 ((n + 2) * (ulp_1 * M)) f (rscale (-1) g) /\
    Forall2 (fun p q => close3 ((n + 5) * (ulp_1 * M)) q (rsub (Rval3 p) g)) ps qs /\ coords_le ((n + 5) * (ulp_1 * M)) (centroid (map Rval3 qs)).
Proof.
  intros M ps HM H NE HL n g. destruct (@translate_ap M ps HM H NE HL) as (Cf & Cq & _). fold n g in Cf, Cq. set (f := vopp (vmean ps)) in *. exists (map (fun p => vadd p f) ps), f.
  split; [reflexivity|]. split; [exact Cf|]. assert (G : Forall2 (fun p q => close3 ((n + 5) * (ulp_1 * M)) q (rsub (Rval3 p) g)) ps (map (fun p => vadd p f) ps)) by (apply with_images; exact Cq).
  split; [exact G|]. set (qs := map (fun p => vadd p f) ps) in *. assert (NE' : map Rval3 ps <> []) by (destruct ps; [contradiction|discriminate]).
  split; [|split]; unfold centroid at 1; cbn [c0 c1 c2].
  - apply centred_comp with (ps := map Rval3 ps) (c := c0 g); [|exact NE'|reflexivity]. apply (comp_close _ g (fun v => c0 v) ps qs G); [|reflexivity]. intros x y (_ & E & _). exact E.
  - apply centred_comp with (ps := map Rval3 ps) (c := c1 g); [|exact NE'|reflexivity]. apply (comp_close _ g (fun v => c1 v) ps qs G); [|reflexivity]. intros x y (_ & _ & E & _). exact E.
  - apply centred_comp with (ps := map Rval3 ps) (c := c2 g); [|exact NE'|reflexivity]. apply (comp_close _ g (fun v => c2 v) ps qs G); [|reflexivity]. intros x y (_ & _ & _ & E). exact E.
Qed.
Print Assumptions C159_translation.
(** moving back by the returned factor: an error that does not grow with the number of points *)
Theorem C159_back : forall M (ps : list (V3 b64)), ordinary M -> Forall (within M) ps -> ps <> [] -> (Z.of_nat (length ps) <= 2 ^ 30)%Z ->
  forall qs f, translation ps None = (qs, f) -> exists rs, translation qs (Some (vopp f)) = (rs, vopp f) /\ Forall2 (fun p r => close3 (4 * (ulp_1 * M)) r (Rval3 p)) ps rs.
Proof.
  intros M ps HM H NE HL qs f E. destruct (@translate_ap M ps HM H NE HL) as (_ & _ & Cr). injection E as <- <-. eexists. split; [reflexivity|]. cbn [fst]. rewrite map_map. apply with_images. exact Cr.
Qed.
Print Assumptions C159_back.
Theorem C159_given_factor : forall M (ps : list (V3 b64)) f, ordinary M -> Forall (within M) ps -> within M f ->
  exists qs, translation ps (Some f) = (qs, f) /\ Forall2 (fun p q => close3 (2 * (ulp_1 * M)) q (radd (Rval3 p) (Rval3 f))) ps qs.
Proof.
  intros M ps f HM H (Ff & A0 & A1 & A2). eexists. split; [reflexivity|]. apply abs_le in A0, A1, A2. induction H as [|p ps (Fp & B0 & B1 & B2) _ IH]; constructor; [|exact IH]. apply abs_le in B0, B1, B2.
  replace (2 * (ulp_1 * M)) with (PErr.eps * (2 * M)) by (change ulp_1 with PErr.eps; ring). apply vadd_ap; auto; [apply span_mid; [exact HM|lra]|..]; apply abs_le; lra.
Qed.
Print Assumptions C159_given_factor.
Example C159_example : ordinary 8 /\ Forall (within 8) [int3 1 2 3; int3 4 5 6; int3 7 8 0] /\ centroid (map Rval3 [int3 1 2 3; int3 4 5 6; int3 7 8 0]) = mk3 4 5 3.
Proof.
  destruct (@int3_val 1 2 3) as [W1 V1]; try lia. destruct (@int3_val 4 5 6) as [W2 V2]; try lia. destruct (@int3_val 7 8 0) as [W3 V3]; try lia. destruct W1 as [F1 _], W2 as [F2 _], W3 as [F3 _].
  split; [apply PropsDouble6.ordinary_near; lra|]. split.
  - apply Forall_cons; [|apply Forall_cons; [|apply Forall_cons; [|apply Forall_nil]]]; (split; [assumption|]).
    + change (Rabs (c0 (Rval3 (int3 1 2 3))) <= 8 /\ Rabs (c1 (Rval3 (int3 1 2 3))) <= 8 /\ Rabs (c2 (Rval3 (int3 1 2 3))) <= 8). rewrite V1. cbn [c0 c1 c2]. split; [|split]; apply Rabs_le; lra.
    + change (Rabs (c0 (Rval3 (int3 4 5 6))) <= 8 /\ Rabs (c1 (Rval3 (int3 4 5 6))) <= 8 /\ Rabs (c2 (Rval3 (int3 4 5 6))) <= 8). rewrite V2. cbn [c0 c1 c2]. split; [|split]; apply Rabs_le; lra.
    + change (Rabs (c0 (Rval3 (int3 7 8 0))) <= 8 /\ Rabs (c1 (Rval3 (int3 7 8 0))) <= 8 /\ Rabs (c2 (Rval3 (int3 7 8 0))) <= 8). rewrite V3. cbn [c0 c1 c2]. split; [|split]; apply Rabs_le; lra.
  - cbn [map]. rewrite V1, V2, V3. unfold centroid. cbn [map c0 c1 c2 rsum length INR]. f_equal; field.
Qed.
