(** * Proofs about the Jacobians of rodrigues. *)
From Coq Require Import Reals ZArith List Bool Lra Lia Psatz.
From Flocq Require Import Core.
From Verif Require Import Num Vec RVec NpList XLemmas VLemmas SpecRotation SpecJacobian MRotation MJacobian PMat3 PRotation.
Import ListNotations.
Local Open Scope R_scope.
Set Implicit Arguments. Unset Strict Implicit.

Lemma coord_cases {A} (i : Z) (P : A -> Prop) (v : V3 A) : P (c0 v) -> P (c1 v) -> P (c2 v) -> P (coord i v).
Proof. intros. unfold coord. destruct i as [|[]|]; auto. Qed.
Lemma coord_all {A} (P : (V3 A -> A) -> Prop) : P c0 -> P c1 -> P c2 -> forall i, P (coord i).
Proof. intros P0 P1 P2 i. unfold coord. destruct i as [|[p|p|]|p]; auto. Qed.

(** local equality *)
Lemma deriv_local f g t l e : 0 < e -> (forall x, Rabs (x - t) < e -> f x = g x) -> derivable_pt_lim f t l -> derivable_pt_lim g t l.
Proof.
  intros E H D eps He. destruct (D eps He) as [d Hd]. assert (P : 0 < Rmin d e) by (apply Rmin_pos; auto; apply cond_pos).
  exists (mkposreal _ P). intros h H0 Hh. cbn in Hh. rewrite <- !H.
  - apply Hd; auto. eapply Rlt_le_trans; [exact Hh|apply Rmin_l].
  - replace (t - t) with 0 by ring. rewrite Rabs_R0. auto.
  - replace (t + h - t) with h by ring. eapply Rlt_le_trans; [exact Hh|apply Rmin_r].
Qed.
Lemma deriv_ext f g t l : (forall x, f x = g x) -> derivable_pt_lim f t l -> derivable_pt_lim g t l.
Proof. intros H. apply deriv_local with 1; [lra|auto]. Qed.
Lemma deriv_eq f t l l' : l = l' -> derivable_pt_lim f t l -> derivable_pt_lim f t l'.
Proof. now intros ->. Qed.
Lemma deriv_comp f g t l k : derivable_pt_lim f t l -> derivable_pt_lim g (f t) k -> derivable_pt_lim (fun x => g (f x)) t (k * l).
Proof. intros A B. exact (derivable_pt_lim_comp f g t l k A B). Qed.
Lemma deriv_plus f g t l k : derivable_pt_lim f t l -> derivable_pt_lim g t k -> derivable_pt_lim (fun x => f x + g x) t (l + k).
Proof. intros A B. exact (derivable_pt_lim_plus f g t l k A B). Qed.
Lemma deriv_minus f g t l k : derivable_pt_lim f t l -> derivable_pt_lim g t k -> derivable_pt_lim (fun x => f x - g x) t (l - k).
Proof. intros A B. exact (derivable_pt_lim_minus f g t l k A B). Qed.
Lemma deriv_mult f g t l k : derivable_pt_lim f t l -> derivable_pt_lim g t k -> derivable_pt_lim (fun x => f x * g x) t (l * g t + f t * k).
Proof. intros A B. exact (derivable_pt_lim_mult f g t l k A B). Qed.
Lemma deriv_const a t : derivable_pt_lim (fun _ => a) t 0.
Proof. exact (derivable_pt_lim_const a t). Qed.
Lemma deriv_inv f t l : f t <> 0 -> derivable_pt_lim f t l -> derivable_pt_lim (fun x => / f x) t (- l / (f t * f t)).
Proof.
  intros NZ A. assert (D := derivable_pt_lim_div (fct_cte 1) f t 0 l (derivable_pt_lim_const 1 t) A NZ).
  apply deriv_ext with (div_fct (fct_cte 1) f); [intros x; unfold div_fct, fct_cte, Rdiv; ring|].
  eapply deriv_eq; [|exact D]. unfold fct_cte, Rsqr, Rdiv. ring.
Qed.
Lemma deriv_cos f t l : derivable_pt_lim f t l -> derivable_pt_lim (fun x => cos (f x)) t (- sin (f t) * l).
Proof. intros. apply (deriv_comp (g := cos) H). apply derivable_pt_lim_cos. Qed.
Lemma deriv_sin f t l : derivable_pt_lim f t l -> derivable_pt_lim (fun x => sin (f x)) t (cos (f t) * l).
Proof. intros. apply (deriv_comp (g := sin) H). apply derivable_pt_lim_sin. Qed.
Lemma deriv_continuous f t l : derivable_pt_lim f t l -> forall e, 0 < e -> exists d, 0 < d /\ forall x, Rabs (x - t) < d -> Rabs (f x - f t) < e.
Proof.
  intros D e He. assert (C : continuity_pt f t) by (apply derivable_continuous_pt; exists l; exact D).
  destruct (C e He) as (d & Hd & H). exists d. split; auto. intros x Hx. destruct (Req_dec x t) as [->|N].
  - replace (f t - f t) with 0 by ring. now rewrite Rabs_R0.
  - apply H. split; [split; [exact I|auto]|exact Hx].
Qed.

(** ** vectors *)
Section Curve.
Context (r : R -> V3 R) (t : R) (d : V3 R) (D : vec_derivative r t d).
Let D0 : derivable_pt_lim (fun x => c0 (r x)) t (c0 d) := D 0%Z.
Let D1 : derivable_pt_lim (fun x => c1 (r x)) t (c1 d) := D 1%Z.
Let D2 : derivable_pt_lim (fun x => c2 (r x)) t (c2 d) := D 2%Z.
Lemma deriv_norm : 0 < rnorm (r t) -> derivable_pt_lim (fun x => rnorm (r x)) t (rdot (r t) d / rnorm (r t)).
Proof.
  intros P. assert (S : derivable_pt_lim (fun x => rdot (r x) (r x)) t (2 * rdot (r t) d)).
  { unfold rdot. eapply deriv_eq; [|apply deriv_plus; [apply deriv_plus|]; apply deriv_mult; [exact D0|exact D0|exact D1|exact D1|exact D2|exact D2]].
    cbv beta. ring. }
  assert (Q : 0 < rdot (r t) (r t)) by (rewrite <- rnorm_sq; nra).
  eapply deriv_eq; [|exact (deriv_comp S (derivable_pt_lim_sqrt _ Q))].
  change (sqrt (rdot (r t) (r t))) with (rnorm (r t)). field. lra.
Qed.
Lemma deriv_unit (p : V3 R -> R) : (forall s v, p (rscale s v) = s * p v) -> derivable_pt_lim (fun x => p (r x)) t (p d) ->
  0 < rnorm (r t) -> let n := rnorm (r t) in let u := rscale (/ n) (r t) in
  derivable_pt_lim (fun x => p (rscale (/ rnorm (r x)) (r x))) t ((p d - rdot u d * p u) / n).
Proof.
  intros PS PD P n u. eapply deriv_ext; [intros x; symmetry; apply PS|].
  eapply deriv_eq; [|apply deriv_mult; [apply deriv_inv; [lra|apply deriv_norm, P]|exact PD]].
  cbv beta. unfold u. rewrite PS. unfold rdot, rscale. cbn [c0 c1 c2]. fold n. field. unfold n. lra.
Qed.
End Curve.

(** the real form of the reported Jacobian *)
Definition rmadd (a b : M3 R) : M3 R := zip3 radd a b.
Definition rmscale (s : R) (m : M3 R) : M3 R := map3 (rscale s) m.
Definition rrrt (u : V3 R) : M3 R := mk3 (map3 (fun x => x * c0 u) u) (map3 (fun x => x * c1 u) u) (map3 (fun x => x * c2 u) u).
Definition rcrossm (u : V3 R) : M3 R := mk3 (mk3 0 (- c2 u) (c1 u)) (mk3 (c2 u) 0 (- c0 u)) (mk3 (- c1 u) (c0 u) 0).
Definition rd_cross : V3 (M3 R) :=
  mk3 (mk3 (mk3 0 0 0) (mk3 0 0 (-1)) (mk3 0 1 0)) (mk3 (mk3 0 0 1) (mk3 0 0 0) (mk3 (-1) 0 0)) (mk3 (mk3 0 (-1) 0) (mk3 1 0 0) (mk3 0 0 0)).
Definition rd_rrt (r : V3 R) : V3 (M3 R) :=
  mk3 (mk3 (mk3 (c0 r + c0 r) (c1 r) (c2 r)) (mk3 (c1 r) 0 0) (mk3 (c2 r) 0 0))
      (mk3 (mk3 0 (c0 r) 0) (mk3 (c0 r) (c1 r + c1 r) (c2 r)) (mk3 0 (c2 r) 0))
      (mk3 (mk3 0 0 (c0 r)) (mk3 0 0 (c1 r)) (mk3 (c0 r) (c1 r) (c2 r + c2 r))).
Definition rjac_row (th : R) (u : V3 R) (ui : R) (dr dx : M3 R) : M3 R :=
  let c := cos th in let s := sin th in
  rmadd (rmadd (rmadd (rmadd (rmscale (- s * ui) reye) (rmscale ((s - 2 * (1 - c) * (1 / th)) * ui) (rrrt u)))
    (rmscale (1 * (1 - c) * (1 / th)) dr)) (rmscale ((c - s * (1 / th)) * ui) (rcrossm u))) (rmscale (1 * s * (1 / th)) dx).
Definition rjac (th : R) (u : V3 R) : V3 (M3 R) :=
  mk3 (rjac_row th u (c0 u) (c0 (rd_rrt u)) (c0 rd_cross)) (rjac_row th u (c1 u) (c1 (rd_rrt u)) (c1 rd_cross))
      (rjac_row th u (c2 u) (c2 (rd_rrt u)) (c2 rd_cross)).
Definition finj (j : V3 (M3 R)) : jacobian xr := map3 finm j.
Lemma fmadd a b : madd (finm a) (finm b) = finm (rmadd a b).
Proof. reflexivity. Qed.
Lemma fmscale s m : mscale (Fin s) (finm m) = finm (rmscale s m).
Proof. reflexivity. Qed.
Lemma frrt u : rrt (fin3 u) = finm (rrrt u).
Proof. reflexivity. Qed.
Lemma fcrossm u : cross_matrix (fin3 u) = finm (rcrossm u).
Proof. reflexivity. Qed.
Lemma fd_rrt u : d_rrt (fin3 u) = finj (rd_rrt u).
Proof. reflexivity. Qed.
Lemma fd_cross : d_cross (F := xr) = finj rd_cross.
Proof. reflexivity. Qed.
Lemma frodrigues_vec_jac v : rodrigues_vec_jac (fin3 v) =
  finj (if Rlt_dec (rnorm v) reps then rd_cross else rjac (rnorm v) (rscale (/ rnorm v) v)).
Proof.
  unfold rodrigues_vec_jac. rewrite fnorm, fd_cross. unfold eps. xs. change (1 / 4503599627370496) with reps.
  destruct (Rlt_dec (rnorm v) reps) as [L|L].
  - rewrite Rlt_bool_true by auto. reflexivity.
  - rewrite Rlt_bool_false by lra. assert (0 < reps) by (unfold reps; lra).
    change (n0 : xr) with (Fin 0). xs. rewrite Req_bool_false by lra.
    rewrite xdivE by lra. set (th := rnorm v) in *.
    assert (U : map3 (fun x => nmul x (Fin (1 / th))) (fin3 v) = fin3 (rscale (/ th) v)).
    { unfold fin3, rscale, map3. cbn [c0 c1 c2]. xs. f_equal; f_equal; field; lra. }
    rewrite U. set (u := rscale (/ th) v). change (ncos (Fin th)) with (Fin (cos th)). change (nsin (Fin th)) with (Fin (sin th)).
    rewrite fd_rrt, frrt, fcrossm. change (meye (F := xr)) with (finm reye).
    change (c0 (fin3 u)) with (Fin (c0 u)). change (c1 (fin3 u)) with (Fin (c1 u)). change (c2 (fin3 u)) with (Fin (c2 u)).
    unfold finj, map3 at 1 2 3 4 5 6. cbn [c0 c1 c2]. reflexivity.
Qed.
Lemma mat_deriv9 f t m : (forall p q, In p [c0; c1; c2] -> In q [c0; c1; c2] -> derivable_pt_lim (fun x => q (p (f x))) t (q (p m))) -> mat_derivative f t m.
Proof.
  intros H i j. unfold coord at 1 3. revert j. apply (@coord_all _ (fun g => derivable_pt_lim (fun x => g match i with 0%Z => c0 (f x) | 1%Z => c1 (f x) | _ => c2 (f x) end) t
    (g match i with 0%Z => c0 m | 1%Z => c1 m | _ => c2 m end))); destruct i as [|[]|]; apply H; cbn; auto 6.
Qed.
Lemma vec_deriv3 f t m : (forall q, In q [c0; c1; c2] -> derivable_pt_lim (fun x => q (f x)) t (q m)) -> vec_derivative f t m.
Proof. intros H. red. apply (@coord_all _ (fun g => derivable_pt_lim (fun x => g (f x)) t (g m))); apply H; cbn; auto. Qed.
Lemma along_intro J d m : (forall p q, In p [c0; c1; c2] -> In q [c0; c1; c2] -> q (p m) = c0 d * q (p (c0 J)) + c1 d * q (p (c1 J)) + c2 d * q (p (c2 J))) -> along J d m.
Proof.
  intros H i j. revert j. apply (@coord_all _ (fun g => g (coord i m) = c0 d * g (coord i (c0 J)) + c1 d * g (coord i (c1 J)) + c2 d * g (coord i (c2 J))));
  unfold coord; destruct i as [|[]|]; apply H; cbn; auto 6.
Qed.
(** the velocity of the matrix *)
Definition rvel (J : V3 (M3 R)) (d : V3 R) : M3 R := rmadd (rmadd (rmscale (c0 d) (c0 J)) (rmscale (c1 d) (c1 J))) (rmscale (c2 d) (c2 J)).
Lemma rvel_along J d : along J d (rvel J d).
Proof. apply along_intro. intros p q P Q. cbn in P, Q. intuition subst; reflexivity. Qed.
Lemma along_unique J d m : along J d m -> m = rvel J d.
Proof.
  intros H. pose proof (rvel_along J d) as K. destruct m as [[a0 a1 a2] [b0 b1 b2] [e0 e1 e2]].
  pose proof (fun i j => eq_trans (H i j) (eq_sym (K i j))) as E. set (w := rvel J d) in *. clearbody w. destruct w as [[x0 x1 x2] [y0 y1 y2] [z0 z1 z2]].
  f_equal; f_equal; [exact (E 0 0)%Z|exact (E 0 1)%Z|exact (E 0 2)%Z|exact (E 1 0)%Z|exact (E 1 1)%Z|exact (E 1 2)%Z|exact (E 2 0)%Z|exact (E 2 1)%Z|exact (E 2 2)%Z].
Qed.
Definition pick (q : V3 R -> R) : Prop := In q [c0; c1; c2].
Definition pickr (p : M3 R -> V3 R) : Prop := In p [c0; c1; c2].
Lemma pick_add p q a b : pickr p -> pick q -> q (p (rmadd a b)) = q (p a) + q (p b).
Proof. intros P Q. destruct P as [<-|[<-|[<-|[]]]]; destruct Q as [<-|[<-|[<-|[]]]]; reflexivity. Qed.
Lemma pick_scale p q s a : pickr p -> pick q -> q (p (rmscale s a)) = s * q (p a).
Proof. intros P Q. destruct P as [<-|[<-|[<-|[]]]]; destruct Q as [<-|[<-|[<-|[]]]]; reflexivity. Qed.
Lemma rvel_entry J d p q : pickr p -> pick q -> q (p (rvel J d)) = c0 d * q (p (c0 J)) + c1 d * q (p (c1 J)) + c2 d * q (p (c2 J)).
Proof. intros P Q. unfold rvel. now rewrite !pick_add, !pick_scale. Qed.
Lemma rjac_entry th u ui dr dx p q : pickr p -> pick q -> q (p (rjac_row th u ui dr dx)) =
  - sin th * ui * q (p reye) + (sin th - 2 * (1 - cos th) * (1 / th)) * ui * q (p (rrrt u)) + 1 * (1 - cos th) * (1 / th) * q (p dr) +
  (cos th - sin th * (1 / th)) * ui * q (p (rcrossm u)) + 1 * sin th * (1 / th) * q (p dx).
Proof. intros P Q. unfold rjac_row. cbv zeta. now rewrite !pick_add, !pick_scale. Qed.
Lemma deriv_axis_rot r t d : vec_derivative r t d -> 0 < rnorm (r t) ->
  mat_derivative (fun x => axis_rot (rnorm (r x)) (rscale (/ rnorm (r x)) (r x))) t (rvel (rjac (rnorm (r t)) (rscale (/ rnorm (r t)) (r t))) d).
Proof.
  intros D P. pose proof (deriv_norm D P) as DN. set (n := rnorm (r t)) in *. set (u := rscale (/ n) (r t)).
  pose proof (deriv_unit D (p := c0) (fun s v => eq_refl) (D 0%Z) P) as U0.
  pose proof (deriv_unit D (p := c1) (fun s v => eq_refl) (D 1%Z) P) as U1.
  pose proof (deriv_unit D (p := c2) (fun s v => eq_refl) (D 2%Z) P) as U2.
  cbv zeta in U0, U1, U2. fold n in U0, U1, U2. fold u in U0, U1, U2.
  assert (EN : rdot (r t) d / n = rdot u d) by (unfold u, rdot, rscale; cbn [c0 c1 c2]; field; lra).
  rewrite EN in DN. pose proof (deriv_cos DN) as DC. pose proof (deriv_sin DN) as DS. fold n in DC, DS.
  assert (DCC := deriv_minus (deriv_const 1 t) DC).
  apply mat_deriv9. intros p q Hp Hq. cbn in Hp, Hq.
  assert (Q : forall a b a' b', derivable_pt_lim a t a' -> derivable_pt_lim b t b' -> forall l,
     l = (0 - - sin n * rdot u d) * (a t * b t) + (1 - cos n) * (a' * b t + a t * b') ->
     derivable_pt_lim (fun x => (1 - cos (rnorm (r x))) * (a x * b x)) t l).
  { intros a b a' b' A B l ->. exact (deriv_mult DCC (deriv_mult A B)). }
  assert (S : forall a a', derivable_pt_lim a t a' -> forall l, l = cos n * rdot u d * a t + sin n * a' ->
     derivable_pt_lim (fun x => sin (rnorm (r x)) * a x) t l).
  { intros a a' A l ->. exact (deriv_mult DS A). }
  assert (N : n <> 0) by lra.
  destruct Hp as [<-|[<-|[<-|[]]]]; destruct Hq as [<-|[<-|[<-|[]]]]; unfold axis_rot; cbv zeta; cbn [c0 c1 c2];
  (eapply deriv_eq; [|first [apply deriv_plus; [exact DC|eapply Q; [eassumption|eassumption|reflexivity]]
                            |apply deriv_plus; [eapply Q; [eassumption|eassumption|reflexivity]|eapply S; [eassumption|reflexivity]]
                            |apply deriv_minus; [eapply Q; [eassumption|eassumption|reflexivity]|eapply S; [eassumption|reflexivity]]]]).
  all: cbv beta; fold n; fold u; rewrite rvel_entry by (red; cbn; auto); unfold rjac; cbn [c0 c1 c2]; rewrite !rjac_entry by (red; cbn; auto);
    clearbody u n; clear - N; destruct u as [x y z], d as [p q w]; unfold rd_rrt, rd_cross, rrrt, rcrossm, reye, map3, rdot; cbn [c0 c1 c2]; field; auto.
Qed.
(** ** matrices *)
Lemma mk3_eq {A} (a b c a' b' c' : A) : a = a' -> b = b' -> c = c' -> mk3 a b c = mk3 a' b' c'.
Proof. now intros -> -> ->. Qed.
Lemma dot_fin width a b : dot_rows width (map (map Fin) a) (map (map Fin) b) =
  map (map Fin) (map (fun row => map (fun k => fold_left Rplus (map2 (fun x brow => x * nth k brow 0) row b) 0) (seq 0 width)) a).
Proof.
  unfold dot_rows. rewrite !map_map. apply map_ext. intros row. rewrite map_map. apply map_ext. intros k.
  assert (G : forall b acc, fold_left nadd (map2 (fun (x : xr) brow => nmul x (nth k brow (Fin 0))) (map Fin row) (map (map Fin) b)) (Fin acc) =
    Fin (fold_left Rplus (map2 (fun x brow => x * nth k brow 0) row b) acc)).
  { clear b. unfold map2. induction row as [|x row IH]; intros [|y b] acc; cbn [map combine fold_left fst snd]; auto. rewrite <- IH. f_equal. rewrite (map_nth Fin y 0 k). reflexivity. }
  exact (G b 0).
Qed.
Definition rmat_row (th vth ri d1 d2 : R) (e : M3 R) : M3 R := rmadd (rmscale (th * vth) e) (rmscale (ri * (th * d1 + vth * d2)) reye).
Definition rmat_jac (th vth d1 d2 : R) (r : V3 R) : V3 (M3 R) :=
  mk3 (rmat_row th vth (c0 r) d1 d2 (c0 rd_cross)) (rmat_row th vth (c1 r) d1 d2 (c1 rd_cross)) (rmat_row th vth (c2 r) d1 d2 (c2 rd_cross)).
Lemma jac_rows th vth d1 d2 rx ry rz :
  let dvardR := [[0; 0; 0; 0; 0; 1; 0; -1; 0]; [0; 0; -1; 0; 0; 0; 1; 0; 0]; [0; 1; 0; -1; 0; 0; 0; 0; 0];
                 [d1; 0; 0; 0; d1; 0; 0; 0; d1]; [d2; 0; 0; 0; d2; 0; 0; 0; d2]] in
  let dvar2dvar := [[vth; 0; 0; rx; 0]; [0; vth; 0; ry; 0]; [0; 0; vth; rz; 0]; [0; 0; 0; 0; 1]] in
  let domegadvar2 := [[th; 0; 0; rx * vth]; [0; th; 0; ry * vth]; [0; 0; th; rz * vth]] in
  let jac := dot_rows 9 (dot_rows 5 (map (map Fin) domegadvar2) (map (map Fin) dvar2dvar)) (map (map Fin) dvardR) in
  let row k := mtrans (reshape33 (nth k jac [])) in
  mk3 (row 0%nat) (row 1%nat) (row 2%nat) = finj (rmat_jac th vth d1 d2 (mk3 rx ry rz)).
Proof.
  cbv zeta. rewrite !dot_fin. unfold map2. cbn [map seq combine fst snd nth fold_left]. unfold reshape33, mtrans, mcol0, mcol1, mcol2, map3. cbn [c0 c1 c2 nth].
  unfold finj, rmat_jac, rmat_row, rd_cross, rmadd, rmscale, reye, finm, fin3, zip3, radd, map3, rscale. cbn [c0 c1 c2].
  f_equal; f_equal; f_equal; f_equal; ring.
Qed.
Definition rlog_jac (m : M3 R) : V3 (M3 R) :=
  let c := (trace m - 1) / 2 in let th := acos c in let s := sin th in
  if Rlt_dec s (1/100000) then
    if Rlt_dec 0 c then map3 (rmscale (1/2)) rd_cross else map3 (rmscale 0) rd_cross
  else rmat_jac th (1 / (2 * s)) (1/2 * (- (1 / (2 * s)) * c / s) * (-1 / s)) (1/2 * (-1 / s)) (raxis m).
Lemma rodrigues_mat_jac_rot svd m : rotation m -> svd_ok svd m -> rodrigues_mat_jac svd (finm m) = Ok (finj (rlog_jac m)).
Proof.
  intros M (u & s & v & E & D). unfold rodrigues_mat_jac. rewrite E. cbn [bindr]. rewrite fmmul.
  rewrite (svd_orthogonal (proj1 M) D). pose proof (sin_acos_trace M) as [B NS]. cbv zeta in NS.
  unfold rlog_jac. change (mtrace (finm m)) with (Fin (trace m)).
  change (mk3 (nsub (c1 (c2 (finm m))) (c2 (c1 (finm m)))) (nsub (c2 (c0 (finm m))) (c0 (c2 (finm m)))) (nsub (c0 (c1 (finm m))) (c1 (c0 (finm m))))) with (fin3 (raxis m)).
  change (nsub (c1 (c2 (finm m))) (c2 (c1 (finm m)))) with (Fin (c0 (raxis m))).
  change (nsub (c2 (c0 (finm m))) (c0 (c2 (finm m)))) with (Fin (c1 (raxis m))).
  change (nsub (c0 (c1 (finm m))) (c1 (c0 (finm m)))) with (Fin (c2 (raxis m))).
  rewrite fnorm, NS. xs. rewrite (@xsqrtE (1 / 4)) by lra. xs.
  replace (sqrt (1/4)) with (1/2) by (symmetry; apply sqrt_lem_1; lra).
  replace ((trace m - 1) * (1/2)) with ((trace m - 1) / 2) by field. set (c := (trace m - 1) / 2) in *.
  replace (2 * sin (acos c) * (1/2)) with (sin (acos c)) by field.
  assert (CL : clip (Fin (-1)) (Fin 1) (Fin c) = Fin c).
  { unfold clip. xs. rewrite !Rlt_bool_false by lra. reflexivity. }
  rewrite CL. assert (AC : arccos (Fin c) = Fin (acos c)).
  { unfold arccos. cbn [nacos xr_trans]. rewrite !Rle_bool_true by lra. reflexivity. }
  rewrite AC. xs. change (n0 : xr) with (Fin 0). xs. destruct (Rlt_dec (sin (acos c)) (1/100000)) as [L|L].
  - rewrite Rlt_bool_true by auto. destruct (Rlt_dec 0 c) as [P|P].
    + rewrite Rlt_bool_true by auto. apply f_equal. unfold finj, rmscale, rd_cross, finm, fin3, map3, rscale. cbn [c0 c1 c2].
      repeat apply mk3_eq; apply (f_equal Fin); field.
    + rewrite Rlt_bool_false by lra. apply f_equal. unfold finj, rmscale, rd_cross, finm, fin3, map3, rscale, vzero. cbn [c0 c1 c2].
      change (n0 : xr) with (Fin 0). repeat apply mk3_eq; apply (f_equal Fin); ring.
  - rewrite Rlt_bool_false by lra. set (th := acos c) in *. set (s' := sin th) in *. assert (0 < s') by lra.
    rewrite !xdivE by lra. xs. rewrite !xdivE by lra. xs. set (r := raxis m). clearbody r. destruct r as [rx ry rz]. cbn [c0 c1 c2].
    rewrite <- jac_rows. cbv zeta. reflexivity.
Qed.
Lemma deriv_acos x : -1 < x < 1 -> derivable_pt_lim acos x (-1 / sin (acos x)).
Proof.
  intros H. rewrite sin_acos by lra. eapply derive_pt_eq_1. exact (derive_pt_acos x H).
Qed.
Lemma acos_far c : -1 <= c <= 1 -> 0 < sin (acos c) -> -1 < c < 1.
Proof.
  intros B H. assert (c <> 1) by (intros ->; rewrite acos_1, sin_0 in H; lra).
  assert (c <> -1). { intros ->. assert (X : acos (-1) = PI) by (rewrite <- cos_PI; apply acos_cos; pose proof PI_RGT_0; lra). rewrite X, sin_PI in H. lra. }
  lra.
Qed.
Lemma pairing_row th vth ri d1 d2 e D : pairing (rmat_row th vth ri d1 d2 e) D = th * vth * pairing e D + ri * (th * d1 + vth * d2) * trace D.
Proof.
  destruct e as [[a0 a1 a2] [b0 b1 b2] [e0 e1 e2]], D as [[x0 x1 x2] [y0 y1 y2] [z0 z1 z2]].
  unfold pairing, rmat_row, rmadd, rmscale, reye, zip3, map3, radd, rscale, trace, rdot. cbn [c0 c1 c2]. ring.
Qed.
Lemma pairing_cross D : pairing (c0 rd_cross) D = c0 (raxis D) /\ pairing (c1 rd_cross) D = c1 (raxis D) /\ pairing (c2 rd_cross) D = c2 (raxis D).
Proof.
  destruct D as [[x0 x1 x2] [y0 y1 y2] [z0 z1 z2]]. unfold pairing, rd_cross, raxis, rdot. cbn [c0 c1 c2]. repeat split; ring.
Qed.
Lemma deriv_rlog (Q : R -> M3 R) t D : (forall x, rotation (Q x)) -> mat_derivative Q t D -> 1/100000 < sin (acos ((trace (Q t) - 1) / 2)) ->
  vec_derivative (fun x => rlog (Q x)) t (across (rlog_jac (Q t)) D).
Proof.
  intros RT MD H. set (c := fun x => (trace (Q x) - 1) / 2). fold (c t) in H.
  assert (B : -1 < c t < 1) by (apply acos_far; [apply sin_acos_trace, RT|lra]).
  assert (DC : derivable_pt_lim c t (trace D / 2)).
  { unfold c, trace. eapply deriv_ext; [|eapply deriv_eq; [|exact (deriv_mult (deriv_minus (deriv_plus (deriv_plus (MD 0 0)%Z (MD 1 1)%Z) (MD 2 2)%Z) (deriv_const 1 t)) (deriv_const (/2) t))]].
    - intros x. reflexivity.
    - cbn [coord]. field. }
  assert (DT := deriv_comp DC (deriv_acos B)). set (s := sin (acos (c t))) in *. assert (SP : 0 < s) by lra.
  assert (DS := deriv_sin DT). cbv beta in DS.
  destruct (deriv_continuous DS (e := s - 1/100000)) as (e & E & NEAR); [lra|]. fold s in NEAR.
  assert (NZ : 2 * sin (acos (c t)) <> 0) by (fold s; lra).
  assert (DK : derivable_pt_lim (fun x => acos (c x) * / (2 * sin (acos (c x)))) t
    (-1 / s * (trace D / 2) * / (2 * s) + acos (c t) * (- (2 * (cos (acos (c t)) * (-1 / s * (trace D / 2)))) / (2 * s * (2 * s))))).
  { eapply deriv_eq; [|exact (deriv_mult DT (deriv_inv (f := fun x => 2 * sin (acos (c x))) (t := t) NZ (deriv_mult (deriv_const 2 t) DS)))].
    cbv beta. fold s. field. lra. }
  assert (AX : forall q, pick q -> derivable_pt_lim (fun x => q (raxis (Q x))) t (q (raxis D))).
  { intros q [<-|[<-|[<-|[]]]]; unfold raxis; cbn [c0 c1 c2].
    - exact (deriv_minus (MD 2 1)%Z (MD 1 2)%Z).
    - exact (deriv_minus (MD 0 2)%Z (MD 2 0)%Z).
    - exact (deriv_minus (MD 1 0)%Z (MD 0 1)%Z). }
  apply vec_deriv3. intros q PQ. fold (pick q) in PQ.
  apply deriv_local with (f := fun x => acos (c x) * / (2 * sin (acos (c x))) * q (raxis (Q x))) (e := e); auto.
  { intros x Hx. specialize (NEAR x Hx). apply Rabs_def2 in NEAR. unfold rlog. fold (c x). destruct (Rlt_dec _ _) as [L|L]; [lra|].
    destruct PQ as [<-|[<-|[<-|[]]]]; unfold rscale; cbn [c0 c1 c2]; reflexivity. }
  eapply deriv_eq; [|exact (deriv_mult DK (AX q PQ))].
  assert (CC : cos (acos (c t)) = c t) by (apply cos_acos; lra). rewrite CC.
  unfold rlog_jac. fold (c t). fold s. destruct (Rlt_dec _ _) as [L|L]; [lra|].
  destruct (pairing_cross D) as (P0 & P1 & P2).
  destruct PQ as [<-|[<-|[<-|[]]]]; unfold across, rmat_jac; cbn [c0 c1 c2]; rewrite pairing_row, ?P0, ?P1, ?P2; field; lra.
Qed.
(** at the identity *)
Lemma deriv_axis_turn k : rdot k k = 1 -> mat_derivative (fun x => axis_rot x k) 0 (rcrossm k).
Proof.
  intros K. assert (DX := derivable_pt_lim_id 0). change (derivable_pt_lim (fun x => x) 0 1) in DX.
  pose proof (deriv_cos DX) as DC. pose proof (deriv_sin DX) as DS. cbv beta in DC, DS. rewrite sin_0 in DC. rewrite cos_0 in DS.
  assert (DCC := deriv_minus (deriv_const 1 0) DC).
  apply mat_deriv9. intros p q Hp Hq. cbn in Hp, Hq.
  destruct Hp as [<-|[<-|[<-|[]]]]; destruct Hq as [<-|[<-|[<-|[]]]]; unfold axis_rot, rcrossm; cbv zeta; cbn [c0 c1 c2];
  (eapply deriv_eq; [|first [apply deriv_plus; [exact DC|exact (deriv_mult DCC (deriv_const _ 0))]
                            |apply deriv_plus; [exact (deriv_mult DCC (deriv_const _ 0))|exact (deriv_mult DS (deriv_const _ 0))]
                            |apply deriv_minus; [exact (deriv_mult DCC (deriv_const _ 0))|exact (deriv_mult DS (deriv_const _ 0))]]]);
  cbv beta; rewrite ?cos_0, ?sin_0; ring.
Qed.
