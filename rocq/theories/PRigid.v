(** * Proofs about rigid fits: maximising a trace over the rotations. *)
From Coq Require Import Reals ZArith List Bool Lra Lia Psatz.
From Flocq Require Import Core.
From Verif Require Import Num XLemmas Vec RVec VLemmas PMat3 SpecGeom PPlane2 SpecRotation MRotation PRotation PRotation2 NpList MRigid SpecRigid.
Import ListNotations.
Local Open Scope R_scope.
Set Implicit Arguments.
Unset Strict Implicit.

(** ** traces *)
Lemma trace_comm a b : trace (rmmul a b) = trace (rmmul b a).
Proof. unfold trace. destruct a as [[a00 a01 a02] [a10 a11 a12] [a20 a21 a22]], b as [[b00 b01 b02] [b10 b11 b12] [b20 b21 b22]].
  unfold rmmul, rcol0, rcol1, rcol2, rdot. cbn [c0 c1 c2]. ring. Qed.
Lemma trace_diag s m : trace (rmmul (rdiag s) m) = c0 s * c0 (c0 m) + c1 s * c1 (c1 m) + c2 s * c2 (c2 m).
Proof. unfold trace. destruct s as [s0 s1 s2], m as [[a00 a01 a02] [a10 a11 a12] [a20 a21 a22]].
  unfold rmmul, rdiag, rcol0, rcol1, rcol2, rdot. cbn [c0 c1 c2]. ring. Qed.
Lemma trace_svd q u s v : trace (rmmul q (rmmul (rmmul u (rdiag s)) v)) =
  let m := rmmul (rmmul v q) u in c0 s * c0 (c0 m) + c1 s * c1 (c1 m) + c2 s * c2 (c2 m).
Proof.
  cbv zeta. rewrite <- trace_diag. rewrite (trace_comm (rdiag s)), !rmmul_assoc, (trace_comm v), !rmmul_assoc. reflexivity.
Qed.
Lemma orthogonal_entries m : orthogonal m -> -1 <= c0 (c0 m) <= 1 /\ -1 <= c1 (c1 m) <= 1 /\ -1 <= c2 (c2 m) <= 1.
Proof.
  intros [O _]. destruct m as [[a00 a01 a02] [a10 a11 a12] [a20 a21 a22]]. unfold rmmul, rtrans, reye, rcol0, rcol1, rcol2, rdot in O. cbn [c0 c1 c2] in *.
  injection O as E1 _ _ _ E2 _ _ _ E3. repeat split; nra.
Qed.
(** unit diagonal *)
Lemma orthogonal_unit_diag m : orthogonal m -> c0 (c0 m) = 1 -> c1 (c1 m) = 1 -> c2 (c2 m) = 1 -> m = reye.
Proof.
  intros [O _]. destruct m as [[a00 a01 a02] [a10 a11 a12] [a20 a21 a22]]. unfold rmmul, rtrans, reye, rcol0, rcol1, rcol2, rdot in O. cbn [c0 c1 c2] in *.
  injection O as E1 _ _ _ E2 _ _ _ E3. intros -> -> ->.
  assert (Z : forall x y, 1 * 1 + x * x + y * y = 1 -> x = 0 /\ y = 0) by (intros x y H; split; nra).
  destruct (Z a01 a02) as [-> ->]; [lra|]. destruct (Z a10 a12) as [-> ->]; [lra|]. destruct (Z a20 a21) as [-> ->]; [lra|]. reflexivity.
Qed.
Lemma rotation_trace_ge m : rotation m -> -1 <= trace m.
Proof. intros M. destruct (sin_acos_trace M) as [B _]. lra. Qed.
Lemma flip_bound s m : c0 s >= c1 s -> c1 s >= c2 s -> c2 s >= 0 -> orthogonal m -> rdet m = -1 ->
  c0 s * c0 (c0 m) + c1 s * c1 (c1 m) + c2 s * c2 (c2 m) <= c0 s + c1 s - c2 s.
Proof.
  intros H0 H1 H2 O D. destruct (orthogonal_entries O) as (E0 & E1 & E2).
  set (n := map3 (rscale (-1)) m).
  assert (N : rotation n).
  { split; [split|].
    - destruct O as [O _]. clear -O. destruct m as [[a00 a01 a02] [a10 a11 a12] [a20 a21 a22]]. unfold n, map3, rscale, rmmul, rtrans, rcol0, rcol1, rcol2, rdot in *. cbn [c0 c1 c2] in *. rewrite <- O. f_equal; f_equal; ring.
    - destruct O as [_ O]. clear -O. destruct m as [[a00 a01 a02] [a10 a11 a12] [a20 a21 a22]]. unfold n, map3, rscale, rmmul, rtrans, rcol0, rcol1, rcol2, rdot in *. cbn [c0 c1 c2] in *. rewrite <- O. f_equal; f_equal; ring.
    - clear -D. destruct m as [[a00 a01 a02] [a10 a11 a12] [a20 a21 a22]]. unfold n, map3, rscale, rdet, rcross, rdot in *. cbn [c0 c1 c2] in *. lra. }
  apply rotation_trace_ge in N. unfold trace in N.
  assert (T : c0 (c0 m) + c1 (c1 m) + c2 (c2 m) <= 1).
  { clear -N. destruct m as [[a00 a01 a02] [a10 a11 a12] [a20 a21 a22]]. unfold n, map3, rscale in N. cbn [c0 c1 c2] in *. lra. }
  clear N n O D. set (x := c0 (c0 m)) in *. set (y := c1 (c1 m)) in *. set (z := c2 (c2 m)) in *. clearbody x y z.
  destruct s as [s0 s1 s2]. cbn [c0 c1 c2] in *.
  assert (A : (s0 - s1) * x <= (s0 - s1) * 1) by (apply Rmult_le_compat_l; lra).
  assert (A' : (s1 - s2) * (x + y) <= (s1 - s2) * 2) by (apply Rmult_le_compat_l; lra).
  assert (A'' : s2 * (x + y + z) <= s2 * 1) by (apply Rmult_le_compat_l; lra).
  lra.
Qed.

(** ** the two candidate matrices *)
Definition flip3 : M3 R := mk3 (mk3 1 0 0) (mk3 0 1 0) (mk3 0 0 (-1)).
Lemma flip_fin v : flip_third_column (finm v) = finm (rmmul v flip3).
Proof.
  destruct v as [[a00 a01 a02] [a10 a11 a12] [a20 a21 a22]]. unfold flip_third_column, flip3, finm, fin3, map3, rmmul, rcol0, rcol1, rcol2, rdot. cbn [c0 c1 c2].
  xs. repeat f_equal; ring.
Qed.
Lemma flip3_orth : orthogonal flip3.
Proof. split; unfold flip3, rmmul, rtrans, reye, rcol0, rcol1, rcol2, rdot; cbn [c0 c1 c2]; f_equal; f_equal; ring. Qed.
Lemma flip3_det : rdet flip3 = -1.
Proof. unfold flip3, rdet, rcross, rdot; cbn [c0 c1 c2]; ring. Qed.
(** [base u v = v^T u^T] and its flipped version *)
Definition base (u v : M3 R) : M3 R := rmmul (rtrans v) (rtrans u).
Definition flipped (u v : M3 R) : M3 R := rmmul (rmmul (rtrans v) flip3) (rtrans u).
Lemma base_orth u v : orthogonal u -> orthogonal v -> orthogonal (base u v).
Proof. intros U V. apply orthogonal_mul; apply orthogonal_trans; auto. Qed.
Lemma flipped_orth u v : orthogonal u -> orthogonal v -> orthogonal (flipped u v).
Proof. intros U V. apply orthogonal_mul; [apply orthogonal_mul|]; auto using orthogonal_trans, flip3_orth. Qed.
Lemma base_core u v : orthogonal u -> orthogonal v -> rmmul (rmmul v (base u v)) u = reye.
Proof. intros [_ U] [V _]. unfold base. rewrite <- (rmmul_assoc v), V, rmmul_eye_l. exact U. Qed.
Lemma flipped_core u v : orthogonal u -> orthogonal v -> rmmul (rmmul v (flipped u v)) u = flip3.
Proof. intros [_ U] [V _]. unfold flipped. rewrite <- !(rmmul_assoc v), V, rmmul_eye_l, rmmul_assoc, U, rmmul_eye_r. reflexivity. Qed.
Lemma flipped_det u v : rdet (flipped u v) = - rdet (base u v).
Proof. unfold flipped, base. rewrite !rdet_mul, flip3_det. ring. Qed.
Lemma core_orth q u v : orthogonal q -> orthogonal u -> orthogonal v -> orthogonal (rmmul (rmmul v q) u).
Proof. intros. repeat apply orthogonal_mul; auto. Qed.
Lemma core_inj q q' u v : orthogonal u -> orthogonal v -> rmmul (rmmul v q) u = rmmul (rmmul v q') u -> q = q'.
Proof.
  intros [U _] [_ V] E. assert (G : forall q, rmmul (rtrans v) (rmmul (rmmul (rmmul v q) u) (rtrans u)) = q).
  { intros x. rewrite !(rmmul_assoc _ u), U, rmmul_eye_r, <- rmmul_assoc, V, rmmul_eye_l. reflexivity. }
  rewrite <- (G q), E, G. reflexivity.
Qed.
Section Best.
Variables (c u v : M3 R) (s : V3 R).
Hypothesis S : svd_of c u s v.
Let gain (q : M3 R) := trace (rmmul q c).
Lemma gain_core q : gain q = let m := rmmul (rmmul v q) u in c0 s * c0 (c0 m) + c1 s * c1 (c1 m) + c2 s * c2 (c2 m).
Proof. unfold gain. destruct S as (_ & _ & _ & _ & _ & E). rewrite E. apply trace_svd. Qed.
Lemma gain_base : gain (base u v) = c0 s + c1 s + c2 s.
Proof. destruct S as (U & V & _). rewrite gain_core. cbv zeta. rewrite base_core by auto. cbn. ring. Qed.
Lemma gain_flipped : gain (flipped u v) = c0 s + c1 s - c2 s.
Proof. destruct S as (U & V & _). rewrite gain_core. cbv zeta. rewrite flipped_core by auto. cbn. ring. Qed.
Lemma gain_le q : orthogonal q -> gain q <= gain (base u v).
Proof.
  intros Q. destruct S as (U & V & H0 & H1 & H2 & _). rewrite gain_base, gain_core. cbv zeta.
  destruct (orthogonal_entries (core_orth Q U V)) as (E0 & E1 & E2). clear -H0 H1 H2 E0 E1 E2. set (x := c0 (c0 _)) in *. set (y := c1 (c1 _)) in *. set (z := c2 (c2 _)) in *. clearbody x y z.
  assert (c0 s * x <= c0 s * 1) by (apply Rmult_le_compat_l; lra). assert (c1 s * y <= c1 s * 1) by (apply Rmult_le_compat_l; lra).
  assert (c2 s * z <= c2 s * 1) by (apply Rmult_le_compat_l; lra). lra.
Qed.
(** equality only at the base matrix, when no singular value vanishes *)
Lemma gain_lt q : orthogonal q -> c2 s > 0 -> q <> base u v -> gain q < gain (base u v).
Proof.
  intros Q P NE. pose proof (gain_le Q) as L. destruct (Req_dec (gain q) (gain (base u v))) as [E|]; [|lra]. exfalso. apply NE. clear L NE.
  destruct S as (U & V & H0 & H1 & H2 & _). rewrite gain_base, gain_core in E. cbv zeta in E.
  pose proof (core_orth Q U V) as O. destruct (orthogonal_entries O) as (E0 & E1 & E2).
  apply core_inj with u v; auto. rewrite base_core by auto. apply orthogonal_unit_diag; auto; clear -E P H0 H1 E0 E1 E2; set (x := c0 (c0 _)) in *; set (y := c1 (c1 _)) in *; set (z := c2 (c2 _)) in *; clearbody x y z;
  assert (A : 0 <= c0 s * (1 - x)) by (apply Rmult_le_pos; lra); assert (B : 0 <= c1 s * (1 - y)) by (apply Rmult_le_pos; lra); assert (C : 0 <= c2 s * (1 - z)) by (apply Rmult_le_pos; lra).
  - assert (Z : c0 s * (1 - x) = 0) by lra. apply Rmult_integral in Z. lra.
  - assert (Z : c1 s * (1 - y) = 0) by lra. apply Rmult_integral in Z. lra.
  - assert (Z : c2 s * (1 - z) = 0) by lra. apply Rmult_integral in Z. lra.
Qed.
Lemma gain_rot_le q : rotation q -> rdet (base u v) = -1 -> gain q <= gain (flipped u v).
Proof.
  intros [Q D] DB. destruct S as (U & V & H0 & H1 & H2 & _). rewrite gain_flipped, gain_core. cbv zeta.
  apply flip_bound; auto using core_orth. rewrite !rdet_mul, D.
  unfold base in DB. rewrite rdet_mul, !rdet_trans in DB. lra.
Qed.
End Best.

(** ** sums over corresponding points *)
Notation pairs := (list (V3 R * V3 R)).
Definition psum (f : V3 R * V3 R -> R) (l : pairs) : R := rsum (map f l).
Lemma psum_ext f g l : (forall x, f x = g x) -> psum f l = psum g l.
Proof. intros H. unfold psum. f_equal. now apply map_ext. Qed.
Lemma psum_lin a f b g l : psum (fun x => a * f x + b * g x) l = a * psum f l + b * psum g l.
Proof. unfold psum. induction l as [|x l IH]; cbn [map rsum]; [|rewrite IH]; ring. Qed.
Lemma psum_const k l : psum (fun _ => k) l = INR (length l) * k.
Proof. unfold psum. induction l as [|x l IH]; [cbn; ring|]. cbn [map rsum length]. rewrite IH, S_INR. ring. Qed.
Definition pgram (l : pairs) : M3 R :=
  let e (f g : V3 R -> R) := psum (fun pq => f (fst pq) * g (snd pq)) l in
  mk3 (mk3 (e c0 c0) (e c0 c1) (e c0 c2)) (mk3 (e c1 c0) (e c1 c1) (e c1 c2)) (mk3 (e c2 c0) (e c2 c1) (e c2 c2)).
Lemma trace_pgram q l : trace (rmmul q (pgram l)) = psum (fun pq => rdot (rapply q (fst pq)) (snd pq)) l.
Proof.
  unfold pgram, psum. induction l as [|[p0 p1] l IH].
  - cbn [map rsum]. unfold trace, rmmul, rcol0, rcol1, rcol2, rdot. cbn [c0 c1 c2]. ring.
  - cbn [map rsum] in *. rewrite <- IH. clear IH.
    set (e00 := rsum (map (fun pq => c0 (fst pq) * c0 (snd pq)) l)). set (e01 := rsum (map (fun pq => c0 (fst pq) * c1 (snd pq)) l)). set (e02 := rsum (map (fun pq => c0 (fst pq) * c2 (snd pq)) l)).
    set (e10 := rsum (map (fun pq => c1 (fst pq) * c0 (snd pq)) l)). set (e11 := rsum (map (fun pq => c1 (fst pq) * c1 (snd pq)) l)). set (e12 := rsum (map (fun pq => c1 (fst pq) * c2 (snd pq)) l)).
    set (e20 := rsum (map (fun pq => c2 (fst pq) * c0 (snd pq)) l)). set (e21 := rsum (map (fun pq => c2 (fst pq) * c1 (snd pq)) l)). set (e22 := rsum (map (fun pq => c2 (fst pq) * c2 (snd pq)) l)).
    clearbody e00 e01 e02 e10 e11 e12 e20 e21 e22.
    destruct q as [[a00 a01 a02] [a10 a11 a12] [a20 a21 a22]], p0 as [x y z], p1 as [x' y' z']. unfold trace, rmmul, rapply, rcol0, rcol1, rcol2, rdot. cbn [c0 c1 c2 fst snd]. ring.
Qed.
Definition pres (f : V3 R -> V3 R) (l : pairs) : R := psum (fun pq => rdot (rsub (f (fst pq)) (snd pq)) (rsub (f (fst pq)) (snd pq))) l.
Lemma residual_pres f ps qs : residual f ps qs = pres f (combine ps qs).
Proof. unfold residual, pres, psum. f_equal. apply map_ext. intros pq. unfold rdist. apply rnorm_sq. Qed.
Lemma pres_gain q l : orthogonal q -> pres (rapply q) l =
  psum (fun pq => rdot (fst pq) (fst pq) + rdot (snd pq) (snd pq)) l - 2 * trace (rmmul q (pgram l)).
Proof.
  intros Q. rewrite trace_pgram. unfold pres.
  transitivity (psum (fun pq => 1 * (rdot (fst pq) (fst pq) + rdot (snd pq) (snd pq)) + (-2) * rdot (rapply q (fst pq)) (snd pq)) l).
  - apply psum_ext. intros [p0 p1]. cbn [fst snd]. autorewrite with rdot. rewrite (orthogonal_dot _ _ Q), (rdot_sym p1). ring.
  - rewrite psum_lin. ring.
Qed.

(** ** centred points *)
Lemma psum_fst (f : V3 R -> R) ps qs : length ps = length qs -> psum (fun pq => f (fst pq)) (combine ps qs) = rsum (map f ps).
Proof.
  revert qs. induction ps as [|p ps IH]; intros [|q qs] L; try discriminate L; [reflexivity|]. unfold psum in *. cbn [combine map rsum fst]. rewrite IH; auto.
Qed.
Lemma psum_snd (f : V3 R -> R) ps qs : length ps = length qs -> psum (fun pq => f (snd pq)) (combine ps qs) = rsum (map f qs).
Proof.
  revert qs. induction ps as [|p ps IH]; intros [|q qs] L; try discriminate L; [reflexivity|]. unfold psum in *. cbn [combine map rsum snd]. rewrite IH; auto.
Qed.
Lemma combine_map {A B C D} (f : A -> C) (g : B -> D) l l' : combine (map f l) (map g l') = map (fun pq => (f (fst pq), g (snd pq))) (combine l l').
Proof. revert l'. induction l as [|x l IH]; intros [|y l']; cbn; auto. now rewrite IH. Qed.
Lemma psum_map f (g : V3 R * V3 R -> V3 R * V3 R) l : psum f (map g l) = psum (fun x => f (g x)) l.
Proof. unfold psum. now rewrite map_map. Qed.
Lemma rsum_dot ps d : ps <> [] -> rsum (map (fun p => rdot p d) ps) = INR (length ps) * rdot (centroid ps) d.
Proof.
  intros NE. pose proof (INR_pos_len NE).
  assert (E : rsum (map (fun p => rdot p d) ps) = rsum (map c0 ps) * c0 d + rsum (map c1 ps) * c1 d + rsum (map c2 ps) * c2 d).
  { clear. induction ps as [|p ps IH]; cbn [map rsum]; [ring|]. rewrite IH. unfold rdot. ring. }
  rewrite E. unfold rdot, centroid. cbn [c0 c1 c2]. field. lra.
Qed.
Lemma rapply_dot_trans q p d : rdot (rapply q p) d = rdot p (rapply (rtrans q) d).
Proof. destruct q as [[a00 a01 a02] [a10 a11 a12] [a20 a21 a22]], p as [x y z], d as [x' y' z']. unfold rapply, rtrans, rcol0, rcol1, rcol2, rdot. cbn [c0 c1 c2]. ring. Qed.
Lemma rigid_expand q t p o a b : rdot (rsub (radd (rapply q p) t) o) (rsub (radd (rapply q p) t) o) =
  let d := rsub t (rsub b (rapply q a)) in let e := rsub (rapply q (rsub p a)) (rsub o b) in
  rdot e e + rdot d d + 2 * rdot e d.
Proof.
  cbv zeta. rewrite rapply_sub. set (x := rapply q p). set (y := rapply q a). clearbody x y. unfold rdot, rsub, radd; cbn [c0 c1 c2]; ring.
Qed.
Lemma pres_split q t ps qs : length ps = length qs -> ps <> [] ->
  let d := rsub t (rsub (centroid qs) (rapply q (centroid ps))) in
  pres (rigid q t) (combine ps qs) = pres (rapply q) (combine (centred ps) (centred qs)) + INR (length ps) * rdot d d.
Proof.
  intros L NE d. unfold centred, pres. rewrite combine_map, psum_map. cbn [fst snd].
  rewrite (@psum_ext _ (fun pq => 1 * rdot (rsub (rapply q (rsub (fst pq) (centroid ps))) (rsub (snd pq) (centroid qs))) (rsub (rapply q (rsub (fst pq) (centroid ps))) (rsub (snd pq) (centroid qs)))
     + 1 * (1 * rdot d d + 2 * (1 * (rdot (fst pq) (rapply (rtrans q) d) + (-1) * rdot (snd pq) d) + 1 * rdot (rsub (centroid qs) (rapply q (centroid ps))) d)))).
  2:{ intros [p o]. cbn [fst snd]. unfold rigid. rewrite (rigid_expand q t p o (centroid ps) (centroid qs)). cbv zeta. fold d.
      rewrite <- rapply_dot_trans. rewrite rapply_sub. set (x := rapply q p). set (y := rapply q (centroid ps)). generalize (centroid qs). clearbody x y d. clear.
      intros z. unfold rdot, rsub; cbn [c0 c1 c2]; ring. }
  rewrite psum_lin. rewrite (psum_lin 1 (fun _ => rdot d d)). rewrite (psum_lin 1 (fun pq => rdot (fst pq) (rapply (rtrans q) d) + (-1) * rdot (snd pq) d) 1).
  rewrite (@psum_ext (fun pq => rdot (fst pq) (rapply (rtrans q) d) + (-1) * rdot (snd pq) d) (fun pq => 1 * rdot (fst pq) (rapply (rtrans q) d) + (-1) * rdot (snd pq) d)) by (intros; ring).
  rewrite psum_lin. rewrite (psum_fst (fun p => rdot p (rapply (rtrans q) d))), (psum_snd (fun p => rdot p d)) by auto.
  assert (NE' : qs <> []) by (intros ->; destruct ps; [auto|discriminate L]).
  rewrite !psum_const, !rsum_dot, <- rapply_dot_trans, combine_length, <- L, Nat.min_id by auto.
  autorewrite with rdot. ring.
Qed.
Lemma rdot_nonneg a : 0 <= rdot a a.
Proof. unfold rdot. nra. Qed.
Lemma pres_nonneg f l : 0 <= pres f l.
Proof.
  unfold pres, psum. induction l as [|x l IH]; cbn [map rsum]; [lra|].
  assert (0 <= rdot (rsub (f (fst x)) (snd x)) (rsub (f (fst x)) (snd x))) by apply rdot_nonneg. lra.
Qed.
Lemma pres_zero f l : pres f l = 0 -> forall p q, In (p, q) l -> f p = q.
Proof.
  unfold pres, psum. induction l as [|x l IH]; cbn [map rsum]; [now intros|]. intros H p q.
  pose proof (pres_nonneg f l) as P. unfold pres, psum in P.
  assert (Q : 0 <= rdot (rsub (f (fst x)) (snd x)) (rsub (f (fst x)) (snd x))) by apply rdot_nonneg.
  intros [E|I]; [subst x|apply IH; auto; lra]. cbn [fst snd] in *.
  assert (Z : rdot (rsub (f p) q) (rsub (f p) q) = 0) by lra. now apply rsub_self_0.
Qed.

(** ** the model on real points *)
Lemma gram_fin ps qs : length ps = length qs -> gram (map fin3 ps) (map fin3 qs) = Ok (finm (cross_gram ps qs)).
Proof.
  intros L. unfold gram. rewrite !map_length, L, Nat.eqb_refl. f_equal.
  assert (E : forall f g (f' g' : V3 R -> R), (forall v, f (fin3 v) = Fin (f' v)) -> (forall v, g (fin3 v) = Fin (g' v)) ->
    nsum (map2 (fun x y => nmul (f x) (g y)) (map fin3 ps) (map fin3 qs)) = Fin (rsum (map (fun pq => f' (fst pq) * g' (snd pq)) (combine ps qs)))).
  { intros f g f' g' Hf Hg. rewrite <- nsum_fin. f_equal. unfold map2. rewrite combine_map, !map_map. apply map_ext. intros [p q]. cbn [fst snd]. rewrite Hf, Hg. reflexivity. }
  unfold cross_gram. rewrite (E c0 c0 c0 c0), (E c0 c1 c0 c1), (E c0 c2 c0 c2), (E c1 c0 c1 c0), (E c1 c1 c1 c1), (E c1 c2 c1 c2), (E c2 c0 c2 c0), (E c2 c1 c2 c1), (E c2 c2 c2 c2) by reflexivity.
  reflexivity.
Qed.
Lemma centred_fin ps : ps <> [] -> map (fun p => vsub p (vmean (map fin3 ps))) (map fin3 ps) = map fin3 (centred ps).
Proof. intros NE. rewrite vmean_fin by auto. unfold centred. rewrite !map_map. apply map_ext. intros p. apply fsub. Qed.
Lemma xlt0 x : nlt (Fin x) n0 = Rlt_bool x 0.
Proof. reflexivity. Qed.
Lemma base_det u v : orthogonal u -> orthogonal v -> rdet (base u v) = 1 \/ rdet (base u v) = -1.
Proof. intros U V. apply orthogonal_det. now apply base_orth. Qed.
Definition svals_zero (s : V3 R) : bool := (Req_bool (c0 s) 0 || Req_bool (c1 s) 0 || Req_bool (c2 s) 0)%bool.
Lemma svals_zero_true c u s v : svd_of c u s v -> svals_zero s = true <-> c2 s = 0.
Proof.
  intros (_ & _ & H0 & H1 & H2 & _). unfold svals_zero. rewrite !orb_true_iff. split.
  - intros [[E|E]|E]; revert E; case Req_bool_spec; intros E X; try discriminate X; lra.
  - intros E. right. now rewrite Req_bool_true.
Qed.
Lemma transform_fin svd ps qs u s v : length ps = length qs -> ps <> [] ->
  svd (finm (cross_gram (centred ps) (centred qs))) = Ok (finm u, fin3 s, finm v) ->
  find_rigid_transform svd (P3N (map fin3 ps)) (P3N (map fin3 qs)) =
  let fit q := Ok (finm q, fin3 (rsub (centroid qs) (rapply q (centroid ps)))) in
  if Rlt_bool (rdet (base u v)) 0 then if svals_zero s then fit (flipped u v) else Err ValueError else fit (base u v).
Proof.
  intros L NE E. assert (NE' : qs <> []) by (intros ->; destruct ps; [auto|discriminate L]).
  unfold find_rigid_transform. cbn [as_columns bindr]. cbv zeta. rewrite !centred_fin by auto.
  rewrite gram_fin by (unfold centred; now rewrite !map_length). cbn [bindr]. rewrite E. cbn [bindr]. rewrite !vmean_fin by auto.
  rewrite !ftrans, fmmul, fdet, flip_fin, fmmul. rewrite xlt0. fold (base u v) (flipped u v).
  destruct (Rlt_bool (rdet (base u v)) 0).
  - change (neqb (c0 (fin3 s)) n0 || neqb (c1 (fin3 s)) n0 || neqb (c2 (fin3 s)) n0)%bool with (svals_zero s).
    destruct (svals_zero s); [|reflexivity]. cbn [bindr]. rewrite fmap_apply, fsub. reflexivity.
  - cbn [bindr]. rewrite fmap_apply, fsub. reflexivity.
Qed.
(** the outcome: a rotation at least as good as every orthogonal matrix, or a
    refusal because a reflection is strictly better than every other matrix *)
Lemma transform_outcome svd ps qs : length ps = length qs -> ps <> [] -> svd_ok svd (cross_gram (centred ps) (centred qs)) ->
  (exists q t, find_rigid_transform svd (P3N (map fin3 ps)) (P3N (map fin3 qs)) = Ok (finm q, fin3 t) /\ rotation q /\
     t = rsub (centroid qs) (rapply q (centroid ps)) /\
     forall q', orthogonal q' -> pres (rapply q) (combine (centred ps) (centred qs)) <= pres (rapply q') (combine (centred ps) (centred qs))) \/
  (find_rigid_transform svd (P3N (map fin3 ps)) (P3N (map fin3 qs)) = Err ValueError /\
   exists q, orthogonal q /\ rdet q = -1 /\
     forall q', orthogonal q' -> q' <> q -> pres (rapply q) (combine (centred ps) (centred qs)) < pres (rapply q') (combine (centred ps) (centred qs))).
Proof.
  intros L NE (u & s & v & E & D). rewrite (transform_fin L NE E). cbv zeta.
  change (cross_gram (centred ps) (centred qs)) with (pgram (combine (centred ps) (centred qs))) in D.
  set (l := combine _ _) in *. pose proof D as (U & V & H0 & H1 & H2 & _).
  destruct (base_det U V) as [B|B].
  - left. rewrite Rlt_bool_false by lra. exists (base u v), (rsub (centroid qs) (rapply (base u v) (centroid ps))). repeat split; auto.
    + apply base_orth; auto.
    + apply base_orth; auto.
    + intros q' Q. rewrite !pres_gain by (auto using base_orth). pose proof (gain_le D Q). lra.
  - rewrite Rlt_bool_true by lra. destruct (svals_zero s) eqn:Z.
    + left. rewrite (svals_zero_true D) in Z. exists (flipped u v), (rsub (centroid qs) (rapply (flipped u v) (centroid ps))). repeat split; auto.
      * apply flipped_orth; auto.
      * apply flipped_orth; auto.
      * rewrite flipped_det. lra.
      * intros q' Q. rewrite !pres_gain by (auto using flipped_orth). pose proof (gain_le D Q). pose proof (gain_base D). pose proof (gain_flipped D). cbv beta zeta in *. lra.
    + right. split; [reflexivity|]. exists (base u v). split; [apply base_orth; auto|]. split; auto. intros q' Q N.
      rewrite !pres_gain by (auto using base_orth).
      assert (P : c2 s > 0). { destruct (Req_dec (c2 s) 0) as [X|X]; [|lra]. apply (svals_zero_true D) in X. congruence. }
      pose proof (gain_lt D Q P N). lra.
Qed.
Lemma pres_best q ps qs : length ps = length qs -> ps <> [] ->
  pres (rigid q (rsub (centroid qs) (rapply q (centroid ps)))) (combine ps qs) = pres (rapply q) (combine (centred ps) (centred qs)).
Proof.
  intros L NE. rewrite (pres_split _ _ L NE). cbv zeta. set (t := rsub (centroid qs) _). replace (rsub t t) with rzero by (clearbody t; clear; unfold rsub, rzero; f_equal; ring).
  unfold rzero, rdot. cbn [c0 c1 c2]. ring.
Qed.
Lemma pres_ge q t ps qs : length ps = length qs -> ps <> [] ->
  pres (rapply q) (combine (centred ps) (centred qs)) <= pres (rigid q t) (combine ps qs).
Proof.
  intros L NE. rewrite (pres_split _ _ L NE). cbv zeta. set (d := rsub t _). pose proof (rdot_nonneg d). pose proof (pos_INR (length ps)).
  assert (0 <= INR (length ps) * rdot d d) by now apply Rmult_le_pos. lra.
Qed.
Theorem transform_best svd ps qs r t : length ps = length qs -> ps <> [] -> svd_ok svd (cross_gram (centred ps) (centred qs)) ->
  find_rigid_transform svd (P3N (map fin3 ps)) (P3N (map fin3 qs)) = Ok (r, t) ->
  exists q o, r = finm q /\ t = fin3 o /\ rotation q /\
    forall q' o', orthogonal q' -> residual (rigid q o) ps qs <= residual (rigid q' o') ps qs.
Proof.
  intros L NE S E. destruct (transform_outcome L NE S) as [(q & o & E' & Q & T & M)|[E' _]]; [|congruence].
  rewrite E' in E. injection E as <- <-. exists q, o. repeat split; auto; try apply Q.
  intros q' o' Q'. rewrite !residual_pres. subst o. rewrite (pres_best _ L NE). eapply Rle_trans; [apply (M q' Q')|]. now apply pres_ge.
Qed.
Theorem transform_refuses svd ps qs : length ps = length qs -> ps <> [] -> svd_ok svd (cross_gram (centred ps) (centred qs)) ->
  (forall e, find_rigid_transform svd (P3N (map fin3 ps)) (P3N (map fin3 qs)) = Err e -> e = ValueError) /\
  (find_rigid_transform svd (P3N (map fin3 ps)) (P3N (map fin3 qs)) = Err ValueError <->
   exists m o, orthogonal m /\ forall q' o', rotation q' -> residual (rigid m o) ps qs < residual (rigid q' o') ps qs).
Proof.
  intros L NE S. destruct (transform_outcome L NE S) as [(q & o & E' & Q & T & M)|(E' & m & O & D & M)]; rewrite E'.
  - split; [discriminate|]. split; [discriminate|]. intros (m & o' & O & H). exfalso. specialize (H q o Q). rewrite !residual_pres in H.
    subst o. rewrite (pres_best _ L NE) in H. pose proof (pres_ge m o' L NE). specialize (M m O). lra.
  - split; [congruence|]. split; [|reflexivity]. intros _. exists m, (rsub (centroid qs) (rapply m (centroid ps))). split; auto.
    intros q' o' Q'. rewrite !residual_pres, (pres_best _ L NE). eapply Rlt_le_trans; [apply (M q' (proj1 Q'))|now apply pres_ge].
    intros ->. destruct Q' as [_ D']. lra.
Qed.
(** exact data *)
Lemma residual_zero f ps : residual f ps (map f ps) = 0.
Proof.
  unfold residual. induction ps as [|p ps IH]; [reflexivity|]. cbn [map combine rsum fst snd] in *. rewrite IH.
  replace (rdist (f p) (f p)) with 0; [ring|]. unfold rdist, rnorm. symmetry. rewrite <- sqrt_0. f_equal. unfold rdot, rsub. cbn [c0 c1 c2]. ring.
Qed.
Lemma in_combine_map {A B} (f : A -> B) l x : In x l -> In (x, f x) (combine l (map f l)).
Proof. induction l as [|y l IH]; cbn; [tauto|]. intros [->|I]; auto. Qed.
Theorem transform_exact svd ps m t : rotation m -> ps <> [] ->
  svd_ok svd (cross_gram (centred ps) (centred (map (rigid m t) ps))) ->
  exists q o, find_rigid_transform svd (P3N (map fin3 ps)) (P3N (map fin3 (map (rigid m t) ps))) = Ok (finm q, fin3 o) /\
    rotation q /\ forall p, In p ps -> rigid q o p = rigid m t p.
Proof.
  intros M NE S. set (qs := map (rigid m t) ps) in *. assert (L : length ps = length qs) by (unfold qs; now rewrite map_length).
  destruct (transform_outcome L NE S) as [(q & o & E' & Q & T & B)|(E' & m' & O & D & B)].
  - exists q, o. repeat split; auto; try apply Q.
    assert (Z : pres (rigid q o) (combine ps qs) = 0).
    { pose proof (pres_nonneg (rigid q o) (combine ps qs)). subst o. rewrite (pres_best _ L NE) in *. specialize (B m (proj1 M)).
      pose proof (pres_ge m t L NE) as G. rewrite <- (residual_pres (rigid m t)) in G. unfold qs in G at 2. rewrite residual_zero in G. lra. }
    intros p I. apply (pres_zero Z). now apply in_combine_map.
  - exfalso. assert (N : m <> m') by (intros ->; destruct M; lra). specialize (B m (proj1 M) N).
    pose proof (pres_ge m t L NE) as G. rewrite <- (residual_pres (rigid m t)) in G. unfold qs in G at 2. rewrite residual_zero in G.
    pose proof (pres_nonneg (rapply m') (combine (centred ps) (centred qs))). lra.
Qed.
