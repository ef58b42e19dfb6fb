(** * Bridging lemmas and vector algebra. *)
From Coq Require Import Reals ZArith List Bool Lra Lia Psatz.
From Flocq Require Import Core.Raux.
From Verif Require Import Num XLemmas Vec RVec.
Import ListNotations.
Local Open Scope R_scope.

Ltac vunf := unfold rdist, rnorm, lerp, rapply, rmmul, rtrans, rcol0, rcol1, rcol2, rdet, reye, radd, rsub, rscale, rcross, rzero, rdot in *.
Ltac vdestr := repeat match goal with
  | v : V3 _ |- _ => let x := fresh "x" in let y := fresh "y" in let z := fresh "z" in destruct v as [x y z]
  | m : M3 _ |- _ => let x := fresh "r" in let y := fresh "r" in let z := fresh "r" in destruct m as [x y z]
  end.
Ltac vring := intros; vdestr; vunf; cbn [c0 c1 c2] in *; try ring; try (f_equal; ring).
Ltac vext := match goal with |- ?a = ?b => 
   let H := fresh in assert (H : mk3 (c0 a) (c1 a) (c2 a) = mk3 (c0 b) (c1 b) (c2 b)); [|destruct a, b; exact H] end.

Lemma V3_eq A (v w : V3 A) : c0 v = c0 w -> c1 v = c1 w -> c2 v = c2 w -> v = w.
Proof. destruct v, w; cbn; congruence. Qed.

(** ** model operations on finite vectors *)
Lemma fadd a b : vadd (fin3 a) (fin3 b) = fin3 (radd a b). Proof. reflexivity. Qed.
Lemma fsub a b : vsub (fin3 a) (fin3 b) = fin3 (rsub a b). Proof. reflexivity. Qed.
Lemma fdot a b : vdot (fin3 a) (fin3 b) = Fin (rdot a b). Proof. reflexivity. Qed.
Lemma fcross a b : vcross (fin3 a) (fin3 b) = fin3 (rcross a b). Proof. reflexivity. Qed.
Lemma fscale s a : vscale (Fin s) (fin3 a) = fin3 (rscale s a). Proof. reflexivity. Qed.
Lemma fopp a : vopp (fin3 a) = fin3 (rscale (-1) a).
Proof. unfold vopp, fin3, map3, rscale; cbn. repeat (f_equal; try ring). Qed.
Lemma fzero : vzero = fin3 rzero. Proof. reflexivity. Qed.
#[export] Hint Rewrite fadd fsub fdot fcross fscale fopp : xr.

Lemma rdot_self_pos a : 0 <= rdot a a. Proof. vring; nra. Qed.
Lemma rdot_self_0 a : rdot a a = 0 -> a = rzero.
Proof. vring. assert (x = 0 /\ y = 0 /\ z = 0) as (->&->&->) by (repeat split; nra). reflexivity. Qed.
Lemma rdot_zero : rdot rzero rzero = 0. Proof. vring. Qed.
Lemma rdot_sym a b : rdot a b = rdot b a. Proof. vring. Qed.
Lemma rdot_add_l a b c : rdot (radd a b) c = rdot a c + rdot b c. Proof. vring. Qed.
Lemma rdot_add_r a b c : rdot a (radd b c) = rdot a b + rdot a c. Proof. vring. Qed.
Lemma rdot_sub_l a b c : rdot (rsub a b) c = rdot a c - rdot b c. Proof. vring. Qed.
Lemma rdot_sub_r a b c : rdot a (rsub b c) = rdot a b - rdot a c. Proof. vring. Qed.
Lemma rdot_scale_l s a b : rdot (rscale s a) b = s * rdot a b. Proof. vring. Qed.
Lemma rdot_scale_r s a b : rdot a (rscale s b) = s * rdot a b. Proof. vring. Qed.
#[export] Hint Rewrite rdot_add_l rdot_add_r rdot_sub_l rdot_sub_r rdot_scale_l rdot_scale_r : rdot.

Lemma rnorm_pos a : 0 <= rnorm a. Proof. apply sqrt_pos. Qed.
Lemma rnorm_sq a : rnorm a * rnorm a = rdot a a.
Proof. apply sqrt_sqrt, rdot_self_pos. Qed.
Lemma rnorm_0 a : rnorm a = 0 <-> a = rzero.
Proof.
  split.
  - intros H. apply rdot_self_0. rewrite <- rnorm_sq, H. ring.
  - intros ->. unfold rnorm. rewrite rdot_zero. apply sqrt_0.
Qed.
Lemma rnorm_gt0 a : a <> rzero -> 0 < rnorm a.
Proof. intros H. destruct (rnorm_pos a) as [|E]; auto. exfalso. apply H, rnorm_0. auto. Qed.
Lemma rnorm_scale s a : rnorm (rscale s a) = Rabs s * rnorm a.
Proof.
  unfold rnorm. autorewrite with rdot. rewrite <- Rmult_assoc, sqrt_mult_alt by nra.
  f_equal. apply sqrt_Rsqr_abs.
Qed.
Lemma lagrange a b : rdot (rcross a b) (rcross a b) = rdot a a * rdot b b - rdot a b * rdot a b.
Proof. vring. Qed.
Lemma cauchy a b : Rabs (rdot a b) <= rnorm a * rnorm b.
Proof.
  rewrite <- (Rabs_pos_eq (rnorm a * rnorm b)) by (apply Rmult_le_pos; apply rnorm_pos).
  apply Rsqr_le_abs_0. unfold Rsqr.
  replace (rnorm a * rnorm b * (rnorm a * rnorm b)) with (rdot a a * rdot b b)
    by (rewrite <- !rnorm_sq; ring).
  pose proof (rdot_self_pos (rcross a b)). rewrite lagrange in H. lra.
Qed.
Lemma rnorm_le a b : rdot a a <= rdot b b -> rnorm a <= rnorm b.
Proof. intros. apply sqrt_le_1_alt. auto. Qed.

Lemma fnorm a : vnorm (fin3 a) = Fin (rnorm a).
Proof. unfold vnorm. rewrite fdot, xsqrtE; auto. apply rdot_self_pos. Qed.
#[export] Hint Rewrite fnorm : xr.
Lemma fdivs a s : s <> 0 -> vdivs (fin3 a) (Fin s) = fin3 (rscale (/ s) a).
Proof.
  intros H. unfold vdivs, fin3, map3, rscale. cbn [c0 c1 c2].
  rewrite !xdivE by auto. unfold Rdiv. now rewrite !(Rmult_comm (/ s)).
Qed.
Lemma fin3_inj a b : fin3 a = fin3 b -> a = b.
Proof. destruct a, b. unfold fin3, map3. cbn. intros [= -> -> ->]. reflexivity. Qed.
Lemma rscale_1 a : rscale 1 a = a. Proof. vring. Qed.
Lemma rscale_scale s t a : rscale s (rscale t a) = rscale (s * t) a. Proof. vring. Qed.
Lemma rscale_0 a : rscale 0 a = rzero. Proof. vring. Qed.
Lemma radd_comm a b : radd a b = radd b a. Proof. vring. Qed.
Lemma fmap_apply m v : mapply (finm m) (fin3 v) = fin3 (rapply m v). Proof. reflexivity. Qed.
Lemma fmmul m k : mmul (finm m) (finm k) = finm (rmmul m k). Proof. reflexivity. Qed.
Lemma ftrans m : mtrans (finm m) = finm (rtrans m). Proof. reflexivity. Qed.
Lemma fdet m : mdet (finm m) = Fin (rdet m). Proof. reflexivity. Qed.
Lemma feye : meye = finm reye. Proof. reflexivity. Qed.
#[export] Hint Rewrite fmap_apply fmmul ftrans fdet : xr.

Lemma nsign_cases x :
  (x < 0 /\ nsign (Fin x) = Fin (-1)) \/ (x = 0 /\ nsign (Fin x) = Fin 0) \/ (0 < x /\ nsign (Fin x) = Fin 1).
Proof.
  unfold nsign, n0. xs. destruct (Rtotal_order x 0) as [H|[H|H]]; [left|right; left|right; right]; split; auto.
  - now rewrite Rlt_bool_true.
  - rewrite !Rlt_bool_false by lra. now rewrite Req_bool_true.
  - rewrite Rlt_bool_false by lra. now rewrite Rlt_bool_true.
Qed.
Lemma isclose_fin rtol atol x y : isclose (Fin rtol) (Fin atol) (Fin x) (Fin y) = Rle_bool (Rabs (x - y)) (atol + rtol * Rabs y).
Proof. reflexivity. Qed.
