(** * Proofs about vector_shortcuts.py. *)
From Coq Require Import Reals ZArith List Bool Lra Lia.
From Flocq Require Import Core.Raux BinarySingleNaN.
From Verif Require Import Num B64 XLemmas BLemmas Vec RVec VLemmas MVx.
Import ListNotations.
Local Open Scope R_scope.
Set Implicit Arguments.
Unset Strict Implicit.

(** ** normalize, proj, reject *)
Definition runit (v : V3 R) : V3 R := rscale (/ rnorm v) v.
Lemma normalize1_fin v : v <> rzero -> normalize1 (fin3 v) = fin3 (runit v).
Proof. intros H. unfold normalize1. rewrite fnorm, fdivs; auto. apply rnorm_gt0 in H. lra. Qed.
Lemma runit_self v : v <> rzero -> rdot (runit v) (runit v) = 1.
Proof.
  intros H. apply rnorm_gt0 in H. unfold runit. autorewrite with rdot. rewrite <- rnorm_sq. field. lra.
Qed.
Lemma runit_norm v : v <> rzero -> rnorm (runit v) = 1.
Proof. intros H. unfold rnorm. rewrite runit_self by auto. apply sqrt_1. Qed.
Lemma runit_scale v : v <> rzero -> v = rscale (rnorm v) (runit v).
Proof.
  intros H. unfold runit. rewrite rscale_scale. apply rnorm_gt0 in H.
  rewrite Rinv_r by lra. now rewrite rscale_1.
Qed.
Lemma normalize1_zero : normalize1 (fin3 rzero) = mk3 NaN NaN NaN.
Proof.
  unfold normalize1. rewrite fnorm. replace (rnorm rzero) with 0 by (symmetry; now apply rnorm_0).
  unfold vdivs, fin3, map3, rzero. cbn [c0 c1 c2]. now rewrite xdiv0.
Qed.
Lemma normalize_stack l : Forall (fun v => v <> rzero) l ->
  normalize (Many (map fin3 l)) = Ok (Many (map fin3 (map runit l))).
Proof.
  intros H. cbn. do 2 f_equal. rewrite !map_map. apply map_ext_in. intros v Hv.
  rewrite Forall_forall in H. now apply normalize1_fin, H.
Qed.

Lemma sproj1_fin v o : o <> rzero -> sproj1 (fin3 v) (fin3 o) = Fin (rdot v (runit o)).
Proof. intros H. unfold sproj1. now rewrite normalize1_fin, fdot. Qed.
Lemma proj1_fin v o : o <> rzero -> proj1 (fin3 v) (fin3 o) = fin3 (rscale (rdot v o / rdot o o) o).
Proof.
  intros H. unfold proj1. rewrite sproj1_fin, normalize1_fin, fscale by auto. f_equal.
  unfold runit. autorewrite with rdot. rewrite rscale_scale, <- rnorm_sq. apply rnorm_gt0 in H.
  f_equal. field. lra.
Qed.
Lemma reject1_fin v o : o <> rzero ->
  reject1 (fin3 v) (fin3 o) = fin3 (rsub v (rscale (rdot v o / rdot o o) o)).
Proof. intros H. unfold reject1. now rewrite proj1_fin, fsub. Qed.
Lemma dot_self_neq o : o <> rzero -> rdot o o <> 0.
Proof. intros H E. apply H. now apply rdot_self_0. Qed.

Lemma decompose v o : o <> rzero ->
  exists p r, proj1 (fin3 v) (fin3 o) = fin3 p /\ reject1 (fin3 v) (fin3 o) = fin3 r /\
    radd p r = v /\ (exists t, p = rscale t o) /\ rdot r o = 0.
Proof.
  intros H. pose proof (dot_self_neq H).
  rewrite proj1_fin, reject1_fin by auto. do 2 eexists. split; [reflexivity|]. split; [reflexivity|].
  split; [vring|]. split; [eauto|]. autorewrite with rdot. field. auto.
Qed.
Lemma decompose_scale v o s : o <> rzero -> s <> 0 ->
  proj1 (fin3 v) (fin3 (rscale s o)) = proj1 (fin3 v) (fin3 o) /\
  reject1 (fin3 v) (fin3 (rscale s o)) = reject1 (fin3 v) (fin3 o).
Proof.
  intros H Hs. pose proof (dot_self_neq H).
  assert (rscale s o <> rzero).
  { intros E. apply H. destruct o. unfold rscale, rzero in *. cbn in *. injection E as E0 E1 E2.
    apply Rmult_integral in E0, E1, E2. f_equal; tauto. }
  assert (E : rscale (rdot v (rscale s o) / rdot (rscale s o) (rscale s o)) (rscale s o) = rscale (rdot v o / rdot o o) o).
  { autorewrite with rdot. rewrite rscale_scale. f_equal. field. auto. }
  rewrite !proj1_fin, !reject1_fin, E by auto. auto.
Qed.
Lemma sproj_spec v o : o <> rzero -> exists x, sproj1 (fin3 v) (fin3 o) = Fin x /\ x * rnorm o = rdot v o.
Proof.
  intros H. rewrite sproj1_fin by auto. eexists. split; [reflexivity|]. unfold runit. autorewrite with rdot.
  apply rnorm_gt0 in H. field. lra.
Qed.

(** ** angles *)
Lemma unit_dot_bounds v w : v <> rzero -> w <> rzero -> -1 <= rdot (runit v) (runit w) <= 1.
Proof.
  intros Hv Hw. pose proof (cauchy (runit v) (runit w)) as C.
  rewrite !runit_norm in C by auto. apply Rabs_le_inv in C. lra.
Qed.
Lemma unit_dot v w : v <> rzero -> w <> rzero -> rdot (runit v) (runit w) = rdot v w / (rnorm v * rnorm w).
Proof.
  intros Hv Hw. unfold runit. autorewrite with rdot. apply rnorm_gt0 in Hv, Hw. field. lra.
Qed.
Lemma acos_argument_fin v w : v <> rzero -> w <> rzero ->
  acos_argument (fin3 v) (fin3 w) = Fin (rdot v w / (rnorm v * rnorm w)).
Proof.
  intros Hv Hw. unfold acos_argument. rewrite !normalize1_fin, fdot by auto.
  pose proof (unit_dot_bounds Hv Hw) as B. rewrite unit_dot in * by auto.
  unfold pymin, pymax. xs. rewrite (Rlt_bool_false 1) by lra. xs. rewrite Rlt_bool_false by lra. auto.
Qed.
Definition rangle v w := acos (rdot v w / (rnorm v * rnorm w)) * (180 / PI).
Lemma angle_fin v w look : v <> rzero -> w <> rzero ->
  angle (fin3 v) (fin3 w) look = Ok (Fin (rangle v w)).
Proof.
  intros Hv Hw. unfold angle. rewrite acos_argument_fin by auto.
  pose proof (unit_dot_bounds Hv Hw) as B. rewrite unit_dot in B by auto.
  cbn [nacos xr_trans]. rewrite !Rle_bool_true by lra. cbn [andb bindr].
  change (@npi xr xr_trans) with (Fin PI). rewrite xofZ, xdivE by (pose proof PI_RGT_0; lra). now rewrite xmul.
Qed.
Lemma rangle_bounds v w : v <> rzero -> w <> rzero -> 0 <= rangle v w <= 180.
Proof.
  intros Hv Hw. pose proof (unit_dot_bounds Hv Hw) as B. rewrite unit_dot in B by auto.
  pose proof (acos_bound (rdot v w / (rnorm v * rnorm w))) as A.
  unfold rangle. pose proof PI_RGT_0.
  assert (0 < 180 / PI) by (apply Rdiv_lt_0_compat; lra).
  split; [nra|]. replace 180 with (PI * (180 / PI)) at 2 by (field; lra). nra.
Qed.
Lemma rangle_cos v w : v <> rzero -> w <> rzero ->
  cos (rangle v w * (PI / 180)) * (rnorm v * rnorm w) = rdot v w.
Proof.
  intros Hv Hw. pose proof (unit_dot_bounds Hv Hw) as B. rewrite unit_dot in B by auto.
  unfold rangle. pose proof PI_RGT_0.
  replace (acos (rdot v w / (rnorm v * rnorm w)) * (180 / PI) * (PI / 180)) with
    (acos (rdot v w / (rnorm v * rnorm w))) by (field; lra).
  rewrite cos_acos by lra. apply rnorm_gt0 in Hv, Hw. field. lra.
Qed.
Lemma rangle_sym v w : rangle v w = rangle w v.
Proof. unfold rangle. rewrite (rdot_sym v w), (Rmult_comm (rnorm v)). auto. Qed.
Lemma rangle_scale v w s : v <> rzero -> w <> rzero -> 0 < s -> rangle (rscale s v) w = rangle v w.
Proof.
  intros Hv Hw Hs. unfold rangle. rewrite rnorm_scale, Rabs_pos_eq by lra. autorewrite with rdot.
  do 2 f_equal. apply rnorm_gt0 in Hv, Hw. field. lra.
Qed.
Lemma rscale_neq s v : s <> 0 -> v <> rzero -> rscale s v <> rzero.
Proof.
  intros Hs H E. apply H. destruct v. unfold rscale, rzero in *. cbn in *. injection E as E0 E1 E2.
  apply Rmult_integral in E0, E1, E2. f_equal; tauto.
Qed.
Lemma angle_spec v w look : v <> rzero -> w <> rzero ->
  exists a, angle (fin3 v) (fin3 w) look = Ok (Fin a) /\ 0 <= a <= 180 /\
    cos (a * (PI / 180)) * (rnorm v * rnorm w) = rdot v w /\
    angle (fin3 w) (fin3 v) look = Ok (Fin a) /\
    (forall s, 0 < s -> angle (fin3 (rscale s v)) (fin3 w) look = Ok (Fin a)).
Proof.
  intros Hv Hw. exists (rangle v w). split; [now apply angle_fin|]. split; [now apply rangle_bounds|].
  split; [now apply rangle_cos|]. split; [rewrite (rangle_sym v w); now apply angle_fin|].
  intros s Hs. rewrite <- (@rangle_scale v w s) by auto. apply angle_fin; auto. apply rscale_neq; auto; lra.
Qed.
Lemma signed_angle_fin v w look : v <> rzero -> w <> rzero ->
  signed_angle (fin3 v) (fin3 w) (fin3 look) =
    Ok (Fin (if Rlt_bool (rdot (rcross v w) look) 0 then - rangle v w else rangle v w)).
Proof.
  intros Hv Hw. unfold signed_angle. rewrite fcross, fdot, angle_fin by auto. unfold n0.
  destruct (nsign_cases (rdot (rcross v w) look)) as [(H&->)|[(H&->)|(H&->)]]; xs; cbn [bindr].
  - rewrite Req_bool_false by lra. rewrite Rlt_bool_true by auto. xs. do 2 f_equal. ring.
  - rewrite Req_bool_true by lra. rewrite Rlt_bool_false by lra. xs. do 2 f_equal. ring.
  - rewrite Req_bool_false by lra. rewrite Rlt_bool_false by lra. xs. do 2 f_equal. ring.
Qed.
Lemma signed_angle_spec v w look : v <> rzero -> w <> rzero ->
  exists a s t, angle (fin3 v) (fin3 w) (fin3 look) = Ok (Fin a) /\
    signed_angle (fin3 v) (fin3 w) (fin3 look) = Ok (Fin s) /\
    signed_angle (fin3 w) (fin3 v) (fin3 look) = Ok (Fin t) /\
    Rabs s = a /\ -180 <= s <= 180 /\
    (rdot (rcross v w) look > 0 -> s = a /\ t = - s) /\
    (rdot (rcross v w) look < 0 -> s = - a /\ t = - s) /\
    (rdot (rcross v w) look = 0 -> s = a /\ t = a).
Proof.
  intros Hv Hw. exists (rangle v w).
  rewrite angle_fin, !signed_angle_fin by auto. do 2 eexists. do 3 (split; [reflexivity|]).
  rewrite (rangle_sym w v). pose proof (rangle_bounds Hv Hw) as B.
  replace (rdot (rcross w v) look) with (- rdot (rcross v w) look) by vring.
  split. { xdec; [rewrite Rabs_Ropp|]; apply Rabs_pos_eq; lra. }
  split. { xdec; lra. }
  repeat split; xdec; try lra.
Qed.

(** C18 at double precision: comparisons only. *)
Lemma acos_argument_double (v1 v2 : V3 b64) :
  is_nan (vdot (normalize1 v1) (normalize1 v2)) = false ->
  nle (nofZ (-1)) (acos_argument v1 v2) = true /\ nle (acos_argument v1 v2) (nofZ 1) = true.
Proof.
  unfold acos_argument. set (d := vdot _ _). clearbody d. intros H.
  assert (F1 : bfin (nofZ 1 : b64) = true) by (vm_compute; reflexivity).
  assert (F2 : bfin (nofZ (-1) : b64) = true) by (vm_compute; reflexivity).
  unfold pymin, pymax. destruct (nlt (nofZ 1) d) eqn:E1; [vm_compute; auto|].
  destruct (nlt d (nofZ (-1))) eqn:E2; [vm_compute; auto|].
  assert (Fd : bfin d = true).
  { destruct d as [s|[]| |s m e Hb]; auto; vm_compute in E1, E2; discriminate. }
  rewrite blt_spec in E1, E2 by auto. rewrite !ble_spec by auto.
  split; apply Rle_bool_true; [revert E2|revert E1]; xdec; congruence || lra.
Qed.

(** ** homogeneous coordinates *)
Section Hom.
Context {F : Type} {N : Num F}.
Hypothesis one_refl : neqb (nofZ 1 : F) (nofZ 1) = true.
Lemma unpad_pad m : unpad (pad_with_ones m) = Ok m.
Proof.
  unfold unpad, pad_with_ones.
  replace (forallb _ (map pad1 m)) with true.
  - f_equal. rewrite map_map. rewrite <- map_id. apply map_ext. intros []. reflexivity.
  - symmetry. apply forallb_forall. intros x Hx. apply in_map_iff in Hx. destruct Hx as (y&<-&_). apply one_refl.
Qed.
Lemma unpad_reject m : (exists r, In r m /\ neqb (d3 r) (nofZ 1) = false) <-> unpad m = Err ValueError.
Proof.
  unfold unpad. destruct (forallb _ m) eqn:E.
  - rewrite forallb_forall in E. split; [|discriminate]. intros (r&Hr&H). rewrite E in H by auto. discriminate.
  - split; auto. intros _. induction m as [|r m IH]; [discriminate|]. cbn in E.
    destruct (neqb (d3 r) (nofZ 1)) eqn:E2.
    + destruct IH as (r'&?&?); auto. exists r'. split; auto. now right.
    + exists r. split; auto. now left.
Qed.
End Hom.
Lemma one_refl_xr : neqb (nofZ 1 : xr) (nofZ 1) = true.
Proof. xs. now apply Req_bool_true. Qed.
Lemma one_refl_b64 : neqb (nofZ 1 : b64) (nofZ 1) = true.
Proof. vm_compute. reflexivity. Qed.

Lemma apply_affine1 A t p : m4apply (finm4 (affine A t)) (pad1 (fin3 p)) = pad1 (fin3 (radd (rapply A p) t)).
Proof.
  destruct A as [[a b c] [d e f] [g h i]], t as [t0 t1 t2], p as [p0 p1 p2]. unfold m4apply, affine, pad1, fin3, finm4, fin4, map3, map4, vdot4, rapply, radd, rdot.
  cbn [c0 c1 c2 d0 d1 d2 d3]. xs. f_equal; f_equal; ring.
Qed.
Lemma apply_affine A t ps :
  apply_homogeneous (map fin3 ps) (finm4 (affine A t)) = Ok (map fin3 (map (fun p => radd (rapply A p) t) ps)).
Proof.
  unfold apply_homogeneous. rewrite <- (unpad_pad one_refl_xr). f_equal.
  unfold pad_with_ones. rewrite !map_map. apply map_ext. intros p. apply apply_affine1.
Qed.

(** ** reject_axis and tolerances *)
Lemma axis_cases (P : Z -> Prop) : P 0%Z -> P 1%Z -> P 2%Z -> forall i, (0 <= i < 3)%Z -> P i.
Proof. intros ? ? ? i Hi. assert (i = 0 \/ i = 1 \/ i = 2)%Z as [->|[->| ->]] by lia; auto. Qed.
Lemma zero_axis_spec F (N : Num F) i (v : V3 F) : (0 <= i < 3)%Z ->
  exists w, zero_axis i v = Ok w /\ zero_axis (i - 3) v = Ok w /\ coord i w = nofZ 0 /\
    forall j, (0 <= j < 3)%Z -> j <> i -> coord j w = coord j v.
Proof.
  revert i. apply axis_cases; eexists; (split; [reflexivity|]); (split; [reflexivity|]); (split; [reflexivity|]);
    apply (axis_cases (P := fun j => j <> _ -> coord j _ = coord j v)); intros; auto; congruence.
Qed.
Lemma reject_axis_stack F (N : Num F) i (l : list (V3 F)) : (0 <= i < 3)%Z ->
  exists ws, reject_axis (Many l) i = Ok (Many ws) /\ Forall2 (fun v w => reject_axis (One v) i = Ok (One w)) l ws.
Proof.
  intros Hi. unfold reject_axis. destruct (zero_axis_spec N vzero Hi) as (z&->&_).
  induction l as [|v l IH].
  - exists []. split; auto.
  - destruct IH as (ws&E&H). destruct (zero_axis_spec N v Hi) as (w&Ew&_).
    destruct (traverse (zero_axis i) l) eqn:Et; cbn in E; [|discriminate]. injection E as ->.
    exists (w :: ws). cbn. rewrite Ew, Et. cbn. split; auto. constructor; auto. now rewrite Ew.
Qed.
Lemma reject_axis_bad F (N : Num F) i (a : vecs F) : ~ (-3 <= i < 3)%Z -> exists e, reject_axis a i = Err e.
Proof.
  intros Hi. assert (E : forall v : V3 F, zero_axis i v = Err IndexError).
  { intros v. unfold zero_axis, set_axis. destruct (Z.ltb_spec i 0).
    - destruct (i + 3)%Z as [|[p|[p|p|]|]|p] eqn:E; auto; lia.
    - destruct i as [|[p|[p|p|]|]|p]; auto; lia. }
  destruct a; cbn; rewrite ?E; eexists; reflexivity.
Qed.
Lemma squash_bad F i (a : vecs F) : ~ (0 <= i < 3)%Z -> reject_axis_squash a i = Err ValueError.
Proof.
  intros Hi. unfold reject_axis_squash, axis_ok. destruct (Z.eqb_spec i 0), (Z.eqb_spec i 1), (Z.eqb_spec i 2); auto; lia.
Qed.
Lemma almost_zero_fin v atol :
  almost_zero (fin3 v) (Fin atol) = true <-> Rabs (c0 v) <= atol /\ Rabs (c1 v) <= atol /\ Rabs (c2 v) <= atol.
Proof.
  unfold almost_zero, n0. unfold fin3, map3, all3. cbn [c0 c1 c2]. rewrite !xofZ, !isclose_fin.
  rewrite !Rminus_0_r, !Rmult_0_l, !Rplus_0_r.
  rewrite !andb_true_iff. split.
  - intros [[H1 H2] H3]. revert H1 H2 H3. xdec; auto; discriminate.
  - intros (H1&H2&H3). rewrite !Rle_bool_true by auto. auto.
Qed.
Lemma almost_collinear_fin v w atol :
  almost_collinear (fin3 v) (fin3 w) (Fin atol) = true <-> rnorm (rcross v w) <= atol.
Proof.
  unfold almost_collinear, n0. rewrite fcross, fnorm, xofZ, isclose_fin.
  rewrite Rminus_0_r, Rmult_0_l, Rplus_0_r, Rabs_pos_eq by apply rnorm_pos.
  xdec; split; auto; try discriminate; lra.
Qed.
Lemma collinear_iff v w : rnorm (rcross v w) = 0 <-> v = rzero \/ exists t, w = rscale t v.
Proof.
  split.
  - intros H. destruct (Req_dec (rdot v v) 0) as [E|E]; [left; now apply rdot_self_0|].
    right. exists (rdot v w / rdot v v). apply rnorm_0 in H.
    destruct v as [a b c], w as [x y z]. unfold rcross, rzero, rdot, rscale in *. cbn in *.
    injection H as H0 H1 H2. 
    pose proof (f_equal (Rmult a) H0) as A0. pose proof (f_equal (Rmult b) H0) as B0. pose proof (f_equal (Rmult c) H0) as C0.
    pose proof (f_equal (Rmult a) H1) as A1. pose proof (f_equal (Rmult b) H1) as B1. pose proof (f_equal (Rmult c) H1) as C1.
    pose proof (f_equal (Rmult a) H2) as A2. pose proof (f_equal (Rmult b) H2) as B2. pose proof (f_equal (Rmult c) H2) as C2.
    f_equal; (apply (Rmult_eq_reg_l (a*a+b*b+c*c)); [|exact E]).
    + replace ((a*a+b*b+c*c) * ((a * x + b * y + c * z) / (a*a+b*b+c*c) * a)) with ((a * x + b * y + c * z) * a) by (field; exact E). lra.
    + replace ((a*a+b*b+c*c) * ((a * x + b * y + c * z) / (a*a+b*b+c*c) * b)) with ((a * x + b * y + c * z) * b) by (field; exact E). lra.
    + replace ((a*a+b*b+c*c) * ((a * x + b * y + c * z) / (a*a+b*b+c*c) * c)) with ((a * x + b * y + c * z) * c) by (field; exact E). lra.
  - intros [->|[t ->]]; apply rnorm_0; vring.
Qed.

(** ** statements of the property file *)
Lemma Forall2_map_r A B C (R : A -> C -> Prop) (f : B -> C) (l : list A) m :
  Forall2 (fun a b => R a (f b)) l m <-> Forall2 R l (map f m).
Proof.
  split.
  - induction 1; cbn; constructor; auto.
  - revert l. induction m; cbn; inversion 1; subst; constructor; auto.
Qed.
Lemma Forall2_map_self A B (f : A -> B) (R : A -> B -> Prop) l : (forall x, In x l -> R x (f x)) -> Forall2 R l (map f l).
Proof. induction l; cbn; intros H; constructor; auto. Qed.
Lemma normalize_stack_spec vs : Forall (fun v => v <> rzero) vs ->
  exists us, normalize (Many (map fin3 vs)) = Ok (Many (map fin3 us)) /\
    Forall2 (fun v u => rnorm u = 1 /\ v = rscale (rnorm v) u) vs us.
Proof.
  intros H. exists (map runit vs). split; [now apply normalize_stack|].
  apply Forall2_map_self. intros v Hv. rewrite Forall_forall in H.
  split; [now apply runit_norm, H|now apply runit_scale, H].
Qed.
Lemma stacks_row_by_row F (N : Num F) (vs : list (V3 F)) onto :
  (exists ws, proj (Many vs) onto = Ok (Many ws) /\ Forall2 (fun v w => proj (One v) onto = Ok (One w)) vs ws) /\
  (exists ws, reject (Many vs) onto = Ok (Many ws) /\ Forall2 (fun v w => reject (One v) onto = Ok (One w)) vs ws) /\
  (exists ws, normalize (Many vs) = Ok (Many ws) /\ Forall2 (fun v w => normalize (One v) = Ok (One w)) vs ws) /\
  (exists ws, magnitude (Many vs) = Ok (Many1 ws) /\ Forall2 (fun v w => magnitude (One v) = Ok (One1 w)) vs ws).
Proof.
  repeat match goal with |- _ /\ _ => split end; (eexists; split; [reflexivity|]); now apply Forall2_map_self.
Qed.
Lemma pad_appends F (N : Num F) (m : list (V3 F)) :
  Forall2 (fun v w => d0 w = c0 v /\ d1 w = c1 v /\ d2 w = c2 v /\ d3 w = nofZ 1) m (pad_with_ones m).
Proof. apply Forall2_map_self. auto. Qed.
Lemma reject_axis_one F (N : Num F) (v : V3 F) i : (0 <= i < 3)%Z ->
  exists w, reject_axis (One v) i = Ok (One w) /\ reject_axis (One v) (i - 3) = Ok (One w) /\
    coord i w = nofZ 0 /\ forall j, (0 <= j < 3)%Z -> j <> i -> coord j w = coord j v.
Proof.
  intros Hi. destruct (zero_axis_spec N v Hi) as (w&E1&E2&H). exists w. cbn [reject_axis]. rewrite E1, E2. auto.
Qed.
Lemma squash_all F (v : V3 F) :
  reject_axis_squash (One v) 0 = Ok (One2 (c1 v, c2 v)) /\
  reject_axis_squash (One v) 1 = Ok (One2 (c0 v, c2 v)) /\
  reject_axis_squash (One v) 2 = Ok (One2 (c0 v, c1 v)) /\
  forall (l : list (V3 F)) i, (0 <= i < 3)%Z ->
    exists ps, reject_axis_squash (Many l) i = Ok (Many2 ps) /\
      Forall2 (fun v p => reject_axis_squash (One v) i = Ok (One2 p)) l ps.
Proof.
  do 3 (split; [reflexivity|]). intros l. apply axis_cases; (eexists; split; [reflexivity|]); now apply Forall2_map_self.
Qed.
Lemma collinear_zero_tol v w :
  almost_collinear (fin3 v) (fin3 w) (Fin 0) = true <-> v = rzero \/ exists t, w = rscale t v.
Proof. rewrite almost_collinear_fin, <- collinear_iff. pose proof (rnorm_pos (rcross v w)). split; intros; lra. Qed.
