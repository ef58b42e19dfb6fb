(** * Properties of rigid fits (C54, C55, C74). *)
From Coq Require Import Reals ZArith List Bool Lra Lia Psatz.
From Verif Require Import Num XLemmas Vec NpList RVec SpecGeom VLemmas PPlane2 PMat3 MRotation SpecRotation PRotation MRigid SpecRigid PRigid PRigid2.
Import ListNotations.
Local Open Scope R_scope.

(** [svd_ok svd c] says that [svd] decomposed this one matrix [c] correctly:
    [c = u diag(s) v] with [u], [v] orthogonal and [s] descending and non-negative. *)

(** ** C54 *)
(** whatever is returned is a rotation and an offset at least as good as any
    other rotation (indeed any orthogonal matrix) and offset *)
Theorem C54_best_fit : forall svd ps qs r t, length ps = length qs -> ps <> [] ->
  svd_ok svd (cross_gram (centred ps) (centred qs)) ->
  find_rigid_transform svd (P3N (map fin3 ps)) (P3N (map fin3 qs)) = Ok (r, t) ->
  exists q o, r = finm q /\ t = fin3 o /\ rotation q /\
    forall q' o', orthogonal q' -> residual (rigid q o) ps qs <= residual (rigid q' o') ps qs.
Proof. exact transform_best. Qed.
Print Assumptions C54_best_fit.
(** on exact data it never raises and reproduces every point *)
Theorem C54_exact : forall svd ps m t, rotation m -> ps <> [] ->
  svd_ok svd (cross_gram (centred ps) (centred (map (rigid m t) ps))) ->
  exists q o, find_rigid_transform svd (P3N (map fin3 ps)) (P3N (map fin3 (map (rigid m t) ps))) = Ok (finm q, fin3 o) /\
    rotation q /\ forall p, In p ps -> rigid q o p = rigid m t p.
Proof. exact transform_exact. Qed.
Print Assumptions C54_exact.
(** it raises only ValueError, exactly when some reflection fits strictly better
    than every rotation *)
Theorem C54_refuses : forall svd ps qs, length ps = length qs -> ps <> [] ->
  svd_ok svd (cross_gram (centred ps) (centred qs)) ->
  (forall e, find_rigid_transform svd (P3N (map fin3 ps)) (P3N (map fin3 qs)) = Err e -> e = ValueError) /\
  (find_rigid_transform svd (P3N (map fin3 ps)) (P3N (map fin3 qs)) = Err ValueError <->
   exists m o, orthogonal m /\ forall q' o', rotation q' -> residual (rigid m o) ps qs < residual (rigid q' o') ps qs).
Proof. exact transform_refuses. Qed.
Print Assumptions C54_refuses.
(** argument layouts: rows are accepted unless there are exactly three of them,
    which are read by columns *)
Theorem C54_layout : forall svd (l k : list (V3 xr)) b,
  (length l <> 3%nat -> find_rigid_transform svd (PN3 l) b = find_rigid_transform svd (P3N l) b) /\
  (length k <> 3%nat -> find_rigid_transform svd (P3N l) (PN3 k) = find_rigid_transform svd (P3N l) (P3N k)) /\
  (forall r0 r1 r2, find_rigid_transform svd (PN3 [r0; r1; r2]) b =
     find_rigid_transform svd (P3N [mk3 (c0 r0) (c0 r1) (c0 r2); mk3 (c1 r0) (c1 r1) (c1 r2); mk3 (c2 r0) (c2 r1) (c2 r2)]) b) /\
  find_rigid_transform svd PBad b = Err AssertionError /\
  find_rigid_transform svd (P3N l) PBad = Err AssertionError /\
  (length l <> length k -> find_rigid_transform svd (P3N l) (P3N k) = Err ValueError).
Proof.
  intros svd l k b. assert (A : forall x : list (V3 xr), length x <> 3%nat -> as_columns (PN3 x) = as_columns (P3N x)).
  { intros x H. destruct x as [|x0 [|x1 [|x2 [|x3 x]]]]; try reflexivity. now elim H. }
  repeat split.
  - intros H. unfold find_rigid_transform. now rewrite A.
  - intros H. unfold find_rigid_transform. now rewrite A.
  - intros H. unfold find_rigid_transform, gram. cbn [as_columns bindr]. cbv zeta. rewrite !map_length.
    destruct (Nat.eqb_spec (length l) (length k)); [contradiction|reflexivity].
Qed.
Print Assumptions C54_layout.
(** a quarter turn about z of four points *)
Definition ex_ps : list (V3 R) := [mk3 2 0 0; mk3 (-2) 0 0; mk3 0 1 0; mk3 0 (-1) 0].
Definition ex_m : M3 R := mk3 (mk3 0 (-1) 0) (mk3 1 0 0) (mk3 0 0 1).
Definition ex_svd : @svd_t xr := fun _ => Ok (finm reye, fin3 (mk3 8 2 0), finm (rtrans ex_m)).
Ltac mat := unfold rmmul, rtrans, reye, rdiag, rcol0, rcol1, rcol2, rdot; cbn [c0 c1 c2]; f_equal; f_equal; ring.
Lemma ex_m_rot : rotation ex_m.
Proof. split; [split|]; unfold ex_m; [mat|mat|]. unfold rdet, rcross, rdot. cbn [c0 c1 c2]. ring. Qed.
Lemma ex_svd_of : svd_of (mk3 (mk3 0 8 0) (mk3 (-2) 0 0) (mk3 0 0 0)) reye (mk3 8 2 0) (rtrans ex_m).
Proof.
  split; [apply rotation_eye|]. split; [apply orthogonal_trans, ex_m_rot|]. cbn [c0 c1 c2].
  repeat (split; [lra|]). unfold ex_m. symmetry. mat.
Qed.
Lemma centred_zero ps : centroid ps = rzero -> centred ps = ps.
Proof.
  intros E. unfold centred. rewrite E. rewrite <- (map_id ps) at 2. apply map_ext. intros [x y z]. unfold rsub, rzero. cbn [c0 c1 c2]. f_equal; ring.
Qed.
Lemma ex_gram : cross_gram (centred ex_ps) (centred (map (rigid ex_m rzero) ex_ps)) = mk3 (mk3 0 8 0) (mk3 (-2) 0 0) (mk3 0 0 0).
Proof.
  rewrite !centred_zero by (unfold centroid, ex_ps, ex_m, rigid, rzero, radd, rapply, rdot; cbn [map rsum c0 c1 c2 length INR]; f_equal; field).
  unfold cross_gram, ex_ps, ex_m, rigid, rzero, radd, rapply, rdot. cbn [map combine rsum fst snd c0 c1 c2]. f_equal; f_equal; ring.
Qed.
Example C54_example : rotation ex_m /\ ex_ps <> [] /\
  svd_ok ex_svd (cross_gram (centred ex_ps) (centred (map (rigid ex_m rzero) ex_ps))).
Proof.
  split; [apply ex_m_rot|]. split; [discriminate|]. rewrite ex_gram. do 3 eexists. split; [reflexivity|apply ex_svd_of].
Qed.
(** the mirror image of an octahedron-like set is refused *)
Definition ex3_ps : list (V3 R) := [mk3 3 0 0; mk3 (-3) 0 0; mk3 0 2 0; mk3 0 (-2) 0; mk3 0 0 1; mk3 0 0 (-1)].
Definition ex3_qs : list (V3 R) := [mk3 3 0 0; mk3 (-3) 0 0; mk3 0 2 0; mk3 0 (-2) 0; mk3 0 0 (-1); mk3 0 0 1].
Definition ex3_svd : @svd_t xr := fun _ => Ok (finm reye, fin3 (mk3 18 8 2), finm (mk3 (mk3 1 0 0) (mk3 0 1 0) (mk3 0 0 (-1)))).
Example C54_example_refused : svd_ok ex3_svd (cross_gram (centred ex3_ps) (centred ex3_qs)) /\
  find_rigid_transform ex3_svd (P3N (map fin3 ex3_ps)) (P3N (map fin3 ex3_qs)) = Err ValueError.
Proof.
  assert (S : svd_ok ex3_svd (cross_gram (centred ex3_ps) (centred ex3_qs))).
  { rewrite !centred_zero by (unfold centroid, ex3_ps, ex3_qs, rzero; cbn [map rsum c0 c1 c2 length INR]; f_equal; field).
    do 3 eexists. split; [reflexivity|]. split; [apply rotation_eye|]. split; [apply flip3_orth|]. cbn [c0 c1 c2]. repeat (split; [lra|]).
    unfold cross_gram, ex3_ps, ex3_qs. cbn [map combine rsum fst snd c0 c1 c2]. mat. }
  split; auto. apply (C54_refuses ex3_svd ex3_ps ex3_qs); auto; [discriminate|].
  exists flip3, rzero. split; [apply flip3_orth|]. intros q' o' Q.
  destruct (C54_refuses ex3_svd ex3_ps ex3_qs eq_refl ltac:(discriminate) S) as [_ _].
  assert (Z : residual (rigid flip3 rzero) ex3_ps ex3_qs = 0).
  { replace ex3_qs with (map (rigid flip3 rzero) ex3_ps); [apply residual_zero|]. unfold ex3_ps, ex3_qs, rigid, flip3, rzero, radd, rapply, rdot. cbn [map c0 c1 c2]. repeat f_equal; ring. }
  rewrite Z. rewrite residual_pres. pose proof (pres_nonneg (rigid q' o') (combine ex3_ps ex3_qs)) as P. destruct P as [P|P]; auto. exfalso. symmetry in P.
  pose proof (pres_zero P) as W.
  pose proof (W (mk3 3 0 0) (mk3 3 0 0) ltac:(cbn; tauto)) as W1. pose proof (W (mk3 (-3) 0 0) (mk3 (-3) 0 0) ltac:(cbn; tauto)) as W2.
  pose proof (W (mk3 0 2 0) (mk3 0 2 0) ltac:(cbn; tauto)) as W3. pose proof (W (mk3 0 0 1) (mk3 0 0 (-1)) ltac:(cbn; tauto)) as W4.
  pose proof (W (mk3 0 0 (-1)) (mk3 0 0 1) ltac:(cbn; tauto)) as W5.
  destruct Q as [_ D]. clear -W1 W2 W3 W4 W5 D. destruct q' as [[a00 a01 a02] [a10 a11 a12] [a20 a21 a22]], o' as [x y z].
  unfold rigid, radd, rapply, rdot in *. cbn [c0 c1 c2] in *. injection W1 as A1 A2 A3. injection W2 as B1 B2 B3. injection W3 as C1 C2 C3. injection W4 as D1 D2 D3. injection W5 as E1 E2 E3.
  unfold rdet, rcross, rdot in D. cbn [c0 c1 c2] in D.
  assert (a00 = 1) by lra. assert (a10 = 0) by lra. assert (a20 = 0) by lra. assert (x = 0) by lra. assert (y = 0) by lra. assert (z = 0) by lra.
  assert (a01 = 0) by lra. assert (a11 = 1) by lra. assert (a21 = 0) by lra. assert (a02 = 0) by lra. assert (a12 = 0) by lra. assert (a22 = -1) by lra. subst. lra.
Qed.

(** ** C55 *)
(** any number of pairs; for a single pair the matrix also holds the pair's cross
    product, as [with_cross] records *)
Theorem C55_best_rotation : forall svd ps qs, length ps = length qs ->
  svd_ok svd (let '(a, b) := with_cross ps qs in cross_gram a b) ->
  exists q, find_rigid_rotation svd (P3N (map fin3 ps)) (P3N (map fin3 qs)) false = Ok (finm q) /\ rotation q /\
    forall q', rotation q' -> residual (rapply q) ps qs <= residual (rapply q') ps qs.
Proof.
  intros svd ps qs L S. destruct (rotation_any L S) as (q & Q & B & _ & E). exists q. split; [apply (E false)|auto].
Qed.
Print Assumptions C55_best_rotation.
(** a single pair of independent vectors: the turn about their common perpendicular *)
Theorem C55_one_pair : forall svd p q, rcross p q <> rzero ->
  svd_ok svd (cross_gram [p; rcross p q] [q; rcross p q]) ->
  exists m, find_rigid_rotation svd (P3N [fin3 p]) (P3N [fin3 q]) false = Ok (finm m) /\ rotation m /\
    rapply m p = rscale (rnorm p / rnorm q) q /\ rapply m (rcross p q) = rcross p q.
Proof.
  intros svd p q X S. destruct (@rotation_any svd [p] [q] eq_refl S) as (m & M & _ & C & E). exists m. split; [apply (E false)|].
  destruct (C p q eq_refl eq_refl). auto.
Qed.
Print Assumptions C55_one_pair.
Theorem C55_layout : forall svd (l k : list (V3 xr)) sc,
  find_rigid_rotation svd (PN3 l) (P3N k) sc = Err AssertionError /\
  find_rigid_rotation svd (P3N l) (PN3 k) sc = Err AssertionError /\
  find_rigid_rotation svd PBad (P3N k) sc = Err AssertionError /\
  (length l <> length k -> find_rigid_rotation svd (P3N l) (P3N k) sc = Err ValueError).
Proof.
  intros svd l k sc. repeat split. intros H. destruct (Nat.eq_dec (length l) 1) as [L|L].
  - destruct l as [|p [|]]; try discriminate L. destruct k as [|q [|]]; cbn in H; [reflexivity|now elim H|reflexivity].
  - rewrite rotation_many by auto. unfold rotation_core, gram. destruct (Nat.eqb_spec (length l) (length k)); [contradiction|reflexivity].
Qed.
Print Assumptions C55_layout.
Definition ex55_svd : @svd_t xr := fun _ => Ok (finm (rtrans (mk3 (mk3 0 0 1) (mk3 1 0 0) (mk3 0 1 0))), fin3 (mk3 4 2 0), finm (mk3 (mk3 0 0 1) (mk3 0 1 0) (mk3 (-1) 0 0))).
Example C55_example : let p := mk3 1 0 0 in let q := mk3 0 2 0 in rcross p q <> rzero /\
  svd_ok ex55_svd (cross_gram [p; rcross p q] [q; rcross p q]).
Proof.
  cbv zeta. split; [unfold rcross, rzero; cbn [c0 c1 c2]; intros E; injection E; intros; lra|].
  do 3 eexists. split; [reflexivity|]. split; [split; mat|]. split; [split; mat|]. cbn [c0 c1 c2]. repeat (split; [lra|]).
  unfold cross_gram, rcross. cbn [map combine rsum fst snd c0 c1 c2]. mat.
Qed.
Example C55_example_many : length ex_ps = length (map (rigid ex_m rzero) ex_ps) /\
  svd_ok ex_svd (let '(a, b) := with_cross ex_ps (map (rigid ex_m rzero) ex_ps) in cross_gram a b).
Proof.
  split; [reflexivity|]. cbn [with_cross ex_ps map]. do 3 eexists. split; [reflexivity|].
  replace (cross_gram _ _) with (mk3 (mk3 0 8 0) (mk3 (-2) 0 0) (mk3 0 0 0)); [apply ex_svd_of|].
  unfold cross_gram, ex_ps, ex_m, rigid, rzero, radd, rapply, rdot; cbn [map combine rsum fst snd c0 c1 c2]; f_equal; f_equal; ring.
Qed.

(** ** C74: with [allow_scaling] a scaled rotation is recovered ... *)
Theorem C74_scaled_exact : forall svd ps m k, length ps <> 1%nat -> (exists p, In p ps /\ p <> rzero) -> rotation m -> 0 < k ->
  let qs := map (fun p => rscale k (rapply m p)) ps in
  svd_ok svd (cross_gram ps qs) ->
  exists r, find_rigid_rotation svd (P3N (map fin3 ps)) (P3N (map fin3 qs)) true = Ok (finm r) /\
    forall p, In p ps -> rapply r p = rscale k (rapply m p).
Proof. exact scaled_exact. Qed.
Print Assumptions C74_scaled_exact.
(** ... but from a single pair of independent vectors only when no scaling is needed *)
Theorem C123_single_point_refuted : forall svd p q, rcross p q <> rzero ->
  svd_ok svd (cross_gram [p; rcross p q] [q; rcross p q]) ->
  exists r, find_rigid_rotation svd (P3N [fin3 p]) (P3N [fin3 q]) true = Ok (finm r) /\
    (rapply r p = q <-> rnorm p = rnorm q).
Proof. exact scaled_single. Qed.
Print Assumptions C123_single_point_refuted.
(** (1,0,0) against (0,2,0), as in [C55_example] *)
Example C74_example_single : exists r, find_rigid_rotation ex55_svd (P3N [fin3 (mk3 1 0 0)]) (P3N [fin3 (mk3 0 2 0)]) true = Ok (finm r) /\
  rapply r (mk3 1 0 0) <> mk3 0 2 0.
Proof.
  destruct C55_example as [X S]. destruct (C123_single_point_refuted ex55_svd _ _ X S) as (r & E & H). exists r. split; auto.
  rewrite H. unfold rnorm, rdot. cbn [c0 c1 c2]. replace (1 * 1 + 0 * 0 + 0 * 0) with (1 * 1) by ring. replace (0 * 0 + 2 * 2 + 0 * 0) with (2 * 2) by ring.
  rewrite !sqrt_square by lra. lra.
Qed.
Definition ex74_svd : @svd_t xr := fun _ => Ok (finm reye, fin3 (mk3 24 6 0), finm (rtrans ex_m)).
Example C74_example : length ex_ps <> 1%nat /\ (exists p, In p ex_ps /\ p <> rzero) /\ rotation ex_m /\ 0 < 3 /\
  svd_ok ex74_svd (cross_gram ex_ps (map (fun p => rscale 3 (rapply ex_m p)) ex_ps)).
Proof.
  split; [discriminate|]. split; [exists (mk3 2 0 0); split; [now left|intros E; injection E; intros; lra]|]. split; [apply ex_m_rot|]. split; [lra|].
  do 3 eexists. split; [reflexivity|]. split; [apply rotation_eye|]. split; [apply orthogonal_trans, ex_m_rot|]. cbn [c0 c1 c2]. repeat (split; [lra|]).
  unfold cross_gram, ex_m, ex_ps, rapply, rscale, rdot. cbn [map combine rsum fst snd c0 c1 c2]. mat.
Qed.
