(** * Proofs about the normals nodes: the cache of VertNormals over any history. *)
From Coq Require Import Reals ZArith List Bool Lra Lia.
From Verif Require Import Num Vec RVec NpList MNormals SpecNormals.
Import ListNotations.
Set Implicit Arguments.
Unset Strict Implicit.

Section Cache.
Context {F : Type} {N : Num F}.
Definition ev (c : change (list (V3 F)) (list (V3 Z))) : @event F :=
  match c with ChangeV v => SetV v | ChangeF f => SetF f | ChangeNormalized b => SetNormalized b | ReadValue => Read end.
Definition norm_of (nd : @node F) : bool := match nd_normalized nd with Some b => b | None => true end.
Lemma fbv_rows v f (m : sparse F) : faces_by_vertex v f = Ok m -> sp_rows m = (3 * length v)%nat.
Proof. unfold faces_by_vertex, coo. cbv zeta. destruct (existsb _ _ || existsb _ _); [discriminate|]. intros E. injection E as <-. reflexivity. Qed.
Lemma fbv_length (v w : list (V3 F)) f : length v = length w -> faces_by_vertex v f = faces_by_vertex w f.
Proof. intros L. unfold faces_by_vertex. cbv zeta. now rewrite L. Qed.
Definition Inv (nd : @node F) (rd fset nset : bool) : Prop :=
  (fset = true -> nd_changed_f nd = true) /\
  match nd_built nd with
  | None => nd_changed_v nd || nd_changed_f nd || nd_changed_normalized nd = true
  | Some b => rd = true /\ faces_by_vertex (b_v b) (b_f b) = Ok (b_fbv b) /\
      (nd_changed_f nd = false -> b_f b = nd_f nd) /\
      (nd_changed_v nd = false -> b_v b = nd_v nd) /\
      (nset = false -> b_normalized b = norm_of nd \/ nd_changed_f nd = true)
  end.
Lemma inv_new v f n : Inv (new_node v f n) false false false.
Proof. split; [discriminate|]. reflexivity. Qed.
Lemma inv_read nd rd fset nset : Inv nd rd fset nset -> negb rd || fset || negb nset = true ->
  snd (read nd) = vert_normals (nd_v nd) (nd_f nd) (norm_of nd) /\ Inv (fst (read nd)) true false false /\
  nd_v (fst (read nd)) = nd_v nd /\ nd_f (fst (read nd)) = nd_f nd /\ norm_of (fst (read nd)) = norm_of nd.
Proof.
  intros [IF IB] G. unfold read.
  assert (CH : nd_changed_v nd || nd_changed_f nd || nd_changed_normalized nd = true ->
    let r := on_changed nd in
    (let* _ := snd r in match nd_built (fst r) with Some b => graph_value (b_fbv b) (b_f b) (b_normalized b) (b_v b) | None => Err AttributeError end) = vert_normals (nd_v nd) (nd_f nd) (norm_of nd) /\
    Inv (fst r) true false false /\ nd_v (fst r) = nd_v nd /\ nd_f (fst r) = nd_f nd /\ norm_of (fst r) = norm_of nd).
  { intros C. cbv zeta. unfold on_changed. cbn [nd_v nd_f nd_normalized nd_changed_v nd_changed_f nd_changed_normalized nd_built].
    fold (norm_of nd).
    assert (RB : forall q, q = (match faces_by_vertex (nd_v nd) (nd_f nd) with
        | Ok fbv => (mknode (nd_v nd) (nd_f nd) (Some (norm_of nd)) false false false (Some (mkbuilt fbv (nd_f nd) (norm_of nd) (nd_v nd))), Ok tt)
        | Err e => (mknode (nd_v nd) (nd_f nd) (Some (norm_of nd)) (nd_changed_v nd) (nd_changed_f nd) (nd_changed_normalized nd) (nd_built nd), Err e) end) ->
      (match nd_built nd with None => True | Some b => nd_changed_f nd = false -> b_normalized b = norm_of nd end) ->
      (let* _ := snd q in match nd_built (fst q) with Some b => graph_value (b_fbv b) (b_f b) (b_normalized b) (b_v b) | None => Err AttributeError end) = vert_normals (nd_v nd) (nd_f nd) (norm_of nd) /\
      Inv (fst q) true false false /\ nd_v (fst q) = nd_v nd /\ nd_f (fst q) = nd_f nd /\ norm_of (fst q) = norm_of nd).
    { intros q -> NB. destruct (faces_by_vertex (nd_v nd) (nd_f nd)) as [m|e] eqn:E; unfold vert_normals; rewrite E; cbn [fst snd bindr nd_v nd_f nd_built b_fbv b_f b_normalized b_v].
      - split; [reflexivity|]. split; [|auto]. split; [discriminate|]. cbn. rewrite E. repeat split; auto.
      - split; [reflexivity|]. split; [|auto]. split; [discriminate|]. cbn [nd_built nd_changed_v nd_changed_f nd_changed_normalized nd_v nd_f]. destruct (nd_built nd) as [b|]; [|exact C].
        destruct IB as (_ & B1 & B2 & B3 & _). repeat split; auto. intros _. change (norm_of _) with (norm_of nd). destruct (nd_changed_f nd); [right|left]; auto. }
    destruct (nd_built nd) as [b|] eqn:EB; [|apply RB; auto].
    destruct IB as (-> & B1 & B2 & B3 & B4). cbn [negb orb] in G.
    assert (NB : nd_changed_f nd = false -> b_normalized b = norm_of nd).
    { intros K. destruct fset; [rewrite (IF eq_refl) in K; discriminate K|]. destruct nset; [discriminate G|]. destruct (B4 eq_refl) as [E|E]; [auto|congruence]. }
    destruct (nd_changed_f nd) eqn:K; cbn [negb andb]; [apply RB; auto|].
    destruct (Nat.eqb_spec (sp_rows (b_fbv b)) (3 * length (nd_v nd))) as [E|E]; [|apply RB; auto].
    cbn [fst snd bindr nd_built b_fbv b_f b_normalized b_v nd_v nd_f]. rewrite (NB eq_refl), (B2 eq_refl).
    rewrite (fbv_rows B1) in E. assert (L : length (b_v b) = length (nd_v nd)) by lia. rewrite (B2 eq_refl), (fbv_length _ L) in B1.
    split; [unfold vert_normals; now rewrite B1|]. split; [|auto]. split; [discriminate|]. cbn. repeat split; auto. }
  destruct (nd_changed_v nd || nd_changed_f nd || nd_changed_normalized nd) eqn:C.
  - destruct (on_changed nd) as [nd' r] eqn:O. specialize (CH eq_refl). exact CH.
  - cbn [fst snd bindr]. destruct (nd_built nd) as [b|] eqn:EB; [|discriminate IB]. apply orb_false_iff in C. destruct C as [C _]. apply orb_false_iff in C. destruct C as [CV CF].
    destruct IB as (-> & B1 & B2 & B3 & B4). specialize (B2 CF). specialize (B3 CV).
    assert (NB : b_normalized b = norm_of nd).
    { cbn [negb orb] in G. destruct fset; [rewrite (IF eq_refl) in CF; discriminate CF|]. destruct nset; [discriminate G|]. destruct (B4 eq_refl) as [E|E]; congruence. }
    split; [unfold vert_normals; rewrite <- B2, <- B3, B1, NB; reflexivity|]. split; [|auto]. split; [discriminate|]. rewrite EB. repeat split; auto.
Qed.
Lemma run_fresh es : forall nd rd fset nset, Inv nd rd fset nset -> with_f (norm_of nd) rd fset nset es = true ->
  snd (run nd (map ev es)) = fresh_reads vert_normals (nd_v nd) (nd_f nd) (norm_of nd) es.
Proof.
  induction es as [|e es IH]; intros nd rd fset nset I W; [reflexivity|]. destruct e as [v|f|b|]; cbn [map ev run step fresh_reads with_f] in *.
  - set (nd' := mknode _ _ _ _ _ _ _). destruct (run nd' (map ev es)) as [nd2 o2] eqn:E. cbn [snd app]. change o2 with (snd (nd2, o2)). rewrite <- E. refine (IH nd' rd fset nset _ W).
    destruct I as [IF IB]. split; [exact IF|]. unfold nd'. cbn. destruct (nd_built nd); [|reflexivity]. destruct IB as (B0 & B1 & B2 & B3 & B4). repeat split; auto. discriminate.
  - set (nd' := mknode _ _ _ _ _ _ _). destruct (run nd' (map ev es)) as [nd2 o2] eqn:E. cbn [snd app]. change o2 with (snd (nd2, o2)). rewrite <- E. refine (IH nd' rd true nset _ W).
    destruct I as [IF IB]. split; [reflexivity|]. unfold nd'. cbn. destruct (nd_built nd); [|apply orb_true_r || now rewrite orb_true_r]. destruct IB as (B0 & B1 & B2 & B3 & B4). repeat split; auto. discriminate.
  - set (nd' := mknode _ _ _ _ _ _ _). destruct (run nd' (map ev es)) as [nd2 o2] eqn:E. cbn [snd app]. change o2 with (snd (nd2, o2)). rewrite <- E. refine (IH nd' rd fset (nset || negb (Bool.eqb b (norm_of nd))) _ W).
    destruct I as [IF IB]. split; [exact IF|]. unfold nd'. cbn [nd_built nd_changed_v nd_changed_f nd_changed_normalized nd_v nd_f]. destruct (nd_built nd) as [q|]; [|apply orb_true_r].
    destruct IB as (B0 & B1 & B2 & B3 & B4). repeat split; auto. intros Z. apply orb_false_iff in Z. destruct Z as [Z1 Z2]. apply negb_false_iff, eqb_prop in Z2. subst b. exact (B4 Z1).
  - apply andb_true_iff in W. destruct W as [G W]. pose proof (inv_read I G) as (R1 & R2 & R3 & R4 & R5). destruct (read nd) as [nd' r] eqn:E. cbn [fst snd] in *.
    destruct (run nd' (map ev es)) as [nd2 o2] eqn:E2. cbn [snd app]. rewrite R1. f_equal. rewrite <- R3, <- R4, <- R5. rewrite <- (IH nd' true false false); [now rewrite E2|exact R2|now rewrite R5].
Qed.
(** a change of [normalized] alone is never noticed *)
Lemma normalized_ignored v f n b a : vert_normals v f n = Ok a ->
  snd (run (new_node v f (Some n)) [Read; SetNormalized b; Read]) = [Ok a; Ok a].
Proof.
  unfold vert_normals. intros E. destruct (faces_by_vertex v f) as [m|e] eqn:FB; [|discriminate E]. cbn [bindr] in E.
  unfold new_node, run, step, read, on_changed. cbn [nd_v nd_f nd_normalized nd_changed_v nd_changed_f nd_changed_normalized nd_built orb]. rewrite FB.
  cbn [nd_v nd_f nd_normalized nd_changed_v nd_changed_f nd_changed_normalized nd_built orb negb andb b_fbv b_f b_normalized b_v].
  rewrite (fbv_rows FB), Nat.eqb_refl. cbn [nd_v nd_f nd_normalized nd_changed_v nd_changed_f nd_changed_normalized nd_built orb negb andb b_fbv b_f b_normalized b_v bindr snd app]. now rewrite E.
Qed.
End Cache.
