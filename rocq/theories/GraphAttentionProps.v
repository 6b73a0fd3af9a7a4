(** Properties C150-C152 of the graph attention network. *)
From Coq Require Import List Reals Bool Arith Lra Lia Permutation.
From Verif Require Import Base RealBase Kernels KernelsProps GraphAttention.
Import ListNotations.
Open Scope R_scope.

(** * Specification vocabulary *)

(** Region [u] sends an edge to region [v]. *)
Definition neighbour (g : list edge) (u v : nat) : Prop := exists e, In e g /\ e_src e = u /\ e_dst e = v.
(** [u] reaches [v] along at most [n] edges. *)
Inductive within (g : list edge) : nat -> nat -> nat -> Prop :=
| within_here : forall n v, within g n v v
| within_edge : forall n u w v, within g n u w -> neighbour g w v -> within g (S n) u v.

(** The same graph with the regions renumbered by [p] (edges in any order). *)
Definition renumbered (p : nat -> nat) (g g' : list edge) : Prop :=
  Permutation g' (map (fun e => mkedge (p (e_src e)) (p (e_dst e)) (e_feat e)) g).
Definition injective (p : nat -> nat) : Prop := forall a b, p a = p b -> a = b.

(** * Lemmas *)

Lemma relu_nonneg : forall x, 0 <= relu x.
Proof. intros; unfold relu; destruct (Rltb 0 x) eqn:E; [apply Rltb_spec in E|]; lra. Qed.
Lemma relu_mono : forall x y, x <= y -> relu x <= relu y.
Proof.
  intros; unfold relu. destruct (Rltb 0 x) eqn:E, (Rltb 0 y) eqn:F;
    try (apply Rltb_spec in E); try (apply Rltb_spec in F);
    try (apply Rltb_false in E); try (apply Rltb_false in F); lra.
Qed.

Lemma mailbox_In : forall g v e, In e (mailbox g v) <-> In e g /\ e_dst e = v.
Proof. intros; unfold mailbox; rewrite filter_In, Nat.eqb_eq; tauto. Qed.
Lemma mailbox_nil : forall g v, mailbox g v = [] <-> forall u, ~ neighbour g u v.
Proof.
  intros; split.
  - intros E u (e & I & _ & D). assert (X : In e (mailbox g v)) by (apply mailbox_In; auto).
    rewrite E in X; destruct X.
  - intros H; destruct (mailbox g v) as [|e r] eqn:E; auto. exfalso.
    apply (H (e_src e)). exists e.
    assert (X : In e (mailbox g v)) by (rewrite E; now left). apply mailbox_In in X; tauto.
Qed.

Lemma run_layer_eq : forall l g h v k, mailbox g v <> [] ->
  run_layer l g h v k =
    relu (zi_of l h v k + lsumf (fun e => alpha l g h e * z_of l h (e_src e) k) (mailbox g v)).
Proof. intros; unfold run_layer; destruct (mailbox g v); congruence. Qed.

Lemma alpha_pos : forall l g h v e, In e (mailbox g v) -> 0 < alpha l g h e.
Proof.
  intros. assert (D := proj2 (proj1 (mailbox_In _ _ _) H)).
  unfold alpha. apply Rdiv_lt_0_compat; [apply exp_pos|]. rewrite D.
  apply lsumf_pos; [intro E; rewrite E in H; destruct H | intros; apply exp_pos].
Qed.
Lemma alpha_total : forall l g h v, mailbox g v <> [] -> lsumf (alpha l g h) (mailbox g v) = 1.
Proof.
  intros. set (T := lsumf (fun e' => exp (attention l h e')) (mailbox g v)).
  assert (P : 0 < T) by (apply lsumf_pos; [auto | intros; apply exp_pos]).
  rewrite (lsumf_ext _ _ (fun e => / T * exp (attention l h e))).
  - rewrite lsumf_scal. fold T. field. lra.
  - intros e I. apply mailbox_In in I as [_ D]. unfold alpha. rewrite D. fold T.
    unfold Rdiv. ring.
Qed.

(** * C150 *)

(** Every coordinate of a region's new representation is the rectified sum of a
    linear function of its own features and an average, with positive weights
    that sum to one, of a linear function of its neighbours' features. *)
Theorem C150_attention_partial : forall l g h v, (exists u, neighbour g u v) ->
  exists w : edge -> R,
    (forall e, In e g -> e_dst e = v -> 0 < w e) /\
    lsumf w (filter (fun e => Nat.eqb (e_dst e) v) g) = 1 /\
    forall k, run_layer l g h v k =
      Rmax 0 (rsum (l_in l) (fun m => l_fc2 l k m * h v m)
              + lsumf (fun e => w e * rsum (l_in l) (fun m => l_fc1 l k m * h (e_src e) m))
                      (filter (fun e => Nat.eqb (e_dst e) v) g)).
Proof.
  intros l g h v [u N].
  assert (NE : mailbox g v <> []) by (intro E; apply (proj1 (mailbox_nil g v) E u N)).
  exists (alpha l g h). repeat split.
  - intros e I D. apply (alpha_pos l g h v). apply mailbox_In; auto.
  - now apply (alpha_total l g h v).
  - intros k. rewrite run_layer_eq by auto. unfold relu, zi_of, z_of, linear, mailbox.
    match goal with |- (if Rltb 0 ?x then _ else _) = _ => set (X := x) end.
    destruct (Rltb 0 X) eqn:E; [apply Rltb_spec in E | apply Rltb_false in E].
    + rewrite Rmax_right; lra.
    + rewrite Rmax_left; lra.
Qed.
Print Assumptions C150_attention_partial.

(** Consequently the neighbours' part lies between its smallest and largest
    value over the neighbours. *)
Lemma average_bounds : forall A (w f : A -> R) l a b, (forall x, In x l -> 0 <= w x) -> lsumf w l = 1 ->
  (forall x, In x l -> a <= f x <= b) -> a <= lsumf (fun x => w x * f x) l <= b.
Proof.
  intros A w f l a b W T F.
  assert (G : forall l', incl l' l -> a * lsumf w l' <= lsumf (fun x => w x * f x) l' <= b * lsumf w l').
  { induction l' as [|x r IH]; intros I; cbn [lsumf]; [lra|].
    assert (Ix : In x l) by (apply I; now left). assert (Ir : incl r l) by (intros y Hy; apply I; now right).
    specialize (IH Ir). specialize (W x Ix). specialize (F x Ix). nra. }
  specialize (G l (incl_refl l)). rewrite T in G. lra.
Qed.
Theorem C150_between_neighbours : forall l g h v k a b, (exists u, neighbour g u v) ->
  (forall u, neighbour g u v -> a <= rsum (l_in l) (fun m => l_fc1 l k m * h u m) <= b) ->
  let own := rsum (l_in l) (fun m => l_fc2 l k m * h v m) in
  Rmax 0 (own + a) <= run_layer l g h v k <= Rmax 0 (own + b).
Proof.
  intros l g h v k a b N B own.
  destruct (C150_attention_partial l g h v N) as (w & P & T & E). rewrite E. fold own.
  set (L := filter (fun e => Nat.eqb (e_dst e) v) g) in *.
  assert (X := average_bounds _ w (fun e => rsum (l_in l) (fun m => l_fc1 l k m * h (e_src e) m)) L a b).
  assert (Y : a <= lsumf (fun e => w e * rsum (l_in l) (fun m => l_fc1 l k m * h (e_src e) m)) L <= b).
  { apply X; auto.
    - intros e I. apply filter_In in I as [I D]. apply Nat.eqb_eq in D. left; auto.
    - intros e I. apply filter_In in I as [I D]. apply Nat.eqb_eq in D. apply B. exists e; auto. }
  split; apply Rle_max_compat_l; lra.
Qed.
Print Assumptions C150_between_neighbours.

(** A region no edge leads to forgets its own features. *)
Theorem C150_isolated_refuted : forall l g v, (forall u, ~ neighbour g u v) ->
  forall h k, run_layer l g h v k = 0.
Proof. intros l g v H h k. unfold run_layer. now rewrite (proj2 (mailbox_nil g v) H). Qed.
Print Assumptions C150_isolated_refuted.

(** The two numbers meant to weigh a region against its neighbours have no
    effect whatsoever. *)
Definition reweigh (w : R * R) (l : layer) : layer :=
  mklayer (l_in l) (l_out l) (l_fc0 l) (l_fc1 l) (l_fc2 l) (l_attn_src l) (l_attn_dst l) (l_attn_edge l) w.
Theorem C150_weights_unused_refuted : forall w ls g h v k,
  embed (map (reweigh w) ls) g h v k = embed ls g h v k.
Proof. induction ls as [|l r IH]; intros; [reflexivity|]. cbn [map embed]. rewrite IH. reflexivity. Qed.
Print Assumptions C150_weights_unused_refuted.

Definition demo_layer : layer :=
  mklayer 1%nat 1%nat 1 (fun _ _ => 1) (fun _ _ => 1) (fun _ => 1) (fun _ => 1) 1 (1, 2).
Definition demo_graph : list edge := [mkedge 0%nat 1%nat 3; mkedge 2%nat 1%nat 3; mkedge 1%nat 2%nat 1].
Definition demo_h : features := fun v _ => INR v.

Example C150_nonvacuous :
  (exists u, neighbour demo_graph u 1%nat) /\ (forall u, ~ neighbour demo_graph u 0%nat) /\
  run_layer demo_layer demo_graph demo_h 2%nat 0%nat = 3 /\
  (forall u, neighbour demo_graph u 1%nat ->
     0 <= rsum (l_in demo_layer) (fun m => l_fc1 demo_layer 0%nat m * demo_h u m) <= 2).
Proof.
  split; [|split; [|split]].
  - exists 0%nat, (mkedge 0%nat 1%nat 3). cbn. auto.
  - intros u (e & I & _ & D). cbn in I. intuition; subst; discriminate.
  - rewrite run_layer_eq by (cbn; discriminate). cbn [mailbox demo_graph filter e_dst Nat.eqb lsumf].
    unfold alpha. cbn [e_dst mailbox demo_graph filter Nat.eqb lsumf e_src].
    unfold zi_of, z_of, linear, demo_h. cbn [l_in l_fc1 l_fc2 demo_layer rsum INR].
    match goal with |- relu (_ + (exp ?a / _ * _ + 0)) = _ => set (A := exp a); assert (P : 0 < A) by apply exp_pos end.
    match goal with |- relu ?x = _ => replace x with 3 by (field; lra) end.
    unfold relu. rewrite (proj2 (Rltb_spec 0 3)) by lra. reflexivity.
  - intros u (e & I & S & D). cbn in I.
    destruct I as [<- |[<- |[<- |[]]]]; cbn in S, D; subst; try discriminate; unfold demo_h; cbn; lra.
Qed.

(** * C151: regions further away than the number of layers have no influence *)

Lemma linear_ext : forall n W x y k, (forall m, x m = y m) -> linear n W x k = linear n W y k.
Proof. intros; unfold linear; apply rsum_ext; intros; now rewrite H. Qed.

Lemma run_layer_local : forall l g h h' v,
  (forall m, h v m = h' v m) -> (forall u, neighbour g u v -> forall m, h u m = h' u m) ->
  forall k, run_layer l g h v k = run_layer l g h' v k.
Proof.
  intros l g h h' v Hv Hn k. unfold run_layer. destruct (mailbox g v) as [|e0 r0] eqn:M; auto.
  rewrite <- M.
  assert (SRC : forall e, In e (mailbox g v) -> forall m, h (e_src e) m = h' (e_src e) m).
  { intros e I. apply mailbox_In in I as [I D]. apply Hn. exists e; auto. }
  assert (ATT : forall e, In e (mailbox g v) -> attention l h e = attention l h' e).
  { intros e I. unfold attention. f_equal. f_equal. f_equal.
    - apply rsum_ext; intros. f_equal. unfold z_of. apply linear_ext. now apply SRC.
    - apply rsum_ext; intros. f_equal. unfold z_of. apply linear_ext.
      apply mailbox_In in I as [_ ->]. auto. }
  f_equal. f_equal.
  - unfold zi_of. now apply linear_ext.
  - apply lsumf_ext. intros e I. f_equal.
    + unfold alpha. rewrite (ATT e I).
      assert (D := proj2 (proj1 (mailbox_In _ _ _) I)). rewrite D.
      rewrite (lsumf_ext _ (fun e' => exp (attention l h e')) (fun e' => exp (attention l h' e')));
        [reflexivity|]. intros. now rewrite ATT.
    + unfold z_of. apply linear_ext. now apply SRC.
Qed.

Lemma within_left : forall g n u w v, neighbour g u w -> within g n w v -> within g (S n) u v.
Proof.
  intros g n u w v N H. induction H as [n x | n x y z W IH E].
  - apply within_edge with u; [constructor | auto].
  - apply within_edge with y; auto.
Qed.
Lemma within_S : forall g n u v, within g n u v -> within g (S n) u v.
Proof. intros g n u v H; induction H; [constructor | apply within_edge with w; auto]. Qed.
(** [within] split at its last edge. *)
Lemma within_inv : forall g n u v, within g n u v ->
  u = v \/ exists n' w, n = S n' /\ within g n' u w /\ neighbour g w v.
Proof. intros g n u v H; inversion H; subst; [left; auto | right; eauto 10]. Qed.

Theorem C151_locality : forall ls g h h' v,
  (forall u, within g (length ls) u v -> forall m, h u m = h' u m) ->
  forall k, embed ls g h v k = embed ls g h' v k.
Proof.
  induction ls as [|l r IH]; intros g h h' v H k; cbn [embed length] in *.
  - apply H. constructor.
  - apply IH. intros u W m. apply run_layer_local.
    + intros m'. apply H. now apply within_S.
    + intros w N m'. apply H. now apply within_left with u.
Qed.
Print Assumptions C151_locality.

(** The predicted flow from [o] to [d] only looks at regions within reach. *)
Theorem C151_prediction_locality : forall m g h h' o d,
  (forall u, within g (length (m_origin m)) u o \/ within g (length (m_dest m)) u d -> forall k, h u k = h' u k) ->
  predict m g h [(o, d)] = predict m g h' [(o, d)].
Proof.
  intros. unfold predict, predict_edge; cbn [map fst snd]. do 2 f_equal. f_equal.
  apply rsum_ext; intros a _. apply rsum_ext; intros b _.
  rewrite (C151_locality _ g h h' o), (C151_locality (m_dest m) g h h' d); auto.
Qed.
Print Assumptions C151_prediction_locality.

Example C151_nonvacuous :
  let h' : features := fun v _ => if Nat.eqb v 5%nat then 7 else INR v in
  (forall u, within demo_graph (length [demo_layer; demo_layer]) u 2%nat -> forall m, demo_h u m = h' u m)
  /\ demo_h 5%nat 0%nat <> h' 5%nat 0%nat.
Proof.
  cbn zeta. split.
  - intros u W m. destruct (Nat.eqb_spec u 5) as [->|]; [|reflexivity].
    exfalso. cbn [length] in W.
    apply within_inv in W as [E|(n & w & E & W & N)]; [discriminate|].
    assert (w <> 5%nat).
    { intros ->. destruct N as (e & I & S & _). cbn in I. intuition; subst; discriminate. }
    injection E as <-.
    apply within_inv in W as [E|(n & w' & E & W & N')]; [congruence|].
    injection E as <-. apply within_inv in W as [E|(n & w'' & E & _)]; [|discriminate].
    subst w'. destruct N' as (e & I & S & _). cbn in I. intuition; subst; discriminate.
  - unfold demo_h. cbn. lra.
Qed.

(** * C152: the numbering of the regions does not matter *)

Lemma perm_filter : forall A (f : A -> bool) a b, Permutation a b -> Permutation (filter f a) (filter f b).
Proof.
  induction 1; cbn [filter]; auto.
  - destruct (f x); auto.
  - destruct (f x), (f y); auto. constructor.
  - eapply perm_trans; eauto.
Qed.
Lemma filter_map : forall A B (q : A -> B) f l, filter f (map q l) = map q (filter (fun x => f (q x)) l).
Proof. induction l as [|x r IH]; cbn; auto. destruct (f (q x)); cbn; now rewrite IH. Qed.

Definition moved (p : nat -> nat) (e : edge) : edge := mkedge (p (e_src e)) (p (e_dst e)) (e_feat e).
Lemma mailbox_moved : forall p g g' v, injective p -> renumbered p g g' ->
  Permutation (mailbox g' (p v)) (map (moved p) (mailbox g v)).
Proof.
  intros p g g' v J P. unfold mailbox.
  eapply perm_trans; [apply perm_filter, P|].
  rewrite filter_map. cbn [e_dst].
  replace (filter (fun x => Nat.eqb (p (e_dst x)) (p v)) g) with (filter (fun e => Nat.eqb (e_dst e) v) g).
  - apply Permutation_refl.
  - apply filter_ext. intros e. destruct (Nat.eqb_spec (e_dst e) v) as [->|N].
    + symmetry; apply Nat.eqb_refl.
    + symmetry; apply Nat.eqb_neq. intro; apply N; auto.
Qed.

Lemma run_layer_moved : forall l p g g' h h', injective p -> renumbered p g g' ->
  (forall v m, h' (p v) m = h v m) -> forall v k, run_layer l g' h' (p v) k = run_layer l g h v k.
Proof.
  intros l p g g' h h' J P H v k.
  assert (MB : forall w, Permutation (mailbox g' (p w)) (map (moved p) (mailbox g w)))
    by (intros; now apply mailbox_moved).
  assert (Z : forall w j, z_of l h' (p w) j = z_of l h w j) by (intros; apply linear_ext; intros; apply H).
  assert (AT : forall e, attention l h' (moved p e) = attention l h e).
  { intros e. unfold attention, moved; cbn [e_src e_dst e_feat]. f_equal. f_equal. f_equal;
      apply rsum_ext; intros; now rewrite Z. }
  assert (AL : forall e, alpha l g' h' (moved p e) = alpha l g h e).
  { intros e. unfold alpha. rewrite AT. unfold Rdiv. f_equal. f_equal.
    change (e_dst (moved p e)) with (p (e_dst e)).
    rewrite (lsumf_perm _ _ _ _ (MB (e_dst e))), lsumf_map. apply lsumf_ext. intros. now rewrite AT. }
  unfold run_layer. specialize (MB v).
  destruct (mailbox g v) as [|e0 r0] eqn:M.
  - cbn [map] in MB. apply Permutation_sym, Permutation_nil in MB. now rewrite MB.
  - destruct (mailbox g' (p v)) as [|e1 r1] eqn:M'.
    + apply Permutation_nil in MB. discriminate.
    + f_equal. f_equal.
      * unfold zi_of. apply linear_ext. intros; apply H.
      * rewrite (lsumf_perm _ _ _ _ MB), lsumf_map. apply lsumf_ext. intros e I.
        rewrite AL. f_equal. change (e_src (moved p e)) with (p (e_src e)). apply Z.
Qed.

Theorem C152_renumbering : forall ls p g g' h h', injective p -> renumbered p g g' ->
  (forall v m, h' (p v) m = h v m) -> forall v k, embed ls g' h' (p v) k = embed ls g h v k.
Proof.
  induction ls as [|l r IH]; intros p g g' h h' J P H v k; cbn [embed]; [apply H|].
  apply (IH p); auto. intros. now apply run_layer_moved.
Qed.
Print Assumptions C152_renumbering.

Theorem C152_predictions_renumbered : forall m p g g' h h' cells, injective p -> renumbered p g g' ->
  (forall v k, h' (p v) k = h v k) ->
  predict m g' h' (map (fun c => (p (fst c), p (snd c))) cells) = predict m g h cells.
Proof.
  intros. unfold predict. rewrite map_map. apply map_ext. intros [o d]; cbn [fst snd].
  f_equal. unfold predict_edge. f_equal.
  apply rsum_ext; intros a _. apply rsum_ext; intros b _.
  now rewrite !(C152_renumbering _ p g g' h h').
Qed.
Print Assumptions C152_predictions_renumbered.

(** One prediction per cell, in the order of the cells, none negative. *)
Theorem C152_predictions_nonnegative : forall m g h cells,
  length (predict m g h cells) = length cells /\
  (forall i c, nth_error cells i = Some c -> nth_error (predict m g h cells) i = nth_error (predict m g h [c]) 0) /\
  (forall y, In y (predict m g h cells) -> 0 <= y).
Proof.
  intros. unfold predict. rewrite map_length. repeat split.
  - intros i c E. cbn [map nth_error]. erewrite map_nth_error; eauto.
  - intros y I. apply in_map_iff in I as (c & <- & _). apply pow2_ge_0.
Qed.
Print Assumptions C152_predictions_nonnegative.

Definition swap12 (v : nat) : nat := match v with 1 => 2 | 2 => 1 | _ => v end%nat.
Example C152_nonvacuous : injective swap12 /\
  renumbered swap12 demo_graph [mkedge 1%nat 2%nat 3; mkedge 2%nat 1%nat 1; mkedge 0%nat 2%nat 3] /\
  (forall v (m : nat), (fun v (_ : nat) => demo_h (swap12 v) 0%nat) (swap12 v) m = demo_h v m).
Proof.
  split; [|split].
  - intros a b. destruct a as [|[|[|a]]], b as [|[|[|b]]]; cbn; intros; congruence.
  - unfold renumbered; cbn. apply Permutation_sym.
    apply perm_trans with [mkedge 1%nat 2%nat 3; mkedge 0%nat 2%nat 3; mkedge 2%nat 1%nat 1]; [constructor|].
    apply perm_skip. constructor.
  - intros v m. unfold demo_h. destruct v as [|[|[|v]]]; reflexivity.
Qed.
