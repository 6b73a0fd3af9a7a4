(** InputsProps: properties C130-C136 of the input data container. *)
From Coq Require Import List String ZArith QArith Bool Arith Lia.
From Verif Require Import Base PyMonad Learning LearningProps Inputs.
Import ListNotations.
Open Scope Q_scope.
Open Scope string_scope.
Open Scope nat_scope.
Open Scope list_scope.

(** * Dictionaries and folds *)

Lemma aget_aset_same : forall V k (v : V) l, aget k (aset k v l) = Some v.
Proof.
  intros V k v l. induction l as [|[k' v'] l IH]; cbn.
  - now rewrite String.eqb_refl.
  - destruct (String.eqb k k') eqn:E; cbn; [now rewrite String.eqb_refl|]. now rewrite E.
Qed.
Lemma aget_aset_other : forall V k k' (v : V) l, k <> k' -> aget k (aset k' v l) = aget k l.
Proof.
  intros V k k' v l N. induction l as [|[q w] l IH]; cbn.
  - destruct (String.eqb_spec k k'); [contradiction|reflexivity].
  - destruct (String.eqb_spec k' q) as [->|M]; cbn.
    + destruct (String.eqb_spec k q); [contradiction|reflexivity].
    + destruct (String.eqb k q); [reflexivity|exact IH].
Qed.
Lemma aget_In : forall V k (v : V) l, aget k l = Some v -> In (k, v) l.
Proof.
  intros V k v l. induction l as [|[q w] l IH]; cbn; [discriminate|].
  destruct (String.eqb_spec k q) as [->|N]; intro H; [inversion H; now left|right; auto].
Qed.
Lemma aget_None : forall V k (l : list (string * V)), aget k l = None <-> ~ In k (map fst l).
Proof.
  intros V k l. induction l as [|[q w] l IH]; cbn; [tauto|].
  destruct (String.eqb_spec k q) as [->|N]; [split; [discriminate|tauto]|].
  rewrite IH. split; [intros H [E|E]; [congruence|tauto]|tauto].
Qed.
Lemma aget_NoDup : forall V k (v : V) l, NoDup (map fst l) -> In (k, v) l -> aget k l = Some v.
Proof.
  intros V k v l. induction l as [|[q w] l IH]; cbn; [tauto|].
  intros ND [E|E].
  - inversion E; subst. now rewrite String.eqb_refl.
  - inversion ND; subst. destruct (String.eqb_spec k q) as [->|N]; [|auto].
    exfalso. apply H1. apply in_map_iff. now exists (q, v).
Qed.

Lemma foldM_app : forall A B (f : A -> B -> res A) l1 l2 a,
  foldM f (l1 ++ l2) a = rbind (foldM f l1 a) (foldM f l2).
Proof.
  intros A B f l1. induction l1 as [|b l1 IH]; intros l2 a; cbn; [reflexivity|].
  destruct (f a b); cbn; [apply IH|reflexivity].
Qed.
Lemma foldM_inv : forall A B (P : A -> Prop) (f : A -> B -> res A) l a a',
  (forall x b y, In b l -> P x -> f x b = Ok y -> P y) -> P a -> foldM f l a = Ok a' -> P a'.
Proof.
  intros A B P f l. induction l as [|b l IH]; intros a a' H Ha E; cbn in E.
  - inversion E; now subst.
  - destruct (f a b) eqn:F; cbn in E; [|discriminate].
    apply (IH a0 a'); auto; [intros; eapply H; eauto; now right|eapply H; eauto; now left].
Qed.
Lemma foldM_step : forall A B (f : A -> B -> res A) l b a a',
  In b l -> foldM f l a = Ok a' -> exists x y, f x b = Ok y.
Proof.
  intros A B f l. induction l as [|c l IH]; intros b a a' H E; [contradiction|].
  cbn in E. destruct (f a c) eqn:F; cbn in E; [|discriminate].
  destruct H as [->|H]; [eauto|eapply IH; eauto].
Qed.
Lemma foldM_unit : forall B (g : B -> res unit) l u,
  foldM (fun _ e => g e) l u = Ok tt -> forall b, In b l -> g b = Ok tt.
Proof.
  intros B g l. induction l as [|c l IH]; intros u E b H; [contradiction|].
  cbn in E. destruct (g c) as [[]|] eqn:F; cbn in E; [|discriminate].
  destruct H as [->|H]; [exact F|eapply IH; eauto].
Qed.
Lemma foldM_ok : forall A B (P : A -> Prop) (f : A -> B -> res A) l a,
  (forall x b, In b l -> P x -> exists y, f x b = Ok y /\ P y) -> P a ->
  exists a', foldM f l a = Ok a' /\ P a'.
Proof.
  intros A B P f l. induction l as [|b l IH]; intros a H Ha; cbn; [eauto|].
  destruct (H a b (or_introl eq_refl) Ha) as [y [-> Hy]]. cbn. apply IH; auto.
  intros; apply H; auto. now right.
Qed.

(** * Schema facts, by computation *)

Definition keys := map fst input_schema.
Lemma keys_NoDup : NoDup keys.
Proof.
  unfold keys. vm_compute.
  repeat constructor; cbn; intro H; repeat (destruct H as [H|H]; [discriminate|]); exact H.
Qed.
Lemma train_in_input : forall e, In e train_schema -> In e input_schema.
Proof. intros e H. unfold input_schema. apply in_or_app. now left. Qed.

Definition masks := map mask_name cell_lists.
(** A configuration that names no mask file. *)
Definition no_masks (c : cfg) : Prop := forall x, In x masks -> aget x (c_entries c) = None.

Definition inb (k : string) (l : list string) : bool := existsb (String.eqb k) l.
Lemma inb_In : forall k l, inb k l = true <-> In k l.
Proof.
  intros k l. unfold inb. rewrite existsb_exists. split.
  - intros [x [H E]]. apply String.eqb_eq in E. now subst.
  - intro H. exists k. now rewrite String.eqb_refl.
Qed.
Lemma train_not_mask : forall x s, In (x, s) train_schema -> ~ In x masks.
Proof.
  intros x s H M.
  assert (F : forallb (fun e : string * option sch => negb (inb (fst e) masks)) train_schema = true)
    by (vm_compute; reflexivity).
  rewrite forallb_forall in F. specialize (F _ H). cbn [fst] in F.
  apply inb_In in M. rewrite M in F. discriminate.
Qed.
Lemma train_not_test_cells : forall x s, In (x, s) train_schema -> x <> "test_cells".
Proof.
  intros x s H M. subst.
  assert (F : forallb (fun e : string * option sch => negb (String.eqb (fst e) "test_cells")) train_schema = true)
    by (vm_compute; reflexivity).
  rewrite forallb_forall in F. specialize (F _ H). cbn [fst] in F. discriminate.
Qed.

(** * What each stage touches *)

Lemma load_one_frame : forall c d x os d' y, load_one c d (x, os) = Ok d' ->
  y <> x -> y <> "dims" -> aget y d' = aget y d.
Proof.
  intros c d x os d' y H N1 N2. unfold load_one in H.
  destruct os as [s|]; [|inversion H; now subst].
  destruct (aget x (c_entries c)) as [[a|]|] eqn:E; [| |inversion H; now subst].
  - destruct (s_ndmin s); [|discriminate].
    destruct (s_positive s && existsb qneg (a_vals a)); [discriminate|].
    destruct (update_dims _ _ _) as [ds|] eqn:U; cbn [rbind] in H; [|discriminate].
    inversion H; subst. rewrite !aget_aset_other; auto.
  - destruct (mem x validation_schema); [|discriminate].
    destruct (String.eqb x "test_cells").
    + destruct (all_cells_arr _) as [b|] eqn:U; cbn [rbind] in H; [|discriminate].
      inversion H; subst. now rewrite aget_aset_other.
    + inversion H; subst. now rewrite aget_aset_other.
Qed.

Lemma load_loop_frame : forall c l d d' y, foldM (load_one c) l d = Ok d' ->
  ~ In y (map fst l) -> y <> "dims" -> aget y d' = aget y d.
Proof.
  intros c l. induction l as [|[x os] l IH]; intros d d' y H N1 N2; cbn [foldM] in H.
  - inversion H; now subst.
  - destruct (load_one c d (x, os)) as [d1|] eqn:L; cbn [rbind] in H; [|discriminate].
    cbn [map fst] in N1. rewrite (IH _ _ y H); [|intro; apply N1; now right|exact N2].
    apply (load_one_frame _ _ _ _ _ y L); auto. intro; apply N1; left; auto.
Qed.

(** What is at [x] after the loop is what its own iteration put there. *)
Lemma load_loop_at : forall c l d d' x os, foldM (load_one c) l d = Ok d' ->
  NoDup (map fst l) -> In (x, os) l -> x <> "dims" ->
  exists e e', load_one c e (x, os) = Ok e' /\ aget x d' = aget x e' /\ aget x e = aget x d.
Proof.
  intros c l. induction l as [|[q w] l IH]; intros d d' x os H ND HI N; [contradiction|].
  cbn [foldM] in H.
  destruct (load_one c d (q, w)) as [d1|] eqn:L; cbn [rbind] in H; [|discriminate].
  cbn [map fst] in ND. inversion ND as [|? ? NI ND']; subst.
  destruct HI as [HI|HI].
  - inversion HI; subst. exists d, d1. split; [exact L|]. split; [|reflexivity].
    apply (load_loop_frame _ _ _ _ x H NI N).
  - destruct (IH _ _ _ _ H ND' HI N) as [e [e' [A [B C]]]]. exists e, e'. repeat split; auto.
    rewrite C. apply (load_one_frame _ _ _ _ _ x L); auto.
    intro; subst. apply NI. apply in_map_iff. now exists (q, os).
Qed.

Lemma load_one_dims_kind : forall c d x os d', load_one c d (x, os) = Ok d' ->
  (exists ds, aget "dims" d = Some (VDims ds)) -> exists ds, aget "dims" d' = Some (VDims ds).
Proof.
  intros c d x os d' H [ds0 D]. unfold load_one in H.
  destruct os as [s|]; [|inversion H; subst; eauto].
  destruct (aget x (c_entries c)) as [[a|]|] eqn:E; [| |inversion H; subst; eauto].
  - destruct (s_ndmin s); [|discriminate].
    destruct (s_positive s && existsb qneg (a_vals a)); [discriminate|].
    destruct (update_dims _ _ _) as [ds|] eqn:U; cbn [rbind] in H; [|discriminate].
    inversion H; subst. rewrite aget_aset_same. eauto.
  - destruct (mem x validation_schema) eqn:M; [|discriminate].
    assert (Nx : "dims" <> x) by (intro; subst; vm_compute in M; discriminate).
    destruct (String.eqb x "test_cells").
    + destruct (all_cells_arr _) as [b|] eqn:U; cbn [rbind] in H; [|discriminate].
      inversion H; subst. rewrite aget_aset_other; eauto.
    + inversion H; subst. rewrite aget_aset_other; eauto.
Qed.

Lemma init_frame : forall d d' y, init_test_cells d = Ok d' -> y <> "test_cells" ->
  aget y d' = aget y d.
Proof.
  intros d d' y H N. unfold init_test_cells in H.
  destruct (aget "test_cells" d); [inversion H; now subst|].
  destruct (all_cells_arr _); cbn [rbind] in H; [|discriminate]. inversion H; subst.
  now rewrite aget_aset_other.
Qed.
Lemma margins_frame : forall c d d' y, import_margins c d = Ok d' -> y <> "margins" ->
  aget y d' = aget y d.
Proof.
  intros c d d' y H N. unfold import_margins in H.
  destruct (c_margins c); [|inversion H; now subst].
  destruct (foldM _ _ _); cbn [rbind] in H; [|discriminate]. inversion H; subst.
  now rewrite aget_aset_other.
Qed.
Lemma cells_same : forall c d d', import_cells_subset c d = Ok d' -> d' = d.
Proof.
  intros c d d' H. unfold import_cells_subset in H.
  destruct (c_cells c) as [[]|]; [destruct (aget "ground_truth_table" d)|..]; now inversion H.
Qed.
Lemma mask_one_frame : forall d x d' y, mask_one d x = Ok d' -> y <> mask_name x ->
  aget y d' = aget y d.
Proof.
  intros d x d' y H N. unfold mask_one in H.
  destruct (aget x d) as [[a| |]|]; try (inversion H; now subst).
  destruct (mask_of _ _); cbn [rbind] in H; [|discriminate]. inversion H; subst.
  now rewrite aget_aset_other.
Qed.
Lemma masks_frame : forall d d' y, create_cell_masks d = Ok d' -> ~ In y masks ->
  aget y d' = aget y d.
Proof.
  intros d d' y H N. unfold create_cell_masks in H.
  apply (foldM_inv _ _ (fun z => aget y z = aget y d) mask_one cell_lists d d'); auto.
  intros z b w Hb Hz E. rewrite <- Hz. apply (mask_one_frame _ _ _ _ E).
  intro; subst. apply N. unfold masks. apply in_map_iff. eauto.
Qed.
Lemma grand_frame : forall d y, y <> "grand_total" -> aget y (set_grand_total d) = aget y d.
Proof.
  intros d y N. unfold set_grand_total.
  destruct (aget "ground_truth_table" d) as [[a| |]|]; auto. now rewrite aget_aset_other.
Qed.

(** The stages of a successful read. *)
Lemma read_stages : forall c d, read_data c = Ok d -> exists d1 d2 d3 d5,
  foldM (load_one c) input_schema
    [("dims", VDims (match c_dims c with Some x => x | None => default_dims end))] = Ok d1 /\
  init_test_cells d1 = Ok d2 /\ import_margins c d2 = Ok d3 /\
  import_cells_subset c d3 = Ok d3 /\ validate_dims d3 = Ok tt /\
  create_cell_masks d3 = Ok d5 /\ d = set_grand_total d5.
Proof.
  intros c d H. unfold read_data in H. cbv zeta in H.
  apply rbind_Ok_inv in H. destruct H as [d1 [H1 H]].
  apply rbind_Ok_inv in H. destruct H as [d2 [H2 H]].
  apply rbind_Ok_inv in H. destruct H as [d3 [H3 H]].
  apply rbind_Ok_inv in H. destruct H as [d4 [H4 H]].
  apply rbind_Ok_inv in H. destruct H as [[] [H5 H]].
  apply rbind_Ok_inv in H. destruct H as [d5 [H6 H]].
  pose proof (cells_same _ _ _ H4); subst d4. inversion H; subst.
  exists d1, d2, d3, d5. repeat split; auto.
Qed.

Lemma read_frame : forall c d, read_data c = Ok d -> exists d1 d3 d5,
  foldM (load_one c) input_schema
    [("dims", VDims (match c_dims c with Some x => x | None => default_dims end))] = Ok d1 /\
  validate_dims d3 = Ok tt /\ create_cell_masks d3 = Ok d5 /\ d = set_grand_total d5 /\
  (forall y, y <> "test_cells" -> y <> "margins" -> aget y d3 = aget y d1) /\
  (forall y, ~ In y masks -> y <> "grand_total" -> aget y d = aget y d3) /\
  dims_of d = dims_of d3 /\ dims_of d3 = dims_of d1.
Proof.
  intros c d H. destruct (read_stages _ _ H) as [d1 [d2 [d3 [d5 [H1 [H2 [H3 [H4 [H5 [H6 H7]]]]]]]]]].
  exists d1, d3, d5.
  assert (A : forall y, y <> "test_cells" -> y <> "margins" -> aget y d3 = aget y d1).
  { intros y N1 N2. rewrite (margins_frame _ _ _ y H3 N2). apply (init_frame _ _ _ H2 N1). }
  assert (B : forall y, ~ In y masks -> y <> "grand_total" -> aget y d = aget y d3).
  { intros y N1 N2. subst d. rewrite grand_frame by exact N2. apply (masks_frame _ _ _ H6 N1). }
  repeat split; auto.
  - unfold dims_of. rewrite B; [reflexivity| |discriminate].
    intro M. apply inb_In in M. vm_compute in M. discriminate.
  - unfold dims_of. rewrite A; [reflexivity|discriminate|discriminate].
Qed.

(** * C130: what a successful read guarantees *)

Lemma check_axes_ok : forall axs sh ds, check_axes axs sh ds = Ok tt ->
  forall ax dim, In (ax, dim) axs -> exists n, nth_error sh ax = Some n /\ aget dim ds = Some (Some n).
Proof.
  intros axs sh ds. induction axs as [|[a k] axs IH]; intros H ax dim HI; [contradiction|].
  cbn in H. destruct (nth_error sh a) as [n|] eqn:E; [|discriminate].
  destruct (aget k ds) as [[m|]|] eqn:G; try discriminate.
  destruct (Nat.eqb_spec n m) as [->|]; [|discriminate].
  destruct HI as [HI|HI]; [inversion HI; subst; eauto|auto].
Qed.

(** Axis [ax] of dataset [x] is declared to be dimension [dim]. *)
Definition declares (x : string) (ax : nat) (dim : string) : Prop :=
  exists s k, In (x, Some s) train_schema /\ nth_error (s_axes s) k = Some ax /\
              nth_error (s_dims s) k = Some dim.

Lemma nth_combine : forall A B (l : list A) (r : list B) k a b,
  nth_error l k = Some a -> nth_error r k = Some b -> In (a, b) (combine l r).
Proof.
  intros A B l. induction l as [|x l IH]; intros [|y r] [|k] a b H1 H2; cbn in *; try discriminate.
  - inversion H1; inversion H2; now left.
  - right. eauto.
Qed.

Theorem C130_declared_sizes : forall c d x a ax dim,
  read_data c = Ok d -> aget x d = Some (VArr a) -> declares x ax dim ->
  exists n, nth_error (a_shape a) ax = Some n /\ aget dim (dims_of d) = Some (Some n).
Proof.
  intros c d x a ax dim H X [s [k [HI [K1 K2]]]].
  destruct (read_frame _ _ H) as [d1 [d3 [d5 [H1 [H5 [H6 [H7 [A [B [D1 D2]]]]]]]]]].
  rewrite D1.
  assert (Nm : ~ In x masks) by (eapply train_not_mask; eauto).
  assert (Ng : x <> "grand_total").
  { intro; subst x.
    assert (F : forallb (fun e : string * option sch =>
       negb (String.eqb (fst e) "grand_total") ||
       match snd e with Some s => match s_axes s with [] => true | _ => false end | None => true end)
       train_schema = true) by (vm_compute; reflexivity).
    rewrite forallb_forall in F. specialize (F _ HI). cbn in F.
    destruct (s_axes s); [destruct k; discriminate|discriminate]. }
  rewrite (B x Nm Ng) in X.
  pose proof (foldM_unit _ _ _ _ H5 _ HI) as V. unfold validate_one in V. rewrite X in V.
  apply (check_axes_ok _ _ _ V). eapply nth_combine; eauto.
Qed.
Print Assumptions C130_declared_sizes.

(** Datasets that share a dimension have the same size along it. *)
Theorem C130_agree : forall c d x a ax y b ay dim,
  read_data c = Ok d -> aget x d = Some (VArr a) -> aget y d = Some (VArr b) ->
  declares x ax dim -> declares y ay dim ->
  exists n, nth_error (a_shape a) ax = Some n /\ nth_error (a_shape b) ay = Some n.
Proof.
  intros c d x a ax y b ay dim H X Y DX DY.
  destruct (C130_declared_sizes _ _ _ _ _ _ H X DX) as [n [A1 A2]].
  destruct (C130_declared_sizes _ _ _ _ _ _ H Y DY) as [m [B1 B2]].
  rewrite A2 in B2. inversion B2; subst. eauto.
Qed.
Print Assumptions C130_agree.

Lemma qneg_false : forall q, qneg q = false -> (0 <= q)%Q.
Proof. intros q H. unfold qneg in H. apply Qle_bool_iff. now destruct (Qle_bool 0 q). Qed.
Lemma existsb_qneg : forall l, existsb qneg l = false -> Forall (fun q => 0 <= q)%Q l.
Proof.
  induction l as [|q l IH]; cbn; intro H; constructor; apply orb_false_iff in H; destruct H.
  - now apply qneg_false.
  - auto.
Qed.

(** Every configured file is loaded verbatim, and is non-negative unless the
    schema allows negative values; a derived grand total replaces a file's. *)
Theorem C130_loaded : forall c d x s a,
  read_data c = Ok d -> no_masks c -> In (x, Some s) input_schema ->
  aget x (c_entries c) = Some (Some a) ->
  (x <> "grand_total" -> aget x d = Some (VArr a)) /\
  (s_positive s = true -> Forall (fun q => 0 <= q)%Q (a_vals a)).
Proof.
  intros c d x s a H NM HI HE.
  destruct (read_stages _ _ H) as [d1 [d2 [d3 [d5 [H1 [H2 [H3 [H4 [H5 [H6 H7]]]]]]]]]].
  assert (Ndims : x <> "dims").
  { intro; subst x. destruct (foldM_step _ _ _ _ _ _ _ HI H1) as [e [e' L]].
    unfold load_one in L. rewrite HE in L.
    assert (S : s_ndmin s = None).
    { pose proof (aget_NoDup _ _ _ _ keys_NoDup HI) as G. vm_compute in G. now inversion G. }
    rewrite S in L. discriminate. }
  destruct (load_loop_at _ _ _ _ _ _ H1 keys_NoDup HI Ndims) as [e [e' [L [At _]]]].
  unfold load_one in L. rewrite HE in L.
  destruct (s_ndmin s); [|discriminate].
  destruct (s_positive s && existsb qneg (a_vals a)) eqn:P; [discriminate|].
  destruct (update_dims _ _ _) as [ds|] eqn:U; cbn [rbind] in L; [|discriminate].
  inversion L; subst e'. rewrite aget_aset_other, aget_aset_same in At by exact Ndims.
  split.
  - intro Ng. subst d. rewrite grand_frame by exact Ng.
    assert (Nm : ~ In x masks) by (intro M; rewrite (NM x M) in HE; discriminate).
    rewrite (masks_frame _ _ x H6 Nm).
    assert (Nmar : x <> "margins").
    { intro; subst x. pose proof (aget_NoDup _ _ _ _ keys_NoDup HI) as G. vm_compute in G. discriminate. }
    rewrite (margins_frame _ _ _ x H3 Nmar).
    destruct (String.eqb_spec x "test_cells") as [->|Nt].
    + unfold init_test_cells in H2. rewrite At in H2. inversion H2; subst. exact At.
    + rewrite (init_frame _ _ x H2 Nt). exact At.
  - intro Sp. rewrite Sp in P. cbn [andb] in P. now apply existsb_qneg.
Qed.
Print Assumptions C130_loaded.

(** Demands, attractions, costs, tables, adjacencies and cell lists may not hold
    negative values. *)
Definition never_negative : list string :=
  ["origin_demand"; "destination_demand"; "origin_attraction_ts"; "destination_attraction_ts"; "cost_matrix";
   "total_cost_by_origin"; "ground_truth_table"; "grand_total"; "adjacency_matrix";
   "test_cells"; "test_validation_cells"; "validation_cells"; "zero_train_cells"; "train_cells"].
Theorem C130_never_negative : forall c d x a,
  read_data c = Ok d -> no_masks c -> In x never_negative -> aget x (c_entries c) = Some (Some a) ->
  Forall (fun q => 0 <= q)%Q (a_vals a).
Proof.
  intros c d x a H NM HI HE.
  assert (E : exists s, In (x, Some s) input_schema /\ s_positive s = true).
  { unfold never_negative in HI. cbn [In] in HI.
    repeat (destruct HI as [<- | HI]; [eexists; split; [unfold input_schema, train_schema, validation_schema, cell_lists; cbn [flat_map app In]; repeat (first [left; reflexivity | right])|reflexivity]|]).
    destruct HI. }
  destruct E as (s & E1 & E2). destruct (C130_loaded c d x s a H NM E1 HE) as [_ K]. exact (K E2).
Qed.
Print Assumptions C130_never_negative.

(** The grand total is the sum of the ground truth table. *)
Theorem C130_grand_total : forall c d t,
  read_data c = Ok d -> aget "ground_truth_table" d = Some (VArr t) ->
  exists g, aget "grand_total" d = Some (VArr g) /\ a_shape g = [] /\ a_vals g = [qsum (a_vals t)].
Proof.
  intros c d t H T. destruct (read_stages _ _ H) as [d1 [d2 [d3 [d5 [_ [_ [_ [_ [_ [_ ->]]]]]]]]]].
  rewrite grand_frame in T by discriminate. unfold set_grand_total. rewrite T.
  rewrite aget_aset_same. eexists; repeat split.
Qed.
Print Assumptions C130_grand_total.

(** A configured training (or plotting) dataset whose file is missing stops
    the read. *)
Theorem C130_missing_file : forall c x s,
  In (x, Some s) (train_schema ++ plot_schema) -> aget x (c_entries c) = Some None ->
  exists e, read_data c = Raise e.
Proof.
  intros c x s HI HE. destruct (read_data c) as [d|e] eqn:H; [|eauto].
  destruct (read_stages _ _ H) as [d1 [d2 [d3 [d5 [H1 _]]]]].
  assert (HI' : In (x, Some s) input_schema).
  { unfold input_schema. rewrite !in_app_iff in *. tauto. }
  destruct (foldM_step _ _ _ _ _ _ _ HI' H1) as [e [e' L]].
  unfold load_one in L. rewrite HE in L.
  assert (M : mem x validation_schema = false).
  { assert (F : forallb (fun e : string * option sch => negb (mem (fst e) validation_schema))
       (train_schema ++ plot_schema) = true) by (vm_compute; reflexivity).
    rewrite forallb_forall in F. specialize (F _ HI). cbn [fst] in F.
    now destruct (mem x validation_schema). }
  rewrite M in L. discriminate.
Qed.
Print Assumptions C130_missing_file.

(** Two files that disagree about a shared dimension stop the read. *)
Theorem C130_conflict : forall c x a ax y b ay dim,
  no_masks c ->
  aget x (c_entries c) = Some (Some a) -> aget y (c_entries c) = Some (Some b) ->
  declares x ax dim -> declares y ay dim ->
  nth_error (a_shape a) ax <> nth_error (a_shape b) ay ->
  exists e, read_data c = Raise e.
Proof.
  intros c x a ax y b ay dim NM X Y DX DY N. destruct (read_data c) as [d|e] eqn:H; [|eauto].
  exfalso. apply N.
  assert (G : forall z az az', declares z az az' -> z <> "grand_total").
  { intros z az az' [s [k [HI [K1 K2]]]] ->.
    pose proof (aget_NoDup _ _ _ _ keys_NoDup (train_in_input _ HI)) as G. vm_compute in G.
    inversion G; subst. destruct k; discriminate. }
  assert (X' : aget x d = Some (VArr a)).
  { pose proof DX as [s [k [HI _]]].
    apply (C130_loaded c d x s a H NM (train_in_input _ HI) X). eauto. }
  assert (Y' : aget y d = Some (VArr b)).
  { pose proof DY as [s [k [HI _]]].
    apply (C130_loaded c d y s b H NM (train_in_input _ HI) Y). eauto. }
  destruct (C130_agree _ _ _ _ _ _ _ _ _ H X' Y' DX DY) as [n [A B]]. congruence.
Qed.
Print Assumptions C130_conflict.

(** False of the code: a destination demand vector can never be read. *)
Theorem C130_destination_demand_refuted : forall c a n,
  aget "destination_demand" (c_entries c) = Some (Some a) -> a_shape a = [n] ->
  exists e, read_data c = Raise e.
Proof.
  intros c a n HE HS. destruct (read_data c) as [d|e] eqn:H; [|eauto].
  destruct (read_stages _ _ H) as [d1 [d2 [d3 [d5 [H1 _]]]]].
  assert (HI : In ("destination_demand", Some (mksch [1] ["destination"] TFloat (Some 1) true false)) input_schema)
    by (right; left; reflexivity).
  destruct (foldM_step _ _ _ _ _ _ _ HI H1) as [e [e' L]].
  unfold load_one in L. rewrite HE in L. cbn [s_ndmin s_positive s_axes s_dims combine update_dims] in L.
  rewrite HS in L. cbn [nth_error] in L.
  destruct (true && existsb qneg (a_vals a)); cbn [rbind] in L; discriminate.
Qed.
Print Assumptions C130_destination_demand_refuted.

(** * C130: consistent files are read *)

Definition env (nI nJ nT : nat) (dim : string) : nat :=
  if String.eqb dim "origin" then nI else if String.eqb dim "destination" then nJ else nT.

Definition dform (o q t : option nat) : dims := [("origin", o); ("destination", q); ("time", t)].

(** The configured files fit together: sizes [nI], [nJ], [nT], signs, cells
    inside the table, some file giving each table dimension. *)
Record readable (c : cfg) (nI nJ nT : nat) : Prop := mkreadable {
  r_masks : no_masks c;
  r_dims : c_dims c = None \/ exists o q t, c_dims c = Some (dform o q t);
  r_file : forall x s a, In (x, Some s) input_schema -> aget x (c_entries c) = Some (Some a) ->
    x <> "dims" /\ (s_positive s = true -> Forall (fun q => 0 <= q)%Q (a_vals a)) /\
    forall k ax dim, nth_error (s_axes s) k = Some ax -> nth_error (s_dims s) k = Some dim ->
      nth_error (a_shape a) ax = Some (env nI nJ nT dim);
  r_missing : forall x s, In (x, Some s) input_schema -> aget x (c_entries c) = Some None ->
    In x cell_lists;
  r_size : forall dim, dim = "origin" \/ dim = "destination" ->
    exists x ax a, declares x ax dim /\ aget x (c_entries c) = Some (Some a);
  r_cells : forall x a, In x cell_lists -> aget x (c_entries c) = Some (Some a) ->
    exists n, a_shape a = [n; 2] /\ Forall (cell_ok nI nJ) (pairs_of (a_vals a));
  r_margins : forall l e, c_margins c = Some l -> In e l -> me_file e = None /\ me_value e <> None;
  r_subset : c_cells c = Some true -> exists a, aget "ground_truth_table" (c_entries c) = Some (Some a) }.

Definition known_dim (k : string) : Prop := k = "origin" \/ k = "destination" \/ k = "time".
Definition sel (b : bool) (n : nat) (o : option nat) : option nat := if b then Some n else o.

Lemma inb_cons : forall k x l, inb k (x :: l) = String.eqb k x || inb k l.
Proof. reflexivity. Qed.

Lemma update_dims_form : forall nI nJ nT sh axs o q t,
  (forall ax dim, In (ax, dim) axs -> known_dim dim /\ nth_error sh ax = Some (env nI nJ nT dim)) ->
  update_dims axs sh (dform o q t) =
  Ok (dform (sel (inb "origin" (map snd axs)) nI o) (sel (inb "destination" (map snd axs)) nJ q)
            (sel (inb "time" (map snd axs)) nT t)).
Proof.
  intros nI nJ nT sh axs. induction axs as [|[ax dim] axs IH]; intros o q t H; [reflexivity|].
  cbn [update_dims]. destruct (H ax dim (or_introl eq_refl)) as [K ->].
  assert (H' : forall ax dim, In (ax, dim) axs -> known_dim dim /\ nth_error sh ax = Some (env nI nJ nT dim))
    by (intros; apply H; now right).
  destruct K as [-> | [-> | ->]]; cbn [map snd].
  - change (aset "origin" (Some (env nI nJ nT "origin")) (dform o q t)) with (dform (Some nI) q t).
    rewrite (IH (Some nI) q t H'). rewrite !inb_cons.
    now destruct (inb "origin" (map snd axs)).
  - change (aset "destination" (Some (env nI nJ nT "destination")) (dform o q t)) with (dform o (Some nJ) t).
    rewrite (IH o (Some nJ) t H'). rewrite !inb_cons.
    now destruct (inb "destination" (map snd axs)).
  - change (aset "time" (Some (env nI nJ nT "time")) (dform o q t)) with (dform o q (Some nT)).
    rewrite (IH o q (Some nT) H'). rewrite !inb_cons.
    now destruct (inb "time" (map snd axs)).
Qed.

Lemma schema_dims_known : forall x s dim, In (x, Some s) input_schema -> In dim (s_dims s) -> known_dim dim.
Proof.
  intros x s dim HI HD.
  assert (F : forallb (fun e : string * option sch => match snd e with
      | Some s => forallb (fun k => inb k ["origin"; "destination"; "time"]) (s_dims s) | None => true end)
      input_schema = true) by (vm_compute; reflexivity).
  rewrite forallb_forall in F. specialize (F _ HI). cbn [snd] in F. rewrite forallb_forall in F.
  specialize (F _ HD). apply inb_In in F. destruct F as [<-|[<-|[<-|[]]]]; unfold known_dim; auto.
Qed.
Lemma schema_axes_len : forall x s, In (x, Some s) input_schema ->
  List.length (s_axes s) = List.length (s_dims s).
Proof.
  intros x s HI.
  assert (F : forallb (fun e : string * option sch => match snd e with
      | Some s => Nat.eqb (List.length (s_axes s)) (List.length (s_dims s)) | None => true end)
      input_schema = true) by (vm_compute; reflexivity).
  rewrite forallb_forall in F. specialize (F _ HI). cbn [snd] in F. now apply Nat.eqb_eq.
Qed.
Lemma combine_snd : forall A B (l : list A) (r : list B), List.length l = List.length r ->
  map snd (combine l r) = r.
Proof.
  intros A B l. induction l as [|x l IH]; intros [|y r] H; cbn in *; try discriminate; auto.
  f_equal. apply IH. lia.
Qed.
Lemma in_combine_nth : forall A B (l : list A) (r : list B) a b, In (a, b) (combine l r) ->
  exists k, nth_error l k = Some a /\ nth_error r k = Some b.
Proof.
  intros A B l. induction l as [|x l IH]; intros [|y r] a b H; cbn in H; try contradiction.
  destruct H as [H|H]; [inversion H; subst; now exists 0|].
  destruct (IH _ _ _ H) as [k K]. now exists (S k).
Qed.
Lemma nonneg_existsb : forall l, Forall (fun q => 0 <= q)%Q l -> existsb qneg l = false.
Proof.
  induction 1 as [|q l H _ IH]; [reflexivity|]. cbn. rewrite IH, orb_false_r.
  unfold qneg. apply Qle_bool_iff in H. now rewrite H.
Qed.
Lemma schema_ndmin : forall x s, In (x, Some s) input_schema -> x <> "dims" -> exists n, s_ndmin s = Some n.
Proof.
  intros x s HI N.
  assert (F : forallb (fun e : string * option sch => match snd e with
      | Some s => String.eqb (fst e) "dims" || match s_ndmin s with Some _ => true | None => false end
      | None => true end) input_schema = true) by (vm_compute; reflexivity).
  rewrite forallb_forall in F. specialize (F _ HI). cbn [fst snd] in F.
  destruct (String.eqb_spec x "dims"); [contradiction|]. cbn [orb] in F.
  destruct (s_ndmin s); [eauto|discriminate].
Qed.

(** Does this iteration fix the size of [dim]? *)
Definition fixes (c : cfg) (dim : string) (e : string * option sch) : bool :=
  match snd e with
  | Some s => inb dim (s_dims s) &&
      match aget (fst e) (c_entries c) with Some (Some _) => true | _ => false end
  | None => false
  end.

Lemma aset_dims_of : forall d ds, dims_of (aset "dims" (VDims ds) d) = ds.
Proof. intros d ds. unfold dims_of. now rewrite aget_aset_same. Qed.
Lemma other_dims_of : forall x v d, x <> "dims" -> dims_of (aset x v d) = dims_of d.
Proof. intros x v d N. unfold dims_of. rewrite aget_aset_other; congruence. Qed.

Lemma all_cells_ok : forall nI nJ t, exists a, all_cells_arr (dform (Some nI) (Some nJ) t) = Ok a.
Proof. intros nI nJ t. unfold all_cells_arr, dim_of. cbn. destruct nI; cbn; eauto. Qed.

Lemma load_one_form : forall c nI nJ nT d e o q t, readable c nI nJ nT -> In e input_schema ->
  dims_of d = dform o q t ->
  (In e train_schema \/ (o = Some nI /\ q = Some nJ)) ->
  exists d', load_one c d e = Ok d' /\
    dims_of d' = dform (sel (fixes c "origin" e) nI o) (sel (fixes c "destination" e) nJ q)
                       (sel (fixes c "time" e) nT t).
Proof.
  intros c nI nJ nT d [x os] o q t R HI D Hoq. unfold load_one, fixes. cbn [fst snd].
  destruct os as [s|]; [|exists d; split; [reflexivity|exact D]].
  destruct (aget x (c_entries c)) as [[a|]|] eqn:E.
  - destruct (r_file _ _ _ _ R x s a HI E) as [Nd [Pos Sh]].
    destruct (schema_ndmin x s HI Nd) as [n ->].
    assert (P : s_positive s && existsb qneg (a_vals a) = false).
    { destruct (s_positive s); [|reflexivity]. cbn [andb]. apply nonneg_existsb. auto. }
    rewrite P, D. rewrite (update_dims_form nI nJ nT).
    + cbn [rbind]. eexists; split; [reflexivity|]. rewrite aset_dims_of.
      rewrite combine_snd by (eapply schema_axes_len; eauto). rewrite !andb_true_r. reflexivity.
    + intros ax dim HC. destruct (in_combine_nth _ _ _ _ _ _ HC) as [k [K1 K2]]. split; [|eauto].
      apply (schema_dims_known x s); [exact HI|]. eapply nth_error_In; eauto.
  - pose proof (r_missing _ _ _ _ R x s HI E) as Hm.
    assert (V : mem x validation_schema = true).
    { assert (F : forallb (fun y => mem y validation_schema) cell_lists = true) by (vm_compute; reflexivity).
      rewrite forallb_forall in F. auto. }
    rewrite V. rewrite !andb_false_r. cbn [sel].
    assert (Nd : x <> "dims") by (intro; subst; vm_compute in V; discriminate).
    destruct (String.eqb_spec x "test_cells") as [->|Nt].
    + destruct Hoq as [Ht|[-> ->]].
      { exfalso. eapply train_not_test_cells; eauto. }
      rewrite D. destruct (all_cells_ok nI nJ t) as [b ->]. cbn [rbind].
      eexists; split; [reflexivity|]. rewrite other_dims_of by exact Nd. exact D.
    + eexists; split; [reflexivity|]. rewrite other_dims_of by exact Nd. exact D.
  - rewrite !andb_false_r. cbn [sel]. exists d. split; [reflexivity|exact D].
Qed.

Lemma sel_sel : forall a b n o, sel a n (sel b n o) = sel (b || a) n o.
Proof. intros [] [] n o; reflexivity. Qed.

Lemma load_train_form : forall c nI nJ nT l d o q t, readable c nI nJ nT ->
  (forall e, In e l -> In e train_schema) -> dims_of d = dform o q t ->
  exists d', foldM (load_one c) l d = Ok d' /\
    dims_of d' = dform (sel (existsb (fixes c "origin") l) nI o)
      (sel (existsb (fixes c "destination") l) nJ q) (sel (existsb (fixes c "time") l) nT t).
Proof.
  intros c nI nJ nT l. induction l as [|e l IH]; intros d o q t R Hl D; cbn [foldM existsb].
  - eexists; split; [reflexivity|]. exact D.
  - assert (HI : In e input_schema) by (apply train_in_input, Hl; now left).
    destruct (load_one_form c nI nJ nT d e o q t R HI D) as [d1 [-> D1]].
    { left. apply Hl. now left. }
    cbn [rbind]. destruct (IH d1 _ _ _ R (fun e' H => Hl e' (or_intror H)) D1) as [d' [E D']].
    exists d'. split; [exact E|]. rewrite D'. rewrite !sel_sel. reflexivity.
Qed.

Lemma fixes_from_declares : forall c x ax dim a, declares x ax dim ->
  aget x (c_entries c) = Some (Some a) -> existsb (fixes c dim) train_schema = true.
Proof.
  intros c x ax dim a [s [k [HI [K1 K2]]]] E. apply existsb_exists. exists (x, Some s).
  split; [exact HI|]. unfold fixes. cbn [fst snd]. rewrite E, andb_true_r.
  apply inb_In. eapply nth_error_In; eauto.
Qed.

Lemma load_rest_form : forall c nI nJ nT l d t, readable c nI nJ nT ->
  (forall e, In e l -> In e (validation_schema ++ plot_schema)) ->
  dims_of d = dform (Some nI) (Some nJ) t ->
  exists d', foldM (load_one c) l d = Ok d' /\ dims_of d' = dform (Some nI) (Some nJ) t.
Proof.
  intros c nI nJ nT l d t R Hl D.
  apply (foldM_ok _ _ (fun d => dims_of d = dform (Some nI) (Some nJ) t)); [|exact D].
  intros d0 e He D0.
  assert (HI : In e input_schema) by (unfold input_schema; apply in_or_app; right; auto).
  destruct (load_one_form c nI nJ nT d0 e _ _ _ R HI D0 (or_intror (conj eq_refl eq_refl))) as [d1 [-> D1]].
  exists d1. split; [reflexivity|]. rewrite D1.
  assert (T : fixes c "time" e = false).
  { assert (F : forallb (fun e : string * option sch => match snd e with
        | Some s => negb (inb "time" (s_dims s)) | None => true end) (validation_schema ++ plot_schema) = true)
      by (vm_compute; reflexivity).
    rewrite forallb_forall in F. specialize (F _ (Hl _ He)). unfold fixes.
    destruct (snd e) as [s|]; [|reflexivity]. now destruct (inb "time" (s_dims s)). }
  rewrite T. now destruct (fixes c "origin" e), (fixes c "destination" e).
Qed.

Lemma pairs_all_cells : forall nI nJ, Forall (cell_ok nI nJ)
  (pairs_of (flat_map (fun i => flat_map (fun j => [inject_Z (Z.of_nat i); inject_Z (Z.of_nat j)])
             (seq 0 nJ)) (seq 0 nI))) /\
  forall i j, i < nI -> j < nJ -> In (Z.of_nat i, Z.of_nat j)
  (pairs_of (flat_map (fun i => flat_map (fun j => [inject_Z (Z.of_nat i); inject_Z (Z.of_nat j)])
             (seq 0 nJ)) (seq 0 nI))).
Proof.
  intros nI nJ.
  assert (P1 : forall i js r, pairs_of (flat_map (fun j => [inject_Z (Z.of_nat i); inject_Z (Z.of_nat j)]) js ++ r)
     = map (fun j => (Z.of_nat i, Z.of_nat j)) js ++ pairs_of r).
  { intros i js r. induction js as [|j js IH]; [reflexivity|]. cbn [flat_map app pairs_of map].
    rewrite IH. unfold qtrunc. cbn [inject_Z Qnum Qden]. now rewrite !Z.quot_1_r. }
  assert (P2 : forall is, pairs_of (flat_map (fun i => flat_map (fun j => [inject_Z (Z.of_nat i); inject_Z (Z.of_nat j)])
             (seq 0 nJ)) is) = flat_map (fun i => map (fun j => (Z.of_nat i, Z.of_nat j)) (seq 0 nJ)) is).
  { induction is as [|i is IH]; [reflexivity|]. cbn [flat_map]. rewrite P1, IH. reflexivity. }
  rewrite P2. split.
  - apply Forall_forall. intros [a b] H. apply in_flat_map in H. destruct H as [i [Hi H]].
    apply in_map_iff in H. destruct H as [j [E Hj]]. inversion E; subst.
    apply in_seq in Hi, Hj. unfold cell_ok; cbn [fst snd]. lia.
  - intros i j Hi Hj. apply in_flat_map. exists i. split; [apply in_seq; lia|].
    apply in_map_iff. exists j. split; [reflexivity|apply in_seq; lia].
Qed.

(** The cell lists after loading are all masks can be made of. *)
Definition good_cells (nI nJ : nat) (a : arr) : Prop :=
  (a_shape a = [0] /\ a_vals a = []) \/ exists n, a_shape a = [n; 2] /\ Forall (cell_ok nI nJ) (pairs_of (a_vals a)).

Lemma all_cells_good : forall nI nJ t a, all_cells_arr (dform (Some nI) (Some nJ) t) = Ok a ->
  good_cells nI nJ a.
Proof.
  intros nI nJ t a H. unfold all_cells_arr, dim_of in H. cbn [dform aget String.eqb Ascii.eqb Bool.eqb rbind] in H.
  destruct nI as [|nI]; [inversion H; subst; left; auto|].
  inversion H; subst. destruct nJ as [|nJ].
  - left. split; [reflexivity|]. cbn [a_vals]. clear H. cbn [seq flat_map app]. generalize (seq 1 nI) as l.
    intro l; induction l as [|z l IH]; [reflexivity|]. cbn [flat_map app]. exact IH.
  - right. eexists. split; [reflexivity|]. cbn [a_vals]. apply (proj1 (pairs_all_cells (S nI) (S nJ))).
Qed.

Lemma mask_of_good : forall nI nJ t a, good_cells nI nJ a ->
  exists m, mask_of (dform (Some nI) (Some nJ) t) a = Ok m.
Proof.
  intros nI nJ t a H. unfold mask_of. cbn [dform unpack_dims filter map fst snd String.eqb Ascii.eqb Bool.eqb negb].
  destruct H as [[S V]|[n [S C]]]; unfold cells_of; rewrite S.
  - cbn. eauto.
  - cbn [rbind]. destruct (C94_ordinary_cells _ _ _ C) as [m [-> _]]. cbn [rbind]. eauto.
Qed.

Lemma check_axes_intro : forall axs sh ds,
  (forall ax dim, In (ax, dim) axs -> exists n, nth_error sh ax = Some n /\ aget dim ds = Some (Some n)) ->
  check_axes axs sh ds = Ok tt.
Proof.
  intros axs sh ds. induction axs as [|[a k] axs IH]; intro H; [reflexivity|].
  cbn. destruct (H a k (or_introl eq_refl)) as [n [-> ->]]. rewrite Nat.eqb_refl.
  apply IH. intros; apply H. now right.
Qed.

Lemma margins_ok : forall c nI nJ nT d, readable c nI nJ nT -> exists d', import_margins c d = Ok d'.
Proof.
  intros c nI nJ nT d R. unfold import_margins. destruct (c_margins c) as [l|] eqn:E; [|eauto].
  assert (M : exists m, foldM import_margin l [] = Ok m /\ True).
  { apply (foldM_ok _ _ (fun _ => True)); [|exact I]. intros m e He _.
    destruct (r_margins _ _ _ _ R l e E He) as [F V]. unfold import_margin. rewrite F.
    destruct (me_value e); [eauto|congruence]. }
  destruct M as [m [-> _]]. cbn. eauto.
Qed.

Lemma load_loop_absent : forall c l d d' x, foldM (load_one c) l d = Ok d' ->
  aget x (c_entries c) = None -> x <> "dims" -> aget x d' = aget x d.
Proof.
  intros c l. induction l as [|[q w] l IH]; intros d d' x H E N; cbn [foldM] in H; [inversion H; now subst|].
  destruct (load_one c d (q, w)) as [d1|] eqn:L; cbn [rbind] in H; [|discriminate].
  rewrite (IH _ _ _ H E N). destruct (String.eqb_spec x q) as [->|Nq].
  - unfold load_one in L. rewrite E in L. destruct w; now inversion L.
  - apply (load_one_frame _ _ _ _ _ x L Nq N).
Qed.

Theorem C130_consistent_files_are_read : forall c nI nJ nT, readable c nI nJ nT ->
  exists d, read_data c = Ok d /\ aget "origin" (dims_of d) = Some (Some nI) /\
    aget "destination" (dims_of d) = Some (Some nJ).
Proof.
  intros c nI nJ nT R.
  assert (S : exists o q t, dims_of [("dims", VDims (match c_dims c with Some x => x | None => default_dims end))] = dform o q t).
  { destruct (r_dims _ _ _ _ R) as [->|[o [q [t ->]]]]; cbn; unfold default_dims, dform; eauto. }
  destruct S as [o [q [t D0]]].
  set (d0 := [("dims", VDims (match c_dims c with Some x => x | None => default_dims end))]) in *.
  destruct (load_train_form c nI nJ nT train_schema d0 o q t R (fun _ H => H) D0) as [dt [Lt Dt]].
  destruct (r_size _ _ _ _ R "origin" (or_introl eq_refl)) as [xo [axo [ao [DO EO]]]].
  destruct (r_size _ _ _ _ R "destination" (or_intror eq_refl)) as [xd [axd [ad [DD ED]]]].
  rewrite (fixes_from_declares c _ _ _ _ DO EO), (fixes_from_declares c _ _ _ _ DD ED) in Dt.
  cbn [sel] in Dt. set (t' := sel (existsb (fixes c "time") train_schema) nT t) in *.
  assert (Dtime : existsb (fixes c "time") train_schema = true -> t' = Some nT)
    by (intro X; unfold t'; now rewrite X).
  clearbody t'.
  destruct (load_rest_form c nI nJ nT (validation_schema ++ plot_schema) dt t' R (fun _ H => H) Dt)
    as [d1 [L1 D1]].
  assert (L : foldM (load_one c) input_schema d0 = Ok d1)
    by (unfold input_schema; rewrite foldM_app, Lt; exact L1).
  (* test cells *)
  assert (Hi : exists d2, init_test_cells d1 = Ok d2 /\ dims_of d2 = dform (Some nI) (Some nJ) t').
  { unfold init_test_cells. destruct (aget "test_cells" d1); [eauto|].
    rewrite D1. destruct (all_cells_ok nI nJ t') as [b ->]. cbn [rbind]. eexists; split; [reflexivity|].
    now rewrite other_dims_of. }
  destruct Hi as [d2 [L2 D2]].
  destruct (margins_ok c nI nJ nT d2 R) as [d3 L3].
  assert (D3 : dims_of d3 = dform (Some nI) (Some nJ) t').
  { rewrite <- D2. unfold dims_of. rewrite (margins_frame _ _ _ _ L3); [reflexivity|discriminate]. }
  assert (L4 : import_cells_subset c d3 = Ok d3).
  { unfold import_cells_subset. destruct (c_cells c) as [[]|] eqn:E; auto.
    destruct (r_subset _ _ _ _ R E) as [a Ea].
    rewrite (margins_frame _ _ _ _ L3), (init_frame _ _ _ L2) by discriminate.
    assert (HI : In ("ground_truth_table", Some (mksch [0; 1] ["origin"; "destination"] TInt (Some 2) true true)) input_schema)
      by (do 6 right; left; reflexivity).
    destruct (load_loop_at c _ _ _ _ _ L keys_NoDup HI) as [e [e' [Le [At _]]]]; [discriminate|].
    unfold load_one in Le. rewrite Ea in Le. cbn [s_ndmin] in Le.
    destruct (_ && _) in Le; [discriminate|]. destruct (update_dims _ _ _) in Le; cbn [rbind] in Le; [|discriminate].
    inversion Le; subst e'. rewrite At, aget_aset_other, aget_aset_same by discriminate. reflexivity. }
  (* what is stored under a training name is its file *)
  assert (St : forall x s a, In (x, Some s) train_schema -> aget x d3 = Some (VArr a) ->
     aget x (c_entries c) = Some (Some a)).
  { intros x s a HI X.
    assert (Nm : x <> "margins") by (intro; subst; pose proof (aget_NoDup _ _ _ _ keys_NoDup (train_in_input _ HI)) as G; vm_compute in G; discriminate).
    rewrite (margins_frame _ _ _ _ L3 Nm), (init_frame _ _ _ L2 (train_not_test_cells _ _ HI)) in X.
    assert (Nd : x <> "dims").
    { intro; subst x. unfold dims_of in D1. rewrite X in D1. discriminate. }
    destruct (load_loop_at c _ _ _ _ _ L keys_NoDup (train_in_input _ HI) Nd) as [e [e' [Le [At At0]]]].
    unfold load_one in Le. destruct (aget x (c_entries c)) as [[b|]|] eqn:E.
    - destruct (s_ndmin s); [|discriminate]. destruct (_ && _) in Le; [discriminate|].
      destruct (update_dims _ _ _) in Le; cbn [rbind] in Le; [|discriminate].
      inversion Le; subst e'. rewrite At, aget_aset_other, aget_aset_same in X by exact Nd. congruence.
    - pose proof (r_missing _ _ _ _ R x s (train_in_input _ HI) E) as B.
      exfalso. revert B. clear - HI. intro B.
      assert (F : forallb (fun e : string * option sch => negb (inb (fst e) cell_lists)) train_schema = true)
        by (vm_compute; reflexivity).
      rewrite forallb_forall in F. specialize (F _ HI). cbn [fst] in F. apply inb_In in B. rewrite B in F. discriminate.
    - inversion Le; subst e'. rewrite At, At0 in X. unfold d0 in X. cbn [aget] in X.
      destruct (String.eqb_spec x "dims"); [contradiction|discriminate]. }
  assert (L5 : validate_dims d3 = Ok tt).
  { unfold validate_dims.
    destruct (foldM_ok _ _ (fun u : unit => u = tt) (fun _ e => validate_one d3 e) train_schema tt) as [u [F ->]];
      [|reflexivity|exact F].
    intros [] [x os] HI _. exists tt. split; [|reflexivity]. unfold validate_one.
    destruct os as [s|]; [|reflexivity]. destruct (aget x d3) as [[a| |]|] eqn:X; try reflexivity.
    apply check_axes_intro. intros ax dim HC. destruct (in_combine_nth _ _ _ _ _ _ HC) as [k [K1 K2]].
    pose proof (St x s a HI X) as E.
    destruct (r_file _ _ _ _ R x s a (train_in_input _ HI) E) as [_ [_ Sh]].
    exists (env nI nJ nT dim). split; [eauto|]. rewrite D3.
    assert (KD : known_dim dim) by (eapply schema_dims_known; [apply train_in_input; exact HI|eapply nth_error_In; eauto]).
    destruct KD as [-> | [-> | ->]]; cbn [dform aget String.eqb Ascii.eqb Bool.eqb env]; try reflexivity.
    rewrite Dtime; [reflexivity|]. apply (fixes_from_declares c x ax "time" a); [|exact E].
    exists s, k. auto. }
  (* cell lists *)
  assert (Gc : forall x a, In x cell_lists -> aget x d3 = Some (VArr a) -> good_cells nI nJ a).
  { intros x a Hx X.
    assert (Nx : x <> "dims" /\ x <> "margins").
    { assert (F : forallb (fun y => negb (String.eqb y "dims") && negb (String.eqb y "margins")) cell_lists = true) by (vm_compute; reflexivity).
      rewrite forallb_forall in F. specialize (F _ Hx). apply andb_true_iff in F. destruct F as [F1 F2].
      split; intro; subst x; vm_compute in F1, F2; discriminate. }
    destruct Nx as [Nd Nm].
    rewrite (margins_frame _ _ _ _ L3 Nm) in X.
    assert (HI : In (x, cells_sch) input_schema).
    { unfold input_schema, validation_schema. apply in_or_app. right. apply in_or_app. left.
      apply in_flat_map. exists x. split; [exact Hx|now left]. }
    assert (X1 : aget x d1 = Some (VArr a) \/ all_cells_arr (dform (Some nI) (Some nJ) t') = Ok a).
    { unfold init_test_cells in L2. destruct (aget "test_cells" d1) eqn:T1; [inversion L2; subst; auto|].
      rewrite D1 in L2. destruct (all_cells_arr _) as [b|] eqn:Ac; cbn [rbind] in L2; [|discriminate].
      inversion L2; subst d2. destruct (String.eqb_spec x "test_cells") as [->|Nt].
      - rewrite aget_aset_same in X. inversion X; subst. auto.
      - rewrite aget_aset_other in X by exact Nt. auto. }
    destruct X1 as [X1|Ac]; [|eapply all_cells_good; eauto].
    pose proof (load_rest_form c nI nJ nT) as LR.
    assert (At : exists e e', load_one c e (x, cells_sch) = Ok e' /\ aget x d1 = aget x e' /\ aget x e = aget x dt
                 /\ dims_of e = dform (Some nI) (Some nJ) t').
    { apply in_split in Hx. 
      assert (HV : In (x, cells_sch) (validation_schema ++ plot_schema)).
      { unfold input_schema in HI. apply in_app_or in HI. destruct HI as [HI|HI]; [|exact HI].
        exfalso. assert (F : forallb (fun e : string * option sch => negb (inb (fst e) cell_lists)) train_schema = true)
          by (vm_compute; reflexivity).
        rewrite forallb_forall in F. specialize (F _ HI). cbn [fst] in F.
        assert (B : inb x cell_lists = true) by (apply inb_In; destruct Hx as [l1 [l2 ->]]; apply in_or_app; right; now left).
        rewrite B in F. discriminate. }
      destruct (in_split _ _ HV) as [l1 [l2 Sp]].
      assert (ND : NoDup (map fst (validation_schema ++ plot_schema))).
      { pose proof keys_NoDup as K. unfold keys, input_schema in K. rewrite map_app in K.
        clear - K. induction (map fst train_schema) as [|z l IH]; [exact K|]. cbn in K. inversion K; auto. }
      assert (Hl1 : forall e, In e l1 -> In e (validation_schema ++ plot_schema))
        by (intros e He; rewrite Sp; apply in_or_app; now left).
      destruct (LR l1 dt t' R Hl1 Dt) as [e [Le De]].
      rewrite Sp, foldM_app, Le in L1. cbn [rbind foldM] in L1.
      destruct (load_one c e (x, cells_sch)) as [e'|] eqn:Lx; cbn [rbind] in L1; [|discriminate].
      exists e, e'. split; [exact Lx|].
      rewrite Sp, map_app in ND. cbn [map fst] in ND. pose proof (NoDup_remove_2 _ _ _ ND) as NR.
      split; [|split; [|exact De]].
      - apply (load_loop_frame _ _ _ _ x L1); [|exact Nd]. intro B. apply NR. apply in_or_app. now right.
      - apply (load_loop_frame _ _ _ _ x Le); [|exact Nd]. intro B. apply NR. apply in_or_app. now left. }
    destruct At as [e [e' [Le [At1 [At0 De]]]]]. rewrite At1 in X1.
    unfold load_one, cells_sch in Le. destruct (aget x (c_entries c)) as [[b|]|] eqn:E.
    - cbn [s_ndmin] in Le. destruct (_ && _) in Le; [discriminate|].
      destruct (update_dims _ _ _) in Le; cbn [rbind] in Le; [|discriminate].
      inversion Le; subst e'. rewrite aget_aset_other, aget_aset_same in X1 by exact Nd.
      inversion X1; subst b. right. apply (r_cells _ _ _ _ R x a Hx E).
    - destruct (mem x validation_schema); [|discriminate]. destruct (String.eqb x "test_cells").
      + rewrite De in Le. destruct (all_cells_arr _) as [b|] eqn:Ac; cbn [rbind] in Le; [|discriminate].
        inversion Le; subst e'. rewrite aget_aset_same in X1. inversion X1; subst. eapply all_cells_good; eauto.
      + inversion Le; subst e'. rewrite aget_aset_same in X1. inversion X1; subst. left. auto.
    - inversion Le; subst e'. rewrite At0 in X1.
      rewrite (load_loop_absent _ _ _ _ x Lt E Nd) in X1. unfold d0 in X1. cbn [aget] in X1.
      destruct (String.eqb_spec x "dims"); [contradiction|discriminate]. }
  assert (L6 : exists d5, create_cell_masks d3 = Ok d5 /\ dims_of d5 = dform (Some nI) (Some nJ) t' /\
     forall x a, In x cell_lists -> aget x d5 = Some (VArr a) -> good_cells nI nJ a).
  { unfold create_cell_masks.
    apply (foldM_ok _ _ (fun d => dims_of d = dform (Some nI) (Some nJ) t' /\
     forall x a, In x cell_lists -> aget x d = Some (VArr a) -> good_cells nI nJ a)); [|split; assumption].
    intros d x Hx [Dd Gd]. unfold mask_one. destruct (aget x d) as [[a| |]|] eqn:X; eauto.
    rewrite Dd. destruct (mask_of_good nI nJ t' a (Gd x a Hx X)) as [m ->]. cbn [rbind].
    eexists; split; [reflexivity|].
    assert (F : forallb (fun y => negb (inb (mask_name y) cell_lists) && negb (String.eqb (mask_name y) "dims")) cell_lists = true)
      by (vm_compute; reflexivity).
    rewrite forallb_forall in F. specialize (F _ Hx). apply andb_true_iff in F. destruct F as [F1 F2].
    split.
    - rewrite other_dims_of; [exact Dd|]. intro B. rewrite B in F2. discriminate.
    - intros y b Hy Y. rewrite aget_aset_other in Y; [eauto|].
      intro B. subst y. apply inb_In in Hy. rewrite Hy in F1. discriminate. }
  destruct L6 as [d5 [L6 [D5 _]]].
  exists (set_grand_total d5). split.
  - unfold read_data. cbv zeta. fold d0. rewrite L. cbn [rbind]. rewrite L2. cbn [rbind]. rewrite L3. cbn [rbind].
    rewrite L4. cbn [rbind]. rewrite L5. cbn [rbind]. rewrite L6. reflexivity.
  - assert (DF : dims_of (set_grand_total d5) = dform (Some nI) (Some nJ) t').
    { unfold dims_of. rewrite grand_frame by discriminate. exact D5. }
    rewrite DF. split; reflexivity.
Qed.
Print Assumptions C130_consistent_files_are_read.

(** A 2 by 3 example: demand, attractions over 2 times, costs, a table, a
    training and a validation list (the latter's file missing), one margin. *)
Definition ex_cfg : cfg := mkcfg
  [("origin_demand", Some (mkarr Np TFloat [2] [6; 4]%Q));
   ("destination_attraction_ts", Some (mkarr Np TFloat [3; 2] [1 # 2; 1 # 4; 1 # 4; 1 # 4; 1 # 4; 1 # 2]%Q));
   ("cost_matrix", Some (mkarr Np TFloat [2; 3] [1; 2; 3; 3; 2; 1 # 3]%Q));
   ("ground_truth_table", Some (mkarr Np TInt [2; 3] [1; 2; 3; 4; 0; 0]%Q));
   ("region_features", Some (mkarr Np TFloat [1; 1] [-5]%Q));
   ("train_cells", Some (mkarr Np TInt [2; 2] [0; 1; 1; 2]%Q));
   ("validation_cells", None)]
  None (Some [mkme [0%Z] None (Some [6; 4]%Q)]) (Some false).

Lemma ex_readable : readable ex_cfg 2 3 2.
Proof.
  constructor.
  - intros x H. unfold masks in H. cbn in H.
    repeat (destruct H as [<-|H]; [reflexivity|]). contradiction.
  - now left.
  - intros x s a HI E. apply aget_In in E. cbn in E.
    pose proof (aget_NoDup _ _ _ _ keys_NoDup HI) as G.
    repeat (destruct E as [E|E];
      [inversion E; subst; vm_compute in G; inversion G; subst; cbn [s_positive s_axes s_dims a_vals a_shape];
       split; [discriminate|]; split;
       [intro Hp; try discriminate Hp; repeat constructor; vm_compute; discriminate|];
       intros [|[|k]] ax dim K1 K2; cbn in K1, K2;
       try (destruct k; discriminate);
       try discriminate; inversion K1; inversion K2; subst; reflexivity|]).
    destruct E as [E|[]]. inversion E.
  - intros x s HI E. apply aget_In in E. cbn in E.
    repeat (destruct E as [E|E]; [inversion E; subst; try (cbn; tauto)|]). contradiction.
  - intros dim [->| ->].
    + exists "origin_demand", 0, (mkarr Np TFloat [2] [6; 4]%Q). split; [|reflexivity].
      eexists _, 0. split; [left; reflexivity|split; reflexivity].
    + exists "cost_matrix", 1, (mkarr Np TFloat [2; 3] [1; 2; 3; 3; 2; 1 # 3]%Q). split; [|reflexivity].
      eexists _, 1. split; [do 4 right; left; reflexivity|split; reflexivity].
  - intros x a Hx E. cbn in Hx.
    destruct Hx as [<-|[<-|[<-|[<-|[<-|[]]]]]]; vm_compute in E; inversion E; subst.
    exists 2. split; [reflexivity|]. repeat constructor; vm_compute; congruence.
  - intros l e H He. inversion H; subst. destruct He as [<-|[]]. cbn. split; [reflexivity|discriminate].
  - intro H. discriminate.
Qed.

Example C130_nonvacuous : exists d, read_data ex_cfg = Ok d /\
  aget "origin" (dims_of d) = Some (Some 2) /\
  option_map (fun v => match v with VArr a => a_vals a | _ => [] end) (aget "grand_total" d) = Some [10 # 1]%Q /\
  (exists e, read_data (mkcfg (aset "cost_matrix" (Some (mkarr Np TFloat [2; 2] [1; 1; 1; 1]%Q)) (c_entries ex_cfg))
     None None None) = Raise e).
Proof.
  eexists. split; [vm_compute; reflexivity|]. split; [reflexivity|]. split; [reflexivity|].
  eexists. vm_compute. reflexivity.
Qed.

(** * C131: the cell masks *)

Lemma masks_at : forall l d d' x a,
  foldM mask_one l d = Ok d' -> NoDup l -> (forall y, In y l -> In y cell_lists) ->
  In x l -> aget x d = Some (VArr a) ->
  exists m, mask_of (dims_of d) a = Ok m /\ aget (mask_name x) d' = Some (VArr m).
Proof.
  assert (F : forallb (fun y => negb (String.eqb (mask_name y) "dims") && negb (inb (mask_name y) cell_lists) &&
      forallb (fun z => String.eqb z y || negb (String.eqb (mask_name z) (mask_name y))) cell_lists) cell_lists = true)
    by (vm_compute; reflexivity).
  rewrite forallb_forall in F.
  intros l. induction l as [|q l IH]; intros d d' x a H ND Hl HI X; [contradiction|].
  cbn [foldM] in H. destruct (mask_one d q) as [d1|] eqn:M; cbn [rbind] in H; [|discriminate].
  inversion ND as [|? ? NI ND']; subst.
  pose proof (F q (Hl q (or_introl eq_refl))) as Fq.
  apply andb_true_iff in Fq. destruct Fq as [Fq F3]. apply andb_true_iff in Fq. destruct Fq as [F1 F2].
  assert (N1 : "dims" <> mask_name q) by (intro B; rewrite <- B in F1; discriminate).
  assert (N2 : forall z, In z cell_lists -> z <> mask_name q).
  { intros z Hz B. subst z. apply inb_In in Hz. rewrite Hz in F2. discriminate. }
  destruct HI as [->|HI].
  - unfold mask_one in M. rewrite X in M. destruct (mask_of (dims_of d) a) as [m|] eqn:E; cbn [rbind] in M; [|discriminate].
    inversion M; subst d1. exists m. split; [reflexivity|].
    apply (foldM_inv _ _ (fun z => aget (mask_name x) z = Some (VArr m)) mask_one l (aset (mask_name x) (VArr m) d) d'); [|apply aget_aset_same|exact H].
    intros z b w Hb Hz E'. rewrite <- Hz. apply (mask_one_frame _ _ _ _ E').
    intro B. pose proof (F b (Hl b (or_intror Hb))) as Fb. apply andb_true_iff in Fb. destruct Fb as [_ Fb].
    rewrite forallb_forall in Fb. specialize (Fb x (Hl x (or_introl eq_refl))). rewrite B, String.eqb_refl in Fb.
    cbn [negb] in Fb. rewrite orb_false_r in Fb. apply String.eqb_eq in Fb. subst b. contradiction.
  - assert (X1 : aget x d1 = Some (VArr a)).
    { rewrite (mask_one_frame _ _ _ _ M); [exact X|]. apply N2. apply Hl. now right. }
    destruct (IH d1 d' x a H ND' (fun y Hy => Hl y (or_intror Hy)) HI X1) as [m [E At]].
    exists m. split; [|exact At]. rewrite <- E. f_equal. unfold dims_of.
    now rewrite (mask_one_frame _ _ _ _ M).
Qed.

Lemma cell_lists_NoDup : NoDup cell_lists.
Proof.
  unfold cell_lists. repeat constructor; cbn; intro H; repeat (destruct H as [H|H]; [discriminate|]); exact H.
Qed.

Lemma aset_keys : forall V k (v : V) l, In k (map fst l) -> map fst (aset k v l) = map fst l.
Proof.
  intros V k v l. induction l as [|[q w] l IH]; cbn; [tauto|].
  destruct (String.eqb_spec k q) as [->|N]; intro H; [reflexivity|]. cbn. f_equal. apply IH.
  destruct H; [congruence|assumption].
Qed.
Lemma update_dims_keys : forall axs sh ds ds', update_dims axs sh ds = Ok ds' ->
  (forall ax dim, In (ax, dim) axs -> In dim (map fst ds)) -> map fst ds' = map fst ds.
Proof.
  intros axs sh. induction axs as [|[ax dim] axs IH]; intros ds ds' H K; cbn in H; [now inversion H|].
  destruct (nth_error sh ax); [|discriminate].
  assert (E : map fst (aset dim (Some n) ds) = map fst ds)
    by (apply aset_keys; apply (K ax dim); now left).
  rewrite (IH _ _ H); [exact E|]. intros a k HI. rewrite E. apply (K a k). now right.
Qed.

Definition std_keys := ["origin"; "destination"; "time"].
(** The dims listed by the configuration, if any, start from the usual order. *)
Definition std_order (c : cfg) : Prop :=
  match c_dims c with None => True | Some ds => map fst ds = std_keys end.

Lemma load_keys : forall c e d d', In e input_schema -> load_one c d e = Ok d' ->
  map fst (dims_of d) = std_keys -> map fst (dims_of d') = std_keys.
Proof.
  intros c [x os] d d' HI H K. unfold load_one in H.
  destruct os as [s|]; [|inversion H; now subst].
  destruct (aget x (c_entries c)) as [[a|]|] eqn:E; [| |inversion H; now subst].
  - destruct (s_ndmin s); [|discriminate]. destruct (_ && _) in H; [discriminate|].
    destruct (update_dims _ _ _) as [ds|] eqn:U; cbn [rbind] in H; [|discriminate].
    inversion H; subst. rewrite aset_dims_of. rewrite <- K. apply (update_dims_keys _ _ _ _ U).
    intros ax dim HC. rewrite K. destruct (in_combine_nth _ _ _ _ _ _ HC) as [k [_ K2]].
    destruct (schema_dims_known x s dim HI (nth_error_In _ _ K2)) as [-> | [-> | ->]]; cbn; auto.
  - destruct (mem x validation_schema) eqn:M; [|discriminate].
    assert (Nx : x <> "dims") by (intro; subst; vm_compute in M; discriminate).
    destruct (String.eqb x "test_cells").
    + destruct (all_cells_arr _) as [b|] eqn:U; cbn [rbind] in H; [|discriminate].
      inversion H; subst. now rewrite other_dims_of.
    + inversion H; subst. now rewrite other_dims_of.
Qed.

Lemma nth_rows : forall (f : nat -> nat -> Q) nJ i0 nI i j, i < nI -> j < nJ ->
  nth (i * nJ + j) (flat_map (fun i => map (f i) (seq 0 nJ)) (seq i0 nI)) 0%Q = f (i0 + i) j.
Proof.
  intros f nJ i0 nI. revert i0. induction nI as [|nI IH]; intros i0 i j Hi Hj; [lia|].
  cbn [seq flat_map]. destruct i as [|i].
  - rewrite app_nth1 by (rewrite map_length, seq_length; lia). cbn [Nat.mul Nat.add].
    rewrite (nth_indep _ 0%Q (f i0 0)) by (rewrite map_length, seq_length; lia).
    rewrite map_nth, seq_nth by exact Hj. f_equal. lia.
  - rewrite app_nth2 by (rewrite map_length, seq_length; lia).
    rewrite map_length, seq_length. replace (S i * nJ + j - nJ) with (i * nJ + j) by lia.
    rewrite IH by lia. f_equal. lia.
Qed.

Lemma mask_of_inv : forall ds a m, map fst ds = std_keys -> mask_of ds a = Ok m ->
  exists nI nJ cs, aget "origin" ds = Some (Some nI) /\ aget "destination" ds = Some (Some nJ) /\
    cells_of nJ a = Ok cs /\ a_shape m = [nI; nJ] /\
    forall i j, i < nI -> j < nJ ->
      nth (i * nJ + j) (a_vals m) 0%Q =
      if existsb (fun c => match np_index nI (fst c), np_index nJ (snd c) with
                           | Ok p, Ok q => Nat.eqb p i && Nat.eqb q j | _, _ => false end) cs
      then 1%Q else 0%Q.
Proof.
  intros ds a m K H. unfold mask_of in H.
  destruct ds as [|[k1 v1] [|[k2 v2] [|[k3 v3] [|? ?]]]]; try discriminate.
  inversion K; subst k1 k2 k3. cbn [unpack_dims filter map fst snd String.eqb Ascii.eqb Bool.eqb negb] in H.
  destruct v1 as [nI|]; [|discriminate]. destruct v2 as [nJ|]; [|discriminate].
  destruct (cells_of nJ a) as [cs|] eqn:C; cbn [rbind] in H; [|discriminate].
  destruct (create_mask nI nJ cs) as [g|] eqn:G; cbn [rbind] in H; [|discriminate].
  inversion H; subst m. exists nI, nJ, cs. repeat split; auto.
  intros i j Hi Hj. cbn [mask_arr a_vals].
  rewrite (nth_rows (fun i j => if g i j then 1%Q else 0%Q)) by assumption. cbn [Nat.add].
  pose proof (proj2 (C94_mask_marks_listed_cells nI nJ cs) g G i j) as S.
  match goal with |- _ = if ?b then _ else _ => destruct b eqn:B end.
  - apply existsb_exists in B. destruct B as [[p q] [Hin B]]. cbn [fst snd] in B.
    destruct (np_index nI p) as [a0|] eqn:P; [|discriminate].
    destruct (np_index nJ q) as [b0|] eqn:Q0; [|discriminate].
    apply andb_true_iff in B. destruct B as [B1 B2]. apply Nat.eqb_eq in B1, B2. subst.
    apply np_index_ok in P, Q0. rewrite (proj2 S); [reflexivity|eauto 6].
  - destruct (g i j) eqn:E; [|reflexivity]. exfalso.
    destruct (proj1 S eq_refl) as [p [q [Hin [P Q0]]]]. apply np_index_ok in P, Q0.
    rewrite <- not_true_iff_false in B. apply B. apply existsb_exists. exists (p, q).
    split; [exact Hin|]. cbn [fst snd]. rewrite P, Q0, !Nat.eqb_refl. reflexivity.
Qed.

Lemma np_index_nonneg : forall n z k, (0 <= z)%Z -> np_index n z = Ok k -> Z.of_nat k = z.
Proof. intros n z k H E. apply np_index_ok in E. unfold names_position in E. lia. Qed.
Lemma qtrunc_nonneg : forall q, (0 <= q)%Q -> (0 <= qtrunc q)%Z.
Proof.
  intros q H. unfold qtrunc. apply Z.quot_pos; [|lia]. unfold Qle in H. cbn in H. lia.
Qed.
Lemma pairs_nonneg : forall n l, List.length l <= n -> Forall (fun q => 0 <= q)%Q l ->
  forall p q, In (p, q) (pairs_of l) -> (0 <= p)%Z /\ (0 <= q)%Z.
Proof.
  induction n as [|n IH]; intros [|x [|y l]] L H p q HI; cbn in L, HI; try contradiction; try lia.
  inversion H as [|? ? Hx H']; subst. inversion H' as [|? ? Hy H'']; subst.
  destruct HI as [HI|HI]; [inversion HI; subst; split; apply qtrunc_nonneg; assumption|].
  apply (IH l); [lia|assumption|exact HI].
Qed.

(** After a read, each listed cell set has a mask over the origin by
    destination table that is 1 at exactly the cells listed in its file. *)
Theorem C131_masks_partial : forall c d x a n,
  read_data c = Ok d -> no_masks c -> std_order c ->
  In x cell_lists -> aget x (c_entries c) = Some (Some a) -> a_shape a = [n; 2] ->
  exists m nI nJ, aget (mask_name x) d = Some (VArr m) /\
    aget "origin" (dims_of d) = Some (Some nI) /\ aget "destination" (dims_of d) = Some (Some nJ) /\
    a_shape m = [nI; nJ] /\
    forall i j, i < nI -> j < nJ ->
      (nth (i * nJ + j) (a_vals m) 0%Q = 1%Q /\ In (Z.of_nat i, Z.of_nat j) (pairs_of (a_vals a))) \/
      (nth (i * nJ + j) (a_vals m) 0%Q = 0%Q /\ ~ In (Z.of_nat i, Z.of_nat j) (pairs_of (a_vals a))).
Proof.
  intros c d x a n H NM SO Hx E S.
  assert (HI : In (x, cells_sch) input_schema).
  { unfold input_schema, validation_schema. apply in_or_app. right. apply in_or_app. left.
    apply in_flat_map. exists x. split; [exact Hx|now left]. }
  assert (Ng : x <> "grand_total") by (intro; subst; cbn in Hx; repeat (destruct Hx as [Hx|Hx]; [discriminate|]); exact Hx).
  destruct (C130_loaded c d x _ a H NM HI E) as [Ld Pos]. specialize (Ld Ng). specialize (Pos eq_refl).
  destruct (read_frame _ _ H) as [d1 [d3 [d5 [H1 [H5 [H6 [H7 [A [B [D1 D2]]]]]]]]]].
  assert (K : map fst (dims_of d3) = std_keys).
  { rewrite D2. revert H1. apply (foldM_inv _ _ (fun z => map fst (dims_of z) = std_keys)).
    - intros z b y Hb Hz L. eapply load_keys; eauto.
    - unfold std_order in SO. cbn. destruct (c_dims c); [exact SO|reflexivity]. }
  assert (Nm : ~ In x masks).
  { assert (F : forallb (fun y => negb (inb y masks)) cell_lists = true) by (vm_compute; reflexivity).
    rewrite forallb_forall in F. specialize (F _ Hx). intro M. apply inb_In in M. rewrite M in F. discriminate. }
  rewrite (B x Nm Ng) in Ld.
  destruct (masks_at cell_lists d3 d5 x a H6 cell_lists_NoDup (fun _ H => H) Hx Ld) as [m [M At]].
  destruct (mask_of_inv _ _ _ K M) as [nI [nJ [cs [O1 [O2 [C [Sh Ent]]]]]]].
  unfold cells_of in C. rewrite S in C. inversion C; subst cs.
  exists m, nI, nJ. rewrite D1. subst d. rewrite grand_frame.
  2:{ assert (F : forallb (fun y => negb (String.eqb (mask_name y) "grand_total")) cell_lists = true) by (vm_compute; reflexivity).
      rewrite forallb_forall in F. specialize (F _ Hx). intro Z0. rewrite Z0 in F. discriminate. }
  repeat split; auto. intros i j Hi Hj. rewrite (Ent i j Hi Hj).
  match goal with |- context[if ?b then _ else _] => destruct b eqn:Q0 end.
  - left. split; [reflexivity|]. apply existsb_exists in Q0. destruct Q0 as [[p q] [Hin Q0]]. cbn [fst snd] in Q0.
    destruct (np_index nI p) as [a0|] eqn:P1; [|discriminate].
    destruct (np_index nJ q) as [b0|] eqn:P2; [|discriminate].
    apply andb_true_iff in Q0. destruct Q0 as [B1 B2]. apply Nat.eqb_eq in B1, B2. subst a0 b0.
    destruct (pairs_nonneg _ _ (le_n _) Pos p q Hin) as [N1 N2].
    rewrite (np_index_nonneg _ _ _ N1 P1), (np_index_nonneg _ _ _ N2 P2). exact Hin.
  - right. split; [reflexivity|]. intro Hin. rewrite <- not_true_iff_false in Q0. apply Q0.
    apply existsb_exists. exists (Z.of_nat i, Z.of_nat j). split; [exact Hin|]. cbn [fst snd].
    assert (N : forall n k, k < n -> np_index n (Z.of_nat k) = Ok k).
    { intros n0 k Hk. apply np_index_ok. unfold names_position. lia. }
    rewrite (N _ _ Hi), (N _ _ Hj), !Nat.eqb_refl. reflexivity.
Qed.
Print Assumptions C131_masks_partial.

(** Without a test list (not configured, or its file missing) every cell of the
    table is a test cell. *)
Theorem C131_default_test_cells_partial : forall c d,
  read_data c = Ok d -> no_masks c -> std_order c ->
  aget "test_cells" (c_entries c) = None \/ aget "test_cells" (c_entries c) = Some None ->
  exists m nI nJ, aget "test_cells_mask" d = Some (VArr m) /\
    aget "origin" (dims_of d) = Some (Some nI) /\ aget "destination" (dims_of d) = Some (Some nJ) /\
    a_shape m = [nI; nJ] /\
    forall i j, i < nI -> j < nJ -> nth (i * nJ + j) (a_vals m) 0%Q = 1%Q.
Proof.
  intros c d H NM SO E.
  destruct (read_stages _ _ H) as [d1 [d2 [d3 [d5 [H1 [H2 [H3 [H4 [H5 [H6 H7]]]]]]]]]].
  assert (K1 : map fst (dims_of d1) = std_keys).
  { revert H1. apply (foldM_inv _ _ (fun z => map fst (dims_of z) = std_keys)).
    - intros z b y Hb Hz L. eapply load_keys; eauto.
    - unfold std_order in SO. cbn. destruct (c_dims c); [exact SO|reflexivity]. }
  assert (HI : In ("test_cells", cells_sch) input_schema).
  { unfold input_schema, validation_schema. apply in_or_app. right. apply in_or_app. left.
    apply in_flat_map. exists "test_cells". split; now left. }
  assert (E32 : dims_of d3 = dims_of d2)
    by (unfold dims_of; rewrite (margins_frame _ _ _ _ H3); [reflexivity|discriminate]).
  assert (E21 : dims_of d2 = dims_of d1)
    by (unfold dims_of; rewrite (init_frame _ _ _ H2); [reflexivity|discriminate]).
  (* the stored test cells enumerate a table of the final size *)
  assert (TC : exists a, aget "test_cells" d3 = Some (VArr a) /\ all_cells_arr (dims_of d1) = Ok a).
  { rewrite (margins_frame _ _ _ _ H3) by discriminate. unfold init_test_cells in H2.
    destruct E as [E|E].
    - rewrite (load_loop_absent _ _ _ _ _ H1 E) in H2 by discriminate. cbn [aget String.eqb Ascii.eqb Bool.eqb] in H2.
      destruct (all_cells_arr (dims_of d1)) as [a|] eqn:Ac; cbn [rbind] in H2; [|discriminate].
      inversion H2; subst. exists a. split; [apply aget_aset_same|reflexivity].
    - assert (Sp : input_schema = train_schema ++ ("test_cells", cells_sch) :: tl validation_schema ++ plot_schema)
        by (vm_compute; reflexivity).
      rewrite Sp, foldM_app in H1. apply rbind_Ok_inv in H1. destruct H1 as [dt [Lt H1]].
      cbn [foldM] in H1. apply rbind_Ok_inv in H1. destruct H1 as [du [Lu H1]].
      unfold load_one, cells_sch in Lu. rewrite E in Lu.
      change (mem "test_cells" validation_schema) with true in Lu. cbn [String.eqb Ascii.eqb Bool.eqb] in Lu.
      apply rbind_Ok_inv in Lu. destruct Lu as [a [Ac Lu]]. inversion Lu; subst du.
      assert (T1 : aget "test_cells" d1 = Some (VArr a)).
      { rewrite (load_loop_frame _ _ _ _ "test_cells" H1); [apply aget_aset_same| |discriminate].
        intro B. apply inb_In in B. vm_compute in B. discriminate. }
      rewrite T1 in H2. inversion H2; subst d2. exists a. split; [exact T1|].
      (* later iterations read no array with axes: no mask is configured *)
      rewrite <- Ac. f_equal.
      assert (Dd : dims_of d1 = dims_of (aset "test_cells" (VArr a) dt)).
      { revert H1. apply (foldM_inv _ _ (fun z => dims_of z = dims_of (aset "test_cells" (VArr a) dt))); [|reflexivity].
        intros z [y os] w Hb Hz L. rewrite <- Hz. clear Hz. unfold load_one in L.
        destruct os as [s|]; [|inversion L; now subst].
        destruct (aget y (c_entries c)) as [[b|]|] eqn:Ey; [| |inversion L; now subst].
        - destruct (s_ndmin s); [|discriminate]. destruct (_ && _) in L; [discriminate|].
          assert (Ax : s_axes s = []).
          { assert (F : forallb (fun e : string * option sch => inb (fst e) masks ||
                match snd e with Some s => match s_axes s with [] => true | _ => false end | None => true end)
                (tl validation_schema ++ plot_schema) = true) by (vm_compute; reflexivity).
            rewrite forallb_forall in F. specialize (F _ Hb). cbn [fst snd] in F.
            apply orb_true_iff in F. destruct F as [F|F].
            - apply inb_In in F. rewrite (NM y F) in Ey. discriminate.
            - now destruct (s_axes s). }
          rewrite Ax in L. cbn [combine update_dims rbind] in L. inversion L; subst w. rewrite aset_dims_of. reflexivity.
        - destruct (mem y validation_schema) eqn:M; [|discriminate].
          assert (Ny : y <> "dims") by (intro; subst; vm_compute in M; discriminate).
          destruct (String.eqb y "test_cells").
          + apply rbind_Ok_inv in L. destruct L as [b [_ L]]. inversion L; subst. now rewrite other_dims_of.
          + inversion L; subst. now rewrite other_dims_of. }
      rewrite Dd. now rewrite other_dims_of. }
  destruct TC as [a [T3 Ac]].
  destruct (masks_at cell_lists d3 d5 "test_cells" a H6 cell_lists_NoDup (fun _ H => H) (or_introl eq_refl) T3)
    as [m [M At]].
  rewrite E32, E21 in M.
  destruct (mask_of_inv _ _ _ K1 M) as [nI [nJ [cs [O1 [O2 [C [Sh Ent]]]]]]].
  assert (DD : dims_of d = dims_of d1).
  { destruct (read_frame _ _ H) as [? [? [? [H1' [_ [_ [_ [_ [_ [Q1 Q2]]]]]]]]]].
    rewrite Q1, Q2. rewrite H1 in H1'. inversion H1'. reflexivity. }
  exists m, nI, nJ. rewrite DD. subst d. rewrite grand_frame by discriminate.
  repeat split; auto. intros i j Hi Hj. rewrite (Ent i j Hi Hj).
  assert (Hin : In (Z.of_nat i, Z.of_nat j) cs).
  { unfold all_cells_arr, dim_of in Ac. rewrite O1 in Ac. cbn [rbind] in Ac.
    destruct nI as [|nI]; [lia|]. rewrite O2 in Ac. cbn [rbind] in Ac. inversion Ac; subst a.
    destruct nJ as [|nJ]; [lia|]. unfold cells_of in C. cbn [a_shape] in C. inversion C; subst cs.
    apply (proj2 (pairs_all_cells (S nI) (S nJ)) i j Hi Hj). }
  match goal with |- (if ?b then _ else _) = _ => assert (B : b = true); [|now rewrite B] end.
  apply existsb_exists. exists (Z.of_nat i, Z.of_nat j). split; [exact Hin|]. cbn [fst snd].
  assert (N : forall n k, k < n -> np_index n (Z.of_nat k) = Ok k).
  { intros n0 k Hk. apply np_index_ok. unfold names_position. lia. }
  rewrite (N _ _ Hi), (N _ _ Hj), !Nat.eqb_refl. reflexivity.
Qed.
Print Assumptions C131_default_test_cells_partial.

(** False of the code when the configuration lists the destination first: the
    same files are then rejected, because masks are made destination by origin. *)
Definition ex_swapped : cfg := mkcfg (c_entries ex_cfg)
  (Some [("destination", None); ("origin", None); ("time", None)]) None None.
Theorem C131_dims_order_refuted :
  exists e, read_data ex_swapped = Raise e /\
  exists d, read_data (mkcfg (c_entries ex_swapped) None (c_margins ex_swapped) (c_cells ex_swapped)) = Ok d.
Proof. eexists. split; [vm_compute; reflexivity|]. eexists. vm_compute. reflexivity. Qed.
Print Assumptions C131_dims_order_refuted.

Example C131_nonvacuous : exists d m t, read_data ex_cfg = Ok d /\ no_masks ex_cfg /\ std_order ex_cfg /\
  aget "train_cells_mask" d = Some (VArr m) /\ a_shape m = [2; 3] /\ a_vals m = [0; 1; 0; 0; 0; 1]%Q /\
  aget "test_cells_mask" d = Some (VArr t) /\ a_vals t = [1; 1; 1; 1; 1; 1]%Q /\
  option_map (fun v => match v with VArr a => a_vals a | _ => [] end) (aget "validation_cells_mask" d)
    = Some [0; 0; 0; 0; 0; 0]%Q.
Proof.
  eexists _, _, _. split; [vm_compute; reflexivity|]. split; [apply (r_masks _ _ _ _ ex_readable)|].
  split; [exact I|]. repeat split; reflexivity.
Qed.

(** * C132: margins and single cells *)

(** The last value given for an axis, the meaning of a list of settings. *)
Fixpoint last_value (ax : list Z) (l : list margin_entry) : option (list Q) :=
  match l with
  | [] => None
  | e :: r => match last_value ax r with
              | Some v => Some v
              | None => if zlist_eqb ax (me_axis e) then me_value e else None
              end
  end.

Lemma zlist_eqb_eq : forall a b, zlist_eqb a b = true <-> a = b.
Proof.
  induction a as [|x a IH]; intros [|y b]; cbn; split; intro H; try discriminate; try reflexivity.
  - apply andb_true_iff in H. destruct H as [H1 H2]. apply Z.eqb_eq in H1. apply IH in H2. congruence.
  - inversion H; subst. rewrite Z.eqb_refl. cbn. now apply IH.
Qed.
Lemma mget_mset : forall k k' v m, mget k (mset k' v m) = if zlist_eqb k k' then Some v else mget k m.
Proof.
  intros k k' v m. induction m as [|[q w] m IH]; cbn.
  - reflexivity.
  - destruct (zlist_eqb k' q) eqn:E; cbn.
    + apply zlist_eqb_eq in E. subst q. now destruct (zlist_eqb k k').
    + destruct (zlist_eqb k q) eqn:E2; [|exact IH].
      apply zlist_eqb_eq in E2. subst q. destruct (zlist_eqb k k') eqn:E3; [|reflexivity].
      apply zlist_eqb_eq in E3. subst. rewrite (proj2 (zlist_eqb_eq k' k') eq_refl) in E. discriminate.
Qed.

Lemma import_margin_fold : forall l m m', foldM import_margin l m = Ok m' -> forall ax,
  mget ax m' = match last_value ax l with
               | Some v => Some (mkarr Np TFloat [List.length v] v)
               | None => mget ax m
               end.
Proof.
  induction l as [|e l IH]; intros m m' H ax; cbn [foldM] in H; [now inversion H|].
  apply rbind_Ok_inv in H. destruct H as [m1 [E H]]. rewrite (IH _ _ H ax). cbn [last_value].
  destruct (last_value ax l); [reflexivity|].
  unfold import_margin in E. destruct (me_file e); [discriminate|].
  destruct (me_value e) as [v|]; [|discriminate]. inversion E; subst m1. rewrite mget_mset.
  now destruct (zlist_eqb ax (me_axis e)).
Qed.

(** A successful read with margins holds, for every axis, the value configured
    last for that axis, and nothing else. *)
Theorem C132_margins_kept : forall c d l, read_data c = Ok d -> c_margins c = Some l ->
  exists m, aget "margins" d = Some (VMargins m) /\
    forall ax, option_map a_vals (mget ax m) = last_value ax l.
Proof.
  intros c d l H E.
  destruct (read_stages _ _ H) as [d1 [d2 [d3 [d5 [H1 [H2 [H3 [H4 [H5 [H6 H7]]]]]]]]]].
  unfold import_margins in H3. rewrite E in H3. apply rbind_Ok_inv in H3. destruct H3 as [m [F H3]].
  inversion H3; subst d3. exists m. split.
  - subst d. rewrite grand_frame by discriminate. rewrite (masks_frame _ _ _ H6); [apply aget_aset_same|].
    intro M. apply inb_In in M. vm_compute in M. discriminate.
  - intro ax. rewrite (import_margin_fold _ _ _ F ax). now destruct (last_value ax l).
Qed.
Print Assumptions C132_margins_kept.

(** A margin with neither a file nor a value stops the read. *)
Theorem C132_margin_missing : forall c l e, c_margins c = Some l -> In e l ->
  me_file e = None -> me_value e = None -> exists x, read_data c = Raise x.
Proof.
  intros c l e E HI F V. destruct (read_data c) as [d|x] eqn:H; [exfalso|eauto].
  destruct (read_stages _ _ H) as [d1 [d2 [d3 [d5 [_ [_ [H3 _]]]]]]].
  unfold import_margins in H3. rewrite E in H3. apply rbind_Ok_inv in H3. destruct H3 as [m [G _]].
  destruct (foldM_step _ _ _ _ _ _ _ HI G) as [a [b S]]. unfold import_margin in S. rewrite F, V in S. discriminate.
Qed.
Print Assumptions C132_margin_missing.

(** False of the code: a margin stored in a file that exists can never be read. *)
Theorem C132_margin_file_refuted : forall c l e v, c_margins c = Some l -> In e l ->
  me_file e = Some v -> exists x, read_data c = Raise x.
Proof.
  intros c l e v E HI F. destruct (read_data c) as [d|x] eqn:H; [exfalso|eauto].
  destruct (read_stages _ _ H) as [d1 [d2 [d3 [d5 [_ [_ [H3 _]]]]]]].
  unfold import_margins in H3. rewrite E in H3. apply rbind_Ok_inv in H3. destruct H3 as [m [G _]].
  destruct (foldM_step _ _ _ _ _ _ _ HI G) as [a [b S]]. unfold import_margin in S. rewrite F in S. discriminate.
Qed.
Print Assumptions C132_margin_file_refuted.

(** False of the code: configured single cells are never imported.  With a
    ground truth table, or when the path is not found, the setting changes
    nothing; when it is found, the read stops. *)
Theorem C132_cells_subset_refuted : forall c,
  (forall d, read_data c = Ok d ->
     read_data (mkcfg (c_entries c) (c_dims c) (c_margins c) None) = Ok d) /\
  (c_cells c = Some true -> aget "ground_truth_table" (c_entries c) = None ->
     exists x, read_data c = Raise x).
Proof.
  intros c. split.
  - intros d H. destruct (read_stages _ _ H) as [d1 [d2 [d3 [d5 [H1 [H2 [H3 [H4 [H5 [H6 H7]]]]]]]]]].
    unfold read_data. cbv zeta. cbn [c_dims].
    assert (L : forall l z, foldM (load_one (mkcfg (c_entries c) (c_dims c) (c_margins c) None)) l z = foldM (load_one c) l z).
    { induction l as [|[x s] l IH]; intro z; [reflexivity|]. cbn [foldM].
      change (load_one (mkcfg (c_entries c) (c_dims c) (c_margins c) None) z (x, s)) with (load_one c z (x, s)).
      destruct (load_one c z (x, s)); cbn [rbind]; [apply IH|reflexivity]. }
    rewrite L, H1. cbn [rbind]. rewrite H2. cbn [rbind].
    change (import_margins (mkcfg (c_entries c) (c_dims c) (c_margins c) None) d2) with (import_margins c d2).
    rewrite H3. cbn [rbind]. unfold import_cells_subset. cbn [c_cells]. cbn [rbind].
    rewrite H5. cbn [rbind]. rewrite H6. cbn [rbind]. now subst.
  - intros E N. destruct (read_data c) as [d|x] eqn:H; [exfalso|eauto].
    destruct (read_stages _ _ H) as [d1 [d2 [d3 [d5 [H1 [H2 [H3 [H4 _]]]]]]]].
    unfold import_cells_subset in H4. rewrite E in H4.
    rewrite (margins_frame _ _ _ _ H3), (init_frame _ _ _ H2) in H4 by discriminate.
    rewrite (load_loop_absent _ _ _ _ _ H1 N) in H4 by discriminate. cbn in H4. discriminate.
Qed.
Print Assumptions C132_cells_subset_refuted.

Example C132_nonvacuous : exists d m,
  read_data (mkcfg (c_entries ex_cfg) None
     (Some [mkme [0%Z] None (Some [1; 1]%Q); mkme [1%Z] None (Some [5; 2; 3]%Q); mkme [0%Z] None (Some [6; 4]%Q)])
     (Some true)) = Ok d /\
  aget "margins" d = Some (VMargins m) /\ option_map a_vals (mget [0%Z] m) = Some [6; 4]%Q /\
  option_map a_vals (mget [1%Z] m) = Some [5; 2; 3]%Q /\ mget [0; 1]%Z m = None.
Proof. eexists _, _. split; [vm_compute; reflexivity|]. split; [reflexivity|]. repeat split. Qed.

(** * C133: copies *)

Lemma aget_adel : forall V k q (l : list (string * V)),
  aget q (adel k l) = if String.eqb k q then None else aget q l.
Proof.
  intros V k q l. unfold adel. induction l as [|[z w] l IH]; cbn [filter aget fst]; [now destruct (String.eqb k q)|].
  destruct (String.eqb_spec k z) as [->|N]; cbn [negb aget].
  - rewrite IH. rewrite (String.eqb_sym q z). now destruct (String.eqb z q).
  - rewrite IH. destruct (String.eqb_spec q z) as [->|M]; [|reflexivity].
    destruct (String.eqb_spec k z); [contradiction|reflexivity].
Qed.
Lemma memb_In : forall k l, memb k l = true <-> In k l.
Proof. exact inb_In. Qed.

Lemma copy_fold : forall keep q ks (d : data),
  aget q (fold_left (fun acc k => if memb k keep then acc else adel k acc) ks d) =
  if inb q ks && negb (memb q keep) then None else aget q d.
Proof.
  intros keep q ks. induction ks as [|k ks IH]; intro d; cbn [fold_left]; [reflexivity|].
  rewrite IH. rewrite inb_cons. destruct (String.eqb_spec q k) as [->|N]; cbn [orb].
  - destruct (memb k keep); cbn [negb andb]; [now rewrite andb_false_r|].
    rewrite aget_adel, String.eqb_refl. now destruct (inb k ks).
  - destruct (memb k keep); [reflexivity|]. rewrite aget_adel.
    destruct (String.eqb_spec k q); [congruence|reflexivity].
Qed.

Lemma mem_keys : forall V k (l : list (string * V)), mem k l = true <-> In k (map fst l).
Proof.
  intros V k l. unfold mem. destruct (aget k l) as [v|] eqn:E.
  - split; [|reflexivity]. intros _. apply in_map_iff. exists (k, v). split; [reflexivity|now apply aget_In].
  - split; [discriminate|]. intro H. apply aget_None in E. contradiction.
Qed.

(** A copy has the requested input datasets (all of them when none is named)
    and everything that is not an input dataset, each unchanged. *)
Theorem C133_copy : forall d sel x,
  aget x (copy d sel) =
  if mem x input_schema && negb (match sel with [] => true | _ => false end) && negb (memb x sel)
  then None else aget x d.
Proof.
  intros d sel0 x. unfold copy. cbv zeta. rewrite copy_fold.
  assert (V : inb x (map fst (data_vars d)) = mem x input_schema && mem x d).
  { unfold data_vars. apply eq_true_iff_eq. rewrite inb_In, andb_true_iff, (mem_keys _ x d), in_map_iff. split.
    - intros [[k v] [E H]]. cbn in E. subst k. apply filter_In in H. cbn in H. split; [tauto|].
      apply in_map_iff. exists (x, v). tauto.
    - intros [M H]. apply in_map_iff in H. destruct H as [[k v] [E H]]. cbn in E. subst k.
      exists (x, v). split; [reflexivity|]. apply filter_In. auto. }
  rewrite V.
  assert (Int : memb x (filter (fun k => mem k d) (map fst input_schema)) = mem x input_schema && mem x d).
  { apply eq_true_iff_eq. rewrite memb_In, filter_In, andb_true_iff, (mem_keys _ x input_schema). tauto. }
  assert (Abs : mem x d = false -> aget x d = None) by (unfold mem; destruct (aget x d); [discriminate|reflexivity]).
  destruct sel0 as [|s0 sel0].
  - rewrite Int. cbn [negb]. rewrite andb_false_r. cbn [andb].
    destruct (mem x input_schema), (mem x d) eqn:D; cbn [andb negb]; try reflexivity.
  - set (sl := s0 :: sel0). cbn [negb]. rewrite andb_true_r.
    assert (K : memb x (filter (fun k => memb k (filter (fun k0 => mem k0 d) (map fst input_schema))) sl) =
                memb x sl && (mem x input_schema && mem x d)).
    { rewrite <- Int. apply eq_true_iff_eq. rewrite andb_true_iff, !memb_In, filter_In, !memb_In. tauto. }
    rewrite K. destruct (mem x input_schema), (memb x sl), (mem x d) eqn:D; cbn [andb negb]; try reflexivity; now apply Abs.
Qed.
Print Assumptions C133_copy.

Example C133_nonvacuous : exists d, read_data ex_cfg = Ok d /\
  map fst (copy d ["dims"; "ground_truth_table"]) = ["dims"; "ground_truth_table"] /\
  copy d [] = d /\ aget "cost_matrix" d <> None.
Proof. eexists. split; [vm_compute; reflexivity|]. repeat split; try reflexivity. discriminate. Qed.
