(** Properties C01-C05 and C09: constraints, residual margins, admissibility. *)
From Coq Require Import List ZArith Lia Bool Arith.
From Verif Require Import Base Axes Tables.
Import ListNotations.
Open Scope Z_scope.

(** ---- C01 ---------------------------------------------------------- *)

Theorem C01_admissible_iff : forall (c : ct) (t : table),
  (forall a, length (ct_margins c a) = axis_len (ct_shape c) a) ->
  (table_admissible c t = true <->
   (In A1 (ct_caxes c) -> forall i, (i < nI (ct_shape c))%nat ->
      zsum (nJ (ct_shape c)) (fun j => t i j) = nth i (ct_margins c A1) 0) /\
   (In A0 (ct_caxes c) -> forall j, (j < nJ (ct_shape c))%nat ->
      zsum (nI (ct_shape c)) (fun i => t i j) = nth j (ct_margins c A0) 0) /\
   (In A01 (ct_caxes c) ->
      zsum (nI (ct_shape c)) (fun i => zsum (nJ (ct_shape c)) (fun j => t i j))
      = nth 0 (ct_margins c A01) 0) /\
   (forall i j, In (i, j) (ct_fixed c) -> t i j = ct_truth c i j)).
Proof.
  intros c t W; unfold table_admissible.
  rewrite andb_true_iff, table_margins_admissible_iff, table_cells_admissible_iff by exact W.
  split.
  - intros [HM HC].
    split; [|split; [|split; [|exact HC]]]; intros Ha.
    + specialize (HM A1 Ha). rewrite axis_margin_eq_iff in HM by apply W. exact HM.
    + specialize (HM A0 Ha). rewrite axis_margin_eq_iff in HM by apply W. exact HM.
    + specialize (HM A01 Ha). rewrite axis_margin_eq_iff in HM by apply W. exact HM.
  - intros [H1 [H0 [H01 HC]]]; split; [|exact HC].
    intros a Ha; rewrite axis_margin_eq_iff by apply W; destruct a;
      [exact (H0 Ha)|exact (H01 Ha)|exact (H1 Ha)].
Qed.
Print Assumptions C01_admissible_iff.

(** A 2x3 table with both margins constrained and one fixed cell. *)
Definition ex_table : table := fun i j => Z.of_nat (i + 2 * j + 1).
Definition ex_margins : margins := fun a =>
  match a with A1 => [9; 12] | A0 => [3; 7; 11] | A01 => [21] end.
Definition ex_ct : ct :=
  CT (Shape 2 3) ex_table ex_margins ex_margins [A0; A01; A1] [(0, 1)%nat] (all_cells (Shape 2 3)).

Example C01_nonvacuous :
  (forall a, length (ct_margins ex_ct a) = axis_len (ct_shape ex_ct) a) /\
  table_admissible ex_ct ex_table = true /\
  table_admissible ex_ct (fun i j => ex_table i j + 1) = false.
Proof. split; [intros []; reflexivity|split; reflexivity]. Qed.

(** ---- C02 ---------------------------------------------------------- *)

Theorem C02_closure_exact : forall (d : nat) (axes : list (list nat)) (x : list nat),
  (forall a, In a axes -> a <> [] /\ sorted_lt a = true /\ forall k, In k a -> (k < d)%nat) ->
  (In x (infer_derivative_margin_axes d axes) <->
   (x <> [] /\ sorted_lt x = true /\ forall k, In k x -> (k < d)%nat) /\
   exists a, In a axes /\ incl a x).
Proof.
  intros d axes x HP.
  assert (HP' : forall c, In c axes -> In c (powerset d)) by (intros c Hc; apply powerset_iff; auto).
  rewrite infer_closure, powerset_iff by exact HP'. reflexivity.
Qed.
Print Assumptions C02_closure_exact.

Theorem C02_closure_idempotent : forall (d : nat) (axes : list (list nat)) (x : list nat),
  (forall a, In a axes -> a <> [] /\ sorted_lt a = true /\ forall k, In k a -> (k < d)%nat) ->
  (In x (infer_derivative_margin_axes d (infer_derivative_margin_axes d axes))
   <-> In x (infer_derivative_margin_axes d axes)).
Proof.
  intros d axes x HP.
  assert (HP1 : forall c, In c axes -> In c (powerset d)) by (intros c Hc; apply powerset_iff; auto).
  assert (HP2 : forall c, In c (infer_derivative_margin_axes d axes) -> In c (powerset d)).
  { intros c Hc; apply infer_closure in Hc as [Hc _]; auto. }
  rewrite infer_closure by exact HP2. rewrite infer_closure by exact HP1. split.
  - intros [H1 [c [H2 H3]]]. rewrite infer_closure in H2 by exact HP1.
    destruct H2 as [_ [e [H4 H5]]]. split; [exact H1|exists e; split; [exact H4|]].
    intros y Hy; auto.
  - intros [H1 [c [H2 H3]]]. split; [exact H1|]. exists c; split; [|exact H3].
    apply infer_closure; [exact HP1|]. split; [auto|exists c; split; [exact H2|apply incl_refl]].
Qed.
Print Assumptions C02_closure_idempotent.

Lemma ax_tuple_inj : forall a b, ax_tuple a = ax_tuple b -> a = b.
Proof. intros [] []; cbn; congruence. Qed.

Lemma ax_tuple_wf : forall a, ax_tuple a <> [] /\ sorted_lt (ax_tuple a) = true /\
  forall k, In k (ax_tuple a) -> (k < 2)%nat.
Proof. intros []; cbn; repeat split; try congruence; intros k; intuition lia. Qed.

Lemma constrained_axes_2d_in : forall axes a,
  In a (constrained_axes_2d axes) <-> exists b, In b axes /\ incl (ax_tuple b) (ax_tuple a).
Proof.
  intros axes a; unfold constrained_axes_2d; rewrite filter_In, axis_in_spec.
  rewrite infer_closure.
  - split.
    + intros [_ [_ [c [Hc Hi]]]]. apply in_map_iff in Hc as [b [<- Hb]]. exists b; auto.
    + intros [b [Hb Hi]]. split; [destruct a; cbn; auto|].
      split; [apply powerset_iff, ax_tuple_wf|].
      exists (ax_tuple b); split; [apply in_map; exact Hb|exact Hi].
  - intros c Hc; apply in_map_iff in Hc as [b [<- _]]. apply powerset_iff, ax_tuple_wf.
Qed.

(** For two-way tables: the closure keeps what was asked for, and adds only the
    grand total, exactly when rows or columns are constrained. *)
Theorem C02_two_way_closure : forall (axes : list ax),
  (In A0 (constrained_axes_2d axes) <-> In A0 axes) /\
  (In A1 (constrained_axes_2d axes) <-> In A1 axes) /\
  (In A01 (constrained_axes_2d axes) <-> In A01 axes \/ In A0 axes \/ In A1 axes).
Proof.
  intros axes; rewrite !constrained_axes_2d_in; repeat split.
  - intros [[] [Hb Hi]]; cbn in Hi; auto.
    + specialize (Hi 1%nat (or_intror (or_introl eq_refl))); cbn in Hi; intuition lia.
    + specialize (Hi 1%nat (or_introl eq_refl)); cbn in Hi; intuition lia.
  - intros H; exists A0; split; [exact H|apply incl_refl].
  - intros [[] [Hb Hi]]; cbn in Hi; auto.
    + specialize (Hi 0%nat (or_introl eq_refl)); cbn in Hi; intuition lia.
    + specialize (Hi 0%nat (or_introl eq_refl)); cbn in Hi; intuition lia.
  - intros H; exists A1; split; [exact H|apply incl_refl].
  - intros [[] [Hb Hi]]; auto.
  - intros [H|[H|H]]; eexists; (split; [exact H|]); intros k; cbn; tauto.
Qed.
Print Assumptions C02_two_way_closure.

Example C02_nonvacuous :
  infer_derivative_margin_axes 3 [[0%nat]] = [[0]; [0; 1]; [0; 2]; [0; 1; 2]]%nat /\
  constrained_axes_2d [A1] = [A01; A1].
Proof. split; reflexivity. Qed.

(** ---- C03 ---------------------------------------------------------- *)

Lemma constrained_axes_2d_eq : forall axes,
  constrained_axes_2d axes =
  (if ax_in A0 axes then [A0] else []) ++
  (if ax_in A01 axes || ax_in A0 axes || ax_in A1 axes then [A01] else []) ++
  (if ax_in A1 axes then [A1] else []).
Proof.
  intros axes.
  destruct (C02_two_way_closure axes) as [H0 [H1 H01]].
  unfold constrained_axes_2d, all_axes in *. cbn [filter] in *.
  assert (B : forall a, axis_in (ax_tuple a) (infer_derivative_margin_axes 2 (map ax_tuple axes)) = true
      <-> In a (constrained_axes_2d axes)).
  { intros a; unfold constrained_axes_2d; rewrite filter_In. split; [|tauto].
    intros; split; [destruct a; cbn; auto|assumption]. }
  assert (E0 : axis_in (ax_tuple A0) (infer_derivative_margin_axes 2 (map ax_tuple axes)) = ax_in A0 axes).
  { apply eq_true_iff_eq. rewrite B, ax_in_spec. apply C02_two_way_closure. }
  assert (E1 : axis_in (ax_tuple A1) (infer_derivative_margin_axes 2 (map ax_tuple axes)) = ax_in A1 axes).
  { apply eq_true_iff_eq. rewrite B, ax_in_spec. apply C02_two_way_closure. }
  assert (E01 : axis_in (ax_tuple A01) (infer_derivative_margin_axes 2 (map ax_tuple axes))
     = ax_in A01 axes || ax_in A0 axes || ax_in A1 axes).
  { apply eq_true_iff_eq. rewrite B, !orb_true_iff, !ax_in_spec.
    rewrite (proj2 (proj2 (C02_two_way_closure axes))). tauto. }
  rewrite E0, E1, E01.
  destruct (ax_in A0 axes), (ax_in A01 axes), (ax_in A1 axes); reflexivity.
Qed.

Theorem C03_distribution_name : forall (axes : list ax),
  let name := map_constraints_to_distribution_name (map ax_tuple (constrained_axes_2d axes)) in
  (axes = [] -> name = Ok Poisson) /\
  (In A01 axes -> ~ In A0 axes -> ~ In A1 axes -> name = Ok Multinomial) /\
  (In A0 axes -> ~ In A1 axes -> name = Ok ProductMultinomial) /\
  (In A1 axes -> ~ In A0 axes -> name = Ok ProductMultinomial) /\
  (In A0 axes -> In A1 axes -> name = Ok FishersHypergeometric).
Proof.
  intros axes name; subst name; rewrite constrained_axes_2d_eq.
  assert (T : forall a, In a axes -> ax_in a axes = true) by (intros; apply ax_in_spec; assumption).
  assert (F : forall a, ~ In a axes -> ax_in a axes = false).
  { intros a Ha; destruct (ax_in a axes) eqn:E; [apply ax_in_spec in E; contradiction|reflexivity]. }
  split; [intros ->; reflexivity|].
  repeat split; intros;
    repeat match goal with
    | H : In ?a axes |- _ => rewrite (T a H); clear H
    | H : ~ In ?a axes |- _ => rewrite (F a H); clear H
    end; destruct (ax_in A01 axes); reflexivity.
Qed.
Print Assumptions C03_distribution_name.

(** The choice depends only on which margins are constrained. *)
Theorem C03_order_irrelevant : forall (axes axes' : list ax),
  (forall a, In a axes <-> In a axes') ->
  map_constraints_to_distribution_name (map ax_tuple (constrained_axes_2d axes)) =
  map_constraints_to_distribution_name (map ax_tuple (constrained_axes_2d axes')).
Proof.
  intros axes axes' H.
  assert (E : forall a, ax_in a axes = ax_in a axes').
  { intros a; apply eq_true_iff_eq; rewrite !ax_in_spec; apply H. }
  rewrite !constrained_axes_2d_eq, !E; reflexivity.
Qed.
Print Assumptions C03_order_irrelevant.

Theorem C03_never_fails : forall (axes : list ax),
  is_ok (map_constraints_to_distribution_name (map ax_tuple (constrained_axes_2d axes))) = true.
Proof.
  intros axes; rewrite constrained_axes_2d_eq.
  destruct (ax_in A0 axes), (ax_in A01 axes), (ax_in A1 axes); reflexivity.
Qed.
Print Assumptions C03_never_fails.

Example C03_nonvacuous :
  map_constraints_to_distribution_name (map ax_tuple (constrained_axes_2d [A1; A0; A1]))
  = Ok FishersHypergeometric.
Proof. reflexivity. Qed.

(** ---- C04 ---------------------------------------------------------- *)

Ltac build_tac Hok :=
  unfold build_ct, propagate_cell_constraints in Hok; cbn in Hok;
  match type of Hok with
  | match ?f with _ => _ end = _ =>
    destruct f as [|k l] eqn:E;
    [|unfold update_cell_constraints_deterministically in Hok;
      destruct (has_single_unknown _); [destruct (table_nonnegative _ _); discriminate|]; cbn in Hok]
  end; inversion Hok; subst; cbn.

Lemma build_shape : forall s truth m axes fixed c, build_ct s truth m axes fixed = Ok c ->
  ct_shape c = s /\ ct_truth c = truth /\ ct_margins c = m /\
  ct_caxes c = constrained_axes_2d axes /\ ct_fixed c = fixed.
Proof. intros s truth m axes fixed c Hok; build_tac Hok; auto. Qed.

Lemma build_free : forall s truth m axes fixed c, build_ct s truth m axes fixed = Ok c ->
  ct_free c = filter (fun k => negb (cell_in k fixed)) (all_cells s).
Proof.
  intros s truth m axes fixed c Hok; build_tac Hok; [|reflexivity].
  generalize (all_cells s) as q.
  induction q as [|x q IH]; cbn; [reflexivity|rewrite <- IH; reflexivity].
Qed.

Lemma build_resid : forall s truth m axes fixed c, build_ct s truth m axes fixed = Ok c ->
  ct_resid c = sub_cells all_axes truth fixed m.
Proof. intros s truth m axes fixed c Hok; build_tac Hok; reflexivity. Qed.

Theorem C04_residual_margins : forall s truth m axes fixed c,
  (forall a, length (m a) = axis_len s a) ->
  (forall k, In k fixed -> (fst k < nI s)%nat /\ (snd k < nJ s)%nat) ->
  NoDup fixed ->
  build_ct s truth m axes fixed = Ok c ->
  (forall i, (i < nI s)%nat -> nth i (ct_resid c A1) 0 =
     nth i (m A1) 0 - zsum (nJ s) (fun j => if cell_in (i, j) fixed then truth i j else 0)) /\
  (forall j, (j < nJ s)%nat -> nth j (ct_resid c A0) 0 =
     nth j (m A0) 0 - zsum (nI s) (fun i => if cell_in (i, j) fixed then truth i j else 0)) /\
  (nth 0 (ct_resid c A01) 0 =
     nth 0 (m A01) 0 - zsum (nI s) (fun i => zsum (nJ s) (fun j => if cell_in (i, j) fixed then truth i j else 0))) /\
  (forall i j, In (i, j) (ct_free c) <-> ((i < nI s)%nat /\ (j < nJ s)%nat /\ ~ In (i, j) fixed)) /\
  NoDup (ct_free c).
Proof.
  intros s truth m axes fixed c Hwf Hin Hnd Hok.
  rewrite (build_resid _ _ _ _ _ _ Hok), (build_free _ _ _ _ _ _ Hok).
  destruct (sub_cells_spec s all_axes truth fixed m Hwf Hin) as [_ [HR [HC HT]]].
  cbn [ax_in all_axes existsb ax_eqb orb] in HR, HC, HT.
  split; [|split; [|split; [|split]]].
  - intros i Hi. rewrite HR, (cells_sum_row s) by assumption. reflexivity.
  - intros j Hj. rewrite HC, (cells_sum_col s) by assumption. reflexivity.
  - rewrite HT, (cells_sum_all s) by assumption. reflexivity.
  - intros i j. rewrite filter_In, all_cells_in, negb_true_iff, cell_in_false.
    unfold in_shape; cbn; tauto.
  - apply NoDup_filter, all_cells_NoDup.
Qed.
Print Assumptions C04_residual_margins.

(** Meaning of the residuals: they are what every admissible table has left
    for its free cells. *)
Theorem C04_free_cells_sum_to_residual : forall s truth m axes fixed c t,
  (forall a, length (m a) = axis_len s a) ->
  (forall k, In k fixed -> (fst k < nI s)%nat /\ (snd k < nJ s)%nat) ->
  NoDup fixed ->
  build_ct s truth m axes fixed = Ok c ->
  table_admissible c t = true ->
  (In A1 axes -> forall i, (i < nI s)%nat ->
     zsum (nJ s) (fun j => if cell_in (i, j) (ct_free c) then t i j else 0) = nth i (ct_resid c A1) 0) /\
  (In A0 axes -> forall j, (j < nJ s)%nat ->
     zsum (nI s) (fun i => if cell_in (i, j) (ct_free c) then t i j else 0) = nth j (ct_resid c A0) 0) /\
  (In A0 axes \/ In A1 axes \/ In A01 axes ->
     zsum (nI s) (fun i => zsum (nJ s) (fun j => if cell_in (i, j) (ct_free c) then t i j else 0))
     = nth 0 (ct_resid c A01) 0).
Proof.
  intros s truth m axes fixed c t Hwf Hin Hnd Hok Hadm.
  destruct (C04_residual_margins _ _ _ _ _ _ Hwf Hin Hnd Hok) as [HR [HC [HT [HF _]]]].
  destruct (build_shape _ _ _ _ _ _ Hok) as [Es [Et [Em [Ea Ef]]]].
  apply C01_admissible_iff in Hadm; [|rewrite Em, Es; exact Hwf].
  rewrite Es, Et, Em, Ea, Ef in Hadm. destruct Hadm as [H1 [H0 [H01 Hcell]]].
  destruct (C02_two_way_closure axes) as [K0 [K1 K01]].
  assert (P : forall i j, (i < nI s)%nat -> (j < nJ s)%nat ->
     (if cell_in (i, j) (ct_free c) then t i j else 0) =
     t i j - (if cell_in (i, j) fixed then truth i j else 0)).
  { intros i j Hi Hj. destruct (cell_in (i, j) fixed) eqn:E.
    - apply cell_in_spec in E. assert (cell_in (i, j) (ct_free c) = false) as ->.
      { apply cell_in_false; rewrite HF; tauto. }
      rewrite (Hcell i j E); lia.
    - apply cell_in_false in E. assert (cell_in (i, j) (ct_free c) = true) as ->.
      { apply cell_in_spec, HF; auto. } lia. }
  split; [|split].
  - intros Ha i Hi. rewrite HR by exact Hi. rewrite <- H1 by (try apply K1; assumption).
    rewrite <- zsum_sub. apply zsum_ext; intros; apply P; assumption.
  - intros Ha j Hj. rewrite HC by exact Hj. rewrite <- H0 by (try apply K0; assumption).
    rewrite <- zsum_sub. apply zsum_ext; intros; apply P; assumption.
  - intros Ha. rewrite HT. rewrite <- H01 by (apply K01; tauto).
    rewrite <- zsum_sub. apply zsum_ext; intros i Hi.
    rewrite <- zsum_sub. apply zsum_ext; intros; apply P; assumption.
Qed.
Print Assumptions C04_free_cells_sum_to_residual.

(** The user's list of fixed cells must have no repetition: a repeated cell is
    subtracted once per repetition, although it is one cell. *)
Theorem C04_repeated_cell_refuted : exists s truth m axes fixed c,
  (forall a, m a = axis_margin s truth a) /\
  (forall k, In k fixed -> (fst k < nI s)%nat /\ (snd k < nJ s)%nat) /\
  build_ct s truth m axes fixed = Ok c /\
  nth 0 (ct_resid c A1) 0 <>
    nth 0 (m A1) 0 - zsum (nJ s) (fun j => if cell_in (0%nat, j) fixed then truth 0%nat j else 0).
Proof.
  set (s := Shape 2 3).
  exists s, ex_table, (axis_margin s ex_table), [A1], [(0, 0); (0, 0)]%nat.
  destruct (build_ct s ex_table (axis_margin s ex_table) [A1] [(0, 0); (0, 0)]%nat) as [c|e] eqn:E.
  - exists c. split; [reflexivity|]. split; [|split; [reflexivity|]].
    + intros k [<-|[<-|[]]]; cbn; lia.
    + vm_compute in E. inversion E; subst; vm_compute; discriminate.
  - vm_compute in E; discriminate.
Qed.
Print Assumptions C04_repeated_cell_refuted.

Example C04_nonvacuous : exists c,
  build_ct (Shape 2 3) ex_table ex_margins [A0; A1] [(0, 1)]%nat = Raise EType /\
  build_ct (Shape 3 3) ex_table (axis_margin (Shape 3 3) ex_table) [A0; A1] [(0, 1)]%nat = Ok c /\
  table_admissible c ex_table = true /\
  ct_resid c A1 = [6; 12; 15] /\ ct_resid c A0 = [6; 9; 18] /\ ct_resid c A01 = [33].
Proof. eexists; repeat split; vm_compute; reflexivity. Qed.

(** ---- C05 ---------------------------------------------------------- *)

(** With fixed cells, construction succeeds exactly when no constrained margin
    has exactly one unknown cell; the completion step never succeeds. *)
Theorem C05_construction_fails_on_implied_cells : forall s truth m axes fixed,
  fixed <> [] ->
  (is_ok (build_ct s truth m axes fixed) = true <->
   forall a, In a (constrained_axes_2d axes) ->
     let unknown := fun i j => if cell_in (i, j) fixed && negb (truth i j =? -1) then 0 else 1 in
     match a with
     | A1 => forall i, (i < nI s)%nat -> zsum (nJ s) (fun j => unknown i j) <> 1
     | A0 => forall j, (j < nJ s)%nat -> zsum (nI s) (fun i => unknown i j) <> 1
     | A01 => zsum (nI s) (fun i => zsum (nJ s) (fun j => unknown i j)) <> 1
     end).
Proof.
  intros s truth m axes fixed Hne.
  assert (E : is_ok (build_ct s truth m axes fixed) =
    negb (has_single_unknown (CT s truth m m (constrained_axes_2d axes) fixed (all_cells s)))).
  { unfold build_ct, propagate_cell_constraints; cbn [ct_fixed].
    destruct fixed as [|k l]; [congruence|].
    unfold update_cell_constraints_deterministically.
    destruct (has_single_unknown _); [|reflexivity].
    destruct (table_nonnegative _ _); reflexivity. }
  rewrite E, negb_true_iff. unfold has_single_unknown; cbn [ct_caxes ct_shape].
  set (u := ones _).
  assert (U : forall i j, u i j = if cell_in (i, j) fixed && negb (truth i j =? -1) then 0 else 1).
  { intros i j; subst u; unfold ones, cell_unconstrained; cbn [ct_fixed ct_truth fst snd].
    destruct (cell_in (i, j) fixed), (truth i j =? -1); reflexivity. }
  rewrite existsb_false_iff. split; intros H a Ha; specialize (H a Ha).
  - cbv zeta. rewrite existsb_false_iff in H. destruct a; cbn [axis_margin] in H.
    + intros j Hj Hs. specialize (H (col_sum s u j)).
      rewrite (zsum_ext _ _ (fun i => u i j)) in Hs by (intros; rewrite U; reflexivity).
      unfold col_sum in H. rewrite Hs in H.
      assert (1 =? 1 = false); [|discriminate]. apply H.
      apply in_map_iff; exists j; split; [unfold col_sum; exact Hs|apply in_seq; lia].
    + intros Hs. specialize (H (total s u)).
      assert (T : total s u = 1).
      { unfold total, row_sum. rewrite <- Hs at 1. apply zsum_ext; intros; apply zsum_ext; intros.
        apply U. }
      rewrite T in H. assert (1 =? 1 = false); [|discriminate]. apply H; left; reflexivity.
    + intros i Hi Hs. specialize (H (row_sum s u i)).
      rewrite (zsum_ext _ _ (fun j => u i j)) in Hs by (intros; rewrite U; reflexivity).
      unfold row_sum in H. rewrite Hs in H.
      assert (1 =? 1 = false); [|discriminate]. apply H.
      apply in_map_iff; exists i; split; [unfold row_sum; exact Hs|apply in_seq; lia].
  - cbv zeta in H. rewrite existsb_false_iff. intros n Hn. apply Z.eqb_neq. intros ->.
    destruct a; cbn [axis_margin] in Hn.
    + apply in_map_iff in Hn as [j [Hs Hj]]; apply in_seq in Hj.
      apply (H j); [lia|]. rewrite (zsum_ext _ _ (fun i => u i j)); [exact Hs|intros; symmetry; apply U].
    + destruct Hn as [Hs|[]]. apply H.
      rewrite (zsum_ext _ _ (fun i => zsum (nJ s) (fun j => u i j))); [exact Hs|].
      intros; apply zsum_ext; intros; symmetry; apply U.
    + apply in_map_iff in Hn as [i [Hs Hi]]; apply in_seq in Hi.
      apply (H i); [lia|]. rewrite (zsum_ext _ _ (fun j => u i j)); [exact Hs|intros; symmetry; apply U].
Qed.
Print Assumptions C05_construction_fails_on_implied_cells.

(** The promised completion is false of the code: fixing one cell of a 2x2
    table with both margins known makes construction raise. *)
Theorem C05_completion_refuted : exists s truth axes fixed,
  (forall i j, (i < nI s)%nat -> (j < nJ s)%nat -> 0 <= truth i j) /\
  NoDup fixed /\ (forall k, In k fixed -> in_shape s k) /\
  build_ct s truth (axis_margin s truth) axes fixed = Raise EType.
Proof.
  exists (Shape 2 2), ex_table, [A0; A1], [(0, 0)]%nat.
  split; [intros; unfold ex_table; lia|].
  split; [repeat constructor; intros []|].
  split; [intros k [<-|[]]; cbn; unfold in_shape; cbn; lia|].
  vm_compute; reflexivity.
Qed.
Print Assumptions C05_completion_refuted.

(** ---- C09 ---------------------------------------------------------- *)

Lemma axis_margin_nonneg : forall s t a x,
  (forall i j, (i < nI s)%nat -> (j < nJ s)%nat -> 0 <= t i j) ->
  In x (axis_margin s t a) -> 0 <= x.
Proof.
  intros s t a x H Hx; destruct a; cbn in Hx.
  - apply in_map_iff in Hx as [j [<- Hj]]; apply in_seq in Hj.
    apply zsum_nonneg; intros; apply H; lia.
  - destruct Hx as [<-|[]]. apply zsum_nonneg; intros i Hi; apply zsum_nonneg; intros; apply H; lia.
  - apply in_map_iff in Hx as [i [<- Hi]]; apply in_seq in Hi.
    apply zsum_nonneg; intros; apply H; lia.
Qed.

Theorem C09_update_table_margins : forall (c : ct) (t : table),
  (forall i j, (i < nI (ct_shape c))%nat -> (j < nJ (ct_shape c))%nat -> 0 <= t i j) ->
  let c' := update_table c t in
  (forall i, (i < nI (ct_shape c))%nat ->
     nth i (ct_margins c' A1) 0 = zsum (nJ (ct_shape c)) (fun j => t i j)) /\
  (forall j, (j < nJ (ct_shape c))%nat ->
     nth j (ct_margins c' A0) 0 = zsum (nI (ct_shape c)) (fun i => t i j)) /\
  ct_margins c' A01 = [zsum (nI (ct_shape c)) (fun i => zsum (nJ (ct_shape c)) (fun j => t i j))] /\
  (forall a, ct_resid c' a = ct_margins c' a) /\
  ct_caxes c' = ct_caxes c /\ ct_fixed c' = ct_fixed c /\
  table_admissible c' t = true.
Proof.
  intros c t H c'.
  assert (E : forall a, ct_margins c' a = axis_margin (ct_shape c) t a).
  { intros a; subst c'; cbn.
    assert (forallb (fun x => 0 <=? x) (axis_margin (ct_shape c) t a) = true) as ->; [|reflexivity].
    apply forallb_forall; intros x Hx; apply Z.leb_le; eapply axis_margin_nonneg; eauto. }
  assert (R : forall a, ct_resid c' a = axis_margin (ct_shape c) t a).
  { intros a; subst c'; cbn.
    assert (forallb (fun x => 0 <=? x) (axis_margin (ct_shape c) t a) = true) as ->; [|reflexivity].
    apply forallb_forall; intros x Hx; apply Z.leb_le; eapply axis_margin_nonneg; eauto. }
  repeat split.
  - intros i Hi; rewrite E; cbn; rewrite nth_map_seq by exact Hi; reflexivity.
  - intros j Hj; rewrite E; cbn; rewrite nth_map_seq by exact Hj; reflexivity.
  - rewrite E; reflexivity.
  - intros a; rewrite E, R; reflexivity.
  - assert (S : ct_shape c' = ct_shape c) by reflexivity.
    unfold table_admissible; apply andb_true_iff; split.
    + apply table_margins_admissible_iff; [intros a; rewrite E, S; apply axis_margin_length|].
      intros a _; rewrite E; reflexivity.
    + apply table_cells_admissible_iff; reflexivity.
Qed.
Print Assumptions C09_update_table_margins.

Example C09_nonvacuous : exists t,
  (forall i j, (i < 2)%nat -> (j < 3)%nat -> 0 <= t i j) /\
  table_admissible ex_ct t = false /\ table_admissible (update_table ex_ct t) t = true.
Proof.
  exists (fun i j => Z.of_nat (i * j)). split; [intros; lia|]. split; vm_compute; reflexivity.
Qed.
