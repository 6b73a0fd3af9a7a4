(** Model of gensit/contingency_table/__init__.py: two-way contingency tables,
    their margins, constraints, residual margins and admissibility tests.

    Simplifications (whole file): tables have two dimensions, both of size at
    least two (utils/misc_utils.py:369-370 counts only dimensions larger than
    one, so 1xn tables take the one-dimensional path, which is not modelled);
    torch float32/int32 tensors are exact integers (no overflow, no rounding
    above 2^24); devices, logging and dtype casts are dropped.
    A table is a function of a row and a column index; only indices below the
    shape are meaningful. *)
From Coq Require Import List ZArith Lia Bool Arith Permutation.
From Verif Require Import Base.
Import ListNotations.
Open Scope Z_scope.

Notation cell := (nat * nat)%type.
Definition table := nat -> nat -> Z.

Definition cell_eqb (a b : cell) : bool :=
  Nat.eqb (fst a) (fst b) && Nat.eqb (snd a) (snd b).

Lemma cell_eqb_spec : forall a b, cell_eqb a b = true <-> a = b.
Proof.
  intros [a1 a2] [b1 b2]; unfold cell_eqb; cbn; rewrite andb_true_iff, !Nat.eqb_eq.
  split; [intros [-> ->]; reflexivity|intros E; inversion E; auto].
Qed.

Definition cell_in (c : cell) (l : list cell) : bool := existsb (cell_eqb c) l.

Lemma cell_in_spec : forall c l, cell_in c l = true <-> In c l.
Proof.
  intros c l; unfold cell_in; rewrite existsb_exists; split.
  - intros [x [Hx E]]; apply cell_eqb_spec in E; subst; exact Hx.
  - intros H; exists c; split; [exact H|apply cell_eqb_spec; reflexivity].
Qed.

Lemma cell_in_false : forall c l, cell_in c l = false <-> ~ In c l.
Proof.
  intros c l; rewrite <- cell_in_spec; destruct (cell_in c l); split; intros; congruence.
Qed.

(** Shape of the table: [dims] of the contingency table, __init__.py:145-147. *)
Record shape := Shape { nI : nat; nJ : nat }.

(** The axes a two-way table can be summed over.  [A0] is Python's [(0,)]
    (summing rows away: one entry per column), [A1] is [(1,)] (one entry per
    row) and [A01] is [(0,1)] (grand total). *)
Inductive ax := A0 | A01 | A1.

Definition ax_eqb (a b : ax) : bool :=
  match a, b with A0, A0 | A01, A01 | A1, A1 => true | _, _ => false end.

Lemma ax_eqb_spec : forall a b, ax_eqb a b = true <-> a = b.
Proof. intros [] []; cbn; split; intros; congruence. Qed.

(** The tuple of axis numbers behind each axis. *)
Definition ax_tuple (a : ax) : list nat :=
  match a with A0 => [0%nat] | A01 => [0%nat; 1%nat] | A1 => [1%nat] end.

(** [constraints['all_axes']] = sorted powerset of {0,1}, in Python's tuple
    order (0,) < (0,1) < (1,): __init__.py:485, 495. *)
Definition all_axes : list ax := [A0; A01; A1].

(** Membership test and sorting of axes; Python sorts the set of axes:
    __init__.py:489 [sorted(list(constrained_axes))]. *)
Definition ax_in (a : ax) (l : list ax) : bool := existsb (ax_eqb a) l.

Lemma ax_in_spec : forall a l, ax_in a l = true <-> In a l.
Proof.
  intros a l; unfold ax_in; rewrite existsb_exists; split.
  - intros [x [Hx E]]; apply ax_eqb_spec in E; subst; exact Hx.
  - intros H; exists a; split; [exact H|apply ax_eqb_spec; reflexivity].
Qed.

Definition ax_sorted_set (l : list ax) : list ax := filter (fun a => ax_in a l) all_axes.

(** All cells in lexicographic (row-major) order: __init__.py:126
    [sorted(product(range(I),range(J)))]. *)
Definition all_cells (s : shape) : list cell :=
  list_prod (seq 0 (nI s)) (seq 0 (nJ s)).

Definition in_shape (s : shape) (c : cell) : Prop :=
  (fst c < nI s)%nat /\ (snd c < nJ s)%nat.

Lemma all_cells_in : forall s c, In c (all_cells s) <-> in_shape s c.
Proof.
  intros s [i j]; unfold all_cells, in_shape; rewrite in_prod_iff, !in_seq; cbn; lia.
Qed.

Lemma NoDup_map_pair : forall (i : nat) (l : list nat), NoDup l -> NoDup (map (fun y => (i, y)) l).
Proof.
  intros i l H; induction H as [|y l Hy HN IH]; cbn; constructor; auto.
  intros Hin; apply in_map_iff in Hin as [z [E Hz]]; inversion E; subst; auto.
Qed.

Lemma NoDup_app_intro : forall (A : Type) (a b : list A),
  NoDup a -> NoDup b -> (forall x, In x a -> ~ In x b) -> NoDup (a ++ b).
Proof.
  intros A a b Ha Hb Hd; induction Ha as [|x a Hx Ha IH]; cbn; [exact Hb|].
  constructor.
  - rewrite in_app_iff; intros [H|H]; [contradiction|].
    apply (Hd x); [left; reflexivity|exact H].
  - apply IH; intros y Hy; apply Hd; right; exact Hy.
Qed.

Lemma NoDup_list_prod : forall (a b : list nat), NoDup a -> NoDup b -> NoDup (list_prod a b).
Proof.
  intros a b Ha Hb; induction Ha as [|x a Hx Ha IH]; cbn; [constructor|].
  apply NoDup_app_intro.
  - apply NoDup_map_pair; exact Hb.
  - exact IH.
  - intros [u v] H1 H2. apply in_map_iff in H1 as [z [E _]]; inversion E; subst.
    apply in_prod_iff in H2 as [H2 _]; contradiction.
Qed.

Lemma all_cells_NoDup : forall s, NoDup (all_cells s).
Proof. intros s; apply NoDup_list_prod; apply seq_NoDup. Qed.

(** ------------------------------------------------------------------ *)
(** Sums of a table. *)

Definition row_sum (s : shape) (t : table) (i : nat) : Z := zsum (nJ s) (fun j => t i j).
Definition col_sum (s : shape) (t : table) (j : nat) : Z := zsum (nI s) (fun i => t i j).
Definition total (s : shape) (t : table) : Z := zsum (nI s) (fun i => row_sum s t i).

(** table_axis_margin_summary_statistic, __init__.py:175-176: [tab.sum(dim=ax)]
    flattened. *)
Definition axis_margin (s : shape) (t : table) (a : ax) : list Z :=
  match a with
  | A0 => map (col_sum s t) (seq 0 (nJ s))
  | A1 => map (row_sum s t) (seq 0 (nI s))
  | A01 => [total s t]
  end.

(** Number of entries a margin over [a] has. *)
Definition axis_len (s : shape) (a : ax) : nat :=
  match a with A0 => nJ s | A1 => nI s | A01 => 1%nat end.

Lemma axis_margin_length : forall s t a, length (axis_margin s t a) = axis_len s a.
Proof. intros s t []; cbn; rewrite ?map_length, ?seq_length; reflexivity. Qed.

(** A dictionary of margins keyed by axes. *)
Definition margins := ax -> list Z.

(** The state of a ContingencyTable object that the constraints code reads and
    writes: __init__.py:51-140.
    [ct_truth] is data.ground_truth_table, [ct_margins] is data.margins,
    [ct_resid] is residual_margins, [ct_caxes] is
    constraints['constrained_axes'] (sorted), [ct_fixed] is
    constraints['cells'] and [ct_free] is cells. *)
Record ct := CT {
  ct_shape : shape;
  ct_truth : table;
  ct_margins : margins;
  ct_resid : margins;
  ct_caxes : list ax;
  ct_fixed : list cell;
  ct_free : list cell
}.

(** table_constrained_margins_summary_statistic, __init__.py:179-189, for a
    non-empty constraint list; axes are already sorted. *)
Definition constrained_margins_stat (c : ct) (t : table) : list Z :=
  flat_map (axis_margin (ct_shape c) t) (ct_caxes c).

(** table_margins_admissible, __init__.py:211-221. *)
Definition table_margins_admissible (c : ct) (t : table) : bool :=
  match ct_caxes c with
  | [] => true
  | _ => zlist_eqb (constrained_margins_stat c t) (flat_map (ct_margins c) (ct_caxes c))
  end.

(** table_cells_admissible, __init__.py:224-225. *)
Definition table_cells_admissible (c : ct) (t : table) : bool :=
  forallb (fun k => ct_truth c (fst k) (snd k) =? t (fst k) (snd k)) (ct_fixed c).

(** table_admissible, __init__.py:228-229. *)
Definition table_admissible (c : ct) (t : table) : bool :=
  table_margins_admissible c t && table_cells_admissible c t.

(** table_nonnegative, __init__.py:238-239: not any(tab < 0). *)
Definition table_nonnegative (s : shape) (t : table) : bool :=
  negb (existsb (fun k => t (fst k) (snd k) <? 0) (all_cells s)).

(** table_positive, __init__.py:241-242. *)
Definition table_positive (s : shape) (t : table) : bool :=
  negb (existsb (fun k => t (fst k) (snd k) <=? 0) (all_cells s)).

(** table_difference_histogram, __init__.py:244-250. *)
Definition difference_histogram (s : shape) (t t0 : table) : nat * nat * nat :=
  let count p := length (filter (fun k => p (t (fst k) (snd k) - t0 (fst k) (snd k))) (all_cells s)) in
  (count (fun d => 0 <? d), count (fun d => d <? 0), count (fun d => d =? 0)).

(** read_constraints for a two-way table, __init__.py:481-490: the axes from
    the configuration, closed under derivative margins and sorted. *)
From Verif Require Import Axes.

Definition constrained_axes_2d (axes : list ax) : list ax :=
  filter (fun a => axis_in (ax_tuple a) (infer_derivative_margin_axes 2 (map ax_tuple axes))) all_axes.

(** unconstrained axes, __init__.py:491: complement of the constrained axes. *)
Definition unconstrained_axes_2d (caxes : list ax) : list ax :=
  filter (fun a => axis_in (ax_tuple a) (axes_complement 2 (map ax_tuple caxes) false)) all_axes.

(** Names of table distributions. *)
Inductive distr := Poisson | Multinomial | ProductMultinomial | FishersHypergeometric.

(** map_constraints_to_distribution_name, __init__.py:33-48; [unique_axes] is
    a set of singleton tuples. *)
Definition map_constraints_to_distribution_name (axes : list (list nat)) : res distr :=
  let uniq := nodup (list_eq_dec Nat.eq_dec) (filter (fun a => Nat.eqb (length a) 1) axes) in
  if Nat.eqb (length axes) 0 then Ok Poisson
  else if Nat.eqb (length uniq) 0 then Ok Multinomial
  else if Nat.eqb (length uniq) 1 then Ok ProductMultinomial
  else if Nat.eqb (length uniq) 2 then Ok FishersHypergeometric
  else Raise EValue.

(** constraint_table == -1, __init__.py:308-316 and 593: a cell counts as
    unconstrained when it is not fixed or when its supplied value is -1. *)
Definition cell_unconstrained (c : ct) (k : cell) : bool :=
  negb (cell_in k (ct_fixed c)) || (ct_truth c (fst k) (snd k) =? -1).

(** One inner step of update_margins_from_cells, __init__.py:571-585: subtract
    the value [v] of cell [k] from every margin over the given axes. *)
Definition sub_cell (axes : list ax) (k : cell) (v : Z) (m : margins) : margins :=
  fun a =>
    if ax_in a axes then
      match a with
      | A0 => upd_nth (snd k) (fun x => x - v) (m a)
      | A1 => upd_nth (fst k) (fun x => x - v) (m a)
      | A01 => map (fun x => x - v) (m a)
      end
    else m a.

(** update_margins_from_cells, __init__.py:568-586; an empty cell list means
    all fixed cells. *)
Definition update_margins_from_cells (c : ct) (m : margins) (axes : list ax)
    (cells : list cell) (tab : table) : margins :=
  let cells := match cells with [] => ct_fixed c | _ => cells end in
  fold_left (fun m k => sub_cell axes k (tab (fst k) (snd k)) m) cells m.

(** update_residual_margins_from_cell_constraints, __init__.py:557-566. *)
Definition update_residual_margins_from_cell_constraints (c : ct) (cells : list cell) : ct :=
  CT (ct_shape c) (ct_truth c) (ct_margins c)
     (update_margins_from_cells c (ct_resid c) all_axes cells (ct_truth c))
     (ct_caxes c) (ct_fixed c)
     (filter (fun k => negb (cell_in k cells)) (ct_free c)).

(** The while-condition of update_cell_constraints_deterministically,
    __init__.py:597: some constrained margin has exactly one unconstrained
    cell. *)
Definition ones (f : cell -> bool) : table := fun i j => if f (i, j) then 1 else 0.

Definition has_single_unknown (c : ct) : bool :=
  existsb (fun a => existsb (fun n => n =? 1)
                      (axis_margin (ct_shape c) (ones (cell_unconstrained c)) a))
          (ct_caxes c).

(** update_cell_constraints_deterministically, __init__.py:589-636.
    Inside the loop the numpy array [cell_unconstrained] is summed with the
    torch-only keyword [dim] (line 608), which numpy rejects with a TypeError
    (an Exception first when the supplied table has negative entries,
    lines 599-603).  So the loop body never completes. *)
Definition update_cell_constraints_deterministically (c : ct) : res ct :=
  if has_single_unknown c then
    if table_nonnegative (ct_shape c) (ct_truth c) then Raise EType else Raise EExn
  else Ok c.

(** propagate_cell_constraints, __init__.py:642-648. *)
Definition propagate_cell_constraints (c : ct) : res ct :=
  match ct_fixed c with
  | [] => Ok c
  | _ => rbind (update_cell_constraints_deterministically c)
           (fun c' => Ok (update_residual_margins_from_cell_constraints c' (ct_fixed c')))
  end.

(** Construction of the table object, __init__.py:95-140 restricted to the
    constraints: supplied table and margins, configured axes and train cells.
    Residual margins start as a copy of the margins. *)
Definition build_ct (s : shape) (truth : table) (m : margins) (axes : list ax)
    (fixed : list cell) : res ct :=
  propagate_cell_constraints
    (CT s truth m m (constrained_axes_2d axes) fixed (all_cells s)).

(** update_margins_from_table, __init__.py:689-699 (both dictionaries are
    written, only when the new margin has no negative entry). *)
Definition update_margins_from_table (c : ct) (t : table) : ct :=
  let upd (old : margins) : margins := fun a =>
    let m := axis_margin (ct_shape c) t a in
    if forallb (fun x => 0 <=? x) m then m else old a in
  CT (ct_shape c) (ct_truth c) (upd (ct_margins c)) (upd (ct_resid c))
     (ct_caxes c) (ct_fixed c) (ct_free c).

(** update_table, __init__.py:713-731, for a table of the right shape. *)
Definition update_table (c : ct) (t : table) : ct :=
  update_margins_from_table
    (CT (ct_shape c) t (ct_margins c) (ct_resid c) (ct_caxes c) (ct_fixed c) (ct_free c)) t.

(** ------------------------------------------------------------------ *)
(** Lemmas on sums. *)

Lemma total_cols : forall s t, total s t = zsum (nJ s) (fun j => col_sum s t j).
Proof. intros s t; unfold total, row_sum, col_sum; apply zsum_swap. Qed.

Definition margins_wf (s : shape) (m : margins) : Prop :=
  forall a, length (m a) = axis_len s a.

Lemma flat_map_margins_eq : forall s (f g : margins) l,
  (forall a, In a l -> length (f a) = axis_len s a) ->
  (forall a, In a l -> length (g a) = axis_len s a) ->
  (flat_map f l = flat_map g l <-> forall a, In a l -> f a = g a).
Proof.
  intros s f g l; induction l as [|a l IH]; intros Hf Hg; cbn.
  - split; [intros _ a []|reflexivity].
  - split.
    + intros E. apply app_inj_length in E as [E1 E2];
        [|rewrite Hf, Hg by (left; reflexivity); reflexivity].
      rewrite IH in E2 by (intros; (apply Hf || apply Hg); right; assumption).
      intros b [<-|Hb]; auto.
    + intros H. rewrite (H a) by auto.
      assert (E : flat_map f l = flat_map g l); [|rewrite E; reflexivity].
      apply IH; intros; [apply Hf|apply Hg|apply H]; right; assumption.
Qed.

Lemma table_margins_admissible_iff : forall c t, margins_wf (ct_shape c) (ct_margins c) ->
  (table_margins_admissible c t = true <->
   forall a, In a (ct_caxes c) -> axis_margin (ct_shape c) t a = ct_margins c a).
Proof.
  intros c t W; unfold table_margins_admissible, constrained_margins_stat.
  destruct (ct_caxes c) as [|a l] eqn:E.
  - split; [intros _ a []|reflexivity].
  - rewrite zlist_eqb_spec.
    apply (flat_map_margins_eq (ct_shape c)); intros; [apply axis_margin_length|apply W].
Qed.

Lemma table_cells_admissible_iff : forall c t,
  table_cells_admissible c t = true <->
  forall i j, In (i, j) (ct_fixed c) -> t i j = ct_truth c i j.
Proof.
  intros c t; unfold table_cells_admissible; rewrite forallb_forall; split.
  - intros H i j Hin; specialize (H _ Hin); cbn in H; apply Z.eqb_eq in H; lia.
  - intros H [i j] Hin; cbn; apply Z.eqb_eq; symmetry; apply H; exact Hin.
Qed.

Lemma table_nonnegative_iff : forall s t,
  table_nonnegative s t = true <->
  forall i j, (i < nI s)%nat -> (j < nJ s)%nat -> 0 <= t i j.
Proof.
  intros s t; unfold table_nonnegative; rewrite negb_true_iff, existsb_false_iff; split.
  - intros H i j Hi Hj. specialize (H (i, j)). cbn in H.
    assert (In (i, j) (all_cells s)) by (apply all_cells_in; split; assumption).
    specialize (H H0); lia.
  - intros H [i j] Hin. apply all_cells_in in Hin as [Hi Hj]. cbn in *.
    specialize (H i j Hi Hj); lia.
Qed.

Lemma axis_margin_eq_iff : forall s t m a, length (m a) = axis_len s a ->
  (axis_margin s t a = m a <->
   match a with
   | A0 => forall j, (j < nJ s)%nat -> col_sum s t j = nth j (m A0) 0
   | A1 => forall i, (i < nI s)%nat -> row_sum s t i = nth i (m A1) 0
   | A01 => total s t = nth 0 (m A01) 0
   end).
Proof.
  intros s t m a L; destruct a; cbn in *.
  - split; intros H.
    + intros j Hj. rewrite <- H, nth_map_seq by exact Hj; reflexivity.
    + apply nth_ext_Z; rewrite map_length, seq_length; [auto|].
      intros n Hn; rewrite nth_map_seq by exact Hn; apply H; exact Hn.
  - split; intros H.
    + rewrite <- H; reflexivity.
    + destruct (m A01) as [|x [|y l]]; cbn in *; try discriminate. rewrite H; reflexivity.
  - split; intros H.
    + intros j Hj. rewrite <- H, nth_map_seq by exact Hj; reflexivity.
    + apply nth_ext_Z; rewrite map_length, seq_length; [auto|].
      intros n Hn; rewrite nth_map_seq by exact Hn; apply H; exact Hn.
Qed.

(** Sum of table values over a list of cells. *)
Definition cells_sum (t : table) (l : list cell) : Z := lsum (map (fun k => t (fst k) (snd k)) l).

Lemma cells_sum_row : forall s t l i,
  NoDup l -> (forall k, In k l -> in_shape s k) ->
  cells_sum t (filter (fun k => Nat.eqb (fst k) i) l)
  = zsum (nJ s) (fun j => if cell_in (i, j) l then t i j else 0).
Proof.
  intros s t l i HN; induction HN as [|[a b] l Hx HN IH]; intros HS.
  - cbn. symmetry; apply zsum_zero; reflexivity.
  - assert (HSl : forall k, In k l -> in_shape s k) by (intros; apply HS; right; assumption).
    specialize (IH HSl).
    destruct (HS (a, b) (or_introl eq_refl)) as [Ha Hb]; cbn in Ha, Hb.
    cbn [filter fst]. destruct (Nat.eqb_spec a i) as [->|Hne].
    + unfold cells_sum in *; cbn [map]; rewrite lsum_cons, IH; cbn [fst snd].
      rewrite (zsum_ext (nJ s) (fun j => if cell_in (i, j) ((i, b) :: l) then t i j else 0)
        (fun j => (if Nat.eqb j b then t i b else 0) + (if cell_in (i, j) l then t i j else 0))).
      * rewrite zsum_add, zsum_delta.
        assert ((b <? nJ s)%nat = true) as -> by (apply Nat.ltb_lt; exact Hb). reflexivity.
      * intros j _; unfold cell_in at 1; cbn [existsb]; fold (cell_in (i, j) l).
        unfold cell_eqb; cbn [fst snd]; rewrite Nat.eqb_refl; cbn [andb].
        destruct (Nat.eqb_spec j b) as [->|Hjb].
        -- assert (cell_in (i, b) l = false) as -> by (apply cell_in_false; exact Hx). cbn; lia.
        -- cbn; lia.
    + rewrite IH. apply zsum_ext; intros j _; unfold cell_in at 2; cbn [existsb]; fold (cell_in (i, j) l).
      unfold cell_eqb; cbn [fst snd].
      destruct (Nat.eqb_spec i a) as [->|]; [congruence|reflexivity].
Qed.

Lemma cells_sum_col : forall s t l j,
  NoDup l -> (forall k, In k l -> in_shape s k) ->
  cells_sum t (filter (fun k => Nat.eqb (snd k) j) l)
  = zsum (nI s) (fun i => if cell_in (i, j) l then t i j else 0).
Proof.
  intros s t l j HN; induction HN as [|[a b] l Hx HN IH]; intros HS.
  - cbn. symmetry; apply zsum_zero; reflexivity.
  - assert (HSl : forall k, In k l -> in_shape s k) by (intros; apply HS; right; assumption).
    specialize (IH HSl).
    destruct (HS (a, b) (or_introl eq_refl)) as [Ha Hb]; cbn in Ha, Hb.
    cbn [filter snd]. destruct (Nat.eqb_spec b j) as [->|Hne].
    + unfold cells_sum in *; cbn [map]; rewrite lsum_cons, IH; cbn [fst snd].
      rewrite (zsum_ext (nI s) (fun i => if cell_in (i, j) ((a, j) :: l) then t i j else 0)
        (fun i => (if Nat.eqb i a then t a j else 0) + (if cell_in (i, j) l then t i j else 0))).
      * rewrite zsum_add, zsum_delta.
        assert ((a <? nI s)%nat = true) as -> by (apply Nat.ltb_lt; exact Ha). reflexivity.
      * intros i _; unfold cell_in at 1; cbn [existsb]; fold (cell_in (i, j) l).
        unfold cell_eqb; cbn [fst snd]; rewrite Nat.eqb_refl, andb_true_r.
        destruct (Nat.eqb_spec i a) as [->|Hjb].
        -- assert (cell_in (a, j) l = false) as -> by (apply cell_in_false; exact Hx). cbn; lia.
        -- cbn; lia.
    + rewrite IH. apply zsum_ext; intros i _; unfold cell_in at 2; cbn [existsb]; fold (cell_in (i, j) l).
      unfold cell_eqb; cbn [fst snd].
      destruct (Nat.eqb_spec j b) as [->|]; [congruence|].
      rewrite andb_false_r; reflexivity.
Qed.

Lemma cells_sum_all : forall s t l,
  NoDup l -> (forall k, In k l -> in_shape s k) ->
  cells_sum t l = zsum (nI s) (fun i => zsum (nJ s) (fun j => if cell_in (i, j) l then t i j else 0)).
Proof.
  intros s t l HN HS.
  rewrite (zsum_ext (nI s) _ (fun i => cells_sum t (filter (fun k => Nat.eqb (fst k) i) l)))
    by (intros; symmetry; apply cells_sum_row; assumption).
  clear HN. induction l as [|[a b] l IH].
  - cbn; symmetry; apply zsum_zero; reflexivity.
  - assert (HSl : forall k, In k l -> in_shape s k) by (intros; apply HS; right; assumption).
    specialize (IH HSl).
    destruct (HS (a, b) (or_introl eq_refl)) as [Ha Hb]; cbn in Ha, Hb.
    rewrite (zsum_ext (nI s) _ (fun i => (if Nat.eqb i a then t a b else 0)
        + cells_sum t (filter (fun k => Nat.eqb (fst k) i) l))).
    + rewrite zsum_add, zsum_delta.
      assert ((a <? nI s)%nat = true) as -> by (apply Nat.ltb_lt; exact Ha).
      rewrite <- IH. reflexivity.
    + intros i _; cbn [filter fst]. rewrite Nat.eqb_sym.
      destruct (Nat.eqb_spec i a) as [->|]; [reflexivity|]. lia.
Qed.

(** Effect of subtracting cells from margins. *)
Definition sub_cells (axes : list ax) (tab : table) (cells : list cell) (m : margins) : margins :=
  fold_left (fun m k => sub_cell axes k (tab (fst k) (snd k)) m) cells m.

Lemma sub_cells_spec : forall s axes tab cells m,
  margins_wf s m -> (forall k, In k cells -> in_shape s k) ->
  margins_wf s (sub_cells axes tab cells m) /\
  (forall i, (i < nI s)%nat -> nth i (sub_cells axes tab cells m A1) 0 =
     nth i (m A1) 0 - (if ax_in A1 axes then cells_sum tab (filter (fun k => Nat.eqb (fst k) i) cells) else 0)) /\
  (forall j, (j < nJ s)%nat -> nth j (sub_cells axes tab cells m A0) 0 =
     nth j (m A0) 0 - (if ax_in A0 axes then cells_sum tab (filter (fun k => Nat.eqb (snd k) j) cells) else 0)) /\
  nth 0 (sub_cells axes tab cells m A01) 0 =
     nth 0 (m A01) 0 - (if ax_in A01 axes then cells_sum tab cells else 0).
Proof.
  intros s axes tab cells; induction cells as [|[a b] cells IH]; intros m W HS.
  - cbn. split; [exact W|]. repeat split; intros; destruct (ax_in _ _); lia.
  - assert (HSl : forall k, In k cells -> in_shape s k) by (intros; apply HS; right; assumption).
    destruct (HS (a, b) (or_introl eq_refl)) as [Ha Hb]; cbn in Ha, Hb.
    assert (W1 : margins_wf s (sub_cell axes (a, b) (tab a b) m)).
    { intros x. unfold sub_cell. destruct (ax_in x axes); [|apply W].
      destruct x; rewrite ?upd_nth_length, ?map_length; apply W. }
    destruct (IH _ W1 HSl) as [W2 [HR [HC HT]]].
    unfold sub_cells in *; cbn [fold_left fst snd] in *.
    split; [exact W2|]. split; [|split].
    + intros i Hi. rewrite HR by exact Hi. unfold sub_cell.
      destruct (ax_in A1 axes); [|lia].
      rewrite upd_nth_nth by (rewrite W; exact Ha). cbn [fst].
      cbn [filter fst]. destruct (Nat.eqb_spec i a) as [->|Hne].
      * rewrite Nat.eqb_refl. unfold cells_sum; cbn [map]; rewrite lsum_cons; cbn [fst snd]; lia.
      * destruct (Nat.eqb_spec a i); [congruence|lia].
    + intros j Hj. rewrite HC by exact Hj. unfold sub_cell.
      destruct (ax_in A0 axes); [|lia].
      rewrite upd_nth_nth by (rewrite W; exact Hb). cbn [snd].
      cbn [filter snd]. destruct (Nat.eqb_spec j b) as [->|Hne].
      * rewrite Nat.eqb_refl. unfold cells_sum; cbn [map]; rewrite lsum_cons; cbn [fst snd]; lia.
      * destruct (Nat.eqb_spec b j); [congruence|lia].
    + rewrite HT. unfold sub_cell.
      destruct (ax_in A01 axes); [|lia].
      pose proof (W A01) as WT; cbn in WT. destruct (m A01) as [|x l]; cbn in WT; [lia|].
      unfold cells_sum; cbn [map nth]; rewrite lsum_cons; cbn [fst snd]; lia.
Qed.
