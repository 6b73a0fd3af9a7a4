(** Start tables when cells are fixed (property C92) and sampled margins
    (property C93).

    C92 is about the Monte Carlo solver of InitTables.v.  C93 models
    gensit/contingency_table/ContingencyTable_MCMC.py:193-247
    (sample_margins_2way_table and the two functions calling it) and
    contingency_table/__init__.py:901-927 (margin_multinomial) with
    ContingencyTable_MCMC.py:255-273 (initialise_unconstrained_margins,
    initialise_constrained_margins). *)
From Coq Require Import List ZArith Lia Bool Arith Permutation.
From Verif Require Import Base Tables TablesProps InitTables InitTablesProps.
Import ListNotations.
Open Scope Z_scope.

(** * C92: Monte Carlo start table with fixed cells *)

(** The specification of "an item lands in a cell": the items 1..N are shuffled
    and dealt to the rows in blocks of the sizes [r]; item [v] belongs to the
    column whose block of the numbers 1..N (block sizes [c]) holds [v]. *)
Definition lands (perm : list Z) (r c : nat -> Z) (i j : nat) : Prop :=
  exists p, (p < length perm)%nat /\
    zsum i r <= Z.of_nat p < zsum (S i) r /\
    zsum j c < nth p perm 0 <= zsum (S j) c.

Lemma prefix_zsum : forall l k, (k <= length l)%nat -> prefix_sum l k = zsum k (fun q => nth q l 0).
Proof.
  intros l k; induction k as [|k IH]; intros H; [reflexivity|].
  rewrite prefix_sum_S by lia. rewrite IH, zsum_S by lia. reflexivity.
Qed.

Lemma mc_counts : forall (r cl : list Z) (perm : list Z) N,
  (forall q, (q < length r)%nat -> 0 <= nth q r 0) ->
  (forall q, (q < length cl)%nat -> 0 <= nth q cl 0) ->
  lsum r = N -> lsum cl = N -> 0 <= N -> is_randperm N perm ->
  let F i j := count_between (prefix_sum cl j) (prefix_sum cl (S j))
                 (py_slice perm (prefix_sum r i) (prefix_sum r (S i))) in
  (forall i, (i < length r)%nat -> zsum (length cl) (F i) = nth i r 0) /\
  (forall j, (j < length cl)%nat -> zsum (length r) (fun i => F i j) = nth j cl 0).
Proof.
  intros r cl perm N N1 N0 S1 S0 HN HP F.
  assert (LP : Z.of_nat (length perm) = N).
  { rewrite (Permutation_length HP), map_length, seq_length. lia. }
  assert (RP : forall x, In x perm -> 0 < x <= N).
  { intros x Hx. apply (Permutation_in _ HP) in Hx. apply in_map_iff in Hx as [z [<- Hz]].
    apply in_seq in Hz. lia. }
  split.
  - intros i Hi. unfold F. rewrite count_prefixes by (try exact N0; lia).
    rewrite prefix_sum_all, S0, count_full.
    + apply slice_length; [exact N1|lia|lia].
    + intros x Hx; apply RP. eapply py_slice_incl; exact Hx.
  - intros j Hj. unfold F. rewrite count_slices by (try exact N1; lia).
    rewrite prefix_sum_all, S1, <- LP, Nat2Z.id, firstn_all, (count_perm _ _ _ _ HP).
    pose proof (prefix_sum_S cl j).
    assert (0 <= prefix_sum cl j).
    { rewrite <- (prefix_sum_0 cl). apply prefix_sum_mono; [exact N0|lia]. }
    assert (prefix_sum cl (S j) <= N).
    { assert (Q : prefix_sum cl (S j) <= prefix_sum cl (length cl))
        by (apply prefix_sum_mono; [exact N0|lia]). rewrite prefix_sum_all in Q; lia. }
    rewrite count_seq; [lia|lia|apply prefix_sum_mono; [exact N0|lia]|lia].
Qed.

Lemma count_zero_iff : forall lo hi l,
  count_between lo hi l = 0 <-> forall x, In x l -> ~ (lo < x <= hi).
Proof.
  intros lo hi l; induction l as [|x l IH].
  - split; [intros _ x []|reflexivity].
  - rewrite count_cons.
    assert (0 <= count_between lo hi l) by (unfold count_between; lia).
    destruct (Z.leb_spec (lo + 1) x), (Z.leb_spec x hi); cbn [andb]; split; intros Q.
    + lia.
    + exfalso; apply (Q x (or_introl eq_refl)); lia.
    + intros y [<-|Hy]; [lia|apply IH; [lia|exact Hy]].
    + rewrite (proj2 IH); [reflexivity|intros y Hy; apply Q; right; exact Hy].
    + intros y [<-|Hy]; [lia|apply IH; [lia|exact Hy]].
    + rewrite (proj2 IH); [reflexivity|intros y Hy; apply Q; right; exact Hy].
    + intros y [<-|Hy]; [lia|apply IH; [lia|exact Hy]].
    + rewrite (proj2 IH); [reflexivity|intros y Hy; apply Q; right; exact Hy].
Qed.

Lemma slice_in_iff : forall (perm : list Z) a b x, (a <= b <= length perm)%nat ->
  (In x (py_slice perm (Z.of_nat a) (Z.of_nat b)) <->
   exists p, (a <= p < b)%nat /\ nth p perm 0 = x).
Proof.
  intros perm a b x H. rewrite py_slice_seq by exact H.
  assert (L : length (firstn (b - a) (skipn a perm)) = (b - a)%nat)
    by (rewrite firstn_length, skipn_length; lia).
  assert (NT : forall q, (q < b - a)%nat -> nth q (firstn (b - a) (skipn a perm)) 0 = nth (a + q) perm 0).
  { intros q Hq. rewrite <- (firstn_skipn a perm) at 2.
    rewrite app_nth2; rewrite firstn_length_le by lia; [|lia].
    replace (a + q - a)%nat with q by lia.
    rewrite <- (firstn_skipn (b - a) (skipn a perm)) at 2.
    rewrite app_nth1 by lia. reflexivity. }
  split.
  - intros Hin. apply (In_nth _ _ 0) in Hin as [q [Hq E]]. rewrite L in Hq.
    exists (a + q)%nat. split; [lia|]. rewrite <- NT by lia. exact E.
  - intros [p [Hp E]]. rewrite <- E. replace p with (a + (p - a))%nat by lia.
    rewrite <- NT by lia. apply nth_In. lia.
Qed.

Lemma zsum_two_zero : forall n m (f : nat -> nat -> Z),
  (forall i j, (i < n)%nat -> (j < m)%nat -> 0 <= f i j) ->
  zsum n (fun i => zsum m (fun j => f i j)) = 0 ->
  forall i j, (i < n)%nat -> (j < m)%nat -> f i j = 0.
Proof.
  intros n m f Hf HZ i j Hi Hj.
  pose proof (zsum_term_le n (fun i => zsum m (fun j => f i j)) i) as Q.
  assert (0 <= zsum m (fun j => f i j)) by (apply zsum_nonneg; intros; apply Hf; assumption).
  pose proof (zsum_term_le m (fun j => f i j) j) as Q'.
  specialize (Hf i j Hi Hj) as Hij.
  assert (zsum m (fun j => f i j) <= 0).
  { rewrite <- HZ. apply Q; [|exact Hi]. intros k Hk. apply zsum_nonneg; intros; apply Hf; assumption. }
  assert (f i j <= zsum m (fun j => f i j)).
  { apply Q'; [|exact Hj]. intros; apply Hf; assumption. }
  lia.
Qed.

(** The solver finds a table exactly when no item lands in a fixed cell (the
    items that do are lost); the table is then the table of landing counts with
    the fixed cells at their values, and it has the supplied margins. *)
Theorem C92_exact_partial : forall s truth m axes fixed c perm,
  (forall a, length (m a) = axis_len s a) ->
  (forall k, In k fixed -> (fst k < nI s)%nat /\ (snd k < nJ s)%nat) ->
  NoDup fixed ->
  axes <> [] ->
  build_ct s truth m axes fixed = Ok c ->
  let fx i j := if cell_in (i, j) fixed then truth i j else 0 in
  let r i := nth i (m A1) 0 - zsum (nJ s) (fun j => fx i j) in
  let cl j := nth j (m A0) 0 - zsum (nI s) (fun i => fx i j) in
  let N := nth 0 (m A01) 0 - zsum (nI s) (fun i => zsum (nJ s) (fun j => fx i j)) in
  (forall i, (i < nI s)%nat -> 0 <= r i) ->
  (forall j, (j < nJ s)%nat -> 0 <= cl j) ->
  zsum (nI s) r = N -> zsum (nJ s) cl = N ->
  is_randperm N perm ->
  ((exists t, table_monte_carlo_sample c no_margins perm = Ok t) <->
   (forall i j, In (i, j) fixed -> ~ lands perm r cl i j)) /\
  (forall t, table_monte_carlo_sample c no_margins perm = Ok t ->
    (forall i, (i < nI s)%nat -> zsum (nJ s) (fun j => t i j) = nth i (m A1) 0) /\
    (forall j, (j < nJ s)%nat -> zsum (nI s) (fun i => t i j) = nth j (m A0) 0) /\
    (forall i j, In (i, j) fixed -> t i j = truth i j) /\
    (forall i j, (i < nI s)%nat -> (j < nJ s)%nat -> ~ In (i, j) fixed -> 0 <= t i j)).
Proof.
  intros s truth m axes fixed c perm W Hin Hnd Hax Hok fx r cl N Hr Hc HR HC HP.
  destruct (build_shape _ _ _ _ _ _ Hok) as [Es [Et [Em [Ea Ef]]]].
  destruct (C04_residual_margins _ _ _ _ _ _ W Hin Hnd Hok) as [R1 [R0 [R01 _]]].
  pose proof (build_resid _ _ _ _ _ _ Hok) as Er.
  assert (LR : forall a, length (ct_resid c a) = axis_len s a).
  { intros a. rewrite Er. unfold sub_cells. clear - W. revert m W.
    induction fixed as [|k l IH]; intros m W; [apply W|]. cbn [fold_left]. apply IH.
    intros b. unfold sub_cell. destruct (ax_in b all_axes); [|apply W].
    destruct b; rewrite ?upd_nth_length, ?map_length; apply W. }
  assert (L1 : length (ct_resid c A1) = nI s) by (rewrite LR; reflexivity).
  assert (L0 : length (ct_resid c A0) = nJ s) by (rewrite LR; reflexivity).
  assert (HN : 0 <= N).
  { rewrite <- HR. apply zsum_nonneg. exact Hr. }
  assert (N1 : forall q, (q < length (ct_resid c A1))%nat -> 0 <= nth q (ct_resid c A1) 0).
  { intros q Hq. rewrite L1 in Hq. rewrite R1 by exact Hq. apply (Hr q Hq). }
  assert (N0 : forall q, (q < length (ct_resid c A0))%nat -> 0 <= nth q (ct_resid c A0) 0).
  { intros q Hq. rewrite L0 in Hq. rewrite R0 by exact Hq. apply (Hc q Hq). }
  assert (S1 : lsum (ct_resid c A1) = N).
  { rewrite <- zsum_nth, L1, <- HR. apply zsum_ext. exact R1. }
  assert (S0 : lsum (ct_resid c A0) = N).
  { rewrite <- zsum_nth, L0, <- HC. apply zsum_ext. exact R0. }
  destruct (mc_counts _ _ perm N N1 N0 S1 S0 HN HP) as [Rows Cols].
  rewrite L1, L0 in Rows, Cols.
  set (F := fun i j => count_between (prefix_sum (ct_resid c A0) j) (prefix_sum (ct_resid c A0) (S j))
                 (py_slice perm (prefix_sum (ct_resid c A1) i) (prefix_sum (ct_resid c A1) (S i)))) in *.
  assert (Fnn : forall i j, 0 <= F i j) by (intros; unfold F, count_between; lia).
  assert (LP : Z.of_nat (length perm) = N).
  { rewrite (Permutation_length HP), map_length, seq_length. lia. }
  (* counting zero means nothing lands *)
  assert (PR : forall i, (i <= nI s)%nat -> prefix_sum (ct_resid c A1) i = zsum i r).
  { intros i Hi. rewrite prefix_zsum by lia. apply zsum_ext. intros k Hk. apply R1. lia. }
  assert (PC : forall j, (j <= nJ s)%nat -> prefix_sum (ct_resid c A0) j = zsum j cl).
  { intros j Hj. rewrite prefix_zsum by lia. apply zsum_ext. intros k Hk. apply R0. lia. }
  assert (FL : forall i j, (i < nI s)%nat -> (j < nJ s)%nat -> (F i j = 0 <-> ~ lands perm r cl i j)).
  { intros i j Hi Hj. unfold F. rewrite count_zero_iff.
    rewrite (PC j), (PC (S j)), (PR i), (PR (S i)) by lia.
    assert (P0 : 0 <= zsum i r) by (apply zsum_nonneg; intros; apply Hr; lia).
    assert (P1 : zsum i r <= zsum (S i) r) by (rewrite zsum_S; specialize (Hr i Hi); lia).
    assert (P2 : zsum (S i) r <= N).
    { rewrite <- (PR (S i)) by lia. rewrite <- S1, <- prefix_sum_all.
      apply prefix_sum_mono; [exact N1|lia]. }
    rewrite <- (Z2Nat.id (zsum i r)) by lia. rewrite <- (Z2Nat.id (zsum (S i) r)) by lia.
    split.
    - intros Q [p [Hp [Hpr Hpc]]]. apply (Q (nth p perm 0)); [|exact Hpc].
      apply slice_in_iff; [lia|]. exists p. split; [lia|reflexivity].
    - intros Q x Hx Hxc. apply slice_in_iff in Hx; [|lia]. destruct Hx as [p [Hp E]].
      apply Q. exists p. split; [lia|]. split; [lia|]. rewrite E. exact Hxc. }
  assert (EU : update_margins c no_margins = c) by (destruct c; reflexivity).
  set (t := monte_carlo_fill c perm).
  assert (Tval : forall i j, t i j = F i j + (if cell_in (i, j) fixed then truth i j - F i j else 0)).
  { intros i j. transitivity (if cell_in (i, j) fixed then truth i j else F i j).
    - unfold t, monte_carlo_fill. rewrite Ef, Et. reflexivity.
    - destruct (cell_in (i, j) fixed); lia. }
  set (lost := fun i j => if cell_in (i, j) fixed then F i j else 0).
  assert (Trow : forall i, (i < nI s)%nat ->
    zsum (nJ s) (fun j => t i j) = nth i (m A1) 0 - zsum (nJ s) (fun j => lost i j)).
  { intros i Hi. transitivity (zsum (nJ s) (fun j => F i j + (fx i j - lost i j))).
    - apply zsum_ext. intros j _. rewrite Tval. unfold fx, lost. destruct (cell_in (i, j) fixed); lia.
    - rewrite (zsum_add _ (fun j => F i j) (fun j => fx i j - lost i j)),
        (zsum_sub _ (fun j => fx i j) (fun j => lost i j)).
      assert (zsum (nJ s) (fun j => F i j) = nth i (ct_resid c A1) 0) as -> by exact (Rows i Hi).
      assert (nth i (ct_resid c A1) 0 = nth i (m A1) 0 - zsum (nJ s) (fun j => fx i j)) as -> by exact (R1 i Hi).
      lia. }
  assert (Tcol : forall j, (j < nJ s)%nat ->
    zsum (nI s) (fun i => t i j) = nth j (m A0) 0 - zsum (nI s) (fun i => lost i j)).
  { intros j Hj. transitivity (zsum (nI s) (fun i => F i j + (fx i j - lost i j))).
    - apply zsum_ext. intros i _. rewrite Tval. unfold fx, lost. destruct (cell_in (i, j) fixed); lia.
    - rewrite (zsum_add _ (fun i => F i j) (fun i => fx i j - lost i j)),
        (zsum_sub _ (fun i => fx i j) (fun i => lost i j)).
      assert (zsum (nI s) (fun i => F i j) = nth j (ct_resid c A0) 0) as -> by exact (Cols j Hj).
      assert (nth j (ct_resid c A0) 0 = nth j (m A0) 0 - zsum (nI s) (fun i => fx i j)) as -> by exact (R0 j Hj).
      lia. }
  assert (Lnn : forall i j, (i < nI s)%nat -> (j < nJ s)%nat -> 0 <= lost i j).
  { intros i j _ _. unfold lost. destruct (cell_in (i, j) fixed); [apply Fnn|lia]. }
  assert (MR : zsum (nI s) (fun i => nth i (m A1) 0) = nth 0 (m A01) 0).
  { unfold r in HR. rewrite zsum_sub in HR. unfold N in HR. lia. }
  assert (Tadm : table_admissible c t = true <-> (forall i j, In (i, j) fixed -> F i j = 0)).
  { rewrite C01_admissible_iff by (rewrite Em, Es; exact W). rewrite Es, Em, Ef, Et, Ea.
    split.
    - intros [_ [_ [Q3 _]]] i j Hij.
      assert (HT : In A01 (constrained_axes_2d axes)).
      { apply C02_two_way_closure. destruct axes as [|[] l]; [congruence| | |]; cbn; auto. }
      specialize (Q3 HT).
      rewrite (zsum_ext _ _ _ Trow), zsum_sub, MR in Q3.
      assert (Z0 : zsum (nI s) (fun i => zsum (nJ s) (fun j => lost i j)) = 0) by lia.
      destruct (Hin _ Hij) as [Hi Hj]; cbn in Hi, Hj.
      pose proof (zsum_two_zero _ _ _ Lnn Z0 i j Hi Hj) as Q. unfold lost in Q.
      rewrite (proj2 (cell_in_spec _ _) Hij) in Q. exact Q.
    - intros Q. assert (LZ : forall i j, lost i j = 0).
      { intros i j. unfold lost. destruct (cell_in (i, j) fixed) eqn:E; [|reflexivity].
        apply Q, cell_in_spec, E. }
      assert (TR : forall i, (i < nI s)%nat -> zsum (nJ s) (fun j => t i j) = nth i (m A1) 0).
      { intros i Hi. rewrite Trow by exact Hi. rewrite zsum_zero by (intros; apply LZ). lia. }
      split; [intros _; exact TR|split; [|split]].
      + intros _ j Hj. rewrite Tcol by exact Hj. rewrite zsum_zero by (intros; apply LZ). lia.
      + intros _. rewrite (zsum_ext _ _ _ TR). exact MR.
      + intros i j Hij. rewrite Tval, (proj2 (cell_in_spec _ _) Hij). lia. }
  assert (RN : nth 0 (ct_resid c A01) 0 = N) by (rewrite R01; reflexivity).
  assert (EX : table_monte_carlo_sample c no_margins perm = if table_admissible c t then Ok t else Raise EExn).
  { unfold table_monte_carlo_sample. rewrite EU. fold t. cbv zeta. rewrite RN.
    destruct (Z.ltb_spec N 0); [lia|]. reflexivity. }
  rewrite EX. split.
  - transitivity (table_admissible c t = true).
    + destruct (table_admissible c t); split; try discriminate; eauto. intros [t' E]; discriminate.
    + rewrite Tadm. split; intros Q i j Hij; destruct (Hin _ Hij) as [Hi Hj]; apply (FL i j Hi Hj), Q, Hij.
  - destruct (table_admissible c t) eqn:E; [|discriminate]. intros t' E'. injection E' as <-.
    pose proof (proj1 Tadm eq_refl) as Q.
    assert (LZ : forall i j, lost i j = 0).
    { intros i j. unfold lost. destruct (cell_in (i, j) fixed) eqn:E1; [|reflexivity].
      apply Q, cell_in_spec, E1. }
    split; [|split; [|split]].
    + intros i Hi. rewrite Trow by exact Hi. rewrite zsum_zero by (intros; apply LZ). lia.
    + intros j Hj. rewrite Tcol by exact Hj. rewrite zsum_zero by (intros; apply LZ). lia.
    + intros i j Hij. rewrite Tval, (proj2 (cell_in_spec _ _) Hij). lia.
    + intros i j _ _ Hij. rewrite Tval, (proj2 (cell_in_false _ _) Hij). specialize (Fnn i j). lia.
Qed.
Print Assumptions C92_exact_partial.

(** A 3x3 table and its margins with one fixed cell: one shuffle yields a start
    table, another makes the solver raise although an admissible table exists. *)
Definition fixed_ex_truth : table := fun i j => Z.of_nat (i + 2 * j + 1).
Definition fixed_ex_margins : margins := axis_margin (Shape 3 3) fixed_ex_truth.

Theorem C92_fails_refuted : exists s truth m axes fixed c perm,
  (forall a, m a = axis_margin s truth a) /\
  (forall i j, 0 <= truth i j) /\
  NoDup fixed /\ (forall k, In k fixed -> (fst k < nI s)%nat /\ (snd k < nJ s)%nat) /\
  build_ct s truth m axes fixed = Ok c /\
  table_admissible c truth = true /\
  is_randperm (nth 0 (ct_resid c A01) 0) perm /\
  table_monte_carlo_sample c no_margins perm = Raise EExn.
Proof.
  exists (Shape 3 3), fixed_ex_truth, fixed_ex_margins, [A0; A1], [(0, 0)%nat].
  destruct (build_ct (Shape 3 3) fixed_ex_truth fixed_ex_margins [A0; A1] [(0, 0)%nat]) as [c|e] eqn:E;
    [|vm_compute in E; discriminate].
  exists c, (map Z.of_nat (seq 1 35)).
  split; [reflexivity|]. split.
  { intros i j. unfold fixed_ex_truth. lia. }
  split; [repeat constructor; intros []|]. split.
  { intros k [<-|[]]; cbn; lia. }
  split; [reflexivity|]. vm_compute in E. injection E as <-.
  split; [vm_compute; reflexivity|].
  split; [apply Permutation_refl|]. vm_compute; reflexivity.
Qed.
Print Assumptions C92_fails_refuted.

(** The hypotheses of [C92_exact_partial] hold for that table, and the reversed
    shuffle is one of those that succeed. *)
Example C92_nonvacuous :
  let fx i j := if cell_in (i, j) [(0, 0)%nat] then fixed_ex_truth i j else 0 in
  let r i := nth i (fixed_ex_margins A1) 0 - zsum 3 (fun j => fx i j) in
  let cl j := nth j (fixed_ex_margins A0) 0 - zsum 3 (fun i => fx i j) in
  (forall i, (i < 3)%nat -> 0 <= r i) /\ (forall j, (j < 3)%nat -> 0 <= cl j) /\
  zsum 3 r = 35 /\ zsum 3 cl = 35 /\
  is_randperm 35 (rev (map Z.of_nat (seq 1 35))) /\
  match build_ct (Shape 3 3) fixed_ex_truth fixed_ex_margins [A0; A1] [(0, 0)%nat] with
  | Ok c => match table_monte_carlo_sample c no_margins (rev (map Z.of_nat (seq 1 35))) with
            | Ok t => t 0%nat 0%nat = 1 /\ t 0%nat 2%nat = 8
            | Raise _ => False
            end
  | Raise _ => False
  end.
Proof.
  cbv zeta. split; [|split; [|split; [|split; [|split]]]].
  - intros [|[|[|i]]] H; try (vm_compute; discriminate); lia.
  - intros [|[|[|i]]] H; try (vm_compute; discriminate); lia.
  - reflexivity.
  - reflexivity.
  - unfold is_randperm. symmetry. apply Permutation_rev.
  - vm_compute. split; reflexivity.
Qed.

(** * C93: sampled margins *)

(** The random draws of sample_margins_2way_table: the Poisson draw, the integer
    part of the total intensity, and the multinomial draw for a one-dimensional
    axis as a function of the total count asked for. *)
Record margin_draws := MD { md_poisson : Z; md_total_intensity : Z; md_multinomial : ax -> Z -> list Z }.

(** What torch's samplers guarantee: a multinomial draw has one non-negative
    entry per category and sums to the total count. *)
Definition draws_ok (s : shape) (d : margin_draws) : Prop :=
  0 <= md_poisson d /\
  forall a n, 0 <= n -> length (md_multinomial d a n) = axis_len s a /\
    lsum (md_multinomial d a n) = n /\ (forall x, In x (md_multinomial d a n) -> 0 <= x).

(** ContingencyTable_MCMC.py:205-237: the dictionary built by the loop; the grand
    total of the multinomial draws is the one stored in the table object
    (line 221), which is replaced only after the loop (line 240).  The sampled
    grand total is a tensor without dimensions, kept here as one entry. *)
Definition sampled_margins (c : ct) (axes : list ax) (constrained : bool) (d : margin_draws)
  : ax -> option (list Z) := fun a =>
  if ax_in a axes then
    match a with
    | A01 => Some [if constrained then md_total_intensity d else md_poisson d]
    | _ => Some (md_multinomial d a (nth 0 (ct_margins c A01) 0))
    end
  else None.

(** sample_margins_2way_table, ContingencyTable_MCMC.py:193-241 (the table object
    afterwards; the margins sampled are also returned). *)
Definition sample_margins_2way_table (c : ct) (axes : list ax) (constrained : bool) (d : margin_draws) : ct :=
  update_margins c (sampled_margins c axes constrained d).

(** sample_unconstrained_margins and sample_constrained_margins,
    ContingencyTable_MCMC.py:243-247. *)
Definition unconstrained_axes (c : ct) : list ax := filter (fun a => negb (ax_in a (ct_caxes c))) all_axes.
Definition sample_unconstrained_margins (c : ct) (d : margin_draws) : ct :=
  sample_margins_2way_table c (unconstrained_axes c) false d.
Definition sample_constrained_margins (c : ct) (d : margin_draws) : ct :=
  sample_margins_2way_table c (ct_caxes c) true d.

(** Margins are compatible when rows and columns both sum to the grand total. *)
Definition margins_agree (m : margins) : Prop :=
  lsum (m A1) = nth 0 (m A01) 0 /\ lsum (m A0) = nth 0 (m A01) 0.

(** When the grand total is constrained, sampling the unconstrained margins keeps
    the margins compatible and changes no constrained margin. *)
Theorem C93_known_total_partial : forall s truth m axes fixed c d,
  (forall a, length (m a) = axis_len s a) ->
  margins_agree m -> 0 <= nth 0 (m A01) 0 ->
  axes <> [] ->
  build_ct s truth m axes fixed = Ok c ->
  draws_ok s d ->
  let c' := sample_unconstrained_margins c d in
  margins_agree (ct_margins c') /\
  (forall a, In a (ct_caxes c) -> ct_margins c' a = m a) /\
  (forall a, length (ct_margins c' a) = axis_len s a).
Proof.
  intros s truth m axes fixed c d W [HR HC] HT Hax Hok [Hp Hd] c'.
  destruct (build_shape _ _ _ _ _ _ Hok) as [Es [Et [Em [Ea Ef]]]].
  assert (HA : In A01 (ct_caxes c)).
  { rewrite Ea. apply C02_two_way_closure. destruct axes as [|[] l]; [congruence| | |]; cbn; auto. }
  assert (U : forall a, In a (unconstrained_axes c) <-> ~ In a (ct_caxes c)).
  { intros a. unfold unconstrained_axes. rewrite filter_In, negb_true_iff, <- not_true_iff_false, ax_in_spec.
    split; [tauto|]. intros Q; split; [destruct a; cbn; auto|exact Q]. }
  assert (V : forall a, ct_margins c' a =
     if ax_in a (ct_caxes c) then m a else md_multinomial d a (nth 0 (m A01) 0)).
  { intros a. unfold c', sample_unconstrained_margins, sample_margins_2way_table, update_margins, sampled_margins.
    cbn [ct_margins]. rewrite Em.
    destruct (ax_in a (ct_caxes c)) eqn:E.
    - destruct (ax_in a (unconstrained_axes c)) eqn:E'; [|reflexivity].
      exfalso. apply ax_in_spec, U in E'. apply E', ax_in_spec, E.
    - assert (ax_in a (unconstrained_axes c) = true) as ->.
      { apply ax_in_spec, U. intros Q. apply ax_in_spec in Q. congruence. }
      destruct a; try reflexivity. apply ax_in_spec in HA. congruence. }
  assert (T : ct_margins c' A01 = m A01).
  { rewrite V. rewrite (proj2 (ax_in_spec _ _) HA). reflexivity. }
  split; [|split].
  - unfold margins_agree. rewrite T. split; rewrite V.
    + destruct (ax_in A1 (ct_caxes c)); [exact HR|]. apply (Hd A1 _ HT).
    + destruct (ax_in A0 (ct_caxes c)); [exact HC|]. apply (Hd A0 _ HT).
  - intros a Hi. rewrite V, (proj2 (ax_in_spec _ _) Hi). reflexivity.
  - intros a. rewrite V. destruct (ax_in a (ct_caxes c)); [apply W|]. apply (Hd a _ HT).
Qed.
Print Assumptions C93_known_total_partial.

(** Otherwise the sampled row and column totals sum to the grand total stored
    BEFORE the draw, not to the sampled one: they agree exactly when the two
    happen to be equal. *)
Theorem C93_sampled_total_exact : forall c d,
  draws_ok (ct_shape c) d -> 0 <= nth 0 (ct_margins c A01) 0 ->
  ct_caxes c = [] ->
  let c' := sample_unconstrained_margins c d in
  ct_margins c' A01 = [md_poisson d] /\
  lsum (ct_margins c' A1) = nth 0 (ct_margins c A01) 0 /\
  lsum (ct_margins c' A0) = nth 0 (ct_margins c A01) 0 /\
  (margins_agree (ct_margins c') <-> md_poisson d = nth 0 (ct_margins c A01) 0).
Proof.
  intros c d [Hp Hd] HT Hc c'.
  assert (E : unconstrained_axes c = all_axes).
  { unfold unconstrained_axes. rewrite Hc. reflexivity. }
  assert (T : ct_margins c' A01 = [md_poisson d]).
  { unfold c', sample_unconstrained_margins. rewrite E. reflexivity. }
  assert (R : ct_margins c' A1 = md_multinomial d A1 (nth 0 (ct_margins c A01) 0)).
  { unfold c', sample_unconstrained_margins. rewrite E. reflexivity. }
  assert (C : ct_margins c' A0 = md_multinomial d A0 (nth 0 (ct_margins c A01) 0)).
  { unfold c', sample_unconstrained_margins. rewrite E. reflexivity. }
  pose proof (Hd A1 _ HT) as [_ [S1 _]]. pose proof (Hd A0 _ HT) as [_ [S0 _]].
  split; [exact T|]. rewrite R, C, S1, S0. split; [reflexivity|]. split; [reflexivity|].
  unfold margins_agree. rewrite T, R, C, S1, S0. cbn [nth]. lia.
Qed.
Print Assumptions C93_sampled_total_exact.

(** Sampling the margins again also restores the residual margins to the full
    margins: the values of the fixed cells are no longer subtracted. *)
Definition const_draws : margin_draws :=
  MD 30 0 (fun a n => match a with A0 => [n; 0; 0] | A1 => [n; 0; 0] | A01 => [n] end).

Lemma const_draws_ok : draws_ok (Shape 3 3) const_draws.
Proof.
  split; [cbn; lia|]. intros a n Hn. destruct a; cbn; (split; [reflexivity|]); (split; [unfold lsum; cbn; lia|]);
    intros x Q; intuition lia.
Qed.

Theorem C93_margins_refuted : exists s truth m fixed c d,
  (forall a, m a = axis_margin s truth a) /\
  build_ct s truth m [] fixed = Ok c /\ draws_ok s d /\
  ~ margins_agree (ct_margins (sample_unconstrained_margins c d)).
Proof.
  exists (Shape 3 3), fixed_ex_truth, fixed_ex_margins, [].
  destruct (build_ct (Shape 3 3) fixed_ex_truth fixed_ex_margins [] []) as [c|e] eqn:E; [|vm_compute in E; discriminate].
  exists c, const_draws. split; [reflexivity|]. split; [reflexivity|]. split; [exact const_draws_ok|].
  vm_compute in E. injection E as <-. intros [Q _]. vm_compute in Q. discriminate.
Qed.
Print Assumptions C93_margins_refuted.

Theorem C93_residuals_refuted : exists s truth m axes fixed c d,
  (forall a, m a = axis_margin s truth a) /\ NoDup fixed /\
  (forall k, In k fixed -> (fst k < nI s)%nat /\ (snd k < nJ s)%nat) /\
  build_ct s truth m axes fixed = Ok c /\ draws_ok s d /\
  let c' := sample_unconstrained_margins c d in
  exists j, nth j (ct_resid c' A0) 0 <>
    nth j (ct_margins c' A0) 0 - zsum (nI s) (fun i => if cell_in (i, j) fixed then truth i j else 0).
Proof.
  exists (Shape 3 3), fixed_ex_truth, fixed_ex_margins, [A1], [(0, 0)%nat].
  destruct (build_ct (Shape 3 3) fixed_ex_truth fixed_ex_margins [A1] [(0, 0)%nat]) as [c|e] eqn:E;
    [|vm_compute in E; discriminate].
  exists c, const_draws. split; [reflexivity|]. split; [repeat constructor; intros []|]. split.
  { intros k [<-|[]]; cbn; lia. }
  split; [reflexivity|]. split; [exact const_draws_ok|].
  vm_compute in E. injection E as <-. exists 0%nat. vm_compute. discriminate.
Qed.
Print Assumptions C93_residuals_refuted.

Example C93_nonvacuous : exists c,
  build_ct (Shape 3 3) fixed_ex_truth fixed_ex_margins [A1] [] = Ok c /\
  margins_agree fixed_ex_margins /\ 0 <= nth 0 (fixed_ex_margins A01) 0 /\
  draws_ok (Shape 3 3) const_draws /\
  ct_margins (sample_unconstrained_margins c const_draws) A0 = [36; 0; 0].
Proof.
  destruct (build_ct (Shape 3 3) fixed_ex_truth fixed_ex_margins [A1] []) as [c|e] eqn:E; [|vm_compute in E; discriminate].
  exists c. split; [reflexivity|]. vm_compute in E. injection E as <-.
  split; [split; reflexivity|]. split; [vm_compute; discriminate|]. split; [exact const_draws_ok|reflexivity].
Qed.
