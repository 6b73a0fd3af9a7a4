(** Properties C06, C07, C08, C10: start-table solvers. *)
From Coq Require Import List ZArith Lia Bool Arith Permutation.
From Verif Require Import Base Axes Tables TablesProps InitTables.
Import ListNotations.
Open Scope Z_scope.

Definition no_margins : ax -> option (list Z) := fun _ => None.

(** ---- C06: counting lemmas ------------------------------------------ *)

Lemma firstn_S_nth : forall (l : list Z) k, (k < length l)%nat ->
  firstn (S k) l = firstn k l ++ [nth k l 0].
Proof.
  intros l; induction l as [|x l IH]; intros k H; cbn in H; [lia|].
  destruct k as [|k]; cbn; [reflexivity|]. rewrite <- IH by lia. reflexivity.
Qed.

Lemma prefix_sum_S : forall l k, (k < length l)%nat ->
  prefix_sum l (S k) = prefix_sum l k + nth k l 0.
Proof.
  intros l k H; unfold prefix_sum. rewrite firstn_S_nth, lsum_app by exact H. cbn; lia.
Qed.

Lemma prefix_sum_0 : forall l, prefix_sum l 0 = 0.
Proof. reflexivity. Qed.

Lemma prefix_sum_all : forall l, prefix_sum l (length l) = lsum l.
Proof. intros l; unfold prefix_sum; rewrite firstn_all; reflexivity. Qed.

Lemma prefix_sum_mono : forall l a b, (forall k, (k < length l)%nat -> 0 <= nth k l 0) ->
  (a <= b <= length l)%nat -> prefix_sum l a <= prefix_sum l b.
Proof.
  intros l a b H [Hab Hb]. induction Hab as [|b Hab IH]; [lia|].
  rewrite prefix_sum_S by lia. specialize (H b). assert (prefix_sum l a <= prefix_sum l b) by (apply IH; lia). lia.
Qed.

Lemma count_nil : forall lo hi, count_between lo hi [] = 0.
Proof. reflexivity. Qed.

Lemma count_cons : forall lo hi x l, count_between lo hi (x :: l)
  = (if (lo + 1 <=? x) && (x <=? hi) then 1 else 0) + count_between lo hi l.
Proof.
  intros lo hi x l; unfold count_between; cbn [filter].
  destruct ((lo + 1 <=? x) && (x <=? hi)); cbn [length]; lia.
Qed.

Lemma count_app : forall lo hi a b,
  count_between lo hi (a ++ b) = count_between lo hi a + count_between lo hi b.
Proof.
  intros lo hi a b; unfold count_between; rewrite filter_app, app_length; lia.
Qed.

Lemma count_perm : forall lo hi a b, Permutation a b -> count_between lo hi a = count_between lo hi b.
Proof.
  intros lo hi a b H; induction H; rewrite ?count_cons; lia.
Qed.

Lemma count_glue : forall a b e l, a <= b -> b <= e ->
  count_between a e l = count_between a b l + count_between b e l.
Proof.
  intros a b e l H1 H2; induction l as [|x l IH]; [reflexivity|]. rewrite !count_cons, IH.
  destruct (Z.leb_spec (a + 1) x), (Z.leb_spec x e), (Z.leb_spec x b), (Z.leb_spec (b + 1) x); cbn [andb]; lia.
Qed.

Lemma count_full : forall lo hi l, (forall x, In x l -> lo < x <= hi) ->
  count_between lo hi l = Z.of_nat (length l).
Proof.
  intros lo hi l; induction l as [|x l IH]; intros H; [reflexivity|].
  rewrite count_cons, IH by (intros; apply H; right; assumption).
  specialize (H x (or_introl eq_refl)).
  destruct (Z.leb_spec (lo + 1) x), (Z.leb_spec x hi); cbn [andb length]; lia.
Qed.

Lemma count_seq : forall n lo hi, 0 <= lo -> lo <= hi -> hi <= Z.of_nat n ->
  count_between lo hi (map Z.of_nat (seq 1 n)) = hi - lo.
Proof.
  induction n as [|n IH]; intros lo hi H0 H1 H2; [cbn; unfold count_between; cbn; lia|].
  rewrite seq_S, map_app, count_app. cbn [map]. rewrite count_cons, count_nil.
  destruct (Z.leb_spec hi (Z.of_nat n)).
  - rewrite IH by lia. destruct (Z.leb_spec (Z.of_nat (1 + n)) hi); [lia|].
    rewrite andb_false_r; lia.
  - assert (hi = Z.of_nat n + 1) as -> by lia.
    destruct (Z.leb_spec lo (Z.of_nat n)).
    + rewrite (count_glue lo (Z.of_nat n)) by lia. rewrite IH by lia.
      assert (count_between (Z.of_nat n) (Z.of_nat n + 1) (map Z.of_nat (seq 1 n)) = 0) as ->.
      { unfold count_between. assert (filter (fun x => (Z.of_nat n + 1 <=? x) && (x <=? Z.of_nat n + 1))
          (map Z.of_nat (seq 1 n)) = []) as ->; [|reflexivity].
        clear. destruct (filter _ _) as [|y q] eqn:E; [reflexivity|].
        assert (Hy : In y (y :: q)) by (left; reflexivity). rewrite <- E in Hy.
        apply filter_In in Hy as [Hy Hb]. apply in_map_iff in Hy as [z [<- Hz]]. apply in_seq in Hz.
        apply andb_true_iff in Hb as [Hb _]. apply Z.leb_le in Hb. lia. }
      destruct (Z.leb_spec (lo + 1) (Z.of_nat (1 + n))), (Z.leb_spec (Z.of_nat (1 + n)) (Z.of_nat n + 1)); cbn [andb]; lia.
    + assert (lo = Z.of_nat n + 1) as -> by lia.
      destruct (Z.leb_spec (Z.of_nat n + 1 + 1) (Z.of_nat (1 + n))); [lia|]. cbn.
      unfold count_between. rewrite (proj2 (length_zero_iff_nil _)); [cbn; lia|].
      destruct (filter _ _) as [|y q] eqn:E; [reflexivity|].
      assert (Hy : In y (y :: q)) by (left; reflexivity). rewrite <- E in Hy.
      apply filter_In in Hy as [Hy Hb]. apply in_map_iff in Hy as [z [<- Hz]]. apply in_seq in Hz.
      apply andb_true_iff in Hb as [Hb _]. apply Z.leb_le in Hb. lia.
Qed.

(** Sum over consecutive intervals. *)
Lemma count_prefixes : forall cs l k, (forall q, (q < length cs)%nat -> 0 <= nth q cs 0) ->
  (k <= length cs)%nat ->
  zsum k (fun j => count_between (prefix_sum cs j) (prefix_sum cs (S j)) l)
  = count_between 0 (prefix_sum cs k) l.
Proof.
  intros cs l k Hnn; induction k as [|k IH]; intros Hk.
  - rewrite zsum_0, prefix_sum_0. unfold count_between.
    rewrite (proj2 (length_zero_iff_nil _)); [reflexivity|].
    destruct (filter _ _) as [|y q] eqn:E; [reflexivity|].
    assert (Hy : In y (y :: q)) by (left; reflexivity). rewrite <- E in Hy.
    apply filter_In in Hy as [_ Hb]. apply andb_true_iff in Hb as [H1 H2].
    apply Z.leb_le in H1, H2; lia.
  - rewrite zsum_S, IH by lia. symmetry; apply count_glue.
    + rewrite <- (prefix_sum_0 cs). apply prefix_sum_mono; [exact Hnn|lia].
    + apply prefix_sum_mono; [exact Hnn|lia].
Qed.

Lemma py_slice_seq : forall (A : Type) (l : list A) (a b : nat), (a <= b <= length l)%nat ->
  py_slice l (Z.of_nat a) (Z.of_nat b) = firstn (b - a) (skipn a l).
Proof.
  intros A l a b H; unfold py_slice, py_index.
  destruct (Z.ltb_spec (Z.of_nat a) 0); [lia|]. destruct (Z.ltb_spec (Z.of_nat b) 0); [lia|].
  rewrite !Z.min_l by lia. rewrite !Nat2Z.id. reflexivity.
Qed.

Lemma firstn_glue : forall (A : Type) (l : list A) a b, (a <= b <= length l)%nat ->
  firstn b l = firstn a l ++ firstn (b - a) (skipn a l).
Proof.
  intros A l a b H. rewrite <- (firstn_skipn a l) at 1. rewrite firstn_app.
  assert (L : length (firstn a l) = a) by (apply firstn_length_le; lia). rewrite L.
  rewrite firstn_firstn, Nat.min_r by lia. reflexivity.
Qed.

(** Concatenated slices are a prefix of the permutation. *)
Lemma count_slices : forall (rs perm : list Z) lo hi k,
  (forall q, (q < length rs)%nat -> 0 <= nth q rs 0) ->
  lsum rs = Z.of_nat (length perm) -> (k <= length rs)%nat ->
  zsum k (fun i => count_between lo hi (py_slice perm (prefix_sum rs i) (prefix_sum rs (S i))))
  = count_between lo hi (firstn (Z.to_nat (prefix_sum rs k)) perm).
Proof.
  intros rs perm lo hi k Hnn HS; induction k as [|k IH]; intros Hk; [reflexivity|].
  rewrite zsum_S, IH by lia.
  assert (P0 : 0 <= prefix_sum rs k).
  { rewrite <- (prefix_sum_0 rs). apply prefix_sum_mono; [exact Hnn|lia]. }
  assert (P1 : prefix_sum rs k <= prefix_sum rs (S k)) by (apply prefix_sum_mono; [exact Hnn|lia]).
  assert (P2 : prefix_sum rs (S k) <= Z.of_nat (length perm)).
  { rewrite <- HS, <- prefix_sum_all. apply prefix_sum_mono; [exact Hnn|lia]. }
  rewrite <- (Z2Nat.id (prefix_sum rs k)) at 2 by lia.
  rewrite <- (Z2Nat.id (prefix_sum rs (S k))) at 1 by lia.
  rewrite py_slice_seq by lia. rewrite <- count_app, <- firstn_glue by lia. reflexivity.
Qed.

Lemma slice_length : forall (rs perm : list Z) k,
  (forall q, (q < length rs)%nat -> 0 <= nth q rs 0) ->
  lsum rs = Z.of_nat (length perm) -> (k < length rs)%nat ->
  Z.of_nat (length (py_slice perm (prefix_sum rs k) (prefix_sum rs (S k)))) = nth k rs 0.
Proof.
  intros rs perm k Hnn HS Hk.
  assert (P0 : 0 <= prefix_sum rs k).
  { rewrite <- (prefix_sum_0 rs). apply prefix_sum_mono; [exact Hnn|lia]. }
  assert (P1 : prefix_sum rs k <= prefix_sum rs (S k)) by (apply prefix_sum_mono; [exact Hnn|lia]).
  assert (P2 : prefix_sum rs (S k) <= Z.of_nat (length perm)).
  { rewrite <- HS, <- prefix_sum_all. apply prefix_sum_mono; [exact Hnn|lia]. }
  rewrite <- (Z2Nat.id (prefix_sum rs k)) by lia.
  rewrite <- (Z2Nat.id (prefix_sum rs (S k))) by lia.
  rewrite py_slice_seq by lia. rewrite firstn_length, skipn_length.
  pose proof (prefix_sum_S rs k Hk). lia.
Qed.

Lemma py_slice_incl : forall (A : Type) (l : list A) a b x, In x (py_slice l a b) -> In x l.
Proof.
  intros A l a b x H; unfold py_slice in H.
  rewrite <- (firstn_skipn (Z.to_nat (py_index (Z.of_nat (length l)) a)) l).
  apply in_or_app; right.
  rewrite <- (firstn_skipn (Z.to_nat (py_index (Z.of_nat (length l)) b) - Z.to_nat (py_index (Z.of_nat (length l)) a))).
  apply in_or_app; left; exact H.
Qed.

Theorem C06_monte_carlo_start_table : forall s truth m axes c perm,
  (forall a, length (m a) = axis_len s a) ->
  (forall a x, In x (m a) -> 0 <= x) ->
  zsum (nI s) (fun i => nth i (m A1) 0) = nth 0 (m A01) 0 ->
  zsum (nJ s) (fun j => nth j (m A0) 0) = nth 0 (m A01) 0 ->
  build_ct s truth m axes [] = Ok c ->
  is_randperm (nth 0 (m A01) 0) perm ->
  exists t, table_monte_carlo_sample c no_margins perm = Ok t /\
    (forall i j, (i < nI s)%nat -> (j < nJ s)%nat -> 0 <= t i j) /\
    (forall i, (i < nI s)%nat -> zsum (nJ s) (fun j => t i j) = nth i (m A1) 0) /\
    (forall j, (j < nJ s)%nat -> zsum (nI s) (fun i => t i j) = nth j (m A0) 0).
Proof.
  intros s truth m axes c perm W Hnn HR HC Hok HP.
  destruct (build_shape _ _ _ _ _ _ Hok) as [Es [Et [Em [Ea Ef]]]].
  pose proof (build_resid _ _ _ _ _ _ Hok) as Er. cbn in Er.
  remember (nth 0 (m A01) 0) as N eqn:EN.
  assert (HN : 0 <= N).
  { rewrite EN. apply (Hnn A01). apply nth_In. rewrite W; cbn; lia. }
  assert (W1 : length (m A1) = nI s) by apply (W A1).
  assert (W0 : length (m A0) = nJ s) by apply (W A0).
  assert (N1 : forall q, (q < length (m A1))%nat -> 0 <= nth q (m A1) 0)
    by (intros; apply (Hnn A1), nth_In; assumption).
  assert (N0 : forall q, (q < length (m A0))%nat -> 0 <= nth q (m A0) 0)
    by (intros; apply (Hnn A0), nth_In; assumption).
  assert (LP : Z.of_nat (length perm) = N).
  { rewrite (Permutation_length HP), map_length, seq_length. lia. }
  assert (RP : forall x, In x perm -> 0 < x <= N).
  { intros x Hx. apply (Permutation_in _ HP) in Hx. apply in_map_iff in Hx as [z [<- Hz]].
    apply in_seq in Hz. lia. }
  assert (S1 : lsum (m A1) = Z.of_nat (length perm)).
  { rewrite LP, <- zsum_nth, W1. exact HR. }
  assert (S0 : lsum (m A0) = N).
  { rewrite <- zsum_nth, W0. exact HC. }
  assert (F : forall i j, monte_carlo_fill (update_margins c no_margins) perm i j =
     count_between (prefix_sum (m A0) j) (prefix_sum (m A0) (S j))
       (py_slice perm (prefix_sum (m A1) i) (prefix_sum (m A1) (S i)))).
  { intros i j. unfold monte_carlo_fill; cbn. rewrite Ef, Er; reflexivity. }
  set (t := monte_carlo_fill (update_margins c no_margins) perm) in *.
  assert (Rows : forall i, (i < nI s)%nat -> zsum (nJ s) (fun j => t i j) = nth i (m A1) 0).
  { intros i Hi. rewrite (zsum_ext _ _ _ (fun k _ => F i k)).
    rewrite <- W0, count_prefixes by (try exact N0; lia).
    rewrite prefix_sum_all, S0, count_full.
    - apply slice_length; [exact N1|exact S1|lia].
    - intros x Hx; apply RP. eapply py_slice_incl; exact Hx. }
  assert (Cols : forall j, (j < nJ s)%nat -> zsum (nI s) (fun i => t i j) = nth j (m A0) 0).
  { intros j Hj. rewrite (zsum_ext _ _ _ (fun k _ => F k j)).
    rewrite <- W1, count_slices by (try exact N1; try exact S1; lia).
    rewrite prefix_sum_all, S1, Nat2Z.id, firstn_all, (count_perm _ _ _ _ HP).
    pose proof (prefix_sum_S (m A0) j).
    assert (0 <= prefix_sum (m A0) j).
    { rewrite <- (prefix_sum_0 (m A0)). apply prefix_sum_mono; [exact N0|lia]. }
    assert (prefix_sum (m A0) (S j) <= N).
    { assert (Q : prefix_sum (m A0) (S j) <= prefix_sum (m A0) (length (m A0)))
        by (apply prefix_sum_mono; [exact N0|lia]). rewrite prefix_sum_all in Q; lia. }
    rewrite count_seq; [lia|lia|apply prefix_sum_mono; [exact N0|lia]|lia]. }
  exists t. split; [|split; [|split; assumption]].
  - unfold table_monte_carlo_sample. cbn -[monte_carlo_fill admissibility_debugging update_margins].
    assert (nth 0 (ct_resid (update_margins c no_margins) A01) 0 = N) as ->.
    { cbn. rewrite Er; symmetry; exact EN. }
    destruct (Z.ltb_spec N 0); [lia|]. fold t.
    unfold admissibility_debugging.
    assert (table_admissible (update_margins c no_margins) t = true) as ->; [|reflexivity].
    assert (E : update_margins c no_margins = c) by (destruct c; reflexivity). rewrite E.
    apply C01_admissible_iff; [rewrite Em, Es; exact W|]. rewrite Es, Em, Ef.
    split; [|split; [|split]].
    + intros _; exact Rows.
    + intros _; exact Cols.
    + intros _. rewrite <- EN, <- HR. apply zsum_ext; intros; apply Rows; assumption.
    + intros i j [].
  - intros i j Hi Hj. rewrite F. unfold count_between. lia.
Qed.
Print Assumptions C06_monte_carlo_start_table.

Example C06_nonvacuous :
  let m := ex_margins in
  exists c, build_ct (Shape 2 3) ex_table m [A0; A1] [] = Ok c /\
    zsum 2 (fun i => nth i (m A1) 0) = nth 0 (m A01) 0 /\
    zsum 3 (fun j => nth j (m A0) 0) = nth 0 (m A01) 0 /\
    is_randperm 21 (rev (map Z.of_nat (seq 1 21))) /\
    exists t, table_monte_carlo_sample c no_margins (rev (map Z.of_nat (seq 1 21))) = Ok t
      /\ t 0%nat 2%nat = 9 /\ t 1%nat 1%nat = 7.
Proof.
  eexists; split; [reflexivity|]. split; [reflexivity|split; [reflexivity|split]].
  - unfold is_randperm. symmetry. apply Permutation_rev.
  - eexists; split; [vm_compute; reflexivity|split; reflexivity].
Qed.

(** ---- C07 ---------------------------------------------------------- *)

(** The four solvers selectable as start table, with their random input. *)
Inductive solver_run :=
| SMonteCarlo (m : ax -> option (list Z)) (perm : list Z)
| SRandom (float_bound_ok : bool) (draw : table)
| SMaxEntropy (teq : bool) (m : ax -> option (list Z)) (draws : list nat)
| SDirect (t : table).

(** The table returned, if the solver returns; table_direct_sampling,
    __init__.py:1038-1046, checks whatever the sampler [t] produced. *)
Definition solver_result (c : ct) (r : solver_run) : option table :=
  match r with
  | SMonteCarlo m perm => match table_monte_carlo_sample c m perm with Ok t => Some t | Raise _ => None end
  | SRandom fb d => match table_random_sample fb c d with Ok t => Some t | Raise _ => None end
  | SMaxEntropy teq m ds => match table_maximum_entropy_solution teq c m ds with MEDone t => Some t | _ => None end
  | SDirect t => match admissibility_debugging c t with Ok t => Some t | Raise _ => None end
  end.

(** The constraints in force: margins passed to the solver replace the stored. *)
Definition solver_margins (c : ct) (r : solver_run) : margins :=
  match r with
  | SMonteCarlo m _ | SMaxEntropy _ m _ => fun a => match m a with Some v => v | None => ct_margins c a end
  | _ => ct_margins c
  end.

Lemma adm_dbg_ok : forall c t t', admissibility_debugging c t = Ok t' ->
  t' = t /\ table_admissible c t = true.
Proof.
  intros c t t' H; unfold admissibility_debugging in H.
  destruct (table_admissible c t); inversion H; auto.
Qed.

Lemma me_run_done : forall teq c draws st t, me_run teq c draws st = MEDone t ->
  table_admissible c t = true.
Proof.
  intros teq c draws; induction draws as [|d draws IH]; intros st t H; cbn in H.
  - destruct (me_unchosen st); discriminate.
  - destruct (me_unchosen st) eqn:E; [discriminate|].
    destruct (me_check teq _ && table_admissible c _) eqn:B; [|eapply IH; exact H].
    apply andb_true_iff in B as [_ B]. unfold admissibility_debugging in H. rewrite B in H.
    inversion H; subst; exact B.
Qed.

Theorem C07_returned_table_admissible : forall (c : ct) (r : solver_run) (t : table),
  (forall a, length (solver_margins c r a) = axis_len (ct_shape c) a) ->
  solver_result c r = Some t ->
  (In A1 (ct_caxes c) -> forall i, (i < nI (ct_shape c))%nat ->
      zsum (nJ (ct_shape c)) (fun j => t i j) = nth i (solver_margins c r A1) 0) /\
  (In A0 (ct_caxes c) -> forall j, (j < nJ (ct_shape c))%nat ->
      zsum (nI (ct_shape c)) (fun i => t i j) = nth j (solver_margins c r A0) 0) /\
  (In A01 (ct_caxes c) ->
      zsum (nI (ct_shape c)) (fun i => zsum (nJ (ct_shape c)) (fun j => t i j))
      = nth 0 (solver_margins c r A01) 0) /\
  (forall i j, In (i, j) (ct_fixed c) -> t i j = ct_truth c i j).
Proof.
  intros c r t W H.
  assert (exists c', ct_shape c' = ct_shape c /\ ct_caxes c' = ct_caxes c /\ ct_fixed c' = ct_fixed c /\
    ct_truth c' = ct_truth c /\ ct_margins c' = solver_margins c r /\ table_admissible c' t = true)
    as [c' [E1 [E2 [E3 [E4 [E5 A]]]]]].
  { destruct r as [m perm|fb d|teq m ds|t0]; cbn in H.
    - exists (update_margins c m). unfold table_monte_carlo_sample in H.
      destruct (_ <? 0); [discriminate|].
      destruct (admissibility_debugging _ _) as [u|e] eqn:E; [|discriminate].
      apply adm_dbg_ok in E as [-> A]. inversion H; subst. repeat split; auto.
    - exists c. unfold table_random_sample in H. destruct (ct_caxes c) eqn:Q; [|discriminate].
      destruct (_ && _ && _); [discriminate|].
      destruct (admissibility_debugging _ _) as [u|e] eqn:E; [|discriminate].
      apply adm_dbg_ok in E as [-> A]. inversion H; subst. repeat split; auto.
    - exists (update_margins c m). unfold table_maximum_entropy_solution in H.
      destruct (ct_caxes (update_margins c m)) eqn:Q.
      + destruct (me_unchosen _); discriminate.
      + destruct (me_run _ _ _ _) as [u|e|st] eqn:R; try discriminate. inversion H; subst.
        apply me_run_done in R. repeat split; auto.
    - exists c. destruct (admissibility_debugging _ _) as [u|e] eqn:E; [|discriminate].
      apply adm_dbg_ok in E as [-> A]. inversion H; subst. repeat split; auto. }
  apply C01_admissible_iff in A; [|rewrite E1, E5; exact W].
  rewrite E1, E2, E3, E4, E5 in A. exact A.
Qed.
Print Assumptions C07_returned_table_admissible.

Definition ex_built (axes : list ax) (fixed : list cell) : ct :=
  match build_ct (Shape 2 3) ex_table ex_margins axes fixed with Ok c => c | Raise _ => ex_ct end.

Example C07_nonvacuous :
  let c := ex_built [A1] [(0, 1)%nat] in
  let r := SMaxEntropy false no_margins (repeat 0%nat 30) in
  build_ct (Shape 2 3) ex_table ex_margins [A1] [(0, 1)%nat] = Ok c /\
  option_map (fun t => t 0%nat 1%nat) (solver_result c r) = Some 3 /\
  (forall a, length (solver_margins c r a) = axis_len (Shape 2 3) a).
Proof.
  split; [vm_compute; reflexivity|]. split; [vm_compute; reflexivity|intros []; reflexivity].
Qed.

(** ---- C08 ---------------------------------------------------------- *)

Definition me_entry (k : cell) (m : margins) (a : ax) : Z :=
  match a with
  | A01 => nth 0 (m A01) 0
  | A0 => nth (snd k) (m A0) 0
  | A1 => nth (fst k) (m A1) 0
  end.

Lemma fold_min_pos : forall (f : ax -> Z) l x,
  (0 < fold_left (fun acc b => Z.min acc (f b)) l x <-> 0 < x /\ forall b, In b l -> 0 < f b).
Proof.
  intros f l; induction l as [|b l IH]; intros x; cbn.
  - split; [intros; split; [assumption|intros b []]|tauto].
  - rewrite IH. split.
    + intros [H1 H2]. split; [lia|]. intros e [<-|He]; [lia|auto].
    + intros [H1 H2]. split; [|intros; apply H2; right; assumption].
      specialize (H2 b (or_introl eq_refl)). lia.
Qed.

Lemma minres_pos : forall c k m,
  0 < minres_given_constraints c k m <-> forall a, In a (ct_caxes c) -> 0 < me_entry k m a.
Proof.
  intros c k m; unfold minres_given_constraints. destruct (ct_caxes c) as [|a l].
  - split; [intros _ a []|lia].
  - rewrite (fold_min_pos (me_entry k m)). split.
    + intros [H1 H2] b [<-|Hb]; auto.
    + intros H; split; [apply (H a); left; reflexivity|intros; apply H; right; assumption].
Qed.

Lemma sub_one_spec : forall s axes k m, margins_wf s m -> in_shape s k ->
  margins_wf s (sub_cell axes k 1 m) /\
  (forall i, (i < nI s)%nat -> nth i (sub_cell axes k 1 m A1) 0 =
     nth i (m A1) 0 - (if ax_in A1 axes then (if Nat.eqb i (fst k) then 1 else 0) else 0)) /\
  (forall j, (j < nJ s)%nat -> nth j (sub_cell axes k 1 m A0) 0 =
     nth j (m A0) 0 - (if ax_in A0 axes then (if Nat.eqb j (snd k) then 1 else 0) else 0)) /\
  nth 0 (sub_cell axes k 1 m A01) 0 = nth 0 (m A01) 0 - (if ax_in A01 axes then 1 else 0).
Proof.
  intros s axes k m W Hk.
  destruct (sub_cells_spec s axes (fun _ _ => 1) [k] m W) as [H1 [H2 [H3 H4]]].
  { intros q [<-|[]]; exact Hk. }
  unfold sub_cells in *; cbn [fold_left] in *. split; [exact H1|]. split; [|split].
  - intros i Hi. rewrite H2 by exact Hi. destruct (ax_in A1 axes); [|reflexivity]. cbn [filter].
    rewrite (Nat.eqb_sym i). destruct (Nat.eqb (fst k) i); reflexivity.
  - intros j Hj. rewrite H3 by exact Hj. destruct (ax_in A0 axes); [|reflexivity]. cbn [filter].
    rewrite (Nat.eqb_sym j). destruct (Nat.eqb (snd k) j); reflexivity.
  - rewrite H4. reflexivity.
Qed.

Lemma add_one_row : forall s k t i, in_shape s k -> (i < nI s)%nat ->
  zsum (nJ s) (fun j => add_one k t i j) = zsum (nJ s) (fun j => t i j) + (if Nat.eqb i (fst k) then 1 else 0).
Proof.
  intros s [a b] t i [Ha Hb] Hi; cbn in *.
  rewrite (zsum_ext _ _ (fun j => t i j + (if Nat.eqb j b then (if Nat.eqb i a then 1 else 0) else 0))).
  - rewrite zsum_add, zsum_delta. assert ((b <? nJ s)%nat = true) as -> by (apply Nat.ltb_lt; lia). reflexivity.
  - intros j _. unfold add_one, cell_eqb; cbn. destruct (Nat.eqb i a), (Nat.eqb j b); cbn; lia.
Qed.

Lemma add_one_col : forall s k t j, in_shape s k -> (j < nJ s)%nat ->
  zsum (nI s) (fun i => add_one k t i j) = zsum (nI s) (fun i => t i j) + (if Nat.eqb j (snd k) then 1 else 0).
Proof.
  intros s [a b] t j [Ha Hb] Hj; cbn in *.
  rewrite (zsum_ext _ _ (fun i => t i j + (if Nat.eqb i a then (if Nat.eqb j b then 1 else 0) else 0))).
  - rewrite zsum_add, zsum_delta. assert ((a <? nI s)%nat = true) as -> by (apply Nat.ltb_lt; lia). reflexivity.
  - intros i _. unfold add_one, cell_eqb; cbn. destruct (Nat.eqb i a), (Nat.eqb j b); cbn; lia.
Qed.

Lemma add_one_total : forall s k t, in_shape s k -> total s (add_one k t) = total s t + 1.
Proof.
  intros s k t Hk; unfold total, row_sum.
  rewrite (zsum_ext _ _ (fun i => zsum (nJ s) (fun j => t i j) + (if Nat.eqb i (fst k) then 1 else 0)))
    by (intros; apply add_one_row; assumption).
  rewrite zsum_add, zsum_delta. destruct Hk as [Ha Hb].
  assert ((fst k <? nI s)%nat = true) as -> by (apply Nat.ltb_lt; lia). reflexivity.
Qed.

Lemma remove_cell_in : forall k l x, In x (remove_cell k l) <-> In x l /\ x <> k.
Proof.
  intros k l x; unfold remove_cell; rewrite filter_In, negb_true_iff. split; intros [H1 H2]; split; auto.
  - intros ->. assert (cell_eqb k k = true) by (apply cell_eqb_spec; reflexivity). congruence.
  - destruct (cell_eqb k x) eqn:E; [apply cell_eqb_spec in E; congruence|reflexivity].
Qed.

Lemma remove_cell_notin : forall k l, ~ In k l -> remove_cell k l = l.
Proof.
  intros k l; induction l as [|z l IH]; intros Hy; [reflexivity|]. unfold remove_cell in *; cbn.
  destruct (cell_eqb k z) eqn:E; cbn.
  - apply cell_eqb_spec in E; subst z. exfalso; apply Hy; left; reflexivity.
  - f_equal. apply IH. intros Hin; apply Hy; right; exact Hin.
Qed.

Lemma remove_cell_length : forall k l, NoDup l -> In k l -> length l = S (length (remove_cell k l)).
Proof.
  intros k l HN; induction HN as [|y l Hy HN IH]; intros Hk; [destruct Hk|].
  assert (E0 : remove_cell k (y :: l) = if cell_eqb k y then remove_cell k l else y :: remove_cell k l).
  { unfold remove_cell; cbn. destruct (cell_eqb k y); reflexivity. }
  rewrite E0. destruct (cell_eqb k y) eqn:E; cbn [length].
  - apply cell_eqb_spec in E; subst y. rewrite remove_cell_notin by exact Hy. reflexivity.
  - destruct Hk as [->|Hk].
    + assert (cell_eqb k k = true) by (apply cell_eqb_spec; reflexivity). congruence.
    + f_equal. apply IH; exact Hk.
Qed.

Lemma rows_diff : forall s w u,
  zsum (nI s) (fun i => row_sum s w i - row_sum s u i) = total s w - total s u.
Proof. intros s w u; unfold total. exact (zsum_sub _ _ _). Qed.

Lemma cols_diff : forall s w u,
  zsum (nJ s) (fun j => col_sum s w j - col_sum s u j) = total s w - total s u.
Proof. intros s w u; rewrite !total_cols. exact (zsum_sub _ _ _). Qed.

Section MaxEntropy.
  Variables (s : shape) (truth : table) (m : margins) (axes : list ax) (fixed : list cell)
            (c : ct) (w : table) (teq : bool).
  Hypothesis Wm : forall a, length (m a) = axis_len s a.
  Hypothesis Hin : forall k, In k fixed -> (fst k < nI s)%nat /\ (snd k < nJ s)%nat.
  Hypothesis Hnd : NoDup fixed.
  Hypothesis Hok : build_ct s truth m axes fixed = Ok c.
  Hypothesis Hw : table_admissible c w = true.
  Hypothesis Hw0 : forall i j, (i < nI s)%nat -> (j < nJ s)%nat -> 0 <= w i j.
  Hypothesis Hax : axes <> [].
  Hypothesis Hcase : fixed = [] \/ ~ (In A0 axes /\ In A1 axes).

  Let F0 := ct_free c.

  Record MInv (st : me_state) : Prop := {
    mi_wf : margins_wf s (me_resid st);
    mi_free : incl (me_free st) F0;
    mi_un : incl (me_unchosen st) (me_free st);
    mi_nd : NoDup (me_free st);
    mi_und : NoDup (me_unchosen st);
    mi_nn : forall i j, (i < nI s)%nat -> (j < nJ s)%nat -> 0 <= me_table st i j;
    mi_fix : forall i j, In (i, j) fixed -> me_table st i j = truth i j;
    mi_row : In A1 axes -> forall i, (i < nI s)%nat ->
      row_sum s (me_table st) i + nth i (me_resid st A1) 0 = nth i (m A1) 0 /\ 0 <= nth i (me_resid st A1) 0;
    mi_col : In A0 axes -> forall j, (j < nJ s)%nat ->
      col_sum s (me_table st) j + nth j (me_resid st A0) 0 = nth j (m A0) 0 /\ 0 <= nth j (me_resid st A0) 0;
    mi_tot : total s (me_table st) + nth 0 (me_resid st A01) 0 = nth 0 (m A01) 0 /\ 0 <= nth 0 (me_resid st A01) 0;
    mi_gone : forall k, In k F0 -> ~ In k (me_free st) -> minres_given_constraints c k (me_resid st) <= 0;
    mi_empty : me_unchosen st = [] -> me_free st = [] }.

  Let Es := proj1 (build_shape _ _ _ _ _ _ Hok).
  Let Et := proj1 (proj2 (build_shape _ _ _ _ _ _ Hok)).
  Let Em := proj1 (proj2 (proj2 (build_shape _ _ _ _ _ _ Hok))).
  Let Ea := proj1 (proj2 (proj2 (proj2 (build_shape _ _ _ _ _ _ Hok)))).
  Let Ef := proj2 (proj2 (proj2 (proj2 (build_shape _ _ _ _ _ _ Hok)))).

  Lemma me_ca1 : In A1 (ct_caxes c) <-> In A1 axes.
  Proof. rewrite Ea. apply C02_two_way_closure. Qed.
  Lemma me_ca0 : In A0 (ct_caxes c) <-> In A0 axes.
  Proof. rewrite Ea. apply C02_two_way_closure. Qed.
  Lemma me_ca01 : In A01 (ct_caxes c).
  Proof.
    rewrite Ea. apply C02_two_way_closure. destruct axes as [|a l]; [congruence|].
    destruct a; cbn; auto.
  Qed.

  Lemma me_free_in : forall i j, In (i, j) F0 <-> ((i < nI s)%nat /\ (j < nJ s)%nat /\ ~ In (i, j) fixed).
  Proof. apply (C04_residual_margins _ _ _ _ _ _ Wm Hin Hnd Hok). Qed.

  Lemma me_adm_w :
    (In A1 axes -> forall i, (i < nI s)%nat -> row_sum s w i = nth i (m A1) 0) /\
    (In A0 axes -> forall j, (j < nJ s)%nat -> col_sum s w j = nth j (m A0) 0) /\
    total s w = nth 0 (m A01) 0 /\
    (forall i j, In (i, j) fixed -> w i j = truth i j).
  Proof.
    pose proof Hw as H. apply C01_admissible_iff in H; [|rewrite Em, Es; exact Wm].
    rewrite Es, Em, Et, Ef in H. destruct H as [H1 [H0 [H01 HC]]].
    split; [|split; [|split]].
    - intros Ha; apply H1, me_ca1, Ha.
    - intros Ha; apply H0, me_ca0, Ha.
    - apply H01, me_ca01.
    - exact HC.
  Qed.

  Lemma me_fixed_le : forall i j, (i < nI s)%nat -> (j < nJ s)%nat ->
    0 <= (if cell_in (i, j) fixed then truth i j else 0) <= w i j.
  Proof.
    intros i j Hi Hj. destruct (cell_in (i, j) fixed) eqn:E.
    - apply cell_in_spec in E. destruct me_adm_w as [_ [_ [_ HC]]].
      rewrite <- (HC i j E). specialize (Hw0 i j Hi Hj); lia.
    - specialize (Hw0 i j Hi Hj); lia.
  Qed.

  Lemma me_init_inv : MInv (me_init c).
  Proof.
    destruct (C04_residual_margins _ _ _ _ _ _ Wm Hin Hnd Hok) as [HR [HC [HT [HF HN]]]].
    destruct me_adm_w as [A1w [A0w [A01w ACw]]].
    constructor; cbn.
    - rewrite (build_resid _ _ _ _ _ _ Hok). apply (sub_cells_spec s all_axes truth fixed m Wm Hin).
    - apply incl_refl.
    - apply incl_refl.
    - exact HN.
    - exact HN.
    - intros i j Hi Hj. rewrite Ef, Et. apply me_fixed_le; assumption.
    - intros i j H. rewrite Ef, Et. apply cell_in_spec in H. rewrite H; reflexivity.
    - intros Ha i Hi. rewrite HR by exact Hi. unfold row_sum. rewrite Ef, Et.
      split; [lia|]. rewrite <- (A1w Ha i Hi). unfold row_sum. rewrite <- zsum_sub.
      apply zsum_nonneg; intros j Hj. pose proof (me_fixed_le i j Hi Hj); lia.
    - intros Ha j Hj. rewrite HC by exact Hj. unfold col_sum. rewrite Ef, Et.
      split; [lia|]. rewrite <- (A0w Ha j Hj). unfold col_sum. rewrite <- zsum_sub.
      apply zsum_nonneg; intros i Hi. pose proof (me_fixed_le i j Hi Hj); lia.
    - rewrite HT. unfold total, row_sum. rewrite Ef, Et. split; [lia|].
      rewrite <- A01w. unfold total, row_sum. rewrite <- zsum_sub. apply zsum_nonneg; intros i Hi.
      rewrite <- zsum_sub. apply zsum_nonneg; intros j Hj. pose proof (me_fixed_le i j Hi Hj); lia.
    - intros k H1 H2; contradiction.
    - intros H; exact H.
  Qed.

  Lemma me_pick_in : forall d st, me_unchosen st <> [] -> In (me_pick d st) (me_unchosen st).
  Proof.
    intros d st H; unfold me_pick. apply nth_In. apply Nat.mod_upper_bound.
    destruct (me_unchosen st); cbn; congruence.
  Qed.

  Definition me_measure (st : me_state) : Z :=
    nth 0 (me_resid st A01) 0 + Z.of_nat (length (me_free st)).

  Lemma ax_in_false : forall a l, ~ In a l -> ax_in a l = false.
  Proof.
    intros a l H; destruct (ax_in a l) eqn:E; [apply ax_in_spec in E; contradiction|reflexivity].
  Qed.

  Lemma me_step_inv : forall k st, MInv st -> In k (me_unchosen st) ->
    MInv (me_step c k st) /\ me_measure (me_step c k st) = me_measure st - 1.
  Proof.
    intros k st I Hk.
    assert (HkF : In k F0) by (apply (mi_free st I), (mi_un st I), Hk).
    assert (Hks : in_shape s k) by (destruct k as [a b]; apply me_free_in in HkF; unfold in_shape; cbn; tauto).
    set (st1 := if minres_given_constraints c k (me_resid st) <=? 0 then
      ME (me_table st) (remove_cell k (me_free st)) (remove_cell k (me_unchosen st)) (me_resid st)
      else ME (add_one k (me_table st)) (me_free st) (remove_cell k (me_unchosen st))
         (sub_cell (ct_caxes c) k 1 (me_resid st))).
    assert (J : (forall P : me_unchosen st1 = [] -> me_free st1 = [],
        MInv (ME (me_table st1) (me_free st1) (me_unchosen st1) (me_resid st1))) /\
        MInv (ME (me_table st1) (me_free st1) (me_free st1) (me_resid st1)) /\
        me_measure st1 = me_measure st - 1).
    { subst st1. destruct (Z.leb_spec (minres_given_constraints c k (me_resid st)) 0) as [Hle|Hgt]; cbn.
      - assert (G : forall k0, In k0 F0 -> ~ In k0 (remove_cell k (me_free st)) ->
          minres_given_constraints c k0 (me_resid st) <= 0).
        { intros k0 H1 H2. destruct (cell_eqb k k0) eqn:E.
          - apply cell_eqb_spec in E; subst; exact Hle.
          - apply (mi_gone st I); [exact H1|]. intros H3; apply H2. apply remove_cell_in; split; [exact H3|].
            intros ->. assert (cell_eqb k k = true) by (apply cell_eqb_spec; reflexivity). congruence. }
        assert (IF : incl (remove_cell k (me_free st)) F0).
        { intros x Hx; apply remove_cell_in in Hx as [Hx _]; apply (mi_free st I), Hx. }
        assert (ND : NoDup (remove_cell k (me_free st))) by (apply NoDup_filter, (mi_nd st I)).
        split; [|split].
        + intros P. constructor; cbn; try apply I; try assumption.
          * intros x Hx. apply remove_cell_in in Hx as [Hx1 Hx2]. apply remove_cell_in; split; [apply (mi_un st I), Hx1|exact Hx2].
          * apply NoDup_filter, (mi_und st I).
        + constructor; cbn; try apply I; try assumption.
          * apply incl_refl.
          * tauto.
        + unfold me_measure; cbn.
          rewrite (remove_cell_length k (me_free st)) by (try apply (mi_nd st I); apply (mi_un st I), Hk). lia.
      - pose proof (proj1 (minres_pos c k (me_resid st)) Hgt) as POS.
        destruct (sub_one_spec s (ct_caxes c) k (me_resid st) (mi_wf st I) Hks) as [S1 [S2 [S3 S4]]].
        assert (X01 : ax_in A01 (ct_caxes c) = true) by (apply ax_in_spec, me_ca01).
        rewrite X01 in S4.
        pose proof (POS A01 me_ca01) as P01; cbn in P01.
        assert (NN : forall i j, (i < nI s)%nat -> (j < nJ s)%nat -> 0 <= add_one k (me_table st) i j).
        { intros i j Hi Hj. unfold add_one. pose proof (mi_nn st I i j Hi Hj). destruct (cell_eqb (i, j) k); lia. }
        assert (FX : forall i j, In (i, j) fixed -> add_one k (me_table st) i j = truth i j).
        { intros i j H. unfold add_one. destruct (cell_eqb (i, j) k) eqn:E; [|apply (mi_fix st I), H].
          apply cell_eqb_spec in E; subst k. apply me_free_in in HkF; tauto. }
        assert (RW : In A1 axes -> forall i, (i < nI s)%nat ->
           row_sum s (add_one k (me_table st)) i + nth i (sub_cell (ct_caxes c) k 1 (me_resid st) A1) 0 = nth i (m A1) 0
           /\ 0 <= nth i (sub_cell (ct_caxes c) k 1 (me_resid st) A1) 0).
        { intros Ha i Hi. rewrite S2 by exact Hi.
          assert (ax_in A1 (ct_caxes c) = true) as -> by (apply ax_in_spec, me_ca1, Ha).
          unfold row_sum. rewrite add_one_row by assumption.
          destruct (mi_row st I Ha i Hi) as [R1 R2]. unfold row_sum in R1.
          destruct (Nat.eqb_spec i (fst k)) as [->|]; [|lia].
          pose proof (POS A1 (proj2 me_ca1 Ha)) as P1; cbn in P1. lia. }
        assert (CW : In A0 axes -> forall j, (j < nJ s)%nat ->
           col_sum s (add_one k (me_table st)) j + nth j (sub_cell (ct_caxes c) k 1 (me_resid st) A0) 0 = nth j (m A0) 0
           /\ 0 <= nth j (sub_cell (ct_caxes c) k 1 (me_resid st) A0) 0).
        { intros Ha j Hj. rewrite S3 by exact Hj.
          assert (ax_in A0 (ct_caxes c) = true) as -> by (apply ax_in_spec, me_ca0, Ha).
          unfold col_sum. rewrite add_one_col by assumption.
          destruct (mi_col st I Ha j Hj) as [R1 R2]. unfold col_sum in R1.
          destruct (Nat.eqb_spec j (snd k)) as [->|]; [|lia].
          pose proof (POS A0 (proj2 me_ca0 Ha)) as P1; cbn in P1. lia. }
        assert (TW : total s (add_one k (me_table st)) + nth 0 (sub_cell (ct_caxes c) k 1 (me_resid st) A01) 0 = nth 0 (m A01) 0
           /\ 0 <= nth 0 (sub_cell (ct_caxes c) k 1 (me_resid st) A01) 0).
        { rewrite S4, add_one_total by exact Hks. destruct (mi_tot st I); lia. }
        assert (GW : forall k0, In k0 F0 -> ~ In k0 (me_free st) ->
           minres_given_constraints c k0 (sub_cell (ct_caxes c) k 1 (me_resid st)) <= 0).
        { intros k0 H1 H2. pose proof (mi_gone st I k0 H1 H2) as G.
          destruct (Z.leb_spec (minres_given_constraints c k0 (sub_cell (ct_caxes c) k 1 (me_resid st))) 0) as [|Hp]; [assumption|].
          exfalso. assert (0 < minres_given_constraints c k0 (me_resid st)); [|lia].
          apply minres_pos. intros a Ha. pose proof (proj1 (minres_pos _ _ _) Hp a Ha) as Q.
          destruct k0 as [i j]. apply me_free_in in H1 as [Hi [Hj _]].
          destruct a; cbn in *.
          - rewrite S3 in Q by exact Hj. destruct (ax_in A0 _), (Nat.eqb j (snd k)); lia.
          - rewrite S4 in Q. lia.
          - rewrite S2 in Q by exact Hi. destruct (ax_in A1 _), (Nat.eqb i (fst k)); lia. }
        split; [|split].
        + intros P. constructor; cbn; try apply I; try assumption.
          * intros x Hx. apply remove_cell_in in Hx as [Hx1 Hx2]. apply (mi_un st I), Hx1.
          * apply NoDup_filter, (mi_und st I).
        + constructor; cbn; try apply I; try assumption.
          * apply incl_refl.
          * tauto.
        + unfold me_measure; cbn [me_resid me_free]. rewrite S4. lia. }
    destruct J as [J1 [J2 J3]].
    unfold me_step. fold st1. destruct (me_unchosen st1) eqn:E.
    - split; [exact J2|]. exact J3.
    - split; [|exact J3]. destruct st1 as [t1 f1 u1 r1]; cbn in *. subst u1. apply J1. discriminate.
  Qed.

  Lemma me_zero_adm : forall st, MInv st -> nth 0 (me_resid st A01) 0 = 0 ->
    table_admissible c (me_table st) = true.
  Proof.
    intros st I HZ. destruct me_adm_w as [A1w [A0w [A01w ACw]]].
    apply C01_admissible_iff; [rewrite Em, Es; exact Wm|]. rewrite Es, Em, Ef, Et.
    destruct (mi_tot st I) as [T1 T2].
    split; [|split; [|split]].
    - intros Ha. apply me_ca1 in Ha. intros i Hi.
      assert (Z0 : zsum (nI s) (fun i => nth i (me_resid st A1) 0) = 0).
      { rewrite (zsum_ext _ _ (fun i => row_sum s w i - row_sum s (me_table st) i)).
        - rewrite rows_diff. lia.
        - intros q Hq. rewrite (A1w Ha q Hq). destruct (mi_row st I Ha q Hq); lia. }
      assert (nth i (me_resid st A1) 0 <= 0).
      { etransitivity; [|apply Z.eq_le_incl; exact Z0].
        apply (zsum_term_le (nI s) (fun i => nth i (me_resid st A1) 0)); [|exact Hi].
        intros q Hq; apply (mi_row st I Ha q Hq). }
      destruct (mi_row st I Ha i Hi) as [R1 R2]. unfold row_sum in R1. lia.
    - intros Ha. apply me_ca0 in Ha. intros j Hj.
      assert (Z0 : zsum (nJ s) (fun j => nth j (me_resid st A0) 0) = 0).
      { rewrite (zsum_ext _ _ (fun j => col_sum s w j - col_sum s (me_table st) j)).
        - rewrite cols_diff. lia.
        - intros q Hq. rewrite (A0w Ha q Hq). destruct (mi_col st I Ha q Hq); lia. }
      assert (nth j (me_resid st A0) 0 <= 0).
      { etransitivity; [|apply Z.eq_le_incl; exact Z0].
        apply (zsum_term_le (nJ s) (fun j => nth j (me_resid st A0) 0)); [|exact Hj].
        intros q Hq; apply (mi_col st I Ha q Hq). }
      destruct (mi_col st I Ha j Hj) as [R1 R2]. unfold col_sum in R1. lia.
    - intros _. unfold total, row_sum in T1. lia.
    - apply (mi_fix st I).
  Qed.

  Lemma zsum_pos_ex : forall n f, 0 < zsum n f -> exists k, (k < n)%nat /\ 0 < f k.
  Proof.
    induction n as [|n IH]; intros f H; [cbn in H; lia|].
    rewrite zsum_S in H. destruct (Z.ltb_spec 0 (f n)).
    - exists n; split; [lia|assumption].
    - destruct (IH f) as [k [Hk1 Hk2]]; [lia|]. exists k; split; [lia|assumption].
  Qed.

  (** Nothing left to choose means nothing left to distribute. *)
  Lemma me_no_free_zero : forall st, MInv st -> F0 <> [] -> me_free st = [] ->
    nth 0 (me_resid st A01) 0 = 0.
  Proof.
    intros st I HF0 HE. destruct me_adm_w as [A1w [A0w [A01w ACw]]].
    destruct (mi_tot st I) as [T1 T2].
    destruct (Z.eq_dec (nth 0 (me_resid st A01) 0) 0) as [|Hne]; [assumption|exfalso].
    assert (TP : 0 < nth 0 (me_resid st A01) 0) by lia.
    assert (RP : In A1 axes -> exists i, (i < nI s)%nat /\ 0 < nth i (me_resid st A1) 0).
    { intros Ha. apply zsum_pos_ex.
      rewrite (zsum_ext _ _ (fun i => row_sum s w i - row_sum s (me_table st) i)).
      - rewrite rows_diff. lia.
      - intros q Hq. rewrite (A1w Ha q Hq). destruct (mi_row st I Ha q Hq); lia. }
    assert (CP : In A0 axes -> exists j, (j < nJ s)%nat /\ 0 < nth j (me_resid st A0) 0).
    { intros Ha. apply zsum_pos_ex.
      rewrite (zsum_ext _ _ (fun j => col_sum s w j - col_sum s (me_table st) j)).
      - rewrite cols_diff. lia.
      - intros q Hq. rewrite (A0w Ha q Hq). destruct (mi_col st I Ha q Hq); lia. }
    assert (K : exists k, In k F0 /\ (In A1 axes -> 0 < nth (fst k) (me_resid st A1) 0)
       /\ (In A0 axes -> 0 < nth (snd k) (me_resid st A0) 0)).
    { assert (DEC : forall a, In a axes \/ ~ In a axes).
      { intros a; destruct (ax_in a axes) eqn:E; [left; apply ax_in_spec, E|right].
        intros Hb; apply ax_in_spec in Hb; congruence. }
      destruct (DEC A1) as [H1|H1]; destruct (DEC A0) as [H0|H0].
      - destruct Hcase as [Hf|Hf]; [|tauto].
        destruct (RP H1) as [i [Hi1 Hi2]]; destruct (CP H0) as [j [Hj1 Hj2]].
        exists (i, j). cbn. split; [apply me_free_in; rewrite Hf; cbn; tauto|tauto].
      - destruct (RP H1) as [i [Hi1 Hi2]].
        destruct (Z.ltb_spec 0 (zsum (nJ s) (fun j => w i j - me_table st i j))) as [HP|HP].
        + apply zsum_pos_ex in HP as [j [Hj1 Hj2]]. exists (i, j); cbn.
          split; [|tauto]. apply me_free_in. split; [|split]; auto. intros Hfx.
          rewrite (ACw i j Hfx), (mi_fix st I i j Hfx) in Hj2. lia.
        + exfalso. pose proof (zsum_sub (nJ s) (fun j => w i j) (fun j => me_table st i j)) as Q; cbv beta in Q.
          destruct (mi_row st I H1 i Hi1) as [R1 _].
          rewrite <- (A1w H1 i Hi1) in R1. unfold row_sum in R1. lia.
      - destruct (CP H0) as [j [Hj1 Hj2]].
        destruct (Z.ltb_spec 0 (zsum (nI s) (fun i => w i j - me_table st i j))) as [HP|HP].
        + apply zsum_pos_ex in HP as [i [Hi1 Hi2]]. exists (i, j); cbn.
          split; [|tauto]. apply me_free_in. split; [|split]; auto. intros Hfx.
          rewrite (ACw i j Hfx), (mi_fix st I i j Hfx) in Hi2. lia.
        + exfalso. pose proof (zsum_sub (nI s) (fun i => w i j) (fun i => me_table st i j)) as Q; cbv beta in Q.
          destruct (mi_col st I H0 j Hj1) as [R1 _].
          rewrite <- (A0w H0 j Hj1) in R1. unfold col_sum in R1. lia.
      - destruct F0 as [|k l]; [congruence|]. exists k. split; [left; reflexivity|tauto]. }
    destruct K as [k [K1 [K2 K3]]].
    assert (minres_given_constraints c k (me_resid st) <= 0).
    { apply (mi_gone st I); [exact K1|]. rewrite HE; intros []. }
    assert (0 < minres_given_constraints c k (me_resid st)); [|lia].
    apply minres_pos. intros a Ha. destruct a; cbn.
    - apply K3, me_ca0, Ha.
    - exact TP.
    - apply K2, me_ca1, Ha.
  Qed.

  Lemma me_run_total : forall draws st, MInv st -> F0 <> [] -> me_unchosen st <> [] ->
    (exists t, me_run teq c draws st = MEDone t /\ table_admissible c t = true /\
       forall i j, (i < nI s)%nat -> (j < nJ s)%nat -> 0 <= t i j) \/
    (exists st', me_run teq c draws st = MERun st' /\ Z.of_nat (length draws) < me_measure st).
  Proof.
    induction draws as [|d draws IH]; intros st I HF HU.
    - right. exists st. cbn [me_run]. destruct (me_unchosen st) as [|u q] eqn:E; [congruence|]. split; [reflexivity|].
      unfold me_measure. destruct (mi_tot st I) as [_ T2].
      assert (In u (me_free st)) as Hu by (apply (mi_un st I); rewrite E; left; reflexivity).
      cbn [length]. destruct (me_free st); [destruct Hu|cbn [length]; lia].
    - destruct (me_step_inv (me_pick d st) st I (me_pick_in d st HU)) as [I' ME'].
      cbn [me_run]. destruct (me_unchosen st) as [|u q] eqn:E; [congruence|]. rewrite <- E in *. clear E u q.
      set (st' := me_step c (me_pick d st) st) in *.
      destruct (me_check teq st' && table_admissible c (me_table st')) eqn:B.
      + left. exists (me_table st'). apply andb_true_iff in B as [_ B].
        unfold admissibility_debugging. rewrite B. split; [reflexivity|]. split; [reflexivity|].
        apply (mi_nn st' I').
      + assert (HFN : me_free st' <> []).
        { intros HE. apply andb_false_iff in B as [B|B].
          - unfold me_check in B. rewrite HE in B. cbn in B. rewrite orb_true_r in B. discriminate.
          - pose proof (me_no_free_zero st' I' HF HE) as HZ. rewrite (me_zero_adm st' I' HZ) in B. discriminate. }
        destruct (IH st' I' HF) as [L|[st'' [R1 R2]]].
        * intros HE; apply HFN, (mi_empty st' I'), HE.
        * left; exact L.
        * right. exists st''. split; [exact R1|]. cbn [length]. lia.
  Qed.
End MaxEntropy.

Theorem C08_maximum_entropy_terminates : forall s truth m axes fixed c w teq draws,
  (forall a, length (m a) = axis_len s a) ->
  (forall k, In k fixed -> (fst k < nI s)%nat /\ (snd k < nJ s)%nat) -> NoDup fixed ->
  build_ct s truth m axes fixed = Ok c ->
  table_admissible c w = true ->
  (forall i j, (i < nI s)%nat -> (j < nJ s)%nat -> 0 <= w i j) ->
  axes <> [] -> ct_free c <> [] ->
  (fixed = [] \/ ~ (In A0 axes /\ In A1 axes)) ->
  let r := table_maximum_entropy_solution teq c no_margins draws in
  (forall e, r <> MEErr e) /\
  (nth 0 (ct_resid c A01) 0 + Z.of_nat (length (ct_free c)) <= Z.of_nat (length draws) ->
   exists t, r = MEDone t) /\
  (forall t, r = MEDone t -> table_admissible c t = true /\
     forall i j, (i < nI s)%nat -> (j < nJ s)%nat -> 0 <= t i j).
Proof.
  intros s truth m axes fixed c w teq draws Wm Hin Hnd Hok Hw Hw0 Hax HF Hcase r.
  pose proof (me_init_inv s truth m axes fixed c w Wm Hin Hnd Hok Hw Hw0 Hax Hcase) as I.
  destruct (me_run_total s truth m axes fixed c w teq Wm Hin Hnd Hok Hw Hax Hcase draws _ I HF) as [[t [R1 [R2 R3]]]|[st [R1 R2]]].
  - exact HF.
  - assert (Er : r = MEDone t).
    { subst r; unfold table_maximum_entropy_solution.
      assert (E : update_margins c no_margins = c) by (destruct c; reflexivity). rewrite E.
      assert (Q : In A01 (ct_caxes c)) by (eapply me_ca01; eassumption).
      destruct (ct_caxes c); [destruct Q|exact R1]. }
    rewrite Er. split; [discriminate|]. split; [intros _; exists t; reflexivity|].
    intros t' Et; inversion Et; subst; split; assumption.
  - assert (Er : r = MERun st).
    { subst r; unfold table_maximum_entropy_solution.
      assert (E : update_margins c no_margins = c) by (destruct c; reflexivity). rewrite E.
      assert (Q : In A01 (ct_caxes c)) by (eapply me_ca01; eassumption).
      destruct (ct_caxes c); [destruct Q|exact R1]. }
    rewrite Er. split; [discriminate|]. split; [|discriminate].
    unfold me_measure in R2. cbn in R2. lia.
Qed.
Print Assumptions C08_maximum_entropy_terminates.

Definition me_done (r : me_out) : bool := match r with MEDone _ => true | _ => false end.

Example C08_nonvacuous :
  let c := ex_built [A0; A1] [] in
  build_ct (Shape 2 3) ex_table ex_margins [A0; A1] [] = Ok c /\
  table_admissible c ex_table = true /\ ct_free c <> [] /\
  me_done (table_maximum_entropy_solution false c no_margins (repeat 1%nat 27)) = true /\
  me_done (table_maximum_entropy_solution false c no_margins (repeat 1%nat 20)) = false.
Proof.
  split; [reflexivity|]. split; [reflexivity|]. split; [discriminate|].
  split; vm_compute; reflexivity.
Qed.

(** With both margins and fixed cells the greedy solver can paint itself into a
    corner: the diagonal of a 3x3 table is fixed, every residual is one, and the
    draws below fill (0,1) and (1,0); then no residual of row 2 and column 2 can
    be placed and the solver raises although a table exists. *)
Definition dead_truth : table := fun i j =>
  if Nat.eqb j (Nat.modulo (i + 1) 3) then 1 else 0.

Theorem C08_fixed_cells_refuted : exists s truth axes fixed c draws,
  (forall k, In k fixed -> in_shape s k) /\ NoDup fixed /\
  build_ct s truth (axis_margin s truth) axes fixed = Ok c /\
  table_admissible c truth = true /\
  (forall i j, 0 <= truth i j) /\
  forall teq, table_maximum_entropy_solution teq c no_margins draws = MEErr EValue.
Proof.
  exists (Shape 3 3), dead_truth, [A0; A1], [(0, 0); (1, 1); (2, 2)]%nat.
  eexists. exists [0; 1; 0; 0; 0; 0; 0; 0; 0; 0; 0; 0]%nat.
  split; [intros k H; repeat (destruct H as [<-|H]; [split; cbn; lia|]); destruct H|].
  split; [repeat constructor; cbn; intuition discriminate|].
  split; [vm_compute; reflexivity|]. split; [vm_compute; reflexivity|].
  split; [intros i j; unfold dead_truth; destruct (Nat.eqb _ _); lia|].
  intros []; vm_compute; reflexivity.
Qed.
Print Assumptions C08_fixed_cells_refuted.

(** ---- C10 ---------------------------------------------------------- *)

Lemma fold_max_bounds : forall (f : cell -> Z) l x,
  x <= fold_left (fun a k => Z.max a (f k)) l x /\
  (forall k, In k l -> f k <= fold_left (fun a k => Z.max a (f k)) l x) /\
  (fold_left (fun a k => Z.max a (f k)) l x = x \/ exists k, In k l /\ fold_left (fun a k => Z.max a (f k)) l x = f k).
Proof.
  intros f l; induction l as [|y l IH]; intros x; cbn.
  - split; [lia|split; [intros k []|left; reflexivity]].
  - destruct (IH (Z.max x (f y))) as [H1 [H2 H3]]. split; [lia|]. split.
    + intros k [<-|Hk]; [lia|auto].
    + destruct H3 as [H3|[k [Hk H3]]].
      * destruct (Z.max_spec x (f y)) as [[_ E]|[_ E]]; rewrite E in *.
        -- right; exists y; auto.
        -- left; exact H3.
      * right; exists k; auto.
Qed.

Lemma fold_min_nonneg : forall (f : cell -> Z) l, (forall k, In k l -> 0 <= f k) ->
  fold_left (fun a k => Z.min a (f k)) l 0 = 0.
Proof.
  intros f l; induction l as [|y l IH]; intros H; cbn; [reflexivity|].
  specialize (H y (or_introl eq_refl)) as Hy. rewrite Z.min_l by lia.
  apply IH; intros; apply H; right; assumption.
Qed.

Theorem C10_random_start_table : forall fb s truth m axes fixed c draw,
  (forall k, In k fixed -> (fst k < nI s)%nat /\ (snd k < nJ s)%nat) ->
  (forall i j, In (i, j) fixed -> 0 <= truth i j) ->
  build_ct s truth m axes fixed = Ok c ->
  rs_draw_ok c draw ->
  (axes <> [] -> table_random_sample fb c draw = Raise EExn) /\
  (axes = [] -> (fb = true \/ forall i j, In (i, j) fixed -> truth i j < 100) ->
     exists t, table_random_sample fb c draw = Ok t) /\
  (forall t, table_random_sample fb c draw = Ok t -> axes = [] /\
     (forall i j, In (i, j) fixed -> t i j = truth i j) /\
     (forall i j, (i < nI s)%nat -> (j < nJ s)%nat -> 0 <= t i j) /\
     (forall i j, (i < nI s)%nat -> (j < nJ s)%nat -> ~ In (i, j) fixed ->
        t i j < 100 \/ exists u v, In (u, v) fixed /\ t i j < truth u v)).
Proof.
  intros fb s truth m axes fixed c draw Hin Hnn Hok Hd.
  destruct (build_shape _ _ _ _ _ _ Hok) as [Es [Et [Em [Ea Ef]]]].
  pose proof (build_free _ _ _ _ _ _ Hok) as EF.
  assert (HFree : forall i j, In (i, j) (ct_free c) <-> ((i < nI s)%nat /\ (j < nJ s)%nat /\ ~ In (i, j) fixed)).
  { intros i j. rewrite EF, filter_In, all_cells_in, negb_true_iff, cell_in_false. unfold in_shape; cbn; tauto. }
  assert (FX : forall i j, In (i, j) fixed -> rs_fill c draw i j = truth i j).
  { intros i j H. unfold rs_fill.
    assert (cell_in (i, j) (ct_free c) = false) as -> by (apply cell_in_false; rewrite HFree; tauto).
    rewrite Ef, Et. assert (cell_in (i, j) fixed = true) as -> by (apply cell_in_spec, H). reflexivity. }
  assert (AX : axes = [] <-> ct_caxes c = []).
  { rewrite Ea. split; [intros ->; reflexivity|]. intros H.
    destruct axes as [|a l]; [reflexivity|].
    destruct (C02_two_way_closure (a :: l)) as [_ [_ K]]. rewrite H in K.
    exfalso. apply K. destruct a; cbn; auto. }
  split; [|split].
  - intros Hne. unfold table_random_sample. destruct (ct_caxes c); [tauto|reflexivity].
  - intros He Hb. apply AX in He. unfold table_random_sample. rewrite He.
    assert (rs_bounds_are_tensors c && negb fb = false) as ->.
    { destruct Hb as [->|Hb]; [apply andb_false_r|].
      assert (rs_bounds_are_tensors c = false) as ->; [|reflexivity].
      unfold rs_bounds_are_tensors. rewrite Ef, Et. apply existsb_false_iff. intros [i j] H; cbn.
      specialize (Hnn i j H); specialize (Hb i j H).
      destruct (Z.ltb_spec (truth i j) 0), (Z.leb_spec 100 (truth i j)); cbn; try reflexivity; lia. }
    cbn [andb]. unfold admissibility_debugging.
    assert (table_admissible c (rs_fill c draw) = true) as ->; [|eexists; reflexivity].
    unfold table_admissible. apply andb_true_iff; split.
    + unfold table_margins_admissible. rewrite He. reflexivity.
    + apply table_cells_admissible_iff. rewrite Ef, Et. exact FX.
  - intros t Ht. unfold table_random_sample in Ht. destruct (ct_caxes c) eqn:EC; [|discriminate].
    destruct (_ && _ && _); [discriminate|]. apply adm_dbg_ok in Ht as [-> _].
    split; [tauto|]. split; [exact FX|].
    assert (LOW : rs_low c = 0).
    { unfold rs_low. rewrite Ef, Et, fold_min_nonneg; [reflexivity|]. intros [i j] H; cbn; auto. }
    split.
    + intros i j Hi Hj. destruct (cell_in (i, j) fixed) eqn:E.
      * apply cell_in_spec in E. rewrite FX by exact E. auto.
      * apply cell_in_false in E. unfold rs_fill.
        assert (HH : In (i, j) (ct_free c)) by (apply HFree; auto).
        assert (cell_in (i, j) (ct_free c) = true) as -> by (apply cell_in_spec, HH).
        specialize (Hd i j HH). rewrite LOW in Hd. lia.
    + intros i j Hi Hj E. unfold rs_fill.
      assert (HH : In (i, j) (ct_free c)) by (apply HFree; auto).
      assert (cell_in (i, j) (ct_free c) = true) as -> by (apply cell_in_spec, HH).
      specialize (Hd i j HH). unfold rs_high in Hd. rewrite Ef, Et in Hd.
      destruct (fold_max_bounds (fun k => truth (fst k) (snd k)) fixed 1) as [H1 [H2 [H3|[[u v] [H3 H4]]]]].
      * left. rewrite H3 in Hd. lia.
      * cbn in H4. rewrite H4 in Hd. destruct (Z.ltb_spec (draw i j) 100); [left; assumption|].
        right. exists u, v. split; [exact H3|lia].
Qed.
Print Assumptions C10_random_start_table.

Example C10_nonvacuous : exists c t,
  build_ct (Shape 2 3) ex_table ex_margins [] [(0, 1)%nat] = Ok c /\
  rs_draw_ok c (fun _ _ => 42) /\
  table_random_sample false c (fun _ _ => 42) = Ok t /\ t 0%nat 1%nat = 3 /\ t 1%nat 1%nat = 42.
Proof.
  eexists; eexists. split; [vm_compute; reflexivity|].
  split; [intros i j _; vm_compute; split; [discriminate|reflexivity]|].
  split; [vm_compute; reflexivity|split; reflexivity].
Qed.
