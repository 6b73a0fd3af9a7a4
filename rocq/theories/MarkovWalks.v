(** Properties C12-C14: which tables Markov basis moves connect, and the size
    of a one-margin basis. *)
From Coq Require Import List ZArith Lia Bool Arith Permutation Sorted.
From Verif Require Import Base Axes Tables TablesProps InitTablesProps MarkovBasis MarkovBasisProps.
Import ListNotations.
Open Scope Z_scope.

Definition dist (s : shape) (t u : table) : Z := csum (fun x => Z.abs (tv t x - tv u x)) (all_cells s).

Lemma dist_nonneg : forall s t u, 0 <= dist s t u.
Proof. intros; apply csum_nonneg; intros; lia. Qed.

Lemma same_or_differ : forall s t u,
  same_on s t u \/ exists x, in_shape s x /\ tv t x <> tv u x.
Proof.
  intros s t u.
  destruct (existsb (fun x => negb (tv t x =? tv u x)) (all_cells s)) eqn:E.
  - right. apply existsb_exists in E as [x [Hx E]]. apply all_cells_in in Hx.
    exists x; split; [exact Hx|]. apply negb_true_iff, Z.eqb_neq in E; exact E.
  - left; intros i j Hi Hj. rewrite existsb_false_iff in E.
    specialize (E (i, j)). assert (In (i, j) (all_cells s)) by (apply all_cells_in; split; assumption).
    specialize (E H). apply negb_false_iff, Z.eqb_eq in E. exact E.
Qed.

(** If from every good table other than [u] some move leads to a good table
    closer to [u], every good table walks to [u]. *)
Lemma walk_by_distance : forall s (good : table -> Prop) fs u,
  (forall t, good t -> ~ same_on s t u -> exists f eps, In f fs /\ (eps = 1 \/ eps = -1) /\
     good (moved t f eps) /\ dist s (moved t f eps) u < dist s t u) ->
  forall t, good t -> walk s good fs t u.
Proof.
  intros s good fs u Hstep t.
  remember (Z.to_nat (dist s t u)) as n eqn:En. revert t En.
  induction n as [n IH] using lt_wf_ind; intros t En Hg.
  destruct (same_or_differ s t u) as [Hs|[x [Hx Hd]]]; [apply walk_here; assumption|].
  destruct (Hstep t Hg) as [f [eps [Hf [He [Hg' Hlt]]]]].
  { intros Hs; apply Hd. destruct x as [i j], Hx as [Hi Hj]; apply Hs; assumption. }
  apply (walk_move s good fs t u f eps); auto.
  apply (IH (Z.to_nat (dist s (moved t f eps) u))); auto.
  pose proof (dist_nonneg s t u); pose proof (dist_nonneg s (moved t f eps) u). lia.
Qed.

Lemma walk_good : forall s (good : table -> Prop) fs t u, walk s good fs t u -> good t.
Proof. intros s good fs t u []; assumption. Qed.

(** ---- C12 --------------------------------------------------------------- *)

(** Two cells on the same line of a table: one too large, one too small. *)
Lemma line_cells : forall (P : cell -> bool) s t u x,
  in_shape s x -> P x = true -> tv t x <> tv u x ->
  csum (tv t) (filter P (all_cells s)) = csum (tv u) (filter P (all_cells s)) ->
  exists a b, in_shape s a /\ in_shape s b /\ P a = true /\ P b = true /\
    tv u a < tv t a /\ tv t b < tv u b.
Proof.
  intros P s t u x Hx HP Hd HS.
  destruct (csum_zero_signs (fun y => tv t y + -1 * tv u y) (filter P (all_cells s)) x)
    as [[a [Ha Ha']] [b [Hb Hb']]].
  - apply filter_In; split; [apply all_cells_in; exact Hx|exact HP].
  - lia.
  - rewrite csum_add.
    assert (E : csum (fun y => -1 * tv u y) (filter P (all_cells s)) = - csum (tv u) (filter P (all_cells s))).
    { generalize (filter P (all_cells s)) as l; induction l as [|y l IH]; [reflexivity|].
      rewrite !csum_cons, IH; lia. }
    rewrite E; lia.
  - apply filter_In in Ha as [Ha1 Ha2]; apply filter_In in Hb as [Hb1 Hb2].
    apply all_cells_in in Ha1; apply all_cells_in in Hb1.
    exists a, b; repeat split; try tauto; lia || (destruct Ha1, Hb1; assumption).
Qed.

Lemma pair_dist : forall s t t' u a b, in_shape s a -> in_shape s b -> a <> b ->
  tv u a < tv t a -> tv t b < tv u b ->
  (forall x, in_shape s x -> tv t' x = tv t x - dl a x + dl b x) ->
  dist s t' u < dist s t u.
Proof.
  intros s t t' u a b Ha Hb Hne H1 H2 HV.
  assert (HL : dist s t' u <= csum (fun x => Z.abs (tv t x - tv u x) + (- dl a x + - dl b x)) (all_cells s)).
  { apply csum_le; intros x Hx. apply all_cells_in in Hx. rewrite (HV x Hx).
    destruct (cell_eqb x a) eqn:E1; [apply cell_eqb_spec in E1; subst|].
    - rewrite dl_refl, (dl_neq b a) by congruence. lia.
    - assert (x <> a) by (intros ->; rewrite cell_eqb_refl in E1; discriminate).
      rewrite (dl_neq a x) by assumption.
      destruct (cell_eqb x b) eqn:E2; [apply cell_eqb_spec in E2; subst|].
      + rewrite dl_refl. lia.
      + assert (x <> b) by (intros ->; rewrite cell_eqb_refl in E2; discriminate).
        rewrite (dl_neq b x) by assumption. lia. }
  assert (HM : forall k, in_shape s k -> csum (fun x => - dl k x) (all_cells s) = -1).
  { intros k Hk. assert (E : csum (fun x => - dl k x) (all_cells s) = - csum (dl k) (all_cells s)).
    { generalize (all_cells s) as l; induction l as [|y l IH]; [reflexivity|].
      rewrite !csum_cons, IH; lia. }
    rewrite E, csum_dl by apply all_cells_NoDup.
    assert (cell_in k (all_cells s) = true) as -> by (apply cell_in_spec, all_cells_in; exact Hk).
    reflexivity. }
  rewrite !csum_add, !HM in HL by assumption. unfold dist in *. lia.
Qed.

Theorem C12_one_margin_basis_connects : forall s truth m axes fixed c draws fs t u,
  build_ct s truth m axes fixed = Ok c ->
  (In A1 axes /\ ~ In A0 axes \/ In A0 axes /\ ~ In A1 axes) ->
  generate_markov_basis c draws = Ok fs ->
  nonneg_on s t -> nonneg_on s u -> same_margins s axes t u ->
  (forall i j, In (i, j) fixed -> t i j = u i j) ->
  walk s (fun v => nonneg_on s v /\ same_margins s axes v u /\
                   forall i j, In (i, j) fixed -> v i j = u i j) fs t u.
Proof.
  intros s truth m axes fixed c draws fs t u Hok Hone Hgen Ht Hu HM HF.
  assert (Hax : ax_in A0 axes || ax_in A1 axes = true).
  { rewrite orb_true_iff, !ax_in_spec; tauto. }
  assert (Hb : ax_in A0 axes && ax_in A1 axes = false).
  { rewrite andb_false_iff, !ax_in_false_iff; tauto. }
  destruct (generate_one s truth m axes fixed c Hok Hax Hb draws) as [ps [E [_ HI]]].
  rewrite Hgen in E; inversion E; subst fs; clear E.
  apply walk_by_distance; [|tauto].
  clear t Ht HM HF. intros t [Ht [HM HF]] Hns.
  destruct (same_or_differ s t u) as [Hs|[x [Hx Hd]]]; [contradiction|].
  (* two cells of the same line *)
  assert (HL : exists a b, in_shape s a /\ in_shape s b /\ tv u a < tv t a /\ tv t b < tv u b /\
            (partner axes a b \/ partner axes b a)).
  { destruct Hone as [[H1 H0]|[H0 H1]].
    - destruct (line_cells (fun k => Nat.eqb (fst k) (fst x)) s t u x Hx (Nat.eqb_refl _) Hd)
        as [a [b [Ha [Hb' [Pa [Pb [La Lb]]]]]]].
      + destruct Hx as [Hx1 Hx2].
        rewrite <- !row_sum_csum by exact Hx1. apply HM; assumption.
      + exists a, b; repeat split; try tauto; try (destruct Ha, Hb'; assumption).
        apply Nat.eqb_eq in Pa, Pb. unfold partner.
        apply ax_in_spec in H1. apply ax_in_false_iff in H0. rewrite H1, H0.
        destruct (Nat.lt_trichotomy (snd a) (snd b)) as [L|[L|L]]; [left; lia| |right; lia].
        exfalso. assert (a = b) by (destruct a, b; cbn in *; congruence). subst; lia.
    - destruct (line_cells (fun k => Nat.eqb (snd k) (snd x)) s t u x Hx (Nat.eqb_refl _) Hd)
        as [a [b [Ha [Hb' [Pa [Pb [La Lb]]]]]]].
      + destruct Hx as [Hx1 Hx2].
        rewrite <- !col_sum_csum by exact Hx2. apply HM; assumption.
      + exists a, b; repeat split; try tauto; try (destruct Ha, Hb'; assumption).
        apply Nat.eqb_eq in Pa, Pb. unfold partner.
        apply ax_in_false_iff in H1. rewrite H1.
        destruct (Nat.lt_trichotomy (fst a) (fst b)) as [L|[L|L]]; [left; lia| |right; lia].
        exfalso. assert (a = b) by (destruct a, b; cbn in *; congruence). subst; lia. }
  destruct HL as [a [b [Ha [Hb' [La [Lb HP]]]]]].
  assert (Fa : is_free s fixed a).
  { split; [exact Ha|]. intros Hin. destruct a as [i j]. specialize (HF i j Hin). unfold tv in La; cbn in La; lia. }
  assert (Fb : is_free s fixed b).
  { split; [exact Hb'|]. intros Hin. destruct b as [i j]. specialize (HF i j Hin). unfold tv in Lb; cbn in Lb; lia. }
  assert (Hne : a <> b) by (intros ->; lia).
  assert (HX : exists f eps, In f (map pair_move ps) /\ (eps = 1 \/ eps = -1) /\
            (forall x, tv (moved t f eps) x = tv t x - dl a x + dl b x)).
  { destruct HP as [HP|HP].
    - exists (pair_move (a, b)), (-1). split; [apply in_map, HI; tauto|]. split; [auto|].
      intros [i j]; unfold tv, moved; cbn [fst snd]. rewrite pair_value by exact Hne. lia.
    - exists (pair_move (b, a)), 1. split; [apply in_map, HI; tauto|]. split; [auto|].
      intros [i j]; unfold tv, moved; cbn [fst snd]. rewrite pair_value by congruence. lia. }
  destruct HX as [f [eps [Hf [He HV]]]].
  exists f, eps. split; [exact Hf|]. split; [exact He|].
  destruct (C11_moves_preserve_constraints s truth m axes fixed c draws _ f Hok Hgen Hf)
    as [MR [MC [MT [_ [MF _]]]]].
  split; [|apply (pair_dist s t _ u a b); auto].
  split; [|split].
  - intros i j Hi Hj. specialize (HV (i, j)). unfold tv in HV; cbn [fst snd] in HV. rewrite HV.
    pose proof (dl_01 b (i, j)). specialize (Ht i j Hi Hj).
    destruct (cell_eqb (i, j) a) eqn:Ea.
    + apply cell_eqb_spec in Ea; subst. rewrite dl_refl. unfold tv in La; cbn [fst snd] in La.
      specialize (Hu i j Hi Hj). lia.
    + rewrite (dl_neq a); [lia|]. intros Ex; rewrite Ex, cell_eqb_refl in Ea; discriminate.
  - destruct HM as [HM1 [HM2 HM3]]. split; [|split].
    + intros H1 i Hi. unfold moved. rewrite (row_sum_lin s t (fun i j => bf_value f (i, j))).
      specialize (MR H1 i). unfold row_sum at 2. rewrite MR, Z.mul_0_r, Z.add_0_r. apply HM1; assumption.
    + intros H0 j Hj. unfold moved. rewrite (col_sum_lin s t (fun i j => bf_value f (i, j))).
      specialize (MC H0 j). unfold col_sum at 2. rewrite MC, Z.mul_0_r, Z.add_0_r. apply HM2; assumption.
    + rewrite <- HM3. unfold total.
      rewrite (zsum_ext _ _ (fun i => row_sum s t i + eps * zsum (nJ s) (fun j => bf_value f (i, j)))).
      * rewrite zsum_add, zsum_mul, MT, Z.mul_0_r, Z.add_0_r. reflexivity.
      * intros i _. unfold moved. rewrite (row_sum_lin s t (fun i j => bf_value f (i, j))). reflexivity.
  - intros i j Hin. specialize (HV (i, j)). unfold tv in HV; cbn [fst snd] in HV. rewrite HV.
    rewrite (HF i j Hin), (dl_neq a), (dl_neq b); [lia| |]; intros Ex; subst.
    + destruct Fb; contradiction.
    + destruct Fa; contradiction.
Qed.
Print Assumptions C12_one_margin_basis_connects.

Example C12_nonvacuous : exists c fs,
  let s := Shape 2 3 in let t : table := fun i j => Z.of_nat (i + j) in
  let u : table := fun i j => Z.of_nat (i + (2 - j)) in
  build_ct s t (axis_margin s t) [A1] [(0, 1)%nat] = Ok c /\
  generate_markov_basis c (fun _ => 0%nat) = Ok fs /\
  nonneg_on s t /\ nonneg_on s u /\ same_margins s [A1] t u /\
  (forall i j, In (i, j) [(0, 1)%nat] -> t i j = u i j) /\ ~ same_on s t u /\ length fs = 4%nat.
Proof.
  eexists; eexists; cbv zeta. split; [reflexivity|]. split; [reflexivity|].
  split; [intros i j _ _; lia|]. split; [intros i j _ _; lia|].
  split; [|split; [|split; [|reflexivity]]].
  - split; [|split; [|reflexivity]].
    + intros _ i Hi; cbn in Hi. destruct i as [|[|i]]; [reflexivity|reflexivity|lia].
    + intros [H|[]]; discriminate.
  - intros i j [E|[]]; inversion E; subst; reflexivity.
  - intros H; specialize (H 0%nat 0%nat). cbn in H. discriminate H; lia.
Qed.

(** ---- C13 --------------------------------------------------------------- *)

Definition connects (s : shape) (fs : list basis_fn) : Prop :=
  forall t u, nonneg_on s t -> nonneg_on s u -> same_margins s [A0; A1] t u ->
  walk s (fun v => nonneg_on s v /\ same_margins s [A0; A1] v u) fs t u.

Lemma square_dist : forall s t t' u i j i' j', 
  (i < nI s)%nat -> (j < nJ s)%nat -> (i' < nI s)%nat -> (j' < nJ s)%nat -> i <> i' -> j <> j' ->
  u i j < t i j -> t i j' < u i j' -> u i' j' < t i' j' ->
  (forall x, in_shape s x -> tv t' x = tv t x - dl (i, j) x + dl (i, j') x - dl (i', j') x + dl (i', j) x) ->
  dist s t' u < dist s t u.
Proof.
  intros s t t' u i j i' j' Hi Hj Hi' Hj' Hni Hnj H1 H2 H3 HV.
  assert (HL : dist s t' u <= csum (fun x => Z.abs (tv t x - tv u x) +
     ((- dl (i, j) x + - dl (i, j') x) + (- dl (i', j') x + dl (i', j) x))) (all_cells s)).
  { apply csum_le; intros x Hx. apply all_cells_in in Hx. rewrite (HV x Hx).
    destruct x as [a b]; unfold tv; cbn [fst snd]. unfold dl, cell_eqb; cbn [fst snd].
    destruct (Nat.eqb_spec a i), (Nat.eqb_spec b j), (Nat.eqb_spec a i'), (Nat.eqb_spec b j');
      subst; cbn [andb]; try congruence; lia. }
  assert (HP : forall k, in_shape s k -> csum (dl k) (all_cells s) = 1).
  { intros k Hk. rewrite csum_dl by apply all_cells_NoDup.
    assert (cell_in k (all_cells s) = true) as -> by (apply cell_in_spec, all_cells_in; exact Hk). reflexivity. }
  assert (HM : forall k, in_shape s k -> csum (fun x => - dl k x) (all_cells s) = -1).
  { intros k Hk. assert (E : csum (fun x => - dl k x) (all_cells s) = - csum (dl k) (all_cells s)).
    { generalize (all_cells s) as l; induction l as [|y l IH]; [reflexivity|].
      rewrite !csum_cons, IH; lia. }
    rewrite E, HP by exact Hk. reflexivity. }
  rewrite csum_add in HL. rewrite csum_add in HL. rewrite csum_add in HL. rewrite csum_add in HL.
  rewrite !HM in HL by (split; assumption).
  change (csum (fun x => dl (i', j) x) (all_cells s)) with (csum (dl (i', j)) (all_cells s)) in HL.
  rewrite HP in HL by (split; assumption).
  unfold dist in *. lia.
Qed.

Lemma moved_same_margins : forall s t u f eps,
  (forall i, row_sum s (fun i j => bf_value f (i, j)) i = 0) ->
  (forall j, col_sum s (fun i j => bf_value f (i, j)) j = 0) ->
  same_margins s [A0; A1] t u -> same_margins s [A0; A1] (moved t f eps) u.
Proof.
  intros s t u f eps HR HC [H1 [H2 H3]]. unfold moved. split; [|split].
  - intros Ha i Hi. rewrite (row_sum_lin s t (fun i j => bf_value f (i, j))), HR, Z.mul_0_r, Z.add_0_r.
    apply H1; assumption.
  - intros Ha j Hj. rewrite (col_sum_lin s t (fun i j => bf_value f (i, j))), HC, Z.mul_0_r, Z.add_0_r.
    apply H2; assumption.
  - rewrite <- H3. unfold total. apply zsum_ext; intros i _.
    rewrite (row_sum_lin s t (fun i j => bf_value f (i, j))), HR. lia.
Qed.

(** A set of moves that contains every two-by-two minor connects all tables. *)
Theorem C13_all_minors_connect : forall s fs,
  (forall i j i' j', (i < i')%nat -> (j < j')%nat -> (i' < nI s)%nat -> (j' < nJ s)%nat ->
     In (square_move (i, j) (i', j')) fs) ->
  connects s fs.
Proof.
  intros s fs Hall t u Ht Hu HM.
  apply walk_by_distance; [|tauto].
  clear t Ht HM. intros t [Ht HM] Hns.
  destruct (same_or_differ s t u) as [Hs|[x [Hx Hd]]]; [contradiction|].
  destruct HM as [HM1 [HM0 HM01]].
  destruct (line_cells (fun k => Nat.eqb (fst k) (fst x)) s t u x Hx (Nat.eqb_refl _) Hd)
    as [[i j] [[i1 j'] [[Hi Hj] [[Hi1 Hj'] [Pa [Pb [La Lb]]]]]]].
  { destruct Hx as [Hx1 Hx2]. rewrite <- !row_sum_csum by exact Hx1. apply HM1; [right; left; reflexivity|assumption]. }
  cbn in Pa, Pb, Hi, Hj, Hi1, Hj'. apply Nat.eqb_eq in Pa, Pb. subst i i1. set (i := fst x) in *.
  destruct (line_cells (fun k => Nat.eqb (snd k) j') s t u (i, j')) as [[i' j1] [_ [[Hi' Hj1] [_ [Pc [_ [Lc _]]]]]]].
  { split; assumption. } { apply Nat.eqb_refl. } { unfold tv in *; cbn in *; lia. }
  { rewrite <- !col_sum_csum by exact Hj'. apply HM0; [left; reflexivity|assumption]. }
  cbn in Pc, Hi', Hj1. apply Nat.eqb_eq in Pc. subst j1.
  unfold tv in La, Lb, Lc; cbn [fst snd] in La, Lb, Lc.
  assert (Hnj : j <> j') by (intros ->; lia).
  assert (Hni : i <> i') by (intros <-; lia).
  assert (HX : exists f eps, In f fs /\ (eps = 1 \/ eps = -1) /\
      (forall i, row_sum s (fun i j => bf_value f (i, j)) i = 0) /\
      (forall j, col_sum s (fun i j => bf_value f (i, j)) j = 0) /\
      forall y, tv (moved t f eps) y = tv t y - dl (i, j) y + dl (i, j') y - dl (i', j') y + dl (i', j) y).
  { assert (G : forall a b a' b', (a < a')%nat -> (b < b')%nat -> (a' < nI s)%nat -> (b' < nJ s)%nat ->
       let f := square_move (a, b) (a', b') in
       In f fs /\ (forall i, row_sum s (fun i j => bf_value f (i, j)) i = 0) /\
       (forall j, col_sum s (fun i j => bf_value f (i, j)) j = 0) /\
       forall y, bf_value f y = dl (a, b) y + dl (a', b') y - dl (a, b') y - dl (a', b) y).
    { intros a b a' b' H1 H2 H3 H4 f.
      destruct (square_sums s (a, b) (a', b')) as [R [C _]]; [split; cbn; lia|split; cbn; lia|cbn; lia|cbn; lia|].
      split; [apply Hall; assumption|]. split; [exact R|]. split; [exact C|].
      intros y; unfold f; rewrite square_value by (cbn; lia). reflexivity. }
    destruct (Nat.lt_ge_cases i i') as [Li|Li]; destruct (Nat.lt_ge_cases j j') as [Lj|Lj].
    - destruct (G i j i' j') as [G1 [G2 [G3 G4]]]; try lia.
      exists (square_move (i, j) (i', j')), (-1). repeat split; auto.
      intros [y z]; unfold tv, moved; cbn [fst snd]; rewrite G4; lia.
    - destruct (G i j' i' j) as [G1 [G2 [G3 G4]]]; try lia.
      exists (square_move (i, j') (i', j)), 1. repeat split; auto.
      intros [y z]; unfold tv, moved; cbn [fst snd]; rewrite G4; lia.
    - destruct (G i' j i j') as [G1 [G2 [G3 G4]]]; try lia.
      exists (square_move (i', j) (i, j')), 1. repeat split; auto.
      intros [y z]; unfold tv, moved; cbn [fst snd]; rewrite G4; lia.
    - destruct (G i' j' i j) as [G1 [G2 [G3 G4]]]; try lia.
      exists (square_move (i', j') (i, j)), (-1). repeat split; auto.
      intros [y z]; unfold tv, moved; cbn [fst snd]; rewrite G4; lia. }
  destruct HX as [f [eps [Hf [He [HR [HC HV]]]]]].
  exists f, eps. split; [exact Hf|]. split; [exact He|]. split.
  - split.
    + intros a b Ha Hb. specialize (HV (a, b)). unfold tv in HV; cbn [fst snd] in HV. rewrite HV.
      pose proof (Ht a b Ha Hb). pose proof (Hu i j Hi Hj). pose proof (Hu i' j' Hi' Hj').
      unfold dl, cell_eqb; cbn [fst snd].
      destruct (Nat.eqb_spec a i), (Nat.eqb_spec b j), (Nat.eqb_spec a i'), (Nat.eqb_spec b j');
        subst; cbn [andb]; try congruence; lia.
    + apply moved_same_margins; auto. split; [exact HM1|split; [exact HM0|exact HM01]].
  - apply (square_dist s t _ u i j i' j'); auto.
Qed.
Print Assumptions C13_all_minors_connect.

(** A minor missing from a set of minors disconnects two tables. *)
Lemma missing_minor : forall s fs k d,
  (forall f, In f fs -> exists k d, f = square_move k d /\ in_shape s k /\ in_shape s d /\
      (fst k < fst d)%nat /\ (snd k < snd d)%nat) ->
  in_shape s k -> in_shape s d -> (fst k < fst d)%nat -> (snd k < snd d)%nat ->
  ~ In (square_move k d) fs -> ~ connects s fs.
Proof.
  intros s fs k d Hfs Hk Hd H1 H2 Hmiss Hcon.
  set (t := fun i j => dl k (i, j) + dl d (i, j)).
  set (u := fun i j => dl (fst k, snd d) (i, j) + dl (fst d, snd k) (i, j)).
  assert (W : walk s (fun v => nonneg_on s v /\ same_margins s [A0; A1] v u) fs t u).
  { apply Hcon.
    - intros i j _ _; unfold t; pose proof (dl_01 k (i, j)); pose proof (dl_01 d (i, j)); lia.
    - intros i j _ _; unfold u; pose proof (dl_01 (fst k, snd d) (i, j));
        pose proof (dl_01 (fst d, snd k) (i, j)); lia.
    - assert (Hkd : in_shape s (fst k, snd d)) by (destruct Hk, Hd; split; assumption).
      assert (Hdk : in_shape s (fst d, snd k)) by (destruct Hk, Hd; split; assumption).
      assert (R : forall i, row_sum s t i = row_sum s u i).
      { intros i. transitivity (row_sum s (dlt k) i + row_sum s (dlt d) i);
          [unfold row_sum; rewrite <- zsum_add; reflexivity|].
        transitivity (row_sum s (dlt (fst k, snd d)) i + row_sum s (dlt (fst d, snd k)) i);
          [|unfold row_sum; rewrite <- zsum_add; reflexivity].
        rewrite !row_sum_dlt by assumption. cbn [fst]. lia. }
      split; [intros; apply R|split; [|unfold total; apply zsum_ext; intros; apply R]].
      intros _ j _. transitivity (col_sum s (dlt k) j + col_sum s (dlt d) j);
          [unfold col_sum; rewrite <- zsum_add; reflexivity|].
      transitivity (col_sum s (dlt (fst k, snd d)) j + col_sum s (dlt (fst d, snd k)) j);
          [|unfold col_sum; rewrite <- zsum_add; reflexivity].
      rewrite !col_sum_dlt by assumption. cbn [snd]. lia. }
  clear Hcon.
  assert (Hlt : forall x, in_shape s x -> 1 <= tv t x -> x = k \/ x = d).
  { intros x Hx Hge. destruct x as [a b]. unfold tv, t in Hge; cbn [fst snd] in Hge.
    destruct (cell_eqb (a, b) k) eqn:E1; [left; apply cell_eqb_spec; exact E1|].
    destruct (cell_eqb (a, b) d) eqn:E2; [right; apply cell_eqb_spec; exact E2|].
    unfold dl in Hge; rewrite E1, E2 in Hge; lia. }
  assert (P : forall v, walk s (fun v => nonneg_on s v /\ same_margins s [A0; A1] v u) fs v u ->
      same_on s v t -> False).
  { clear W. intros v W Hvt. inversion W as [v1 w Hg Hs E1 E2|v1 w f eps Hg Hf He W' E1 E2]; clear W; subst v1 w.
    - destruct Hk as [Hk1 Hk2]. specialize (Hs _ _ Hk1 Hk2). specialize (Hvt _ _ Hk1 Hk2).
      rewrite Hvt in Hs. unfold t, u in Hs. rewrite <- surjective_pairing, dl_refl in Hs.
      pose proof (dl_01 d k). rewrite (dl_neq (fst k, snd d) k) in Hs
        by (intros E; rewrite E in H2; cbn in H2; lia).
      rewrite (dl_neq (fst d, snd k) k) in Hs by (intros E; rewrite E in H1; cbn in H1; lia). lia.
    - apply walk_good in W'. destruct W' as [Hn _].
      destruct (Hfs f Hf) as [k' [d' [-> [Hk' [Hd' [L1 L2]]]]]].
      assert (Hkd' : in_shape s (fst k', snd d')) by (destruct Hk', Hd'; split; assumption).
      assert (Hdk' : in_shape s (fst d', snd k')) by (destruct Hk', Hd'; split; assumption).
      assert (Ge : forall x, in_shape s x -> eps * bf_value (square_move k' d') x = -1 -> x = k \/ x = d).
      { intros [a b] [Ha Hb] Ex. apply Hlt; [split; assumption|]. unfold tv; cbn [fst snd] in *.
        specialize (Hn a b Ha Hb). unfold moved in Hn. rewrite Ex in Hn.
        specialize (Hvt a b Ha Hb). lia. }
      assert (V := square_value k' d' ltac:(lia) ltac:(lia)).
      destruct k' as [a b], d' as [a' b'], k as [p q], d as [p' q']; cbn [fst snd] in *.
      destruct He as [-> | ->].
      + destruct (Ge (a, b') Hkd') as [E1|E1]; destruct (Ge (a', b) Hdk') as [E2|E2];
          try (rewrite V; unfold dl, cell_eqb; cbn [fst snd];
               repeat match goal with |- context [Nat.eqb ?x ?y] => destruct (Nat.eqb_spec x y); try lia end; reflexivity);
          inversion E1; inversion E2; subst; lia.
      + destruct (Ge (a, b) Hk') as [E1|E1]; destruct (Ge (a', b') Hd') as [E2|E2];
          try (rewrite V; unfold dl, cell_eqb; cbn [fst snd];
               repeat match goal with |- context [Nat.eqb ?x ?y] => destruct (Nat.eqb_spec x y); try lia end; reflexivity);
          inversion E1; inversion E2; subst; try lia. apply Hmiss; exact Hf. }
  apply (P t W). intros i j _ _; reflexivity.
Qed.

(** The generated two-margin basis (whatever partners are drawn) connects all
    tables with equal totals only for two-by-two tables. *)
Theorem C13_connects_iff_two_by_two : forall s truth m axes c draws fs,
  (2 <= nI s)%nat -> (2 <= nJ s)%nat -> In A0 axes -> In A1 axes ->
  build_ct s truth m axes [] = Ok c ->
  generate_markov_basis c draws = Ok fs ->
  (connects s fs <-> nI s = 2%nat /\ nJ s = 2%nat).
Proof.
  intros s truth m axes c draws fs HI HJ H0 H1 Hok Hgen.
  assert (Hb : ax_in A0 axes && ax_in A1 axes = true) by (rewrite andb_true_iff, !ax_in_spec; tauto).
  assert (Hax : ax_in A0 axes || ax_in A1 axes = true) by (rewrite orb_true_iff, !ax_in_spec; tauto).
  destruct (generate_both s truth m axes [] c Hok Hax Hb draws) as [fs' [E HF]].
  rewrite Hgen in E; inversion E; subst fs'; clear E.
  assert (HF' : forall f, In f fs -> exists k d, f = square_move k d /\ in_shape s k /\ in_shape s d /\
      (fst k < fst d)%nat /\ (snd k < snd d)%nat).
  { intros f Hf. destruct (HF f Hf) as [k [d [E [[Hk _] [[Hd _] [_ [_ HL]]]]]]]. exists k, d; tauto. }
  (* the moves that start at cell (0,0) are at most one *)
  assert (HU : forall d d', In (square_move (0, 0)%nat d) fs -> In (square_move (0, 0)%nat d') fs -> d = d').
  { unfold generate_markov_basis in Hgen. rewrite (gen_len3 s truth m axes [] c Hok Hax Hb) in Hgen.
    cbn [Nat.eqb] in Hgen.
    assert (EF : ct_free c = all_cells s).
    { rewrite (build_free _ _ _ _ _ _ Hok). generalize (all_cells s) as l.
      induction l as [|x l IH]; [reflexivity|]. cbn [filter].
      change (negb (cell_in x [])) with true. cbv iota. f_equal; exact IH. }
    pose proof (free_sorted s truth m axes [] c Hok) as HS.
    assert (EH : exists rest, ct_free c = (0, 0)%nat :: rest).
    { rewrite EF. unfold all_cells. destruct (nI s) as [|n]; [lia|]. destruct (nJ s) as [|n']; [lia|].
      cbn. eexists; reflexivity. }
    destruct EH as [rest ER].
    assert (HI' : forall d, In d rest -> In d (ct_free c)) by (intros; rewrite ER; right; assumption).
    set (F := ct_free c) in Hgen at 1. rewrite ER in Hgen, HS. inversion HS as [|? ? HS' HFx]; subst.
    cbn [both_margin_loop] in Hgen.
    destruct (loop_eq s truth m axes [] c Hok Hax draws rest 1) as [fs1 [E1 HL]].
    unfold F in Hgen. rewrite E1 in Hgen.
    specialize (HL HS' HI').
    assert (HN : forall d, ~ In (square_move (0, 0)%nat d) fs1).
    { intros d Hin. destruct (HL _ Hin) as [k [d' [Ek [Hk _]]]]. unfold square_move in Ek. inversion Ek; subst.
      rewrite Forall_forall in HFx. specialize (HFx _ Hk). unfold lexlt in HFx; cbn in HFx; lia. }
    unfold both_margin_for_cell in Hgen.
    rewrite (cand_match s truth m axes [] c Hok Hax) in Hgen. cbn [rbind] in Hgen.
    destruct (filter (cond axes (0, 0)%nat) rest) as [|d0 cand].
    - cbn in Hgen. inversion Hgen; subst. intros d d' Hd. exfalso; apply (HN d); exact Hd.
    - cbv zeta in Hgen. cbn [rbind] in Hgen. injection Hgen as Efs.
      intros d d' Hd Hd'. rewrite <- Efs in Hd, Hd'.
      apply in_app_or in Hd as [Hd|Hd]; [|exfalso; apply (HN _ Hd)].
      apply in_app_or in Hd' as [Hd'|Hd']; [|exfalso; apply (HN _ Hd')].
      destruct (square_free _ _ _); [|destruct Hd].
      destruct Hd as [Hd|[]], Hd' as [Hd'|[]]. unfold square_move in Hd, Hd'. congruence. }
  split.
  - intros Hcon.
    destruct (Nat.eq_dec (nI s) 2) as [EI|NI]; [destruct (Nat.eq_dec (nJ s) 2) as [EJ|NJ]; [tauto|]|]; exfalso.
    + assert (In11 : In (square_move (0, 0)%nat (1, 1)%nat) fs \/ ~ In (square_move (0, 0)%nat (1, 1)%nat) fs).
      { destruct (in_dec (list_eq_dec (fun a b : cell * Z => ltac:(repeat decide equality))) (square_move (0, 0)%nat (1, 1)%nat) fs); tauto. }
      destruct In11 as [In11|Not].
      * apply (missing_minor s fs (0, 0)%nat (1, 2)%nat HF'); auto; try (split; cbn; lia); cbn; try lia.
        intros In12. specialize (HU _ _ In11 In12). discriminate.
      * apply (missing_minor s fs (0, 0)%nat (1, 1)%nat HF'); auto; try (split; cbn; lia); cbn; lia.
    + assert (In11 : In (square_move (0, 0)%nat (1, 1)%nat) fs \/ ~ In (square_move (0, 0)%nat (1, 1)%nat) fs).
      { destruct (in_dec (list_eq_dec (fun a b : cell * Z => ltac:(repeat decide equality))) (square_move (0, 0)%nat (1, 1)%nat) fs); tauto. }
      destruct In11 as [In11|Not].
      * apply (missing_minor s fs (0, 0)%nat (2, 1)%nat HF'); auto; try (split; cbn; lia); cbn; try lia.
        intros In12. specialize (HU _ _ In11 In12). discriminate.
      * apply (missing_minor s fs (0, 0)%nat (1, 1)%nat HF'); auto; try (split; cbn; lia); cbn; lia.
  - intros [EI EJ]. apply C13_all_minors_connect.
    intros i j i' j' L1 L2 L3 L4. rewrite EI in L3; rewrite EJ in L4.
    assert (i = 0%nat) by lia. assert (i' = 1%nat) by lia. assert (j = 0%nat) by lia. assert (j' = 1%nat) by lia. subst.
    unfold generate_markov_basis in Hgen. rewrite (gen_len3 s truth m axes [] c Hok Hax Hb) in Hgen.
    cbn [Nat.eqb] in Hgen.
    rewrite (build_free _ _ _ _ _ _ Hok) in Hgen.
    destruct s as [I J]; cbn in EI, EJ; subst I J.
    change (filter (fun k => negb (cell_in k [])) (all_cells (Shape 2 2)))
      with [(0,0);(0,1);(1,0);(1,1)]%nat in Hgen.
    cbn [both_margin_loop] in Hgen. unfold both_margin_for_cell in Hgen.
    apply andb_true_iff in Hb as [Hb0 Hb1].
    rewrite !(candidates_cases c axes _ _ (caxes_eq _ _ _ _ _ _ Hok)), Hb0, Hb1 in Hgen.
    cbn [filter Nat.eqb negb fst snd Nat.ltb Nat.leb andb rbind length] in Hgen.
    rewrite Nat.mod_1_r in Hgen. cbn in Hgen. inversion Hgen. left; reflexivity.
Qed.
Print Assumptions C13_connects_iff_two_by_two.

(** So the claim fails for every larger table. *)
Theorem C13_two_margin_basis_refuted : forall s truth m axes c draws fs,
  (2 <= nI s)%nat -> (2 <= nJ s)%nat -> (nI s <> 2%nat \/ nJ s <> 2%nat) ->
  In A0 axes -> In A1 axes ->
  build_ct s truth m axes [] = Ok c -> generate_markov_basis c draws = Ok fs ->
  ~ connects s fs.
Proof.
  intros s truth m axes c draws fs HI HJ Hbig H0 H1 Hok Hgen Hc.
  apply (C13_connects_iff_two_by_two s truth m axes c draws fs) in Hc; auto. lia.
Qed.
Print Assumptions C13_two_margin_basis_refuted.

Example C13_nonvacuous : exists c fs,
  build_ct (Shape 2 3) ex_table ex_margins [A0; A1] [] = Ok c /\
  generate_markov_basis c (fun n => n) = Ok fs /\ length fs = 2%nat.
Proof. eexists; eexists. split; [reflexivity|split; reflexivity]. Qed.

(** ---- C14 --------------------------------------------------------------- *)

Lemma NoDup_flat_map : forall (A B : Type) (f : A -> list B) (key : B -> A) l,
  NoDup l -> (forall x, NoDup (f x)) -> (forall x y, In y (f x) -> key y = x) -> NoDup (flat_map f l).
Proof.
  intros A B f key l HN Hf Hk; induction HN as [|x l Hx HN IH]; cbn; [constructor|].
  apply NoDup_app_intro; [apply Hf|exact IH|].
  intros y H1 H2. apply in_flat_map in H2 as [z [Hz H2]].
  apply Hk in H1; apply Hk in H2; subst; contradiction.
Qed.

Lemma length_flat_map_const : forall (A B : Type) (f : A -> list B) n l,
  (forall x, In x l -> length (f x) = n) -> length (flat_map f l) = (length l * n)%nat.
Proof.
  intros A B f n l; induction l as [|x l IH]; intros H; [reflexivity|].
  cbn [flat_map length]. rewrite app_length, H by (left; reflexivity).
  rewrite IH by (intros; apply H; right; assumption). lia.
Qed.

(** Ordered pairs below [n]: n(n-1)/2 of them. *)
Definition ordered_pairs (n : nat) : list (nat * nat) :=
  flat_map (fun j => map (fun j' => (j, j')) (seq (S j) (n - S j))) (seq 0 n).

Lemma ordered_pairs_in : forall n a b, In (a, b) (ordered_pairs n) <-> (a < b < n)%nat.
Proof.
  intros n a b; unfold ordered_pairs. rewrite in_flat_map. split.
  - intros [j [Hj H]]. apply in_map_iff in H as [j' [E H]]. inversion E; subst.
    apply in_seq in H. lia.
  - intros H. exists a. split; [apply in_seq; lia|]. apply in_map_iff. exists b.
    split; [reflexivity|apply in_seq; lia].
Qed.

Lemma ordered_pairs_nodup : forall n, NoDup (ordered_pairs n).
Proof.
  intros n; unfold ordered_pairs. apply (NoDup_flat_map _ _ _ fst).
  - apply seq_NoDup.
  - intros x; apply FinFun.Injective_map_NoDup; [intros a b E; congruence|apply seq_NoDup].
  - intros x y H. apply in_map_iff in H as [z [<- _]]; reflexivity.
Qed.

Lemma ordered_pairs_length : forall n, (2 * length (ordered_pairs n) = n * (n - 1))%nat.
Proof.
  intros n.
  assert (P : forall k, (k <= n)%nat ->
    (2 * length (flat_map (fun j => map (fun j' => (j, j')) (seq (S j) (n - S j))) (seq (n - k) k)) = k * (k - 1))%nat).
  { induction k as [|k IH]; intros Hk; [reflexivity|].
    cbn [seq flat_map]. rewrite app_length, map_length, seq_length.
    replace (S (n - S k)) with (n - k)%nat by lia.
    specialize (IH ltac:(lia)). nia. }
  specialize (P n (le_n _)). rewrite Nat.sub_diag in P. exact P.
Qed.

Definition distinct_up_to_sign (fs : list basis_fn) : Prop :=
  forall a b, (a < length fs)%nat -> (b < length fs)%nat -> a <> b ->
  (exists x, bf_value (nth a fs []) x <> bf_value (nth b fs []) x) /\
  (exists x, bf_value (nth a fs []) x <> - bf_value (nth b fs []) x).

Lemma pairs_distinct : forall axes s fixed ps, NoDup ps ->
  (forall k d, In (k, d) ps <-> is_free s fixed k /\ is_free s fixed d /\ partner axes k d) ->
  distinct_up_to_sign (map pair_move ps).
Proof.
  intros axes s fixed ps HN HI a b Ha Hb Hab. rewrite map_length in Ha, Hb.
  assert (E0 : forall n, (n < length ps)%nat ->
     nth n (map pair_move ps) [] = pair_move (nth n ps ((0, 0), (0, 0))%nat)).
  { intros n Hn. rewrite (nth_indep _ [] (pair_move ((0, 0), (0, 0))%nat)) by (rewrite map_length; exact Hn).
    apply map_nth. }
  rewrite !E0 by assumption.
  pose proof (nth_In ps ((0,0),(0,0))%nat Ha) as Ia.
  pose proof (nth_In ps ((0,0),(0,0))%nat Hb) as Ib.
  assert (Hne : nth a ps ((0,0),(0,0))%nat <> nth b ps ((0,0),(0,0))%nat).
  { intros E. apply Hab. rewrite NoDup_nth in HN. apply HN; eauto. }
  destruct (nth a ps ((0,0),(0,0))%nat) as [k d] eqn:Ea.
  destruct (nth b ps ((0,0),(0,0))%nat) as [k' d'] eqn:Eb.
  apply HI in Ia as [_ [_ Pa]]. apply HI in Ib as [_ [_ Pb]].
  apply partner_lex in Pa; apply partner_lex in Pb.
  assert (N1 : k <> d) by (intros ->; unfold lexlt in Pa; lia).
  assert (N2 : k' <> d') by (intros ->; unfold lexlt in Pb; lia).
  assert (D : forall y x, dl y x = 1 -> x = y).
  { intros y x; unfold dl; destruct (cell_eqb x y) eqn:E; [intros _; apply cell_eqb_spec; exact E|lia]. }
  split.
  - destruct (Z.eq_dec (bf_value (pair_move (k', d')) k) 1) as [E1|E1].
    + destruct (Z.eq_dec (bf_value (pair_move (k', d')) d) (-1)) as [E2|E2].
      * exfalso. rewrite pair_value in E1, E2 by assumption.
        pose proof (dl_01 k' k); pose proof (dl_01 d' k); pose proof (dl_01 k' d); pose proof (dl_01 d' d).
        assert (k = k') by (apply D; lia). assert (d = d') by (apply D; lia). congruence.
      * exists d. rewrite (pair_value k d N1), dl_refl, (dl_neq k d) by congruence. lia.
    + exists k. rewrite (pair_value k d N1), dl_refl, (dl_neq d k) by congruence. lia.
  - destruct (Z.eq_dec (bf_value (pair_move (k', d')) k) (-1)) as [E1|E1].
    + destruct (Z.eq_dec (bf_value (pair_move (k', d')) d) 1) as [E2|E2].
      * exfalso. rewrite pair_value in E1, E2 by assumption.
        pose proof (dl_01 k' k); pose proof (dl_01 d' k); pose proof (dl_01 k' d); pose proof (dl_01 d' d).
        assert (k = d') by (apply D; lia). assert (d = k') by (apply D; lia). subst.
        unfold lexlt in *; lia.
      * exists d. rewrite (pair_value k d N1), dl_refl, (dl_neq k d) by congruence. lia.
    + exists k. rewrite (pair_value k d N1), dl_refl, (dl_neq d k) by congruence. lia.
Qed.

Theorem C14_row_basis_size_partial : forall s truth m axes c draws fs,
  build_ct s truth m axes [] = Ok c -> In A1 axes -> ~ In A0 axes ->
  generate_markov_basis c draws = Ok fs ->
  (2 * length fs = nI s * (nJ s * (nJ s - 1)))%nat /\
  Z.of_nat (length fs) = row_basis_length s /\ distinct_up_to_sign fs.
Proof.
  intros s truth m axes c draws fs Hok H1 H0 Hgen.
  assert (Hb : ax_in A0 axes && ax_in A1 axes = false) by (rewrite andb_false_iff, !ax_in_false_iff; tauto).
  assert (Hax : ax_in A0 axes || ax_in A1 axes = true) by (rewrite orb_true_iff, !ax_in_spec; tauto).
  destruct (generate_one s truth m axes [] c Hok Hax Hb draws) as [ps [E [HN HI]]].
  rewrite Hgen in E; inversion E; subst fs; clear E.
  assert (HL : (2 * length (map pair_move ps) = nI s * (nJ s * (nJ s - 1)))%nat).
  { rewrite map_length.
    set (q := flat_map (fun i => map (fun p => ((i, fst p), (i, snd p))) (ordered_pairs (nJ s))) (seq 0 (nI s))).
    assert (HQ : Permutation ps q).
    { apply NoDup_Permutation; [exact HN| |].
      - apply (NoDup_flat_map _ _ _ (fun p => fst (fst p))); [apply seq_NoDup| |].
        + intros i; apply FinFun.Injective_map_NoDup; [|apply ordered_pairs_nodup].
          intros [a b] [a' b'] E; cbn in E; congruence.
        + intros i p Hp. apply in_map_iff in Hp as [p' [<- _]]. reflexivity.
      - intros [k d]. rewrite HI. unfold partner. apply ax_in_spec in H1; apply ax_in_false_iff in H0.
        rewrite H0, H1. unfold q. rewrite in_flat_map. unfold is_free, in_shape. split.
        + intros [[[A B] _] [[[A' B'] _] [Ef Hs]]]. exists (fst k). split; [apply in_seq; lia|].
          apply in_map_iff. exists (snd k, snd d). split; [|apply ordered_pairs_in; lia].
          destruct k, d; cbn in *; congruence.
        + intros [i [Hi Hp]]. apply in_map_iff in Hp as [[j j'] [Ep Hp]]. apply ordered_pairs_in in Hp.
          apply in_seq in Hi. inversion Ep; subst; cbn. intuition lia. }
    rewrite (Permutation_length HQ). unfold q.
    rewrite (length_flat_map_const _ _ _ (length (ordered_pairs (nJ s)))) by (intros; apply map_length).
    rewrite seq_length. pose proof (ordered_pairs_length (nJ s)). nia. }
  split; [exact HL|split].
  - unfold row_basis_length. apply Z.div_unique_exact; [lia|].
    destruct (nJ s) as [|n]; [lia|]. replace (S n - 1)%nat with n in HL by lia. nia.
  - apply (pairs_distinct axes s [] ps HN HI).
Qed.
Print Assumptions C14_row_basis_size_partial.

Theorem C14_column_basis_size_partial : forall s truth m axes c draws fs,
  build_ct s truth m axes [] = Ok c -> In A0 axes -> ~ In A1 axes ->
  generate_markov_basis c draws = Ok fs ->
  (2 * length fs = nJ s * (nI s * (nI s - 1)))%nat /\
  Z.of_nat (length fs) = col_basis_length s /\ distinct_up_to_sign fs.
Proof.
  intros s truth m axes c draws fs Hok H0 H1 Hgen.
  assert (Hb : ax_in A0 axes && ax_in A1 axes = false) by (rewrite andb_false_iff, !ax_in_false_iff; tauto).
  assert (Hax : ax_in A0 axes || ax_in A1 axes = true) by (rewrite orb_true_iff, !ax_in_spec; tauto).
  destruct (generate_one s truth m axes [] c Hok Hax Hb draws) as [ps [E [HN HI]]].
  rewrite Hgen in E; inversion E; subst fs; clear E.
  assert (HL : (2 * length (map pair_move ps) = nJ s * (nI s * (nI s - 1)))%nat).
  { rewrite map_length.
    set (q := flat_map (fun j => map (fun p => ((fst p, j), (snd p, j))) (ordered_pairs (nI s))) (seq 0 (nJ s))).
    assert (HQ : Permutation ps q).
    { apply NoDup_Permutation; [exact HN| |].
      - apply (NoDup_flat_map _ _ _ (fun p => snd (fst p))); [apply seq_NoDup| |].
        + intros i; apply FinFun.Injective_map_NoDup; [|apply ordered_pairs_nodup].
          intros [a b] [a' b'] E; cbn in E; congruence.
        + intros i p Hp. apply in_map_iff in Hp as [p' [<- _]]. reflexivity.
      - intros [k d]. rewrite HI. unfold partner. apply ax_in_false_iff in H1.
        rewrite H1. unfold q. rewrite in_flat_map. unfold is_free, in_shape. split.
        + intros [[[A B] _] [[[A' B'] _] [Ef Hs]]]. exists (snd k). split; [apply in_seq; lia|].
          apply in_map_iff. exists (fst k, fst d). split; [|apply ordered_pairs_in; lia].
          destruct k, d; cbn in *; congruence.
        + intros [i [Hi Hp]]. apply in_map_iff in Hp as [[j j'] [Ep Hp]]. apply ordered_pairs_in in Hp.
          apply in_seq in Hi. inversion Ep; subst; cbn. intuition lia. }
    rewrite (Permutation_length HQ). unfold q.
    rewrite (length_flat_map_const _ _ _ (length (ordered_pairs (nI s)))) by (intros; apply map_length).
    rewrite seq_length. pose proof (ordered_pairs_length (nI s)). nia. }
  split; [exact HL|split].
  - unfold col_basis_length. apply Z.div_unique_exact; [lia|].
    destruct (nI s) as [|n]; [lia|]. replace (S n - 1)%nat with n in HL by lia. nia.
  - apply (pairs_distinct axes s [] ps HN HI).
Qed.
Print Assumptions C14_column_basis_size_partial.

(** The function that should report the length raises for every table. *)
Theorem C14_length_function_refuted : forall c, true_markov_basis_length c = Raise EValue.
Proof. reflexivity. Qed.
Print Assumptions C14_length_function_refuted.

Example C14_nonvacuous : exists c fs,
  build_ct (Shape 3 4) (fun _ _ => 1) (axis_margin (Shape 3 4) (fun _ _ => 1)) [A1] [] = Ok c /\
  generate_markov_basis c (fun n => n) = Ok fs /\ length fs = 18%nat.
Proof. eexists; eexists. split; [reflexivity|split; reflexivity]. Qed.
