(** Properties C55-C57 and C65: evaluation scores. *)
From Coq Require Import List ZArith Lia Bool Arith Reals Lra Permutation.
From Verif Require Import Base RealBase Axes Tables TablesProps MarkovBasis MarkovBasisProps MarkovWalks ProbUtils Scores.
Import ListNotations.
Open Scope R_scope.

(** ---- specification vocabulary ------------------------------------------- *)

(** the cells that take part in a score *)
Definition scored (n m : nat) (mk : rmask) (i j : nat) : Prop := (i < n)%nat /\ (j < m)%nat /\ mk i j = true.

Definition nonneg_mat (n m : nat) (p : mat) : Prop := forall i j, (i < n)%nat -> (j < m)%nat -> 0 <= p i j.

Definition equal_on (n m : nat) (mk : rmask) (p g : mat) : Prop := forall i j, scored n m mk i j -> p i j = g i j.

(** how many of the samples lie in [a,b] *)
Definition samples_in (xs : list R) (a b : R) : nat := length (filter (fun x => Rleb a x && Rleb x b) xs).

(** ---- masked sums --------------------------------------------------------- *)

Lemma mcount_nonneg : forall n m mk, 0 <= mcount n m mk.
Proof. intros; apply rsum2_nonneg; intros; destruct (mk i j); lra. Qed.

Lemma mcount_zero : forall n m mk, mcount n m mk = 0 <-> forall i j, ~ scored n m mk i j.
Proof.
  intros n m mk. unfold mcount. rewrite rsum2_zero_iff by (intros; destruct (mk i j); lra).
  split.
  - intros H i j [Hi [Hj E]]. specialize (H i j Hi Hj). rewrite E in H. lra.
  - intros H i j Hi Hj. destruct (mk i j) eqn:E; [|reflexivity].
    exfalso; apply (H i j); repeat split; assumption.
Qed.

Lemma mcount_pos : forall n m mk i j, scored n m mk i j -> 0 < mcount n m mk.
Proof.
  intros n m mk i j H. pose proof (mcount_nonneg n m mk).
  destruct (Req_dec (mcount n m mk) 0) as [E|E]; [|lra].
  rewrite mcount_zero in E. exfalso; apply (E i j H).
Qed.

Lemma msum_le : forall n m mk f g, (forall i j, scored n m mk i j -> f i j <= g i j) -> msum n m mk f <= msum n m mk g.
Proof.
  intros n m mk f g H. unfold msum, rsum2. apply rsum_le; intros i Hi. apply rsum_le; intros j Hj.
  destruct (mk i j) eqn:E; [|lra]. apply H; repeat split; assumption.
Qed.

Lemma msum_ext : forall n m mk f g, (forall i j, scored n m mk i j -> f i j = g i j) -> msum n m mk f = msum n m mk g.
Proof.
  intros n m mk f g H. apply rsum2_ext; intros i j Hi Hj.
  destruct (mk i j) eqn:E; [|lra]. apply H; repeat split; assumption.
Qed.

Lemma msum_one : forall n m mk, msum n m mk (fun _ _ => 1) = mcount n m mk.
Proof. reflexivity. Qed.

Lemma msum_zero_nonneg : forall n m mk f, (forall i j, scored n m mk i j -> 0 <= f i j) ->
  (msum n m mk f = 0 <-> forall i j, scored n m mk i j -> f i j = 0).
Proof.
  intros n m mk f H. unfold msum. rewrite rsum2_zero_iff.
  - split.
    + intros H0 i j [Hi [Hj E]]. specialize (H0 i j Hi Hj). rewrite E in H0; exact H0.
    + intros H0 i j Hi Hj. destruct (mk i j) eqn:E; [|reflexivity]. apply H0; repeat split; assumption.
  - intros i j Hi Hj. destruct (mk i j) eqn:E; [|lra]. apply H; repeat split; assumption.
Qed.

Lemma msum_sub : forall n m mk f g, msum n m mk (fun i j => f i j - g i j) = msum n m mk f - msum n m mk g.
Proof.
  intros. unfold msum. rewrite <- rsum2_sub. apply rsum2_ext; intros. destruct (mk i j); lra.
Qed.

(** ---- C56: similarity index ----------------------------------------------- *)

Definition ratio (p g : mat) : mat := fun i j => 2 * Rmin (g i j) (p i j) / (g i j + p i j).

Lemma ssi_valid_spec : forall n m mk p g i j, nonneg_mat n m p -> nonneg_mat n m g ->
  scored n m (ssi_valid mk p g) i j <-> scored n m mk i j /\ 0 < g i j + p i j.
Proof.
  intros n m mk p g i j Hp Hg. unfold scored, ssi_valid. split.
  - intros [Hi [Hj E]]. apply andb_true_iff in E as [E1 E2].
    destruct (Req_EM_T (g i j + p i j) 0) as [E|E]; [discriminate|].
    repeat split; auto. specialize (Hp i j Hi Hj); specialize (Hg i j Hi Hj). lra.
  - intros [[Hi [Hj E]] H]. repeat split; auto. rewrite E; cbn [andb].
    destruct (Req_EM_T (g i j + p i j) 0); [lra|reflexivity].
Qed.

Lemma ratio_bounds : forall a b, 0 <= a -> 0 <= b -> 0 < a + b -> 0 <= 2 * Rmin a b / (a + b) <= 1.
Proof.
  intros a b Ha Hb H. assert (0 <= Rmin a b) by (apply Rmin_glb; lra).
  pose proof (Rmin_l a b); pose proof (Rmin_r a b). split.
  - apply Rmult_le_pos; [lra|]. left; apply Rinv_0_lt_compat; lra.
  - apply (Rmult_le_reg_r (a + b)); [lra|]. unfold Rdiv. rewrite Rmult_assoc, Rinv_l by lra. lra.
Qed.

Lemma ratio_one : forall a b, 0 <= a -> 0 <= b -> 0 < a + b -> (2 * Rmin a b / (a + b) = 1 <-> a = b).
Proof.
  intros a b Ha Hb H. split.
  - intros E. apply (f_equal (fun z => z * (a + b))) in E. unfold Rdiv in E.
    rewrite Rmult_assoc, Rinv_l in E by lra.
    pose proof (Rmin_l a b); pose proof (Rmin_r a b). lra.
  - intros ->. rewrite Rmin_left by lra. field; lra.
Qed.

(** The index exists unless both tables vanish on every scored cell, and then
    lies between 0 and 1. *)
Theorem C56_ssi_range : forall n m mk p g, nonneg_mat n m p -> nonneg_mat n m g ->
  (ssi n m mk p g = None <-> forall i j, scored n m mk i j -> p i j = 0 /\ g i j = 0) /\
  (forall r, ssi n m mk p g = Some r -> 0 <= r <= 1).
Proof.
  intros n m mk p g Hp Hg. unfold ssi.
  destruct (Req_EM_T (mcount n m (ssi_valid mk p g)) 0) as [E|E]; split.
  - split; [intros _|reflexivity]. intros i j Hc.
    rewrite mcount_zero in E. specialize (E i j). rewrite ssi_valid_spec in E by assumption.
    destruct Hc as [Hi [Hj Hm]]. pose proof (Hp i j Hi Hj); pose proof (Hg i j Hi Hj).
    destruct (Rlt_dec 0 (g i j + p i j)) as [H'|H']; [|lra].
    exfalso; apply E; repeat split; assumption.
  - discriminate.
  - split; [discriminate|]. intros H. exfalso; apply E, mcount_zero. intros i j Hc.
    rewrite ssi_valid_spec in Hc by assumption. destruct Hc as [Hc Hs]. destruct (H i j Hc); lra.
  - intros r Hr. injection Hr as <-. set (v := ssi_valid mk p g) in *.
    assert (Hpos : 0 < mcount n m v) by (pose proof (mcount_nonneg n m v); lra).
    assert (Hb : forall i j, scored n m v i j -> 0 <= ratio p g i j <= 1).
    { intros i j Hc. unfold v in Hc; rewrite ssi_valid_spec in Hc by assumption.
      destruct Hc as [[Hi [Hj _]] Hs]. apply ratio_bounds; auto. }
    split.
    + apply Rmult_le_pos; [|left; apply Rinv_0_lt_compat; exact Hpos].
      replace 0 with (msum n m v (fun _ _ => 0)) by (unfold msum; apply rsum2_zero_iff; intros; destruct (v i j); lra).
      apply msum_le; intros i j Hc; apply (Hb i j Hc).
    + apply (Rmult_le_reg_r (mcount n m v)); [lra|]. unfold Rdiv. rewrite Rmult_assoc, Rinv_l by lra.
      rewrite Rmult_1_r, Rmult_1_l, <- msum_one. apply msum_le; intros i j Hc; apply (Hb i j Hc).
Qed.
Print Assumptions C56_ssi_range.

(** It is 1 exactly for equal tables (with at least one non-zero scored cell). *)
Theorem C56_ssi_one_iff_equal : forall n m mk p g, nonneg_mat n m p -> nonneg_mat n m g ->
  (ssi n m mk p g = Some 1 <->
   equal_on n m mk p g /\ exists i j, scored n m mk i j /\ p i j <> 0).
Proof.
  intros n m mk p g Hp Hg. unfold ssi. set (v := ssi_valid mk p g).
  assert (Hb : forall i j, scored n m v i j -> 0 <= ratio p g i j <= 1 /\ (ratio p g i j = 1 <-> g i j = p i j)).
  { intros i j Hc. unfold v in Hc; rewrite ssi_valid_spec in Hc by assumption.
    destruct Hc as [[Hi [Hj _]] Hs]. split; [apply ratio_bounds|apply ratio_one]; auto. }
  destruct (Req_EM_T (mcount n m v) 0) as [E|E].
  - split; [discriminate|]. intros [_ [i [j [Hc Hn]]]]. exfalso.
    rewrite mcount_zero in E. apply (E i j). unfold v. rewrite ssi_valid_spec by assumption.
    split; [exact Hc|]. destruct Hc as [Hi [Hj _]]. pose proof (Hp i j Hi Hj); pose proof (Hg i j Hi Hj). lra.
  - assert (Hpos : 0 < mcount n m v) by (pose proof (mcount_nonneg n m v); lra).
    assert (Hiff : Some (msum n m v (ratio p g) / mcount n m v) = Some 1 <-> forall i j, scored n m v i j -> ratio p g i j = 1).
    { transitivity (msum n m v (fun i j => 1 - ratio p g i j) = 0).
      - rewrite msum_sub, msum_one. split.
        + intros H. injection H as H. apply (f_equal (fun z => z * mcount n m v)) in H.
          unfold Rdiv in H. rewrite Rmult_assoc, Rinv_l in H by lra. lra.
        + intros H. f_equal. apply (Rmult_eq_reg_r (mcount n m v)); [|lra].
          unfold Rdiv; rewrite Rmult_assoc, Rinv_l by lra. lra.
      - rewrite msum_zero_nonneg.
        + split; intros H i j Hc; specialize (H i j Hc); lra.
        + intros i j Hc; pose proof (Hb i j Hc); lra. }
    unfold ratio in Hiff at 1. rewrite Hiff. split.
    + intros H. split.
      * intros i j Hc. pose proof Hc as [Hi [Hj _]]. pose proof (Hp i j Hi Hj); pose proof (Hg i j Hi Hj).
        destruct (Rlt_dec 0 (g i j + p i j)) as [Hs|Hs]; [|lra].
        assert (Hv : scored n m v i j) by (unfold v; rewrite ssi_valid_spec by assumption; auto).
        symmetry. apply (Hb i j Hv), H, Hv.
      * assert (Hne : ~ forall i j, ~ scored n m v i j) by (rewrite <- mcount_zero; exact E).
        destruct (Classical_Prop.classic (exists i j, scored n m mk i j /\ p i j <> 0)) as [Hx|Hx]; [exact Hx|].
        exfalso; apply Hne. intros i j Hv. apply Hx. exists i, j.
        assert (Hv' := Hv). unfold v in Hv'; rewrite ssi_valid_spec in Hv' by assumption.
        destruct Hv' as [Hc Hs]. split; [exact Hc|].
        assert (g i j = p i j) by (apply (Hb i j Hv), H, Hv). intros E0; lra.
    + intros [Heq _] i j Hv. apply (Hb i j Hv).
      unfold v in Hv; rewrite ssi_valid_spec in Hv by assumption. symmetry; apply Heq, Hv.
Qed.
Print Assumptions C56_ssi_one_iff_equal.

Theorem C56_ssi_symmetric : forall n m mk p g, ssi n m mk p g = ssi n m mk g p.
Proof.
  intros n m mk p g. unfold ssi.
  assert (Hv : forall i j, ssi_valid mk p g i j = ssi_valid mk g p i j).
  { intros i j. unfold ssi_valid. rewrite (Rplus_comm (g i j)). reflexivity. }
  assert (Hc : mcount n m (ssi_valid mk p g) = mcount n m (ssi_valid mk g p)).
  { apply rsum2_ext; intros; rewrite Hv; reflexivity. }
  rewrite Hc. destruct (Req_EM_T _ 0); [reflexivity|]. do 2 f_equal.
  apply rsum2_ext; intros i j Hi Hj. rewrite Hv. destruct (ssi_valid mk g p i j); [|reflexivity].
  rewrite Rmin_comm, (Rplus_comm (g i j)). reflexivity.
Qed.
Print Assumptions C56_ssi_symmetric.

(** ---- C56: SRMSE ------------------------------------------------------------ *)

(** For a ground truth with a non-zero total the score of one table is zero
    exactly when it equals the ground truth on the scored cells, and otherwise
    positive if the total is. *)
Theorem C56_srmse_zero_iff_equal : forall n m mk p g, msum n m mk g <> 0 ->
  exists r, srmse n m mk p g = Some r /\
    (r = 0 <-> equal_on n m mk p g) /\ (0 < msum n m mk g -> 0 <= r).
Proof.
  intros n m mk p g Hg. unfold srmse, srmse_batch.
  set (S2 := msum n m mk (fun i j => (p i j - g i j) * (p i j - g i j))).
  assert (HS : 0 <= S2).
  { apply rsum2_nonneg; intros; destruct (mk i j); [apply Rle_0_sqr|lra]. }
  assert (Hc : 0 < INR 1 * mcount n m mk).
  { rewrite Rmult_1_l. pose proof (mcount_nonneg n m mk).
    destruct (Req_dec (mcount n m mk) 0) as [E|E]; [|lra]. exfalso; apply Hg.
    rewrite mcount_zero in E. unfold msum. apply rsum2_zero_iff.
    - intros i j Hi Hj. destruct (mk i j) eqn:Em; [exfalso; apply (E i j); repeat split; assumption|lra].
    - intros i j Hi Hj. destruct (mk i j) eqn:Em; [exfalso; apply (E i j); repeat split; assumption|lra]. }
  destruct (Req_EM_T (INR 1 * mcount n m mk) 0); [lra|].
  destruct (Req_EM_T (msum n m mk g) 0); [contradiction|].
  eexists; split; [reflexivity|]. set (c := INR 1 * mcount n m mk) in *.
  assert (Hq : 0 <= S2 / c) by (apply Rmult_le_pos; [exact HS|left; apply Rinv_0_lt_compat; exact Hc]).
  assert (Hd : msum n m mk g / c <> 0).
  { unfold Rdiv. apply Rmult_integral_contrapositive_currified; [assumption|]. apply Rinv_neq_0_compat; lra. }
  split.
  - assert (E1 : sqrt (S2 / c) / (msum n m mk g / c) = 0 <-> S2 = 0).
    { split.
      - intros H. unfold Rdiv at 1 in H. apply Rmult_integral in H as [H|H].
        + apply sqrt_eq_0 in H; [|exact Hq]. unfold Rdiv in H. apply Rmult_integral in H as [H|H]; [exact H|].
          exfalso; revert H; apply Rinv_neq_0_compat; lra.
        + exfalso; revert H; apply Rinv_neq_0_compat; exact Hd.
      - intros ->. unfold Rdiv at 2. rewrite Rmult_0_l, sqrt_0. unfold Rdiv; rewrite Rmult_0_l; reflexivity. }
    rewrite E1. unfold S2. rewrite msum_zero_nonneg by (intros; apply Rle_0_sqr).
    split; intros H i j Hij; specialize (H i j Hij); [apply Rmult_integral in H as [H|H]; lra|rewrite H; lra].
  - intros Hgp. apply Rmult_le_pos; [apply sqrt_pos|]. left; apply Rinv_0_lt_compat.
    apply Rmult_lt_0_compat; [exact Hgp|apply Rinv_0_lt_compat; exact Hc].
Qed.
Print Assumptions C56_srmse_zero_iff_equal.

Definition m22 (a b c d : R) : mat := fun i j => match i, j with O, O => a | O, _ => b | _, O => c | _, _ => d end.

Definition all_mask : rmask := fun _ _ => true.

(** a case with an excluded cell, a cell empty in both tables and a difference *)
Example C56_nonvacuous :
  let mk := fun i j => negb (Nat.eqb i 1 && Nat.eqb j 1) in
  let p := m22 2 0 1 9 in let g := m22 2 0 3 5 in
  nonneg_mat 2 2 p /\ nonneg_mat 2 2 g /\ ssi 2 2 mk p g = Some (3/4) /\
  msum 2 2 mk g <> 0 /\ ~ equal_on 2 2 mk p g.
Proof.
  cbv zeta. repeat split.
  - intros [|[|i]] [|[|j]] Hi Hj; cbn; try lia; lra.
  - intros [|[|i]] [|[|j]] Hi Hj; cbn; try lia; lra.
  - unfold ssi, mcount, msum, rsum2, rsum, ssi_valid; cbn [m22 Nat.eqb negb andb].
    destruct (Req_EM_T (2 + 2) 0); [lra|]. destruct (Req_EM_T (0 + 0) 0); [|lra].
    destruct (Req_EM_T (3 + 1) 0); [lra|].
    match goal with |- (if ?d then _ else _) = _ => destruct d; [lra|] end.
    rewrite Rmin_left by lra. rewrite (Rmin_right 3 1) by lra. f_equal; field.
  - unfold msum, rsum2, rsum; cbn; intros E; lra.
  - intros H. specialize (H 1%nat 0%nat). assert (1 = 3); [|lra]. apply H. repeat split; lia.
Qed.

(** ---- C65: a sample's score does not depend on the rest of the batch -------- *)

(** SSI: proved. *)
Theorem C65_ssi_batch : forall N n m mk p g s,
  ssi_batch N n m mk p g s = ssi_batch 1 n m mk (fun _ => p s) g 0.
Proof. reflexivity. Qed.

(** SRMSE: the score of each sample in a batch of N is sqrt N times the score of
    the sample on its own. *)
Theorem C65_srmse_grows_with_batch : forall N n m mk p g s r, (0 < N)%nat ->
  srmse n m mk (p s) g = Some r -> srmse_batch N n m mk p g s = Some (sqrt (INR N) * r).
Proof.
  intros N n m mk p g s r HN. unfold srmse, srmse_batch.
  rewrite Rmult_1_l. assert (HN' : 0 < INR N) by (apply lt_0_INR; exact HN).
  destruct (Req_EM_T (mcount n m mk) 0) as [E|E]; [discriminate|].
  destruct (Req_EM_T (msum n m mk g) 0) as [E2|E2]; [discriminate|].
  intros H; injection H as <-.
  destruct (Req_EM_T (INR N * mcount n m mk) 0) as [E3|E3].
  { apply Rmult_integral in E3 as [E3|E3]; lra. }
  f_equal. set (S2 := msum n m mk (fun i j => (p s i j - g i j) * (p s i j - g i j))).
  assert (HS : 0 <= S2).
  { apply rsum2_nonneg; intros; destruct (mk i j); [apply Rle_0_sqr|lra]. }
  pose proof (mcount_nonneg n m mk) as Hc. set (c := mcount n m mk) in *.
  replace (S2 / (INR N * c)) with (S2 / c / INR N) by (field; lra).
  rewrite sqrt_div_alt by lra.
  assert (HsN : sqrt (INR N) <> 0) by (intros H; apply sqrt_eq_0 in H; lra).
  replace (msum n m mk g / (INR N * c)) with (msum n m mk g / c / (sqrt (INR N) * sqrt (INR N))).
  2:{ rewrite sqrt_sqrt by lra. field; lra. }
  field. repeat split; lra.
Qed.
Print Assumptions C65_srmse_grows_with_batch.

(** so the claim is false for SRMSE as soon as a batch has two samples one of
    which differs from the ground truth *)
Theorem C65_srmse_refuted : forall N n m mk p g s r, (1 < N)%nat ->
  srmse n m mk (p s) g = Some r -> r <> 0 -> srmse_batch N n m mk p g s <> srmse n m mk (p s) g.
Proof.
  intros N n m mk p g s r HN H Hr. rewrite (C65_srmse_grows_with_batch N n m mk p g s r) by (assumption || lia).
  rewrite H. intros E; injection E as E.
  assert (1 < sqrt (INR N)).
  { rewrite <- sqrt_1. apply sqrt_lt_1; [lra|apply pos_INR|]. change 1 with (INR 1). apply lt_INR; exact HN. }
  assert ((sqrt (INR N) - 1) * r = 0) by lra.
  apply Rmult_integral in H1 as [H1|H1]; lra.
Qed.
Print Assumptions C65_srmse_refuted.

Example C65_nonvacuous : srmse 1 1 all_mask (fun _ _ => 3) (fun _ _ => 1) = Some 2.
Proof.
  unfold srmse, srmse_batch, mcount, msum, rsum2, rsum, all_mask. cbn [INR].
  destruct (Req_EM_T (1 * (0 + (0 + 1))) 0); [lra|]. destruct (Req_EM_T (0 + (0 + 1)) 0); [lra|].
  f_equal. replace ((0 + (0 + (3 - 1) * (3 - 1))) / (1 * (0 + (0 + 1)))) with (2 * 2) by field.
  rewrite sqrt_square by lra. field.
Qed.

(** ---- C57: edit distance ----------------------------------------------------- *)

(** a unit taken from one cell and put into another, tables staying non-negative *)
Definition unit_transfer (s : shape) (t t' : table) : Prop :=
  exists a b, in_shape s a /\ in_shape s b /\ a <> b /\
    forall x, in_shape s x ->
      tv t' x = (tv t x - (if cell_eqb x a then 1 else 0) + (if cell_eqb x b then 1 else 0))%Z.

Inductive transfers (s : shape) : nat -> table -> table -> Prop :=
| tr_done : forall t u, nonneg_on s t -> same_on s t u -> transfers s 0 t u
| tr_step : forall k t t' u, nonneg_on s t -> unit_transfer s t t' -> transfers s k t' u -> transfers s (S k) t u.

(** integer tables as the real matrices the score is computed from *)
Definition of_table (t : table) : mat := fun i j => IZR (t i j).

Lemma IZR_zsum : forall n f, IZR (zsum n f) = rsum n (fun k => IZR (f k)).
Proof.
  induction n; intros f; [reflexivity|]. rewrite zsum_S, plus_IZR, IHn, rsum_S. reflexivity.
Qed.

Lemma csum_all_cells : forall s g, csum g (all_cells s) = zsum (nI s) (fun i => zsum (nJ s) (fun j => g (i, j))).
Proof.
  intros s g. unfold csum, all_cells.
  assert (H : forall a, lsum (map g (list_prod a (seq 0 (nJ s)))) =
                        lsum (map (fun i => zsum (nJ s) (fun j => g (i, j))) a)).
  { induction a as [|i a IH]; [reflexivity|]. cbn [list_prod]. rewrite map_app, lsum_app, IH.
    cbn [map]. rewrite lsum_cons. f_equal. rewrite map_map, lsum_map_seq. reflexivity. }
  rewrite H. apply lsum_map_seq.
Qed.

Lemma edit_as_dist : forall s t u,
  2 * edit_distance_degree_one (nI s) (nJ s) (of_table t) (of_table u) = IZR (dist s t u).
Proof.
  intros s t u. unfold edit_distance_degree_one, dist, rsum2, of_table.
  rewrite csum_all_cells, IZR_zsum.
  match goal with |- 2 * (?a / 2) = _ => replace (2 * (a / 2)) with a by field end.
  apply rsum_ext; intros i Hi. rewrite IZR_zsum. apply rsum_ext; intros j Hj.
  unfold tv; cbn [fst snd]. rewrite abs_IZR, minus_IZR. reflexivity.
Qed.

Lemma transfer_dist_ge : forall s t t' u, unit_transfer s t t' -> (dist s t u <= dist s t' u + 2)%Z.
Proof.
  intros s t t' u [a [b [Ha [Hb [Hne HV]]]]].
  assert (HL : (dist s t u <= csum (fun x => Z.abs (tv t' x - tv u x) + (dl a x + dl b x)) (all_cells s))%Z).
  { apply csum_le; intros x Hx. apply all_cells_in in Hx. rewrite (HV x Hx). unfold dl.
    destruct (cell_eqb x a); destruct (cell_eqb x b); lia. }
  assert (HM : forall k, in_shape s k -> csum (dl k) (all_cells s) = 1%Z).
  { intros k Hk. rewrite csum_dl by apply all_cells_NoDup.
    assert (Tables.cell_in k (all_cells s) = true) as -> by (apply cell_in_spec, all_cells_in; exact Hk).
    reflexivity. }
  rewrite !csum_add, !HM in HL by assumption. unfold dist in *. lia.
Qed.

Lemma same_on_dist : forall s t u, same_on s t u <-> dist s t u = 0%Z.
Proof.
  intros s t u; split.
  - intros H. unfold dist. rewrite csum_all_cells. apply zsum_zero; intros i Hi.
    apply zsum_zero; intros j Hj. unfold tv; cbn [fst snd]. rewrite (H i j Hi Hj). lia.
  - intros H. destruct (same_or_differ s t u) as [E|[x [Hx Hd]]]; [exact E|].
    exfalso. unfold dist in H. assert (0 < Z.abs (tv t x - tv u x))%Z by lia.
    assert (Z.abs (tv t x - tv u x) <= csum (fun x => Z.abs (tv t x - tv u x)) (all_cells s))%Z; [|lia].
    apply all_cells_in in Hx. revert Hx. generalize (all_cells s). induction l as [|y l IH]; intros Hy; [destruct Hy|].
    rewrite csum_cons. pose proof (csum_nonneg (fun x => Z.abs (tv t x - tv u x)) l ltac:(intros; lia)).
    destruct Hy as [->|Hy]; [lia|]. specialize (IH Hy). lia.
Qed.

(** No sequence of unit transfers between the tables is shorter than the score... *)
Lemma transfers_lower : forall s k t u, transfers s k t u -> (dist s t u <= 2 * Z.of_nat k)%Z.
Proof.
  intros s k t u H; induction H as [t u _ Hs|k t t' u _ Hm _ IH].
  - apply same_on_dist in Hs; lia.
  - pose proof (transfer_dist_ge s t t' u Hm). lia.
Qed.

Lemma total_csum : forall s t, total s t = csum (tv t) (all_cells s).
Proof. intros s t. rewrite csum_all_cells. reflexivity. Qed.

Lemma over_and_under : forall s t u, total s t = total s u -> ~ same_on s t u ->
  exists a b, in_shape s a /\ in_shape s b /\ a <> b /\ (tv u a < tv t a)%Z /\ (tv t b < tv u b)%Z.
Proof.
  intros s t u HT Hd. destruct (same_or_differ s t u) as [E|[x [Hx Hne]]]; [contradiction|].
  assert (HF : forall l : list cell, filter (fun _ => true) l = l).
  { induction l; cbn; congruence. }
  destruct (line_cells (fun _ => true) s t u x Hx eq_refl Hne) as [a [b [Ha [Hb [_ [_ [H1 H2]]]]]]].
  - rewrite HF, <- !total_csum. exact HT.
  - exists a, b. split; [exact Ha|]. split; [exact Hb|]. split; [intros ->; lia|]. split; assumption.
Qed.

(** ... and one of exactly that length exists. *)
Lemma transfers_exist : forall s u n t, nonneg_on s t -> nonneg_on s u -> total s t = total s u ->
  (dist s t u <= Z.of_nat n)%Z -> exists k, transfers s k t u /\ dist s t u = (2 * Z.of_nat k)%Z.
Proof.
  intros s u n. induction n as [n IH] using lt_wf_ind; intros t Ht Hu HT Hn.
  destruct (Z.eq_dec (dist s t u) 0) as [E|E].
  { exists 0%nat. split; [constructor; [exact Ht|apply same_on_dist; exact E]|lia]. }
  destruct (over_and_under s t u HT) as [a [b [Ha [Hb [Hne [H1 H2]]]]]].
  { intros Hs; apply E, same_on_dist, Hs. }
  set (t' := (fun i j => t i j - dl a (i, j) + dl b (i, j))%Z : table).
  assert (HV : forall x, in_shape s x -> tv t' x = (tv t x - dl a x + dl b x)%Z).
  { intros [i j] _. reflexivity. }
  assert (HU : unit_transfer s t t').
  { exists a, b. split; [exact Ha|]. split; [exact Hb|]. split; [exact Hne|].
    intros [i j] Hx. rewrite (HV _ Hx). unfold dl. reflexivity. }
  pose proof (pair_dist s t t' u a b Ha Hb Hne H1 H2 HV) as Hlt.
  pose proof (transfer_dist_ge s t t' u HU) as Hge.
  assert (Hnn : nonneg_on s t').
  { intros i j Hi Hj. unfold t', dl. pose proof (Ht i j Hi Hj).
    destruct (cell_eqb (i, j) a) eqn:Ea.
    - apply cell_eqb_spec in Ea. subst a. pose proof (Hu i j Hi Hj). unfold tv in H1; cbn [fst snd] in H1.
      destruct (cell_eqb (i, j) b); lia.
    - destruct (cell_eqb (i, j) b); lia. }
  assert (HT' : total s t' = total s u).
  { rewrite <- HT, !total_csum.
    rewrite (csum_ext (tv t') (fun x => tv t x + (- dl a x + dl b x))%Z)
      by (intros x Hx; apply all_cells_in in Hx; rewrite (HV x Hx); lia).
    rewrite !csum_add.
    assert (HM : forall k, in_shape s k -> csum (dl k) (all_cells s) = 1%Z).
    { intros k Hk. rewrite csum_dl by apply all_cells_NoDup.
      assert (Tables.cell_in k (all_cells s) = true) as -> by (apply cell_in_spec, all_cells_in; exact Hk).
      reflexivity. }
    assert (HO : csum (fun x => - dl a x)%Z (all_cells s) = (- csum (dl a) (all_cells s))%Z).
    { generalize (all_cells s) as l; induction l as [|y l IHl]; [reflexivity|].
      rewrite !csum_cons, IHl; lia. }
    rewrite HO, !HM by assumption. lia. }
  pose proof (dist_nonneg s t' u).
  destruct (IH (Z.to_nat (dist s t' u)) ltac:(lia) t' Hnn Hu HT' ltac:(lia)) as [k [Hk Ek]].
  exists (S k). split; [econstructor; eauto|].
  assert (dist s t u - dist s t' u = 2 \/ dist s t u - dist s t' u = 1)%Z as [D|D] by lia; [lia|].
  (* parity: the L1 distance of tables with equal totals is even *)
  exfalso.
  assert (HP : forall v w : table, total s v = total s w -> Z.even (dist s v w) = true).
  { intros v w Hvw.
    assert (Z.even (dist s v w) = Z.even (csum (fun x => tv v x + -1 * tv w x)%Z (all_cells s))) as ->.
    { unfold dist. generalize (all_cells s) as l. induction l as [|y l IHl]; [reflexivity|].
      rewrite !csum_cons, !Z.even_add, IHl. f_equal.
      destruct (Z.abs_spec (tv v y - tv w y)) as [[_ ->]|[_ ->]].
      - rewrite Z.even_sub, Z.even_mul. reflexivity.
      - rewrite Z.even_opp, Z.even_sub, Z.even_mul. reflexivity. }
    rewrite csum_add.
    assert (HO : csum (fun x => -1 * tv w x)%Z (all_cells s) = (- csum (tv w) (all_cells s))%Z).
    { generalize (all_cells s) as l; induction l as [|y l IHl]; [reflexivity|].
      rewrite !csum_cons, IHl; lia. }
    rewrite HO, <- !total_csum, Hvw. replace (total s w + - total s w)%Z with 0%Z by lia. reflexivity. }
  pose proof (HP t u HT) as P1. pose proof (HP t' u HT') as P2.
  replace (dist s t u) with (1 + dist s t' u)%Z in P1 by lia. rewrite Z.even_add, P2 in P1. discriminate.
Qed.

(** The score of two count tables with the same total is the least number of
    unit transfers leading from one to the other (through tables of counts). *)
Theorem C57_counts_unit_transfers : forall s t u, nonneg_on s t -> nonneg_on s u -> total s t = total s u ->
  exists k, edit_distance_degree_one (nI s) (nJ s) (of_table t) (of_table u) = INR k /\
    transfers s k t u /\ forall k', transfers s k' t u -> (k <= k')%nat.
Proof.
  intros s t u Ht Hu HT.
  destruct (transfers_exist s u (Z.to_nat (dist s t u)) t Ht Hu HT) as [k [Hk Ek]].
  { pose proof (dist_nonneg s t u); lia. }
  exists k. repeat split.
  - pose proof (edit_as_dist s t u) as E. rewrite Ek, mult_IZR, <- INR_IZR_INZ in E. lra.
  - exact Hk.
  - intros k' Hk'. apply transfers_lower in Hk'. lia.
Qed.
Print Assumptions C57_counts_unit_transfers.

(** It is a metric on (real) tables of a shape: *)
Theorem C57_metric : forall n m p g h,
  0 <= edit_distance_degree_one n m p g /\
  (edit_distance_degree_one n m p g = 0 <-> forall i j, (i < n)%nat -> (j < m)%nat -> p i j = g i j) /\
  edit_distance_degree_one n m p g = edit_distance_degree_one n m g p /\
  edit_distance_degree_one n m p h <= edit_distance_degree_one n m p g + edit_distance_degree_one n m g h.
Proof.
  intros n m p g h. unfold edit_distance_degree_one.
  assert (H0 : 0 <= rsum2 n m (fun i j => Rabs (p i j - g i j))) by (apply rsum2_nonneg; intros; apply Rabs_pos).
  split; [lra|]. split; [|split].
  - transitivity (rsum2 n m (fun i j => Rabs (p i j - g i j)) = 0); [split; intros; lra|].
    rewrite rsum2_zero_iff by (intros; apply Rabs_pos).
    split; intros H i j Hi Hj; specialize (H i j Hi Hj).
    + destruct (Req_dec (p i j - g i j) 0) as [E|E]; [lra|]. apply Rabs_no_R0 in E. contradiction.
    + rewrite H, Rminus_diag_eq by reflexivity. apply Rabs_R0.
  - f_equal. apply rsum2_ext; intros. apply Rabs_minus_sym.
  - assert (rsum2 n m (fun i j => Rabs (p i j - h i j)) <=
            rsum2 n m (fun i j => Rabs (p i j - g i j)) + rsum2 n m (fun i j => Rabs (g i j - h i j))); [|lra].
    rewrite <- rsum2_add. unfold rsum2. apply rsum_le; intros i Hi. apply rsum_le; intros j Hj.
    replace (p i j - h i j) with ((p i j - g i j) + (g i j - h i j)) by ring. apply Rabs_triang.
Qed.
Print Assumptions C57_metric.

(** The higher-degree distance is not computed at all. *)
Theorem C57_degree_higher_refuted : forall n m p g, edit_distance_degree_higher n m p g = Raise EType.
Proof. reflexivity. Qed.

Definition tt22 (a b c d : Z) : table := fun i j => match i, j with O, O => a | O, _ => b | _, O => c | _, _ => d end.

Example C57_nonvacuous :
  nonneg_on (Shape 2 2) (tt22 3 0 1 2) /\ nonneg_on (Shape 2 2) (tt22 1 1 2 2) /\
  total (Shape 2 2) (tt22 3 0 1 2) = total (Shape 2 2) (tt22 1 1 2 2) /\
  edit_distance_degree_one 2 2 (of_table (tt22 3 0 1 2)) (of_table (tt22 1 1 2 2)) = 2.
Proof.
  split; [|split; [|split]].
  - intros [|[|i]] [|[|j]] Hi Hj; cbn in *; lia.
  - intros [|[|i]] [|[|j]] Hi Hj; cbn in *; lia.
  - reflexivity.
  - pose proof (edit_as_dist (Shape 2 2) (tt22 3 0 1 2) (tt22 1 1 2 2)) as E.
    cbn [nI nJ] in E. assert (D : dist (Shape 2 2) (tt22 3 0 1 2) (tt22 1 1 2 2) = 4%Z) by reflexivity.
    rewrite D in E. lra.
Qed.

(** ---- C55: shortest interval ------------------------------------------------- *)

Inductive ascending : list R -> Prop :=
| asc_nil : ascending []
| asc_cons : forall x l, (forall y, In y l -> x <= y) -> ascending l -> ascending (x :: l).

Lemma rinsert_perm : forall x l, Permutation (rinsert x l) (x :: l).
Proof.
  intros x l; induction l as [|y l IH]; cbn; [reflexivity|].
  destruct (Rleb x y); [reflexivity|]. rewrite IH. apply perm_swap.
Qed.

Lemma rsort_perm : forall l, Permutation (rsort l) l.
Proof. induction l as [|x l IH]; cbn; [reflexivity|]. rewrite rinsert_perm, IH; reflexivity. Qed.

Lemma rinsert_asc : forall x l, ascending l -> ascending (rinsert x l).
Proof.
  intros x l H; induction H as [|y l Hy Hl IH]; cbn.
  - constructor; [intros ? []|constructor].
  - destruct (Rleb x y) eqn:E.
    + apply Rleb_spec in E. constructor; [|constructor; assumption].
      intros z [->|Hz]; [exact E|]. specialize (Hy z Hz); lra.
    + apply Rleb_false in E. constructor; [|exact IH].
      intros z Hz. apply (Permutation_in _ (rinsert_perm x l)) in Hz as [->|Hz]; [lra|auto].
Qed.

Lemma rsort_asc : forall l, ascending (rsort l).
Proof. induction l as [|x l IH]; cbn; [constructor|apply rinsert_asc; exact IH]. Qed.

Lemma is_sorted_asc : forall l, ascending l -> is_sorted l = true.
Proof.
  intros l H; induction H as [|x l Hx Hl IH]; [reflexivity|]. cbn [is_sorted]. rewrite IH.
  destruct l as [|y l]; [reflexivity|]. rewrite andb_true_r. apply Rleb_spec, Hx; left; reflexivity.
Qed.

Lemma firstn_incl : forall (A : Type) (l : list A) k y, In y (firstn k l) -> In y l.
Proof. intros A l k y H. rewrite <- (firstn_skipn k l). apply in_app_iff; auto. Qed.

Lemma asc_firstn : forall l k, ascending l -> ascending (firstn k l).
Proof.
  intros l k H; revert k; induction H as [|x l Hx Hl IH]; intros [|k]; cbn; constructor; auto.
  intros y Hy. apply firstn_incl in Hy; auto.
Qed.

Lemma asc_skipn : forall l k, ascending l -> ascending (skipn k l).
Proof. intros l k H; revert k; induction H as [|x l Hx Hl IH]; intros [|k]; cbn; try constructor; auto. Qed.

(** in an ascending list the elements of a downward closed set come first *)
Lemma asc_count : forall (P : R -> bool) l k, ascending l ->
  (forall x y, x <= y -> P y = true -> P x = true) -> (k < length l)%nat ->
  (P (nth k l 0) = true <-> (k < length (filter P l))%nat).
Proof.
  intros P l k H HP; revert k; induction H as [|x l Hx Hl IH]; intros k Hk; [cbn in Hk; lia|].
  cbn [filter]. destruct (P x) eqn:E.
  - destruct k as [|k]; cbn [nth length].
    + split; [lia|auto].
    + cbn in Hk. rewrite (IH k) by lia. lia.
  - assert (HN : forall y, In y l -> P y = false).
    { intros y Hy. destruct (P y) eqn:Ey; [|reflexivity]. rewrite (HP x y (Hx y Hy) Ey) in E; discriminate. }
    assert (HF : filter P l = []).
    { clear -HN. induction l as [|y l IHl]; [reflexivity|]. cbn. rewrite (HN y) by (left; reflexivity).
      apply IHl; intros z Hz; apply HN; right; exact Hz. }
    rewrite HF. cbn [length]. split; [|lia]. destruct k as [|k]; cbn [nth]; [congruence|].
    rewrite (HN (nth k l 0)); [discriminate|]. apply nth_In. cbn in Hk; lia.
Qed.

Lemma samples_in_split : forall l a b, a <= b ->
  (length (filter (fun x => Rleb x b) l) = length (filter (fun x => Rltb x a) l) + samples_in l a b)%nat.
Proof.
  intros l a b Hab. unfold samples_in. induction l as [|x l IH]; [reflexivity|]. cbn [filter].
  destruct (Rltb x a) eqn:E1.
  - apply Rltb_spec in E1.
    assert (Rleb x b = true) as -> by (apply Rleb_spec; lra).
    assert (Rleb a x = false) as -> by (apply Rleb_false; lra). cbn [andb length]. lia.
  - apply Rltb_false in E1. assert (Rleb a x = true) as -> by (apply Rleb_spec; lra). cbn [andb].
    destruct (Rleb x b); cbn [length]; lia.
Qed.

Lemma samples_in_empty : forall l a b, b < a -> samples_in l a b = 0%nat.
Proof.
  intros l a b H. unfold samples_in. induction l as [|x l IH]; [reflexivity|]. cbn [filter].
  destruct (Rleb a x) eqn:E1; cbn [andb]; [|exact IH]. apply Rleb_spec in E1.
  assert (Rleb x b = false) as -> by (apply Rleb_false; lra). exact IH.
Qed.

Lemma samples_in_perm : forall l l' a b, Permutation l l' -> samples_in l a b = samples_in l' a b.
Proof.
  intros l l' a b H. unfold samples_in. apply Permutation_length.
  induction H; cbn; try (destruct (Rleb a x && Rleb x b)); try (destruct (Rleb a y && Rleb y b)); auto.
  - apply perm_swap.
  - etransitivity; eassumption.
Qed.

(** argmin returns an index whose entry is no larger than any other *)
Lemma argmin_from_spec : forall l best bi k pre,
  length pre = k -> (bi < k)%nat -> nth bi pre 0 = best -> (forall i, (i < k)%nat -> best <= nth i pre 0) ->
  (argmin_from best bi k l < length (pre ++ l))%nat /\
  forall i, (i < length (pre ++ l))%nat -> nth (argmin_from best bi k l) (pre ++ l) 0 <= nth i (pre ++ l) 0.
Proof.
  induction l as [|x l IH]; intros best bi k pre Hk Hb Hn Hmin; cbn [argmin_from].
  - rewrite app_nil_r. subst k. split; [exact Hb|]. rewrite Hn. exact Hmin.
  - replace (pre ++ x :: l) with ((pre ++ [x]) ++ l) by (rewrite <- app_assoc; reflexivity).
    destruct (Rltb x best) eqn:E.
    + apply Rltb_spec in E. apply IH.
      * rewrite app_length; cbn; lia.
      * lia.
      * rewrite app_nth2 by lia. replace (k - length pre)%nat with 0%nat by lia. reflexivity.
      * intros i Hi. destruct (Nat.eq_dec i k) as [->|Hne].
        -- rewrite app_nth2 by lia. replace (k - length pre)%nat with 0%nat by lia. cbn; lra.
        -- rewrite app_nth1 by lia. specialize (Hmin i ltac:(lia)). lra.
    + apply Rltb_false in E. apply IH.
      * rewrite app_length; cbn; lia.
      * lia.
      * rewrite app_nth1 by lia. exact Hn.
      * intros i Hi. destruct (Nat.eq_dec i k) as [->|Hne].
        -- rewrite app_nth2 by lia. replace (k - length pre)%nat with 0%nat by lia. cbn; lra.
        -- rewrite app_nth1 by lia. apply Hmin; lia.
Qed.

Lemma argmin_spec : forall l, l <> [] -> (argmin l < length l)%nat /\
  forall i, (i < length l)%nat -> nth (argmin l) l 0 <= nth i l 0.
Proof.
  intros [|x l] H; [contradiction|]. cbn [argmin].
  apply (argmin_from_spec l x 0 1 [x]); auto.
  intros i Hi. replace i with 0%nat by lia. cbn; lra.
Qed.

Lemma window_size_spec : forall mass N, 0 <= mass ->
  (0 <= window_size mass N)%Z /\
  (forall c, (window_size mass N < Z.of_nat c)%Z <-> mass * INR N < INR c).
Proof.
  intros mass N Hm. unfold window_size. set (r := mass * INR N).
  assert (Hr : 0 <= r) by (apply Rmult_le_pos; [exact Hm|apply pos_INR]).
  destruct (base_Int_part r) as [B1 B2]. split.
  - apply le_IZR. assert (-1 < Int_part r)%Z; [apply lt_IZR; lra|]. apply IZR_le; lia.
  - intros c. rewrite INR_IZR_INZ. split; intros H.
    + assert (Int_part r + 1 <= Z.of_nat c)%Z as H' by lia. apply IZR_le in H'. rewrite plus_IZR in H'. lra.
    + apply lt_IZR. lra.
Qed.

Lemma nth_firstn_lt : forall (l : list R) k i, (i < k)%nat -> nth i (firstn k l) 0 = nth i l 0.
Proof. induction l as [|x l IH]; intros [|k] [|i] H; cbn; try lia; auto. apply IH; lia. Qed.

Lemma nth_skipn_add : forall (l : list R) k i, nth i (skipn k l) 0 = nth (k + i) l 0.
Proof. induction l as [|x l IH]; intros [|k] i; cbn; auto. destruct i; reflexivity. Qed.

Lemma widths_nth : forall (a b : list R) i, length a = length b -> (i < length a)%nat ->
  nth i (map (fun ab => snd ab - fst ab) (combine a b)) 0 = nth i b 0 - nth i a 0.
Proof.
  intros a; induction a as [|x a IH]; intros [|y b] i HL Hi; cbn in *; try lia.
  destruct i; [reflexivity|]. apply IH; lia.
Qed.

(** The interval computed from the samples of a cell holds more than the
    requested fraction of them, its ends are samples, and every interval that
    holds more than that fraction is at least as wide. *)
Theorem C55_shortest_interval : forall samples mass lo hi, 0 <= mass ->
  calculate_min_interval (rsort samples) mass = Ok (lo, hi) ->
  lo <= hi /\ In lo samples /\ In hi samples /\
  mass * INR (length samples) < INR (samples_in samples lo hi) /\
  forall a b, mass * INR (length samples) < INR (samples_in samples a b) -> hi - lo <= b - a.
Proof.
  intros samples mass lo hi Hm H.
  pose proof (rsort_perm samples) as HP. pose proof (rsort_asc samples) as HA.
  assert (HS : forall a b, samples_in samples a b = samples_in (rsort samples) a b)
    by (intros; apply samples_in_perm; symmetry; exact HP).
  assert (HL : length samples = length (rsort samples)) by (apply Permutation_length; symmetry; exact HP).
  assert (HI : forall y, In y (rsort samples) -> In y samples) by (intros y; apply Permutation_in; exact HP).
  revert HS HL HI HA H; generalize (rsort samples); intros x HS HL HI HA.
  unfold calculate_min_interval. set (N := length x) in *. rewrite HL.
  destruct (window_size_spec mass N Hm) as [HK0 HK]. set (K := window_size mass N) in *.
  destruct (Z.of_nat N <=? K)%Z eqn:EN; [discriminate|]. apply Z.leb_gt in EN.
  set (k0 := Z.to_nat K). assert (Ek : K = Z.of_nat k0) by (unfold k0; lia).
  destruct (negb (is_sorted (firstn (N - k0) x) && is_sorted (skipn k0 x))); [discriminate|].
  set (W := map _ _). intros H; injection H as <- <-.
  assert (HfL : length (firstn (N - k0) x) = (N - k0)%nat) by (rewrite firstn_length; fold N; lia).
  assert (HsL : length (skipn k0 x) = (N - k0)%nat) by (rewrite skipn_length; reflexivity).
  assert (HWL : length W = (N - k0)%nat).
  { unfold W. rewrite map_length, combine_length, HfL, HsL. lia. }
  assert (HW : forall i, (i < N - k0)%nat -> nth i W 0 = nth (i + k0) x 0 - nth i x 0).
  { intros i Hi. unfold W. rewrite widths_nth by lia. rewrite nth_skipn_add, nth_firstn_lt by lia.
    rewrite (Nat.add_comm k0). reflexivity. }
  destruct (argmin_spec W) as [Hk Hmin].
  { intros E. rewrite E in HWL. cbn in HWL. lia. }
  rewrite HWL in Hk, Hmin. set (k := argmin W) in *.
  assert (Hasc : forall i j, (i <= j)%nat -> (j < N)%nat -> nth i x 0 <= nth j x 0).
  { intros i j Hij Hj. 
    pose proof (asc_count (fun z => Rleb z (nth j x 0)) x i HA) as C1.
    pose proof (asc_count (fun z => Rleb z (nth j x 0)) x j HA) as C2.
    assert (HD : forall u v, u <= v -> Rleb v (nth j x 0) = true -> Rleb u (nth j x 0) = true).
    { intros u v Huv Hv. apply Rleb_spec in Hv. apply Rleb_spec. lra. }
    apply Rleb_spec, C1; [exact HD|fold N; lia|].
    assert (j < length (filter (fun z => Rleb z (nth j x 0%R)) x))%nat; [|lia].
    apply C2; [exact HD|exact Hj|]. apply Rleb_spec; lra. }
  set (lo := nth k x 0). set (hi := nth (k + k0) x 0).
  assert (Hlohi : lo <= hi) by (apply Hasc; lia).
  assert (HPle : forall c u v, u <= v -> Rleb v c = true -> Rleb u c = true).
  { intros c u v Huv Hv. apply Rleb_spec in Hv. apply Rleb_spec. lra. }
  assert (HPlt : forall c u v, u <= v -> Rltb v c = true -> Rltb u c = true).
  { intros c u v Huv Hv. apply Rltb_spec in Hv. apply Rltb_spec. lra. }
  split; [exact Hlohi|]. split; [apply HI, nth_In; fold N; lia|]. split; [apply HI, nth_In; fold N; lia|].
  split.
  - rewrite HS. apply HK. pose proof (samples_in_split x lo hi Hlohi) as Sp.
    assert (A1 : (k + k0 < length (filter (fun z => Rleb z hi) x))%nat).
    { apply (asc_count (fun z => Rleb z hi) x (k + k0) HA (HPle hi)); [fold N; lia|]. apply Rleb_spec. unfold hi; lra. }
    assert (A2 : ~ (k < length (filter (fun z => Rltb z lo) x))%nat).
    { intros A. apply (asc_count (fun z => Rltb z lo) x k HA (HPlt lo)) in A; [|fold N; lia].
      apply Rltb_spec in A. unfold lo in A. lra. }
    lia.
  - intros a b Hab. rewrite HS in Hab. apply HK in Hab.
    destruct (Rle_dec a b) as [Hle|Hle].
    2:{ rewrite samples_in_empty in Hab by lra. lia. }
    pose proof (samples_in_split x a b Hle) as Sp.
    set (i := length (filter (fun z => Rltb z a) x)) in *.
    assert (Hb : (length (filter (fun z => Rleb z b) x) <= N)%nat).
    { unfold N. clear. induction x as [|y x IH]; cbn; [lia|]. destruct (Rleb y b); cbn; lia. }
    assert (Hai : a <= nth i x 0).
    { destruct (Rle_dec a (nth i x 0)) as [Q|Q]; [exact Q|]. exfalso.
      assert (i < i)%nat; [|lia]. unfold i at 2.
      apply (asc_count (fun z => Rltb z a) x i HA (HPlt a)); [fold N; lia|]. apply Rltb_spec; lra. }
    assert (Hbi : nth (i + k0) x 0 <= b).
    { apply Rleb_spec. apply (asc_count (fun z => Rleb z b) x (i + k0) HA (HPle b)); fold N; lia. }
    assert (Hik : (i < N - k0)%nat) by lia.
    specialize (Hmin i Hik). rewrite !HW in Hmin by assumption. unfold hi, lo. lra.
Qed.
Print Assumptions C55_shortest_interval.

(** An interval is returned for every mass below one and at least one sample,
    and never for mass one. *)
Theorem C55_interval_exists_iff : forall samples mass, 0 <= mass ->
  (exists lo hi, calculate_min_interval (rsort samples) mass = Ok (lo, hi)) <-> (mass < 1 /\ samples <> []).
Proof.
  intros samples mass Hm. unfold calculate_min_interval.
  assert (HL : length samples = length (rsort samples)) by (apply Permutation_length; symmetry; apply rsort_perm).
  pose proof (rsort_asc samples) as HA. rewrite <- HL. set (N := length samples).
  destruct (window_size_spec mass N Hm) as [HK0 HK].
  rewrite (is_sorted_asc _ (asc_firstn _ _ HA)), (is_sorted_asc _ (asc_skipn _ _ HA)). cbn [andb negb].
  assert (HE : (Z.of_nat N <=? window_size mass N)%Z = false <-> mass < 1 /\ samples <> []).
  { rewrite Z.leb_gt, HK. destruct samples as [|x r].
    - unfold N; cbn. split; [lra|]. intros [_ H]; contradiction.
    - assert (0 < INR N) by (apply lt_0_INR; unfold N; cbn; lia). split.
      + intros H1. split; [|discriminate]. apply (Rmult_lt_reg_r (INR N)); lra.
      + intros [H1 _]. apply (Rmult_lt_compat_r (INR N)) in H1; lra. }
  destruct (Z.of_nat N <=? window_size mass N)%Z.
  - split; [intros [lo [hi H]]; discriminate|]. intros H. apply HE in H. discriminate.
  - split; [intros _; apply HE; reflexivity|]. intros _. eexists _, _. reflexivity.
Qed.
Print Assumptions C55_interval_exists_iff.

(** The coverage flag is set exactly when the true value lies in such a
    shortest interval. *)
Theorem C55_coverage_flag : forall samples truth mass, 0 <= mass < 1 -> samples <> [] ->
  exists lo hi flag, coverage_probability samples truth mass = Ok flag /\
    (flag = true <-> lo <= truth <= hi) /\
    mass * INR (length samples) < INR (samples_in samples lo hi) /\
    forall a b, mass * INR (length samples) < INR (samples_in samples a b) -> hi - lo <= b - a.
Proof.
  intros samples truth mass Hm Hne. unfold coverage_probability.
  destruct (proj2 (C55_interval_exists_iff samples mass ltac:(lra)) ltac:(split; [lra|exact Hne])) as [lo [hi E]].
  destruct (C55_shortest_interval samples mass lo hi ltac:(lra) E) as [_ [_ [_ [H1 H2]]]].
  rewrite E. exists lo, hi. eexists; split; [reflexivity|]. split; [|split; assumption].
  rewrite andb_true_iff, !Rleb_spec. reflexivity.
Qed.
Print Assumptions C55_coverage_flag.

Example C55_nonvacuous : 0 <= 1/2 < 1 /\ [5; 1; 2; 9] <> [] /\
  samples_in [5; 1; 2; 9] 1 5 = 3%nat /\ 1/2 * INR (length [5; 1; 2; 9]) < INR 3.
Proof.
  split; [lra|]. split; [discriminate|]. split.
  - unfold samples_in; cbn [filter].
    repeat match goal with |- context [Rleb ?a ?b] =>
      first [replace (Rleb a b) with true by (symmetry; apply Rleb_spec; lra)
            |replace (Rleb a b) with false by (symmetry; apply Rleb_false; lra)] end.
    reflexivity.
  - cbn; lra.
Qed.

(** ---- C64, continued: moments of shifted and rescaled samples ------------------ *)

Theorem C64_signed_moments_affine : forall n x s a c, rsum n s <> 0 ->
  signed_mean n (fun k => a * x k + c) s = a * signed_mean n x s + c /\ signed_var n (fun k => a * x k + c) s = a * a * signed_var n x s.
Proof.
  intros n x s a c E. unfold signed_var, signed_mean.
  set (S0 := rsum n s) in *. set (S1 := rsum n (fun k => x k * s k)). set (S2 := rsum n (fun k => x k ^ 2 * s k)).
  assert (E1 : rsum n (fun k => (a * x k + c) * s k) = a * S1 + c * S0).
  { unfold S1, S0. rewrite <- !rsum_scal, <- rsum_add. apply rsum_ext; intros; ring. }
  assert (E2 : rsum n (fun k => (a * x k + c) ^ 2 * s k) = a * a * S2 + 2 * a * c * S1 + c * c * S0).
  { unfold S2, S1, S0. rewrite <- !rsum_scal, <- !rsum_add. apply rsum_ext; intros; ring. }
  rewrite E1, E2. split; field; exact E.
Qed.
Print Assumptions C64_signed_moments_affine.
