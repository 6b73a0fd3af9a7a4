(** Properties C25-C28 and C61-C64: table log-probabilities, stopping times,
    the truncated series, log-sum-exp, losses and expected tables. *)
From Coq Require Import List ZArith Lia Bool Arith Reals Lra.
From Verif Require Import Base RealBase ProbUtils.
Import ListNotations.
Open Scope R_scope.

(** The library's log-gamma at the positive integers. *)
Definition lgamma_ok (lg : R -> R) : Prop := forall n : nat, lg (INR n + 1) = ln (INR (fact n)).

Lemma lgamma_ok_exists : exists lg, lgamma_ok lg.
Proof.
  exists (fun x => ln (INR (fact (Z.to_nat (Int_part (x - 1)))))). intros n.
  cbv beta. replace (INR n + 1 - 1) with (INR n) by ring. rewrite (INR_IZR_INZ n).
  assert (Int_part (IZR (Z.of_nat n)) = Z.of_nat n) as ->.
  { unfold Int_part. rewrite <- (tech_up (IZR (Z.of_nat n)) (Z.of_nat n + 1)%Z); [lia| |];
      rewrite plus_IZR; lra. }
  rewrite Nat2Z.id. reflexivity.
Qed.

(** ---- C28 ---------------------------------------------------------------- *)

Lemma logsumexp_eq : forall n f, (0 < n)%nat -> logsumexp n f = lse n f.
Proof.
  intros n f H. unfold logsumexp. set (mx := rmax n f). cbv zeta.
  fold (lse n (fun k => f k - mx)).
  transitivity (mx + lse n (fun k => f k + - mx)); [reflexivity|].
  rewrite lse_shift by exact H. ring.
Qed.

(** The helper is the log of the sum of the exponentials, and shifting every
    entry shifts the result. *)
Theorem C28_logsumexp_exact : forall n f, (0 < n)%nat ->
  logsumexp n f = ln (rsum n (fun k => exp (f k))) /\
  (forall c, logsumexp n (fun k => f k + c) = logsumexp n f + c).
Proof.
  intros n f H; split; [apply logsumexp_eq; exact H|].
  intros c. rewrite !logsumexp_eq by exact H. apply lse_shift; exact H.
Qed.
Print Assumptions C28_logsumexp_exact.

Lemma rmax_ge : forall n f k, (k < n)%nat -> f k <= rmax n f.
Proof.
  induction n as [|n IH]; intros f k H; [lia|]. destruct n as [|n].
  - assert (k = 0)%nat by lia; subst; cbn; lra.
  - change (rmax (S (S n)) f) with (Rmax (rmax (S n) f) (f (S n))). destruct (Nat.eq_dec k (S n)) as [->|Hne]; [apply Rmax_r|].
    apply Rle_trans with (rmax (S n) f); [apply IH; lia|apply Rmax_l].
Qed.

Lemma rmax_attained : forall n f, (0 < n)%nat -> exists k, (k < n)%nat /\ rmax n f = f k.
Proof.
  induction n as [|n IH]; intros f H; [lia|]. destruct n as [|n].
  - exists 0%nat; split; [lia|reflexivity].
  - change (rmax (S (S n)) f) with (Rmax (rmax (S n) f) (f (S n))).
    destruct (IH f ltac:(lia)) as [k [Hk E]].
    generalize dependent (rmax (S n) f). intros r E. unfold Rmax; destruct (Rle_dec r (f (S n))) as [M|M].
    + exists (S n); split; [lia|reflexivity].
    + exists k; split; [lia|exact E].
Qed.

(** Why the maximum is subtracted: every exponential that is taken is at most
    one and one of them is exactly one, so the sum whose log is taken lies
    between 1 and n. *)
Theorem C28_logsumexp_stable : forall n f, (0 < n)%nat ->
  (forall k, (k < n)%nat -> exp (f k - rmax n f) <= 1) /\
  1 <= rsum n (fun k => exp (f k - rmax n f)) <= INR n.
Proof.
  intros n f H.
  assert (B : forall k, (k < n)%nat -> exp (f k - rmax n f) <= 1).
  { intros k Hk. rewrite <- exp_0. pose proof (rmax_ge n f k Hk).
    destruct (Req_dec (f k - rmax n f) 0) as [->|]; [lra|]. left; apply exp_increasing; lra. }
  split; [exact B|]. split.
  - destruct (rmax_attained n f H) as [k [Hk E]].
    pose proof (rsum_term_le n (fun k => exp (f k - rmax n f)) k ltac:(intros; left; apply exp_pos) Hk) as T.
    cbv beta in T. rewrite <- E in T. replace (rmax n f - rmax n f) with 0 in T by ring. rewrite exp_0 in T. exact T.
  - pose proof (rsum_le n _ _ B) as T. rewrite rsum_const in T. lra.
Qed.
Print Assumptions C28_logsumexp_stable.

Example C28_nonvacuous : logsumexp 3 (fun k => ln (INR (k + 1))) = ln 6.
Proof.
  rewrite logsumexp_eq by lia. unfold lse; cbn [rsum]. rewrite !exp_ln by (apply lt_0_INR; lia).
  f_equal. cbn. ring.
Qed.

(** The two-dimensional reductions. *)
Lemma rsum_grid : forall n m f, (0 < m)%nat ->
  rsum (n * m) (fun k => f (k / m)%nat (k mod m)%nat) = rsum2 n m f.
Proof.
  intros n m f Hm; unfold rsum2; induction n as [|n IH]; [reflexivity|].
  cbn [rsum]. replace (S n * m)%nat with (n * m + m)%nat by lia. rewrite rsum_split, IH. f_equal.
  apply rsum_ext; intros k Hk.
  rewrite Nat.div_add_l, Nat.div_small, Nat.add_0_r by lia.
  rewrite Nat.add_comm, Nat.mod_add, Nat.mod_small by lia. reflexivity.
Qed.

Lemma logsumexp2_eq : forall n m f, (0 < n)%nat -> (0 < m)%nat -> logsumexp2 n m f = lse2 n m f.
Proof.
  intros n m f Hn Hm; unfold logsumexp2. rewrite logsumexp_eq by nia. unfold lse, lse2.
  rewrite (rsum_grid n m (fun i j => exp (f i j))) by exact Hm. reflexivity.
Qed.

Lemma lse_of_rows : forall n m f, (0 < n)%nat -> (0 < m)%nat -> lse n (fun i => lse m (fun j => f i j)) = lse2 n m f.
Proof.
  intros n m f Hn Hm; unfold lse at 1, lse2, rsum2. f_equal. apply rsum_ext; intros; apply exp_lse; exact Hm.
Qed.

(** ---- C25 ---------------------------------------------------------------- *)

(** Independent densities; [T] holds natural numbers. *)
Definition nat_mat (T : nat -> nat -> nat) : mat := fun i j => INR (T i j).
Definition nsum2 (n m : nat) (T : nat -> nat -> nat) : nat :=
  fold_right Nat.add 0%nat (map (fun i => fold_right Nat.add 0%nat (map (T i) (seq 0 m))) (seq 0 n)).
Definition rprod2 (n m : nat) (f : mat) : R := rprod n (fun i => rprod m (fun j => f i j)).

(** Product of Poisson probabilities with means exp(li). *)
Definition poisson_density (n m : nat) (T : nat -> nat -> nat) (li : mat) : R :=
  rprod2 n m (fun i j => exp (- exp (li i j)) * (exp (li i j)) ^ (T i j) / INR (fact (T i j))).

(** Multinomial probability with cell probabilities [p]. *)
Definition multinomial_density (n m : nat) (T : nat -> nat -> nat) (p : mat) : R :=
  INR (fact (nsum2 n m T)) * rprod2 n m (fun i j => (p i j) ^ (T i j) / INR (fact (T i j))).

(** Product over the rows of multinomial probabilities. *)
Definition product_multinomial_density (n m : nat) (T : nat -> nat -> nat) (p : mat) : R :=
  rprod n (fun i => INR (fact (fold_right Nat.add 0%nat (map (T i) (seq 0 m))))
                    * rprod m (fun j => (p i j) ^ (T i j) / INR (fact (T i j)))).

Lemma ln_cell : forall a p t, 0 < a -> 0 < p -> ln (a * p ^ t / INR (fact t)) = ln a + INR t * ln p - ln (INR (fact t)).
Proof.
  intros a p t Ha Hp. unfold Rdiv.
  assert (0 < p ^ t) by (apply pow_lt; exact Hp). pose proof (INR_fact_pos t).
  rewrite ln_mult, ln_mult, ln_Rinv by (try apply Rinv_0_lt_compat; try apply Rmult_lt_0_compat; assumption).
  rewrite <- Rpower_pow by exact Hp. unfold Rpower at 1. rewrite ln_exp. ring.
Qed.

Lemma cell_pos : forall a p t, 0 < a -> 0 < p -> 0 < a * p ^ t / INR (fact t).
Proof.
  intros a p t Ha Hp. apply Rmult_lt_0_compat; [|apply Rinv_0_lt_compat, INR_fact_pos].
  apply Rmult_lt_0_compat; [exact Ha|apply pow_lt; exact Hp].
Qed.

Lemma ln_rprod2 : forall n m f, (forall i j, (i < n)%nat -> (j < m)%nat -> 0 < f i j) ->
  ln (rprod2 n m f) = rsum2 n m (fun i j => ln (f i j)).
Proof.
  intros n m f H; unfold rprod2, rsum2. rewrite ln_rprod.
  - apply rsum_ext; intros i Hi. apply ln_rprod; intros; apply H; assumption.
  - intros i Hi; apply rprod_pos; intros; apply H; assumption.
Qed.

Lemma lfs_nat : forall lg n m T, lgamma_ok lg -> lfs lg n m (nat_mat T) = rsum2 n m (fun i j => ln (INR (fact (T i j)))).
Proof. intros lg n m T H; unfold lfs, nat_mat; apply rsum2_ext; intros; apply H. Qed.

Lemma INR_fold : forall m (g : nat -> nat), INR (fold_right Nat.add 0%nat (map g (seq 0 m))) = rsum m (fun j => INR (g j)).
Proof.
  induction m as [|m IH]; intros g; [reflexivity|].
  rewrite seq_S, map_app, fold_right_app. cbn [map fold_right].
  transitivity (INR (fold_right Nat.add 0%nat (map g (seq 0 m)) + g m)); [|rewrite plus_INR, IH; reflexivity].
  f_equal. rewrite Nat.add_0_l. rewrite Nat.add_0_r. generalize (g m) as c. induction (map g (seq 0 m)) as [|x l IHl]; intros c; cbn; [reflexivity|rewrite IHl; lia].
Qed.

Lemma INR_nsum2 : forall n m T, INR (nsum2 n m T) = rsum2 n m (nat_mat T).
Proof.
  intros n m T; unfold nsum2. rewrite (INR_fold n (fun i => fold_right Nat.add 0%nat (map (T i) (seq 0 m)))).
  unfold rsum2. apply rsum_ext; intros i _. apply INR_fold.
Qed.

(** The unnormalised Poisson log-probability is never the Poisson log-density:
    it subtracts the sum of the log intensities instead of the intensities. *)
Theorem C25_poisson_refuted : forall lg n m T li, lgamma_ok lg -> (0 < n)%nat -> (0 < m)%nat ->
  ln (poisson_density n m T li) < log_poisson_pmf_unnormalised lg n m (nat_mat T) li.
Proof.
  intros lg n m T li Hlg Hn Hm. unfold poisson_density.
  rewrite ln_rprod2 by (intros; apply cell_pos; apply exp_pos).
  rewrite (rsum2_ext n m _ (fun i j => - exp (li i j) + (nat_mat T i j * li i j) - ln (INR (fact (T i j))))).
  2:{ intros; rewrite ln_cell by apply exp_pos. rewrite !ln_exp. reflexivity. }
  rewrite rsum2_sub, rsum2_add. unfold log_poisson_pmf_unnormalised. rewrite lfs_nat by exact Hlg.
  assert (rsum2 n m (fun i j => - exp (li i j)) < - rsum2 n m li).
  { rewrite (rsum2_ext n m _ (fun i j => -1 * exp (li i j))) by (intros; ring). rewrite rsum2_scal.
    assert (rsum2 n m li < rsum2 n m (fun i j => exp (li i j))); [|lra].
    unfold rsum2; apply rsum_lt; [exact Hn|]. intros; apply rsum_lt; [exact Hm|]. intros; apply exp_gt_id. }
  lra.
Qed.
Print Assumptions C25_poisson_refuted.

(** What is right about it: differences between two tables at one intensity,
    which is all a table sampler needs. *)
Theorem C25_poisson_ratio_partial : forall lg n m T T' li, lgamma_ok lg ->
  log_poisson_pmf_unnormalised lg n m (nat_mat T) li - log_poisson_pmf_unnormalised lg n m (nat_mat T') li
  = ln (poisson_density n m T li) - ln (poisson_density n m T' li).
Proof.
  intros lg n m T T' li Hlg.
  assert (D : forall T, ln (poisson_density n m T li) =
    rsum2 n m (fun i j => - exp (li i j)) + rsum2 n m (fun i j => nat_mat T i j * li i j)
    - rsum2 n m (fun i j => ln (INR (fact (T i j))))).
  { intros U. unfold poisson_density. rewrite ln_rprod2 by (intros; apply cell_pos; apply exp_pos).
    rewrite (rsum2_ext n m _ (fun i j => - exp (li i j) + (nat_mat U i j * li i j) - ln (INR (fact (U i j))))).
    2:{ intros; rewrite ln_cell by apply exp_pos. rewrite !ln_exp. reflexivity. }
    rewrite rsum2_sub, rsum2_add. reflexivity. }
  rewrite !D. unfold log_poisson_pmf_unnormalised. rewrite !lfs_nat by exact Hlg. ring.
Qed.
Print Assumptions C25_poisson_ratio_partial.

Definition softmax2 (n m : nat) (li : mat) : mat := fun i j => exp (li i j) / rsum2 n m (fun a b => exp (li a b)).
Definition softmax_row (m : nat) (li : mat) : mat := fun i j => exp (li i j) / rsum m (fun b => exp (li i b)).

Lemma ln_softmax2 : forall n m li i j, (0 < n)%nat -> (0 < m)%nat -> ln (softmax2 n m li i j) = li i j - lse2 n m li.
Proof.
  intros n m li i j Hn Hm; unfold softmax2, lse2, Rdiv.
  pose proof (exp_sum2_pos n m li Hn Hm).
  rewrite ln_mult, ln_Rinv, ln_exp by (try apply Rinv_0_lt_compat; try apply exp_pos; assumption). ring.
Qed.

Lemma ln_softmax_row : forall m li i j, (0 < m)%nat -> ln (softmax_row m li i j) = li i j - lse m (fun b => li i b).
Proof.
  intros m li i j Hm; unfold softmax_row, lse, Rdiv.
  pose proof (exp_sum_pos m (fun b => li i b) Hm).
  rewrite ln_mult, ln_Rinv, ln_exp by (try apply Rinv_0_lt_compat; try apply exp_pos; assumption). ring.
Qed.

(** The unnormalised multinomial log-probability is the log of the multinomial
    probability up to the log factorial of the total; the cell probabilities
    are the normalised intensities. *)
Theorem C25_multinomial_unnormalised_partial : forall lg n m T li, lgamma_ok lg -> (0 < n)%nat -> (0 < m)%nat ->
  let p := softmax2 n m li in
  rsum2 n m p = 1 /\
  log_multinomial_pmf_unnormalised lg n m (nat_mat T) li + ln (INR (fact (nsum2 n m T)))
  = ln (multinomial_density n m T p).
Proof.
  intros lg n m T li Hlg Hn Hm p. pose proof (exp_sum2_pos n m li Hn Hm) as P.
  assert (PP : forall i j, 0 < p i j) by (intros; apply Rmult_lt_0_compat; [apply exp_pos|apply Rinv_0_lt_compat; exact P]).
  split.
  - unfold p, softmax2. rewrite (rsum2_ext n m _ (fun i j => / rsum2 n m (fun a b => exp (li a b)) * exp (li i j)))
      by (intros; unfold Rdiv; ring).
    rewrite rsum2_scal. field. lra.
  - unfold multinomial_density. rewrite ln_mult.
    3:{ unfold rprod2. apply rprod_pos; intros; apply rprod_pos; intros.
        apply Rmult_lt_0_compat; [apply pow_lt, PP|apply Rinv_0_lt_compat, INR_fact_pos]. }
    2: apply INR_fact_pos.
    rewrite ln_rprod2 by (intros; apply Rmult_lt_0_compat; [apply pow_lt, PP|apply Rinv_0_lt_compat, INR_fact_pos]).
    rewrite (rsum2_ext n m _ (fun i j => nat_mat T i j * (li i j - lse2 n m li) - ln (INR (fact (T i j))))).
    2:{ intros i j Hi Hj. replace (p i j ^ T i j / INR (fact (T i j))) with (1 * p i j ^ T i j / INR (fact (T i j))) by (unfold Rdiv; ring).
        rewrite ln_cell by (try apply PP; lra). rewrite ln_1. unfold p; rewrite ln_softmax2 by assumption.
        unfold nat_mat; ring. }
    rewrite rsum2_sub. unfold log_multinomial_pmf_unnormalised. cbv zeta. rewrite lfs_nat by exact Hlg. ring.
Qed.
Print Assumptions C25_multinomial_unnormalised_partial.

(** The same for one multinomial per row. *)
Theorem C25_product_multinomial_unnormalised_partial : forall lg n m T li, lgamma_ok lg -> (0 < n)%nat -> (0 < m)%nat ->
  let p := softmax_row m li in
  (forall i, rsum m (fun j => p i j) = 1) /\
  log_product_multinomial_pmf_unnormalised lg n m (nat_mat T) li
    + rsum n (fun i => ln (INR (fact (fold_right Nat.add 0%nat (map (T i) (seq 0 m))))))
  = ln (product_multinomial_density n m T p).
Proof.
  intros lg n m T li Hlg Hn Hm p.
  assert (P : forall i, 0 < rsum m (fun b => exp (li i b))) by (intros; apply exp_sum_pos; exact Hm).
  assert (PP : forall i j, 0 < p i j) by (intros; apply Rmult_lt_0_compat; [apply exp_pos|apply Rinv_0_lt_compat; apply P]).
  split.
  - intros i. unfold p, softmax_row. rewrite (rsum_ext m _ (fun j => / rsum m (fun b => exp (li i b)) * exp (li i j)))
      by (intros; unfold Rdiv; ring).
    rewrite rsum_scal. field. specialize (P i); lra.
  - unfold product_multinomial_density. rewrite ln_rprod.
    2:{ intros. apply Rmult_lt_0_compat; [apply INR_fact_pos|]. apply rprod_pos; intros.
        apply Rmult_lt_0_compat; [apply pow_lt, PP|apply Rinv_0_lt_compat, INR_fact_pos]. }
    match goal with |- _ = rsum n ?f => rewrite (rsum_ext n f (fun i => ln (INR (fact (fold_right Nat.add 0%nat (map (T i) (seq 0 m)))))
      + rsum m (fun j => nat_mat T i j * (li i j - lse m (fun b => li i b)) - ln (INR (fact (T i j)))))) end.
    2:{ intros i Hi. rewrite ln_mult.
        3:{ apply rprod_pos; intros. apply Rmult_lt_0_compat; [apply pow_lt, PP|apply Rinv_0_lt_compat, INR_fact_pos]. }
        2: apply INR_fact_pos.
        f_equal. rewrite ln_rprod by (intros; apply Rmult_lt_0_compat; [apply pow_lt, PP|apply Rinv_0_lt_compat, INR_fact_pos]).
        apply rsum_ext; intros j Hj.
        replace (p i j ^ T i j / INR (fact (T i j))) with (1 * p i j ^ T i j / INR (fact (T i j))) by (unfold Rdiv; ring).
        rewrite ln_cell by (try apply PP; lra). rewrite ln_1. unfold p; rewrite ln_softmax_row by assumption.
        unfold nat_mat; ring. }
    rewrite rsum_add. unfold log_product_multinomial_pmf_unnormalised. rewrite lfs_nat by exact Hlg.
    change (rsum n (fun i => rsum m (fun j => nat_mat T i j * (li i j - lse m (fun b => li i b)) - ln (INR (fact (T i j))))))
      with (rsum2 n m (fun i j => nat_mat T i j * (li i j - lse m (fun b => li i b)) - ln (INR (fact (T i j))))).
    rewrite rsum2_sub. ring.
Qed.
Print Assumptions C25_product_multinomial_unnormalised_partial.

(** Doubly constrained tables: between two tables with the same row and column
    totals the log-probabilities differ exactly by the log intensities and log
    factorials, whatever the normalisation by odds ratios. *)
Theorem C25_fishers_ratio_partial : forall lg n m T T' li, lgamma_ok lg ->
  (forall i, (i < n)%nat -> rsum m (fun j => nat_mat T i j) = rsum m (fun j => nat_mat T' i j)) ->
  (forall j, (j < m)%nat -> rsum n (fun i => nat_mat T i j) = rsum n (fun i => nat_mat T' i j)) ->
  log_fishers_pmf_unnormalised lg n m (nat_mat T) li - log_fishers_pmf_unnormalised lg n m (nat_mat T') li
  = rsum2 n m (fun i j => INR (T i j) * li i j - ln (INR (fact (T i j))))
    - rsum2 n m (fun i j => INR (T' i j) * li i j - ln (INR (fact (T' i j)))).
Proof.
  intros lg n m T T' li Hlg HR HC. unfold log_fishers_pmf_unnormalised, log_odds_ratio. cbv zeta.
  set (rows := fun i => lse m (fun j => li i j)). set (cols := fun j => lse n (fun i => li i j)).
  set (tot := lse n rows). match goal with |- context [lse2 n m ?f] => set (L := lse2 n m f) end.
  rewrite !lfs_nat by exact Hlg.
  assert (E : forall U, rsum2 n m (fun i j => nat_mat U i j * (li i j + tot - rows i - cols j - L))
    = rsum2 n m (fun i j => INR (U i j) * li i j) + (tot - L) * rsum2 n m (nat_mat U)
      - rsum n (fun i => rows i * rsum m (fun j => nat_mat U i j))
      - rsum m (fun j => cols j * rsum n (fun i => nat_mat U i j))).
  { intros U.
    rewrite (rsum2_ext n m _ (fun i j => (INR (U i j) * li i j + (tot - L) * nat_mat U i j
        - rows i * nat_mat U i j) - cols j * nat_mat U i j)) by (intros; unfold nat_mat; ring).
    rewrite rsum2_sub, rsum2_sub, rsum2_add, rsum2_scal. f_equal; [f_equal|].
    - unfold rsum2; apply rsum_ext; intros; apply rsum_scal.
    - rewrite (rsum2_swap n m (fun i j => cols j * nat_mat U i j)). unfold rsum2; apply rsum_ext; intros; apply rsum_scal. }
  rewrite !E.
  rewrite (rsum_ext n (fun i => rows i * rsum m (fun j => nat_mat T i j)) (fun i => rows i * rsum m (fun j => nat_mat T' i j)))
    by (intros; rewrite HR by assumption; reflexivity).
  rewrite (rsum_ext m (fun j => cols j * rsum n (fun i => nat_mat T i j)) (fun j => cols j * rsum n (fun i => nat_mat T' i j)))
    by (intros; rewrite HC by assumption; reflexivity).
  assert (S : rsum2 n m (nat_mat T) = rsum2 n m (nat_mat T')) by (unfold rsum2; apply rsum_ext; intros; apply HR; assumption).
  rewrite S, !rsum2_sub. ring.
Qed.
Print Assumptions C25_fishers_ratio_partial.

(** The normalised versions pass (intensity, table) to functions that take
    (table, intensity): for each of the four distributions the result is not
    the unnormalised value of the same table and intensity plus its
    normalising term. *)
Theorem C25_normalised_refuted : exists n m T li, (0 < n)%nat /\ (0 < m)%nat /\ forall lg, lgamma_ok lg ->
  log_poisson_pmf_normalised lg n m (nat_mat T) li <> log_poisson_pmf_unnormalised lg n m (nat_mat T) li /\
  log_multinomial_pmf_normalised lg n m (nat_mat T) li
    <> log_multinomial_pmf_unnormalised lg n m (nat_mat T) li + ln (INR (fact (nsum2 n m T))) /\
  log_product_multinomial_pmf_normalised lg n m (nat_mat T) li
    <> log_product_multinomial_pmf_unnormalised lg n m (nat_mat T) li
       + rsum n (fun i => ln (INR (fact (fold_right Nat.add 0%nat (map (T i) (seq 0 m)))))) /\
  log_fishers_pmf_normalised lg n m (nat_mat T) li
    <> log_fishers_pmf_unnormalised lg n m (nat_mat T) li + ln (INR (fact (nsum2 n m T))).
Proof.
  exists 2%nat, 2%nat, (fun _ _ => 1%nat), (fun _ _ => 0). split; [lia|]. split; [lia|]. intros lg Hlg.
  assert (G1 : lg (0 + 1) = 0) by (generalize (Hlg 0%nat); cbn; rewrite ln_1; auto).
  assert (G2 : lg (1 + 1) = 0) by (generalize (Hlg 1%nat); cbn; rewrite ln_1; auto).
  assert (G3 : lg (1 + 1 + (1 + 1) + 1) = ln (INR (fact 4))).
  { rewrite <- (Hlg 4%nat). f_equal. cbn; ring. }
  assert (G4 : lg (1 + 1 + 1) = ln (INR (fact 2))).
  { rewrite <- (Hlg 2%nat). f_equal. }
  assert (L2 : 0 < ln (1 + 1)) by (rewrite <- ln_1; apply ln_increasing; lra).
  assert (L4 : ln (1 + 1 + (1 + 1)) = 2 * ln (1 + 1)).
  { replace (1 + 1 + (1 + 1)) with ((1 + 1) * (1 + 1)) by ring. rewrite ln_mult by lra. ring. }
  unfold log_poisson_pmf_normalised, log_poisson_pmf_unnormalised, log_multinomial_pmf_normalised,
    log_multinomial_pmf_unnormalised, log_product_multinomial_pmf_normalised, log_product_multinomial_pmf_unnormalised,
    log_fishers_pmf_normalised, log_fishers_pmf_unnormalised, log_odds_ratio, lfs, nat_mat, lse, lse2, nsum2, rsum2; cbv zeta.
  cbn [rsum INR map seq fold_right Nat.add]. rewrite !Rplus_0_l. rewrite ?exp_0. rewrite ?Rplus_0_l in G1.
  split; [|split; [|split]].
  - rewrite G1, G2. intros E; lra.
  - rewrite G1, G2, G3, L4. intros E; lra.
  - rewrite G1, G2, G4. intros E; lra.
  - rewrite !Rmult_0_l. rewrite !(exp_ln (1 + 1)) by lra. rewrite L4.
    rewrite ?Rplus_0_l. replace (2 * ln (1 + 1) - ln (1 + 1) - ln (1 + 1)) with 0 by ring. rewrite exp_0.
        rewrite G1, G2, G3, L4. intros E; lra.
Qed.
Print Assumptions C25_normalised_refuted.

(** The hypotheses: a log-gamma with these values exists, and there are
    distinct tables with equal margins. *)
Example C25_nonvacuous : (exists lg, lgamma_ok lg) /\
  let T := fun i j : nat => if Nat.eqb i j then 2%nat else 0%nat in
  let T' := fun _ _ : nat => 1%nat in
  T 0%nat 0%nat <> T' 0%nat 0%nat /\
  (forall i, (i < 2)%nat -> rsum 2 (fun j => nat_mat T i j) = rsum 2 (fun j => nat_mat T' i j)) /\
  (forall j, (j < 2)%nat -> rsum 2 (fun i => nat_mat T i j) = rsum 2 (fun i => nat_mat T' i j)).
Proof.
  split; [apply lgamma_ok_exists|]. cbv zeta. split; [cbn; lia|].
  split; intros k Hk; destruct k as [|[|]]; try lia; unfold nat_mat; cbn; ring.
Qed.

(** ---- C61 ---------------------------------------------------------------- *)

(** The loss functions are the negated unnormalised log-probabilities, for the
    Poisson, multinomial and Fisher distributions. *)
Theorem C61_losses_partial : forall lg n m (table li : mat), (0 < n)%nat -> (0 < m)%nat ->
  log_poisson_loss lg n m table li = - log_poisson_pmf_unnormalised lg n m table li /\
  log_multinomial_loss lg n m table li = - log_multinomial_pmf_unnormalised lg n m table li /\
  log_fishers_loss lg n m table li = - log_fishers_pmf_unnormalised lg n m table li.
Proof.
  intros lg n m table li Hn Hm.
  split; [unfold log_poisson_loss, log_poisson_pmf_unnormalised; ring|]. split.
  - unfold log_multinomial_loss, log_multinomial_pmf_unnormalised. cbv zeta.
    rewrite logsumexp2_eq by assumption. ring.
  - unfold log_fishers_loss, log_fishers_pmf_unnormalised. cbv zeta.
    rewrite logsumexp2_eq by assumption.
    assert (E : forall i j, log_odds_ratio_xarray n m li i j = log_odds_ratio n m li i j).
    { intros i j; unfold log_odds_ratio_xarray, log_odds_ratio; cbv zeta.
      rewrite !logsumexp_eq, logsumexp2_eq, lse_of_rows by assumption. reflexivity. }
    assert (E2 : lse2 n m (log_odds_ratio_xarray n m li) = lse2 n m (log_odds_ratio n m li)).
    { unfold lse2. f_equal. apply rsum2_ext; intros; rewrite E; reflexivity. }
    rewrite E2. rewrite (rsum2_ext n m (fun i j => table i j * (log_odds_ratio_xarray n m li i j - lse2 n m (log_odds_ratio n m li)))
      (fun i j => table i j * (log_odds_ratio n m li i j - lse2 n m (log_odds_ratio n m li)))) by (intros; rewrite E; reflexivity).
    ring.
Qed.
Print Assumptions C61_losses_partial.

(** The product multinomial loss normalises columns while the log-probability
    normalises rows, so they disagree. *)
Theorem C61_product_multinomial_refuted : exists n m (table li : mat), (0 < n)%nat /\ (0 < m)%nat /\
  forall lg, log_product_multinomial_loss lg n m table li <> - log_product_multinomial_pmf_unnormalised lg n m table li.
Proof.
  exists 1%nat, 2%nat, (fun _ _ => 1), (fun _ _ => 0). split; [lia|]. split; [lia|]. intros lg.
  unfold log_product_multinomial_loss, log_product_multinomial_pmf_unnormalised.
  unfold rsum2; cbn [rsum]. rewrite !logsumexp_eq by lia. unfold lse; cbn [rsum].
  rewrite exp_0, !Rplus_0_l, ln_1.
  assert (0 < ln (1 + 1)) by (rewrite <- ln_1; apply ln_increasing; lra). intros E; lra.
Qed.
Print Assumptions C61_product_multinomial_refuted.

(** ---- C62 ---------------------------------------------------------------- *)

(** The expected tables: multinomial and Fisher ones add up to the table's
    total and are positive. *)
Theorem C62_expected_totals_partial : forall n m (table li : mat), (0 < n)%nat -> (0 < m)%nat ->
  rsum2 n m (multinomial_mean n m table li) = rsum2 n m table /\
  rsum2 n m (fishers_mean n m table li) = rsum2 n m table /\
  (0 < rsum2 n m table -> forall i j, 0 < multinomial_mean n m table li i j /\ 0 < fishers_mean n m table li i j).
Proof.
  intros n m table li Hn Hm.
  pose proof (exp_sum2_pos n m li Hn Hm) as P.
  pose proof (exp_sum2_pos n m (log_odds_ratio n m li) Hn Hm) as Q.
  split; [|split].
  - unfold multinomial_mean. rewrite rsum2_scal. field. lra.
  - unfold fishers_mean. cbv zeta.
    rewrite (rsum2_ext n m _ (fun i j => (rsum2 n m table / rsum2 n m (fun i j => exp (log_odds_ratio n m li i j)))
       * exp (log_odds_ratio n m li i j))) by (intros; unfold Rdiv; ring).
    rewrite rsum2_scal. field. lra.
  - intros HT i j. unfold multinomial_mean, fishers_mean; cbv zeta. split.
    + apply Rmult_lt_0_compat; [apply Rmult_lt_0_compat; [exact HT|apply Rinv_0_lt_compat; exact P]|apply exp_pos].
    + apply Rmult_lt_0_compat; [exact HT|]. apply Rmult_lt_0_compat; [apply exp_pos|apply Rinv_0_lt_compat; exact Q].
Qed.
Print Assumptions C62_expected_totals_partial.

(** The expected product multinomial table does not have the row totals of the
    table: on a square table the scaling of row j is applied to column j, and
    on any other table evaluation fails. *)
Theorem C62_product_rows_refuted :
  (forall n m table li, n <> m -> exists e, product_multinomial_mean n m table li = Raise e) /\
  (exists table li mean, product_multinomial_mean 2 2 table li = Ok mean /\
     (forall i j, 0 < table i j) /\
     rsum 2 (fun j => mean 0%nat j) <> rsum 2 (fun j => table 0%nat j)).
Proof.
  split.
  - intros n m table li H. unfold product_multinomial_mean.
    apply Nat.eqb_neq in H; rewrite H. eexists; reflexivity.
  - exists (fun i _ => INR (i + 1)), (fun _ _ => 0). eexists. split; [reflexivity|]. split.
    + intros i _. apply lt_0_INR; lia.
    + cbn [rsum INR Nat.add]. rewrite exp_0. intros E. field_simplify in E. lra.
Qed.
Print Assumptions C62_product_rows_refuted.

Example C62_nonvacuous : 0 < rsum2 2 3 (fun i j => INR (i + j)) /\
  is_ok (product_multinomial_mean 3 3 (fun _ _ => 1) (fun _ _ => 0)) = true.
Proof. split; [unfold rsum2; cbn; lra|reflexivity]. Qed.

(** ---- C63 ---------------------------------------------------------------- *)

(** Odds ratios: multiplying a row or a column of the intensity by a constant
    changes no two-by-two odds ratio, and taking odds ratios with respect to
    the margins changes none either.  So the doubly constrained sampler, which
    sees the intensity only through them, cannot depend on row or column
    scalings. *)
Theorem C63_cross_ratio_invariant : forall (li : mat) (a b : nat -> R) c1 c2,
  log_odds_cross_ratio (fun i j => li i j + a i + b j) c1 c2 = log_odds_cross_ratio li c1 c2 /\
  (forall n m, log_odds_cross_ratio (log_odds_ratio n m li) c1 c2 = log_odds_cross_ratio li c1 c2) /\
  exp (log_odds_cross_ratio li c1 c2)
    = exp (li (fst c1) (snd c1)) * exp (li (fst c2) (snd c2))
      / (exp (li (fst c1) (snd c2)) * exp (li (fst c2) (snd c1))).
Proof.
  intros li a b c1 c2. split; [unfold log_odds_cross_ratio; ring|]. split.
  - intros n m. unfold log_odds_cross_ratio, log_odds_ratio. cbv zeta. ring.
  - unfold log_odds_cross_ratio, Rminus. rewrite !exp_plus, !exp_Ropp. field.
    split; apply Rgt_not_eq, exp_pos.
Qed.
Print Assumptions C63_cross_ratio_invariant.

(** The margin odds ratio of a cell is intensity times grand total over row
    total times column total, so it is 1 everywhere when the intensity is a
    product of a row and a column factor. *)
Theorem C63_margin_odds_ratio : forall n m (li : mat) i j, (i < n)%nat -> (j < m)%nat ->
  exp (log_odds_ratio n m li i j)
    = exp (li i j) * rsum2 n m (fun a b => exp (li a b))
      / (rsum m (fun b => exp (li i b)) * rsum n (fun a => exp (li a j))) /\
  (forall a b, (forall i' j', (i' < n)%nat -> (j' < m)%nat -> exp (li i' j') = a i' * b j') ->
     log_odds_ratio n m li i j = 0).
Proof.
  intros n m li i j Hi Hj.
  assert (E : exp (log_odds_ratio n m li i j)
    = exp (li i j) * rsum2 n m (fun a b => exp (li a b))
      / (rsum m (fun b => exp (li i b)) * rsum n (fun a => exp (li a j)))).
  { unfold log_odds_ratio. cbv zeta. rewrite lse_of_rows by lia. unfold Rminus. rewrite !exp_plus, !exp_Ropp.
    rewrite exp_lse2, !exp_lse by lia. unfold Rdiv. rewrite Rinv_mult. ring. }
  split; [exact E|]. intros a b H.
  assert (Q : exp (log_odds_ratio n m li i j) = exp 0); [|apply exp_inv; exact Q].
  rewrite E, exp_0. rewrite (H i j Hi Hj).
  pose proof (rsum_pos m (fun b => exp (li i b)) ltac:(lia) ltac:(intros; apply exp_pos)) as P1.
  pose proof (rsum_pos n (fun a => exp (li a j)) ltac:(lia) ltac:(intros; apply exp_pos)) as P2.
  assert (ER : rsum m (fun q => exp (li i q)) = a i * rsum m b).
  { rewrite <- rsum_scal. apply rsum_ext. intros q Hq. apply H; assumption. }
  assert (EC : rsum n (fun p => exp (li p j)) = rsum n a * b j).
  { rewrite <- rsum_scal_r. apply rsum_ext. intros q Hq. apply H; assumption. }
  assert (ET : rsum2 n m (fun p q => exp (li p q)) = rsum n a * rsum m b).
  { unfold rsum2. rewrite <- rsum_scal_r. apply rsum_ext. intros p Hp. rewrite <- rsum_scal.
    apply rsum_ext. intros q Hq. apply H; assumption. }
  rewrite ET. rewrite ER in P1 |- *. rewrite EC in P2 |- *.
  assert (N1 : a i <> 0) by (intros Z0; rewrite Z0 in P1; lra).
  assert (N2 : rsum m b <> 0) by (intros Z0; rewrite Z0 in P1; lra).
  assert (N3 : rsum n a <> 0) by (intros Z0; rewrite Z0 in P2; lra).
  assert (N4 : b j <> 0) by (intros Z0; rewrite Z0 in P2; lra).
  field. tauto.
Qed.
Print Assumptions C63_margin_odds_ratio.

Example C63_nonvacuous : log_odds_cross_ratio (fun i j => INR (i * j)) (0, 0)%nat (1, 1)%nat = 1.
Proof. unfold log_odds_cross_ratio; cbn. ring. Qed.

(** ---- C64 ---------------------------------------------------------------- *)

(** Signed averages: with all signs equal they are the ordinary mean and
    variance (the variance is non-negative); a constant sample has its value as
    mean and variance 0 whatever the signs, as long as they do not cancel. *)
Theorem C64_signed_moments : forall n data signs, rsum n signs <> 0 ->
  (forall c, (forall k, (k < n)%nat -> data k = c) -> signed_mean n data signs = c /\ signed_var n data signs = 0) /\
  (forall s, (forall k, (k < n)%nat -> signs k = s) ->
     signed_mean n data signs = rsum n data / INR n /\
     signed_var n data signs = rsum n (fun k => (data k - rsum n data / INR n)^2) / INR n /\
     0 <= signed_var n data signs).
Proof.
  intros n data signs H0. split.
  - intros c Hc.
    assert (M : signed_mean n data signs = c).
    { unfold signed_mean. rewrite (rsum_ext n _ (fun k => c * signs k)) by (intros; rewrite Hc by assumption; ring).
      rewrite rsum_scal. field. exact H0. }
    split; [exact M|]. unfold signed_var. rewrite M.
    rewrite (rsum_ext n _ (fun k => c^2 * signs k)) by (intros; rewrite Hc by assumption; ring).
    rewrite rsum_scal. field. exact H0.
  - intros s Hs.
    assert (ES : rsum n signs = INR n * s) by (rewrite (rsum_ext n signs (fun _ => s) Hs), rsum_const; ring).
    rewrite ES in H0. assert (s <> 0 /\ INR n <> 0) as [Hs0 Hn0] by (split; intros E; apply H0; rewrite E; ring).
    assert (M : signed_mean n data signs = rsum n data / INR n).
    { unfold signed_mean. rewrite (rsum_ext n _ (fun k => s * data k)) by (intros; rewrite Hs by assumption; ring).
      rewrite rsum_scal, ES. field. split; assumption. }
    assert (V : signed_var n data signs = rsum n (fun k => (data k - rsum n data / INR n)^2) / INR n).
    { unfold signed_var. rewrite M. set (mu := rsum n data / INR n).
      rewrite (rsum_ext n _ (fun k => s * (data k)^2)) by (intros; rewrite Hs by assumption; ring).
      rewrite rsum_scal, ES.
      rewrite (rsum_ext n (fun k => (data k - mu)^2) (fun k => (data k)^2 - 2 * mu * data k + mu^2)) by (intros; ring).
      rewrite rsum_add, rsum_sub, rsum_scal, rsum_const.
      replace (rsum n data) with (mu * INR n) by (unfold mu; field; exact Hn0).
      field. split; assumption. }
    split; [exact M|]. split; [exact V|]. rewrite V.
    apply Rmult_le_pos; [apply rsum_nonneg; intros; apply pow2_ge_0|].
    apply Rlt_le, Rinv_0_lt_compat. destruct n; [cbn in Hn0; lra|apply lt_0_INR; lia].
Qed.
Print Assumptions C64_signed_moments.

Example C64_nonvacuous : rsum 3 (fun k => if Nat.eqb k 1 then -1 else 1) <> 0 /\
  signed_mean 3 (fun k => INR k) (fun k => if Nat.eqb k 1 then -1 else 1) = 1.
Proof. unfold signed_mean; cbn. split; [lra|field]. Qed.

(** ---- C26 ---------------------------------------------------------------- *)

Definition tail (k : R) (n : nat) : R := Rpower (INR (n + 1)) (- k).

Lemma tail_antitone : forall k a b, 0 <= k -> (a <= b)%nat -> tail k b <= tail k a.
Proof.
  intros k a b Hk Hab. unfold tail. rewrite !Rpower_Ropp.
  apply Rinv_le_contravar; [apply exp_pos|]. apply Rle_Rpower_l; [exact Hk|].
  split; [apply lt_0_INR; lia|apply le_INR; lia].
Qed.

Lemma INR_above : forall x, exists n, x < INR n.
Proof.
  intros x. exists (Z.to_nat (up x)). destruct (archimed x) as [H _].
  apply Rlt_le_trans with (IZR (up x)); [lra|].
  rewrite INR_IZR_INZ. apply IZR_le. lia.
Qed.

Lemma tail_vanishes : forall k u, 0 < k -> 0 < u -> exists n, (1 <= n)%nat /\ tail k n <= u.
Proof.
  intros k u Hk Hu.
  destruct (INR_above (Rpower u (- / k))) as [n Hn].
  exists (S n). split; [lia|]. unfold tail.
  assert (B : Rpower u (- / k) <= INR (S n + 1)).
  { apply Rle_trans with (INR n); [lra|apply le_INR; lia]. }
  rewrite Rpower_Ropp.
  replace u with (/ Rpower (Rpower u (- / k)) k).
  - apply Rinv_le_contravar; [apply exp_pos|]. apply Rle_Rpower_l; [lra|]. split; [apply exp_pos|exact B].
  - rewrite Rpower_mult. replace (- / k * k) with (- (1)) by (field; lra).
    rewrite Rpower_Ropp, Rpower_1 by exact Hu. field. lra.
Qed.

Lemma loop_found : forall k u fuel n m, stopping_loop fuel k u n = Some m ->
  (n <= m)%nat /\ tail k m <= u /\ (forall i, (n <= i)%nat -> (i < m)%nat -> u < tail k i).
Proof.
  intros k u fuel; induction fuel as [|fuel IH]; intros n m H; [discriminate|].
  cbn in H. destruct (Rltb u (Rpower (INR (n + 1)) (- k))) eqn:E.
  - apply Rltb_spec in E. destruct (IH _ _ H) as [A [B C]]. split; [lia|]. split; [exact B|].
    intros i Hi Hm. destruct (Nat.eq_dec i n) as [->|Hne]; [exact E|apply C; lia].
  - inversion H; subst. apply Rltb_false in E. split; [lia|]. split; [exact E|]. intros; lia.
Qed.

Lemma loop_complete : forall k u d n m, m = (n + d)%nat -> tail k m <= u ->
  (forall i, (n <= i)%nat -> (i < m)%nat -> u < tail k i) -> stopping_loop (S d) k u n = Some m.
Proof.
  intros k u d; induction d as [|d IH]; intros n m -> H1 H2.
  - rewrite Nat.add_0_r in *. cbn. fold (tail k n).
    assert (Rltb u (tail k n) = false) as -> by (apply Rltb_false; exact H1). reflexivity.
  - cbn [stopping_loop]. fold (tail k n).
    assert (Rltb u (tail k n) = true) as -> by (apply Rltb_spec, H2; lia).
    apply IH; [lia|exact H1|intros; apply H2; lia].
Qed.

(** For every exponent and draw, the loop ends with n exactly when u lies in
    the n-th interval. *)
Theorem C26_stopping_time_exact : forall k u n, 0 <= k ->
  (stops k u n <->
   (1 <= n)%nat /\ Rpower (INR (n + 1)) (- k) <= u /\ (n = 1%nat \/ u < Rpower (INR n) (- k))).
Proof.
  intros k u n Hk; split.
  - intros [fuel H]. destruct (loop_found _ _ _ _ _ H) as [A [B C]]. split; [exact A|]. split; [exact B|].
    destruct (Nat.eq_dec n 1) as [->|Hne]; [left; reflexivity|right].
    specialize (C (n - 1)%nat ltac:(lia) ltac:(lia)). unfold tail in C. replace (n - 1 + 1)%nat with n in C by lia. exact C.
  - intros [A [B C]]. exists (S (n - 1)). apply loop_complete; [lia|exact B|].
    intros i Hi Hm. destruct C as [->|C]; [lia|].
    apply Rlt_le_trans with (Rpower (INR n) (- k)); [exact C|].
    replace n with (n - 1 + 1)%nat by lia. apply (tail_antitone k i (n - 1)); [exact Hk|lia].
Qed.
Print Assumptions C26_stopping_time_exact.

(** It ends for every positive draw, never for the draw 0 (which torch.rand can
    return), and never for an exponent that is not positive. *)
Theorem C26_terminates_iff : forall k u, 0 <= u < 1 ->
  ((exists n, stops k u n) <-> (0 < k /\ 0 < u)).
Proof.
  intros k u Hu; split.
  - intros [n [fuel H]]. destruct (loop_found _ _ _ _ _ H) as [A [B _]].
    assert (0 < tail k n) by apply exp_pos. split; [|lra].
    destruct (Rle_or_lt k 0) as [Hk|Hk]; [exfalso|exact Hk].
    assert (1 <= tail k n); [|lra]. unfold tail, Rpower.
    rewrite <- exp_0. assert (0 <= - k * ln (INR (n + 1))).
    { apply Rmult_le_pos; [lra|]. rewrite <- ln_1.
      assert (1 < INR (n + 1)) by (apply (lt_INR 1); lia). left; apply ln_increasing; lra. }
    destruct H1 as [H1|H1]; [left; apply exp_increasing; exact H1|rewrite <- H1; lra].
  - intros [Hk Hu0]. destruct (tail_vanishes k u Hk Hu0) as [N [HN T]].
    assert (D : forall d, exists n, (1 <= n <= 1 + d)%nat /\ (tail k n <= u \/ n = (1 + d)%nat) /\
       forall i, (1 <= i)%nat -> (i < n)%nat -> u < tail k i).
    { induction d as [|d [n [Hn [Ho Hi]]]].
      - exists 1%nat. split; [lia|]. split; [right; reflexivity|intros; lia].
      - destruct (Rle_or_lt (tail k n) u) as [L|L].
        + exists n. split; [lia|]. split; [left; exact L|exact Hi].
        + destruct Ho as [Ho|Ho]; [lra|]. exists (S n). split; [lia|]. split; [right; lia|].
          intros i H1 H2. destruct (Nat.eq_dec i n) as [->|]; [exact L|apply Hi; lia]. }
    destruct (D (N - 1)%nat) as [n [Hn [Ho Hi]]].
    assert (HT : tail k n <= u) by (destruct Ho as [Ho|Ho]; [exact Ho|replace n with N by lia; exact T]).
    exists n, (S (n - 1)). apply loop_complete; [lia|exact HT|exact Hi].
Qed.
Print Assumptions C26_terminates_iff.

(** The time is unique, and it exceeds n exactly for the draws below
    (n+1)^-k: a uniform draw does that with probability (n+1)^-k. *)
Theorem C26_unique_and_tail : forall k u m, 0 <= k -> stops k u m ->
  (forall m', stops k u m' -> m' = m) /\
  (forall n, (1 <= n)%nat -> ((n < m)%nat <-> u < Rpower (INR (n + 1)) (- k))).
Proof.
  intros k u m Hk Hs.
  destruct (proj1 (C26_stopping_time_exact k u m Hk) Hs) as [A [B C]].
  assert (T : forall m', stops k u m' -> forall n, (1 <= n)%nat -> ((n < m')%nat <-> u < tail k n)).
  { intros m' [fuel H] n Hn. destruct (loop_found _ _ _ _ _ H) as [A' [B' C']]. split; [apply C'; exact Hn|].
    intros L. destruct (Nat.lt_ge_cases n m') as [|G]; [assumption|].
    pose proof (tail_antitone k m' n Hk G). lra. }
  split; [|exact (T m Hs)].
  intros m' Hs'.
  destruct (proj1 (C26_stopping_time_exact k u m' Hk) Hs') as [A' _].
  destruct (Nat.lt_trichotomy m m') as [L|[L|L]]; [|auto|].
  - apply (T m' Hs' m A) in L. unfold tail in L. lra.
  - apply (T m Hs m' A') in L. destruct Hs' as [fuel H]. apply loop_found in H as [_ [H _]]. lra.
Qed.
Print Assumptions C26_unique_and_tail.

Example C26_nonvacuous : stops 1 (2 / 5) 2.
Proof.
  apply C26_stopping_time_exact; [lra|]. split; [lia|].
  rewrite !Rpower_Ropp, !Rpower_1 by (apply lt_0_INR; lia). cbn. split; [lra|right; lra].
Qed.

(** ---- C27 ---------------------------------------------------------------- *)

(** The estimator the code comments announce (line 258): running averages
    Y_i = (i+1)/(w_0+...+w_i) of the N+1 weights, first term plus differences
    divided by the probability i^-k of reaching the i-th one. *)
Definition running_average (w : nat -> R) (i : nat) : R := INR (i + 1) / rsum (i + 1) w.
Definition debiased_series (N : nat) (w : nat -> R) (k : R) : R :=
  running_average w 0 + rsum N (fun i => (running_average w (i + 1) - running_average w i) * Rpower (INR (i + 1)) k).

Lemma exp_ln_Y : forall N lw i, (i <= N)%nat -> exp (ln_Y N lw i) = running_average (fun j => exp (lw j)) i.
Proof.
  intros N lw i H; unfold ln_Y, running_average. apply Nat.leb_le in H; rewrite H.
  unfold Rminus; rewrite exp_plus, exp_Ropp, exp_ln, exp_lse by (try lia; apply lt_0_INR; lia). reflexivity.
Qed.

Lemma exp_ln_Y_last : forall N lw, exp (ln_Y N lw (N + 1)) = INR (N + 2).
Proof.
  intros N lw; unfold ln_Y. assert ((N + 1 <=? N)%nat = false) as -> by (apply Nat.leb_gt; lia).
  rewrite exp_ln by (apply lt_0_INR; lia). f_equal; lia.
Qed.

Lemma exp_pow : forall y k i, (0 < i)%nat -> exp (y + k * ln (INR i)) = exp y * Rpower (INR i) k.
Proof. intros y k i H; rewrite exp_plus; reflexivity. Qed.

(** What is computed: the announced estimator plus a bogus last difference, in
    which the (N+2)-nd running average is replaced by the number N+2. *)
Theorem C27_series_value : forall N lw k ret sign, truncated_series N lw k = Ok (ret, sign) ->
  let w := fun j => exp (lw j) in
  sign * exp ret = debiased_series N w k + (INR (N + 2) - running_average w N) * Rpower (INR (N + 1)) k /\
  (sign = 1 \/ sign = -1).
Proof.
  intros N lw k ret sign H w.
  assert (EP : rsum (N + 2) (fun i => exp (ln_Y_pos N lw k i))
    = running_average w 0 + rsum N (fun i => running_average w (i + 1) * Rpower (INR (i + 1)) k)
      + INR (N + 2) * Rpower (INR (N + 1)) k).
  { replace (N + 2)%nat with (S (S N)) at 1 by lia. rewrite rsum_S, rsum_shift. f_equal; [f_equal|].
    - cbn [ln_Y_pos]. apply exp_ln_Y; lia.
    - apply rsum_ext; intros i Hi. cbn [ln_Y_pos].
      replace (S i) with (i + 1)%nat by lia. rewrite exp_pow, exp_ln_Y by lia. reflexivity.
    - cbn [ln_Y_pos]. replace (S N) with (N + 1)%nat by lia. rewrite exp_pow, exp_ln_Y_last by lia. reflexivity. }
  assert (EN : rsum (N + 1) (fun i => exp (ln_Y_neg N lw k i))
    = rsum N (fun i => running_average w i * Rpower (INR (i + 1)) k) + running_average w N * Rpower (INR (N + 1)) k).
  { replace (N + 1)%nat with (S N) at 1 by lia. rewrite rsum_S. f_equal.
    - apply rsum_ext; intros i Hi. unfold ln_Y_neg. rewrite exp_pow, exp_ln_Y by lia. reflexivity.
    - unfold ln_Y_neg. rewrite exp_pow, exp_ln_Y by lia. reflexivity. }
  assert (D : rsum (N + 2) (fun i => exp (ln_Y_pos N lw k i)) - rsum (N + 1) (fun i => exp (ln_Y_neg N lw k i))
     = debiased_series N w k + (INR (N + 2) - running_average w N) * Rpower (INR (N + 1)) k).
  { rewrite EP, EN. unfold debiased_series.
    rewrite (rsum_ext N (fun i => (running_average w (i + 1) - running_average w i) * Rpower (INR (i + 1)) k)
      (fun i => running_average w (i + 1) * Rpower (INR (i + 1)) k - running_average w i * Rpower (INR (i + 1)) k))
      by (intros; ring).
    rewrite rsum_sub. ring. }
  rewrite <- D. unfold truncated_series in H. cbv zeta in H.
  rewrite <- (exp_lse (N + 2)), <- (exp_lse (N + 1)) by lia.
  set (pos := lse (N + 2) (ln_Y_pos N lw k)) in *. set (neg := lse (N + 1) (ln_Y_neg N lw k)) in *.
  assert (L : forall a b, a < b -> exp (b + ln (1 - exp (a - b))) = exp b - exp a).
  { intros a b Hab. assert (exp (a - b) < 1) by (rewrite <- exp_0; apply exp_increasing; lra).
    rewrite exp_plus, exp_ln by lra. rewrite Rmult_minus_distr_l, Rmult_1_r, <- exp_plus.
    replace (b + (a - b)) with a by ring. reflexivity. }
  destruct (Rleb neg pos) eqn:E1.
  - destruct (Rltb neg pos) eqn:E2; [|discriminate]. apply Rltb_spec in E2. injection H as <- <-.
    rewrite L by exact E2. split; [ring|left; reflexivity].
  - apply Rleb_false in E1. injection H as <- <-. rewrite L by exact E1. split; [ring|right; reflexivity].
Qed.
Print Assumptions C27_series_value.

(** So the announced estimator is returned exactly when the last average of the
    weights happens to be (N+1)/(N+2); in particular not when all weights are
    one, where the estimate of 1 becomes 1 + (N+1)^(k+1). *)
Theorem C27_series_exact_iff_partial : forall N lw k ret sign, truncated_series N lw k = Ok (ret, sign) ->
  let w := fun j => exp (lw j) in
  (sign * exp ret = debiased_series N w k <-> rsum (N + 1) w / INR (N + 1) = / INR (N + 2)).
Proof.
  intros N lw k ret sign H w. destruct (C27_series_value _ _ _ _ _ H) as [E _]. fold w in E. rewrite E.
  assert (P : 0 < Rpower (INR (N + 1)) k) by apply exp_pos.
  assert (S : 0 < rsum (N + 1) w) by (apply rsum_pos; [lia|intros; apply exp_pos]).
  assert (A : 0 < INR (N + 1)) by (apply lt_0_INR; lia). assert (B : 0 < INR (N + 2)) by (apply lt_0_INR; lia).
  unfold running_average. split; intros Hx.
  - assert (Z : (INR (N + 2) - INR (N + 1) / rsum (N + 1) w) * Rpower (INR (N + 1)) k = 0) by lra.
    apply Rmult_integral in Z. destruct Z as [Z|Z]; [|lra].
    replace (INR (N + 2)) with (INR (N + 1) / rsum (N + 1) w) by lra. field. split; lra.
  - assert (INR (N + 1) / rsum (N + 1) w = INR (N + 2)); [|rewrite H0; ring].
    rewrite <- (Rinv_inv (INR (N + 2))), <- Hx. field. split; lra.
Qed.
Print Assumptions C27_series_exact_iff_partial.

Theorem C27_unit_weights_refuted : forall N k, exists ret,
  truncated_series N (fun _ => 0) k = Ok (ret, 1) /\
  debiased_series N (fun _ => 1) k = 1 /\
  exp ret = 1 + INR (N + 1) * Rpower (INR (N + 1)) k.
Proof.
  intros N k.
  assert (RA : forall i, running_average (fun _ => 1) i = 1).
  { intros i; unfold running_average. rewrite rsum_const, Rmult_1_r. field. apply Rgt_not_eq, lt_0_INR; lia. }
  assert (DS : debiased_series N (fun _ => 1) k = 1).
  { unfold debiased_series. rewrite RA, rsum_0; [ring|]. intros; rewrite !RA; ring. }
  assert (P : 0 < Rpower (INR (N + 1)) k) by apply exp_pos.
  assert (A : 0 < INR (N + 1)) by (apply lt_0_INR; lia).
  assert (V : forall r s, truncated_series N (fun _ => 0) k = Ok (r, s) -> s * exp r = 1 + INR (N + 1) * Rpower (INR (N + 1)) k).
  { intros r s H. destruct (C27_series_value _ _ _ _ _ H) as [E _].
    assert (W : forall i, running_average (fun j : nat => exp 0) i = 1).
    { intros i. unfold running_average. rewrite exp_0. apply (RA i). }
    unfold debiased_series in E. rewrite !W, rsum_0 in E by (intros; rewrite !W; ring).
    rewrite E. replace (N + 2)%nat with (S (N + 1)) by lia. rewrite S_INR. ring. }
  assert (Pos : 0 < 1 + INR (N + 1) * Rpower (INR (N + 1)) k).
  { apply Rplus_lt_0_compat; [lra|]. apply Rmult_lt_0_compat; assumption. }
  destruct (truncated_series N (fun _ => 0) k) as [[r s]|e] eqn:ET.
  - destruct (C27_series_value _ _ _ _ _ ET) as [_ [-> | ->]].
    + exists r. split; [reflexivity|]. split; [exact DS|]. specialize (V r 1 eq_refl). lra.
    + exfalso. specialize (V r (-1) eq_refl). pose proof (exp_pos r). lra.
  - exfalso. unfold truncated_series in ET. cbv zeta in ET.
    destruct (Rleb _ _) eqn:E1 in ET; [|discriminate].
    destruct (Rltb _ _) eqn:E2 in ET; [discriminate|].
    apply Rleb_spec in E1. apply Rltb_false in E2.
    assert (EQ : exp (lse (N + 2) (ln_Y_pos N (fun _ => 0) k)) = exp (lse (N + 1) (ln_Y_neg N (fun _ => 0) k)))
      by (f_equal; lra).
    rewrite !exp_lse in EQ by lia.
    assert (EY : forall i, (i <= N)%nat -> exp (ln_Y N (fun _ => 0) i) = 1).
    { intros i Hi. rewrite exp_ln_Y by exact Hi. unfold running_average. rewrite exp_0. apply (RA i). }
    replace (N + 2)%nat with (S (S N)) in EQ by lia. replace (N + 1)%nat with (S N) in EQ by lia.
    rewrite rsum_S, rsum_shift, rsum_S in EQ. cbn [ln_Y_pos] in EQ.
    rewrite (rsum_ext N (fun k0 => exp (ln_Y N (fun _ => 0) (S k0) + k * ln (INR (S k0))))
      (fun i => exp (ln_Y_neg N (fun _ => 0) k i))) in EQ.
    2:{ intros i Hi. unfold ln_Y_neg. replace (S i) with (i + 1)%nat by lia. rewrite !exp_pow by lia. rewrite !EY by lia. reflexivity. }
    unfold ln_Y_neg in EQ.
    replace (S N) with (N + 1)%nat in EQ by lia. rewrite !exp_pow, exp_ln_Y_last, !EY in EQ by lia.
    replace (N + 2)%nat with (S (N + 1)) in EQ by lia. rewrite S_INR in EQ.
    assert (0 < INR (N + 1) * Rpower (INR (N + 1)) k) by (apply Rmult_lt_0_compat; assumption). lra.
Qed.
Print Assumptions C27_unit_weights_refuted.

Example C27_nonvacuous : exists ret, truncated_series 1 (fun _ => 0) 2 = Ok (ret, 1) /\ exp ret = 9.
Proof.
  destruct (C27_unit_weights_refuted 1 2) as [ret [H [_ E]]]. exists ret. split; [exact H|]. rewrite E.
  replace 2 with (INR 2) by reflexivity. rewrite Rpower_pow by (cbn; lra). cbn. ring.
Qed.

Example C61_nonvacuous : log_poisson_loss (fun _ => 0) 1 2 (fun _ j => INR j) (fun _ _ => 1) = 1.
Proof. unfold log_poisson_loss, lfs, rsum2; cbn. ring. Qed.
