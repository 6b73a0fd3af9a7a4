(** Property C141: the random truncation of the series for 1/Z(theta)
    (unbiased_z_inverse, HarrisWilsonModel_MCMC.py:543-602, which hands a
    stopping time and its N+1 log weights to compute_truncated_infinite_series)
    makes the estimate unbiased.

    The model is that of ProbUtils.v ([stops], [truncated_series]); this file
    adds the average over the stopping time. *)
From Coq Require Import Reals Lra Lia Arith List ZArith.
From Verif Require Import Base RealBase ProbUtils ProbUtilsProps.
Import ListNotations.
Open Scope R_scope.

(** SPECIFICATION.  The uniform draws that stop at n are an interval (C26); its
    length is the probability of n. *)
Definition stop_prob (k : R) (n : nat) : R := Rpower (INR n) (- k) - Rpower (INR (n + 1)) (- k).

(** Average of [f] over the stopping time cut at M, E f(min(N,M)): every n from
    1 to M with its probability, and the remaining mass (M+1)^-k of the longer
    times on M. *)
Definition average_to (M : nat) (k : R) (f : nat -> R) : R :=
  rsum M (fun i => stop_prob k (i + 1) * f (i + 1)%nat) + Rpower (INR (M + 1)) (- k) * f M.

(** [stop_prob] is the length of the set of draws that stop at n. *)
Theorem C141_stop_probability : forall k u n, 0 < k -> 0 <= u < 1 -> (1 <= n)%nat ->
  (stops k u n <-> Rpower (INR (n + 1)) (- k) <= u < Rpower (INR (n + 1)) (- k) + stop_prob k n).
Proof.
  intros k u n Hk Hu Hn. rewrite C26_stopping_time_exact by lra. unfold stop_prob.
  assert (E : Rpower (INR (n + 1)) (- k) + (Rpower (INR n) (- k) - Rpower (INR (n + 1)) (- k)) = Rpower (INR n) (- k)) by lra.
  rewrite E. clear E. split.
  - intros [_ [A [B|B]]]; [|lra]. subst n. split; [exact A|].
    replace (INR 1) with 1 by reflexivity. unfold Rpower. rewrite ln_1, Rmult_0_r, exp_0. lra.
  - intros [A B]. split; [exact Hn|]. split; [exact A|right; exact B].
Qed.
Print Assumptions C141_stop_probability.

Lemma average_ext : forall M k f g, (1 <= M)%nat -> (forall n, (1 <= n <= M)%nat -> f n = g n) ->
  average_to M k f = average_to M k g.
Proof.
  intros M k f g HM H. unfold average_to. rewrite (H M) by lia. f_equal.
  apply rsum_ext. intros i Hi. rewrite (H (i + 1)%nat) by lia. reflexivity.
Qed.

Lemma average_plus : forall M k f g, average_to M k (fun n => f n + g n) = average_to M k f + average_to M k g.
Proof.
  intros M k f g. unfold average_to.
  rewrite (rsum_ext M (fun i => stop_prob k (i + 1) * (f (i + 1)%nat + g (i + 1)%nat))
    (fun i => stop_prob k (i + 1) * f (i + 1)%nat + stop_prob k (i + 1) * g (i + 1)%nat)) by (intros; ring).
  rewrite rsum_add. ring.
Qed.

(** Going one step further moves only the mass that has not stopped. *)
Lemma average_step : forall M k f,
  average_to (S M) k f = average_to M k f + Rpower (INR (M + 1)) (- k) * (f (S M) - f M).
Proof.
  intros M k f. unfold average_to. rewrite rsum_S. unfold stop_prob.
  replace (M + 1)%nat with (S M) by lia. replace (S M + 1)%nat with (S (S M)) by lia. ring.
Qed.

Lemma average_0 : forall k f, average_to 0 k f = f O.
Proof.
  intros k f. unfold average_to. cbn [rsum]. replace (INR (0 + 1)) with 1 by reflexivity.
  unfold Rpower. rewrite ln_1, Rmult_0_r, exp_0. ring.
Qed.

Lemma pow_cancel : forall k n, (1 <= n)%nat -> Rpower (INR n) (- k) * Rpower (INR n) k = 1.
Proof.
  intros k n Hn. rewrite <- Rpower_plus. replace (- k + k) with 0 by ring. apply Rpower_O. apply lt_0_INR; lia.
Qed.

(** The estimator announced in the code is exactly unbiased, whatever the
    weights: averaged over the stopping time cut at M it is the M-th running
    average. *)
Theorem C141_announced_series_unbiased : forall M k w,
  average_to M k (fun n => debiased_series n w k) = running_average w M.
Proof.
  intros M k w. induction M as [|M IH].
  - rewrite average_0. unfold debiased_series. cbn [rsum]. ring.
  - rewrite average_step, IH. unfold debiased_series. rewrite rsum_S.
    pose proof (pow_cancel k (M + 1) ltac:(lia)) as E.
    replace (S M) with (M + 1)%nat by lia.
    replace (running_average w M + Rpower (INR (M + 1)) (- k) *
      (running_average w 0 + (rsum M (fun i => (running_average w (i + 1) - running_average w i) * Rpower (INR (i + 1)) k)
        + (running_average w (M + 1) - running_average w M) * Rpower (INR (M + 1)) k)
       - (running_average w 0 + rsum M (fun i => (running_average w (i + 1) - running_average w i) * Rpower (INR (i + 1)) k))))
    with (running_average w M + (Rpower (INR (M + 1)) (- k) * Rpower (INR (M + 1)) k) * (running_average w (M + 1) - running_average w M)) by ring.
    rewrite E. ring.
Qed.
Print Assumptions C141_announced_series_unbiased.

(** The signed value of what the function returns. *)
Definition estimate (k : R) (lw : nat -> R) (n : nat) : R :=
  match truncated_series n lw k with Ok (ret, sign) => sign * exp ret | Raise _ => 0 end.

(** What the returned estimates average to: the wanted value plus the average
    of the spurious last term. *)
Theorem C141_average_of_returned_partial : forall M k lw, (1 <= M)%nat ->
  (forall n, (1 <= n <= M)%nat -> is_ok (truncated_series n lw k) = true) ->
  let w := fun j => exp (lw j) in
  average_to M k (estimate k lw) =
  running_average w M +
  average_to M k (fun n => (INR (n + 2) - running_average w n) * Rpower (INR (n + 1)) k).
Proof.
  intros M k lw HM Hok w. rewrite <- (C141_announced_series_unbiased M k w), <- average_plus.
  apply average_ext; [exact HM|]. intros n Hn. unfold estimate. specialize (Hok n Hn).
  destruct (truncated_series n lw k) as [[ret sign]|e] eqn:E; [|discriminate].
  exact (proj1 (C27_series_value _ _ _ _ _ E)).
Qed.
Print Assumptions C141_average_of_returned_partial.

Lemma stop_prob_bounds : forall k n, 0 < k -> (1 <= n)%nat -> 0 <= stop_prob k n <= 1.
Proof.
  intros k n Hk Hn. unfold stop_prob.
  assert (P1 : 0 < Rpower (INR (n + 1)) (- k)) by apply exp_pos.
  assert (L1 : Rpower (INR n) (- k) <= 1).
  { unfold Rpower. rewrite <- exp_0. assert (0 <= ln (INR n)).
    { rewrite <- ln_1. destruct (Nat.eq_dec n 1) as [->|]; [right; reflexivity|].
      left; apply ln_increasing; [lra|]. apply (lt_INR 1); lia. }
    assert (- k * ln (INR n) <= 0) by nra.
    destruct H0 as [H0|H0]; [left; apply exp_increasing; exact H0|rewrite H0; lra]. }
  assert (L2 : Rpower (INR (n + 1)) (- k) <= Rpower (INR n) (- k)).
  { unfold Rpower. left. apply exp_increasing. apply Ropp_lt_cancel.
    replace (- (- k * ln (INR n))) with (k * ln (INR n)) by ring.
    replace (- (- k * ln (INR (n + 1)))) with (k * ln (INR (n + 1))) by ring.
    apply Rmult_lt_compat_l; [exact Hk|]. apply ln_increasing; [apply lt_0_INR; lia|apply lt_INR; lia]. }
  lra.
Qed.

Lemma above : forall x : R, exists n : nat, x < INR n.
Proof.
  intros x. exists (Z.to_nat (up x)). destruct (archimed x) as [A _].
  destruct (Z_le_gt_dec 0 (up x)) as [H|H].
  - rewrite INR_IZR_INZ, Z2Nat.id by exact H. lra.
  - replace (Z.to_nat (up x)) with O by lia. assert (IZR (up x) <= 0) by (apply (IZR_le _ 0); lia). cbn. lra.
Qed.

(** The returned estimates are not unbiased: with weights bounded away from
    zero their average over the stopping time cut at M exceeds every bound as M
    grows, while the running averages stay bounded. *)
Theorem C141_unbiased_refuted : forall k lw c, 0 < k ->
  (forall j, c <= lw j) ->
  (forall n, (1 <= n)%nat -> is_ok (truncated_series n lw k) = true) ->
  (forall M, 0 < running_average (fun j => exp (lw j)) M <= exp (- c)) /\
  forall B, exists M0, forall M, (M0 <= M)%nat -> B < average_to M k (estimate k lw).
Proof.
  intros k lw c Hk Hc Hok. set (w := fun j => exp (lw j)).
  assert (HY : forall M, 0 < running_average w M <= exp (- c)).
  { intros M. unfold running_average.
    assert (A : 0 < INR (M + 1)) by (apply lt_0_INR; lia).
    assert (S1 : INR (M + 1) * exp c <= rsum (M + 1) w).
    { rewrite <- rsum_const. apply rsum_le. intros j _. unfold w.
      destruct (Hc j) as [H|H]; [left; apply exp_increasing; exact H|rewrite H; lra]. }
    pose proof (exp_pos c) as Ec.
    assert (P : 0 < rsum (M + 1) w) by nra.
    split; [apply Rdiv_lt_0_compat; assumption|].
    apply (Rmult_le_reg_r (rsum (M + 1) w)); [exact P|].
    replace (INR (M + 1) / rsum (M + 1) w * rsum (M + 1) w) with (INR (M + 1)) by (field; lra).
    pose proof (exp_pos (- c)) as Em.
    assert (EE : exp (- c) * exp c = 1) by (rewrite <- exp_plus, <- exp_0; f_equal; ring). nra. }
  split; [exact HY|]. intros B.
  set (C := exp (- c)) in *. assert (HC : 0 < C) by apply exp_pos.
  destruct (above C) as [n0 Hn0].
  set (D := rsum n0 (fun i => C * Rpower (INR (i + 2)) k)).
  destruct (above (B + C + D)) as [M1 HM1].
  exists (S (n0 + M1)). intros M HM.
  rewrite C141_average_of_returned_partial; [|lia|intros n Hn; apply Hok; lia].
  fold w. unfold average_to.
  pose proof (HY M) as HYM.
  assert (T : Rpower (INR (M + 1)) (- k) * ((INR (M + 2) - running_average w M) * Rpower (INR (M + 1)) k)
              = INR (M + 2) - running_average w M).
  { pose proof (pow_cancel k (M + 1) ltac:(lia)) as E.
    replace (Rpower (INR (M + 1)) (- k) * ((INR (M + 2) - running_average w M) * Rpower (INR (M + 1)) k))
      with ((Rpower (INR (M + 1)) (- k) * Rpower (INR (M + 1)) k) * (INR (M + 2) - running_average w M)) by ring.
    rewrite E; ring. }
  rewrite T.
  assert (L : - D <= rsum M (fun i => stop_prob k (i + 1) *
      ((INR (i + 1 + 2) - running_average w (i + 1)) * Rpower (INR (i + 1 + 1)) k))).
  { replace M with (n0 + (M - n0))%nat by lia. rewrite rsum_split.
    assert (A1 : - D <= rsum n0 (fun i => stop_prob k (i + 1) *
      ((INR (i + 1 + 2) - running_average w (i + 1)) * Rpower (INR (i + 1 + 1)) k))).
    { unfold D. rewrite <- rsum_opp. apply rsum_le. intros i Hi.
      replace (i + 1 + 1)%nat with (i + 2)%nat by lia.
      pose proof (stop_prob_bounds k (i + 1) Hk ltac:(lia)) as [P0 P1].
      pose proof (HY (i + 1)%nat) as Hy. pose proof (pos_INR (i + 1 + 2)) as Hp.
      pose proof (exp_pos (k * ln (INR (i + 2)))) as Hq. fold (Rpower (INR (i + 2)) k) in Hq.
      set (q := Rpower (INR (i + 2)) k) in *. set (p := stop_prob k (i + 1)) in *.
      assert (- C <= INR (i + 1 + 2) - running_average w (i + 1)) by lra.
      set (z := INR (i + 1 + 2) - running_average w (i + 1)) in *. clearbody z q p.
      assert (- (C * q) <= z * q) by nra.
      assert (0 <= C * q) by nra.
      destruct (Rle_or_lt 0 (z * q)); nra. }
    assert (A2 : 0 <= rsum (M - n0) (fun i => stop_prob k (n0 + i + 1) *
      ((INR (n0 + i + 1 + 2) - running_average w (n0 + i + 1)) * Rpower (INR (n0 + i + 1 + 1)) k))).
    { apply rsum_nonneg. intros i Hi.
      pose proof (stop_prob_bounds k (n0 + i + 1) Hk ltac:(lia)) as [P0 P1].
      pose proof (HY (n0 + i + 1)%nat) as Hy.
      assert (INR n0 <= INR (n0 + i + 1 + 2)) by (apply le_INR; lia).
      apply Rmult_le_pos; [exact P0|]. apply Rmult_le_pos; [lra|]. left; apply exp_pos. }
    lra. }
  assert (INR M1 <= INR (M + 2)) by (apply le_INR; lia). lra.
Qed.
Print Assumptions C141_unbiased_refuted.

(** Unit weights (Z = 1): the announced series averages to 1, the returned one
    to at least M + 2. *)
Example C141_nonvacuous : forall M k, (1 <= M)%nat -> 0 < k ->
  (forall n, (1 <= n)%nat -> is_ok (truncated_series n (fun _ => 0) k) = true) /\
  average_to M k (fun n => debiased_series n (fun _ => 1) k) = 1 /\
  INR M < average_to M k (estimate k (fun _ => 0)).
Proof.
  intros M k HM Hk.
  assert (A : forall n, is_ok (truncated_series n (fun _ => 0) k) = true).
  { intros n. destruct (C27_unit_weights_refuted n k) as [r [E _]]. rewrite E. reflexivity. }
  assert (RA : forall i, running_average (fun _ => 1) i = 1).
  { intros i; unfold running_average. rewrite rsum_const, Rmult_1_r. field. apply Rgt_not_eq, lt_0_INR; lia. }
  split; [intros; apply A|]. split; [rewrite C141_announced_series_unbiased; apply RA|].
  rewrite (average_ext M k _ (fun n => 1 + INR (n + 1) * Rpower (INR (n + 1)) k) HM).
  2:{ intros n Hn. unfold estimate. destruct (C27_unit_weights_refuted n k) as [r [E [_ V]]]. rewrite E, V. ring. }
  unfold average_to.
  assert (S1 : 0 <= rsum M (fun i => stop_prob k (i + 1) * (1 + INR (i + 1 + 1) * Rpower (INR (i + 1 + 1)) k))).
  { apply rsum_nonneg. intros i Hi. pose proof (stop_prob_bounds k (i + 1) Hk ltac:(lia)) as [P0 _].
    apply Rmult_le_pos; [exact P0|]. pose proof (exp_pos (k * ln (INR (i + 1 + 1)))) as Q. fold (Rpower (INR (i + 1 + 1)) k) in Q.
    pose proof (pos_INR (i + 1 + 1)). nra. }
  pose proof (pow_cancel k (M + 1) ltac:(lia)) as E. pose proof (exp_pos (- k * ln (INR (M + 1)))) as Q.
  fold (Rpower (INR (M + 1)) (- k)) in Q.
  assert (T : Rpower (INR (M + 1)) (- k) * (1 + INR (M + 1) * Rpower (INR (M + 1)) k)
     = Rpower (INR (M + 1)) (- k) + INR (M + 1)).
  { replace (Rpower (INR (M + 1)) (- k) * (1 + INR (M + 1) * Rpower (INR (M + 1)) k))
      with (Rpower (INR (M + 1)) (- k) + INR (M + 1) * (Rpower (INR (M + 1)) (- k) * Rpower (INR (M + 1)) k)) by ring.
    rewrite E. ring. }
  rewrite T. assert (INR M < INR (M + 1)) by (apply lt_INR; lia). lra.
Qed.
