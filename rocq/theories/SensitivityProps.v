(** C196: what the flows do when a parameter moves; C197: which parameter
    settings give the same flows. *)
From Coq Require Import List ZArith Lia Bool Arith Reals Lra Psatz.
From Verif Require Import Base RealBase ProbUtils SIM SIMProps Sensitivity.
Import ListNotations.
Open Scope R_scope.

(** ---- sums --------------------------------------------------------------------- *)

Lemma rsum2_pos : forall n m f, (0 < n)%nat -> (0 < m)%nat ->
  (forall i j, (i < n)%nat -> (j < m)%nat -> 0 < f i j) -> 0 < rsum2 n m f.
Proof. intros n m f Hn Hm H. apply rsum_pos; [exact Hn|]. intros i Hi. apply rsum_pos; [exact Hm|]. auto. Qed.

Lemma rsum2_le : forall n m f g, (forall i j, (i < n)%nat -> (j < m)%nat -> f i j <= g i j) -> rsum2 n m f <= rsum2 n m g.
Proof. intros n m f g H. apply rsum_le; intros i Hi. apply rsum_le; auto. Qed.

Lemma rsum2_scal_r : forall n m f a, rsum2 n m (fun i j => f i j * a) = rsum2 n m f * a.
Proof.
  intros. rewrite (rsum2_ext n m _ (fun i j => a * f i j)) by (intros; ring). rewrite rsum2_scal. ring.
Qed.

Lemma rsum2_term_le : forall n m f i j, (forall i j, (i < n)%nat -> (j < m)%nat -> 0 <= f i j) ->
  (i < n)%nat -> (j < m)%nat -> f i j <= rsum2 n m f.
Proof.
  intros n m f i j H Hi Hj. apply Rle_trans with (rsum m (fun j => f i j)).
  - apply (rsum_term_le m (fun j => f i j)); auto.
  - apply (rsum_term_le n (fun i => rsum m (fun j => f i j))); [|exact Hi].
    intros k Hk. apply rsum_nonneg; auto.
Qed.

Lemma rsum2_one : forall m f, rsum2 1 m f = rsum m (fun j => f 0%nat j).
Proof. intros. unfold rsum2. cbn [rsum]. ring. Qed.

(** the sum over pairs of cells behind the covariance inequality *)
Lemma pair_sum : forall n m (w c r : mat),
  rsum2 n m (fun i j => rsum2 n m (fun k l => w i j * w k l * ((c i j - c k l) * (r i j - r k l)))) =
  2 * (rsum2 n m (fun i j => w i j * (c i j * r i j)) * rsum2 n m w
       - rsum2 n m (fun i j => w i j * c i j) * rsum2 n m (fun i j => w i j * r i j)).
Proof.
  intros n m w c r.
  set (W := rsum2 n m w). set (C := rsum2 n m (fun i j => w i j * c i j)).
  set (Q := rsum2 n m (fun i j => w i j * r i j)). set (P := rsum2 n m (fun i j => w i j * (c i j * r i j))).
  rewrite (rsum2_ext n m _ (fun i j => w i j * (c i j * r i j) * W + w i j * P
     + ((- (w i j * c i j)) * Q + (- (w i j * r i j)) * C))).
  - rewrite !rsum2_add, !rsum2_scal_r.
    rewrite (rsum2_ext n m (fun i j => - (w i j * c i j)) (fun i j => -1 * (w i j * c i j))) by (intros; ring).
    rewrite (rsum2_ext n m (fun i j => - (w i j * r i j)) (fun i j => -1 * (w i j * r i j))) by (intros; ring).
    rewrite !rsum2_scal. fold W C Q P. ring.
  - intros i j _ _.
    rewrite (rsum2_ext n m _ (fun k l => (w i j * (c i j * r i j)) * w k l + w i j * (w k l * (c k l * r k l))
      + ((- (w i j * c i j)) * (w k l * r k l) + (- (w i j * r i j)) * (w k l * c k l)))) by (intros; ring).
    rewrite !rsum2_add, !rsum2_scal. fold W C Q P. ring.
Qed.

(** positive weights; [c] and [r] move in opposite directions *)
Lemma covariance_le : forall n m (w c r : mat),
  (forall i j, (i < n)%nat -> (j < m)%nat -> 0 <= w i j) ->
  (forall i j k l, (i < n)%nat -> (j < m)%nat -> (k < n)%nat -> (l < m)%nat ->
     (c i j - c k l) * (r i j - r k l) <= 0) ->
  rsum2 n m (fun i j => w i j * (c i j * r i j)) * rsum2 n m w
    <= rsum2 n m (fun i j => w i j * c i j) * rsum2 n m (fun i j => w i j * r i j).
Proof.
  intros n m w c r Hw H. assert (E := pair_sum n m w c r).
  assert (L : 0 <= rsum2 n m (fun i j => rsum2 n m (fun k l => - (w i j * w k l * ((c i j - c k l) * (r i j - r k l)))))).
  { apply rsum2_nonneg; intros i j Hi Hj. apply rsum2_nonneg; intros k l Hk Hl.
    assert (0 <= w i j) by auto. assert (0 <= w k l) by auto. assert (X := H i j k l Hi Hj Hk Hl).
    assert (0 <= w i j * w k l) by (apply Rmult_le_pos; assumption). nra. }
  rewrite (rsum2_ext n m _ (fun i j => -1 * rsum2 n m (fun k l => w i j * w k l * ((c i j - c k l) * (r i j - r k l))))) in L.
  - rewrite rsum2_scal, E in L. lra.
  - intros i j _ _. rewrite <- rsum2_scal. apply rsum2_ext; intros; ring.
Qed.

Lemma covariance_lt : forall n m (w c r : mat) i0 j0 k0 l0,
  (forall i j, (i < n)%nat -> (j < m)%nat -> 0 < w i j) ->
  (forall i j k l, (i < n)%nat -> (j < m)%nat -> (k < n)%nat -> (l < m)%nat ->
     (c i j - c k l) * (r i j - r k l) <= 0) ->
  (i0 < n)%nat -> (j0 < m)%nat -> (k0 < n)%nat -> (l0 < m)%nat ->
  (c i0 j0 - c k0 l0) * (r i0 j0 - r k0 l0) < 0 ->
  rsum2 n m (fun i j => w i j * (c i j * r i j)) * rsum2 n m w
    < rsum2 n m (fun i j => w i j * c i j) * rsum2 n m (fun i j => w i j * r i j).
Proof.
  intros n m w c r i0 j0 k0 l0 Hw H Hi0 Hj0 Hk0 Hl0 HS. assert (E := pair_sum n m w c r).
  assert (N : forall i j k l, (i < n)%nat -> (j < m)%nat -> (k < n)%nat -> (l < m)%nat ->
     0 <= - (w i j * w k l * ((c i j - c k l) * (r i j - r k l)))).
  { intros i j k l Hi Hj Hk Hl. assert (0 < w i j) by auto. assert (0 < w k l) by auto.
    assert (X := H i j k l Hi Hj Hk Hl). assert (0 < w i j * w k l) by (apply Rmult_lt_0_compat; assumption). nra. }
  assert (P : 0 < rsum2 n m (fun i j => rsum2 n m (fun k l => - (w i j * w k l * ((c i j - c k l) * (r i j - r k l)))))).
  { apply Rlt_le_trans with (rsum2 n m (fun k l => - (w i0 j0 * w k l * ((c i0 j0 - c k l) * (r i0 j0 - r k l))))).
    - apply Rlt_le_trans with (- (w i0 j0 * w k0 l0 * ((c i0 j0 - c k0 l0) * (r i0 j0 - r k0 l0)))).
      + assert (0 < w i0 j0) by auto. assert (0 < w k0 l0) by auto.
        assert (0 < w i0 j0 * w k0 l0) by (apply Rmult_lt_0_compat; assumption). nra.
      + apply (rsum2_term_le n m (fun k l => - (w i0 j0 * w k l * ((c i0 j0 - c k l) * (r i0 j0 - r k l))))); auto.
    - apply (rsum2_term_le n m (fun i j => rsum2 n m (fun k l => - (w i j * w k l * ((c i j - c k l) * (r i j - r k l)))))); auto.
      intros i j Hi Hj. apply rsum2_nonneg; intros. apply N; auto. }
  rewrite (rsum2_ext n m _ (fun i j => -1 * rsum2 n m (fun k l => w i j * w k l * ((c i j - c k l) * (r i j - r k l))))) in P.
  - rewrite rsum2_scal, E in P. lra.
  - intros i j _ _. rewrite <- rsum2_scal. apply rsum2_ext; intros; ring.
Qed.

(** ---- shares ----------------------------------------------------------------------- *)

(** a total [exp K] shared over the cells in proportion to [exp (u i j)] *)
Definition share (I J : nat) (u : mat) (K : R) : mat := fun i j => exp (u i j - lse2 I J u + K).

Lemma share_val : forall I J u K i j, (0 < I)%nat -> (0 < J)%nat ->
  share I J u K i j = exp K * exp (u i j) / rsum2 I J (fun i j => exp (u i j)).
Proof.
  intros I J u K i j HI HJ. unfold share. replace (u i j - lse2 I J u + K) with (K + u i j + - lse2 I J u) by ring.
  rewrite !exp_plus, exp_Ropp, exp_lse2 by assumption. reflexivity.
Qed.

Lemma share_total : forall I J u K, (0 < I)%nat -> (0 < J)%nat -> rsum2 I J (share I J u K) = exp K.
Proof.
  intros I J u K HI HJ. assert (P := exp_sum2_pos I J u HI HJ).
  rewrite (rsum2_ext I J _ (fun i j => (exp K / rsum2 I J (fun i j => exp (u i j))) * exp (u i j))).
  - rewrite rsum2_scal. field. lra.
  - intros. rewrite share_val by assumption. field. lra.
Qed.

Lemma tc_share : forall I J c T x al be i j,
  tc_flow I J c T x al be i j = share I J (log_utility c x al be) (ln T) i j.
Proof. intros. unfold tc_flow, tc_log_flow, share. reflexivity. Qed.

Lemma pc_share : forall J O c T x al be i j,
  pc_flow J O c T x al be i j = share 1 J (fun _ j => log_utility c x al be i j) (ln (O i) + ln T) 0%nat j.
Proof.
  intros. unfold pc_flow, pc_log_flow, share. f_equal.
  assert (E : lse2 1 J (fun _ j => log_utility c x al be i j) = lse J (fun j' => log_utility c x al be i j')).
  { unfold lse2, lse. rewrite rsum2_one. reflexivity. }
  rewrite E. ring.
Qed.

(** the mean of [g] under the shares moves against [r] when the weights are
    multiplied by [exp r] *)
Lemma share_mean_le : forall I J (u r g : mat) K, (0 < I)%nat -> (0 < J)%nat ->
  (forall i j k l, (i < I)%nat -> (j < J)%nat -> (k < I)%nat -> (l < J)%nat ->
     (g i j - g k l) * (r i j - r k l) <= 0) ->
  rsum2 I J (fun i j => share I J (fun i j => u i j + r i j) K i j * g i j)
    <= rsum2 I J (fun i j => share I J u K i j * g i j).
Proof.
  intros I J u r g K HI HJ H.
  assert (P := exp_sum2_pos I J u HI HJ). assert (P' := exp_sum2_pos I J (fun i j => u i j + r i j) HI HJ).
  assert (EK := exp_pos K). cbv beta in P'.
  set (Z := rsum2 I J (fun i j => exp (u i j))) in *. set (Z' := rsum2 I J (fun i j => exp (u i j + r i j))) in *.
  assert (EZ' : Z' = rsum2 I J (fun i j => exp (u i j) * exp (r i j))).
  { apply rsum2_ext; intros. apply exp_plus. }
  rewrite (rsum2_ext I J _ (fun i j => exp K / Z' * (exp (u i j) * (g i j * exp (r i j))))).
  2:{ intros. rewrite share_val by assumption. fold Z'. rewrite exp_plus. field. lra. }
  rewrite (rsum2_ext I J (fun i j => share I J u K i j * g i j) (fun i j => exp K / Z * (exp (u i j) * g i j))).
  2:{ intros. rewrite share_val by assumption. fold Z. field. lra. }
  rewrite !rsum2_scal.
  assert (C := covariance_le I J (fun i j => exp (u i j)) g (fun i j => exp (r i j))
     (fun i j _ _ => Rlt_le _ _ (exp_pos (u i j)))).
  cbv beta in C. fold Z in C. rewrite <- EZ' in C.
  set (A := rsum2 I J (fun i j => exp (u i j) * (g i j * exp (r i j)))) in *.
  set (B := rsum2 I J (fun i j => exp (u i j) * g i j)) in *.
  assert (D : A * Z <= B * Z').
  { apply C. intros i j k l Hi Hj Hk Hl. specialize (H i j k l Hi Hj Hk Hl). cbv beta.
    destruct (Rtotal_order (r i j) (r k l)) as [L|[E|L]].
    - assert (L2 := L). apply exp_increasing in L2. nra.
    - rewrite E. lra.
    - assert (L2 := L). apply exp_increasing in L2. nra. }
  apply Rmult_le_reg_r with (Z * Z'); [apply Rmult_lt_0_compat; assumption|].
  replace (exp K / Z' * A * (Z * Z')) with (exp K * (A * Z)) by (field; lra).
  replace (exp K / Z * B * (Z * Z')) with (exp K * (B * Z')) by (field; lra).
  apply Rmult_le_compat_l; lra.
Qed.

Lemma share_mean_lt : forall I J (u r g : mat) K i0 j0 k0 l0, (0 < I)%nat -> (0 < J)%nat ->
  (forall i j k l, (i < I)%nat -> (j < J)%nat -> (k < I)%nat -> (l < J)%nat ->
     (g i j - g k l) * (r i j - r k l) <= 0) ->
  (i0 < I)%nat -> (j0 < J)%nat -> (k0 < I)%nat -> (l0 < J)%nat ->
  (g i0 j0 - g k0 l0) * (r i0 j0 - r k0 l0) < 0 ->
  rsum2 I J (fun i j => share I J (fun i j => u i j + r i j) K i j * g i j)
    < rsum2 I J (fun i j => share I J u K i j * g i j).
Proof.
  intros I J u r g K i0 j0 k0 l0 HI HJ H Hi0 Hj0 Hk0 Hl0 HS.
  assert (P := exp_sum2_pos I J u HI HJ). assert (P' := exp_sum2_pos I J (fun i j => u i j + r i j) HI HJ).
  assert (EK := exp_pos K). cbv beta in P'.
  set (Z := rsum2 I J (fun i j => exp (u i j))) in *. set (Z' := rsum2 I J (fun i j => exp (u i j + r i j))) in *.
  assert (EZ' : Z' = rsum2 I J (fun i j => exp (u i j) * exp (r i j))).
  { apply rsum2_ext; intros. apply exp_plus. }
  rewrite (rsum2_ext I J _ (fun i j => exp K / Z' * (exp (u i j) * (g i j * exp (r i j))))).
  2:{ intros. rewrite share_val by assumption. fold Z'. rewrite exp_plus. field. lra. }
  rewrite (rsum2_ext I J (fun i j => share I J u K i j * g i j) (fun i j => exp K / Z * (exp (u i j) * g i j))).
  2:{ intros. rewrite share_val by assumption. fold Z. field. lra. }
  rewrite !rsum2_scal.
  assert (C := covariance_lt I J (fun i j => exp (u i j)) g (fun i j => exp (r i j)) i0 j0 k0 l0
     (fun i j _ _ => exp_pos (u i j))).
  cbv beta in C. fold Z in C. rewrite <- EZ' in C.
  set (A := rsum2 I J (fun i j => exp (u i j) * (g i j * exp (r i j)))) in *.
  set (B := rsum2 I J (fun i j => exp (u i j) * g i j)) in *.
  assert (D : A * Z < B * Z').
  { apply C; auto.
    - intros i j k l Hi Hj Hk Hl. specialize (H i j k l Hi Hj Hk Hl). cbv beta.
      destruct (Rtotal_order (r i j) (r k l)) as [L|[E|L]].
      + assert (L2 := L). apply exp_increasing in L2. nra.
      + rewrite E. lra.
      + assert (L2 := L). apply exp_increasing in L2. nra.
    - destruct (Rtotal_order (r i0 j0) (r k0 l0)) as [L|[E|L]].
      + assert (L2 := L). apply exp_increasing in L2. nra.
      + rewrite E in HS. lra.
      + assert (L2 := L). apply exp_increasing in L2. nra. }
  apply Rmult_lt_reg_r with (Z * Z'); [apply Rmult_lt_0_compat; assumption|].
  replace (exp K / Z' * A * (Z * Z')) with (exp K * (A * Z)) by (field; lra).
  replace (exp K / Z * B * (Z * Z')) with (exp K * (B * Z')) by (field; lra).
  apply Rmult_lt_compat_l; lra.
Qed.

Lemma share_ext : forall I J u v K i j, (i < I)%nat -> (j < J)%nat ->
  (forall i j, (i < I)%nat -> (j < J)%nat -> u i j = v i j) ->
  share I J u K i j = share I J v K i j.
Proof.
  intros I J u v K i j Hi Hj H. unfold share. rewrite (H i j) by assumption.
  assert (E : lse2 I J u = lse2 I J v) by (unfold lse2; f_equal; apply rsum2_ext; intros; f_equal; auto).
  rewrite E. reflexivity.
Qed.

(** ---- C196: directions --------------------------------------------------------- *)

Lemma opposed_le : forall a p q, a <= 0 -> (p - q) * (a * p - a * q) <= 0.
Proof.
  intros a p q H. replace ((p - q) * (a * p - a * q)) with (a * Rsqr (p - q)) by (unfold Rsqr; ring).
  assert (X := Rle_0_sqr (p - q)). nra.
Qed.
Lemma opposed_lt : forall a p q, a < 0 -> p <> q -> (p - q) * (a * p - a * q) < 0.
Proof.
  intros a p q H N. replace ((p - q) * (a * p - a * q)) with (a * Rsqr (p - q)) by (unfold Rsqr; ring).
  assert (X : 0 < Rsqr (p - q)) by (apply Rlt_0_sqr; lra). nra.
Qed.
Lemma opposed_le' : forall a p q, 0 <= a -> (- p - - q) * (a * p - a * q) <= 0.
Proof. intros a p q H. assert (X := opposed_le (- a) p q). lra. Qed.
Lemma opposed_lt' : forall a p q, 0 < a -> p <> q -> (- p - - q) * (a * p - a * q) < 0.
Proof. intros a p q H N. assert (X := opposed_lt (- a) p q). lra. Qed.

Lemma utility_beta : forall c x al b1 b2 i j,
  log_utility c x al b2 i j = log_utility c x al b1 i j + (b1 - b2) * c i j.
Proof. intros. unfold log_utility. ring. Qed.
Lemma utility_alpha : forall c x a1 a2 be i j,
  log_utility c x a2 be i j = log_utility c x a1 be i j + (a2 - a1) * x j.
Proof. intros. unfold log_utility. ring. Qed.

(** Totally constrained: a larger cost-sensitivity [beta] never makes the trips
    cost more in total; it makes them cost less unless all costs are equal. *)
Theorem C196_total_cost_falls : forall I J c T x al b1 b2, (0 < I)%nat -> (0 < J)%nat -> b1 <= b2 ->
  rsum2 I J (fun i j => tc_flow I J c T x al b2 i j * c i j)
    <= rsum2 I J (fun i j => tc_flow I J c T x al b1 i j * c i j) /\
  (b1 < b2 -> forall i j k l, (i < I)%nat -> (j < J)%nat -> (k < I)%nat -> (l < J)%nat -> c i j <> c k l ->
   rsum2 I J (fun i j => tc_flow I J c T x al b2 i j * c i j)
    < rsum2 I J (fun i j => tc_flow I J c T x al b1 i j * c i j)).
Proof.
  intros I J c T x al b1 b2 HI HJ Hb.
  rewrite (rsum2_ext I J (fun i j => tc_flow I J c T x al b2 i j * c i j)
    (fun i j => share I J (fun i j => log_utility c x al b1 i j + (b1 - b2) * c i j) (ln T) i j * c i j)).
  2:{ intros i j Hi Hj. rewrite tc_share. f_equal. apply share_ext; auto. intros; apply utility_beta. }
  rewrite (rsum2_ext I J (fun i j => tc_flow I J c T x al b1 i j * c i j)
    (fun i j => share I J (log_utility c x al b1) (ln T) i j * c i j)) by (intros; rewrite tc_share; reflexivity).
  split.
  - apply (share_mean_le I J (log_utility c x al b1) (fun i j => (b1 - b2) * c i j) c); auto. intros. apply opposed_le; lra.
  - intros HS i j k l Hi Hj Hk Hl N.
    apply (share_mean_lt I J (log_utility c x al b1) (fun i j => (b1 - b2) * c i j) c (ln T) i j k l); auto.
    + intros. apply opposed_le; lra.
    + apply opposed_lt; [lra|exact N].
Qed.
Print Assumptions C196_total_cost_falls.

(** Production constrained: the same for the trips of every origin. *)
Theorem C196_cost_by_origin_falls : forall J O c T x al b1 b2 i, (0 < J)%nat -> b1 <= b2 ->
  rsum J (fun j => pc_flow J O c T x al b2 i j * c i j)
    <= rsum J (fun j => pc_flow J O c T x al b1 i j * c i j) /\
  (b1 < b2 -> forall j l, (j < J)%nat -> (l < J)%nat -> c i j <> c i l ->
   rsum J (fun j => pc_flow J O c T x al b2 i j * c i j)
    < rsum J (fun j => pc_flow J O c T x al b1 i j * c i j)).
Proof.
  intros J O c T x al b1 b2 i HJ Hb.
  rewrite <- (rsum2_one J (fun _ j => pc_flow J O c T x al b2 i j * c i j)).
  rewrite <- (rsum2_one J (fun _ j => pc_flow J O c T x al b1 i j * c i j)).
  set (K := ln (O i) + ln T). set (u := fun (_ j : nat) => log_utility c x al b1 i j).
  rewrite (rsum2_ext 1 J (fun _ j => pc_flow J O c T x al b2 i j * c i j)
    (fun k j => share 1 J (fun k j => u k j + (b1 - b2) * c i j) K k j * c i j)).
  2:{ intros k j Hk Hj. rewrite pc_share. fold K. replace k with 0%nat by lia. f_equal.
      apply share_ext; auto. intros; unfold u; apply utility_beta. }
  rewrite (rsum2_ext 1 J (fun _ j => pc_flow J O c T x al b1 i j * c i j)
    (fun k j => share 1 J u K k j * c i j)).
  2:{ intros k j Hk Hj. rewrite pc_share. fold K. replace k with 0%nat by lia. reflexivity. }
  split.
  - apply (share_mean_le 1 J u (fun _ j => (b1 - b2) * c i j) (fun _ j => c i j)); auto. intros. apply opposed_le; lra.
  - intros HS j l Hj Hl N.
    apply (share_mean_lt 1 J u (fun _ j => (b1 - b2) * c i j) (fun _ j => c i j) K 0 j 0 l); auto.
    + intros. apply opposed_le; lra.
    + apply opposed_lt; [lra|exact N].
Qed.
Print Assumptions C196_cost_by_origin_falls.

(** A larger [alpha] never lowers the mean log-attraction of the destinations
    travelled to (over all trips; over the trips of each origin), and raises it
    unless all destinations are equally attractive. *)
Theorem C196_attraction_rises : forall I J c T x a1 a2 be, (0 < I)%nat -> (0 < J)%nat -> a1 <= a2 ->
  rsum2 I J (fun i j => tc_flow I J c T x a1 be i j * x j)
    <= rsum2 I J (fun i j => tc_flow I J c T x a2 be i j * x j) /\
  (a1 < a2 -> forall j l, (j < J)%nat -> (l < J)%nat -> x j <> x l ->
   rsum2 I J (fun i j => tc_flow I J c T x a1 be i j * x j)
    < rsum2 I J (fun i j => tc_flow I J c T x a2 be i j * x j)).
Proof.
  intros I J c T x a1 a2 be HI HJ Ha.
  set (u := log_utility c x a1 be).
  assert (E2 : rsum2 I J (fun i j => tc_flow I J c T x a2 be i j * x j) =
    rsum2 I J (fun i j => share I J (fun i j => u i j + (a2 - a1) * x j) (ln T) i j * x j)).
  { apply rsum2_ext. intros i j Hi Hj. rewrite tc_share. f_equal. apply share_ext; auto. intros; apply utility_alpha. }
  assert (E1 : rsum2 I J (fun i j => tc_flow I J c T x a1 be i j * x j) =
    rsum2 I J (fun i j => share I J u (ln T) i j * x j)) by (apply rsum2_ext; intros; rewrite tc_share; reflexivity).
  rewrite E1, E2.
  assert (NE : forall r : mat, forall K, rsum2 I J (fun i j => share I J r K i j * - x j) = - rsum2 I J (fun i j => share I J r K i j * x j)).
  { intros r K. rewrite (rsum2_ext I J _ (fun i j => -1 * (share I J r K i j * x j))) by (intros; ring).
    rewrite rsum2_scal. ring. }
  split.
  - assert (L := share_mean_le I J u (fun i j => (a2 - a1) * x j) (fun _ j => - x j) (ln T) HI HJ).
    rewrite !NE in L. cut (- rsum2 I J (fun i j => share I J (fun i j => u i j + (a2 - a1) * x j) (ln T) i j * x j)
      <= - rsum2 I J (fun i j => share I J u (ln T) i j * x j)); [lra|]. apply L. intros. apply opposed_le'; lra.
  - intros HS j l Hj Hl N.
    assert (L := share_mean_lt I J u (fun i j => (a2 - a1) * x j) (fun _ j => - x j) (ln T) 0 j 0 l HI HJ).
    rewrite !NE in L. cut (- rsum2 I J (fun i j => share I J (fun i j => u i j + (a2 - a1) * x j) (ln T) i j * x j)
      < - rsum2 I J (fun i j => share I J u (ln T) i j * x j)); [lra|]. apply L; auto.
    + intros. apply opposed_le'; lra.
    + apply opposed_lt'; [lra|exact N].
Qed.
Print Assumptions C196_attraction_rises.

(** ---- one utility moves: its own share rises, the others fall ------------------------- *)

(** the utilities of the cells in [A] rise by [d >= 0] *)
Lemma share_raise : forall I J (u : mat) (A : nat -> nat -> bool) d K i j, (0 < I)%nat -> (0 < J)%nat -> 0 <= d ->
  let v := share I J (fun i j => u i j + (if A i j then d else 0)) K i j in
  (A i j = true -> share I J u K i j <= v <= exp d * share I J u K i j) /\
  (A i j = false -> exp (- d) * share I J u K i j <= v <= share I J u K i j).
Proof.
  intros I J u A d K i j HI HJ Hd v. unfold v. clear v.
  assert (P := exp_sum2_pos I J u HI HJ).
  assert (P' := exp_sum2_pos I J (fun i j => u i j + (if A i j then d else 0)) HI HJ). cbv beta in P'.
  assert (EK := exp_pos K). assert (Eu := exp_pos (u i j)). assert (Ed := exp_pos d).
  assert (D1 : 1 <= exp d) by (destruct Hd as [Hd| <-]; [rewrite <- exp_0; left; apply exp_increasing; exact Hd|rewrite exp_0; lra]).
  rewrite !share_val by assumption.
  set (Z := rsum2 I J (fun i j => exp (u i j))) in *.
  set (Z' := rsum2 I J (fun i j => exp (u i j + (if A i j then d else 0)))) in *.
  assert (L1 : Z <= Z').
  { apply rsum2_le; intros k l _ _. rewrite exp_plus. assert (X := exp_pos (u k l)).
    destruct (A k l); [nra|rewrite exp_0; lra]. }
  assert (L2 : Z' <= exp d * Z).
  { unfold Z. rewrite <- rsum2_scal. apply rsum2_le; intros k l _ _. rewrite exp_plus. assert (X := exp_pos (u k l)).
    destruct (A k l); [lra|rewrite exp_0; nra]. }
  assert (KE : 0 < exp K * exp (u i j)) by (apply Rmult_lt_0_compat; assumption).
  set (q := exp K * exp (u i j)) in *.
  assert (IV : / Z' <= / Z) by (apply Rinv_le_contravar; lra).
  assert (IV2 : / (exp d * Z) <= / Z') by (apply Rinv_le_contravar; lra).
  rewrite Rinv_mult_distr in IV2 by lra.
  assert (PI := Rinv_0_lt_compat Z P). assert (PI' := Rinv_0_lt_compat Z' P'). assert (PId := Rinv_0_lt_compat (exp d) Ed).
  split; intros HA; rewrite HA; rewrite exp_plus.
  - replace (exp K * (exp (u i j) * exp d) / Z') with (q * (exp d * / Z')) by (unfold q; field; lra).
    unfold Rdiv. split.
    + apply Rmult_le_compat_l; [lra|]. apply Rmult_le_reg_l with (/ exp d); [exact PId|].
      replace (/ exp d * (exp d * / Z')) with (/ Z') by (field; lra). exact IV2.
    + replace (exp d * (q * / Z)) with (q * (exp d * / Z)) by ring.
      apply Rmult_le_compat_l; [lra|]. apply Rmult_le_compat_l; lra.
  - replace (exp K * (exp (u i j) * exp 0) / Z') with (q * / Z') by (unfold q; rewrite exp_0; field; lra).
    unfold Rdiv. rewrite exp_Ropp. split.
    + replace (/ exp d * (q * / Z)) with (q * (/ exp d * / Z)) by ring. apply Rmult_le_compat_l; lra.
    + apply Rmult_le_compat_l; lra.
Qed.

(** A destination becomes more attractive ([alpha >= 0]): from no origin does the
    flow to it fall, and to no other destination does a flow rise. *)
Theorem C196_attractive_destination : forall I J O c T x al be k d i j,
  (0 < I)%nat -> (0 < J)%nat -> 0 <= al -> 0 <= d -> (i < I)%nat -> (j < J)%nat ->
  let x' := fun j => x j + (if Nat.eqb j k then d else 0) in
  (j = k -> tc_flow I J c T x al be i j <= tc_flow I J c T x' al be i j /\
            pc_flow J O c T x al be i j <= pc_flow J O c T x' al be i j) /\
  (j <> k -> tc_flow I J c T x' al be i j <= tc_flow I J c T x al be i j /\
             pc_flow J O c T x' al be i j <= pc_flow J O c T x al be i j).
Proof.
  intros I J O c T x al be k d i j HI HJ Hal Hd Hi Hj x'.
  assert (Had : 0 <= al * d) by (apply Rmult_le_pos; assumption).
  assert (H1 := share_raise I J (log_utility c x al be) (fun _ j => Nat.eqb j k) (al * d) (ln T) i j HI HJ Had).
  assert (H2 := share_raise 1 J (fun _ j => log_utility c x al be i j) (fun _ j => Nat.eqb j k) (al * d) (ln (O i) + ln T) 0 j
     Nat.lt_0_1 HJ Had).
  cbv zeta beta in H1, H2.
  assert (E : forall i j, log_utility c x' al be i j = log_utility c x al be i j + (if Nat.eqb j k then al * d else 0)).
  { intros. unfold log_utility, x'. destruct (Nat.eqb j0 k); ring. }
  rewrite <- (share_ext I J (log_utility c x' al be) (fun i j => log_utility c x al be i j + (if Nat.eqb j k then al * d else 0))) in H1 by (auto; intros; apply E).
  rewrite <- (share_ext 1 J (fun _ j => log_utility c x' al be i j) (fun _ j => log_utility c x al be i j + (if Nat.eqb j k then al * d else 0))) in H2 by (auto; intros; apply E).
  rewrite !tc_share, !pc_share. destruct (Nat.eqb_spec j k) as [J1|J1]; split; intros; try contradiction.
  - split; [apply H1|apply H2]; reflexivity.
  - split; [apply H1|apply H2]; reflexivity.
Qed.
Print Assumptions C196_attractive_destination.

(** One journey becomes dearer ([beta >= 0]): the flow on it does not rise; in the
    totally constrained model no other flow falls; in the production constrained
    model no other flow of that origin falls and the other origins keep theirs. *)
Theorem C196_dearer_journey : forall I J O c T x al be k l d i j,
  (0 < I)%nat -> (0 < J)%nat -> 0 <= be -> 0 <= d -> (i < I)%nat -> (j < J)%nat -> (k < I)%nat -> (l < J)%nat ->
  let c' := fun i j => c i j + (if Nat.eqb i k && Nat.eqb j l then d else 0) in
  (i = k -> j = l -> tc_flow I J c' T x al be i j <= tc_flow I J c T x al be i j /\
                     pc_flow J O c' T x al be i j <= pc_flow J O c T x al be i j) /\
  (i <> k \/ j <> l -> tc_flow I J c T x al be i j <= tc_flow I J c' T x al be i j /\
                       pc_flow J O c T x al be i j <= pc_flow J O c' T x al be i j) /\
  (i <> k -> pc_flow J O c' T x al be i j = pc_flow J O c T x al be i j).
Proof.
  intros I J O c T x al be k l d i j HI HJ Hbe Hd Hi Hj Hk Hl c'.
  assert (Hbd : 0 <= be * d) by (apply Rmult_le_pos; assumption).
  assert (E : forall i j, log_utility c x al be i j = log_utility c' x al be i j + (if Nat.eqb i k && Nat.eqb j l then be * d else 0)).
  { intros. unfold log_utility, c'. destruct (Nat.eqb i0 k && Nat.eqb j0 l); ring. }
  assert (H1 := share_raise I J (log_utility c' x al be) (fun i j => Nat.eqb i k && Nat.eqb j l) (be * d) (ln T) i j HI HJ Hbd).
  assert (H2 := share_raise 1 J (fun _ j => log_utility c' x al be i j) (fun _ j => Nat.eqb i k && Nat.eqb j l) (be * d) (ln (O i) + ln T) 0 j
     Nat.lt_0_1 HJ Hbd).
  cbv zeta beta in H1, H2.
  rewrite <- (share_ext I J (log_utility c x al be) (fun i j => log_utility c' x al be i j + (if Nat.eqb i k && Nat.eqb j l then be * d else 0))) in H1 by (auto; intros; apply E).
  rewrite <- (share_ext 1 J (fun _ j => log_utility c x al be i j) (fun _ j => log_utility c' x al be i j + (if Nat.eqb i k && Nat.eqb j l then be * d else 0))) in H2 by (auto; intros; apply E).
  rewrite !tc_share, !pc_share. repeat split.
  - intros. subst k l. rewrite !Nat.eqb_refl in H1. apply H1. reflexivity.
  - intros. subst k l. rewrite !Nat.eqb_refl in H2. apply H2. reflexivity.
  - assert (B : (Nat.eqb i k && Nat.eqb j l)%bool = false).
    { apply andb_false_iff. destruct H; [left|right]; apply Nat.eqb_neq; assumption. }
    rewrite B in H1. apply H1. reflexivity.
  - assert (B : (Nat.eqb i k && Nat.eqb j l)%bool = false).
    { apply andb_false_iff. destruct H; [left|right]; apply Nat.eqb_neq; assumption. }
    rewrite B in H2. apply H2. reflexivity.
  - intros N. apply share_ext; auto. intros i0 j0 _ _. rewrite E.
    apply Nat.eqb_neq in N. rewrite N. cbn. ring.
Qed.
Print Assumptions C196_dearer_journey.

(** ---- C196: the derivatives ------------------------------------------------------- *)

Lemma dl_lse2 : forall I J (u : R -> mat) (du : mat) t, (0 < I)%nat -> (0 < J)%nat ->
  (forall i j, (i < I)%nat -> (j < J)%nat -> derivable_pt_lim (fun s => u s i j) t (du i j)) ->
  derivable_pt_lim (fun s => lse2 I J (u s)) t
    (rsum2 I J (fun i j => exp (u t i j) * du i j) / rsum2 I J (fun i j => exp (u t i j))).
Proof.
  intros I J u du t HI HJ H. assert (P := exp_sum2_pos I J (u t) HI HJ).
  eapply dl_ext; [reflexivity| |].
  2:{ unfold lse2. apply (dl_ln (fun s => rsum2 I J (fun i j => exp (u s i j)))); [exact P|].
      unfold rsum2. apply (dl_rsum I (fun i s => rsum J (fun j => exp (u s i j)))). intros i Hi.
      apply (dl_rsum J (fun j s => exp (u s i j))). intros j Hj.
      apply (dl_exp (fun s => u s i j)). apply H; assumption. }
  unfold rsum2 at 2. cbv beta. field. apply Rgt_not_eq. exact P.
Qed.

Lemma dl_share : forall I J (u : R -> mat) (du : mat) K dK t i j, (i < I)%nat -> (j < J)%nat ->
  (forall i j, (i < I)%nat -> (j < J)%nat -> derivable_pt_lim (fun s => u s i j) t (du i j)) ->
  derivable_pt_lim K t dK ->
  let f := share I J (u t) (K t) in
  derivable_pt_lim (fun s => share I J (u s) (K s) i j) t
    (f i j * (du i j - rsum2 I J (fun i j => f i j * du i j) / rsum2 I J f + dK)).
Proof.
  intros I J u du K dK t i j Hi Hj H HK f.
  assert (HI : (0 < I)%nat) by lia. assert (HJ : (0 < J)%nat) by lia.
  assert (P := exp_sum2_pos I J (u t) HI HJ). assert (EK := exp_pos (K t)).
  assert (ET : rsum2 I J f = exp (K t)) by (apply share_total; assumption).
  assert (EM : rsum2 I J (fun i j => f i j * du i j) / rsum2 I J f =
     rsum2 I J (fun i j => exp (u t i j) * du i j) / rsum2 I J (fun i j => exp (u t i j))).
  { rewrite ET. set (Z := rsum2 I J (fun i j => exp (u t i j))) in *.
    rewrite (rsum2_ext I J _ (fun i j => exp (K t) / Z * (exp (u t i j) * du i j))).
    - rewrite rsum2_scal. field. lra.
    - intros. unfold f. rewrite share_val by assumption. fold Z. field. lra. }
  rewrite EM. unfold share.
  apply (dl_exp (fun s => u s i j - lse2 I J (u s) + K s)).
  apply (dl_plus (fun s => u s i j - lse2 I J (u s)) K); [|exact HK].
  exact (derivable_pt_lim_minus (fun s => u s i j) (fun s => lse2 I J (u s)) t _ _ (H i j Hi Hj) (dl_lse2 I J u du t HI HJ H)).
Qed.

Lemma dl_share_at : forall I J (u : R -> mat) (du f : mat) K dK t i j, (i < I)%nat -> (j < J)%nat ->
  (forall i j, (i < I)%nat -> (j < J)%nat -> derivable_pt_lim (fun s => u s i j) t (du i j)) ->
  derivable_pt_lim K t dK ->
  (forall i j, (i < I)%nat -> (j < J)%nat -> share I J (u t) (K t) i j = f i j) ->
  derivable_pt_lim (fun s => share I J (u s) (K s) i j) t
    (f i j * (du i j - rsum2 I J (fun i j => f i j * du i j) / rsum2 I J f + dK)).
Proof.
  intros I J u du f K dK t i j Hi Hj H HK E.
  eapply dl_ext; [reflexivity| |exact (dl_share I J u du K dK t i j Hi Hj H HK)].
  cbv beta zeta. rewrite (E i j Hi Hj).
  assert (E1 : rsum2 I J (share I J (u t) (K t)) = rsum2 I J f) by (apply rsum2_ext; intros; apply E; assumption).
  assert (E2 : rsum2 I J (fun i j => share I J (u t) (K t) i j * du i j) = rsum2 I J (fun i j => f i j * du i j))
    by (apply rsum2_ext; intros; rewrite E by assumption; reflexivity).
  rewrite E1, E2. reflexivity.
Qed.

Lemma rsum2_col : forall I J k (g : mat), (k < J)%nat ->
  rsum2 I J (fun i j => g i j * (if Nat.eqb j k then 1 else 0)) = rsum I (fun i => g i k).
Proof. intros. unfold rsum2. apply rsum_ext; intros i _. apply (rsum_indicator J k (g i)); assumption. Qed.

Lemma rsum2_cell : forall I J k l (g : mat), (k < I)%nat -> (l < J)%nat ->
  rsum2 I J (fun i j => g i j * (if Nat.eqb i k && Nat.eqb j l then 1 else 0)) = g k l.
Proof.
  intros I J k l g Hk Hl. unfold rsum2.
  rewrite (rsum_ext I _ (fun i => if Nat.eqb i k then g i l else 0)).
  - apply (rsum_delta I k (fun i => g i l)); assumption.
  - intros i _. destruct (Nat.eqb i k); cbn [andb].
    + apply (rsum_indicator J l (g i)); assumption.
    + apply rsum_0; intros; ring.
Qed.

Lemma dl_affine : forall a b t, derivable_pt_lim (fun s => a * s + b) t a.
Proof.
  intros a b t. apply (dl_ext (fun s => a * s + b) _ t (a * 1 + 0)); [reflexivity|ring|].
  apply (dl_plus (fun s => a * s) (fun _ => b)); [apply (dl_scal (fun s => s)), dl_id|apply dl_const].
Qed.

(** the utility of one cell as a function of one parameter *)
Lemma du_alpha : forall c x al be i j, derivable_pt_lim (fun a => log_utility c x a be i j) al (x j).
Proof.
  intros. apply (dl_ext (fun a => x j * a + - (be * c i j)) _ al (x j)); [intro; unfold log_utility; ring|reflexivity|apply dl_affine].
Qed.
Lemma du_beta : forall c x al be i j, derivable_pt_lim (fun b => log_utility c x al b i j) be (- c i j).
Proof.
  intros. apply (dl_ext (fun b => - c i j * b + al * x j) _ be (- c i j)); [intro; unfold log_utility; ring|reflexivity|apply dl_affine].
Qed.
Lemma du_x : forall c x al be k i j,
  derivable_pt_lim (fun t => log_utility c (at_coord x k t) al be i j) (x k) (al * (if Nat.eqb j k then 1 else 0)).
Proof.
  intros. unfold log_utility.
  apply (dl_ext (fun t => al * at_coord x k t j + - (be * c i j)) _ (x k) (al * (if Nat.eqb j k then 1 else 0) + 0)); [intro; ring|ring|].
  apply (dl_plus (fun t => al * at_coord x k t j) (fun _ => - (be * c i j))); [|apply dl_const].
  apply (dl_scal (fun t => at_coord x k t j)). apply dl_coord.
Qed.

(** entry [(k,l)] of a matrix replaced by [t] *)
Definition at_cell (c : mat) (k l : nat) (t : R) : mat := fun i j => if Nat.eqb i k && Nat.eqb j l then t else c i j.

Lemma at_cell_same : forall c k l i j, at_cell c k l (c k l) i j = c i j.
Proof.
  intros. unfold at_cell. destruct (Nat.eqb_spec i k), (Nat.eqb_spec j l); cbn [andb]; subst; reflexivity.
Qed.

Lemma du_cost : forall c x al be k l i j,
  derivable_pt_lim (fun t => log_utility (at_cell c k l t) x al be i j) (c k l)
    (- be * (if Nat.eqb i k && Nat.eqb j l then 1 else 0)).
Proof.
  intros. unfold log_utility, at_cell. destruct (Nat.eqb i k && Nat.eqb j l).
  - apply (dl_ext (fun t => - be * t + al * x j) _ (c k l) (- be)); [intro; ring|ring|apply dl_affine].
  - apply (dl_ext (fun t => 0 * t + (al * x j - be * c i j)) _ (c k l) 0); [intro; ring|ring|apply dl_affine].
Qed.

(** The Jacobian of the totally constrained flows. *)
Theorem C196_totally_constrained_jacobian : forall I J c T x al be i j, (i < I)%nat -> (j < J)%nat -> 0 < T ->
  (forall k, (k < J)%nat -> partial_derivative (fun x => tc_flow I J c T x al be i j) x k (tc_jac_x I J c T x al be i j k)) /\
  (forall k l, (k < I)%nat -> (l < J)%nat ->
     derivable_pt_lim (fun t => tc_flow I J (at_cell c k l t) T x al be i j) (c k l) (tc_jac_cost I J c T x al be i j k l)) /\
  derivable_pt_lim (fun t => tc_flow I J c t x al be i j) T (tc_jac_total I J c T x al be i j) /\
  derivable_pt_lim (fun a => tc_flow I J c T x a be i j) al (tc_jac_alpha I J c T x al be i j) /\
  derivable_pt_lim (fun b => tc_flow I J c T x al b i j) be (tc_jac_beta I J c T x al be i j).
Proof.
  intros I J c T x al be i j Hi Hj HT.
  assert (HI : (0 < I)%nat) by lia. assert (HJ : (0 < J)%nat) by lia.
  set (f := share I J (log_utility c x al be) (ln T)).
  assert (EF : forall i j, tc_flow I J c T x al be i j = f i j) by (intros; apply tc_share).
  assert (ES : rsum2 I J (tc_flow I J c T x al be) = rsum2 I J f) by (apply rsum2_ext; intros; apply EF).
  assert (ET : rsum2 I J f = T) by (unfold f; rewrite share_total by assumption; apply exp_ln; exact HT).
  assert (EG : forall v : mat, (forall i j, (i < I)%nat -> (j < J)%nat -> v i j = log_utility c x al be i j) ->
    forall i j, (i < I)%nat -> (j < J)%nat -> share I J v (ln T) i j = f i j).
  { intros v Hv i' j' Hi' Hj'. apply share_ext; auto. }
  assert (E0 := EG (log_utility c x al be) (fun _ _ _ _ => eq_refl)).
  clearbody f.
  split; [|split; [|split; [|split]]].
  - intros k Hk. unfold partial_derivative.
    assert (EX : forall i j, (i < I)%nat -> (j < J)%nat -> share I J (log_utility c (at_coord x k (x k)) al be) (ln T) i j = f i j).
    { apply EG. intros. unfold log_utility. rewrite at_coord_same. reflexivity. }
    eapply dl_ext; [intro z; symmetry; apply (tc_share I J c T (at_coord x k z) al be i j)| |
      exact (dl_share_at I J (fun t => log_utility c (at_coord x k t) al be) (fun i j => al * (if Nat.eqb j k then 1 else 0)) f
        (fun _ => ln T) 0 (x k) i j Hi Hj (fun i j _ _ => du_x c x al be k i j) (dl_const (ln T) (x k)) EX)].
    cbv beta zeta.
    rewrite (rsum2_ext I J _ (fun i j => al * (f i j * (if Nat.eqb j k then 1 else 0)))).
    2:{ intros. ring. }
    rewrite rsum2_scal, (rsum2_col I J k f Hk).
    unfold tc_jac_x; cbv zeta. rewrite ?ET; rewrite ?ES; rewrite ?ET; rewrite ?EF. rewrite (rsum_ext I (fun i' => tc_flow I J c T x al be i' k) (fun i' => f i' k)) by (intros; apply EF).
    rewrite ?ET. field. lra.
  - intros k l Hk Hl.
    assert (EX : forall i j, (i < I)%nat -> (j < J)%nat -> share I J (log_utility (at_cell c k l (c k l)) x al be) (ln T) i j = f i j).
    { apply EG. intros. unfold log_utility. rewrite at_cell_same. reflexivity. }
    eapply dl_ext; [intro z; symmetry; apply (tc_share I J (at_cell c k l z) T x al be i j)| |
      exact (dl_share_at I J (fun t => log_utility (at_cell c k l t) x al be) (fun i j => - be * (if Nat.eqb i k && Nat.eqb j l then 1 else 0)) f
        (fun _ => ln T) 0 (c k l) i j Hi Hj (fun i j _ _ => du_cost c x al be k l i j) (dl_const (ln T) (c k l)) EX)].
    cbv beta zeta.
    rewrite (rsum2_ext I J _ (fun i j => - be * (f i j * (if Nat.eqb i k && Nat.eqb j l then 1 else 0)))).
    2:{ intros. ring. }
    rewrite rsum2_scal, (rsum2_cell I J k l f Hk Hl).
    unfold tc_jac_cost; cbv zeta. rewrite ?ET; rewrite ?ES; rewrite ?ET; rewrite ?EF. field. lra.
  - eapply dl_ext; [intro z; symmetry; apply (tc_share I J c z x al be i j)| |
      exact (dl_share_at I J (fun _ => log_utility c x al be) (fun _ _ => 0) f ln (/ T) T i j Hi Hj
        (fun i j _ _ => dl_const _ T) (derivable_pt_lim_ln T HT) E0)].
    cbv beta zeta. rewrite (rsum2_ext I J _ (fun i j => 0 * f i j)) by (intros; ring).
    rewrite rsum2_scal. unfold tc_jac_total; cbv zeta. rewrite EF, ET. field. lra.
  - eapply dl_ext; [intro z; symmetry; apply (tc_share I J c T x z be i j)| |
      exact (dl_share_at I J (fun a => log_utility c x a be) (fun _ j => x j) f (fun _ => ln T) 0 al i j Hi Hj
        (fun i j _ _ => du_alpha c x al be i j) (dl_const (ln T) al) E0)].
    cbv beta zeta. unfold tc_jac_alpha, trip_mean; cbv zeta. rewrite ?ET; rewrite ?ES; rewrite ?ET; rewrite ?EF.
    rewrite (rsum2_ext I J (fun i j => tc_flow I J c T x al be i j * x j) (fun i j => f i j * x j)) by (intros; rewrite EF; reflexivity).
    ring.
  - eapply dl_ext; [intro z; symmetry; apply (tc_share I J c T x al z i j)| |
      exact (dl_share_at I J (fun b => log_utility c x al b) (fun i j => - c i j) f (fun _ => ln T) 0 be i j Hi Hj
        (fun i j _ _ => du_beta c x al be i j) (dl_const (ln T) be) E0)].
    cbv beta zeta. unfold tc_jac_beta, trip_mean; cbv zeta. rewrite ?ET; rewrite ?ES; rewrite ?ET; rewrite ?EF.
    rewrite (rsum2_ext I J (fun i j => tc_flow I J c T x al be i j * c i j) (fun i j => f i j * c i j)) by (intros; rewrite EF; reflexivity).
    rewrite (rsum2_ext I J (fun i j => f i j * - c i j) (fun i j => -1 * (f i j * c i j))) by (intros; ring).
    rewrite rsum2_scal. rewrite ?ET. field. lra.
Qed.
Print Assumptions C196_totally_constrained_jacobian.

(** The Jacobian of the production constrained flows. *)
Theorem C196_production_constrained_jacobian : forall J O c T x al be i j, (j < J)%nat -> 0 < T -> 0 < O i ->
  (forall k, (k < J)%nat -> partial_derivative (fun x => pc_flow J O c T x al be i j) x k (pc_jac_x J O c T x al be i j k)) /\
  (forall k, partial_derivative (fun O => pc_flow J O c T x al be i j) O k (pc_jac_demand J O c T x al be i j k)) /\
  (forall k l, (l < J)%nat ->
     derivable_pt_lim (fun t => pc_flow J O (at_cell c k l t) T x al be i j) (c k l) (pc_jac_cost J O c T x al be i j k l)) /\
  derivable_pt_lim (fun t => pc_flow J O c t x al be i j) T (pc_jac_total J O c T x al be i j) /\
  derivable_pt_lim (fun a => pc_flow J O c T x a be i j) al (pc_jac_alpha J O c T x al be i j) /\
  derivable_pt_lim (fun b => pc_flow J O c T x al b i j) be (pc_jac_beta J O c T x al be i j).
Proof.
  intros J O c T x al be i j Hj HT HO.
  assert (HJ : (0 < J)%nat) by lia.
  set (K := ln (O i) + ln T).
  set (f := share 1 J (fun _ j => log_utility c x al be i j) K).
  assert (EF : forall j, pc_flow J O c T x al be i j = f 0%nat j) by (intros; apply pc_share).
  assert (EK : exp K = O i * T) by (unfold K; rewrite exp_plus, !exp_ln by assumption; reflexivity).
  assert (ET : rsum2 1 J f = O i * T) by (unfold f; rewrite share_total by (lia || assumption); exact EK).
  assert (PT : 0 < O i * T) by (apply Rmult_lt_0_compat; assumption).
  assert (ES : rsum J (pc_flow J O c T x al be i) = rsum2 1 J f).
  { rewrite rsum2_one. apply rsum_ext; intros; apply EF. }
  assert (EG : forall v : mat, (forall i' j, (i' < 1)%nat -> (j < J)%nat -> v i' j = log_utility c x al be i j) ->
    forall i' j, (i' < 1)%nat -> (j < J)%nat -> share 1 J v K i' j = f i' j).
  { intros v Hv i' j' Hi' Hj'. apply share_ext; auto. }
  assert (E0 := EG (fun _ j => log_utility c x al be i j) (fun _ _ _ _ => eq_refl)).
  clearbody f.
  split; [|split; [|split; [|split; [|split]]]].
  - intros k Hk. unfold partial_derivative.
    assert (EX : forall i' j, (i' < 1)%nat -> (j < J)%nat -> share 1 J (fun _ j => log_utility c (at_coord x k (x k)) al be i j) K i' j = f i' j).
    { apply EG. intros. unfold log_utility. rewrite at_coord_same. reflexivity. }
    eapply dl_ext; [intro z; symmetry; apply (pc_share J O c T (at_coord x k z) al be i j)| |
      exact (dl_share_at 1 J (fun t _ j => log_utility c (at_coord x k t) al be i j) (fun _ j => al * (if Nat.eqb j k then 1 else 0)) f
        (fun _ => K) 0 (x k) 0 j Nat.lt_0_1 Hj (fun _ j _ _ => du_x c x al be k i j) (dl_const K (x k)) EX)].
    cbv beta zeta.
    rewrite (rsum2_ext 1 J _ (fun i j => al * (f i j * (if Nat.eqb j k then 1 else 0)))).
    2:{ intros. ring. }
    rewrite rsum2_scal, (rsum2_col 1 J k f Hk). cbn [rsum].
    unfold pc_jac_x; cbv zeta. rewrite ?ET; rewrite ?ES; rewrite ?ET; rewrite ?EF. rewrite ?ET. field. split; apply Rgt_not_eq; assumption.
  - intros k. unfold partial_derivative, pc_jac_demand. rewrite EF.
    destruct (Nat.eqb_spec i k) as [IK|IK].
    + subst k.
      assert (DK : derivable_pt_lim (fun t => ln (at_coord O i t i) + ln T) (O i) (/ O i + 0)).
      { apply (dl_plus (fun t => ln (at_coord O i t i)) (fun _ => ln T)); [|apply dl_const].
        unfold at_coord. rewrite Nat.eqb_refl. apply derivable_pt_lim_ln; assumption. }
      assert (EK0 : forall i' j, (i' < 1)%nat -> (j < J)%nat ->
        share 1 J (fun _ j => log_utility c x al be i j) (ln (at_coord O i (O i) i) + ln T) i' j = f i' j).
      { rewrite at_coord_same. exact E0. }
      eapply dl_ext; [intro z; symmetry; apply (pc_share J (at_coord O i z) c T x al be i j)| |
        exact (dl_share_at 1 J (fun _ _ j => log_utility c x al be i j) (fun _ _ => 0) f (fun t => ln (at_coord O i t i) + ln T) (/ O i + 0) (O i) 0 j
          Nat.lt_0_1 Hj (fun _ j _ _ => dl_const _ _) DK EK0)].
        cbv beta zeta.
        rewrite (rsum2_ext 1 J _ (fun i j => 0 * f i j)) by (intros; ring).
        rewrite rsum2_scal, ET. field. split; apply Rgt_not_eq; assumption.
    + apply (dl_ext (fun _ => f 0%nat j) _ (O k) 0); [|reflexivity|apply dl_const].
      intro z. rewrite <- EF. unfold pc_flow, pc_log_flow, at_coord.
      apply Nat.eqb_neq in IK. rewrite IK. reflexivity.
  - intros k l Hl. unfold pc_jac_cost; cbv zeta. destruct (Nat.eqb_spec i k) as [IK|IK].
    + subst k.
      assert (EX : forall i' j, (i' < 1)%nat -> (j < J)%nat -> share 1 J (fun _ j => log_utility (at_cell c i l (c i l)) x al be i j) K i' j = f i' j).
      { apply EG. intros. unfold log_utility. rewrite at_cell_same. reflexivity. }
      eapply dl_ext; [intro z; symmetry; apply (pc_share J O (at_cell c i l z) T x al be i j)| |
        exact (dl_share_at 1 J (fun t _ j => log_utility (at_cell c i l t) x al be i j) (fun _ j => - be * (if Nat.eqb i i && Nat.eqb j l then 1 else 0)) f
          (fun _ => K) 0 (c i l) 0 j Nat.lt_0_1 Hj (fun _ j _ _ => du_cost c x al be i l i j) (dl_const K (c i l)) EX)].
      cbv beta zeta.
      rewrite !Nat.eqb_refl. cbn [andb].
      rewrite (rsum2_ext 1 J _ (fun i j => - be * (f i j * (if Nat.eqb j l then 1 else 0)))).
      2:{ intros. ring. }
      rewrite rsum2_scal, (rsum2_col 1 J l f Hl). cbn [rsum].
      rewrite ?ET; rewrite ?ES; rewrite ?ET; rewrite ?EF. rewrite ?ET. field. split; apply Rgt_not_eq; assumption.
    + apply (dl_ext (fun _ => pc_flow J O c T x al be i j) _ (c k l) 0); [|reflexivity|apply dl_const].
      intro z. rewrite !pc_share. apply share_ext; auto. intros. unfold log_utility, at_cell.
      apply Nat.eqb_neq in IK. rewrite IK. reflexivity.
  - eapply dl_ext; [intro z; symmetry; apply (pc_share J O c z x al be i j)| |
      exact (dl_share_at 1 J (fun _ _ j => log_utility c x al be i j) (fun _ _ => 0) f (fun t => ln (O i) + ln t) (0 + / T) T 0 j Nat.lt_0_1 Hj
        (fun i j _ _ => dl_const _ T) (dl_plus (fun _ => ln (O i)) ln T _ _ (dl_const _ T) (derivable_pt_lim_ln T HT)) E0)].
    cbv beta zeta. rewrite (rsum2_ext 1 J _ (fun i j => 0 * f i j)) by (intros; ring).
    rewrite rsum2_scal. unfold pc_jac_total; cbv zeta. rewrite EF, ET. field. split; apply Rgt_not_eq; assumption.
  - eapply dl_ext; [intro z; symmetry; apply (pc_share J O c T x z be i j)| |
      exact (dl_share_at 1 J (fun a _ j => log_utility c x a be i j) (fun _ j => x j) f (fun _ => K) 0 al 0 j Nat.lt_0_1 Hj
        (fun _ j _ _ => du_alpha c x al be i j) (dl_const K al) E0)].
    cbv beta zeta. unfold pc_jac_alpha, origin_mean; cbv zeta. rewrite ?ET; rewrite ?ES; rewrite ?ET; rewrite ?EF.
    rewrite (rsum_ext J (fun j => pc_flow J O c T x al be i j * x j) (fun j => f 0%nat j * x j)) by (intros; rewrite EF; reflexivity).
    rewrite (rsum2_one J (fun i j => f i j * x j)). ring.
  - eapply dl_ext; [intro z; symmetry; apply (pc_share J O c T x al z i j)| |
      exact (dl_share_at 1 J (fun b _ j => log_utility c x al b i j) (fun _ j => - c i j) f (fun _ => K) 0 be 0 j Nat.lt_0_1 Hj
        (fun _ j _ _ => du_beta c x al be i j) (dl_const K be) E0)].
    cbv beta zeta. unfold pc_jac_beta, origin_mean; cbv zeta. rewrite ?ET; rewrite ?ES; rewrite ?ET; rewrite ?EF.
    rewrite (rsum_ext J (fun j => pc_flow J O c T x al be i j * c i j) (fun j => f 0%nat j * c i j)) by (intros; rewrite EF; reflexivity).
    rewrite (rsum2_one J (fun k j => f k j * - c i j)).
    rewrite (rsum_ext J (fun j => f 0%nat j * - c i j) (fun j => -1 * (f 0%nat j * c i j))) by (intros; ring).
    rewrite rsum_scal. rewrite ?ET. field. split; apply Rgt_not_eq; assumption.
Qed.
Print Assumptions C196_production_constrained_jacobian.

(** ---- C197: which settings give the same flows ---------------------------------- *)

Lemma share_same : forall I J (u v : mat) K L, (0 < I)%nat -> (0 < J)%nat ->
  ((forall i j, (i < I)%nat -> (j < J)%nat -> share I J u K i j = share I J v L i j) <->
   K = L /\ exists k, forall i j, (i < I)%nat -> (j < J)%nat -> u i j = v i j + k).
Proof.
  intros I J u v K L HI HJ. split.
  - intro H. assert (KL : K = L).
    { apply exp_inv. rewrite <- (share_total I J u K HI HJ), <- (share_total I J v L HI HJ). apply rsum2_ext; auto. }
    split; [exact KL|]. exists (lse2 I J u - lse2 I J v). intros i j Hi Hj. specialize (H i j Hi Hj).
    unfold share in H. apply exp_inv in H. lra.
  - intros [<- [k H]] i j Hi Hj.
    assert (E : lse2 I J u = lse2 I J v + k).
    { rewrite <- lse2_shift by assumption. unfold lse2. f_equal. apply rsum2_ext; intros; f_equal; apply H; assumption. }
    unfold share. rewrite E, (H i j Hi Hj). f_equal. ring.
Qed.

Lemma ln_inj : forall a b, 0 < a -> 0 < b -> ln a = ln b -> a = b.
Proof. intros a b Ha Hb H. rewrite <- (exp_ln a), <- (exp_ln b), H by assumption. reflexivity. Qed.

(** Two settings of the totally constrained model give the same flows exactly when
    the totals agree and the utilities differ by one constant. *)
Theorem C197_totally_constrained : forall I J c c' T T' x x' al al' be be', (0 < I)%nat -> (0 < J)%nat -> 0 < T -> 0 < T' ->
  ((forall i j, (i < I)%nat -> (j < J)%nat -> tc_flow I J c T x al be i j = tc_flow I J c' T' x' al' be' i j) <->
   T = T' /\ exists k, forall i j, (i < I)%nat -> (j < J)%nat -> al * x j - be * c i j = al' * x' j - be' * c' i j + k).
Proof.
  intros I J c c' T T' x x' al al' be be' HI HJ HT HT'.
  destruct (share_same I J (log_utility c x al be) (log_utility c' x' al' be') (ln T) (ln T') HI HJ) as [A B]. split.
  - intro H. destruct A as [E U].
    + intros i j Hi Hj. rewrite <- !tc_share. apply H; assumption.
    + split; [apply ln_inj; assumption|exact U].
  - intros [<- U] i j Hi Hj. rewrite !tc_share. apply B; auto.
Qed.
Print Assumptions C197_totally_constrained.

(** In the production constrained model: when every origin sends out as many trips
    and the utilities differ by one constant per origin. *)
Theorem C197_production_constrained : forall I J O O' c c' T T' x x' al al' be be', (0 < J)%nat -> 0 < T -> 0 < T' ->
  (forall i, (i < I)%nat -> 0 < O i /\ 0 < O' i) ->
  ((forall i j, (i < I)%nat -> (j < J)%nat -> pc_flow J O c T x al be i j = pc_flow J O' c' T' x' al' be' i j) <->
   forall i, (i < I)%nat -> O i * T = O' i * T' /\
     exists k, forall j, (j < J)%nat -> al * x j - be * c i j = al' * x' j - be' * c' i j + k).
Proof.
  intros I J O O' c c' T T' x x' al al' be be' HJ HT HT' HO.
  assert (S : forall i, (i < I)%nat ->
    ((forall j, (j < J)%nat -> pc_flow J O c T x al be i j = pc_flow J O' c' T' x' al' be' i j) <->
     O i * T = O' i * T' /\ exists k, forall j, (j < J)%nat -> al * x j - be * c i j = al' * x' j - be' * c' i j + k)).
  { intros i Hi. destruct (HO i Hi) as [PO PO'].
    destruct (share_same 1 J (fun _ j => log_utility c x al be i j) (fun _ j => log_utility c' x' al' be' i j)
       (ln (O i) + ln T) (ln (O' i) + ln T') Nat.lt_0_1 HJ) as [A B].
    rewrite <- !ln_mult in A, B by assumption.
    assert (P1 : 0 < O i * T) by (apply Rmult_lt_0_compat; assumption).
    assert (P2 : 0 < O' i * T') by (apply Rmult_lt_0_compat; assumption).
    split.
    - intro H. destruct A as [E [k U]].
      + intros i' j Hi' Hj. replace i' with 0%nat by lia. rewrite !ln_mult by assumption. rewrite <- !pc_share. apply H; assumption.
      + split; [apply ln_inj; assumption|]. exists k. intros j Hj. apply (U 0%nat j Nat.lt_0_1 Hj).
    - intros [E [k U]] j Hj. rewrite !pc_share. rewrite <- !ln_mult by assumption. apply B; auto.
      split; [rewrite E; reflexivity|]. exists k. intros i' j' _ Hj'. apply U; assumption. }
  split.
  - intros H i Hi. apply (S i Hi). intros j Hj. apply H; assumption.
  - intros H i j Hi Hj. apply (S i Hi); auto.
Qed.
Print Assumptions C197_production_constrained.

(** The cost sensitivity can be told from the flows exactly when not all costs are
    the same (totally constrained), when not all costs of each origin are the same
    (production constrained). *)
Theorem C197_beta_identified : forall I J O c T x al, (0 < I)%nat -> (0 < J)%nat -> 0 < T -> (forall i, (i < I)%nat -> 0 < O i) ->
  ((forall b1 b2, (forall i j, (i < I)%nat -> (j < J)%nat -> tc_flow I J c T x al b1 i j = tc_flow I J c T x al b2 i j) -> b1 = b2)
   <-> exists i j k l, (i < I)%nat /\ (j < J)%nat /\ (k < I)%nat /\ (l < J)%nat /\ c i j <> c k l) /\
  ((forall b1 b2, (forall i j, (i < I)%nat -> (j < J)%nat -> pc_flow J O c T x al b1 i j = pc_flow J O c T x al b2 i j) -> b1 = b2)
   <-> exists i j l, (i < I)%nat /\ (j < J)%nat /\ (l < J)%nat /\ c i j <> c i l).
Proof.
  intros I J O c T x al HI HJ HT HO. split; split.
  - intro H. 
    destruct (Classical_Prop.classic (exists i j k l, (i < I)%nat /\ (j < J)%nat /\ (k < I)%nat /\ (l < J)%nat /\ c i j <> c k l)) as [Y|N]; [exact Y|].
    exfalso. assert (E : 0 = 1).
    { apply H. apply C197_totally_constrained; auto. split; [reflexivity|]. exists (c 0%nat 0%nat). intros i j Hi Hj.
      assert (EC : c i j = c 0%nat 0%nat).
      { destruct (Req_dec (c i j) (c 0%nat 0%nat)) as [Y|D]; [exact Y|]. exfalso. apply N. exists i, j, 0%nat, 0%nat. auto. }
      rewrite EC. ring. }
    lra.
  - intros (i & j & k & l & Hi & Hj & Hk & Hl & D) b1 b2 H.
    apply C197_totally_constrained in H; auto. destruct H as [_ [d U]].
    assert (U1 := U i j Hi Hj). assert (U2 := U k l Hk Hl). clear - U1 U2 D U Hi Hj Hk Hl.
    assert (U3 := U k j Hk Hj). assert (U4 := U i l Hi Hl).
    assert (X : (b1 - b2) * (c i j - c k l) = 0) by lra.
    apply Rmult_integral in X. destruct X; [lra|]. exfalso. apply D. lra.
  - intro H.
    destruct (Classical_Prop.classic (exists i j l, (i < I)%nat /\ (j < J)%nat /\ (l < J)%nat /\ c i j <> c i l)) as [Y|N]; [exact Y|].
    exfalso. assert (E : 0 = 1).
    { apply H. apply (C197_production_constrained I J); auto. intros i Hi. split; [reflexivity|]. exists (c i 0%nat). intros j Hj.
      assert (EC : c i j = c i 0%nat).
      { destruct (Req_dec (c i j) (c i 0%nat)) as [Y|D]; [exact Y|]. exfalso. apply N. exists i, j, 0%nat. auto. }
      rewrite EC. ring. }
    lra.
  - intros (i & j & l & Hi & Hj & Hl & D) b1 b2 H.
    destruct (proj1 (C197_production_constrained I J O O c c T T x x al al b1 b2 HJ HT HT (fun i Hi => conj (HO i Hi) (HO i Hi))) H i Hi) as [_ [d U]].
    assert (U1 := U j Hj). assert (U2 := U l Hl).
    assert (X : (b1 - b2) * (c i j - c i l) = 0) by lra.
    apply Rmult_integral in X. destruct X; [lra|]. exfalso. apply D. lra.
Qed.
Print Assumptions C197_beta_identified.

(** Both parameters at once: told from the totally constrained flows exactly when
    neither the attractions nor the costs are, up to a constant, a multiple of the
    other (nor constant). *)
Theorem C197_both_identified : forall I J c T x, (0 < I)%nat -> (0 < J)%nat -> 0 < T ->
  ((forall a1 b1 a2 b2, (forall i j, (i < I)%nat -> (j < J)%nat -> tc_flow I J c T x a1 b1 i j = tc_flow I J c T x a2 b2 i j) ->
      a1 = a2 /\ b1 = b2)
   <-> forall p q k, (forall i j, (i < I)%nat -> (j < J)%nat -> p * x j + q * c i j = k) -> p = 0 /\ q = 0).
Proof.
  intros I J c T x HI HJ HT. split.
  - intros H p q k E. destruct (H p (- q) 0 0) as [A B].
    + apply C197_totally_constrained; auto. split; [reflexivity|]. exists k. intros i j Hi Hj. rewrite <- (E i j Hi Hj). ring.
    + split; lra.
  - intros H a1 b1 a2 b2 F. apply C197_totally_constrained in F; auto. destruct F as [_ [k U]].
    destruct (H (a1 - a2) (- (b1 - b2)) k) as [A B].
    + intros i j Hi Hj. assert (X := U i j Hi Hj). lra.
    + split; lra.
Qed.
Print Assumptions C197_both_identified.

(** ---- non-vacuity ------------------------------------------------------------------ *)

(** two origins, two destinations, two different costs: the strict conclusions hold *)
Example C196_nonvacuous :
  let c : mat := fun i j => if Nat.eqb i j then 0 else 1 in let x : vec := fun j => INR j in
  rsum2 2 2 (fun i j => tc_flow 2 2 c 10 x 1 2 i j * c i j) < rsum2 2 2 (fun i j => tc_flow 2 2 c 10 x 1 1 i j * c i j) /\
  rsum 2 (fun j => pc_flow 2 (fun _ => 1 / 2) c 10 x 1 2 0%nat j * c 0%nat j) < rsum 2 (fun j => pc_flow 2 (fun _ => 1 / 2) c 10 x 1 1 0%nat j * c 0%nat j) /\
  rsum2 2 2 (fun i j => tc_flow 2 2 c 10 x 1 1 i j * x j) < rsum2 2 2 (fun i j => tc_flow 2 2 c 10 x 2 1 i j * x j).
Proof.
  intros c x. repeat split.
  - apply (C196_total_cost_falls 2 2 c 10 x 1 1 2 ltac:(lia) ltac:(lia) ltac:(lra)) with (i := 0%nat) (j := 0%nat) (k := 0%nat) (l := 1%nat);
      try lia; try lra; unfold c; cbn; lra.
  - apply (C196_cost_by_origin_falls 2 (fun _ => 1 / 2) c 10 x 1 1 2 0%nat ltac:(lia) ltac:(lra)) with (j := 0%nat) (l := 1%nat);
      try lia; try lra; unfold c; cbn; lra.
  - apply (C196_attraction_rises 2 2 c 10 x 1 2 1 ltac:(lia) ltac:(lia) ltac:(lra)) with (j := 0%nat) (l := 1%nat);
      try lia; try lra; unfold x; cbn; lra.
Qed.

Example C197_nonvacuous :
  let c : mat := fun i j => if Nat.eqb i j then 0 else 1 in let x : vec := fun j => INR j in
  forall a1 b1 a2 b2, (forall i j, (i < 2)%nat -> (j < 2)%nat -> tc_flow 2 2 c 10 x a1 b1 i j = tc_flow 2 2 c 10 x a2 b2 i j) ->
  a1 = a2 /\ b1 = b2.
Proof.
  intros c x. apply C197_both_identified; try lia; try lra. intros p q k H.
  assert (A := H 0%nat 0%nat). assert (B := H 0%nat 1%nat). assert (C := H 1%nat 0%nat).
  unfold c, x in *. cbn in *. assert (A' := A ltac:(lia) ltac:(lia)). assert (B' := B ltac:(lia) ltac:(lia)). assert (C' := C ltac:(lia) ltac:(lia)).
  split; lra.
Qed.
