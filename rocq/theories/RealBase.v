(** RealBase: finite real sums, maxima and log-sum-exp shared by the models of
    the numerical code.  Nothing in here models code of /repo. *)
From Coq Require Import List ZArith Lia Bool Arith Reals Lra.
Import ListNotations.
Open Scope R_scope.

Definition Rltb (a b : R) : bool := if Rlt_dec a b then true else false.
Definition Rleb (a b : R) : bool := if Rle_dec a b then true else false.

Lemma Rltb_spec : forall a b, Rltb a b = true <-> a < b.
Proof. intros a b; unfold Rltb; destruct (Rlt_dec a b); split; intros; auto; congruence. Qed.
Lemma Rleb_spec : forall a b, Rleb a b = true <-> a <= b.
Proof. intros a b; unfold Rleb; destruct (Rle_dec a b); split; intros; auto; congruence. Qed.
Lemma Rltb_false : forall a b, Rltb a b = false <-> b <= a.
Proof. intros a b; unfold Rltb; destruct (Rlt_dec a b); split; intros; auto; try congruence; lra. Qed.
Lemma Rleb_false : forall a b, Rleb a b = false <-> b < a.
Proof. intros a b; unfold Rleb; destruct (Rle_dec a b); split; intros; auto; try congruence; lra. Qed.

(** f 0 + ... + f (n-1). *)
Fixpoint rsum (n : nat) (f : nat -> R) : R :=
  match n with O => 0 | S m => rsum m f + f m end.

Definition rsum2 (n m : nat) (f : nat -> nat -> R) : R := rsum n (fun i => rsum m (fun j => f i j)).

Lemma rsum_S : forall n f, rsum (S n) f = rsum n f + f n.
Proof. reflexivity. Qed.

Lemma rsum_ext : forall n f g, (forall k, (k < n)%nat -> f k = g k) -> rsum n f = rsum n g.
Proof.
  induction n as [|n IH]; intros f g H; [reflexivity|]. cbn. rewrite (IH f g), (H n); auto.
Qed.

Lemma rsum_add : forall n f g, rsum n (fun k => f k + g k) = rsum n f + rsum n g.
Proof. induction n as [|n IH]; intros f g; cbn; [ring|rewrite IH; ring]. Qed.

Lemma rsum_sub : forall n f g, rsum n (fun k => f k - g k) = rsum n f - rsum n g.
Proof. induction n as [|n IH]; intros f g; cbn; [ring|rewrite IH; ring]. Qed.

Lemma rsum_opp : forall n f, rsum n (fun k => - f k) = - rsum n f.
Proof. induction n as [|n IH]; intros f; cbn; [ring|rewrite IH; ring]. Qed.

Lemma rsum_scal : forall n c f, rsum n (fun k => c * f k) = c * rsum n f.
Proof. induction n as [|n IH]; intros c f; cbn; [ring|rewrite IH; ring]. Qed.

Lemma rsum_scal_r : forall n c f, rsum n (fun k => f k * c) = rsum n f * c.
Proof. induction n as [|n IH]; intros c f; cbn; [ring|rewrite IH; ring]. Qed.

Lemma rsum_const : forall n c, rsum n (fun _ => c) = INR n * c.
Proof. induction n as [|n IH]; intros c; [cbn; ring|]. rewrite rsum_S, IH, S_INR; ring. Qed.

Lemma rsum_0 : forall n f, (forall k, (k < n)%nat -> f k = 0) -> rsum n f = 0.
Proof. intros n f H. rewrite (rsum_ext n f (fun _ => 0) H), rsum_const. ring. Qed.

Lemma rsum_nonneg : forall n f, (forall k, (k < n)%nat -> 0 <= f k) -> 0 <= rsum n f.
Proof.
  induction n as [|n IH]; intros f H; cbn; [lra|].
  specialize (IH f ltac:(intros; apply H; lia)). specialize (H n ltac:(lia)). lra.
Qed.

Lemma rsum_pos : forall n f, (0 < n)%nat -> (forall k, (k < n)%nat -> 0 < f k) -> 0 < rsum n f.
Proof.
  intros [|n] f Hn H; [lia|]. cbn.
  assert (0 <= rsum n f) by (apply rsum_nonneg; intros; left; apply H; lia).
  specialize (H n ltac:(lia)). lra.
Qed.

Lemma rsum_le : forall n f g, (forall k, (k < n)%nat -> f k <= g k) -> rsum n f <= rsum n g.
Proof.
  induction n as [|n IH]; intros f g H; cbn; [lra|].
  specialize (IH f g ltac:(intros; apply H; lia)). specialize (H n ltac:(lia)). lra.
Qed.

Lemma rsum_lt : forall n f g, (0 < n)%nat -> (forall k, (k < n)%nat -> f k < g k) -> rsum n f < rsum n g.
Proof.
  intros n f g Hn H. assert (0 < rsum n (fun k => g k - f k)).
  { apply rsum_pos; [exact Hn|]. intros k Hk; specialize (H k Hk); lra. }
  rewrite rsum_sub in H0. lra.
Qed.

Lemma rsum_term_le : forall n f k, (forall i, (i < n)%nat -> 0 <= f i) -> (k < n)%nat -> f k <= rsum n f.
Proof.
  induction n as [|n IH]; intros f k H Hk; [lia|]. cbn.
  assert (0 <= rsum n f) by (apply rsum_nonneg; intros; apply H; lia).
  assert (0 <= f n) by (apply H; lia).
  destruct (Nat.eq_dec k n) as [->|Hne]; [lra|].
  assert (f k <= rsum n f) by (apply IH; [intros; apply H; lia|lia]). lra.
Qed.

Lemma rsum_zero_iff : forall n f, (forall i, (i < n)%nat -> 0 <= f i) ->
  (rsum n f = 0 <-> forall i, (i < n)%nat -> f i = 0).
Proof.
  intros n f H; split; [|apply rsum_0].
  intros E i Hi. pose proof (rsum_term_le n f i H Hi). specialize (H i Hi). lra.
Qed.

Lemma rsum_swap : forall n m f, rsum n (fun i => rsum m (fun j => f i j)) = rsum m (fun j => rsum n (fun i => f i j)).
Proof.
  induction n as [|n IH]; intros m f; cbn; [symmetry; apply rsum_0; reflexivity|].
  rewrite IH, <- rsum_add. reflexivity.
Qed.

Lemma rsum_split : forall a b f, rsum (a + b) f = rsum a f + rsum b (fun k => f (a + k)%nat).
Proof.
  intros a b f; induction b as [|b IH]; [rewrite Nat.add_0_r; cbn; ring|].
  rewrite Nat.add_succ_r; cbn. rewrite IH; ring.
Qed.

Lemma rsum_shift : forall n f, rsum (S n) f = f 0%nat + rsum n (fun k => f (S k)).
Proof. intros n f; induction n as [|n IH]; cbn in *; [ring|]. rewrite IH. ring. Qed.

Lemma rsum_delta : forall n k f, (k < n)%nat -> rsum n (fun i => if Nat.eqb i k then f i else 0) = f k.
Proof.
  induction n as [|n IH]; intros k f Hk; [lia|]. cbn.
  destruct (Nat.eqb_spec n k) as [->|Hne].
  - rewrite rsum_0; [ring|]. intros i Hi. destruct (Nat.eqb_spec i k); [lia|reflexivity].
  - rewrite IH by lia. ring.
Qed.

(** Product f 0 * ... * f (n-1). *)
Fixpoint rprod (n : nat) (f : nat -> R) : R :=
  match n with O => 1 | S m => rprod m f * f m end.

Lemma rprod_pos : forall n f, (forall k, (k < n)%nat -> 0 < f k) -> 0 < rprod n f.
Proof.
  induction n as [|n IH]; intros f H; cbn; [lra|].
  apply Rmult_lt_0_compat; [apply IH; intros; apply H; lia|apply H; lia].
Qed.

Lemma ln_rprod : forall n f, (forall k, (k < n)%nat -> 0 < f k) -> ln (rprod n f) = rsum n (fun k => ln (f k)).
Proof.
  induction n as [|n IH]; intros f H; cbn; [apply ln_1|].
  rewrite ln_mult, IH; [reflexivity| | |]; try (intros; apply H; lia).
  apply rprod_pos; intros; apply H; lia.
Qed.

(** Log of a sum of exponentials. *)
Definition lse (n : nat) (f : nat -> R) : R := ln (rsum n (fun k => exp (f k))).
Definition lse2 (n m : nat) (f : nat -> nat -> R) : R := ln (rsum2 n m (fun i j => exp (f i j))).

Lemma exp_sum_pos : forall n f, (0 < n)%nat -> 0 < rsum n (fun k => exp (f k)).
Proof. intros n f H; apply rsum_pos; [exact H|intros; apply exp_pos]. Qed.

Lemma exp_sum2_pos : forall n m f, (0 < n)%nat -> (0 < m)%nat -> 0 < rsum2 n m (fun i j => exp (f i j)).
Proof.
  intros n m f Hn Hm; unfold rsum2; apply rsum_pos; [exact Hn|].
  intros; apply rsum_pos; [exact Hm|intros; apply exp_pos].
Qed.

Lemma exp_lse : forall n f, (0 < n)%nat -> exp (lse n f) = rsum n (fun k => exp (f k)).
Proof. intros n f H; unfold lse; apply exp_ln, exp_sum_pos; exact H. Qed.

Lemma exp_lse2 : forall n m f, (0 < n)%nat -> (0 < m)%nat -> exp (lse2 n m f) = rsum2 n m (fun i j => exp (f i j)).
Proof. intros n m f Hn Hm; unfold lse2; apply exp_ln, exp_sum2_pos; assumption. Qed.

Lemma lse_shift : forall n f c, (0 < n)%nat -> lse n (fun k => f k + c) = lse n f + c.
Proof.
  intros n f c H; unfold lse.
  rewrite (rsum_ext n _ (fun k => exp c * exp (f k))) by (intros; rewrite exp_plus; ring).
  rewrite rsum_scal, ln_mult; [rewrite ln_exp; ring|apply exp_pos|apply exp_sum_pos; exact H].
Qed.

Lemma lse2_shift : forall n m f c, (0 < n)%nat -> (0 < m)%nat ->
  lse2 n m (fun i j => f i j + c) = lse2 n m f + c.
Proof.
  intros n m f c Hn Hm; unfold lse2, rsum2.
  rewrite (rsum_ext n _ (fun i => exp c * rsum m (fun j => exp (f i j)))).
  - rewrite rsum_scal, ln_mult; [rewrite ln_exp; ring|apply exp_pos|apply (exp_sum2_pos n m f); assumption].
  - intros i Hi. rewrite <- rsum_scal. apply rsum_ext; intros; rewrite exp_plus; ring.
Qed.

Lemma rsum2_ext : forall n m f g, (forall i j, (i < n)%nat -> (j < m)%nat -> f i j = g i j) -> rsum2 n m f = rsum2 n m g.
Proof. intros n m f g H; unfold rsum2; apply rsum_ext; intros; apply rsum_ext; intros; apply H; assumption. Qed.

Lemma rsum2_add : forall n m f g, rsum2 n m (fun i j => f i j + g i j) = rsum2 n m f + rsum2 n m g.
Proof.
  intros; unfold rsum2. rewrite <- rsum_add. apply rsum_ext; intros; apply rsum_add.
Qed.

Lemma rsum2_sub : forall n m f g, rsum2 n m (fun i j => f i j - g i j) = rsum2 n m f - rsum2 n m g.
Proof.
  intros; unfold rsum2. rewrite <- rsum_sub. apply rsum_ext; intros; apply rsum_sub.
Qed.

Lemma rsum2_scal : forall n m c f, rsum2 n m (fun i j => c * f i j) = c * rsum2 n m f.
Proof. intros; unfold rsum2. rewrite <- rsum_scal. apply rsum_ext; intros; apply rsum_scal. Qed.

Lemma rsum2_swap : forall n m f, rsum2 n m f = rsum2 m n (fun j i => f i j).
Proof. intros; unfold rsum2; apply rsum_swap. Qed.

Lemma rsum2_nonneg : forall n m f, (forall i j, (i < n)%nat -> (j < m)%nat -> 0 <= f i j) -> 0 <= rsum2 n m f.
Proof. intros n m f H; unfold rsum2; apply rsum_nonneg; intros; apply rsum_nonneg; intros; apply H; assumption. Qed.

Lemma rsum2_zero_iff : forall n m f, (forall i j, (i < n)%nat -> (j < m)%nat -> 0 <= f i j) ->
  (rsum2 n m f = 0 <-> forall i j, (i < n)%nat -> (j < m)%nat -> f i j = 0).
Proof.
  intros n m f H; unfold rsum2. rewrite rsum_zero_iff.
  - split; intros E i; [intros j Hi Hj|intros Hi].
    + specialize (E i Hi). rewrite rsum_zero_iff in E; [apply E; exact Hj|intros; apply H; assumption].
    + apply rsum_0; intros j Hj; apply E; assumption.
  - intros; apply rsum_nonneg; intros; apply H; assumption.
Qed.

Lemma exp_gt_id : forall x, x < exp x.
Proof.
  intros x. destruct (Req_dec x 0) as [->|H].
  - rewrite exp_0; lra.
  - pose proof (exp_ineq1 x H). lra.
Qed.

Lemma INR_fact_pos : forall n, 0 < INR (fact n).
Proof. intros n; apply lt_0_INR, lt_O_fact. Qed.
