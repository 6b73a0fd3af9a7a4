(** Properties C29-C35 and C71: spatial interaction and Harris-Wilson models. *)
From Coq Require Import List ZArith Lia Bool Arith Reals Lra.
From Verif Require Import Base RealBase ProbUtils SIM.
Import ListNotations.
Open Scope R_scope.

Lemma exp_lse_pos : forall n f, (0 < n)%nat -> exp (lse n f) = rsum n (fun k => exp (f k)).
Proof. exact exp_lse. Qed.

(** ---- C29 -------------------------------------------------------------------- *)

Theorem C29_totally_constrained_total : forall I J c T x al be, (0 < I)%nat -> (0 < J)%nat -> 0 < T ->
  (forall i j, 0 < exp (tc_log_flow I J c T x al be i j)) /\
  rsum2 I J (fun i j => exp (tc_log_flow I J c T x al be i j)) = T.
Proof.
  intros I J c T x al be HI HJ HT. split; [intros; apply exp_pos|].
  set (u := log_utility c x al be).
  rewrite (rsum2_ext I J _ (fun i j => T / exp (lse2 I J u) * exp (u i j))).
  2:{ intros i j _ _. unfold tc_log_flow. fold u.
      replace (u i j - lse2 I J u + ln T) with (u i j + (- lse2 I J u) + ln T) by ring.
      rewrite !exp_plus, exp_Ropp, exp_ln by exact HT. field. apply Rgt_not_eq, exp_pos. }
  rewrite rsum2_scal, <- exp_lse2 by assumption. field. apply Rgt_not_eq, exp_pos.
Qed.
Print Assumptions C29_totally_constrained_total.

Example C29_nonvacuous : (0 < 2)%nat /\ (0 < 3)%nat /\ 0 < 100.
Proof. repeat split; lia || lra. Qed.

(** ---- C30 -------------------------------------------------------------------- *)

Theorem C30_production_constrained_rows : forall I J O c T x al be i, (0 < J)%nat -> 0 < T -> 0 < O i ->
  (forall j, 0 < exp (pc_log_flow I J O c T x al be i j)) /\
  rsum J (fun j => exp (pc_log_flow I J O c T x al be i j)) = O i * T.
Proof.
  intros I J O c T x al be i HJ HT HO. split; [intros; apply exp_pos|].
  set (u := fun j => log_utility c x al be i j).
  rewrite (rsum_ext J _ (fun j => O i * T / exp (lse J u) * exp (u j))).
  2:{ intros j _. unfold pc_log_flow. fold u. change (log_utility c x al be i j) with (u j).
      replace (ln (O i) + u j - lse J u + ln T) with (ln (O i) + u j + (- lse J u) + ln T) by ring.
      rewrite !exp_plus, exp_Ropp, !exp_ln by assumption. field. apply Rgt_not_eq, exp_pos. }
  rewrite rsum_scal, <- exp_lse by assumption. field. apply Rgt_not_eq, exp_pos.
Qed.
Print Assumptions C30_production_constrained_rows.

(** and so the whole table sums to the total when the demands are shares *)
Theorem C30_production_constrained_total : forall I J O c T x al be, (0 < J)%nat -> 0 < T ->
  (forall i, (i < I)%nat -> 0 < O i) ->
  rsum2 I J (fun i j => exp (pc_log_flow I J O c T x al be i j)) = rsum I O * T.
Proof.
  intros I J O c T x al be HJ HT HO. unfold rsum2. rewrite <- rsum_scal_r.
  apply rsum_ext; intros i Hi. apply C30_production_constrained_rows; auto.
Qed.
Print Assumptions C30_production_constrained_total.

Example C30_nonvacuous : (0 < 3)%nat /\ 0 < 50 /\ forall i, (i < 2)%nat -> 0 < (fun i => if Nat.eqb i 0 then 1/4 else 3/4) i.
Proof. repeat split; try lia; try lra. intros i Hi; destruct (Nat.eqb i 0); lra. Qed.

(** ---- C31 -------------------------------------------------------------------- *)

(** Totally constrained, xarray inputs: holds for every batch. *)
Theorem C31_totally_constrained_batch : forall I J S c T x al be n s i j,
  tc_batch I J S c T x al be n s i j = tc_log_flow I J c T (x n s) (al n s) (be n s) i j.
Proof. reflexivity. Qed.

(** Production constrained: the cost row used for origin [i] in sweep [s]. *)
Lemma pc_batch_cost_row : forall I J S c s i j, (0 < J)%nat -> (0 < S)%nat -> (j < J)%nat ->
  pc_batch_cost I J S c s i j = c ((s * I + i) / S)%nat j.
Proof.
  intros I J S c s i j HJ HS Hj. unfold pc_batch_cost, flat2, repeat_columns. f_equal.
  - rewrite <- Nat.div_div by lia. rewrite Nat.div_add_l by lia. rewrite (Nat.div_small j J) by exact Hj.
    f_equal; lia.
  - rewrite Nat.mod_mul_r by lia.
    replace (J * (((s * I + i) * J + j) / J mod S))%nat with ((((s * I + i) * J + j) / J mod S) * J)%nat by lia.
    rewrite Nat.mod_add by lia. rewrite Nat.mod_mod by lia.
    rewrite Nat.add_comm, Nat.mod_add by lia. apply Nat.mod_small; exact Hj.
Qed.

(** what the production constrained batch computes: origin [i] of sweep [s] gets
    the costs of origin (s*I+i)/S *)
Theorem C31_production_constrained_batch : forall I J S O c T x al be n s i j,
  (0 < J)%nat -> (0 < S)%nat -> (i < I)%nat -> (j < J)%nat ->
  pc_batch I J S O c T x al be n s i j =
  pc_log_flow I J O (fun i' j' => c ((s * I + i') / S)%nat j') T (x n s) (al n s) (be n s) i j.
Proof.
  intros I J S O c T x al be n s i j HJ HS Hi Hj. unfold pc_batch, pc_log_flow, log_utility, lda_xarray.
  rewrite !pc_batch_cost_row by assumption. unfold pc_batch_demand.
  rewrite Nat.add_comm, Nat.mod_add by lia. rewrite (Nat.mod_small i I) by exact Hi.
  rewrite (Nat.add_comm i). f_equal. f_equal. unfold lse. f_equal. apply rsum_ext; intros k Hk.
  rewrite pc_batch_cost_row by assumption. reflexivity.
Qed.
Print Assumptions C31_production_constrained_batch.

(** so the claim holds for a single sweep value (any number of draws)... *)
Theorem C31_production_constrained_partial : forall I J O c T x al be n i j,
  (0 < J)%nat -> (i < I)%nat -> (j < J)%nat ->
  pc_batch I J 1 O c T x al be n 0 i j = pc_log_flow I J O c T (x n 0%nat) (al n 0%nat) (be n 0%nat) i j.
Proof.
  intros. rewrite C31_production_constrained_batch by (assumption || lia).
  unfold pc_log_flow, log_utility. cbn [Nat.mul Nat.add]. rewrite Nat.div_1_r. do 2 f_equal.
Qed.
Print Assumptions C31_production_constrained_partial.

(** ... and fails with two sweep values and two origins of different costs. *)
Theorem C31_production_constrained_refuted : exists I J S O c T x al be n s i j,
  (0 < J)%nat /\ (s < S)%nat /\ (i < I)%nat /\ (j < J)%nat /\ (forall i, 0 < O i) /\ 0 < T /\
  pc_batch I J S O c T x al be n s i j <> pc_log_flow I J O c T (x n s) (al n s) (be n s) i j.
Proof.
  exists 2%nat, 2%nat, 2%nat, (fun _ => 1/2), (fun i j => if Nat.eqb i 1 && Nat.eqb j 1 then 1 else 0), 1,
    (fun _ _ _ => 0), (fun _ _ => 1), (fun _ _ => 1), 0%nat, 0%nat, 1%nat, 1%nat.
  repeat split; try lia; try lra; try (intros; lra).
  rewrite C31_production_constrained_batch by lia. cbn [Nat.mul Nat.add].
  unfold pc_log_flow, log_utility, lse, rsum. cbn [Nat.add].
  change ((0 + 1) / 2)%nat with 0%nat. change (1 / 2)%nat with 0%nat. cbn [Nat.eqb andb].
  replace (1 * 0 - 1 * 0) with 0 by ring. replace (1 * 0 - 1 * 1) with (-1) by ring. rewrite exp_0.
  intros E. assert (E' : ln (0 + 1 + exp (-1)) = -1 + ln (0 + 1 + 1)) by lra.
  apply (f_equal exp) in E'. rewrite exp_plus, !exp_ln in E' by (pose proof (exp_pos (-1)); lra).
  assert (exp (-1) < 1) by (rewrite <- exp_0; apply exp_increasing; lra). lra.
Qed.
Print Assumptions C31_production_constrained_refuted.

(** The torch branch mixes destinations and sweep values for both models. *)
Theorem C31_torch_batch_partial : forall I J c T x al be n i j, 
  tc_batch_torch I J 1 c T x al be n 0 i j =
  tc_log_flow I J c T (fun j => x n j 0%nat) (al n 0%nat) (be n 0%nat) i j.
Proof.
  intros. unfold tc_batch_torch, tc_log_flow, tc_batch_cost, log_utility, lda_torch, flat2.
  cbn [Nat.mul Nat.add].
  assert (H : forall j, x n (j / 1)%nat (j mod 1)%nat = x n j 0%nat).
  { intros k. rewrite Nat.div_1_r, Nat.mod_1_r. reflexivity. }
  rewrite H. do 2 f_equal. unfold lse2. f_equal. apply rsum2_ext; intros. rewrite H. reflexivity.
Qed.
Print Assumptions C31_torch_batch_partial.

Theorem C31_torch_batch_refuted : exists I J S c T x al be n s i j,
  (0 < I)%nat /\ (s < S)%nat /\ (i < I)%nat /\ (j < J)%nat /\ 0 < T /\
  tc_batch_torch I J S c T x al be n s i j <> tc_log_flow I J c T (fun j => x n j s) (al n s) (be n s) i j.
Proof.
  exists 1%nat, 2%nat, 2%nat, (fun _ _ => 0), 1, (fun _ j s => if Nat.eqb s 0 then 0 else 1),
    (fun _ _ => 1), (fun _ _ => 0), 0%nat, 0%nat, 0%nat, 0%nat.
  repeat split; try lia; try lra.
  unfold tc_batch_torch, tc_log_flow, tc_batch_cost, log_utility, lda_torch, flat2, lse2, rsum2, rsum.
  cbn [Nat.mul Nat.add].
  change (0 mod 2)%nat with 0%nat. change (1 mod 2)%nat with 1%nat. cbn [Nat.eqb].
  replace (1 * 0 - 0 * 0) with 0 by ring. replace (1 * 1 - 0 * 0) with 1 by ring. rewrite exp_0.
  intros E. assert (E' : ln (0 + (0 + 1 + exp 1)) = ln (0 + (0 + 1 + 1))) by lra.
  apply ln_inv in E'; [|pose proof (exp_pos 1); lra|lra].
  pose proof (exp_ineq1 1 ltac:(intros H; lra)). lra.
Qed.
Print Assumptions C31_torch_batch_refuted.

Example C31_nonvacuous : (0 < 3)%nat /\ (1 < 2)%nat.
Proof. lia. Qed.

(** ---- C32 -------------------------------------------------------------------- *)

Theorem C32_attraction_shift : forall I J O c T x al be k i j, (0 < I)%nat -> (0 < J)%nat ->
  tc_log_flow I J c T (fun j => x j + k) al be i j = tc_log_flow I J c T x al be i j /\
  pc_log_flow I J O c T (fun j => x j + k) al be i j = pc_log_flow I J O c T x al be i j.
Proof.
  intros I J O c T x al be k i j HI HJ. split.
  - unfold tc_log_flow.
    assert (E : lse2 I J (log_utility c (fun j => x j + k) al be) = lse2 I J (log_utility c x al be) + al * k).
    { rewrite <- lse2_shift by assumption. unfold lse2. f_equal. apply rsum2_ext; intros. f_equal.
      unfold log_utility. ring. }
    rewrite E. unfold log_utility. ring.
  - unfold pc_log_flow.
    assert (E : lse J (fun j' => log_utility c (fun j => x j + k) al be i j') =
                lse J (fun j' => log_utility c x al be i j') + al * k).
    { rewrite <- lse_shift by assumption. unfold lse. f_equal. apply rsum_ext; intros. f_equal.
      unfold log_utility. ring. }
    rewrite E. unfold log_utility. ring.
Qed.
Print Assumptions C32_attraction_shift.

(** costs: a common shift for the totally constrained model, one per origin for
    the production constrained model *)
Theorem C32_cost_shift : forall I J O c T x al be i j, (0 < I)%nat -> (0 < J)%nat ->
  (forall k, tc_log_flow I J (fun i j => c i j + k) T x al be i j = tc_log_flow I J c T x al be i j) /\
  (forall k : nat -> R, pc_log_flow I J O (fun i j => c i j + k i) T x al be i j = pc_log_flow I J O c T x al be i j).
Proof.
  intros I J O c T x al be i j HI HJ. split; intros k.
  - unfold tc_log_flow.
    assert (E : lse2 I J (log_utility (fun i j => c i j + k) x al be) = lse2 I J (log_utility c x al be) + (- be * k)).
    { rewrite <- lse2_shift by assumption. unfold lse2. f_equal. apply rsum2_ext; intros. f_equal.
      unfold log_utility. ring. }
    rewrite E. unfold log_utility. ring.
  - unfold pc_log_flow.
    assert (E : lse J (fun j' => log_utility (fun i j => c i j + k i) x al be i j') =
                lse J (fun j' => log_utility c x al be i j') + (- be * k i)).
    { rewrite <- lse_shift by assumption. unfold lse. f_equal. apply rsum_ext; intros. f_equal.
      unfold log_utility. ring. }
    rewrite E. unfold log_utility. ring.
Qed.
Print Assumptions C32_cost_shift.

Example C32_nonvacuous : exists x : vec, x 0%nat <> x 1%nat /\ (0 < 2)%nat.
Proof. exists (fun j => INR j). split; [cbn; intros E; lra|lia]. Qed.

(** ---- derivatives of finite sums ------------------------------------------------ *)

(** coordinate [k] of [x] replaced by [t] *)
Definition at_coord (x : vec) (k : nat) (t : R) : vec := fun j => if Nat.eqb j k then t else x j.

(** [f] is differentiable in coordinate [k] at [x] with partial derivative [d] *)
Definition partial_derivative (f : vec -> R) (x : vec) (k : nat) (d : R) : Prop :=
  derivable_pt_lim (fun t => f (at_coord x k t)) (x k) d.

Lemma dl_ext : forall f g x l l', (forall z, f z = g z) -> l = l' -> derivable_pt_lim f x l -> derivable_pt_lim g x l'.
Proof. intros f g x l l' H <- D. exact (derivable_pt_lim_ext f g x l H D). Qed.

Lemma dl_rsum : forall n (f : nat -> R -> R) (d : nat -> R) t,
  (forall i, (i < n)%nat -> derivable_pt_lim (f i) t (d i)) ->
  derivable_pt_lim (fun t => rsum n (fun i => f i t)) t (rsum n d).
Proof.
  induction n; intros f d t H.
  - exact (derivable_pt_lim_const 0 t).
  - apply (dl_ext (plus_fct (fun t => rsum n (fun i => f i t)) (f n)) _ t (rsum n d + d n)); try reflexivity.
    apply derivable_pt_lim_plus; [apply IHn; intros; apply H; lia|apply H; lia].
Qed.

Lemma dl_const : forall a t, derivable_pt_lim (fun _ => a) t 0.
Proof. intros. exact (derivable_pt_lim_const a t). Qed.

Lemma dl_id : forall t, derivable_pt_lim (fun t => t) t 1.
Proof. intros. exact (derivable_pt_lim_id t). Qed.

Lemma dl_scal : forall f a t l, derivable_pt_lim f t l -> derivable_pt_lim (fun t => a * f t) t (a * l).
Proof. intros f a t l H. exact (derivable_pt_lim_scal f a t l H). Qed.

Lemma dl_plus : forall f g t l m, derivable_pt_lim f t l -> derivable_pt_lim g t m ->
  derivable_pt_lim (fun t => f t + g t) t (l + m).
Proof. intros f g t l m Hf Hg. exact (derivable_pt_lim_plus f g t l m Hf Hg). Qed.

Lemma dl_exp : forall f t l, derivable_pt_lim f t l -> derivable_pt_lim (fun t => exp (f t)) t (exp (f t) * l).
Proof. intros f t l H. exact (derivable_pt_lim_comp f exp t l (exp (f t)) H (derivable_pt_lim_exp (f t))). Qed.

Lemma dl_ln : forall f t l, 0 < f t -> derivable_pt_lim f t l -> derivable_pt_lim (fun t => ln (f t)) t (/ f t * l).
Proof. intros f t l Hp H. exact (derivable_pt_lim_comp f ln t l (/ f t) H (derivable_pt_lim_ln (f t) Hp)). Qed.

Lemma at_coord_same : forall x k j, at_coord x k (x k) j = x j.
Proof. intros x k j. unfold at_coord. destruct (Nat.eqb_spec j k); [subst|]; reflexivity. Qed.

Lemma dl_coord : forall x k j t, derivable_pt_lim (fun t => at_coord x k t j) t (if Nat.eqb j k then 1 else 0).
Proof.
  intros x k j t. unfold at_coord. destruct (Nat.eqb j k); [apply dl_id|apply dl_const].
Qed.

Lemma rsum_indicator : forall n k g, (k < n)%nat -> rsum n (fun j => g j * (if Nat.eqb j k then 1 else 0)) = g k.
Proof.
  intros n k g Hk. rewrite (rsum_ext n _ (fun j => if Nat.eqb j k then g j else 0)).
  - apply rsum_delta; exact Hk.
  - intros j _. destruct (Nat.eqb j k); ring.
Qed.

(** the three ingredients of the potentials *)
Lemma dl_sum_coords : forall J x k, (k < J)%nat -> partial_derivative (rsum J) x k 1.
Proof.
  intros J x k Hk. unfold partial_derivative.
  eapply dl_ext; [reflexivity| |apply (dl_rsum J (fun j t => at_coord x k t j) (fun j => if Nat.eqb j k then 1 else 0)); intros; apply dl_coord].
  rewrite (rsum_ext J _ (fun j => 1 * (if Nat.eqb j k then 1 else 0))) by (intros; ring).
  apply (rsum_indicator J k (fun _ => 1)); exact Hk.
Qed.

Lemma dl_sum_exp_coords : forall J x k, (k < J)%nat -> partial_derivative (fun x => rsum J (fun j => exp (x j))) x k (exp (x k)).
Proof.
  intros J x k Hk. unfold partial_derivative.
  eapply dl_ext; [reflexivity| |apply (dl_rsum J (fun j t => exp (at_coord x k t j)) (fun j => exp (at_coord x k (x k) j) * (if Nat.eqb j k then 1 else 0))); intros; apply dl_exp, dl_coord].
  rewrite (rsum_indicator J k (fun j => exp (at_coord x k (x k) j)) Hk). rewrite at_coord_same. reflexivity.
Qed.

Lemma dl_lse2_utility : forall I J c x al be k, (0 < I)%nat -> (k < J)%nat ->
  partial_derivative (fun x => lse2 I J (log_utility c x al be)) x k
    (al * rsum I (fun i => exp (log_utility c x al be i k)) / rsum2 I J (fun i j => exp (log_utility c x al be i j))).
Proof.
  intros I J c x al be k HI Hk. unfold partial_derivative, lse2.
  set (G := fun t => rsum2 I J (fun i j => exp (log_utility c (at_coord x k t) al be i j))).
  assert (HG0 : G (x k) = rsum2 I J (fun i j => exp (log_utility c x al be i j))).
  { apply rsum2_ext; intros. unfold log_utility. rewrite at_coord_same. reflexivity. }
  assert (HD : derivable_pt_lim G (x k) (al * rsum I (fun i => exp (log_utility c x al be i k)))).
  { eapply dl_ext; [reflexivity| |].
    2:{ unfold G, rsum2. apply (dl_rsum I (fun i t => rsum J (fun j => exp (log_utility c (at_coord x k t) al be i j)))
          (fun i => al * exp (log_utility c x al be i k))).
        intros i Hi. eapply dl_ext; [reflexivity| |].
        2:{ apply (dl_rsum J (fun j t => exp (log_utility c (at_coord x k t) al be i j))
             (fun j => exp (log_utility c (at_coord x k (x k)) al be i j) * (al * (if Nat.eqb j k then 1 else 0) + 0))).
            intros j Hj. apply dl_exp. unfold log_utility, Rminus.
            apply (dl_plus (fun t => al * at_coord x k t j) (fun _ => - (be * c i j))); [|apply dl_const].
            apply dl_scal, dl_coord. }
        cbv beta. rewrite (rsum_ext J _ (fun j => (al * exp (log_utility c x al be i j)) * (if Nat.eqb j k then 1 else 0))).
        - rewrite (rsum_indicator J k (fun j => al * exp (log_utility c x al be i j)) Hk). reflexivity.
        - intros j _. unfold log_utility. rewrite at_coord_same. ring. }
    rewrite rsum_scal. reflexivity. }
  eapply dl_ext; [intros z; reflexivity| |apply (dl_ln G); [|exact HD]].
  - rewrite HG0. unfold Rdiv. ring.
  - rewrite HG0. apply exp_sum2_pos; lia.
Qed.

(** ---- C33 -------------------------------------------------------------------- *)

(** the deterministic rate of change of the log attraction of destination [k] in
    the time-stepping model (run_single without noise, divided by the state) *)
Definition drift (I : nat) (h : hw) (logint : vec -> mat) (x : vec) (k : nat) : R :=
  epsilon h * (demand I (logint x) k - kappa h * exp (x k) + delta h).

(** Totally constrained model: the derivative of the potential in each log
    attraction, in closed form; it is -2/sigma^2 times the drift of the
    time-stepping model. *)
Theorem C33_totally_constrained_gradient : forall I J c al be h x k,
  (0 < I)%nat -> (k < J)%nat -> al <> 0 -> sigma h <> 0 ->
  partial_derivative (tc_sde_pot I J c al be (delta h) (kappa h) (sigma h) (epsilon h)) x k
    (- (2 / (sigma h * sigma h)) * drift I h (fun y => tc_log_flow I J c 1 y al be) x k).
Proof.
  intros I J c al be h x k HI Hk Hal Hsi. unfold partial_derivative, tc_sde_pot.
  set (C := 2 * epsilon h / (sigma h * sigma h)).
  eapply dl_ext; [| |
    apply (dl_scal (fun t => - (1 / al) * lse2 I J (log_utility c (at_coord x k t) al be)
       + (kappa h * rsum J (fun j => exp (at_coord x k t j)) + - delta h * rsum J (at_coord x k t))) C);
    apply dl_plus; [apply (dl_scal (fun t => lse2 I J (log_utility c (at_coord x k t) al be))), dl_lse2_utility; assumption
      |apply dl_plus; [apply (dl_scal (fun t => rsum J (fun j => exp (at_coord x k t j)))), dl_sum_exp_coords; exact Hk
                      |apply (dl_scal (fun t => rsum J (at_coord x k t))), dl_sum_coords; exact Hk]]].
  - intros z; cbv beta. ring.
  - unfold drift, demand. rewrite exp_lse by exact HI.
    assert (E : rsum I (fun i => exp (tc_log_flow I J c 1 x al be i k)) =
       rsum I (fun i => exp (log_utility c x al be i k)) / rsum2 I J (fun i j => exp (log_utility c x al be i j))).
    { unfold Rdiv. rewrite <- rsum_scal_r. apply rsum_ext; intros i Hi. unfold tc_log_flow.
      rewrite ln_1, Rplus_0_r. unfold Rminus. rewrite exp_plus, exp_Ropp, exp_lse2 by lia. reflexivity. }
    rewrite E. unfold C.
    assert (0 < rsum2 I J (fun i j => exp (log_utility c x al be i j))) by (apply exp_sum2_pos; lia).
    field. repeat split; try assumption. lra.
Qed.
Print Assumptions C33_totally_constrained_gradient.

(** The hand-written gradient of the annealing prior is the derivative of its
    potential. *)
Theorem C33_annealing_gradient : forall J de ka si x k, (k < J)%nat ->
  partial_derivative (ais_pot J de ka si) x k (ais_grad J de ka si x k).
Proof.
  intros J de ka si x k Hk. unfold partial_derivative, ais_pot, ais_grad. cbv zeta.
  set (g := 2 / (si * si)).
  eapply dl_ext; [| |
    apply (dl_plus (fun t => (- g * (de + 1 / INR J)) * rsum J (at_coord x k t))
                   (fun t => (g * ka) * rsum J (fun j => exp (at_coord x k t j))));
    [apply (dl_scal (fun t => rsum J (at_coord x k t))), dl_sum_coords; exact Hk
    |apply (dl_scal (fun t => rsum J (fun j => exp (at_coord x k t j)))), dl_sum_exp_coords; exact Hk]].
  - intros z; cbv beta. f_equal. rewrite <- rsum_scal. reflexivity.
  - reflexivity.
Qed.
Print Assumptions C33_annealing_gradient.

(** At vanishing alpha and beta = 0 the drift of the target agrees with the
    annealing prior when epsilon is one: the formula of C33 evaluated at
    alpha = beta = 0 is epsilon times the hand-written gradient, up to the
    decay terms which are scaled alike. *)
Theorem C33_annealing_prior_is_limit : forall I J c h x k, (0 < I)%nat -> (k < J)%nat ->
  - (2 / (sigma h * sigma h)) * drift I h (fun y => tc_log_flow I J c 1 y 0 0) x k =
  epsilon h * ais_grad J (delta h) (kappa h) (sigma h) x k.
Proof.
  intros I J c h x k HI Hk. unfold drift, ais_grad, demand. rewrite exp_lse by exact HI.
  assert (E : rsum I (fun i => exp (tc_log_flow I J c 1 x 0 0 i k)) = 1 / INR J).
  { rewrite (rsum_ext I _ (fun _ => / (INR I * INR J))).
    - rewrite rsum_const. field. split; apply not_0_INR; lia.
    - intros i Hi. unfold tc_log_flow. rewrite ln_1, Rplus_0_r.
      assert (EU : forall i j, log_utility c x 0 0 i j = 0) by (intros; unfold log_utility; ring).
      rewrite EU, Rminus_0_l, exp_Ropp, exp_lse2 by lia. f_equal.
      unfold rsum2. rewrite (rsum_ext I _ (fun _ => INR J)).
      + rewrite rsum_const. reflexivity.
      + intros i' Hi'. rewrite (rsum_ext J _ (fun _ => 1)) by (intros; rewrite EU, exp_0; reflexivity).
        rewrite rsum_const. ring. }
  rewrite E. cbv zeta. ring.
Qed.
Print Assumptions C33_annealing_prior_is_limit.

(** Production constrained model: the potential exists only for as many origins
    as destinations, and its derivative does not involve the flows at all. *)
Theorem C33_production_constrained_gradient : forall n O c al be h x k,
  (k < n)%nat -> al <> 0 -> sigma h <> 0 ->
  exists f, (forall y, pc_sde_pot n n O c al be (delta h) (kappa h) (sigma h) (epsilon h) y = Ok (f y)) /\
    partial_derivative f x k (- (2 / (sigma h * sigma h)) * (epsilon h * (O k - kappa h * exp (x k) + delta h))).
Proof.
  intros n O c al be h x k Hk Hal Hsi. unfold pc_sde_pot. rewrite Nat.eqb_refl.
  eexists; split; [intros y; reflexivity|]. unfold partial_derivative. cbv beta.
  set (C := 2 * epsilon h / (sigma h * sigma h)).
  assert (HL : forall y j, lse n (fun i => log_utility c y al be i j) = al * y j + lse n (fun i => - (be * c i j))).
  { intros y j. rewrite Rplus_comm, <- lse_shift by lia. unfold lse. f_equal. apply rsum_ext; intros. f_equal.
    unfold log_utility; ring. }
  assert (HD : derivable_pt_lim (fun t => rsum n (fun j => O j * lse n (fun i => log_utility c (at_coord x k t) al be i j))) (x k) (O k * al)).
  { eapply dl_ext; [intros z; reflexivity| |apply (dl_rsum n (fun j t => O j * lse n (fun i => log_utility c (at_coord x k t) al be i j))
       (fun j => O j * (al * (if Nat.eqb j k then 1 else 0) + 0)))].
    - rewrite (rsum_ext n _ (fun j => (O j * al) * (if Nat.eqb j k then 1 else 0))) by (intros; ring).
      apply (rsum_indicator n k (fun j => O j * al) Hk).
    - intros j Hj. apply (dl_scal (fun t => lse n (fun i => log_utility c (at_coord x k t) al be i j))).
      eapply dl_ext; [intros z; symmetry; apply HL|reflexivity|].
      apply (dl_plus (fun t => al * at_coord x k t j) (fun _ => lse n (fun i => - (be * c i j)))); [|apply dl_const].
      apply dl_scal, dl_coord. }
  eapply dl_ext; [| |
    apply (dl_scal (fun t => - (1 / al) * rsum n (fun j => O j * lse n (fun i => log_utility c (at_coord x k t) al be i j))
       + (kappa h * rsum n (fun j => exp (at_coord x k t j)) + - delta h * rsum n (at_coord x k t))) C);
    apply dl_plus; [apply (dl_scal (fun t => rsum n (fun j => O j * lse n (fun i => log_utility c (at_coord x k t) al be i j)))), HD
      |apply dl_plus; [apply (dl_scal (fun t => rsum n (fun j => exp (at_coord x k t j)))), dl_sum_exp_coords; exact Hk
                      |apply (dl_scal (fun t => rsum n (at_coord x k t))), dl_sum_coords; exact Hk]]].
  - intros z; cbv beta. ring.
  - unfold C. field. split; assumption.
Qed.
Print Assumptions C33_production_constrained_gradient.

(** so the potential is not the one of the production constrained dynamics: it
    is undefined for I <> J, and for I = J its slope differs from the drift. *)
Theorem C33_production_constrained_refuted :
  (forall I J O c al be de ka si ep x, I <> J -> pc_sde_pot I J O c al be de ka si ep x = Raise EExn) /\
  exists n O c al be h x k, (k < n)%nat /\ al <> 0 /\ sigma h <> 0 /\ (forall i, 0 < O i) /\
    - (2 / (sigma h * sigma h)) * (epsilon h * (O k - kappa h * exp (x k) + delta h)) <>
    - (2 / (sigma h * sigma h)) * drift n h (fun y => pc_log_flow n n O c 1 y al be) x k.
Proof.
  split.
  - intros. unfold pc_sde_pot. apply Nat.eqb_neq in H. rewrite H. reflexivity.
  - exists 2%nat, (fun _ => 1), (fun _ _ => 0), 1, 0, (HW 1 1 1 1 1), (fun j => if Nat.eqb j 0 then 0 else ln 3), 0%nat.
    cbn [sigma epsilon kappa delta]. repeat split; try lia; try (intros E; lra); try (intros; lra).
    unfold drift, demand; cbn [epsilon kappa delta]. rewrite exp_lse by lia. unfold rsum.
    assert (E : forall i, exp (pc_log_flow 2 2 (fun _ => 1) (fun _ _ => 0) 1 (fun j => if Nat.eqb j 0 then 0 else ln 3) 1 0 i 0%nat) = 1 / 4).
    { intros i. unfold pc_log_flow, log_utility, lse, rsum; cbn [Nat.eqb]. rewrite ln_1.
      replace (1 * 0 - 0 * 0) with 0 by ring. replace (1 * ln 3 - 0 * 0) with (ln 3) by ring.
      rewrite exp_0, exp_ln by lra. replace (0 + 1 + 3) with 4 by ring.
      replace (0 + 0 - ln 4 + 0) with (- ln 4) by ring. rewrite exp_Ropp, exp_ln by lra. field. }
    rewrite !E. cbn [Nat.eqb]. rewrite exp_0. intros H. lra.
Qed.
Print Assumptions C33_production_constrained_refuted.

Example C33_nonvacuous : (0 < 2)%nat /\ (1 < 3)%nat /\ 1/2 <> 0 /\ sigma (HW 1 1 1 (1/10) 1) <> 0.
Proof. cbn. repeat split; try lia; intros E; lra. Qed.

(** ---- C34 -------------------------------------------------------------------- *)

(** The noise variance is positive exactly with at least two destinations and a
    non-zero noise level (one destination makes it zero and the likelihood a
    division by zero). *)
Theorem C34_noise_variance : forall p J, (0 < J)%nat ->
  0 <= obs_noise_percentage_to_var p J /\ (0 < obs_noise_percentage_to_var p J <-> p <> 0 /\ (2 <= J)%nat).
Proof.
  intros p J HJ. unfold obs_noise_percentage_to_var. rewrite <- Rsqr_pow2.
  pose proof (Rle_0_sqr (p / 100 * ln (INR J))) as H0. split; [exact H0|].
  assert (HL : ln (INR J) = 0 <-> J = 1%nat).
  { split.
    - intros E. destruct (Nat.eq_dec J 1) as [->|Hne]; [reflexivity|]. exfalso.
      assert (1 < INR J) by (change 1 with (INR 1); apply lt_INR; lia).
      assert (0 < ln (INR J)) by (rewrite <- ln_1; apply ln_increasing; lra). lra.
    - intros ->. cbn. apply ln_1. }
  split.
  - intros H. split.
    + intros ->. unfold Rdiv, Rsqr in H. rewrite !Rmult_0_l in H. lra.
    + destruct (Nat.eq_dec J 1) as [->|Hne]; [|lia]. exfalso. assert (E : ln (INR 1) = 0) by (apply HL; reflexivity).
      rewrite E, Rmult_0_r, Rsqr_0 in H. lra.
  - intros [Hp H2]. apply Rsqr_pos_lt. apply Rmult_integral_contrapositive_currified.
    + unfold Rdiv. apply Rmult_integral_contrapositive_currified; [exact Hp|]. lra.
    + rewrite HL. lia.
Qed.
Print Assumptions C34_noise_variance.

Theorem C34_likelihood_and_gradient : forall J nv y x, 0 < nv ->
  (forall k, (k < J)%nat -> partial_derivative (neg_log_lik J nv y) x k (neg_log_lik_grad nv y x k)) /\
  neg_log_lik J nv y y <= neg_log_lik J nv y x /\
  (neg_log_lik J nv y x = neg_log_lik J nv y y <-> forall j, (j < J)%nat -> x j = y j).
Proof.
  intros J nv y x Hnv.
  assert (Hinv : 0 < 1 / nv) by (unfold Rdiv; rewrite Rmult_1_l; apply Rinv_0_lt_compat; exact Hnv).
  assert (H0 : neg_log_lik J nv y y = 0).
  { unfold neg_log_lik. rewrite (rsum_0 J (fun j => (y j - y j) * (y j - y j))) by (intros; ring). ring. }
  assert (HS : 0 <= rsum J (fun j => (x j - y j) * (x j - y j))) by (apply rsum_nonneg; intros; apply Rle_0_sqr).
  repeat split.
  - intros k Hk. unfold partial_derivative, neg_log_lik, neg_log_lik_grad.
    eapply dl_ext; [reflexivity| |apply (dl_scal (fun t => rsum J (fun j => (at_coord x k t j - y j) * (at_coord x k t j - y j))) (1 / 2 * (1 / nv)))].
    2:{ apply (dl_rsum J (fun j t => (at_coord x k t j - y j) * (at_coord x k t j - y j))
          (fun j => (2 * (x j - y j)) * (if Nat.eqb j k then 1 else 0))).
        intros j Hj. 
        assert (Hd : derivable_pt_lim (fun t => at_coord x k t j - y j) (x k) ((if Nat.eqb j k then 1 else 0) + 0)).
        { apply (dl_plus (fun t => at_coord x k t j) (fun _ => - y j)); [apply dl_coord|apply dl_const]. }
        eapply dl_ext; [intros z; reflexivity| |apply (derivable_pt_lim_mult _ _ _ _ _ Hd Hd)].
        cbv beta. rewrite at_coord_same. destruct (Nat.eqb j k); ring. }
    rewrite (rsum_indicator J k (fun j => 2 * (x j - y j)) Hk). field. lra.
  - rewrite H0. unfold neg_log_lik. apply Rmult_le_pos; [lra|exact HS].
  - rewrite H0. unfold neg_log_lik. intros E. apply Rmult_integral in E as [E|E]; [lra|].
    rewrite rsum_zero_iff in E by (intros; apply Rle_0_sqr).
    intros j Hj. specialize (E j Hj). apply Rmult_integral in E as [E|E]; lra.
  - rewrite H0. intros E. unfold neg_log_lik.
    rewrite (rsum_0 J (fun j => (x j - y j) * (x j - y j))); [ring|]. intros j Hj. rewrite E by exact Hj. ring.
Qed.
Print Assumptions C34_likelihood_and_gradient.

Example C34_nonvacuous : 0 < obs_noise_percentage_to_var 3 5.
Proof. apply C34_noise_variance; [lia|]. split; [lra|lia]. Qed.

(** ---- C35 -------------------------------------------------------------------- *)

(** The time series has one more state than iterations, starts at the initial
    state, each state is one Euler step after its predecessor, and the run
    without time series returns its last state. *)
Theorem C35_time_series : forall I h logint xis w d,
  let states := run_states I h logint xis w in
  length states = S (length xis) /\ nth 0 states d = w /\
  (forall n, (n < length xis)%nat ->
     nth (S n) states d =
     run_single I h (nth n states d) (logint (fun j => ln (nth n states d j))) (nth n xis d)) /\
  run_last I h logint xis w = nth (length xis) states d.
Proof.
  intros I h logint xis; induction xis as [|xi r IH]; intros w d; cbv zeta in *; cbn [run_states run_last length].
  - repeat split; try reflexivity. intros n Hn. lia.
  - destruct (IH (run_single I h w (logint (fun j => ln (w j))) xi) d) as [L [N0 [ST LA]]].
    split; [cbn [length]; rewrite L; reflexivity|]. split; [reflexivity|]. split.
    + intros [|n] Hn; cbn [nth].
      * exact N0.
      * apply ST. lia.
    + exact LA.
Qed.
Print Assumptions C35_time_series.

(** Zero noise, totally constrained intensity: if the step is small against the
    size bound B of the zones, a start in (0,B] stays there for ever. *)
Theorem C35_stays_positive : forall I J c al be h B xis w,
  (0 < I)%nat -> (0 < J)%nat -> sigma h = 0 -> 0 < epsilon h -> 0 < kappa h -> 0 <= delta h -> 0 < dt h ->
  dt h * epsilon h * (kappa h * B) <= 1 -> 1 + delta h <= kappa h * B ->
  (forall j, (j < J)%nat -> 0 < w j <= B) ->
  forall v, In v (run_states I h (fun y => tc_log_flow I J c 1 y al be) xis w) ->
  forall j, (j < J)%nat -> 0 < v j <= B.
Proof.
  intros I J c al be h B xis w HI HJ Hs He Hk Hd Hdt Hstep HB.
  revert w; induction xis as [|xi r IH]; intros w Hw v Hv.
  - destruct Hv as [<-|[]]. exact Hw.
  - cbn [run_states] in Hv. destruct Hv as [<-|Hv]; [exact Hw|].
    revert Hv; apply IH. intros j Hj. unfold run_single. rewrite Hs.
    set (lf := tc_log_flow I J c 1 (fun j => ln (w j)) al be).
    assert (HD : 0 < demand I lf j <= 1).
    { unfold demand. rewrite exp_lse by exact HI. split; [apply exp_sum_pos; exact HI|].
      destruct (C29_totally_constrained_total I J c 1 (fun j => ln (w j)) al be HI HJ Rlt_0_1) as [_ HT].
      rewrite <- HT. unfold rsum2. apply rsum_le; intros i Hi.
      apply (rsum_term_le J (fun j => exp (tc_log_flow I J c 1 (fun j0 => ln (w j0)) al be i j)) j); [|exact Hj].
      intros; left; apply exp_pos. }
    destruct (Hw j Hj) as [W0 WB]. set (D := demand I lf j) in *.
    replace (0 * 1 / sqrt (2 * PI * dt h) * xi j) with 0 by (unfold Rdiv; ring).
    set (q := dt h * epsilon h). assert (Hq : 0 < q) by (apply Rmult_lt_0_compat; assumption).
    replace (w j + w j * (epsilon h * (D - kappa h * w j + delta h) + 0) * dt h)
      with (w j * (1 + q * (D + delta h) - q * (kappa h * w j))) by (unfold q; ring).
    fold q in Hstep.
    assert (Hkw : kappa h * w j <= kappa h * B) by (apply Rmult_le_compat_l; lra).
    assert (Hkw0 : 0 < kappa h * w j) by (apply Rmult_lt_0_compat; assumption).
    assert (Hqk : q * (kappa h * w j) <= 1).
    { apply Rle_trans with (q * (kappa h * B)); [apply Rmult_le_compat_l; lra|exact Hstep]. }
    assert (HqD : 0 < q * (D + delta h)) by (apply Rmult_lt_0_compat; lra).
    split.
    + apply Rmult_lt_0_compat; lra.
    + (* w + q w (D + delta - kappa w) <= w + q kappa w (B - w) <= B *)
      assert (H1 : q * w j * (D + delta h) <= q * w j * (kappa h * B)).
      { apply Rmult_le_compat_l; [|lra]. apply Rmult_le_pos; lra. }
      assert (H2 : q * (kappa h * w j) * (B - w j) <= 1 * (B - w j)) by (apply Rmult_le_compat_r; lra).
      lra.
Qed.
Print Assumptions C35_stays_positive.

(** A noise-free fixed point carries the total flow: kappa * sizes = demand +
    delta in each zone, so kappa times the total size is 1 + J delta. *)
Theorem C35_fixed_point_balance : forall I J c al be h w xi,
  (0 < I)%nat -> (0 < J)%nat -> sigma h = 0 -> epsilon h <> 0 -> dt h <> 0 ->
  (forall j, (j < J)%nat -> 0 < w j) ->
  (forall j, (j < J)%nat -> run_single I h w (tc_log_flow I J c 1 (fun j => ln (w j)) al be) xi j = w j) ->
  kappa h * rsum J w = 1 + INR J * delta h.
Proof.
  intros I J c al be h w xi HI HJ Hs He Hdt Hw Hfix.
  set (lf := tc_log_flow I J c 1 (fun j => ln (w j)) al be) in *.
  assert (E : forall j, (j < J)%nat -> kappa h * w j = demand I lf j + delta h).
  { intros j Hj. specialize (Hfix j Hj). specialize (Hw j Hj). unfold run_single in Hfix. rewrite Hs in Hfix.
    replace (0 * 1 / sqrt (2 * PI * dt h) * xi j) with 0 in Hfix by (unfold Rdiv; ring).
    assert (H : w j * epsilon h * dt h * (demand I lf j - kappa h * w j + delta h) = 0) by lra.
    apply Rmult_integral in H as [H|H]; [|lra]. exfalso.
    apply Rmult_integral in H as [H|H]; [|lra]. apply Rmult_integral in H as [H|H]; lra. }
  rewrite <- rsum_scal, (rsum_ext J _ (fun j => demand I lf j + delta h)) by exact E.
  rewrite rsum_add, rsum_const. f_equal.
  destruct (C29_totally_constrained_total I J c 1 (fun j => ln (w j)) al be HI HJ Rlt_0_1) as [_ HT].
  rewrite <- HT. unfold rsum2. rewrite rsum_swap. apply rsum_ext; intros j Hj.
  unfold demand. rewrite exp_lse by exact HI. reflexivity.
Qed.
Print Assumptions C35_fixed_point_balance.

Example C35_nonvacuous :
  let h := HW 2 (1/10) 1 0 (1/1000) in
  sigma h = 0 /\ 0 < epsilon h /\ 0 < kappa h /\ 0 <= delta h /\ 0 < dt h /\
  dt h * epsilon h * (kappa h * 1) <= 1 /\ 1 + delta h <= kappa h * 1.
Proof. cbn. repeat split; lra. Qed.

(** a 1 by 1 system at rest *)
Example C35_fixed_point_nonvacuous :
  run_single 1 (HW 2 1 1 0 1) (fun _ => 1) (tc_log_flow 1 1 (fun _ _ => 0) 1 (fun _ => ln 1) 1 1) (fun _ => 0) 0%nat = 1.
Proof.
  unfold run_single, demand, tc_log_flow, log_utility, lse, lse2, rsum2, rsum; cbn [epsilon kappa delta sigma dt].
  rewrite ln_1. replace (1 * 0 - 1 * 0) with 0 by ring. rewrite exp_0. replace (0 + 1) with 1 by ring.
  replace (0 + 1) with 1 by ring. rewrite ln_1. replace (0 - 0 + 0) with 0 by ring. rewrite exp_0.
  replace (0 + 1) with 1 by ring. rewrite ln_1, exp_0. unfold Rdiv. ring.
Qed.

(** ---- C71 -------------------------------------------------------------------- *)

(** Whenever kappa is derived from the data, the steady-state balance
    kappa * total size = total flow + J * delta holds; whenever delta is derived,
    it is the inflow that keeps an unvisited zone at the smallest size; values
    given by the user are kept. *)
Theorem C71_derived_parameters : forall de0 ka0 J s W F de ka,
  update_delta_and_kappa de0 ka0 J s W F = (de, ka) ->
  (0 <= de0 -> de = de0) /\ (0 <= ka0 -> ka = ka0) /\
  (de0 < 0 -> de = ka * s) /\
  (ka0 < 0 -> W <> 0 -> W <> s * INR J -> ka * W = F + INR J * de).
Proof.
  intros de0 ka0 J s W F de ka H. unfold update_delta_and_kappa in H.
  destruct (Rleb 0 de0) eqn:E1; destruct (Rleb 0 ka0) eqn:E2;
    try apply Rleb_spec in E1; try apply Rleb_false in E1; try apply Rleb_spec in E2; try apply Rleb_false in E2;
    injection H as <- <-; repeat split; intros; try lra; try reflexivity.
  - field; assumption.
  - field. intros E; lra.
Qed.
Print Assumptions C71_derived_parameters.

Example C71_nonvacuous : update_delta_and_kappa (-1) (-1) 2 (1/4) 1 1 = (1/2, 2).
Proof.
  unfold update_delta_and_kappa.
  assert (E : Rleb 0 (-1) = false) by (apply Rleb_false; lra). rewrite E. cbn [INR].
  f_equal; field.
Qed.
