(** C190: the Laplace estimate of the normalising constant. *)
From Coq Require Import List ZArith Lia Bool Arith Reals Lra.
From Verif Require Import Base RealBase ProbUtils SIM SIMProps HMC HMCProps DetR Laplace.
Import ListNotations.
Open Scope R_scope.

(** ---- specification ----------------------------------------------------------- *)

(** [H] is the matrix of second partial derivatives of [V] at [m]: [g k] is the
    partial derivative of [V] in coordinate [k] everywhere, and [H j k] that of
    [g j] in coordinate [k] at [m] *)
Definition is_hessian (V : vec -> R) (J : nat) (m : vec) (H : mat) : Prop :=
  exists g : nat -> vec -> R,
    (forall y k, (k < J)%nat -> partial_derivative V y k (g k y)) /\
    (forall j k, (j < J)%nat -> (k < J)%nat -> partial_derivative (g j) m k (H j k)).

(** all partial derivatives of [V] vanish at [m] *)
Definition stationary (V : vec -> R) (J : nat) (m : vec) : Prop :=
  forall k, (k < J)%nat -> partial_derivative V m k 0.

(** v^T A v *)
Definition quad (n : nat) (A : mat) (v : vec) : R := rsum n (fun i => rsum n (fun j => v i * A i j * v j)).
Definition positive_definite (n : nat) (A : mat) : Prop :=
  forall v, (exists i, (i < n)%nat /\ v i <> 0) -> 0 < quad n A v.
Definition symmetric (n : nat) (A : mat) : Prop := forall i j, (i < n)%nat -> (j < n)%nat -> A i j = A j i.

(** ---- Cholesky -------------------------------------------------------------------- *)

Lemma schur_sym : forall n A, symmetric (S n) A -> symmetric n (schur A).
Proof. intros n A H i j Hi Hj. unfold schur. rewrite (H (S i) (S j)) by lia. unfold Rdiv. ring. Qed.

Lemma quad_step : forall n A v, symmetric (S n) A -> A 0%nat 0%nat <> 0 ->
  quad (S n) A v =
  A 0%nat 0%nat * ((v 0%nat + rsum n (fun i => A (S i) 0%nat * v (S i)) / A 0%nat 0%nat) *
                   (v 0%nat + rsum n (fun i => A (S i) 0%nat * v (S i)) / A 0%nat 0%nat))
  + quad n (schur A) (fun i => v (S i)).
Proof.
  intros n A v Hs Ha. set (a := A 0%nat 0%nat) in *. set (s := rsum n (fun i => A (S i) 0%nat * v (S i))).
  unfold quad. rewrite rsum_shift. rewrite rsum_shift.
  assert (E1 : rsum n (fun k => v 0%nat * A 0%nat (S k) * v (S k)) = v 0%nat * s).
  { unfold s. rewrite <- rsum_scal. apply rsum_ext; intros k Hk. rewrite (Hs 0%nat (S k)) by lia. ring. }
  assert (E2 : rsum n (fun k => rsum (S n) (fun j => v (S k) * A (S k) j * v j)) =
     v 0%nat * s + rsum n (fun i => rsum n (fun j => v (S i) * A (S i) (S j) * v (S j)))).
  { rewrite (rsum_ext n _ (fun k => A (S k) 0%nat * v (S k) * v 0%nat + rsum n (fun j => v (S k) * A (S k) (S j) * v (S j)))).
    - rewrite rsum_add, rsum_scal_r. fold s. ring.
    - intros k Hk. rewrite rsum_shift. ring. }
  assert (E3 : rsum n (fun i => rsum n (fun j => v (S i) * schur A i j * v (S j))) =
     rsum n (fun i => rsum n (fun j => v (S i) * A (S i) (S j) * v (S j))) - s * s / a).
  { replace (s * s / a) with (rsum n (fun i => (A (S i) 0%nat * v (S i)) * (s / a))).
    2:{ rewrite rsum_scal_r. fold s. field. exact Ha. }
    rewrite <- rsum_sub. apply rsum_ext; intros i Hi.
    replace (A (S i) 0%nat * v (S i) * (s / a)) with (rsum n (fun j => (A (S i) 0%nat * v (S i) / a) * (A (S j) 0%nat * v (S j)))).
    2:{ rewrite rsum_scal. fold s. field. exact Ha. }
    rewrite <- rsum_sub. apply rsum_ext; intros j Hj. unfold schur. fold a. field. exact Ha. }
  rewrite E1, E2, E3. fold a. field. exact Ha.
Qed.

Lemma quad_ext : forall n A v w, (forall i, (i < n)%nat -> v i = w i) -> quad n A v = quad n A w.
Proof.
  intros n A v w H. unfold quad. apply rsum_ext; intros i Hi. apply rsum_ext; intros j Hj.
  rewrite (H i Hi), (H j Hj). reflexivity.
Qed.

Lemma quad_zero : forall n A v, (forall i, (i < n)%nat -> v i = 0) -> quad n A v = 0.
Proof.
  intros n A v H. unfold quad. apply rsum_0; intros i Hi. apply rsum_0; intros j Hj. rewrite (H i Hi). ring.
Qed.

Lemma zero_or_not : forall n (v : vec), (forall i, (i < n)%nat -> v i = 0) \/ (exists i, (i < n)%nat /\ v i <> 0).
Proof.
  induction n; intros v; [left; intros; lia|].
  destruct (IHn v) as [H|[i [Hi Hv]]].
  - destruct (Req_dec (v n) 0) as [E|E].
    + left. intros i Hi. destruct (Nat.eq_dec i n) as [->|]; [exact E|apply H; lia].
    + right. exists n. split; [lia|exact E].
  - right. exists i. split; [lia|exact Hv].
Qed.

Lemma pd_step : forall n A, symmetric (S n) A ->
  (positive_definite (S n) A <-> 0 < A 0%nat 0%nat /\ positive_definite n (schur A)).
Proof.
  intros n A Hs. split.
  - intros HP.
    assert (Ha : 0 < A 0%nat 0%nat).
    { specialize (HP (fun i => if Nat.eqb i 0 then 1 else 0)). 
      replace (quad (S n) A (fun i => if Nat.eqb i 0 then 1 else 0)) with (A 0%nat 0%nat) in HP.
      - apply HP. exists 0%nat. split; [lia|cbn [Nat.eqb]; lra].
      - unfold quad. rewrite rsum_shift, rsum_shift. cbn [Nat.eqb].
        rewrite (rsum_0 n (fun k => 1 * A 0%nat (S k) * 0)) by (intros; ring).
        rewrite rsum_0; [ring|]. intros k Hk. apply rsum_0. intros; ring. }
    split; [exact Ha|]. intros v [i [Hi Hv]].
    set (w := fun k => match k with O => - (rsum n (fun i => A (S i) 0%nat * v i) / A 0%nat 0%nat) | S k' => v k' end).
    specialize (HP w). rewrite (quad_step n A w Hs) in HP by lra. cbn [w] in HP.
    match type of HP with _ -> 0 < _ * (?z * _) + _ => replace z with 0 in HP by (unfold w; ring) end.
    assert (K : 0 < A 0%nat 0%nat * (0 * 0) + quad n (schur A) (fun i => w (S i))) by (apply HP; exists (S i); split; [lia|exact Hv]).
    change (fun i => w (S i)) with v in K. lra.
  - intros [Ha HP] v [i [Hi Hv]]. rewrite (quad_step n A v Hs) by lra.
    set (z := v 0%nat + _ / _).
    destruct (zero_or_not n (fun i => v (S i))) as [Z|Z].
    + rewrite (quad_zero n (schur A) _ Z). 
      assert (Ez : z = v 0%nat).
      { unfold z. rewrite rsum_0; [unfold Rdiv; ring|]. intros k Hk. rewrite (Z k Hk). ring. }
      assert (V0 : v 0%nat <> 0).
      { destruct i as [|i]; [exact Hv|]. exfalso. apply Hv. apply Z. lia. }
      rewrite Ez. assert (0 < v 0%nat * v 0%nat) by (destruct (Rtotal_order (v 0%nat) 0) as [L|[L|L]]; [nra|contradiction|nra]).
      nra.
    + pose proof (HP _ Z) as Q. pose proof (Rle_0_sqr z) as S2. unfold Rsqr in S2. nra.
Qed.

Lemma cholesky_iff : forall n A, symmetric n A -> ((exists L, cholesky n A = Some L) <-> positive_definite n A).
Proof.
  induction n; intros A Hs.
  - split; [intros _ v [i [Hi _]]; lia|intros _; eexists; reflexivity].
  - rewrite (pd_step n A Hs), <- (IHn (schur A) (schur_sym n A Hs)). cbn [cholesky]. split.
    + intros [L E]. destruct (Rltb 0 (A 0%nat 0%nat)) eqn:B; [|discriminate]. apply Rltb_spec in B.
      split; [exact B|]. destruct (cholesky n (schur A)) as [L'|]; [eexists; reflexivity|discriminate].
    + intros [Ha [L' E]]. apply Rltb_spec in Ha. rewrite Ha, E. eexists; reflexivity.
Qed.

Lemma cholesky_lower : forall n A L, cholesky n A = Some L ->
  (forall i j, (i < j)%nat -> L i j = 0) /\ (forall i, 0 < L i i).
Proof.
  induction n; intros A L E; cbn [cholesky] in E.
  - injection E as <-. split.
    + intros i j H. apply Nat.lt_neq, Nat.eqb_neq in H. rewrite H. reflexivity.
    + intros i. rewrite Nat.eqb_refl. lra.
  - destruct (Rltb 0 (A 0%nat 0%nat)) eqn:B; [|discriminate]. apply Rltb_spec in B.
    destruct (cholesky n (schur A)) as [L'|] eqn:C; [|discriminate]. injection E as <-.
    destruct (IHn _ _ C) as [H1 H2]. split.
    + intros [|i] [|j] H; cbn [glue]; try lia; [reflexivity|apply H1; lia].
    + intros [|i]; cbn [glue]; [apply sqrt_lt_R0; exact B|apply H2].
Qed.

Lemma cholesky_factor : forall n A L, symmetric n A -> cholesky n A = Some L ->
  forall i j, (i < n)%nat -> (j < n)%nat -> A i j = rsum n (fun k => L i k * L j k).
Proof.
  induction n; intros A L Hs E i j Hi Hj; [lia|]. cbn [cholesky] in E.
  destruct (Rltb 0 (A 0%nat 0%nat)) eqn:B; [|discriminate]. apply Rltb_spec in B.
  destruct (cholesky n (schur A)) as [L'|] eqn:C; [|discriminate]. injection E as <-.
  pose proof (sqrt_lt_R0 _ B) as Q. pose proof (sqrt_sqrt _ (Rlt_le _ _ B)) as QQ.
  rewrite rsum_shift. destruct i as [|i], j as [|j]; cbn [glue].
  - rewrite QQ. rewrite rsum_0 by (intros; ring). ring.
  - rewrite rsum_0 by (intros; ring). rewrite (Hs 0%nat (S j)) by lia. field. lra.
  - rewrite rsum_0 by (intros; ring). field. lra.
  - rewrite <- (IHn _ _ (schur_sym n A Hs) C i j) by lia. unfold schur.
    replace (A (S i) 0%nat / sqrt (A 0%nat 0%nat) * (A (S j) 0%nat / sqrt (A 0%nat 0%nat)))
      with (A (S i) 0%nat * A (S j) 0%nat / (sqrt (A 0%nat 0%nat) * sqrt (A 0%nat 0%nat))) by (field; lra).
    rewrite QQ. ring.
Qed.

(** ---- the value ------------------------------------------------------------------- *)

Lemma laplace_value : forall J V hess xs z s, (0 < J)%nat -> (forall i, symmetric J (hess (xs i))) ->
  laplace J V hess xs = Ok (z, s) ->
  s = 1 /\ exists a, (a < J)%nat /\ (forall i, (i < J)%nat -> V (xs a) <= V (xs i)) /\
    (forall i, (i < a)%nat -> V (xs a) < V (xs i)) /\
    positive_definite J (hess (xs a)) /\ 0 < detR J (hess (xs a)) /\
    exp z = exp (V (xs a)) * sqrt (detR J (hess (xs a))).
Proof.
  intros J V hess xs z s HJ Hs E. unfold laplace in E.
  destruct (cholesky J (hess (xs (np_argmin J (fun i => V (xs i)))))) as [L|] eqn:C; [|discriminate].
  injection E as <- <-. split; [reflexivity|].
  destruct (C73_laplace_at_lowest_candidate J V (fun _ => 0) xs HJ) as (a & Ha & _ & H1 & H2).
  exists (np_argmin J (fun i => V (xs i))).
  pose proof (argmin_from_spec (fun i => V (xs i)) (J - 1) 0 1 ltac:(lia)) as K. cbv zeta in K.
  destruct K as (K1 & K2 & K3); [intros i Hi; replace i with 0%nat by lia; lra|intros i Hi; lia|].
  unfold np_argmin in *. replace (1 + (J - 1))%nat with J in * by lia.
  split; [exact K1|split; [exact K2|split; [exact K3|]]].
  split; [apply (cholesky_iff J); [apply Hs|eexists; exact C]|].
  destruct (cholesky_lower _ _ _ C) as [L1 L2].
  destruct (@det_cholesky J _ L L1 L2 (cholesky_factor _ _ _ (Hs _) C)) as [D1 D2].
  split; [exact D1|]. rewrite exp_plus. unfold half_log_det. rewrite D2. reflexivity.
Qed.

Lemma laplace_raises : forall J V hess xs, (forall i, symmetric J (hess (xs i))) ->
  ((exists r, laplace J V hess xs = Ok r) <-> positive_definite J (hess (xs (np_argmin J (fun i => V (xs i)))))).
Proof.
  intros J V hess xs Hs. rewrite <- (cholesky_iff J _ (Hs _)). unfold laplace. split.
  - intros [r E]. destruct (cholesky J _) as [L|]; [eexists; reflexivity|discriminate].
  - intros [L E]. rewrite E. eexists; reflexivity.
Qed.

(** ---- second derivatives ---------------------------------------------------------- *)

(** the proportion of the flow that each destination receives *)
Definition shares (I J : nat) (c : mat) (al be : R) (x : vec) : vec := demand I (tc_log_flow I J c 1 x al be).

Lemma shares_sum : forall I J c al be x k, (0 < I)%nat ->
  shares I J c al be x k = rsum I (fun i => exp (log_utility c x al be i k - lse2 I J (log_utility c x al be))).
Proof.
  intros I J c al be x k HI. unfold shares, demand. rewrite exp_lse by exact HI. apply rsum_ext; intros i Hi.
  unfold tc_log_flow. rewrite ln_1. f_equal. ring.
Qed.

Lemma shares_pos : forall I J c al be x k, 0 < shares I J c al be x k.
Proof. intros. unfold shares, demand. apply exp_pos. Qed.

Lemma shares_ratio : forall I J c al be x k, (0 < I)%nat -> (k < J)%nat ->
  shares I J c al be x k = rsum I (fun i => exp (log_utility c x al be i k)) / rsum2 I J (fun i j => exp (log_utility c x al be i j)).
Proof.
  intros I J c al be x k HI Hk. rewrite shares_sum by exact HI. unfold Rdiv. rewrite <- rsum_scal_r.
  apply rsum_ext; intros i Hi. unfold Rminus. rewrite exp_plus, exp_Ropp, exp_lse2 by lia. reflexivity.
Qed.

Lemma shares_total : forall I J c al be x, (0 < I)%nat -> (0 < J)%nat -> rsum J (shares I J c al be x) = 1.
Proof.
  intros I J c al be x HI HJ.
  rewrite (rsum_ext J _ (fun k => rsum I (fun i => exp (log_utility c x al be i k)) * / rsum2 I J (fun i j => exp (log_utility c x al be i j)))).
  2:{ intros k Hk. rewrite shares_ratio by assumption. reflexivity. }
  rewrite rsum_scal_r. unfold rsum2. rewrite rsum_swap. apply Rinv_r.
  apply Rgt_not_eq. rewrite rsum_swap. apply exp_sum2_pos; lia.
Qed.

Lemma shares_derivative : forall I J c al be x j k, (0 < I)%nat -> (j < J)%nat -> (k < J)%nat ->
  partial_derivative (fun y => shares I J c al be y j) x k
    (al * ((if Nat.eqb j k then shares I J c al be x j else 0) - shares I J c al be x j * shares I J c al be x k)).
Proof.
  intros I J c al be x j k HI Hj Hk. unfold partial_derivative.
  assert (DL : derivable_pt_lim (fun t => lse2 I J (log_utility c (at_coord x k t) al be)) (x k) (al * shares I J c al be x k)).
  { eapply dl_ext; [intros z; reflexivity| |apply (dl_lse2_utility I J c x al be k HI Hk)].
    rewrite (shares_ratio I J c al be x k HI Hk). unfold Rdiv. ring. }
  eapply dl_ext; [intros z; symmetry; apply (shares_sum I J c al be (at_coord x k z) j HI)| |].
  2:{ apply (dl_rsum I (fun i t => exp (log_utility c (at_coord x k t) al be i j - lse2 I J (log_utility c (at_coord x k t) al be)))
        (fun i => exp (log_utility c (at_coord x k (x k)) al be i j - lse2 I J (log_utility c (at_coord x k (x k)) al be)) *
           ((al * (if Nat.eqb j k then 1 else 0) + 0) + (-1) * (al * shares I J c al be x k)))).
      intros i Hi. apply (dl_exp (fun t => log_utility c (at_coord x k t) al be i j - lse2 I J (log_utility c (at_coord x k t) al be)) (x k)).
      eapply dl_ext; [|reflexivity|apply (dl_plus (fun t => al * at_coord x k t j + - (be * c i j))
        (fun t => (-1) * lse2 I J (log_utility c (at_coord x k t) al be)))].
      - intros z; cbv beta. unfold log_utility. ring.
      - apply (dl_plus (fun t => al * at_coord x k t j) (fun _ => - (be * c i j))); [|apply dl_const].
        apply dl_scal, dl_coord.
      - apply dl_scal. exact DL. }
  rewrite (rsum_ext I _ (fun i => exp (log_utility c x al be i j - lse2 I J (log_utility c x al be)) *
           (al * (if Nat.eqb j k then 1 else 0) + - al * shares I J c al be x k))).
  - rewrite rsum_scal_r, <- shares_sum by exact HI. destruct (Nat.eqb j k); ring.
  - intros i Hi. 
    assert (E : forall i' j', log_utility c (at_coord x k (x k)) al be i' j' = log_utility c x al be i' j').
    { intros i' j'. unfold log_utility. rewrite at_coord_same. reflexivity. }
    assert (E2 : lse2 I J (log_utility c (at_coord x k (x k)) al be) = lse2 I J (log_utility c x al be)).
    { unfold lse2. f_equal. apply rsum2_ext; intros. rewrite E. reflexivity. }
    rewrite E, E2. ring.
Qed.

Lemma dl_exp_coord : forall x j k, partial_derivative (fun y => exp (y j)) x k (if Nat.eqb j k then exp (x j) else 0).
Proof.
  intros x j k. unfold partial_derivative.
  eapply dl_ext; [intros z; reflexivity| |apply (dl_exp (fun t => at_coord x k t j) (x k) _ (dl_coord x k j (x k)))].
  rewrite at_coord_same. destruct (Nat.eqb j k); ring.
Qed.

Lemma tc_hessian_sym : forall I J c al be h x n, symmetric n (tc_hessian I J c al be h x).
Proof.
  intros I J c al be h x n i j _ _. unfold tc_hessian. rewrite (Nat.eqb_sym j i).
  destruct (Nat.eqb_spec i j) as [->|]; [reflexivity|]. f_equal. f_equal. ring.
Qed.

(** The matrix the code factorises is the matrix of second derivatives of the
    potential. *)
Theorem C190_hessian : forall I J c al be h x, (0 < I)%nat -> al <> 0 -> sigma h <> 0 ->
  is_hessian (tc_sde_pot I J c al be (delta h) (kappa h) (sigma h) (epsilon h)) J x (tc_hessian I J c al be h x).
Proof.
  intros I J c al be h x HI Hal Hsi.
  exists (fun k y => - (2 / (sigma h * sigma h)) * drift I h (fun y => tc_log_flow I J c 1 y al be) y k). split.
  - intros y k Hk. apply C33_totally_constrained_gradient; assumption.
  - intros j k Hj Hk. unfold partial_derivative, drift. set (C := 2 * epsilon h / (sigma h * sigma h)).
    eapply dl_ext; [| |apply (dl_plus (fun t => C * kappa h * exp (at_coord x k t j))
        (fun t => (- C) * shares I J c al be (at_coord x k t) j + - (C * delta h)));
      [apply (dl_scal (fun t => exp (at_coord x k t j))), (dl_exp_coord x j k)
      |apply (dl_plus (fun t => (- C) * shares I J c al be (at_coord x k t) j) (fun _ => - (C * delta h)));
        [apply (dl_scal (fun t => shares I J c al be (at_coord x k t) j)), (shares_derivative I J c al be x j k HI Hj Hk)|apply dl_const]]].
    + intros z; cbv beta. unfold shares, C. field. exact Hsi.
    + unfold tc_hessian. cbv zeta. fold (shares I J c al be x). fold C. destruct (Nat.eqb_spec j k) as [->|]; ring.
Qed.
Print Assumptions C190_hessian.

(** The estimate: the candidate of lowest potential (the first of them), the
    potential there, and the square root of the determinant of the matrix of
    second derivatives there. *)
Theorem C190_laplace_estimate : forall I J c al be h xs z s, (0 < I)%nat -> (0 < J)%nat -> al <> 0 -> sigma h <> 0 ->
  let V := tc_sde_pot I J c al be (delta h) (kappa h) (sigma h) (epsilon h) in
  laplace J V (tc_hessian I J c al be h) xs = Ok (z, s) ->
  s = 1 /\ exists a H, (a < J)%nat /\ (forall i, (i < J)%nat -> V (xs a) <= V (xs i)) /\
    is_hessian V J (xs a) H /\ positive_definite J H /\ 0 < detR J H /\
    exp z = exp (V (xs a)) * sqrt (detR J H).
Proof.
  intros I J c al be h xs z s HI HJ Hal Hsi V E.
  destruct (laplace_value J V _ xs z s HJ (fun i => tc_hessian_sym _ _ _ _ _ _ _ _) E) as (Es & a & Ha & L1 & _ & P & D & Z).
  split; [exact Es|]. exists a, (tc_hessian I J c al be h (xs a)). split; [exact Ha|split; [exact L1|]].
  split; [apply C190_hessian; assumption|]. split; [exact P|split; [exact D|exact Z]].
Qed.
Print Assumptions C190_laplace_estimate.

(** second partial derivatives are unique, so the specification determines the
    estimate *)
Theorem C190_hessian_unique : forall V J m H K, is_hessian V J m H -> is_hessian V J m K ->
  forall j k, (j < J)%nat -> (k < J)%nat -> H j k = K j k.
Proof.
  intros V J m H K [g [G1 G2]] [g' [G3 G4]] j k Hj Hk.
  pose proof (G2 j k Hj Hk) as A. pose proof (G4 j k Hj Hk) as B. unfold partial_derivative in A, B.
  assert (E : forall t, g' j (at_coord m k t) = g j (at_coord m k t)).
  { intros t. exact (derivative_unique _ _ _ _ _ (G3 _ j Hj) (G1 _ j Hj)). }
  apply (dl_ext _ (fun t => g j (at_coord m k t)) _ _ _ E eq_refl) in B.
  exact (uniqueness_limite _ _ _ _ A B).
Qed.
Print Assumptions C190_hessian_unique.

(** ---- when it exists ---------------------------------------------------------------- *)

Lemma quad_tc : forall I J c al be h x v,
  quad J (tc_hessian I J c al be h x) v = (2 * epsilon h / (sigma h * sigma h)) *
    (rsum J (fun i => (kappa h * exp (x i) - al * shares I J c al be x i) * (v i * v i))
     + al * (rsum J (fun i => shares I J c al be x i * v i) * rsum J (fun i => shares I J c al be x i * v i))).
Proof.
  intros I J c al be h x v. unfold quad, tc_hessian. cbv zeta. fold (shares I J c al be x).
  set (C := 2 * epsilon h / (sigma h * sigma h)). set (d := shares I J c al be x).
  set (s := rsum J (fun i => d i * v i)).
  rewrite (rsum_ext J _ (fun i => C * ((kappa h * exp (x i) - al * d i) * (v i * v i)) + (C * al * s) * (d i * v i))).
  - rewrite rsum_add, rsum_scal, rsum_scal. fold s. ring.
  - intros i Hi.
    rewrite (rsum_ext J _ (fun j => (C * (v i * (kappa h * exp (x i) - al * d i)) * v j) * (if Nat.eqb j i then 1 else 0)
        + (C * al * v i * d i) * (d j * v j))).
    + rewrite rsum_add, rsum_scal. fold s.
      rewrite (rsum_indicator J i (fun j => C * (v i * (kappa h * exp (x i) - al * d i)) * v j) Hi). ring.
    + intros j Hj. rewrite (Nat.eqb_sym j i). destruct (Nat.eqb i j); ring.
Qed.

(** at a stationary point the zone sizes balance the flows *)
Lemma stationary_balance : forall I J c al be h x, (0 < I)%nat -> al <> 0 -> sigma h <> 0 -> epsilon h <> 0 ->
  (stationary (tc_sde_pot I J c al be (delta h) (kappa h) (sigma h) (epsilon h)) J x <->
   forall k, (k < J)%nat -> kappa h * exp (x k) = shares I J c al be x k + delta h).
Proof.
  intros I J c al be h x HI Hal Hsi Hep. split.
  - intros S k Hk. pose proof (C33_totally_constrained_gradient I J c al be h x k HI Hk Hal Hsi) as D.
    pose proof (derivative_unique _ _ _ _ _ D (S k Hk)) as E. unfold drift in E. fold (shares I J c al be x) in E.
    assert (G : - (2 / (sigma h * sigma h)) * epsilon h <> 0).
    { intros Z. apply Rmult_integral in Z as [Z|Z]; [|contradiction].
      assert (2 / (sigma h * sigma h) <> 0); [|lra]. apply Rmult_integral_contrapositive; split; [lra|].
      apply Rinv_neq_0_compat. apply Rmult_integral_contrapositive; split; assumption. }
    rewrite <- Rmult_assoc in E. apply Rmult_integral in E as [E|E]; [contradiction|]. lra.
  - intros B k Hk. pose proof (C33_totally_constrained_gradient I J c al be h x k HI Hk Hal Hsi) as D.
    unfold drift in D. fold (shares I J c al be x) in D. rewrite (B k Hk) in D.
    replace (shares I J c al be x k - (shares I J c al be x k + delta h) + delta h) with 0 in D by ring.
    rewrite !Rmult_0_r in D. exact D.
Qed.

Lemma square_pos : forall a, a <> 0 -> 0 < a * a.
Proof. intros a H. exact (Rsqr_pos_lt a H). Qed.

(** At a stationary point the estimate exists as long as alpha is below
    1 + delta ... *)
Theorem C190_defined_partial : forall I J c al be h xs, (0 < I)%nat -> (0 < J)%nat ->
  0 < al -> al < 1 + delta h -> 0 <= delta h -> 0 < epsilon h -> sigma h <> 0 ->
  let V := tc_sde_pot I J c al be (delta h) (kappa h) (sigma h) (epsilon h) in
  (forall i, (i < J)%nat -> stationary V J (xs i)) ->
  exists z, laplace J V (tc_hessian I J c al be h) xs = Ok (z, 1).
Proof.
  intros I J c al be h xs HI HJ Hal Hd Hd0 Hep Hsi V S.
  destruct (C73_laplace_at_lowest_candidate J V (fun _ => 0) xs HJ) as (a' & Ha' & _).
  pose proof (argmin_from_spec (fun i => V (xs i)) (J - 1) 0 1 ltac:(lia)) as K. cbv zeta in K.
  destruct K as (K1 & _); [intros i Hi; replace i with 0%nat by lia; lra|intros i Hi; lia|].
  replace (1 + (J - 1))%nat with J in K1 by lia. fold (np_argmin J (fun i => V (xs i))) in K1.
  set (a := np_argmin J (fun i => V (xs i))) in *.
  assert (P : positive_definite J (tc_hessian I J c al be h (xs a))).
  { pose proof (proj1 (stationary_balance I J c al be h (xs a) HI ltac:(lra) Hsi ltac:(lra)) (S a K1)) as B.
    assert (C0 : 0 < 2 * epsilon h / (sigma h * sigma h)).
    { apply Rdiv_lt_0_compat; [lra|apply square_pos; exact Hsi]. }
    intros v [i [Hi Hv]]. rewrite quad_tc. apply Rmult_lt_0_compat; [exact C0|].
    set (s := rsum J (fun i => shares I J c al be (xs a) i * v i)).
    assert (G : forall k, (k < J)%nat -> 0 < kappa h * exp (xs a k) - al * shares I J c al be (xs a) k).
    { intros k Hk. rewrite (B k Hk). pose proof (shares_pos I J c al be (xs a) k).
      assert (shares I J c al be (xs a) k <= 1).
      { rewrite <- (shares_total I J c al be (xs a) HI HJ). apply rsum_term_le; [|exact Hk]. intros; left; apply shares_pos. }
      destruct (Rle_lt_dec al 1); nra. }
    assert (T : 0 < rsum J (fun i => (kappa h * exp (xs a i) - al * shares I J c al be (xs a) i) * (v i * v i))).
    { apply Rlt_le_trans with ((kappa h * exp (xs a i) - al * shares I J c al be (xs a) i) * (v i * v i)).
      - apply Rmult_lt_0_compat; [apply G; exact Hi|apply square_pos; exact Hv].
      - apply (rsum_term_le J (fun i => (kappa h * exp (xs a i) - al * shares I J c al be (xs a) i) * (v i * v i)) i); [|exact Hi].
        intros k Hk. apply Rmult_le_pos; [left; apply G; exact Hk|exact (Rle_0_sqr (v k))]. }
    pose proof (Rle_0_sqr s) as S2. unfold Rsqr in S2. nra. }
  destruct (proj2 (laplace_raises J V _ xs (fun i => tc_hessian_sym _ _ _ _ _ _ _ _)) P) as [[z s] E].
  exists z. rewrite E. destruct (laplace_value J V _ xs z s HJ (fun i => tc_hessian_sym _ _ _ _ _ _ _ _) E) as (-> & _). reflexivity.
Qed.
Print Assumptions C190_defined_partial.

(** ... and otherwise the optimiser's results can all be stationary points where
    the run stops with an error: two destinations of equal size. *)
Theorem C190_saddle_refuted : forall de, 0 <= de -> forall al, 1 + 2 * de < al ->
  exists I J c be h xs, (0 < I)%nat /\ (0 < J)%nat /\ delta h = de /\ 0 < kappa h /\ 0 < epsilon h /\ 0 < sigma h /\
  let V := tc_sde_pot I J c al be (delta h) (kappa h) (sigma h) (epsilon h) in
  (forall i, (i < J)%nat -> stationary V J (xs i)) /\
  laplace J V (tc_hessian I J c al be h) xs = Raise EExn.
Proof.
  intros de Hde al Hal. set (h := HW (1 / 2 + de) de 1 1 1).
  exists 1%nat, 2%nat, (fun _ _ => 0), 0, h, (fun _ _ => 0).
  split; [lia|split; [lia|split; [reflexivity|]]]. cbn [h kappa epsilon sigma delta].
  split; [lra|split; [lra|split; [lra|]]]. cbv zeta.
  assert (Sh : forall k, (k < 2)%nat -> shares 1 2 (fun _ _ => 0) al 0 (fun _ => 0) k = 1 / 2).
  { intros k Hk. rewrite shares_ratio by lia. unfold rsum2, rsum, log_utility.
    replace (al * 0 - 0 * 0) with 0 by ring. rewrite exp_0. field. }
  split.
  - intros i Hi. apply (stationary_balance 1 2 (fun _ _ => 0) al 0 h (fun _ => 0)); cbn [h epsilon sigma kappa delta]; try lia; try lra.
    intros k Hk. rewrite Sh by exact Hk. rewrite exp_0. ring.
  - unfold laplace. pose (x := fun _ : nat => 0). change (cholesky 2 _) with (cholesky 2 (tc_hessian 1 2 (fun _ _ => 0) al 0 h x)).
    destruct (cholesky 2 (tc_hessian 1 2 (fun _ _ => 0) al 0 h x)) as [L|] eqn:E; [|reflexivity]. exfalso.
    assert (P : positive_definite 2 (tc_hessian 1 2 (fun _ _ => 0) al 0 h x)).
    { apply cholesky_iff; [apply tc_hessian_sym|exists L; exact E]. }
    specialize (P (fun i => if Nat.eqb i 0 then 1 else -1)). rewrite quad_tc in P.
    assert (0 < 0); [|lra]. eapply Rlt_le_trans; [apply P; exists 0%nat; split; [lia|cbn; lra]|].
    unfold rsum, x. rewrite !Sh by lia. rewrite exp_0. cbn [h epsilon sigma kappa Nat.eqb]. lra.
Qed.
Print Assumptions C190_saddle_refuted.

(** Production constrained model: the second derivatives form a diagonal matrix
    without the flows, and the estimate always exists. *)
Lemma pc_quad : forall J h x v, quad J (pc_hessian h x) v =
  rsum J (fun i => (2 * epsilon h / (sigma h * sigma h)) * (kappa h * exp (x i)) * (v i * v i)).
Proof.
  intros J h x v. unfold quad, pc_hessian. apply rsum_ext; intros i Hi.
  rewrite (rsum_ext J _ (fun j => (v i * (2 * epsilon h / (sigma h * sigma h)) * (kappa h * exp (x i)) * v j) * (if Nat.eqb j i then 1 else 0))).
  - rewrite (rsum_indicator J i (fun j => v i * (2 * epsilon h / (sigma h * sigma h)) * (kappa h * exp (x i)) * v j) Hi). ring.
  - intros j Hj. rewrite (Nat.eqb_sym j i). destruct (Nat.eqb i j); ring.
Qed.

Lemma pc_hessian_sym : forall h x n, symmetric n (pc_hessian h x).
Proof.
  intros h x n i j _ _. unfold pc_hessian. rewrite (Nat.eqb_sym j i). destruct (Nat.eqb_spec i j) as [->|]; reflexivity.
Qed.

Theorem C190_production_constrained : forall n O c al be h xs, (0 < n)%nat -> al <> 0 ->
  0 < epsilon h -> 0 < kappa h -> sigma h <> 0 ->
  exists V, (forall y, pc_sde_pot n n O c al be (delta h) (kappa h) (sigma h) (epsilon h) y = Ok (V y)) /\
  (forall x, is_hessian V n x (pc_hessian h x)) /\
  exists z a, laplace n V (pc_hessian h) xs = Ok (z, 1) /\ (a < n)%nat /\ (forall i, (i < n)%nat -> V (xs a) <= V (xs i)) /\
    exp z = exp (V (xs a)) * sqrt (detR n (pc_hessian h (xs a))).
Proof.
  intros n O c al be h xs Hn Hal Hep Hka Hsi.
  assert (G : forall k, (k < n)%nat -> exists f, (forall y, pc_sde_pot n n O c al be (delta h) (kappa h) (sigma h) (epsilon h) y = Ok (f y)) /\
     forall y, partial_derivative f y k (- (2 / (sigma h * sigma h)) * (epsilon h * (O k - kappa h * exp (y k) + delta h)))).
  { intros k Hk. destruct (C33_production_constrained_gradient n O c al be h (fun _ => 0) k Hk Hal Hsi) as (f & F & _).
    exists f. split; [exact F|]. intros y.
    destruct (C33_production_constrained_gradient n O c al be h y k Hk Hal Hsi) as (f' & F' & D).
    unfold partial_derivative in *. eapply dl_ext; [|reflexivity|exact D].
    intros z. assert (OI : forall a b : R, Ok a = Ok b -> a = b) by (intros a b E; injection E; auto).
    apply OI. rewrite <- F, <- F'. reflexivity. }
  destruct (G 0%nat Hn) as (V & HV & _). exists V. split; [exact HV|].
  assert (GV : forall k, (k < n)%nat -> forall y, partial_derivative V y k (- (2 / (sigma h * sigma h)) * (epsilon h * (O k - kappa h * exp (y k) + delta h)))).
  { intros k Hk y. destruct (G k Hk) as (f & F & D). unfold partial_derivative in *.
    eapply dl_ext; [|reflexivity|exact (D y)]. intros z.
    assert (OI : forall a b : R, Ok a = Ok b -> a = b) by (intros a b E; injection E; auto).
    apply OI. rewrite <- F, <- HV. reflexivity. }
  split.
  - intros x. exists (fun k y => - (2 / (sigma h * sigma h)) * (epsilon h * (O k - kappa h * exp (y k) + delta h))). split.
    + intros y k Hk. apply GV; exact Hk.
    + intros j k Hj Hk. unfold partial_derivative. set (C := 2 * epsilon h / (sigma h * sigma h)).
      eapply dl_ext; [| |apply (dl_plus (fun t => C * kappa h * exp (at_coord x k t j)) (fun t => - C * (O j + delta h)));
        [apply (dl_scal (fun t => exp (at_coord x k t j))), (dl_exp_coord x j k)|apply dl_const]].
      * intros z; cbv beta. unfold C. field. exact Hsi.
      * unfold pc_hessian. fold C. destruct (Nat.eqb j k); ring.
  - assert (P : positive_definite n (pc_hessian h (xs (np_argmin n (fun i => V (xs i)))))).
    { intros v [i [Hi Hv]]. rewrite pc_quad.
      assert (C0 : 0 < 2 * epsilon h / (sigma h * sigma h)) by (apply Rdiv_lt_0_compat; [lra|apply square_pos; exact Hsi]).
      set (f := fun i : nat => _). assert (F : forall k, 0 <= f k).
      { intros k. unfold f. apply Rmult_le_pos; [|exact (Rle_0_sqr (v k))]. apply Rmult_le_pos; [lra|].
        left. apply Rmult_lt_0_compat; [exact Hka|apply exp_pos]. }
      apply Rlt_le_trans with (f i); [|apply rsum_term_le; [intros; apply F|exact Hi]].
      unfold f. apply Rmult_lt_0_compat; [|apply square_pos; exact Hv]. apply Rmult_lt_0_compat; [exact C0|].
      apply Rmult_lt_0_compat; [exact Hka|apply exp_pos]. }
    destruct (proj2 (laplace_raises n V (pc_hessian h) xs (fun i => pc_hessian_sym _ _ _)) P) as [[z s] E].
    destruct (laplace_value n V _ xs z s Hn (fun i => pc_hessian_sym _ _ _) E) as (-> & a & Ha & L & _ & _ & _ & Z).
    exists z, a. split; [exact E|split; [exact Ha|split; [exact L|exact Z]]].
Qed.
Print Assumptions C190_production_constrained.

(** The starting points are one per destination: its own zone of size 1 + delta,
    all others of size delta (for positive delta). *)
Theorem C190_starting_points : forall de i j, 0 < de ->
  exp (start de i j) = if Nat.eqb i j then 1 + de else de.
Proof.
  intros de i j H. unfold start. destruct (Nat.eqb i j).
  - replace (ln de - ln de + ln (1 + de)) with (ln (1 + de)) by ring. apply exp_ln. lra.
  - apply exp_ln. exact H.
Qed.
Print Assumptions C190_starting_points.

(** a case where the hypotheses hold: two equal destinations with alpha one *)
Example C190_nonvacuous : let h := HW (3 / 5) (1 / 10) 1 1 1 in
  let V := tc_sde_pot 1 2 (fun _ _ => 0) 1 0 (delta h) (kappa h) (sigma h) (epsilon h) in
  stationary V 2 (fun _ => 0) /\
  exists z, laplace 2 V (tc_hessian 1 2 (fun _ _ => 0) 1 0 h) (fun _ _ => 0) = Ok (z, 1).
Proof.
  cbv zeta. set (h := HW (3 / 5) (1 / 10) 1 1 1).
  assert (S : stationary (tc_sde_pot 1 2 (fun _ _ => 0) 1 0 (delta h) (kappa h) (sigma h) (epsilon h)) 2 (fun _ => 0)).
  { apply (stationary_balance 1 2 (fun _ _ => 0) 1 0 h (fun _ => 0)); cbn [h epsilon sigma kappa delta]; try lia; try lra.
    intros k Hk. rewrite shares_ratio by lia. unfold rsum2, rsum, log_utility.
    replace (1 * 0 - 0 * 0) with 0 by ring. rewrite exp_0. lra. }
  split; [exact S|]. apply C190_defined_partial; cbn [h epsilon sigma kappa delta]; try lia; try lra.
  intros i Hi. exact S.
Qed.
