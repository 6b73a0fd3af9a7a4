(** C198: the potentials of the Harris-Wilson model confine the attractions.

    No further code is modelled: the potentials are those of SIM.v,
    gensit/intensity_models/spatial_interaction_models/TotallyConstrained/__init__.py:32-56,
    ProductionConstrained/__init__.py:33-58 and HarrisWilsonModel.py:311-328. *)
From Coq Require Import List ZArith Lia Bool Arith Reals Lra Psatz ClassicalEpsilon.
From Verif Require Import Base RealBase ProbUtils SIM SIMProps Sensitivity SensitivityProps.
Import ListNotations.
Open Scope R_scope.

(** The attractions [x] are in balance: for every destination, [kappa] times its
    size is the demand for it, from trips of total one, plus [delta]. *)
Definition balanced (I J : nat) (c : mat) (al be de ka : R) (x : vec) : Prop :=
  forall k, (k < J)%nat ->
    ka * exp (x k) = rsum I (fun i => tc_flow I J c 1 x al be i k) + de.

(** ---- lower bound ------------------------------------------------------------------ *)

(** the tangent of the exponential at [ln (a / ka)] *)
Lemma exp_tangent : forall ka a t, 0 < ka -> 0 < a -> a * (1 + t - ln (a / ka)) <= ka * exp t.
Proof.
  intros ka a t Hk Ha. set (s := ln (a / ka)).
  assert (P : 0 < a / ka) by (apply Rdiv_lt_0_compat; assumption).
  assert (E : exp s = a / ka) by (apply exp_ln; exact P).
  replace (ka * exp t) with (a * exp (t - s)).
  - apply Rmult_le_compat_l; [lra|]. assert (X := exp_ineq1_le (t - s)). lra.
  - unfold Rminus. rewrite exp_plus, exp_Ropp, E. field. lra.
Qed.

Lemma exp_tangent_strict : forall ka a t, 0 < ka -> 0 < a -> t <> ln (a / ka) -> a * (1 + t - ln (a / ka)) < ka * exp t.
Proof.
  intros ka a t Hk Ha N. set (s := ln (a / ka)) in *.
  assert (P : 0 < a / ka) by (apply Rdiv_lt_0_compat; assumption).
  assert (E : exp s = a / ka) by (apply exp_ln; exact P).
  replace (ka * exp t) with (a * exp (t - s)).
  - apply Rmult_lt_compat_l; [lra|]. assert (X := exp_ineq1 (t - s)). lra.
  - unfold Rminus. rewrite exp_plus, exp_Ropp, E. field. lra.
Qed.

Lemma one_zone : forall ka de t, 0 < ka -> 0 < de ->
  Rmin 1 de * Rabs t - Rabs ((de + 2) * (1 - ln ((de + 2) / ka))) <= ka * exp t - de * t - Rmax 0 t.
Proof.
  intros ka de t Hk Hd. set (K := (de + 2) * (1 - ln ((de + 2) / ka))).
  assert (K1 := Rle_abs K). assert (K2 := Rle_abs (- K)). rewrite Rabs_Ropp in K2.
  assert (M1 := Rmin_l 1 de). assert (M2 := Rmin_r 1 de). assert (Et := exp_pos t).
  destruct (Rle_lt_dec 0 t) as [T|T].
  - rewrite Rabs_right, Rmax_right by lra.
    assert (X := exp_tangent ka (de + 2) t Hk ltac:(lra)).
    assert (Y : (de + 2) * (1 + t - ln ((de + 2) / ka)) = K + (de + 2) * t) by (unfold K; ring).
    assert (Z : Rmin 1 de * t <= 1 * t) by (apply Rmult_le_compat_r; assumption). lra.
  - rewrite Rabs_left, Rmax_left by lra.
    assert (Z : Rmin 1 de * - t <= de * - t) by (apply Rmult_le_compat_r; lra).
    assert (0 < ka * exp t) by (apply Rmult_lt_0_compat; assumption). lra.
Qed.

Lemma factor_pos : forall ep si, 0 < ep -> si <> 0 -> 0 < (2 * ep) / (si * si).
Proof. intros. apply Rdiv_lt_0_compat; [lra|]. apply Rsqr_pos_lt in H0. exact H0. Qed.

Lemma lse2_upper : forall I J c x al be M, (0 < I)%nat -> (0 < J)%nat -> 0 <= al -> (forall j, (j < J)%nat -> x j <= M) ->
  lse2 I J (log_utility c x al be) <= al * M + lse2 I J (fun i j => - (be * c i j)).
Proof.
  intros I J c x al be M HI HJ Ha HM.
  rewrite Rplus_comm, <- lse2_shift by assumption.
  assert (L : rsum2 I J (fun i j => exp (log_utility c x al be i j)) <= rsum2 I J (fun i j => exp (- (be * c i j) + al * M))).
  { apply rsum2_le; intros i j Hi Hj. unfold log_utility.
    assert (al * x j <= al * M) by (apply Rmult_le_compat_l; auto).
    destruct (Req_dec (al * x j - be * c i j) (- (be * c i j) + al * M)) as [E|E]; [rewrite E; lra|].
    left. apply exp_increasing. lra. }
  assert (P := exp_sum2_pos I J (log_utility c x al be) HI HJ).
  unfold lse2. destruct L as [L|L]; [left; apply ln_increasing; assumption|right; rewrite L; reflexivity].
Qed.

Lemma potential_lower : forall I J c al be de ka si ep, (0 < I)%nat -> (0 < J)%nat ->
  0 < al -> 0 < ka -> 0 < de -> si <> 0 -> 0 < ep ->
  exists d K, 0 < d /\ forall x, d * rsum J (fun j => Rabs (x j)) - K <= tc_sde_pot I J c al be de ka si ep x.
Proof.
  intros I J c al be de ka si ep HI HJ Ha Hk Hd Hs He.
  assert (G := factor_pos ep si He Hs). set (g := 2 * ep / (si * si)) in *.
  set (A := lse2 I J (fun i j => - (be * c i j))).
  set (K1 := Rabs ((de + 2) * (1 - ln ((de + 2) / ka)))).
  exists (g * Rmin 1 de), (g * (INR J * K1 + 1 / al * A)). split.
  { apply Rmult_lt_0_compat; [exact G|]. unfold Rmin. destruct (Rle_dec 1 de); lra. }
  intros x. unfold tc_sde_pot. fold g.
  set (M := rsum J (fun j => Rmax 0 (x j))).
  assert (HM : forall j, (j < J)%nat -> x j <= M).
  { intros j Hj. apply Rle_trans with (Rmax 0 (x j)); [apply Rmax_r|].
    apply (rsum_term_le J (fun j => Rmax 0 (x j))); [|exact Hj]. intros; apply Rmax_l. }
  assert (L := lse2_upper I J c x al be M HI HJ (Rlt_le _ _ Ha) HM). fold A in L.
  set (S := lse2 I J (log_utility c x al be)) in *.
  assert (LS : - M - 1 / al * A <= - (1 / al) * S).
  { apply Rmult_le_reg_l with al; [exact Ha|].
    replace (al * (- M - 1 / al * A)) with (- (al * M + A)) by (field; lra).
    replace (al * (- (1 / al) * S)) with (- S) by (field; lra). lra. }
  assert (Z : rsum J (fun j => Rmin 1 de * Rabs (x j) - K1) <= rsum J (fun j => ka * exp (x j) - de * x j - Rmax 0 (x j))).
  { apply rsum_le; intros j _. apply one_zone; assumption. }
  rewrite !rsum_sub, !rsum_scal, rsum_const in Z. fold M in Z.
  replace (g * Rmin 1 de * rsum J (fun j => Rabs (x j)) - g * (INR J * K1 + 1 / al * A))
    with ((Rmin 1 de * rsum J (fun j => Rabs (x j)) - INR J * K1 - 1 / al * A) * g) by ring.
  apply Rmult_le_compat_r; [lra|]. change (rsum J (fun j => x j)) with (rsum J x) in Z. lra.
Qed.

(** With positive [alpha], [kappa] and [delta] the potential is bounded below and
    every level set is bounded: no zone can vanish or grow without limit at a
    bounded potential. *)
Theorem C198_confining : forall I J c al be de ka si ep, (0 < I)%nat -> (0 < J)%nat ->
  0 < al -> 0 < ka -> 0 < de -> si <> 0 -> 0 < ep ->
  (exists m, forall x, m <= tc_sde_pot I J c al be de ka si ep x) /\
  (forall L, exists B, forall x, tc_sde_pot I J c al be de ka si ep x <= L -> forall j, (j < J)%nat -> Rabs (x j) <= B).
Proof.
  intros I J c al be de ka si ep HI HJ Ha Hk Hd Hs He.
  destruct (potential_lower I J c al be de ka si ep HI HJ Ha Hk Hd Hs He) as (d & K & D & H).
  assert (N : forall x : vec, 0 <= rsum J (fun j => Rabs (x j))) by (intro x; apply rsum_nonneg; intros; apply Rabs_pos).
  split.
  - exists (- K). intro x. specialize (H x). specialize (N x).
    assert (0 <= d * rsum J (fun j => Rabs (x j))) by (apply Rmult_le_pos; lra). lra.
  - intros L. exists ((L + K) / d). intros x HL j Hj. specialize (H x).
    apply Rmult_le_reg_l with d; [exact D|]. replace (d * ((L + K) / d)) with (L + K) by (field; lra).
    apply Rle_trans with (d * rsum J (fun j => Rabs (x j))); [|lra].
    apply Rmult_le_compat_l; [lra|]. apply (rsum_term_le J (fun j => Rabs (x j))); [|exact Hj]. intros; apply Rabs_pos.
Qed.
Print Assumptions C198_confining.

(** ---- sequences ---------------------------------------------------------------------- *)

Lemma cv_const : forall a, Un_cv (fun _ => a) a.
Proof. intros a eps He. exists 0%nat. intros. unfold R_dist. rewrite Rminus_diag_eq, Rabs_R0 by reflexivity. exact He. Qed.

Lemma cv_scal : forall a u l, Un_cv u l -> Un_cv (fun k => a * u k) (a * l).
Proof. intros a u l H. exact (CV_mult (fun _ => a) u a l (cv_const a) H). Qed.

Lemma cv_rsum : forall n (u : nat -> nat -> R) l, (forall j, (j < n)%nat -> Un_cv (fun k => u k j) (l j)) ->
  Un_cv (fun k => rsum n (u k)) (rsum n l).
Proof.
  induction n as [|n IH]; intros u l H; cbn [rsum]; [apply cv_const|].
  apply (CV_plus (fun k => rsum n (u k)) (fun k => u k n)); [apply IH; intros; apply H; lia|apply H; lia].
Qed.

Lemma cv_exp : forall u l, Un_cv u l -> Un_cv (fun k => exp (u k)) (exp l).
Proof. intros u l H. apply (continuity_seq exp u l); [|exact H]. apply derivable_continuous_pt. apply derivable_pt_exp. Qed.

Lemma cv_ln : forall u l, 0 < l -> Un_cv u l -> Un_cv (fun k => ln (u k)) (ln l).
Proof.
  intros u l P H. apply (continuity_seq ln u l); [|exact H]. apply derivable_continuous_pt.
  exists (/ l). apply derivable_pt_lim_ln. exact P.
Qed.

Lemma cv_potential : forall I J c al be de ka si ep (u : nat -> vec) l, (0 < I)%nat -> (0 < J)%nat ->
  (forall j, (j < J)%nat -> Un_cv (fun k => u k j) (l j)) ->
  Un_cv (fun k => tc_sde_pot I J c al be de ka si ep (u k)) (tc_sde_pot I J c al be de ka si ep l).
Proof.
  intros I J c al be de ka si ep u l HI HJ H. unfold tc_sde_pot.
  assert (H1 : Un_cv (fun k => lse2 I J (log_utility c (u k) al be)) (lse2 I J (log_utility c l al be))).
  { unfold lse2. apply (cv_ln (fun k => rsum2 I J (fun i j => exp (log_utility c (u k) al be i j)))); [apply exp_sum2_pos; assumption|].
    unfold rsum2. apply (cv_rsum I (fun k i => rsum J (fun j => exp (log_utility c (u k) al be i j)))). intros i Hi.
    apply (cv_rsum J (fun k j => exp (log_utility c (u k) al be i j))). intros j Hj.
    apply (cv_exp (fun k => log_utility c (u k) al be i j)). unfold log_utility.
    apply (CV_minus (fun k => al * u k j) (fun _ => be * c i j)); [apply cv_scal, H, Hj|apply cv_const]. }
  assert (H2 : Un_cv (fun k => rsum J (fun j => exp (u k j))) (rsum J (fun j => exp (l j)))).
  { apply (cv_rsum J (fun k j => exp (u k j))). intros j Hj. apply (cv_exp (fun k => u k j)), H, Hj. }
  assert (H3 : Un_cv (fun k => rsum J (u k)) (rsum J l)) by (apply (cv_rsum J (fun k j => u k j)); exact H).
  apply (CV_mult (fun k => - (1 / al) * lse2 I J (log_utility c (u k) al be) +
     (ka * rsum J (fun j => exp (u k j)) - de * rsum J (u k))) (fun _ => 2 * ep / (si * si))); [|apply cv_const].
  apply (CV_plus (fun k => - (1 / al) * lse2 I J (log_utility c (u k) al be)) (fun k => ka * rsum J (fun j => exp (u k j)) - de * rsum J (u k)));
    [apply cv_scal, H1|].
  apply (CV_minus (fun k => ka * rsum J (fun j => exp (u k j))) (fun k => de * rsum J (u k))); apply cv_scal; assumption.
Qed.

Lemma choose : forall A B (P : A -> B -> Prop), (forall a, exists b, P a b) -> exists f, forall a, P a (f a).
Proof.
  intros A B P H. exists (fun a => proj1_sig (constructive_indefinite_description _ (H a))).
  intro a. exact (proj2_sig (constructive_indefinite_description _ (H a))).
Qed.

Lemma bolzano : forall (u : nat -> R) B, (forall k, Rabs (u k) <= B) ->
  exists (f : nat -> nat) l, (forall k, (k <= f k)%nat) /\ Un_cv (fun k => u (f k)) l.
Proof.
  intros u B H.
  destruct (Bolzano_Weierstrass u (fun x => - B <= x <= B) (compact_P3 (- B) B)) as [l L].
  { intro k. specialize (H k). unfold Rabs in H. destruct (Rcase_abs (u k)); lra. }
  destruct (choose nat nat (fun k p => (k <= p)%nat /\ Rabs (u p - l) < / INR (k + 1))) as [f F].
  { intro k. assert (P : 0 < / INR (k + 1)) by (apply Rinv_0_lt_compat, lt_0_INR; lia).
    destruct (L (disc l (mkposreal _ P)) k) as [p [P1 P2]].
    - exists (mkposreal _ P). intros z Hz. exact Hz.
    - exists p. split; [exact P1|]. exact P2. }
  exists f, l. split; [intro k; apply F|]. intros eps He.
  destruct (archimed_cor1 eps He) as [N [N1 N2]]. exists N. intros n Hn. unfold R_dist.
  destruct (F n) as [_ X]. apply Rlt_trans with (1 := X). apply Rle_lt_trans with (/ INR N); [|exact N1].
  apply Rinv_le_contravar; [apply lt_0_INR; lia|]. apply le_INR. lia.
Qed.

Lemma cv_sub : forall u l (f : nat -> nat), (forall k, (k <= f k)%nat) -> Un_cv u l -> Un_cv (fun k => u (f k)) l.
Proof. intros u l f F H eps He. destruct (H eps He) as [N HN]. exists N. intros n Hn. apply HN. specialize (F n). lia. Qed.

Lemma bolzano_vec : forall n (u : nat -> vec) B, (forall k j, (j < n)%nat -> Rabs (u k j) <= B) ->
  exists (f : nat -> nat) (l : vec), (forall k, (k <= f k)%nat) /\ forall j, (j < n)%nat -> Un_cv (fun k => u (f k) j) (l j).
Proof.
  induction n as [|n IH]; intros u B H.
  - exists (fun k => k), (fun _ => 0). split; [intro; lia|]. intros j Hj. lia.
  - destruct (IH u B) as (f & l & F & C); [intros; apply H; lia|].
    destruct (bolzano (fun k => u (f k) n) B) as (g & m & G & D); [intros; apply H; lia|].
    exists (fun k => f (g k)), (fun j => if Nat.eqb j n then m else l j). split.
    + intro k. specialize (F (g k)). specialize (G k). lia.
    + intros j Hj. destruct (Nat.eqb_spec j n) as [->|N]; [exact D|].
      apply (cv_sub (fun k => u (f k) j)); [exact G|]. apply C. lia.
Qed.

(** at a minimum the partial derivatives vanish *)
Lemma minimum_flat : forall f x k d, (forall y, f x <= f y) -> (forall y z, (forall j, y j = z j) -> f y = f z) ->
  partial_derivative f x k d -> d = 0.
Proof.
  intros f x k d H EXT D. destruct (Req_dec d 0) as [E|N]; [exact E|]. exfalso.
  assert (P : 0 < Rabs d / 2) by (assert (X := Rabs_pos_lt d N); lra).
  destruct (D (Rabs d / 2) P) as [e E].
  set (h := if Rle_dec 0 d then - (e / 2) else e / 2).
  assert (He := cond_pos e).
  assert (Hh : h <> 0 /\ Rabs h < e).
  { unfold h. destruct (Rle_dec 0 d); [rewrite Rabs_Ropp|]; rewrite Rabs_right by lra; lra. }
  destruct Hh as [H0 H1]. specialize (E h H0 H1).
  assert (Q : f (at_coord x k (x k)) = f x) by (apply EXT; intro; apply at_coord_same).
  rewrite Q in E. assert (U := H (at_coord x k (x k + h))).
  set (v := f (at_coord x k (x k + h)) - f x) in *. assert (V : 0 <= v) by (unfold v; lra).
  apply Rabs_def2 in E. destruct E as [E1 E2].
  unfold h in *. destruct (Rle_dec 0 d) as [Dp|Dn].
  - rewrite Rabs_right in E1, E2 by lra.
    assert (v / - (e / 2) <= 0).
    { unfold Rdiv. rewrite <- Ropp_inv_permute by lra. assert (0 < / (e / 2)) by (apply Rinv_0_lt_compat; lra). 
      assert (0 <= v * / (e / 2)) by (apply Rmult_le_pos; lra). unfold Rdiv in *. lra. }
    lra.
  - rewrite Rabs_left in E1, E2 by lra.
    assert (0 <= v / (e / 2)). { apply Rmult_le_pos; [exact V|]. left. apply Rinv_0_lt_compat. lra. }
    lra.
Qed.

(** ---- the minimum ---------------------------------------------------------------------- *)

Lemma potential_ext : forall I J c al be de ka si ep x y, (forall j, x j = y j) ->
  tc_sde_pot I J c al be de ka si ep x = tc_sde_pot I J c al be de ka si ep y.
Proof.
  intros. unfold tc_sde_pot.
  assert (E1 : lse2 I J (log_utility c x al be) = lse2 I J (log_utility c y al be)).
  { unfold lse2. f_equal. apply rsum2_ext; intros. unfold log_utility. rewrite H. reflexivity. }
  rewrite E1, (rsum_ext J (fun j => exp (x j)) (fun j => exp (y j))), (rsum_ext J x y); auto. intros; rewrite H; reflexivity.
Qed.

Lemma demand_flow : forall I J c x al be k, (0 < I)%nat ->
  demand I (tc_log_flow I J c 1 x al be) k = rsum I (fun i => tc_flow I J c 1 x al be i k).
Proof. intros. unfold demand. rewrite exp_lse by assumption. reflexivity. Qed.

Lemma stationary_balanced : forall I J c al be de ka si ep x, (0 < I)%nat -> (0 < J)%nat -> 0 < al -> si <> 0 -> 0 < ep ->
  (forall y, tc_sde_pot I J c al be de ka si ep x <= tc_sde_pot I J c al be de ka si ep y) -> balanced I J c al be de ka x.
Proof.
  intros I J c al be de ka si ep x HI HJ Ha Hs He H k Hk.
  assert (D := C33_totally_constrained_gradient I J c al be (HW ka de ep si 1) x k HI Hk ltac:(lra) Hs).
  cbn [kappa delta epsilon sigma] in D. apply minimum_flat in D; [|exact H|apply potential_ext].
  unfold drift in D. cbn [kappa delta epsilon sigma] in D. rewrite demand_flow in D by assumption.
  assert (S : 0 < si * si) by (apply Rsqr_pos_lt in Hs; exact Hs).
  apply Rmult_integral in D. destruct D as [D|D].
  - exfalso. assert (0 < 2 / (si * si)) by (apply Rdiv_lt_0_compat; lra). lra.
  - apply Rmult_integral in D. destruct D as [D|D]; lra.
Qed.

Lemma shares_total : forall I J c al be x, (0 < I)%nat -> (0 < J)%nat ->
  rsum J (fun k => rsum I (fun i => tc_flow I J c 1 x al be i k)) = 1.
Proof.
  intros. destruct (C29_totally_constrained_total I J c 1 x al be H H0 Rlt_0_1) as [_ T].
  rewrite <- T at 1. unfold rsum2. rewrite <- rsum_swap. reflexivity.
Qed.

Lemma shares_bounds : forall I J c al be x k, (0 < I)%nat -> (k < J)%nat ->
  0 < rsum I (fun i => tc_flow I J c 1 x al be i k) <= 1.
Proof.
  intros I J c al be x k HI Hk. split; [apply rsum_pos; [exact HI|]; intros; apply exp_pos|].
  apply Rle_trans with (rsum J (fun k => rsum I (fun i => tc_flow I J c 1 x al be i k))).
  - apply (rsum_term_le J (fun k => rsum I (fun i => tc_flow I J c 1 x al be i k)) k); [|exact Hk].
    intros. apply rsum_nonneg; intros. left. apply exp_pos.
  - right. apply shares_total; [exact HI|lia].
Qed.

(** Balanced attractions: sizes within bounds and of known total. *)
Theorem C198_balanced_sizes : forall I J c al be de ka x, (0 < I)%nat -> (0 < J)%nat -> 0 < ka -> balanced I J c al be de ka x ->
  (forall k, (k < J)%nat -> de / ka < exp (x k) <= (1 + de) / ka) /\
  rsum J (fun k => exp (x k)) = (1 + INR J * de) / ka.
Proof.
  intros I J c al be de ka x HI HJ Hk B. split.
  - intros k Kk. specialize (B k Kk). destruct (shares_bounds I J c al be x k HI Kk) as [S1 S2].
    split; apply Rmult_lt_reg_l with ka || apply Rmult_le_reg_l with ka; try exact Hk.
    + replace (ka * (de / ka)) with de by (field; lra). lra.
    + replace (ka * ((1 + de) / ka)) with (1 + de) by (field; lra). lra.
  - apply Rmult_eq_reg_l with ka; [|lra]. replace (ka * ((1 + INR J * de) / ka)) with (1 + INR J * de) by (field; lra).
    rewrite <- rsum_scal. rewrite (rsum_ext J _ _ B), rsum_add, rsum_const, shares_total by assumption. ring.
Qed.
Print Assumptions C198_balanced_sizes.

(** The potential attains its minimum, and every minimum is in balance. *)
Theorem C198_minimum : forall I J c al be de ka si ep, (0 < I)%nat -> (0 < J)%nat ->
  0 < al -> 0 < ka -> 0 < de -> si <> 0 -> 0 < ep ->
  let V := tc_sde_pot I J c al be de ka si ep in
  (exists x, forall y, V x <= V y) /\
  (forall x, (forall y, V x <= V y) -> balanced I J c al be de ka x).
Proof.
  intros I J c al be de ka si ep HI HJ Ha Hk Hd Hs He V.
  split; [|intros x; apply stationary_balanced; assumption].
  destruct (C198_confining I J c al be de ka si ep HI HJ Ha Hk Hd Hs He) as [[m Hm] LEV]. fold V in Hm, LEV.
  destruct (completeness (fun v => exists x, v = - V x)) as [s [S1 S2]].
  { exists (- m). intros v [x ->]. specialize (Hm x). lra. }
  { exists (- V (fun _ => 0)), (fun _ => 0). reflexivity. }
  assert (NEAR : forall k : nat, exists x, s - / INR (k + 1) < - V x).
  { intro k. assert (P : 0 < / INR (k + 1)) by (apply Rinv_0_lt_compat, lt_0_INR; lia).
    apply Classical_Prop.NNPP. intro N. assert (U : s <= s - / INR (k + 1)); [|lra].
    apply S2. intros v [x ->]. destruct (Rle_lt_dec (- V x) (s - / INR (k + 1))) as [L|L]; [exact L|].
    exfalso. apply N. exists x. exact L. }
  destruct (choose nat vec (fun k x => s - / INR (k + 1) < - V x) NEAR) as [u U].
  destruct (LEV (1 - s)) as [B HB].
  assert (BU : forall k j, (j < J)%nat -> Rabs (u k j) <= B).
  { intros k j Hj. apply HB; [|exact Hj]. specialize (U k).
    assert (/ INR (k + 1) <= 1). { rewrite <- Rinv_1. apply Rinv_le_contravar; [lra|]. apply (le_INR 1). lia. } lra. }
  destruct (bolzano_vec J u B BU) as (f & l & F & C).
  exists l. intro y.
  assert (CV := cv_potential I J c al be de ka si ep (fun k => u (f k)) l HI HJ C). fold V in CV.
  assert (Y : - V y <= s) by (apply S1; exists y; reflexivity).
  destruct (Rle_lt_dec (V l) (V y)) as [L|L]; [exact L|]. exfalso.
  destruct (CV ((V l - V y) / 2) ltac:(lra)) as [N1 HN1].
  destruct (archimed_cor1 ((V l - V y) / 2) ltac:(lra)) as [N2 [HN2 P2]].
  set (n := (N1 + N2)%nat). specialize (HN1 n ltac:(lia)). unfold R_dist in HN1. apply Rabs_def2 in HN1. destruct HN1 as [_ A].
  specialize (U (f n)). specialize (F n).
  assert (/ INR (f n + 1) <= / INR N2).
  { apply Rinv_le_contravar; [apply lt_0_INR; lia|]. apply le_INR. lia. }
  lra.
Qed.
Print Assumptions C198_minimum.

(** The balances are the sizes the noise-free time stepping leaves unchanged. *)
Theorem C198_balances_are_fixed_points : forall I J c al be h w xi, (0 < I)%nat -> (0 < J)%nat ->
  sigma h = 0 -> epsilon h <> 0 -> dt h <> 0 -> (forall j, (j < J)%nat -> 0 < w j) ->
  ((forall j, (j < J)%nat -> run_single I h w (tc_log_flow I J c 1 (fun j => ln (w j)) al be) xi j = w j) <->
   balanced I J c al be (delta h) (kappa h) (fun j => ln (w j))).
Proof.
  intros I J c al be h w xi HI HJ Hs He Hdt Hw.
  assert (ST : forall j, run_single I h w (tc_log_flow I J c 1 (fun j => ln (w j)) al be) xi j =
     w j + w j * epsilon h * dt h * (rsum I (fun i => tc_flow I J c 1 (fun j => ln (w j)) al be i j) - kappa h * w j + delta h)).
  { intro j. unfold run_single. rewrite Hs, demand_flow by assumption.
    replace (0 * 1 / sqrt (2 * PI * dt h) * xi j) with 0 by (unfold Rdiv; ring). ring. }
  split.
  - intros F k Hk. specialize (F k Hk). rewrite ST in F. specialize (Hw k Hk). rewrite exp_ln by exact Hw.
    assert (Q : w k * epsilon h * dt h * (rsum I (fun i => tc_flow I J c 1 (fun j => ln (w j)) al be i k) - kappa h * w k + delta h) = 0) by lra.
    apply Rmult_integral in Q as [Q|Q]; [|lra]. exfalso.
    apply Rmult_integral in Q as [Q|Q]; [|lra]. apply Rmult_integral in Q as [Q|Q]; lra.
  - intros B k Hk. rewrite ST. specialize (B k Hk). cbv beta in B. rewrite exp_ln in B by auto.
    replace (rsum I (fun i => tc_flow I J c 1 (fun j => ln (w j)) al be i k) - kappa h * w k + delta h) with 0 by lra. ring.
Qed.
Print Assumptions C198_balances_are_fixed_points.

(** For exponents up to one there is only one balance, so the minimum is unique. *)
Theorem C198_unique_balance : forall I J c al be de ka x y, (0 < I)%nat -> (0 < J)%nat ->
  0 < al <= 1 -> 0 < ka -> 0 < de ->
  balanced I J c al be de ka x -> balanced I J c al be de ka y -> forall k, (k < J)%nat -> x k = y k.
Proof.
  intros I J c al be de ka.
  set (a := fun k => rsum I (fun i => exp (- (be * c i k)))).
  set (S := fun x : vec => rsum2 I J (fun i j => exp (log_utility c x al be i j))).
  assert (DEM : forall x k, (0 < I)%nat -> (0 < J)%nat -> rsum I (fun i => tc_flow I J c 1 x al be i k) = exp (al * x k) * a k / S x).
  { intros x k HI HJ. unfold a. unfold Rdiv. rewrite <- rsum_scal, <- rsum_scal_r. apply rsum_ext; intros i _.
    rewrite tc_share, share_val by assumption. rewrite ln_1, exp_0. fold (S x). unfold log_utility. unfold Rminus.
    rewrite exp_plus. unfold Rdiv. ring. }
  assert (MONO : forall s t, 0 < al <= 1 -> 0 < ka -> 0 < de -> s < t ->
     ka * exp ((1 - al) * s) - de * exp (- al * s) < ka * exp ((1 - al) * t) - de * exp (- al * t)).
  { intros s t Ha Hk Hd L.
    assert (E1 : exp ((1 - al) * s) <= exp ((1 - al) * t)).
    { destruct (Req_dec al 1) as [->|N]; [replace ((1 - 1) * s) with ((1 - 1) * t) by ring; lra|].
      left. apply exp_increasing. apply Rmult_lt_compat_l; lra. }
    assert (E2 : exp (- al * t) < exp (- al * s)).
    { apply exp_increasing. assert (al * s < al * t) by (apply Rmult_lt_compat_l; lra). lra. }
    assert (ka * exp ((1 - al) * s) <= ka * exp ((1 - al) * t)) by (apply Rmult_le_compat_l; lra).
    assert (de * exp (- al * t) < de * exp (- al * s)) by (apply Rmult_lt_compat_l; lra). lra. }
  assert (ORD : forall x y, (0 < I)%nat -> (0 < J)%nat -> 0 < al <= 1 -> 0 < ka -> 0 < de ->
     balanced I J c al be de ka x -> balanced I J c al be de ka y -> S x <= S y -> forall k, (k < J)%nat -> x k = y k).
  { intros x y HI HJ Ha Hk Hd Bx By SS.
    assert (P : forall z, 0 < S z) by (intro z; apply exp_sum2_pos; assumption).
    assert (EQ : forall z k, balanced I J c al be de ka z -> (k < J)%nat ->
      ka * exp ((1 - al) * z k) - de * exp (- al * z k) = a k / S z).
    { intros z k B Kk. specialize (B k Kk). rewrite DEM in B by assumption.
      assert (X := exp_pos (al * z k)). specialize (P z).
      replace ((1 - al) * z k) with (z k + - (al * z k)) by ring. replace (- al * z k) with (- (al * z k)) by ring.
      rewrite exp_plus, exp_Ropp. apply Rmult_eq_reg_l with (exp (al * z k)); [|lra].
      replace (exp (al * z k) * (ka * (exp (z k) * / exp (al * z k)) - de * / exp (al * z k))) with (ka * exp (z k) - de) by (field; lra).
      rewrite B. unfold Rdiv. ring. }
    assert (GE : forall k, (k < J)%nat -> y k <= x k).
    { intros k Kk. destruct (Rle_lt_dec (y k) (x k)) as [L|L]; [exact L|]. exfalso.
      specialize (MONO (x k) (y k) Ha Hk Hd L). rewrite (EQ x k Bx Kk), (EQ y k By Kk) in MONO.
      assert (0 < a k) by (apply rsum_pos; [exact HI|]; intros; apply exp_pos).
      assert (/ S y <= / S x) by (apply Rinv_le_contravar; [apply P|exact SS]).
      assert (a k / S y <= a k / S x) by (apply Rmult_le_compat_l; lra). lra. }
    destruct (C198_balanced_sizes I J c al be de ka x HI HJ Hk Bx) as [_ Tx].
    destruct (C198_balanced_sizes I J c al be de ka y HI HJ Hk By) as [_ Ty].
    assert (Z : rsum J (fun k => exp (x k) - exp (y k)) = 0) by (rewrite rsum_sub; lra).
    rewrite rsum_zero_iff in Z.
    - intros k Kk. apply exp_inv. specialize (Z k Kk). cbv beta in Z. lra.
    - intros k Kk. specialize (GE k Kk). destruct GE as [L|E]; [apply exp_increasing in L; lra|rewrite E; lra]. }
  intros x y HI HJ Ha Hk Hd Bx By k Kk.
  destruct (Rle_lt_dec (S x) (S y)) as [L|L].
  - apply ORD; assumption.
  - symmetry. apply ORD; try assumption. lra.
Qed.
Print Assumptions C198_unique_balance.

(** For larger exponents there can be several balances: either of two equal zones
    may take most of the trips. *)
Theorem C198_several_balances : exists I J c al be de ka x y, 0 < al /\ 0 < ka /\ 0 < de /\
  balanced I J c al be de ka x /\ balanced I J c al be de ka y /\ x 0%nat < y 0%nat /\ (0 < I)%nat /\ (0 < J)%nat.
Proof.
  assert (B : forall s t, s > 0 -> t > 0 -> s * s / (s * s + t * t) = s - 3 / 10 -> t * t / (s * s + t * t) = t - 3 / 10 ->
    balanced 1 2 (fun _ _ => 0) 2 0 (3 / 10) 1 (fun j => if Nat.eqb j 0 then ln s else ln t)).
  { intros s t Hs Ht E1 E2 k Hk.
    assert (X : forall z, 0 < z -> exp (2 * ln z - 0 * 0) = z * z).
    { intros z Hz. replace (2 * ln z - 0 * 0) with (ln z + ln z) by ring. rewrite exp_plus, exp_ln by exact Hz. reflexivity. }
    assert (F : forall j, (j < 2)%nat -> tc_flow 1 2 (fun _ _ => 0) 1 (fun j => if Nat.eqb j 0 then ln s else ln t) 2 0 0%nat j =
       (if Nat.eqb j 0 then s * s else t * t) / (s * s + t * t)).
    { intros j Hj. rewrite tc_share, share_val by lia. rewrite ln_1, exp_0. unfold log_utility.
      rewrite rsum2_one. cbn [rsum Nat.eqb]. rewrite !X by lra.
      destruct j as [|[|j]]; [| |lia]; cbn [Nat.eqb]; rewrite X by lra; f_equal; ring. }
    destruct k as [|[|k]]; [| |lia]; cbn [rsum]; rewrite F by lia; cbn [Nat.eqb]; rewrite exp_ln by lra; lra. }
  exists 1%nat, 2%nat, (fun _ _ => 0), 2, 0, (3 / 10), 1,
    (fun j => if Nat.eqb j 0 then ln (2 / 5) else ln (6 / 5)), (fun j => if Nat.eqb j 0 then ln (6 / 5) else ln (2 / 5)).
  repeat split; try lra; try lia.
  - apply B; lra.
  - apply B; lra.
  - cbn [Nat.eqb]. apply ln_increasing; lra.
Qed.
Print Assumptions C198_several_balances.

(** Without a positive [delta] the potential does not confine: emptying one zone
    keeps it below a fixed bound, and lowers it without limit if [delta < 0]. *)
Theorem C198_without_delta : forall I J c al be de ka si ep, (0 < I)%nat -> (1 < J)%nat ->
  0 < al -> 0 < ka -> de <= 0 -> si <> 0 -> 0 < ep ->
  exists U d, 0 < d /\ forall t, 0 <= t ->
    tc_sde_pot I J c al be de ka si ep (fun j => if Nat.eqb j 0 then - t else 0) <= U + d * de * t.
Proof.
  intros I J c al be de ka si ep HI HJ Ha Hk Hd Hs He.
  assert (G := factor_pos ep si He Hs).
  exists ((be * c 0%nat 1%nat / al + ka * INR J) * (2 * ep / (si * si))), (2 * ep / (si * si)). split; [exact G|].
  intros t Ht. set (x := fun j => if Nat.eqb j 0 then - t else 0). unfold tc_sde_pot. set (g := 2 * ep / (si * si)) in *.
  assert (L : - (be * c 0%nat 1%nat) <= lse2 I J (log_utility c x al be)).
  { rewrite <- (ln_exp (- (be * c 0%nat 1%nat))). unfold lse2.
    assert (Q : exp (- (be * c 0%nat 1%nat)) <= rsum2 I J (fun i j => exp (log_utility c x al be i j))).
    { replace (- (be * c 0%nat 1%nat)) with (log_utility c x al be 0%nat 1%nat) by (unfold log_utility, x; cbn [Nat.eqb]; ring).
      apply (rsum2_term_le I J (fun i j => exp (log_utility c x al be i j))); try lia. intros; left; apply exp_pos. }
    destruct Q as [Q|Q]; [left; apply ln_increasing; [apply exp_pos|exact Q]|right; rewrite Q; reflexivity]. }
  assert (L1 : - (1 / al) * lse2 I J (log_utility c x al be) <= be * c 0%nat 1%nat / al).
  { apply Rmult_le_reg_l with al; [exact Ha|].
    replace (al * (- (1 / al) * lse2 I J (log_utility c x al be))) with (- lse2 I J (log_utility c x al be)) by (field; lra).
    replace (al * (be * c 0%nat 1%nat / al)) with (be * c 0%nat 1%nat) by (field; lra). lra. }
  assert (L2 : rsum J (fun j => exp (x j)) <= INR J).
  { rewrite <- (Rmult_1_r (INR J)), <- rsum_const. apply rsum_le; intros j _. unfold x. destruct (Nat.eqb j 0); [|rewrite exp_0; lra].
    destruct Ht as [Ht| <-]; [|rewrite Ropp_0, exp_0; lra]. rewrite <- exp_0. left. apply exp_increasing. lra. }
  assert (L3 : rsum J x = - t).
  { rewrite (rsum_ext J x (fun j => if Nat.eqb j 0 then - t else 0)) by reflexivity. apply (rsum_delta J 0 (fun _ => - t)). lia. }
  rewrite L3. assert (L4 : ka * rsum J (fun j => exp (x j)) <= ka * INR J) by (apply Rmult_le_compat_l; lra).
  replace ((be * c 0%nat 1%nat / al + ka * INR J) * g + g * de * t) with ((be * c 0%nat 1%nat / al + (ka * INR J - de * - t)) * g) by ring.
  apply Rmult_le_compat_r; lra.
Qed.
Print Assumptions C198_without_delta.

(** The annealing prior has exactly one minimum: all zones of the same size, sharing
    the trips equally. *)
Theorem C198_annealing_minimum : forall J de ka si x, (0 < J)%nat -> 0 < ka -> 0 < de + 1 / INR J -> si <> 0 ->
  let m := ln ((de + 1 / INR J) / ka) in
  ais_pot J de ka si (fun _ => m) <= ais_pot J de ka si x /\
  ((exists j, (j < J)%nat /\ x j <> m) -> ais_pot J de ka si (fun _ => m) < ais_pot J de ka si x).
Proof.
  intros J de ka si x HJ Hk Hd Hs m. set (a := de + 1 / INR J) in *.
  assert (S : 0 < 2 / (si * si)) by (apply Rsqr_pos_lt in Hs; unfold Rsqr in Hs; apply Rdiv_lt_0_compat; lra).
  set (g := 2 / (si * si)) in *.
  assert (F : forall z, ais_pot J de ka si z = g * rsum J (fun j => ka * exp (z j) - a * z j)).
  { intro z. unfold ais_pot. fold g a. rewrite rsum_sub, !rsum_scal.

    change (rsum J (fun j => z j)) with (rsum J z). ring. }
  assert (P : 0 < a / ka) by (apply Rdiv_lt_0_compat; assumption).
  assert (EM : ka * exp m = a) by (unfold m; rewrite exp_ln by exact P; field; lra).
  assert (T : forall t, ka * exp m - a * m <= ka * exp t - a * t).
  { intro t. assert (X := exp_tangent ka a t Hk Hd). fold m in X. lra. }
  assert (TS : forall t, t <> m -> ka * exp m - a * m < ka * exp t - a * t).
  { intros t N. assert (X := exp_tangent_strict ka a t Hk Hd N). fold m in X. lra. }
  rewrite !F. split.
  - apply Rmult_le_compat_l; [lra|]. apply rsum_le; intros; apply T.
  - intros (j & Hj & N). apply Rmult_lt_compat_l; [exact S|].
    apply Rminus_gt_0_lt. rewrite <- rsum_sub.
    apply Rlt_le_trans with (ka * exp (x j) - a * x j - (ka * exp m - a * m)); [specialize (TS (x j) N); lra|].
    apply (rsum_term_le J (fun j => ka * exp (x j) - a * x j - (ka * exp m - a * m))); [|exact Hj].
    intros i _. specialize (T (x i)). lra.
Qed.
Print Assumptions C198_annealing_minimum.

(** The potential of the production constrained model ignores costs and parameters:
    it has its minimum where every zone is as large as [delta] and the demand of the
    origin with the same number allow, whatever the costs. *)
Theorem C198_production_constrained_refuted : forall n O c al be de ka si ep, al <> 0 -> 0 < ka -> si <> 0 -> 0 < ep ->
  (forall j, (j < n)%nat -> 0 < de + O j) ->
  exists f, (forall y, pc_sde_pot n n O c al be de ka si ep y = Ok (f y)) /\
    forall y, f (fun j => ln ((de + O j) / ka)) <= f y.
Proof.
  intros n O c al be de ka si ep Ha Hk Hs He HO. unfold pc_sde_pot. rewrite Nat.eqb_refl.
  eexists; split; [intros y; reflexivity|]. intro y. cbv beta.
  assert (G := factor_pos ep si He Hs). apply Rmult_le_compat_r; [lra|].
  assert (HL : forall y : vec, - (1 / al) * rsum n (fun j => O j * lse n (fun i => log_utility c y al be i j))
     + (ka * rsum n (fun j => exp (y j)) - de * rsum n y) =
     rsum n (fun j => ka * exp (y j) - (de + O j) * y j) - 1 / al * rsum n (fun j => O j * lse n (fun i => - (be * c i j)))).
  { intros z. destruct (Nat.eq_dec n 0) as [->|N0]; [cbn [rsum]; ring|].
    rewrite (rsum_ext n (fun j => O j * lse n (fun i => log_utility c z al be i j))
      (fun j => al * (O j * z j) + O j * lse n (fun i => - (be * c i j)))).
    - rewrite rsum_add, rsum_scal.
      rewrite (rsum_ext n (fun j => ka * exp (z j) - (de + O j) * z j) (fun j => (ka * exp (z j) - de * z j) - O j * z j)) by (intros; ring).
      rewrite !rsum_sub, !rsum_scal. change (rsum n (fun j => z j)) with (rsum n z). field. exact Ha.
    - intros j Hj. assert (E : lse n (fun i => log_utility c z al be i j) = al * z j + lse n (fun i => - (be * c i j))).
      { rewrite Rplus_comm, <- lse_shift by lia. unfold lse. f_equal. apply rsum_ext; intros. f_equal. unfold log_utility; ring. }
      rewrite E. ring. }
  rewrite !HL. apply Rplus_le_compat_r. apply rsum_le; intros j Hj.
  assert (X := exp_tangent ka (de + O j) (y j) Hk (HO j Hj)).
  rewrite exp_ln by (apply Rdiv_lt_0_compat; auto). replace (ka * ((de + O j) / ka)) with (de + O j) by (field; lra). lra.
Qed.
Print Assumptions C198_production_constrained_refuted.

(** ---- non-vacuity ------------------------------------------------------------------------- *)

(** two origins, two destinations, positive parameters: there is a balance, and for
    alpha = 1 only one *)
Example C198_nonvacuous : let c : mat := fun i j => if Nat.eqb i j then 0 else 1 in
  exists x, balanced 2 2 c 1 1 (1 / 10) 2 x /\
    forall y, balanced 2 2 c 1 1 (1 / 10) 2 y -> y 0%nat = x 0%nat /\ y 1%nat = x 1%nat.
Proof.
  intros c. destruct (C198_minimum 2 2 c 1 1 (1 / 10) 2 1 1 ltac:(lia) ltac:(lia) ltac:(lra) ltac:(lra) ltac:(lra) ltac:(lra) ltac:(lra)) as [[x H] B].
  exists x. split; [apply B, H|]. intros y By.
  split; apply (C198_unique_balance 2 2 c 1 1 (1 / 10) 2 y x); try lia; try lra; try exact By; apply B, H.
Qed.
