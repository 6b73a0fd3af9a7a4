(** Properties C36-C38, C66-C70, C72 and C73: the sampler of parameters and
    destination attractions. *)
From Coq Require Import List ZArith Lia Bool Arith Reals Lra FunctionalExtensionality.
From Verif Require Import Base RealBase ProbUtils SIM SIMProps HMC.
Import ListNotations.
Open Scope R_scope.

(** ---- C36 ---------------------------------------------------------------------- *)

Definition opp_vec (p : vec) : vec := fun j => - p j.
(** momentum reversed *)
Definition flip (s : vec * vec * vec) : vec * vec * vec := let '(x, p, g) := s in (x, opp_vec p, g).

Lemma leaps_S_r : forall n e G s, leaps (S n) e G s = leap e G (leaps n e G s).
Proof. induction n as [|n IH]; intros e G s; [reflexivity|]. cbn [leaps] in *. rewrite IH. reflexivity. Qed.

Lemma leap_flip : forall e G x p, leap e G (flip (leap e G (x, p, G x))) = flip (x, p, G x).
Proof.
  intros e G x p. unfold leap, flip, opp_vec. cbv zeta.
  match goal with |- (?a, _, _) = _ => assert (E1 : a = x) end.
  { apply functional_extensionality; intros j. cbv beta. ring. }
  rewrite E1. f_equal. f_equal. apply functional_extensionality; intros j. cbv beta. field.
Qed.

Lemma leaps_gradient : forall n e G x p, let '(x1, p1, g1) := leaps n e G (x, p, G x) in g1 = G x1.
Proof.
  induction n as [|n IH]; intros e G x p; [reflexivity|].
  rewrite leaps_S_r. specialize (IH e G x p). destruct (leaps n e G (x, p, G x)) as [[x1 p1] g1].
  reflexivity.
Qed.

Lemma leaps_flip : forall n e G x p, leaps n e G (flip (leaps n e G (x, p, G x))) = flip (x, p, G x).
Proof.
  induction n as [|n IH]; intros e G x p; [reflexivity|].
  rewrite (leaps_S_r n e G (x, p, G x)). pose proof (leaps_gradient n e G x p) as Hg. specialize (IH e G x p).
  destruct (leaps n e G (x, p, G x)) as [[x1 p1] g1]. subst g1.
  cbn [leaps]. rewrite leap_flip. exact IH.
Qed.

(** The annealing integrator: from any state it returns to the start with the
    momentum reversed, for every gradient field, step size and number of steps. *)
Theorem C36_annealing_leapfrog_reversible : forall n e t g0 g1 x p x' p' g',
  leaps n e (tempered_grad t g0 g1) (x, p, tempered_grad t g0 g1 x) = (x', p', g') ->
  g' = tempered_grad t g0 g1 x' /\
  leaps n e (tempered_grad t g0 g1) (x', fun j => - p' j, g') = (x, fun j => - p j, tempered_grad t g0 g1 x).
Proof.
  intros n e t g0 g1 x p x' p' g' H.
  pose proof (leaps_gradient n e (tempered_grad t g0 g1) x p) as Hg.
  pose proof (leaps_flip n e (tempered_grad t g0 g1) x p) as Hf.
  rewrite H in Hg, Hf. split; [exact Hg|exact Hf].
Qed.
Print Assumptions C36_annealing_leapfrog_reversible.

(** The integrator of the attraction step: it is reversible whenever the gradient
    of the data likelihood is the same at both ends. *)
Theorem C36_attraction_leapfrog_partial : forall m n e ts x p x' p' g',
  x_trajectory m e n ts x (ph_dV m ts x) p = (x', p', g') ->
  ph_dlik m x' = ph_dlik m x ->
  exists g, x_trajectory m e n ts x' (ph_dV m ts x') (fun j => - p' j) = (x, fun j => - p j, g).
Proof.
  intros m n e ts x p x' p' g' H Hd. unfold x_trajectory in *.
  pose (G := (fun z j => ph_dV m ts z j + ph_dlik m x j) : vec -> vec).
  change (leaps n e G (x, p, G x) = (x', p', g')) in H.
  pose proof (leaps_gradient n e G x p) as Hg. pose proof (leaps_flip n e G x p) as Hf.
  rewrite H in Hg, Hf. rewrite Hd. exists (G x).
  change (leaps n e G (x', opp_vec p', G x') = (x, opp_vec p, G x)). rewrite <- Hg. exact Hf.
Qed.
Print Assumptions C36_attraction_leapfrog_partial.

(** One leapfrog step, reversed, misses the start by e^2/2 times the change of
    the data likelihood gradient. *)
Theorem C36_attraction_reversal_error : forall m e ts x p x' p' g' x2 p2 g2,
  x_trajectory m e 1 ts x (ph_dV m ts x) p = (x', p', g') ->
  x_trajectory m e 1 ts x' (ph_dV m ts x') (fun j => - p' j) = (x2, p2, g2) ->
  forall j, x2 j = x j + 1 / 2 * e * e * (ph_dlik m x j - ph_dlik m x' j).
Proof.
  intros m e ts x p x' p' g' x2 p2 g2 H1 H2 j. unfold x_trajectory in *. cbn [leaps leap] in *.
  injection H1 as E1 E2 E3. injection H2 as F1 F2 F3.
  rewrite E1 in E2. rewrite <- F1, <- E2.
  assert (K : x' j = x j + e * (p j - 1 / 2 * e * (ph_dV m ts x j + ph_dlik m x j))) by (rewrite <- E1; reflexivity).
  rewrite K. field.
Qed.
Print Assumptions C36_attraction_reversal_error.

(** Hence with the Gaussian likelihood of the code the reversed step returns to
    the start only if the proposal did not move at all. *)
Theorem C36_attraction_leapfrog_refuted : forall lg I J c T h nv y bmax e ts x p x' p' g' x2 p2 g2,
  let m := hw_physics lg I J c T h nv y bmax in
  nv <> 0 -> e <> 0 ->
  x_trajectory m e 1 ts x (ph_dV m ts x) p = (x', p', g') ->
  x_trajectory m e 1 ts x' (ph_dV m ts x') (fun j => - p' j) = (x2, p2, g2) ->
  forall j, x2 j = x j <-> x' j = x j.
Proof.
  intros lg I J c T h nv y bmax e ts x p x' p' g' x2 p2 g2 m Hnv He H1 H2 j.
  pose proof (C36_attraction_reversal_error m e ts x p x' p' g' x2 p2 g2 H1 H2 j) as E.
  subst m. cbn [ph_dlik hw_physics] in E. unfold neg_log_lik_grad in E. rewrite E. clear -Hnv He.
  split; intros K.
  - assert (Hz : (e * e) * (/ nv * (x j - x' j)) = 0).
    { replace ((e * e) * (/ nv * (x j - x' j))) with (2 * (1 / 2 * e * e * (1 / nv * (x j - y j) - 1 / nv * (x' j - y j))))
        by (field; exact Hnv). lra. }
    apply Rmult_integral in Hz. destruct Hz as [Hz|Hz].
    + apply Rmult_integral in Hz. destruct Hz; contradiction.
    + apply Rmult_integral in Hz. destruct Hz as [Hz|Hz]; [|lra].
      exfalso; revert Hz; apply Rinv_neq_0_compat; exact Hnv.
  - rewrite K. ring.
Qed.
Print Assumptions C36_attraction_leapfrog_refuted.

Lemma demand_single : forall c x al be, demand 1 (tc_log_flow 1 1 c 1 x al be) 0%nat = 1.
Proof.
  intros. unfold demand. rewrite exp_lse by lia. cbn [rsum]. unfold tc_log_flow, lse2, rsum2. cbn [rsum].
  rewrite !Rplus_0_l, ln_exp, ln_1. replace (log_utility c x al be 0%nat 0%nat - log_utility c x al be 0%nat 0%nat + 0) with 0 by ring.
  apply exp_0.
Qed.

(** the hypotheses are met and the proposal does move *)
Example C36_nonvacuous : exists lg I J c T h nv y bmax e ts x p x' p' g' x2 p2 g2,
  let m := hw_physics lg I J c T h nv y bmax in
  nv <> 0 /\ e <> 0 /\
  x_trajectory m e 1 ts x (ph_dV m ts x) p = (x', p', g') /\
  x_trajectory m e 1 ts x' (ph_dV m ts x') (fun j => - p' j) = (x2, p2, g2) /\ x' 0%nat <> x 0%nat.
Proof.
  exists (fun _ => 0), 1%nat, 1%nat, (fun _ _ => 0), 1, (HW 1 0 1 1 1), 1, (fun _ => 0), 1, 1, (1, 1), (fun _ => 0), (fun _ => 1).
  do 6 eexists. cbv zeta. split; [lra|split; [lra|split; [reflexivity|split; [reflexivity|]]]].
  unfold x_trajectory. cbn -[Rplus Rmult Rminus Rdiv demand]. unfold neg_log_lik_grad.
  rewrite demand_single. rewrite exp_0. intros E; lra.
Qed.

(** ---- C37 ---------------------------------------------------------------------- *)

(** the prior range of the parameters *)
Definition in_range2 (th : theta) : Prop := 0 <= fst th < 2 /\ 0 <= snd th < 2.

Lemma outside_spec : forall th, outside th = false <-> in_range2 th.
Proof.
  intros [a b]. unfold outside, in_range2. cbn [fst snd]. rewrite orb_false_iff, Rltb_false, Rleb_false.
  unfold Rmin, Rmax. destruct (Rle_dec a b); split; intros; lra.
Qed.

(** A proposal overshooting a bound is mirrored there: the distance to the bound
    is kept; values in range are kept. *)
Theorem C37_mirrored : forall v,
  (0 <= v <= 2 -> reflect v = v) /\
  (v < 0 -> reflect v - 0 = 0 - v) /\
  (2 < v -> 2 - reflect v = v - 2) /\
  (-2 <= v <= 4 -> 0 <= reflect v <= 2).
Proof.
  intros v. unfold reflect.
  destruct (Rltb v 0) eqn:E1; [apply Rltb_spec in E1|apply Rltb_false in E1];
    [|destruct (Rltb 2 v) eqn:E2; [apply Rltb_spec in E2|apply Rltb_false in E2]];
    repeat split; intros; lra.
Qed.
Print Assumptions C37_mirrored.

(** An accepted parameter is the mirrored random walk and lies in [0,2) x [0,2). *)
Theorem C37_accepted_in_range : forall m zinv step A i prev x t v nll n lu new v' nll',
  theta_gibbs_step m zinv step A i prev x v n lu = (new, 1%nat, v') \/
  theta_given_table_gibbs_step m zinv step A i prev x t v nll n lu = (new, 1%nat, v', nll') ->
  (0 <= fst new < 2 /\ 0 <= snd new < 2) /\
  fst new = reflect (fst prev + step * (A 0%nat 0%nat * n 0%nat + A 0%nat 1%nat * n 1%nat)) /\
  snd new = reflect (snd prev + step * (A 1%nat 0%nat * n 0%nat + A 1%nat 1%nat * n 1%nat)).
Proof.
  intros m zinv step A i prev x t v nll n lu new v' nll' H.
  unfold theta_gibbs_step, theta_given_table_gibbs_step in H.
  assert (K : new = propose_theta step A n prev /\ outside new = false).
  { destruct (outside (propose_theta step A n prev)) eqn:E.
    - destruct H as [H|H]; discriminate H.
    - destruct (zinv i (scaled m (propose_theta step A n prev))) as [lz sg].
      destruct H as [H|H]; destruct (Rltb lu _); try discriminate H;
        injection H as <- <-; split; [reflexivity|exact E|reflexivity|exact E]. }
  destruct K as [K1 K2]. split; [apply outside_spec; exact K2|]. rewrite K1. unfold propose_theta, walk. cbn [fst snd rsum].
  split; f_equal; ring.
Qed.
Print Assumptions C37_accepted_in_range.

(** So a chain started in range stays in range, whatever is drawn. *)
Lemma theta_step_range : forall m zinv step A i prev x v n lu th a v',
  in_range2 prev -> theta_gibbs_step m zinv step A i prev x v n lu = (th, a, v') -> in_range2 th.
Proof.
  intros m zinv step A i prev x v n lu th a v' Hp H. unfold theta_gibbs_step in H.
  destruct (outside (propose_theta step A n prev)) eqn:E; [injection H as <- <- <-; exact Hp|].
  destruct (zinv i (scaled m (propose_theta step A n prev))) as [lz sg].
  destruct (Rltb lu _); injection H as <- <- <-; [apply outside_spec; exact E|exact Hp].
Qed.

Lemma theta_given_table_step_range : forall m zinv step A i prev x t v nll n lu th a v' nll',
  in_range2 prev -> theta_given_table_gibbs_step m zinv step A i prev x t v nll n lu = (th, a, v', nll') -> in_range2 th.
Proof.
  intros m zinv step A i prev x t v nll n lu th a v' nll' Hp H. unfold theta_given_table_gibbs_step in H.
  destruct (outside (propose_theta step A n prev)) eqn:E; [injection H as <- <- <- <-; exact Hp|].
  destruct (zinv i (scaled m (propose_theta step A n prev))) as [lz sg].
  destruct (Rltb lu _); injection H as <- <- <- <-; [apply outside_spec; exact E|exact Hp].
Qed.

Theorem C37_chain_stays_in_range : forall m zinv k,
  (forall ds s s', sim_run m zinv k ds s = Ok s' ->
     0 <= fst (c_theta s) < 2 /\ 0 <= snd (c_theta s) < 2 ->
     0 <= fst (c_theta s') < 2 /\ 0 <= snd (c_theta s') < 2) /\
  (forall ds s s', joint_run m zinv k ds s = Ok s' ->
     0 <= fst (j_theta s) < 2 /\ 0 <= snd (j_theta s) < 2 ->
     0 <= fst (j_theta s') < 2 /\ 0 <= snd (j_theta s') < 2).
Proof.
  intros m zinv k. split.
  - induction ds as [|d ds IH]; intros s s' H Hs; cbn [sim_run] in H.
    + injection H as <-. exact Hs.
    + destruct (sim_step m zinv k d s) as [s1|e] eqn:E; [|discriminate H]. cbn [rbind] in H.
      refine (IH s1 s' H _). destruct d as [i n lu|p lu]; cbn [sim_step] in E.
      * destruct (theta_gibbs_step _ _ _ _ _ _ _ _ _ _) as [[th a] v] eqn:F. injection E as <-.
        exact (theta_step_range _ _ _ _ _ _ _ _ _ _ _ _ _ Hs F).
      * destruct (x_gibbs_step _ _ _ _ _ _ _ _ _ _) as [[[[x a] V] dV]|e] eqn:F; [|discriminate E].
        cbn [rbind] in E. injection E as <-. exact Hs.
  - induction ds as [|d ds IH]; intros s s' H Hs; cbn [joint_run] in H.
    + injection H as <-. exact Hs.
    + destruct (joint_step m zinv k d s) as [s1|e] eqn:E; [|discriminate H]. cbn [rbind] in H.
      refine (IH s1 s' H _). destruct d as [i n lu|p lu|t]; cbn [joint_step] in E.
      * destruct (theta_given_table_gibbs_step _ _ _ _ _ _ _ _ _ _ _ _) as [[[th a] v] nll] eqn:F. injection E as <-.
        exact (theta_given_table_step_range _ _ _ _ _ _ _ _ _ _ _ _ _ _ _ _ Hs F).
      * destruct (x_given_table_gibbs_step _ _ _ _ _ _ _ _ _ _ _ _) as [[[[[x a] V] dV] nll]|e] eqn:F; [|discriminate E].
        cbn [rbind] in E. injection E as <-. exact Hs.
      * injection E as <-. exact Hs.
Qed.
Print Assumptions C37_chain_stays_in_range.

(** a parameter step that overshoots zero, is mirrored and accepted *)
Example C37_nonvacuous : exists m zinv new v',
  theta_gibbs_step m zinv 1 (fun i j => if Nat.eqb i j then 1 else 0) 0 (1/2, 1) (fun _ => 0)
    (TV 0 (fun _ => 0) 0 1) (fun i => if Nat.eqb i 0 then -1 else 0) (-1) = (new, 1%nat, v') /\ fst new = 1/2.
Proof.
  exists (Physics (fun _ _ => 0) (fun _ _ _ => 0) (fun _ => 0) (fun _ _ => 0) (fun _ _ _ => 0) (fun _ _ _ _ => 0) 1), (fun _ _ => (0, 1)).
  set (new := propose_theta 1 (fun i j => if Nat.eqb i j then 1 else 0) (fun i => if Nat.eqb i 0 then -1 else 0) (1/2, 1)).
  assert (E : new = (1/2, 1)).
  { unfold new, propose_theta, walk. cbn [rsum fst snd Nat.eqb].
    f_equal; unfold reflect.
    - assert (F : Rltb (1/2 + 1 * (0 + 1 * -1 + 0 * 0)) 0 = true) by (apply Rltb_spec; lra). rewrite F. lra.
    - assert (F : Rltb (1 + 1 * (0 + 0 * -1 + 1 * 0)) 0 = false) by (apply Rltb_false; lra). rewrite F.
      assert (F2 : Rltb 2 (1 + 1 * (0 + 0 * -1 + 1 * 0)) = false) by (apply Rltb_false; lra). rewrite F2. lra. }
  exists new. eexists. unfold theta_gibbs_step. fold new.
  assert (F : outside new = false) by (apply outside_spec; rewrite E; unfold in_range2; cbn [fst snd]; lra).
  rewrite F. cbn [ph_V ph_dV tv_lz tv_V].
  assert (G : Rltb (-1) (0 - 0 - (0 - 0)) = true) by (apply Rltb_spec; lra). rewrite G.
  split; [reflexivity|rewrite E; reflexivity].
Qed.

(** ---- C66 ---------------------------------------------------------------------- *)

(** The increments that lead from [v] to [w] under reflection at 0 and 2. *)
Definition increments (v w : R) : list R := [w - v; - w - v; 4 - w - v].

Definition rlsum (l : list R) : R := fold_right Rplus 0 l.

(** Density (up to a constant) of the proposal from [a] to [b] when the joint
    increments have density [g]: the sum over all increments leading there. *)
Definition proposal_density (g : R -> R -> R) (a b : theta) : R :=
  rlsum (map (fun u => rlsum (map (fun v => g u v) (increments (snd a) (snd b)))) (increments (fst a) (fst b))).

(** These are exactly the increments of the code that end in [w]. *)
Theorem C66_increments : forall v w z, 0 <= w < 2 -> (reflect (v + z) = w <-> In z (increments v w)).
Proof.
  intros v w z Hw. unfold increments. cbn [In]. unfold reflect.
  destruct (Rltb (v + z) 0) eqn:E1; [apply Rltb_spec in E1|apply Rltb_false in E1];
    [|destruct (Rltb 2 (v + z)) eqn:E2; [apply Rltb_spec in E2|apply Rltb_false in E2]];
    (split; [intros H|intros [H|[H|[H|[]]]]]; try lra).
Qed.
Print Assumptions C66_increments.

(** A proposal made with the normal draws [n] is the pair [b] exactly when the
    two components of the scaled increment are among them. *)
Theorem C66_proposal_increments : forall step (A : mat) (n : vec) a b, in_range2 b ->
  (propose_theta step A n a = b <->
   In (step * (A 0%nat 0%nat * n 0%nat + A 0%nat 1%nat * n 1%nat)) (increments (fst a) (fst b)) /\
   In (step * (A 1%nat 0%nat * n 0%nat + A 1%nat 1%nat * n 1%nat)) (increments (snd a) (snd b))).
Proof.
  intros step A n [a0 a1] [b0 b1] [H0 H1]. cbn [fst snd] in *. unfold propose_theta. cbn [fst snd].
  rewrite <- !C66_increments by assumption.
  assert (W : forall i, walk step A n i = step * (A i 0%nat * n 0%nat + A i 1%nat * n 1%nat)).
  { intros i. unfold walk. cbn [rsum]. ring. }
  rewrite <- !W. split; [intros E; injection E; auto|intros [E0 E1]; rewrite E0, E1; reflexivity].
Qed.
Print Assumptions C66_proposal_increments.

(** With uncorrelated proposals (diagonal matrix) the proposal density is
    symmetric, as the acceptance rule assumes. *)
Theorem C66_uncorrelated_partial : forall s0 s1 a b,
  let g := fun u v => exp (- (1 / 2) * ((u / s0) * (u / s0) + (v / s1) * (v / s1))) in
  proposal_density g a b = proposal_density g b a.
Proof.
  intros s0 s1 [a0 a1] [b0 b1] g. unfold proposal_density, increments. cbn [map rlsum fold_right fst snd].
  assert (G : forall u v u' v', u' * u' = u * u -> v' * v' = v * v -> g u v = g u' v').
  { intros u v u' v' Hu Hv. unfold g. do 2 f_equal.
    replace (u' / s0 * (u' / s0)) with (u' * u' * (/ s0 * / s0)) by (unfold Rdiv; ring).
    replace (v' / s1 * (v' / s1)) with (v' * v' * (/ s1 * / s1)) by (unfold Rdiv; ring).
    rewrite Hu, Hv. unfold Rdiv; ring. }
  rewrite (G (a0 - b0) (a1 - b1) (b0 - a0) (b1 - a1)) by ring.
  rewrite (G (a0 - b0) (- a1 - b1) (b0 - a0) (- b1 - a1)) by ring.
  rewrite (G (a0 - b0) (4 - a1 - b1) (b0 - a0) (4 - b1 - a1)) by ring.
  rewrite (G (- a0 - b0) (a1 - b1) (- b0 - a0) (b1 - a1)) by ring.
  rewrite (G (- a0 - b0) (- a1 - b1) (- b0 - a0) (- b1 - a1)) by ring.
  rewrite (G (- a0 - b0) (4 - a1 - b1) (- b0 - a0) (4 - b1 - a1)) by ring.
  rewrite (G (4 - a0 - b0) (a1 - b1) (4 - b0 - a0) (b1 - a1)) by ring.
  rewrite (G (4 - a0 - b0) (- a1 - b1) (4 - b0 - a0) (- b1 - a1)) by ring.
  rewrite (G (4 - a0 - b0) (4 - a1 - b1) (4 - b0 - a0) (4 - b1 - a1)) by ring.
  reflexivity.
Qed.
Print Assumptions C66_uncorrelated_partial.

(** With correlated proposals it is not: reflecting one component only changes
    the sign of the product of the increments.  [A] is the matrix 1, 1/2; 1/2, 1
    and the density is that of A applied to two standard normal draws. *)
Theorem C66_correlated_refuted : exists (A : mat) (n : R -> R -> vec) a b,
  (forall u v, walk 1 A (n u v) 0 = u) /\ (forall u v, walk 1 A (n u v) 1 = v) /\
  in_range2 a /\ in_range2 b /\
  let g := fun u v => exp (- (1 / 2) * (n u v 0%nat * n u v 0%nat + n u v 1%nat * n u v 1%nat)) in
  proposal_density g a b <> proposal_density g b a.
Proof.
  exists (fun i j => match i, j with O, O => 1 | O, _ => 1/2 | _, O => 1/2 | _, _ => 1 end).
  exists (fun u v i => match i with O => 4/3 * (u - v/2) | _ => 4/3 * (v - u/2) end).
  exists (1/2, 1), (1/2, 3/2).
  split; [intros u v; unfold walk; cbn [rsum]; field|].
  split; [intros u v; unfold walk; cbn [rsum]; field|].
  split; [unfold in_range2; cbn [fst snd]; lra|]. split; [unfold in_range2; cbn [fst snd]; lra|].
  set (g := fun u v => _).
  assert (G : forall u v, g u v = exp (- (8/9) * (5/4 * (u * u) + 5/4 * (v * v) - 2 * (u * v)))).
  { intros u v. unfold g. f_equal. field. }
  cbv zeta. fold g. unfold proposal_density, increments. cbn [map rlsum fold_right fst snd].
  replace (1/2 - 1/2) with 0 by field. replace (- (1/2) - 1/2) with (-1) by field. replace (4 - 1/2 - 1/2) with 3 by field.
  replace (3/2 - 1) with (1/2) by field. replace (- (3/2) - 1) with (-(5/2)) by field. replace (4 - 3/2 - 1) with (3/2) by field.
  replace (1 - 3/2) with (-(1/2)) by field. replace (- (1) - 3/2) with (-(5/2)) by field. replace (4 - 1 - 3/2) with (3/2) by field.
  assert (E0 : g 0 (1/2) = g 0 (-(1/2))) by (rewrite !G; f_equal; field).
  assert (E3 : g 3 (1/2) <= g (-1) (1/2)).
  { rewrite !G. apply Rlt_le, exp_increasing. lra. }
  assert (E4 : 0 < g 3 (-(1/2))) by (rewrite G; apply exp_pos).
  assert (E5 : 2 * g (-1) (1/2) < g (-1) (-(1/2))).
  { rewrite !G. replace (- (8/9) * (5/4 * (-1 * -1) + 5/4 * (-(1/2) * -(1/2)) - 2 * (-1 * -(1/2)))) with
      (16/9 + - (8/9) * (5/4 * (-1 * -1) + 5/4 * (1/2 * (1/2)) - 2 * (-1 * (1/2)))) by field.
    rewrite exp_plus. apply Rmult_lt_compat_r; [apply exp_pos|].
    pose proof (exp_ineq1 (16/9)). lra. }
  intros E. lra.
Qed.
Print Assumptions C66_correlated_refuted.

Example C66_nonvacuous : In (-(1)) (increments (1/2) (1/2)) /\ In 0 (increments (1/2) (1/2)) /\ in_range2 (1/2, 1/2).
Proof.
  unfold increments, in_range2. cbn [In fst snd]. split; [right; left; lra|]. split; [left; lra|]. lra.
Qed.

(** ---- C38 ---------------------------------------------------------------------- *)

(** the values that belong to parameters [th] and attractions [x]: potential and
    gradient there, and a normalising constant drawn for these parameters *)
Definition matching (m : physics) (zinv : nat -> theta -> R * R) (th : theta) (x : vec) (v : tvals) : Prop :=
  let ts := (fst th, snd th * ph_bmax m) in
  tv_V v = ph_V m ts x /\ tv_dV v = ph_dV m ts x /\ exists i, zinv i ts = (tv_lz v, tv_sign v).

(** A parameter step either keeps every previous value (flag 0) or returns the
    values that belong to the new parameters (flag 1); flag 1 exactly when the
    proposal is in range and the log of the uniform draw is below the difference
    of the log targets. *)
Theorem C38_theta_step : forall m zinv step A i prev x v n lu th a v',
  theta_gibbs_step m zinv step A i prev x v n lu = (th, a, v') ->
  (a = 0%nat /\ th = prev /\ v' = v) \/
  (a = 1%nat /\ th = propose_theta step A n prev /\ matching m zinv th x v' /\
   zinv i (scaled m th) = (tv_lz v', tv_sign v') /\ lu < (tv_lz v' - tv_V v') - (tv_lz v - tv_V v)).
Proof.
  intros m zinv step A i prev x v n lu th a v' H. unfold theta_gibbs_step in H.
  destruct (outside (propose_theta step A n prev)); [injection H as <- <- <-; left; repeat split|].
  destruct (zinv i (scaled m (propose_theta step A n prev))) as [lz sg] eqn:E.
  destruct (Rltb lu _) eqn:F; injection H as <- <- <-; [right|left; repeat split].
  apply Rltb_spec in F. cbn [tv_V tv_dV tv_lz tv_sign].
  split; [reflexivity|split; [reflexivity|split; [|split; [exact E|exact F]]]].
  unfold matching. cbn [tv_V tv_dV tv_lz tv_sign]. split; [reflexivity|split; [reflexivity|]]. exists i. exact E.
Qed.
Print Assumptions C38_theta_step.

(** and with the proposal in range and a low enough draw it does accept *)
Theorem C38_theta_step_accepts : forall m zinv step A i prev x v n lu,
  let new := propose_theta step A n prev in
  let ts := scaled m new in
  (0 <= fst new < 2 /\ 0 <= snd new < 2) ->
  lu < (fst (zinv i ts) - ph_V m ts x) - (tv_lz v - tv_V v) ->
  theta_gibbs_step m zinv step A i prev x v n lu
    = (new, 1%nat, TV (ph_V m ts x) (ph_dV m ts x) (fst (zinv i ts)) (snd (zinv i ts))).
Proof.
  intros m zinv step A i prev x v n lu new ts Hr Hl. unfold theta_gibbs_step. fold new. fold ts.
  assert (E : outside new = false) by (apply outside_spec; exact Hr). rewrite E.
  destruct (zinv i ts) as [lz sg]. cbn [fst snd] in *.
  assert (F : Rltb lu (lz - ph_V m ts x - (tv_lz v - tv_V v)) = true) by (apply Rltb_spec; exact Hl).
  rewrite F. reflexivity.
Qed.
Print Assumptions C38_theta_step_accepts.

(** The same given a table, with the table likelihood. *)
Theorem C38_theta_given_table_step : forall m zinv step A i prev x t v nll n lu th a v' nll',
  theta_given_table_gibbs_step m zinv step A i prev x t v nll n lu = (th, a, v', nll') ->
  (a = 0%nat /\ th = prev /\ v' = v /\ nll' = nll) \/
  (a = 1%nat /\ th = propose_theta step A n prev /\ matching m zinv th x v' /\ nll' = ph_nll m (scaled m th) x t /\
   lu < (tv_lz v' - tv_V v' - nll') - (tv_lz v - tv_V v - nll)).
Proof.
  intros m zinv step A i prev x t v nll n lu th a v' nll' H. unfold theta_given_table_gibbs_step in H.
  destruct (outside (propose_theta step A n prev)); [injection H as <- <- <- <-; left; repeat split|].
  destruct (zinv i (scaled m (propose_theta step A n prev))) as [lz sg] eqn:E.
  destruct (Rltb lu _) eqn:F; injection H as <- <- <- <-; [right|left; repeat split].
  apply Rltb_spec in F. cbn [tv_V tv_dV tv_lz tv_sign].
  split; [reflexivity|split; [reflexivity|split; [|split; [reflexivity|exact F]]]].
  unfold matching. cbn [tv_V tv_dV tv_lz tv_sign]. split; [reflexivity|split; [reflexivity|]]. exists i. exact E.
Qed.
Print Assumptions C38_theta_given_table_step.

(** An attraction step with at least one leapfrog step never fails and returns
    either all previous values or the new attractions with their potential and
    gradient; without leapfrog steps it fails for every draw u < 1. *)
Theorem C38_attraction_step : forall J m e steps th prev V dV p lu,
  (steps = 0%nat -> lu < 0 -> x_gibbs_step J m e steps th prev V dV p lu = Raise EUnbound) /\
  (steps <> 0%nat -> exists x a V' dV', x_gibbs_step J m e steps th prev V dV p lu = Ok (x, a, V', dV') /\
     ((a = 0%nat /\ x = prev /\ V' = V /\ dV' = dV) \/
      (a = 1%nat /\ x = fst (fst (x_trajectory m e steps (scaled m th) prev dV p)) /\
       V' = ph_V m (scaled m th) x /\ dV' = ph_dV m (scaled m th) x))).
Proof.
  intros J m e steps th prev V dV p lu. split.
  - intros -> Hlu. unfold x_gibbs_step, x_trajectory. cbn [leaps].
    assert (E : Rltb lu (kinetic J p + (V + ph_lik m prev) - (kinetic J p + (V + ph_lik m prev))) = true)
      by (apply Rltb_spec; lra).
    rewrite E. reflexivity.
  - intros Hs. unfold x_gibbs_step.
    destruct (x_trajectory m e steps (scaled m th) prev dV p) as [[x1 p1] g1]. cbn [fst].
    destruct steps as [|k]; [contradiction|].
    destruct (Rltb lu _).
    + do 4 eexists. split; [reflexivity|]. right. repeat split.
    + do 4 eexists. split; [reflexivity|]. left. repeat split.
Qed.
Print Assumptions C38_attraction_step.

(** Hence along every run of the chain, whatever is drawn, the potential, its
    gradient, the normalising constant and the sign kept with the sample are
    those of the current parameters and attractions. *)
Theorem C38_chain_values_match : forall m zinv k th0 x0 ds s,
  sim_run m zinv k ds (sim_start m zinv th0 x0) = Ok s -> matching m zinv (c_theta s) (c_x s) (c_vals s).
Proof.
  intros m zinv k th0 x0 ds s.
  assert (K : forall ds s0 s, matching m zinv (c_theta s0) (c_x s0) (c_vals s0) -> sim_run m zinv k ds s0 = Ok s ->
     matching m zinv (c_theta s) (c_x s) (c_vals s)).
  { clear. induction ds as [|d ds IH]; intros s0 s H0 H; cbn [sim_run] in H.
    - injection H as <-. exact H0.
    - destruct (sim_step m zinv k d s0) as [s1|e] eqn:E; [|discriminate H]. cbn [rbind] in H.
      refine (IH s1 s _ H). destruct d as [i n lu|p lu]; cbn [sim_step] in E.
      + destruct (theta_gibbs_step _ _ _ _ _ _ _ _ _ _) as [[th a] v] eqn:F. injection E as <-. cbn [c_theta c_x c_vals].
        apply C38_theta_step in F. destruct F as [(_ & -> & ->)|(_ & _ & F & _)]; [exact H0|exact F].
      + destruct (x_gibbs_step _ _ _ _ _ _ _ _ _ _) as [[[[x a] V] dV]|e] eqn:F; [|discriminate E].
        cbn [rbind] in E. injection E as <-. cbn [c_theta c_x c_vals].
        destruct H0 as (H1 & H2 & H3). unfold matching. cbn [tv_V tv_dV tv_lz tv_sign].
        destruct (Nat.eq_dec (h_leaps k) 0) as [Hz|Hz].
        * rewrite Hz in F. unfold x_gibbs_step, x_trajectory in F. cbn [leaps] in F.
          destruct (Rltb lu _) in F; [discriminate F|]. injection F as <- <- <- <-. repeat split; assumption.
        * pose proof (proj2 (C38_attraction_step (h_J k) m (h_eps k) (h_leaps k) (c_theta s0) (c_x s0)
              (tv_V (c_vals s0)) (tv_dV (c_vals s0)) p lu) Hz) as (x' & a' & V' & dV' & G & D).
          rewrite F in G. injection G as <- <- <- <-.
          destruct D as [(_ & -> & -> & ->)|(_ & _ & -> & ->)]; repeat split; assumption. }
  apply K. unfold sim_start. destruct (zinv 0%nat (scaled m th0)) as [lz sg] eqn:E. cbn [c_theta c_x c_vals].
  unfold matching. cbn [tv_V tv_dV tv_lz tv_sign]. split; [reflexivity|split; [reflexivity|]]. exists 0%nat. exact E.
Qed.
Print Assumptions C38_chain_values_match.

(** a run whose parameter step and attraction step are both accepted *)
Example C38_nonvacuous : exists m zinv k ds s th0 x0,
  sim_run m zinv k ds (sim_start m zinv th0 x0) = Ok s /\ fst (c_theta s) <> fst th0 /\ c_x s 0%nat <> x0 0%nat.
Proof.
  exists (Physics (fun _ _ => 0) (fun _ _ _ => 0) (fun _ => 0) (fun _ _ => 0) (fun _ _ _ => 0) (fun _ _ _ _ => 0) 1), (fun _ _ => (0, 1)),
    (HMC 1 1 (fun i j => if Nat.eqb i j then 1 else 0) 1 1),
    [ThetaDraw 0 (fun i => if Nat.eqb i 0 then 1/2 else 0) (-1); XDraw (fun _ => 1) (-1)].
  set (new := propose_theta 1 (fun i j => if Nat.eqb i j then 1 else 0) (fun i => if Nat.eqb i 0 then 1/2 else 0) (1, 1)).
  assert (E : new = (3/2, 1)).
  { unfold new, propose_theta, walk. cbn [rsum fst snd Nat.eqb].
    f_equal.
    - rewrite (proj1 (C37_mirrored _)); lra.
    - rewrite (proj1 (C37_mirrored _)); lra. }
  eexists. exists (1, 1), (fun _ => 0).
  cbn [sim_run]. unfold sim_start. cbn [sim_step c_theta c_x c_vals h_step h_A h_J h_eps h_leaps].
  rewrite C38_theta_step_accepts.
  - fold new. cbn [rbind ph_V ph_dV fst snd].
    unfold x_gibbs_step, x_trajectory. cbn [leaps leap ph_V ph_dV ph_lik ph_dlik tv_V tv_dV c_vals c_x c_theta].
    assert (F : Rltb (-1) (kinetic 1 (fun _ : nat => 1) + (0 + 0) -
         (kinetic 1 (fun j : nat => 1 - 1 / 2 * 1 * (0 + 0) - 1 / 2 * 1 * (0 + 0)) + (0 + 0))) = true).
    { apply Rltb_spec. unfold kinetic. cbn [rsum]. lra. }
    rewrite F. cbn [rbind]. split; [reflexivity|]. cbn [c_theta c_x]. rewrite E. cbn [fst]. split; lra.
  - fold new. rewrite E. cbn [fst snd]. lra.
  - cbn [fst snd ph_V tv_lz tv_V]. lra.
Qed.

(** ---- C67 ---------------------------------------------------------------------- *)

(** Log density, up to a constant, of the logarithms of [J] independent
    Gamma(shape a, rate b) variables. *)
Definition log_gamma_density (J : nat) (a b : R) (x : vec) : R := rsum J (fun j => a * x j - b * exp (x j)).

(** The particles of the annealed importance sampler start from the temperature
    zero distribution, exp(-prior potential), only when 2 kappa / sigma^2 = 1. *)
Theorem C67_start_distribution_partial : forall J de ka si, (0 < J)%nat -> 0 < ka -> si <> 0 ->
  ((exists K, forall x, log_gamma_density J (ais_start_shape J de si) (ais_start_rate ka si) x = - ais_pot J de ka si x + K)
   <-> 2 / (si * si) * ka = 1).
Proof.
  intros J de ka si HJ Hka Hsi.
  assert (Hs : 0 < si * si) by nra.
  assert (Hg : 0 < 2 / (si * si) * ka).
  { apply Rmult_lt_0_compat; [apply Rdiv_lt_0_compat; lra|exact Hka]. }
  assert (D : forall x, log_gamma_density J (ais_start_shape J de si) (ais_start_rate ka si) x + ais_pot J de ka si x
                        = (2 / (si * si) * ka - ais_start_rate ka si) * rsum J (fun j => exp (x j))).
  { intros x. unfold log_gamma_density, ais_pot, ais_start_shape. cbv zeta.
    rewrite rsum_sub, !rsum_scal. ring. }
  assert (HJr : 0 < INR J) by (apply lt_0_INR; exact HJ).
  split.
  - intros [K HK].
    pose proof (D (fun _ => 0)) as D0. pose proof (D (fun _ => ln 2)) as D1.
    rewrite HK in D0, D1. rewrite rsum_const, exp_0 in D0. rewrite rsum_const, exp_ln in D1 by lra.
    assert (Z : (2 / (si * si) * ka - ais_start_rate ka si) * INR J = 0) by lra.
    apply Rmult_integral in Z. destruct Z as [Z|Z]; [|lra].
    unfold ais_start_rate in Z. set (g := 2 / (si * si) * ka) in *.
    assert (G : g * g = 1). { replace 1 with (g * (1 / g)) by (field; lra). apply f_equal. lra. }
    nra.
  - intros E. exists 0. intros x. pose proof (D x) as Dx. unfold ais_start_rate in *. rewrite E in *.
    replace (1 - 1 / 1) with 0 in Dx by field. lra.
Qed.
Print Assumptions C67_start_distribution_partial.

(** With kappa = sigma = 1 it does not. *)
Theorem C67_start_distribution_refuted : exists J de ka si, (0 < J)%nat /\ 0 < ka /\ 0 < si /\
  ~ exists K, forall x, log_gamma_density J (ais_start_shape J de si) (ais_start_rate ka si) x = - ais_pot J de ka si x + K.
Proof.
  exists 1%nat, 0, 1, 1. split; [lia|split; [lra|split; [lra|]]].
  rewrite C67_start_distribution_partial by (try lia; lra). intros E. lra.
Qed.
Print Assumptions C67_start_distribution_refuted.

(** ---- C68 ---------------------------------------------------------------------- *)

Lemma temperature_step : forall n it, (2 <= n)%nat -> (1 <= it)%nat ->
  temperature n it - temperature n (it - 1) = / INR (n - 1).
Proof.
  intros n it Hn Hi. unfold temperature. destruct it as [|k]; [lia|]. rewrite S_INR.
  replace (S k - 1)%nat with k by lia. field. apply not_0_INR. lia.
Qed.

Lemma anneal_bounds : forall J n V0 V1 g0 g1 e steps lo hi, (2 <= n)%nat ->
  (forall x, lo <= V0 x - V1 x <= hi) ->
  forall k it draws x w r, (1 <= it)%nat ->
  anneal J n V0 V1 g0 g1 e steps k it draws x w = Ok r ->
  w + INR k * / INR (n - 1) * lo <= r <= w + INR k * / INR (n - 1) * hi.
Proof.
  intros J n V0 V1 g0 g1 e steps lo hi Hn Hb.
  assert (Hp : 0 < / INR (n - 1)) by (apply Rinv_0_lt_compat, lt_0_INR; lia).
  induction k as [|k IH]; intros it draws x w r Hi H; cbn [anneal] in H.
  - injection H as <-. cbn [INR]. lra.
  - destruct (draws it) as [p lu].
    destruct (leaps steps e (tempered_grad (temperature n it) g0 g1) (x, p, tempered_grad (temperature n it) g0 g1 x)) as [[x1 p1] gg].
    assert (K : exists x', anneal J n V0 V1 g0 g1 e steps k (S it) draws x'
                 (w + (temperature n it - temperature n (it - 1)) * (V0 x - V1 x)) = Ok r).
    { destruct (Rltb lu _) in H; [destruct steps; [discriminate H|]|]; eexists; exact H. }
    destruct K as [x' K]. apply IH in K; [|lia]. rewrite temperature_step in K by assumption. rewrite S_INR.
    pose proof (Hb x). nra.
Qed.

Lemma ais_weights_bounds : forall J n V0 V1 g0 g1 e steps S starts draws lo hi, (2 <= n)%nat ->
  (forall x, lo <= V0 x - V1 x <= hi) ->
  forall q l, ais_weights J n V0 V1 g0 g1 e steps S q starts draws = Ok l ->
  length l = q /\ forall w, In w l -> - ln (INR S) + lo <= w <= - ln (INR S) + hi.
Proof.
  intros J n V0 V1 g0 g1 e steps S starts draws lo hi Hn Hb.
  induction q as [|q IH]; intros l H; cbn [ais_weights] in H.
  - injection H as <-. split; [reflexivity|]. intros w [].
  - destruct (ais_weights _ _ _ _ _ _ _ _ _ q _ _) as [l0|] eqn:E; [|discriminate H]. cbn [rbind] in H.
    destruct (anneal _ _ _ _ _ _ _ _ _ _ _ _ _) as [w0|] eqn:F; [|discriminate H]. cbn [rbind] in H. injection H as <-.
    destruct (IH l0 eq_refl) as [IH1 IH2]. split; [rewrite app_length, IH1; cbn; lia|].
    intros w Hw. apply in_app_or in Hw. destruct Hw as [Hw|[<-|[]]]; [exact (IH2 w Hw)|].
    pose proof (anneal_bounds J n V0 V1 g0 g1 e steps lo hi Hn Hb (n - 1) 1 _ _ _ _ (Nat.le_refl 1) F) as B.
    assert (HI : INR (n - 1) <> 0) by (apply not_0_INR; lia).
    rewrite Rinv_r in B by exact HI. lra.
Qed.

Lemma lse_bounds : forall S f a b, (0 < S)%nat -> (forall i, (i < S)%nat -> - ln (INR S) + a <= f i <= - ln (INR S) + b) ->
  a <= lse S f <= b.
Proof.
  intros S f a b HS H. pose proof (lt_0_INR S HS) as Hp.
  assert (C : forall c, ln (rsum S (fun _ => exp (- ln (INR S) + c))) = c).
  { intros c. rewrite rsum_const, exp_plus, exp_Ropp, exp_ln by exact Hp.
    replace (INR S * (/ INR S * exp c)) with (exp c) by (field; lra). apply ln_exp. }
  assert (P : forall g : nat -> R, 0 < rsum S (fun k => exp (g k))) by (intros; apply exp_sum_pos; exact HS).
  assert (M : forall u v, 0 < u -> u <= v -> ln u <= ln v).
  { intros u v Hu [Hv| ->]; [left; apply ln_increasing; assumption|right; reflexivity]. }
  assert (X : forall u v, u <= v -> exp u <= exp v).
  { intros u v [Hv| ->]; [left; apply exp_increasing; assumption|right; reflexivity]. }
  unfold lse. split.
  - rewrite <- (C a). apply M; [apply (P (fun _ => - ln (INR S) + a))|]. apply rsum_le; intros i Hi. apply X. apply H; exact Hi.
  - rewrite <- (C b). apply M; [apply P|]. apply rsum_le; intros i Hi. apply X. apply H; exact Hi.
Qed.

(** Whatever is drawn, the estimate of the log normalising constant lies between
    the extremes of log prior - log target differences. *)
Theorem C68_estimate_bounds : forall J n V0 V1 g0 g1 e steps S starts draws lo hi r,
  (2 <= n)%nat -> (0 < S)%nat -> (forall x, lo <= V0 x - V1 x <= hi) ->
  ais_log_z J n V0 V1 g0 g1 e steps S starts draws = Ok r -> lo <= r <= hi.
Proof.
  intros J n V0 V1 g0 g1 e steps S starts draws lo hi r Hn HS Hb H. unfold ais_log_z in H.
  destruct (ais_weights J n V0 V1 g0 g1 e steps S S starts draws) as [l|] eqn:E; [|discriminate H].
  cbn [rbind] in H. injection H as <-.
  destruct (ais_weights_bounds _ _ _ _ _ _ _ _ _ _ _ _ _ Hn Hb _ _ E) as [HL HW].
  apply lse_bounds; [exact HS|]. intros i Hi. apply HW, nth_In. lia.
Qed.
Print Assumptions C68_estimate_bounds.

(** In particular it is exact, without any Monte Carlo error, when the target is
    the prior up to a constant factor exp(-c). *)
Theorem C68_exact_for_proportional_target : forall J n V0 V1 g0 g1 e steps S starts draws c r,
  (2 <= n)%nat -> (0 < S)%nat -> (forall x, V1 x = V0 x + c) ->
  ais_log_z J n V0 V1 g0 g1 e steps S starts draws = Ok r -> r = - c.
Proof.
  intros J n V0 V1 g0 g1 e steps S starts draws c r Hn HS Hc H.
  assert (B : - c <= r <= - c).
  { eapply C68_estimate_bounds; try eassumption. intros x. rewrite Hc. lra. }
  lra.
Qed.
Print Assumptions C68_exact_for_proportional_target.

Lemma anneal_shift : forall J n V0 V1 V1' g0 g1 e steps c, (2 <= n)%nat -> (forall x, V1' x = V1 x + c) ->
  forall k it draws x w w', (1 <= it)%nat ->
  anneal J n V0 V1' g0 g1 e steps k it draws x w' =
  match anneal J n V0 V1 g0 g1 e steps k it draws x w with
  | Ok r => Ok (r + (w' - w) - INR k * / INR (n - 1) * c) | Raise er => Raise er end.
Proof.
  intros J n V0 V1 V1' g0 g1 e steps c Hn Hc.
  induction k as [|k IH]; intros it draws x w w' Hi; cbn [anneal].
  - f_equal. cbn [INR]. ring.
  - destruct (draws it) as [p lu].
    destruct (leaps steps e (tempered_grad (temperature n it) g0 g1) (x, p, tempered_grad (temperature n it) g0 g1 x)) as [[x1 p1] gg].
    assert (E : kinetic J p + tempered (temperature n it) V0 V1' x - (kinetic J p1 + tempered (temperature n it) V0 V1' x1) =
                kinetic J p + tempered (temperature n it) V0 V1 x - (kinetic J p1 + tempered (temperature n it) V0 V1 x1)).
    { unfold tempered. rewrite !Hc. ring. }
    rewrite E. destruct (Rltb lu _).
    + destruct steps; [reflexivity|].
      rewrite (IH (S it) draws x1 (w + (temperature n it - temperature n (it - 1)) * (V0 x - V1 x))) by lia.
      destruct (anneal _ _ _ _ _ _ _ _ _ _ _ _ _); [|reflexivity]. f_equal.
      rewrite temperature_step by assumption. rewrite Hc, S_INR. ring.
    + rewrite (IH (S it) draws x (w + (temperature n it - temperature n (it - 1)) * (V0 x - V1 x))) by lia.
      destruct (anneal _ _ _ _ _ _ _ _ _ _ _ _ _); [|reflexivity]. f_equal.
      rewrite temperature_step by assumption. rewrite Hc, S_INR. ring.
Qed.

Lemma ais_weights_shift : forall J n V0 V1 V1' g0 g1 e steps S starts draws c, (2 <= n)%nat -> (forall x, V1' x = V1 x + c) ->
  forall q, ais_weights J n V0 V1' g0 g1 e steps S q starts draws =
  match ais_weights J n V0 V1 g0 g1 e steps S q starts draws with
  | Ok l => Ok (map (fun r => r - c) l) | Raise er => Raise er end.
Proof.
  intros J n V0 V1 V1' g0 g1 e steps S starts draws c Hn Hc.
  assert (HI : INR (n - 1) <> 0) by (apply not_0_INR; lia).
  induction q as [|q IH]; cbn [ais_weights]; [reflexivity|]. rewrite IH.
  destruct (ais_weights J n V0 V1 g0 g1 e steps S q starts draws) as [l0|]; [|reflexivity]. cbn [rbind].
  rewrite (anneal_shift J n V0 V1 V1' g0 g1 e steps c Hn Hc (n - 1) 1 (draws q) (starts q) (- ln (INR S))) by lia.
  destruct (anneal _ _ _ _ _ _ _ _ _ _ _ _ _); [|reflexivity]. cbn [rbind]. f_equal. rewrite map_app. cbn [map].
  do 2 f_equal. rewrite Rinv_r by exact HI. ring.
Qed.

Lemma ais_weights_length : forall J n V0 V1 g0 g1 e steps S starts draws q l,
  ais_weights J n V0 V1 g0 g1 e steps S q starts draws = Ok l -> length l = q.
Proof.
  intros J n V0 V1 g0 g1 e steps S starts draws. induction q as [|q IHq]; intros l H; cbn [ais_weights] in H.
  - injection H as <-. reflexivity.
  - destruct (ais_weights _ _ _ _ _ _ _ _ _ q _ _) as [l0|]; [|discriminate H]. cbn [rbind] in H.
    destruct (anneal _ _ _ _ _ _ _ _ _ _ _ _ _); [|discriminate H]. cbn [rbind] in H. injection H as <-.
    rewrite app_length, (IHq l0 eq_refl). cbn. lia.
Qed.

(** Adding a constant to the target potential shifts the estimate by exactly
    minus this constant, for the same draws. *)
Theorem C68_shift : forall J n V0 V1 V1' g0 g1 e steps S starts draws c,
  (2 <= n)%nat -> (0 < S)%nat -> (forall x, V1' x = V1 x + c) ->
  ais_log_z J n V0 V1' g0 g1 e steps S starts draws =
  match ais_log_z J n V0 V1 g0 g1 e steps S starts draws with Ok r => Ok (r - c) | Raise er => Raise er end.
Proof.
  intros J n V0 V1 V1' g0 g1 e steps S starts draws c Hn HS Hc. unfold ais_log_z.
  rewrite (ais_weights_shift J n V0 V1 V1' g0 g1 e steps S starts draws c Hn Hc S).
  destruct (ais_weights J n V0 V1 g0 g1 e steps S S starts draws) as [l|] eqn:E; [|reflexivity]. cbn [rbind]. f_equal.
  pose proof (ais_weights_length _ _ _ _ _ _ _ _ _ _ _ _ _ E) as HL.
  unfold Rminus. rewrite <- lse_shift by exact HS. unfold lse. f_equal. apply rsum_ext; intros i Hi. f_equal.
  rewrite (nth_indep _ 0 ((fun r => r + - c) 0)) by (rewrite map_length; lia).
  rewrite (map_nth (fun r => r + - c)). reflexivity.
Qed.
Print Assumptions C68_shift.

(** With at least one leapfrog step the estimate always exists; with none, an
    accepted move fails. *)
Lemma anneal_total : forall J n V0 V1 g0 g1 e steps k it draws x w, steps <> 0%nat ->
  exists r, anneal J n V0 V1 g0 g1 e steps k it draws x w = Ok r.
Proof.
  intros J n V0 V1 g0 g1 e steps k it draws x w Hs. revert it x w.
  induction k as [|k IH]; intros it x w; cbn [anneal]; [eexists; reflexivity|].
  destruct (draws it) as [p lu].
  destruct (leaps _ _ _ _) as [[x1 p1] gg]. destruct (Rltb lu _); [destruct steps; [contradiction|]|]; apply IH.
Qed.

Theorem C68_estimate_exists : forall J n V0 V1 g0 g1 e steps S starts draws,
  (steps <> 0%nat -> exists r, ais_log_z J n V0 V1 g0 g1 e steps S starts draws = Ok r) /\
  (steps = 0%nat -> (2 <= n)%nat -> (0 < S)%nat -> (forall i, snd (draws i 1%nat) < 0) ->
   ais_log_z J n V0 V1 g0 g1 e steps S starts draws = Raise EUnbound).
Proof.
  intros J n V0 V1 g0 g1 e steps S starts draws. split.
  - intros Hs. unfold ais_log_z.
    assert (K : forall q, exists l, ais_weights J n V0 V1 g0 g1 e steps S q starts draws = Ok l).
    { induction q as [|q [l IH]]; cbn [ais_weights]; [eexists; reflexivity|]. rewrite IH. cbn [rbind].
      destruct (anneal_total J n V0 V1 g0 g1 e steps (n - 1) 1 (draws q) (starts q) (- ln (INR S)) Hs) as [r E].
      rewrite E. eexists; reflexivity. }
    destruct (K S) as [l E]. rewrite E. eexists; reflexivity.
  - intros -> Hn HS Hd. unfold ais_log_z.
    assert (K : forall q, ais_weights J n V0 V1 g0 g1 e 0 S (Datatypes.S q) starts draws = Raise EUnbound).
    { induction q as [|q IH]; [cbn [ais_weights rbind]|cbn [ais_weights] in *; rewrite IH; reflexivity].
      destruct n as [|[|n]]; [lia|lia|]. replace (Datatypes.S (Datatypes.S n) - 1)%nat with (Datatypes.S n) by lia.
      cbn [anneal]. specialize (Hd 0%nat). destruct (draws 0%nat 1%nat) as [p lu]. cbn [snd] in Hd. cbn [leaps].
      match goal with |- context [Rltb lu ?d] => assert (E : Rltb lu d = true) by (apply Rltb_spec; lra) end.
      rewrite E. reflexivity. }
    destruct S as [|q]; [lia|]. rewrite K. reflexivity.
Qed.
Print Assumptions C68_estimate_exists.

Example C68_nonvacuous : exists r, (2 <= 3)%nat /\
  ais_log_z 2 3 (ais_pot 2 1 1 1) (fun x => ais_pot 2 1 1 1 x + 5) (ais_grad 2 1 1 1) (ais_grad 2 1 1 1) (1/10) 4 10
    (fun i _ => INR i) (fun i it => (fun j => INR (i + j), - INR it)) = Ok r /\ r = - (5).
Proof.
  destruct (proj1 (C68_estimate_exists 2 3 (ais_pot 2 1 1 1) (fun x => ais_pot 2 1 1 1 x + 5) (ais_grad 2 1 1 1) (ais_grad 2 1 1 1) (1/10) 4 10
    (fun i _ => INR i) (fun i it => (fun j => INR (i + j), - INR it))) ltac:(lia)) as [r E].
  exists r. split; [lia|split; [exact E|]].
  refine (C68_exact_for_proportional_target _ _ _ _ _ _ _ _ _ _ _ 5 r _ _ _ E); try lia. intros; reflexivity.
Qed.

(** ---- C70 ---------------------------------------------------------------------- *)

(** The difference of Hamiltonians the acceptance of an attraction step should
    compare with: kinetic energy, potential and data likelihood at both ends. *)
Definition energy_drop (J : nat) (m : physics) (ts : theta) (x p x1 p1 : vec) : R :=
  (kinetic J p + ph_V m ts x + ph_lik m x) - (kinetic J p1 + ph_V m ts x1 + ph_lik m x1).

(** The step decides with the data likelihood of the old attractions on both
    sides, so that it cancels. *)
Theorem C70_acceptance_threshold : forall J m e steps th x p lu x1 p1 g1 r,
  steps <> 0%nat ->
  x_trajectory m e steps (scaled m th) x (ph_dV m (scaled m th) x) p = (x1, p1, g1) ->
  x_gibbs_step J m e steps th x (ph_V m (scaled m th) x) (ph_dV m (scaled m th) x) p lu = Ok r ->
  (snd (fst (fst r)) = 1%nat <->
   lu < energy_drop J m (scaled m th) x p x1 p1 + (ph_lik m x1 - ph_lik m x)).
Proof.
  intros J m e steps th x p lu x1 p1 g1 r Hs T H. unfold x_gibbs_step in H. rewrite T in H.
  destruct steps as [|k]; [contradiction|].
  match type of H with context [Rltb lu ?d] => destruct (Rltb lu d) eqn:E end;
    [apply Rltb_spec in E|apply Rltb_false in E]; injection H as <-; cbn [fst snd]; unfold energy_drop in *;
    (split; intros K; [|]); try lra; try reflexivity; discriminate K.
Qed.
Print Assumptions C70_acceptance_threshold.

(** Hence, whenever the proposal changes the data likelihood and one of the two
    thresholds is below zero, some uniform draw is decided wrongly. *)
Theorem C70_acceptance_refuted : forall J m e steps th x p x1 p1 g1,
  steps <> 0%nat ->
  x_trajectory m e steps (scaled m th) x (ph_dV m (scaled m th) x) p = (x1, p1, g1) ->
  let right := energy_drop J m (scaled m th) x p x1 p1 in
  ph_lik m x1 <> ph_lik m x -> (right < 0 \/ right + (ph_lik m x1 - ph_lik m x) < 0) ->
  exists lu r, lu < 0 /\
    x_gibbs_step J m e steps th x (ph_V m (scaled m th) x) (ph_dV m (scaled m th) x) p lu = Ok r /\
    ~ (snd (fst (fst r)) = 1%nat <-> lu < right).
Proof.
  intros J m e steps th x p x1 p1 g1 Hs T right Hl Hn.
  set (code := right + (ph_lik m x1 - ph_lik m x)) in *.
  set (lu := Rmin right code).
  destruct (proj2 (C38_attraction_step J m e steps th x (ph_V m (scaled m th) x) (ph_dV m (scaled m th) x) p lu) Hs)
    as (x' & a & V' & dV' & E & _).
  exists lu, (x', a, V', dV'). split; [|split; [exact E|]].
  - unfold lu, Rmin. destruct (Rle_dec right code); lra.
  - rewrite (C70_acceptance_threshold J m e steps th x p lu x1 p1 g1 _ Hs T E). fold right. fold code.
    unfold lu, Rmin. destruct (Rle_dec right code) as [Hle|Hle].
    + assert (right < code) by (destruct Hle as [Hle|Hle]; [exact Hle|]; exfalso; apply Hl; unfold code in Hle; lra).
      intros [K _]. specialize (K ltac:(lra)). lra.
    + intros [_ K]. specialize (K ltac:(lra)). lra.
Qed.
Print Assumptions C70_acceptance_refuted.

(** Where the likelihood is the same at both ends the decision is right. *)
Theorem C70_acceptance_partial : forall J m e steps th x p lu x1 p1 g1 r,
  steps <> 0%nat ->
  x_trajectory m e steps (scaled m th) x (ph_dV m (scaled m th) x) p = (x1, p1, g1) ->
  ph_lik m x1 = ph_lik m x ->
  x_gibbs_step J m e steps th x (ph_V m (scaled m th) x) (ph_dV m (scaled m th) x) p lu = Ok r ->
  (snd (fst (fst r)) = 1%nat <-> lu < energy_drop J m (scaled m th) x p x1 p1).
Proof.
  intros J m e steps th x p lu x1 p1 g1 r Hs T Hl H.
  rewrite (C70_acceptance_threshold J m e steps th x p lu x1 p1 g1 r Hs T H), Hl.
  split; intros; lra.
Qed.
Print Assumptions C70_acceptance_partial.

(** the premises of the refutation are met by the Harris-Wilson model with one
    origin and one destination and a small enough noise *)
Example C70_nonvacuous : exists m th x p x1 p1 g1,
  (exists nv, 0 < nv /\ m = hw_physics (fun _ => 0) 1 1 (fun _ _ => 0) 1 (HW 1 0 1 1 1) nv (fun _ => 0) 1) /\
  x_trajectory m 1 1 (scaled m th) x (ph_dV m (scaled m th) x) p = (x1, p1, g1) /\
  ph_lik m x1 <> ph_lik m x /\ energy_drop 1 m (scaled m th) x p x1 p1 < 0.
Proof.
  (* the new position and momentum do not depend on the noise *)
  set (P := fun nv => hw_physics (fun _ => 0) 1 1 (fun _ _ => 0) 1 (HW 1 0 1 1 1) nv (fun _ => 0) 1).
  set (x0 := (fun _ => 0) : vec). set (p0 := (fun _ => 1) : vec).
  assert (G0 : forall nv, ph_dV (P nv) (scaled (P nv) (1, 1)) x0 0%nat = 0).
  { intros nv. unfold P, scaled. cbn [hw_physics ph_dV ph_bmax fst snd sigma epsilon kappa delta].
    unfold x0. rewrite demand_single, exp_0. field. }
  set (t1 := fun nv => x_trajectory (P nv) 1 1 (scaled (P nv) (1, 1)) x0 (ph_dV (P nv) (scaled (P nv) (1, 1)) x0) p0).
  assert (X1 : forall nv, fst (fst (t1 nv)) 0%nat = 1).
  { intros nv. unfold t1, x_trajectory. cbn [leaps leap fst snd]. rewrite G0.
    unfold P. cbn [hw_physics ph_dlik]. unfold neg_log_lik_grad, x0, p0. unfold Rdiv. ring. }
  assert (Lk : forall x, ph_lik (P (/100)) x = 50 * (x 0%nat * x 0%nat)).
  { intros x. unfold P. cbn [hw_physics ph_lik]. unfold neg_log_lik. cbn [rsum]. field. }
  assert (Vx : forall nv x, ph_V (P nv) (scaled (P nv) (1, 1)) x = 2 * (exp (x 0%nat) - x 0%nat)).
  { intros nv x. unfold P, scaled. cbn [hw_physics ph_V ph_bmax fst snd sigma epsilon kappa delta].
    unfold tc_sde_pot, lse2, rsum2. cbn [rsum]. rewrite !Rplus_0_l, ln_exp. unfold log_utility. field. }
  exists (P (/ 100)), (1, 1), x0, p0, (fst (fst (t1 (/100)))), (snd (fst (t1 (/100)))), (snd (t1 (/100))).
  split; [exists (/100); split; [lra|reflexivity]|].
  split; [fold (t1 (/100)); destruct (t1 (/100)) as [[? ?] ?]; reflexivity|].
  split; [rewrite !Lk, X1; unfold x0; intros E; lra|].
  unfold energy_drop. rewrite !Lk, !Vx, !X1. unfold kinetic. cbn [rsum].
  unfold x0, p0. rewrite exp_0.
  pose proof (Rle_0_sqr (snd (fst (t1 (/100))) 0%nat)) as Hq. unfold Rsqr in Hq.
  pose proof (exp_pos 1). lra.
Qed.

(** ---- C69 ---------------------------------------------------------------------- *)

(** Along every run of the joint chain the potential, gradient, normalising
    constant and sign are those of the current parameters and attractions. *)
Theorem C69_potential_values_match : forall m zinv k th0 x0 t0 ds s,
  joint_run m zinv k ds (joint_start m zinv th0 x0 t0) = Ok s -> matching m zinv (j_theta s) (j_x s) (j_vals s).
Proof.
  intros m zinv k th0 x0 t0 ds s.
  assert (K : forall ds s0 s, matching m zinv (j_theta s0) (j_x s0) (j_vals s0) -> joint_run m zinv k ds s0 = Ok s ->
     matching m zinv (j_theta s) (j_x s) (j_vals s)).
  { clear. induction ds as [|d ds IH]; intros s0 s H0 H; cbn [joint_run] in H.
    - injection H as <-. exact H0.
    - destruct (joint_step m zinv k d s0) as [s1|e] eqn:E; [|discriminate H]. cbn [rbind] in H.
      refine (IH s1 s _ H). destruct d as [i n lu|p lu|t]; cbn [joint_step] in E.
      + destruct (theta_given_table_gibbs_step _ _ _ _ _ _ _ _ _ _ _ _) as [[[th a] v] nll] eqn:F. injection E as <-.
        cbn [j_theta j_x j_vals]. apply C38_theta_given_table_step in F.
        destruct F as [(_ & -> & -> & _)|(_ & _ & F & _)]; [exact H0|exact F].
      + destruct (x_given_table_gibbs_step _ _ _ _ _ _ _ _ _ _ _ _) as [[[[[x a] V] dV] nll]|e] eqn:F; [|discriminate E].
        cbn [rbind] in E. injection E as <-. cbn [j_theta j_x j_vals].
        destruct H0 as (H1 & H2 & H3). unfold matching. cbn [tv_V tv_dV tv_lz tv_sign].
        unfold x_given_table_gibbs_step in F.
        destruct (x_given_table_trajectory _ _ _ _ _ _ _ _) as [[x1 p1] g1].
        destruct (Rltb lu _) in F; [destruct (h_leaps k); [discriminate F|]|]; injection F as <- <- <- <- <-;
          [split; [reflexivity|split; [reflexivity|exact H3]]|repeat split; assumption].
      + injection E as <-. exact H0. }
  apply K. unfold joint_start. destruct (zinv 0%nat (scaled m th0)) as [lz sg] eqn:E. cbn [j_theta j_x j_vals].
  unfold matching. cbn [tv_V tv_dV tv_lz tv_sign]. split; [reflexivity|split; [reflexivity|]]. exists 0%nat. exact E.
Qed.
Print Assumptions C69_potential_values_match.

(** The cached table likelihood is the one of the current state. *)
Definition likelihood_current (m : physics) (s : jchain) : Prop :=
  j_nll s = ph_nll m (fst (j_theta s), snd (j_theta s) * ph_bmax m) (j_x s) (j_table s).

(** It is so at the start and after every step except an accepted move of the
    attractions (then it is that of the old attractions) and a table step (then
    it is that of the parameters without the factor bmax). *)
Theorem C69_table_likelihood_partial : forall m zinv k d s s',
  joint_step m zinv k d s = Ok s' -> likelihood_current m s ->
  match d with
  | JTheta _ _ _ => likelihood_current m s'
  | JX _ _ => (j_x s' = j_x s /\ likelihood_current m s') \/
              j_nll s' = ph_nll m (fst (j_theta s'), snd (j_theta s') * ph_bmax m) (j_x s) (j_table s')
  | JTable t => j_table s' = t /\ j_nll s' = ph_nll m (j_theta s') (j_x s') t
                /\ (ph_bmax m = 1 -> likelihood_current m s')
  end.
Proof.
  intros m zinv k d s s' E Hc. destruct d as [i n lu|p lu|t]; cbn [joint_step] in E.
  - destruct (theta_given_table_gibbs_step _ _ _ _ _ _ _ _ _ _ _ _) as [[[th a] v] nll] eqn:F. injection E as <-.
    apply C38_theta_given_table_step in F.
    destruct F as [(_ & -> & _ & ->)|(_ & _ & _ & -> & _)]; [exact Hc|reflexivity].
  - destruct (x_given_table_gibbs_step _ _ _ _ _ _ _ _ _ _ _ _) as [[[[[x a] V] dV] nll]|e] eqn:F; [|discriminate E].
    cbn [rbind] in E. injection E as <-. cbn [j_theta j_x j_vals j_nll j_table].
    unfold x_given_table_gibbs_step in F.
    destruct (x_given_table_trajectory _ _ _ _ _ _ _ _) as [[x1 p1] g1].
    destruct (Rltb lu _) in F; [destruct (h_leaps k); [discriminate F|]|]; injection F as <- <- <- <- <-;
      [right; reflexivity|left; split; [reflexivity|exact Hc]].
  - injection E as <-. cbn [j_theta j_x j_vals j_nll j_table]. split; [reflexivity|]. split; [reflexivity|].
    intros B. unfold likelihood_current. cbn [j_theta j_x j_vals j_nll j_table]. rewrite B, Rmult_1_r.
    destruct (j_theta s); reflexivity.
Qed.
Print Assumptions C69_table_likelihood_partial.

(** multinomial table likelihood of the totally constrained model in closed form *)
Lemma tc_nll_closed : forall lg I J c T th x t, (0 < I)%nat -> (0 < J)%nat ->
  tc_nll lg I J c T th x t =
  rsum2 I J t * lse2 I J (log_utility c x (fst th) (snd th))
  - rsum2 I J (fun i j => t i j * log_utility c x (fst th) (snd th) i j) + lfs lg I J t.
Proof.
  intros lg I J c T th x t HI HJ. unfold tc_nll, log_multinomial_pmf_unnormalised. cbv zeta.
  assert (E : lse2 I J (tc_log_flow I J c T x (fst th) (snd th)) = ln T).
  { unfold tc_log_flow. set (u := log_utility c x (fst th) (snd th)).
    transitivity (lse2 I J (fun i j => u i j + (- lse2 I J u + ln T))).
    - unfold lse2. f_equal. apply rsum2_ext; intros. f_equal. ring.
    - rewrite lse2_shift by assumption. ring. }
  rewrite E. rewrite (rsum2_ext I J _ (fun i j => t i j * log_utility c x (fst th) (snd th) i j
     - lse2 I J (log_utility c x (fst th) (snd th)) * t i j)).
  - rewrite rsum2_sub, rsum2_scal. ring.
  - intros i j _ _. unfold tc_log_flow. ring.
Qed.

(** After a table step the cached likelihood is wrong as soon as bmax is not 1,
    and so is the intensity the table was sampled from. *)
Theorem C69_after_table_step_refuted : exists lg I J c T h nv y bmax zinv k t s s',
  let m := hw_physics lg I J c T h nv y bmax in
  bmax = 2 /\ likelihood_current m s /\
  joint_step m zinv k (JTable t) s = Ok s' /\ ~ likelihood_current m s' /\
  joint_intensity_theta s' <> scaled m (j_theta s').
Proof.
  exists (fun _ => 0), 1%nat, 2%nat, (fun _ j => INR j), 1, (HW 1 0 1 1 1), 1, (fun _ => 0), 2, (fun _ _ => (0, 1)),
    (HMC 2 1 (fun _ _ => 0) 1 1).
  set (t := (fun _ j => if Nat.eqb j 0 then 1 else 0) : mat).
  set (m := hw_physics _ _ _ _ _ _ _ _ _). exists t, (joint_start m (fun _ _ => (0, 1)) (1, 1) (fun _ => 0) t).
  eexists. cbv zeta. fold m.
  split; [reflexivity|]. split; [reflexivity|]. split; [reflexivity|].
  assert (N : forall be, ph_nll m (1, be) (fun _ => 0) t = ln (1 + exp (- be))).
  { intros be. unfold m. cbn [hw_physics ph_nll]. rewrite tc_nll_closed by lia. unfold lfs, rsum2, lse2, rsum2. cbn [rsum].
    unfold t, log_utility. cbn [Nat.eqb INR fst snd].
    replace (1 * 0 - be * 0) with 0 by ring. replace (1 * 0 - be * 1) with (- be) by ring. rewrite exp_0.
    replace (0 + (0 + 1 + exp (- be))) with (1 + exp (- be)) by ring. ring. }
  split.
  - unfold likelihood_current. cbn [joint_start j_theta j_x j_nll j_table fst snd]. 
    replace (1 * ph_bmax m) with 2 by (unfold m; cbn [hw_physics ph_bmax]; ring).
    rewrite !N. intros E. apply ln_inv in E; [|pose proof (exp_pos (-(1))); lra|pose proof (exp_pos (-(2))); lra].
    assert (exp (-(2)) < exp (-(1))) by (apply exp_increasing; lra). lra.
  - unfold joint_intensity_theta. cbn [joint_start j_theta]. unfold scaled. cbn [fst snd].
    intros E. injection E as E. unfold m in E. cbn [hw_physics ph_bmax] in E. lra.
Qed.
Print Assumptions C69_after_table_step_refuted.

(** After an accepted move of the attractions the cached likelihood is wrong even
    for bmax = 1. *)
Theorem C69_after_attraction_step_refuted : exists lg I J c T h nv y bmax zinv k p lu s s',
  let m := hw_physics lg I J c T h nv y bmax in
  bmax = 1 /\ likelihood_current m s /\ joint_step m zinv k (JX p lu) s = Ok s' /\ ~ likelihood_current m s'.
Proof.
  exists (fun _ => 0), 1%nat, 2%nat, (fun _ _ => 0), 1, (HW 1 0 1 1 1), 1, (fun _ => 0), 1, (fun _ _ => (0, 1)),
    (HMC 2 1 (fun _ _ => 0) 1 1).
  set (p := (fun j => if Nat.eqb j 0 then 1 else 0) : vec). exists p.
  set (m := hw_physics _ _ _ _ _ _ _ _ _). set (t := (fun _ _ => 1) : mat). set (x0 := (fun _ => 0) : vec).
  set (s := joint_start m (fun _ _ => (0, 1)) (1, 1) x0 t).
  set (tr := x_given_table_trajectory m 1 1 (scaled m (1, 1)) x0 t (ph_dV m (scaled m (1, 1)) x0) p).
  (* the gradient has equal components at the start *)
  assert (Tr : fst (fst tr) 0%nat = fst (fst tr) 1%nat + 1).
  { unfold tr, x_given_table_trajectory. cbn [leaps leap fst snd].
    assert (G : ph_dV m (scaled m (1, 1)) x0 0%nat + ph_dlik m x0 0%nat +
                negative_table_log_likelihood_gradient m (scaled m (1, 1)) x0 t 0%nat =
                ph_dV m (scaled m (1, 1)) x0 1%nat + ph_dlik m x0 1%nat +
                negative_table_log_likelihood_gradient m (scaled m (1, 1)) x0 t 1%nat) by reflexivity.
    rewrite G. unfold p, x0. cbn [Nat.eqb]. ring. }
  exists (kinetic 2 p + (ph_V m (scaled m (1, 1)) x0 + ph_lik m x0 + ph_nll m (scaled m (1, 1)) x0 t)
          - (kinetic 2 (snd (fst tr)) + (ph_V m (scaled m (1, 1)) (fst (fst tr)) + ph_lik m x0 + ph_nll m (scaled m (1, 1)) x0 t)) - 1), s.
  set (lu := _ - _ - 1).
  eexists. cbv zeta. fold m. split; [reflexivity|]. split; [reflexivity|].
  assert (St : joint_step m (fun _ _ => (0, 1)) (HMC 2 1 (fun _ _ => 0) 1 1) (JX p lu) s =
     Ok (JChain (1, 1) (fst (fst tr)) (TV (ph_V m (scaled m (1, 1)) (fst (fst tr))) (ph_dV m (scaled m (1, 1)) (fst (fst tr))) 0 1) t
        (ph_nll m (scaled m (1, 1)) x0 t))).
  { unfold s, joint_start. cbn [joint_step h_J h_eps h_leaps j_theta j_x j_table j_vals j_nll tv_V tv_dV tv_lz tv_sign].
    unfold x_given_table_gibbs_step.
    change (x_given_table_trajectory m 1 1 (scaled m (1, 1)) x0 t (ph_dV m (scaled m (1, 1)) x0) p) with tr.
    unfold lu. destruct tr as [[x1 p1] g1]. cbn [fst snd].
    match goal with |- context [Rltb ?a ?b] => assert (F : Rltb a b = true) by (apply Rltb_spec; lra) end.
    rewrite F. reflexivity. }
  split; [exact St|].
  unfold likelihood_current. cbn [j_theta j_x j_nll j_table fst snd].
  replace (1 * ph_bmax m) with 1 by (unfold m; cbn [hw_physics ph_bmax]; ring).
  assert (Sc : scaled m (1, 1) = (1, 1)).
  { unfold scaled, m. cbn [hw_physics ph_bmax fst snd]. f_equal. ring. }
  rewrite Sc.
  assert (N : forall x, ph_nll m (1, 1) x t = 2 * ln (exp (x 0%nat) + exp (x 1%nat)) - (x 0%nat + x 1%nat)).
  { intros x. unfold m. cbn [hw_physics ph_nll]. rewrite tc_nll_closed by lia. unfold lfs, lse2, rsum2. cbn [rsum].
    unfold t, log_utility. cbn [fst snd].
    replace (1 * x 0%nat - 1 * 0) with (x 0%nat) by ring. replace (1 * x 1%nat - 1 * 0) with (x 1%nat) by ring.
    replace (0 + (0 + exp (x 0%nat) + exp (x 1%nat))) with (exp (x 0%nat) + exp (x 1%nat)) by ring. ring. }
  rewrite !N, Tr. set (b := fst (fst tr) 1%nat). unfold x0. rewrite exp_0.
  replace (exp (b + 1) + exp b) with (exp b * (exp 1 + 1)) by (rewrite exp_plus; ring).
  rewrite ln_mult by (try apply exp_pos; pose proof (exp_pos 1); lra). rewrite ln_exp.
  intros E.
  assert (E2 : ln ((1 + 1) * (1 + 1) * exp 1) = ln ((exp 1 + 1) * (exp 1 + 1))).
  { pose proof (exp_pos 1). rewrite !ln_mult by lra. rewrite ln_exp. lra. }
  pose proof (exp_ineq1 1 ltac:(lra)) as X.
  apply ln_inv in E2; nra.
Qed.
Print Assumptions C69_after_attraction_step_refuted.

(** ---- C72 ---------------------------------------------------------------------- *)

(** Derivative of minus the log likelihood of a table in each log attraction. *)
Lemma tc_nll_derivative : forall lg I J c T th x t k, (0 < I)%nat -> (k < J)%nat ->
  partial_derivative (fun z => tc_nll lg I J c T th z t) x k (tc_dnll I J c th x t k).
Proof.
  intros lg I J c T th x t k HI Hk. unfold partial_derivative.
  set (al := fst th). set (be := snd th).
  eapply dl_ext; [| |
    apply (dl_plus (fun s => rsum2 I J t * lse2 I J (log_utility c (at_coord x k s) al be))
             (fun s => rsum I (fun i => rsum J (fun j => - t i j * (al * at_coord x k s j + - (be * c i j)))) + lfs lg I J t));
    [apply (dl_scal (fun s => lse2 I J (log_utility c (at_coord x k s) al be))), dl_lse2_utility; assumption|];
    apply (dl_plus (fun s => rsum I (fun i => rsum J (fun j => - t i j * (al * at_coord x k s j + - (be * c i j))))) (fun _ => lfs lg I J t));
    [apply (dl_rsum I (fun i s => rsum J (fun j => - t i j * (al * at_coord x k s j + - (be * c i j))))
              (fun i => rsum J (fun j => - t i j * (al * (if Nat.eqb j k then 1 else 0) + 0))));
     intros i Hi; apply (dl_rsum J (fun j s => - t i j * (al * at_coord x k s j + - (be * c i j))));
     intros j Hj; apply dl_scal, dl_plus; [apply dl_scal, dl_coord|apply dl_const]
    |apply dl_const]].
  - intros s. cbv beta. rewrite tc_nll_closed by lia. fold al. fold be.
    assert (E : rsum I (fun i => rsum J (fun j => - t i j * (al * at_coord x k s j + - (be * c i j))))
                = - rsum2 I J (fun i j => t i j * log_utility c (at_coord x k s) al be i j)).
    { unfold rsum2. rewrite <- rsum_opp. apply rsum_ext; intros. rewrite <- rsum_opp. apply rsum_ext; intros.
      unfold log_utility. ring. }
    rewrite E. ring.
  - unfold tc_dnll. fold al. fold be.
    assert (E : rsum I (fun i => rsum J (fun j => - t i j * (al * (if Nat.eqb j k then 1 else 0) + 0))) = - al * rsum I (fun i => t i k)).
    { rewrite <- rsum_scal. apply rsum_ext; intros i Hi.
      rewrite (rsum_ext J _ (fun j => (- al * t i j) * (if Nat.eqb j k then 1 else 0))) by (intros; ring).
      apply (rsum_indicator J k (fun j => - al * t i j)); exact Hk. }
    rewrite E. unfold Rdiv. ring.
Qed.

Lemma derivative_unique : forall f x k d1 d2, partial_derivative f x k d1 -> partial_derivative f x k d2 -> d1 = d2.
Proof. intros f x k d1 d2 H1 H2. exact (uniqueness_limite _ _ _ _ H1 H2). Qed.

(** What the sampler calls the gradient of minus the log table likelihood is
    minus that gradient: it is the right vector only where the gradient vanishes,
    i.e. where the table's destination total equals the model's. *)
Theorem C72_table_gradient_partial : forall lg I J c T h nv y bmax th x t k, (0 < I)%nat -> (k < J)%nat ->
  let m := hw_physics lg I J c T h nv y bmax in
  partial_derivative (fun z => - ph_nll m th z t) x k (negative_table_log_likelihood_gradient m th x t k) /\
  (partial_derivative (fun z => ph_nll m th z t) x k (negative_table_log_likelihood_gradient m th x t k) <->
   fst th * (rsum2 I J t * exp (lse I (fun i => tc_log_flow I J c 1 x (fst th) (snd th) i k)) - rsum I (fun i => t i k)) = 0).
Proof.
  intros lg I J c T h nv y bmax th x t k HI Hk m.
  pose proof (tc_nll_derivative lg I J c T th x t k HI Hk) as D.
  assert (Sh : exp (lse I (fun i => tc_log_flow I J c 1 x (fst th) (snd th) i k)) =
    rsum I (fun i => exp (log_utility c x (fst th) (snd th) i k)) / rsum2 I J (fun i j => exp (log_utility c x (fst th) (snd th) i j))).
  { rewrite exp_lse by exact HI. unfold Rdiv. rewrite <- rsum_scal_r. apply rsum_ext; intros i Hi. unfold tc_log_flow.
    rewrite ln_1, Rplus_0_r. unfold Rminus. rewrite exp_plus, exp_Ropp, exp_lse2 by lia. reflexivity. }
  assert (Hd : tc_dnll I J c th x t k = fst th * (rsum2 I J t * exp (lse I (fun i => tc_log_flow I J c 1 x (fst th) (snd th) i k)) - rsum I (fun i => t i k))).
  { unfold tc_dnll. rewrite Sh. reflexivity. }
  unfold negative_table_log_likelihood_gradient, m. cbn [hw_physics ph_nll ph_dnll]. split.
  - unfold partial_derivative in *. eapply dl_ext; [| |apply (dl_scal (fun t0 : R => tc_nll lg I J c T th (at_coord x k t0) t) (-1)), D]; [intros z; cbv beta; ring|ring].
  - rewrite <- Hd. split.
    + intros D2. pose proof (derivative_unique _ _ _ _ _ D D2). lra.
    + intros E. rewrite E, Ropp_0. rewrite <- E. exact D.
Qed.
Print Assumptions C72_table_gradient_partial.

Theorem C72_table_gradient_refuted : exists lg I J c T h nv y bmax th x t k, (0 < I)%nat /\ (k < J)%nat /\
  let m := hw_physics lg I J c T h nv y bmax in
  ~ partial_derivative (fun z => ph_nll m th z t) x k (negative_table_log_likelihood_gradient m th x t k).
Proof.
  exists (fun _ => 0), 1%nat, 2%nat, (fun _ _ => 0), 1, (HW 1 0 1 1 1), 1, (fun _ => 0), 1, (1, 1), (fun _ => 0),
    (fun _ j => if Nat.eqb j 0 then 1 else 0), 0%nat. split; [lia|split; [lia|]]. cbv zeta.
  intros D. apply (proj2 (C72_table_gradient_partial _ 1 2 _ _ _ _ _ _ _ _ _ 0 (Nat.lt_0_succ 0) (Nat.lt_0_succ 1))) in D. revert D.
  rewrite exp_lse by lia. unfold rsum2, tc_log_flow, lse2, rsum2. cbn [rsum fst snd Nat.eqb]. unfold log_utility.
  replace (1 * 0 - 1 * 0) with 0 by ring. rewrite exp_0, ln_1.
  replace (0 - ln (0 + (0 + 1 + 1)) + 0) with (- ln 2) by (replace (0 + (0 + 1 + 1)) with 2 by ring; ring).
  rewrite exp_Ropp, exp_ln by lra. intros E. lra.
Qed.
Print Assumptions C72_table_gradient_refuted.

(** ---- C73 ---------------------------------------------------------------------- *)

Lemma argmin_from_spec : forall f n best k, (best < k)%nat ->
  (forall i, (i < k)%nat -> f best <= f i) -> (forall i, (i < best)%nat -> f best < f i) ->
  let a := argmin_from f best k n in (a < k + n)%nat /\ (forall i, (i < k + n)%nat -> f a <= f i) /\ (forall i, (i < a)%nat -> f a < f i).
Proof.
  induction n as [|n IH]; intros best k Hb H1 H2; cbn [argmin_from].
  - rewrite Nat.add_0_r. cbv zeta. split; [exact Hb|]. split; [intros i Hi; apply H1; lia|exact H2].
  - replace (k + S n)%nat with (S k + n)%nat by lia.
    destruct (Rltb (f k) (f best)) eqn:E; [apply Rltb_spec in E|apply Rltb_false in E]; apply IH.
    + lia.
    + intros i Hi. destruct (Nat.eq_dec i k) as [->|Hk]; [lra|]. pose proof (H1 i ltac:(lia)). lra.
    + intros i Hi. pose proof (H1 i ltac:(lia)). lra.
    + lia.
    + intros i Hi. destruct (Nat.eq_dec i k) as [->|Hk]; [exact E|]. apply H1; lia.
    + exact H2.
Qed.

(** The Laplace approximation is taken at the candidate with the lowest
    potential, the first of them in case of ties. *)
Theorem C73_laplace_at_lowest_candidate : forall J V hld xs, (0 < J)%nat ->
  exists a, (a < J)%nat /\ biased_z_inverse J V hld xs = (V (xs a) + hld (xs a), 1) /\
    (forall i, (i < J)%nat -> V (xs a) <= V (xs i)) /\ (forall i, (i < a)%nat -> V (xs a) < V (xs i)).
Proof.
  intros J V hld xs HJ.
  pose proof (argmin_from_spec (fun i => V (xs i)) (J - 1) 0 1 ltac:(lia)) as K.
  cbv zeta in K. destruct K as (K1 & K2 & K3).
  - intros i Hi. replace i with 0%nat by lia. lra.
  - intros i Hi. lia.
  - exists (np_argmin J (fun i => V (xs i))). unfold np_argmin in *. replace (1 + (J - 1))%nat with J in * by lia.
    split; [exact K1|]. split; [reflexivity|]. split; [exact K2|exact K3].
Qed.
Print Assumptions C73_laplace_at_lowest_candidate.

Example C73_nonvacuous : biased_z_inverse 3 (fun x => x 0%nat) (fun _ => 0) (fun i _ => if Nat.eqb i 1 then -1 else 0) = (-1 + 0, 1).
Proof.
  destruct (C73_laplace_at_lowest_candidate 3 (fun x => x 0%nat) (fun _ => 0) (fun i _ => if Nat.eqb i 1 then -1 else 0) ltac:(lia))
    as (a & Ha & E & H & _).
  rewrite E. specialize (H 1%nat ltac:(lia)). cbv beta in *. destruct (Nat.eqb a 1); [reflexivity|]. cbn [Nat.eqb] in H. lra.
Qed.
