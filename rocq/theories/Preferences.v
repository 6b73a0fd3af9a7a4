(** What the neural network's predictions imply for the flows: the network of
    NetForward feeding the spatial interaction model of SIM and Sensitivity
    (experiments.py 2115-2137, 2363-2385, 2630-2652: the predicted values are the
    parameters to learn in order, here alpha then beta; beta is scaled by bmax,
    global_variables.py 29, at least 1 by main.py 75). *)
From Coq Require Import List ZArith Reals Lra Lia Bool Arith String.
From Verif Require Import Base PyMonad RealBase Learning ProbUtils SIM Sensitivity NetForward.
Import ListNotations.
Local Open Scope R_scope.

Lemma utility_order : forall (c : mat) (x : vec) al be i j j',
  0 <= al -> 0 <= be -> c i j <= c i j' -> x j' <= x j ->
  log_utility c x al be i j' <= log_utility c x al be i j.
Proof.
  intros c x al be i j j' Ha Hb Hc Hx. unfold log_utility. 
  pose proof (Rmult_le_compat_l al _ _ Ha Hx). pose proof (Rmult_le_compat_l be _ _ Hb Hc). lra.
Qed.
Lemma exp_mono : forall u v, u <= v -> exp u <= exp v.
Proof. intros u v [H| ->]; [left; now apply exp_increasing|right; reflexivity]. Qed.

(** With the default hyperparameters, whatever the weights reached by training and
    the observed sample, no origin is ever predicted to send fewer trips to a
    destination that is both no costlier and no less attractive, in either
    model, and it sends strictly more when the destination is strictly better in
    a respect whose parameter is not zero. *)
Theorem C205_cheap_and_attractive_preferred : forall inp arch acts ls obs bmax,
  get_architecture inp 2%nat 1 20%nat [] = Ok arch ->
  default_acts = Ok acts ->
  built arch ls -> List.length obs = inp -> 1 <= bmax ->
  exists al be, forward ls acts obs = Ok [al; be] /\ 0 <= al /\ 0 <= bmax * be /\
  forall (I J : nat) (c : mat) (O : vec) (T : R) (x : vec) i j j',
    c i j <= c i j' -> x j' <= x j ->
    tc_flow I J c T x al (bmax * be) i j' <= tc_flow I J c T x al (bmax * be) i j /\
    pc_flow J O c T x al (bmax * be) i j' <= pc_flow J O c T x al (bmax * be) i j /\
    (0 < al /\ x j' < x j \/ 0 < be /\ c i j < c i j' ->
     tc_flow I J c T x al (bmax * be) i j' < tc_flow I J c T x al (bmax * be) i j /\
     pc_flow J O c T x al (bmax * be) i j' < pc_flow J O c T x al (bmax * be) i j).
Proof.
  intros inp arch acts ls obs bmax HA HF HB Hx Hb.
  destruct (C203_one_value_per_parameter _ _ _ _ _ _ _ _ _ _ _ HA HF HB Hx) as (y & Hy & Hl).
  destruct (C203_default_nonnegative _ _ _ _ _ _ _ HA HF HB Hx Hy) as [_ Hn].
  destruct y as [|al [|be [|]]]; try discriminate. exists al, be. split; [exact Hy|].
  inversion Hn as [|? ? Hal Hn2]; subst. inversion Hn2 as [|? ? Hbe _]; subst.
  assert (Hbb : 0 <= bmax * be) by (apply Rmult_le_pos; lra).
  split; [exact Hal|]. split; [exact Hbb|].
  intros I J c O T x i j j' Hc Hxx.
  pose proof (utility_order c x al (bmax * be) i j j' Hal Hbb Hc Hxx) as HU.
  split; [|split]; [apply exp_mono; unfold tc_log_flow, pc_log_flow; lra..|].
  intros HS.
  assert (HU2 : log_utility c x al (bmax * be) i j' < log_utility c x al (bmax * be) i j).
  { unfold log_utility. destruct HS as [[Ha Hs]|[Hbe1 Hs]].
    - pose proof (Rmult_lt_compat_l al _ _ Ha Hs). pose proof (Rmult_le_compat_l (bmax * be) _ _ Hbb Hc). lra.
    - assert (Hp : 0 < bmax * be) by (apply Rmult_lt_0_compat; lra).
      pose proof (Rmult_lt_compat_l (bmax * be) _ _ Hp Hs). pose proof (Rmult_le_compat_l al _ _ Hal Hxx). lra. }
  split; apply exp_increasing; unfold tc_log_flow, pc_log_flow; lra.
Qed.
Print Assumptions C205_cheap_and_attractive_preferred.

(** A network found by a hyperparameter trial (last layer "linear") can predict
    the opposite: of two equally attractive destinations the costlier one gets
    more trips. *)
Theorem C205_trial_prefers_costly_refuted :
  exists arch acts ls al be,
    get_architecture 1%nat 2%nat 1 1%nat [(LId 0, 1%nat)] = Ok arch /\
    get_activation_funcs known_acts 1 (ActName "linear") [(LId 0, ActName "linear"); (LId 1, ActName "linear")] = Ok acts /\
    built arch ls /\ forward ls acts [1] = Ok [al; be] /\
    exists (c : mat) (x : vec), c 0%nat 0%nat < c 0%nat 1%nat /\ x 0%nat = x 1%nat /\
      tc_flow 1 2 c 1 x al be 0%nat 0%nat < tc_flow 1 2 c 1 x al be 0%nat 1%nat.
Proof.
  do 2 eexists.
  exists [mkLin 1 1 (fun _ _ => 1) None; mkLin 1 2 (fun o _ => if Nat.eqb o 0 then 1 else -1) None].
  do 2 eexists. split; [reflexivity|]. split; [reflexivity|]. split; [split; reflexivity|]. split; [reflexivity|].
  exists (fun _ j => INR j), (fun _ => 0). split; [cbn; lra|]. split; [reflexivity|].
  apply exp_increasing. unfold tc_log_flow.
  match goal with |- ?a - ?s + ?l < ?b - ?s + ?l => assert (a < b); [|lra] end.
  unfold log_utility. cbn. lra.
Qed.
Print Assumptions C205_trial_prefers_costly_refuted.

(** The default network with weights -1 and 1/20 on the sample [1; 2] predicts
    alpha = beta = 3, and the strictly cheaper of two equally attractive
    destinations gets strictly more trips. *)
Example C205_nonvacuous :
  exists arch acts,
    get_architecture 2%nat 2%nat 1 20%nat [] = Ok arch /\ default_acts = Ok acts /\
    let ls := [mkLin 2 20 (fun _ _ => -1) None; mkLin 20 2 (fun _ _ => / 20) None] in
    built arch ls /\ forward ls acts [1; 2] = Ok [3; 3] /\
    tc_flow 1 2 (fun _ j => INR j) 1 (fun _ => 0) 3 3 0%nat 1%nat < tc_flow 1 2 (fun _ j => INR j) 1 (fun _ => 0) 3 3 0%nat 0%nat.
Proof.
  do 2 eexists. split; [reflexivity|]. split; [reflexivity|]. cbn zeta. split; [split; reflexivity|]. split.
  - match goal with |- ?t = _ => assert (HE : exists y, t = Ok y /\ y = [3; 3]) end.
    { eexists. split; [reflexivity|].
      cbn [seq map act_fun String.eqb Ascii.eqb Bool.eqb nth rsum l_in l_out l_w l_b].
      match goal with |- [Rabs ?e; _] = _ => replace (Rabs e) with 3; [reflexivity|];
        replace e with (- (3)) by lra end.
      rewrite Rabs_Ropp. symmetry. apply Rabs_pos_eq. lra. }
    destruct HE as (y & -> & ->). reflexivity.
  - apply exp_increasing. unfold tc_log_flow.
    match goal with |- ?a - ?s + ?l < ?b - ?s + ?l => assert (a < b); [|lra] end.
    unfold log_utility. cbn. lra.
Qed.
