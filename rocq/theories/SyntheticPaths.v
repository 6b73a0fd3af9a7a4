(** The attractions of a synthetic dataset are an average over runs of the
    stochastic differential equation, each with its own noise (C189). *)
From Coq Require Import List String ZArith Reals Bool Arith Lia Lra.
From Verif Require Import Base RealBase PyMonad ProbUtils ProbUtilsProps SIM SIMProps Inputs InputsProps
  StartUp StartUpProps StartUpBasis Synthetic SyntheticProps.
Import ListNotations.
Open Scope string_scope.
Open Scope nat_scope.
Open Scope R_scope.
Open Scope list_scope.

(** ** Specification: one path of the equation with the generator's numbers *)

(** [path] starts in [w0]; in every step all destinations move by
    (epsilon (D_j - kappa w_j + delta) + sigma / sqrt(2 pi dt) xi_j) w_j dt, where
    D_j is the demand that the flows [flow] bring, and the xi are the consecutive
    normal draws of a generator seeded with [seed]. *)
Definition sde_path (G : source) (I J steps : nat) (h : hw) (flow : vec -> nat -> nat -> R) (w0 : vec) (seed : Z)
    (path : nat -> vec) : Prop :=
  exists gen : nat -> th G, gen 0%nat = th_seed G seed /\ path 0%nat = w0 /\
    forall t, (t < steps)%nat ->
      gen (S t) = snd (th_normal G J (gen t)) /\
      forall j, path (S t) j = path t j + path t j * (epsilon h * (rsum I (fun i => flow (path t) i j) - kappa h * path t j + delta h)
                  + sigma h / sqrt (2 * PI * dt h) * fst (th_normal G J (gen t)) j) * dt h.

Lemma run_is_path : forall G I J h lf steps s w0, (0 < I)%nat ->
  exists gen : nat -> th G, gen 0%nat = s /\
    (let path := fun t => nth t (run_states I h lf (fst (noise G steps J s)) w0) (fun _ => 0) in
     path 0%nat = w0 /\
     forall t, (t < steps)%nat -> gen (S t) = snd (th_normal G J (gen t)) /\
       forall j, path (S t) j = path t j + path t j * (epsilon h * (rsum I (fun i => exp (lf (fun j => ln (path t j)) i j)) - kappa h * path t j + delta h)
                  + sigma h / sqrt (2 * PI * dt h) * fst (th_normal G J (gen t)) j) * dt h).
Proof.
  intros G I J h lf steps. induction steps as [|n IH]; intros s w0 HI.
  - exists (fun _ => s). split; [reflexivity|]. cbv zeta. split; [reflexivity|]. intros t Ht. lia.
  - cbn [noise]. destruct (th_normal G J s) as [xi s1] eqn:E. destruct (noise G n J s1) as [r s2] eqn:E2. cbn [fst].
    cbn [run_states].
    destruct (IH s1 (run_single I h w0 (lf (fun j => ln (w0 j))) xi) HI) as (gen & G0 & P0 & Pn).
    rewrite E2 in P0, Pn. cbn [fst] in P0, Pn.
    exists (fun t => match t with O => s | S t' => gen t' end). split; [reflexivity|]. cbv zeta. split; [reflexivity|].
    intros [|t] Ht.
    + rewrite E. cbn [snd fst]. split; [exact G0|]. intro j. cbn [nth]. rewrite P0. unfold run_single, demand.
      rewrite exp_lse by exact HI. unfold Rdiv. rewrite Rmult_1_r. reflexivity.
    + destruct (Pn t ltac:(lia)) as [A B]. split; [exact A|]. intro j. cbn [nth]. apply B.
Qed.

(** ** C189 *)

(** With the solver of the stochastic differential equation the stored
    attractions are the mean, over the configured number of runs, of the states
    after the configured number of steps; run number k is seeded with k, all runs
    start in the same attractions and share the parameters. *)
Theorem C189_average_partial : forall G c st o no nd,
  generate G c st = Ok o -> c_method c = SdeSolver -> c_steps c <> 0%nat ->
  dim (o_dims o) "origin" = Ok no -> dim (o_dims o) "destination" = Ok nd -> (0 < no)%nat ->
  exists w h w0 lf (path : nat -> nat -> vec),
    aget "destination_attraction_ts" (o_data o) = Some w /\ f_shape w = [nd; 1%nat] /\
    epsilon h = orD (c_epsilon c) 1 /\ sigma h = orD (c_sigma c) 0 /\ dt h = 1 / 1000 /\
    (0 < c_samples c)%nat /\
    (forall k, (k < c_samples c)%nat ->
       sde_path G no nd (c_steps c) h (fun w i j => exp (lf (fun j => ln (w j)) i j)) w0 (Z.of_nat k) (path k)) /\
    (forall j, f_val w j = rsum (c_samples c) (fun k => path k (c_steps c) j) / INR (c_samples c)).
Proof.
  intros G c st o no nd H M Ns Do Dd Po. apply generate_inv in H.
  destruct H as (dims & dn & d & no' & nd' & cs & w0 & od & time & ss & pr & E1 & E2 & E3 & E4 & E5 & E6 & E7 & E8 & E9 & E10 & E11 & E12 & E13 & ->).
  cbn [o_dims o_data] in *. rewrite E4 in Do. injection Do as ->. rewrite E5 in Dd. injection Dd as ->.
  unfold simulate in E10. rewrite M in E10. destruct (c_samples c) as [|n] eqn:Sn; [discriminate|].
  destruct (negb (Nat.eqb time 1) && negb (Nat.eqb (c_steps c) 0))%bool; [discriminate|].
  rewrite (proj2 (Nat.eqb_neq _ _) Ns) in E10.
  assert (OI : forall A (a b : A), Ok a = Ok b -> a = b) by (intros A a b Q; now injection Q).
  apply OI in E10. subst ss. cbn [fst] in *.
  set (lf := log_flow _ _ _ _ _ _) in *. set (h := p_hw _) in *.
  exists (FA [nd; 1%nat] (mean_state G no nd (c_steps c) (S n) h lf (f_val w0) (c_steps c))), h, (f_val w0), lf,
    (fun k t => nth t (one_run G no nd (c_steps c) h lf (f_val w0) k) (fun _ => 0)).
  split.
  { rewrite !aget_aset_other by discriminate. rewrite aget_map_cast by discriminate. rewrite aget_aset_same. reflexivity. }
  split; [reflexivity|]. split; [reflexivity|]. split; [reflexivity|]. split; [reflexivity|]. split; [lia|]. split.
  - intros k _. unfold sde_path, one_run.
    destruct (run_is_path G no nd h lf (c_steps c) (th_seed G (Z.of_nat k)) (f_val w0) Po) as (gen & G0 & P0 & Pn).
    exists gen. split; [exact G0|]. split; [exact P0|]. intros t Ht. destruct (Pn t Ht) as [A B]. split; [exact A|].
    intro j. apply B.
  - intro j. reflexivity.
Qed.
Print Assumptions C189_average_partial.

(** With one run and one step: the attraction of destination 1, from equal
    attractions, moved by the noise 1 of the toy generator. *)
Example C189_nonvacuous :
  ok_with (generate toy (toy_cfg ("origin", 2%nat) ("destination", 3%nat) 1 0 (Some 7%Z) SdeSolver) (0%Z, 0%Z))
    (fun o => dim (o_dims o) "origin" = Ok 2%nat /\ dim (o_dims o) "destination" = Ok 3%nat) /\
  c_steps (toy_cfg ("origin", 2%nat) ("destination", 3%nat) 1 0 (Some 7%Z) SdeSolver) = 2%nat /\
  (exists path, sde_path toy 1 2 1 (HW 0 0 0 1 1) (fun _ _ _ => 0) (fun _ => 1) 4 path /\
     path 1%nat 1%nat = 1 + 1 / sqrt (2 * PI * 1) * 5).
Proof.
  split; [cbn; split; reflexivity|]. split; [reflexivity|].
  exists (fun t => match t with O => fun _ => 1 | _ => fun j => 1 + 1 * (0 + 1 / sqrt (2 * PI * 1) * (4 + INR j)) * 1 end).
  split.
  - exists (fun t => (4 + Z.of_nat t)%Z). split; [reflexivity|]. split; [reflexivity|]. intros t Ht.
    assert (t = 0%nat) by lia. subst t. split; [reflexivity|]. intro j. cbn [toy th_normal fst epsilon kappa delta sigma dt].
    replace (IZR (4 + Z.of_nat 0)) with 4 by reflexivity. ring.
  - cbn [INR]. ring.
Qed.
Print Assumptions C189_nonvacuous.
