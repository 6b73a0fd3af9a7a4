(** Model of the sampler gensit/learning_models/HarrisWilsonModel_MCMC.py and of
    the chains that drive it, gensit/experiments.py (SIM_MCMC.run,
    JointTableSIM_MCMC.run).

    Floats are real numbers, tensors functions of their index.  Every random
    number is an argument: standard normal draws, momenta, and the logarithm
    [lu] of the uniform draw.  [torch.log(torch.rand(1))] can be -infinity; the
    model takes a real [lu], so that single outcome is left out.  NaN and
    infinity checks (lines 594-597, 771-774, 1148-1149) are therefore dropped,
    as are devices, dtypes, progress bars and process pools. *)
From Coq Require Import List ZArith Lia Bool Arith Reals Lra.
From Verif Require Import Base RealBase ProbUtils SIM.
Import ListNotations.
Open Scope R_scope.

(** ---- what the sampler reads of the physics model ---------------------------- *)

Definition theta := (R * R)%type.

(** The potential of the destination attractions and its gradient
    (sde_potential_and_gradient), minus the log likelihood of the observed
    attractions and its gradient (negative_destination_attraction_log_likelihood_and_gradient),
    minus the log likelihood of a table (negative_table_log_likelihood_expanded),
    what torch.autograd returns for it, and the scale bmax of beta.  [hw_physics]
    below is the instance the code uses. *)
Record physics := Physics {
  ph_V : theta -> vec -> R;
  ph_dV : theta -> vec -> vec;
  ph_lik : vec -> R;
  ph_dlik : vec -> vec;
  ph_nll : theta -> vec -> mat -> R;
  ph_dnll : theta -> vec -> mat -> vec;
  ph_bmax : R }.

(** theta_scaled[1] *= bmax: lines 654-655, 741-742, 847-848, 983-984 and
    experiments.py:1403-1404, 1636-1637 *)
Definition scaled (m : physics) (th : theta) : theta := (fst th, snd th * ph_bmax m).

(** negative_table_log_likelihood_gradient, lines 252-266: minus the jacobian *)
Definition negative_table_log_likelihood_gradient (m : physics) (th : theta) (x : vec) (t : mat) : vec :=
  fun j => - ph_dnll m th x t j.

(** negative_table_log_likelihood_expanded, lines 214-249, totally constrained
    intensities with grand total [T] and the multinomial table distribution *)
Definition tc_nll (lg : R -> R) (I J : nat) (c : mat) (T : R) (th : theta) (x : vec) (t : mat) : R :=
  - log_multinomial_pmf_unnormalised lg I J t (tc_log_flow I J c T x (fst th) (snd th)).

(** What autograd returns for [tc_nll] (proved to be its partial derivatives in
    HMCProps.tc_nll_derivative). *)
Definition tc_dnll (I J : nat) (c : mat) (th : theta) (x : vec) (t : mat) : vec := fun k =>
  fst th * (rsum2 I J t * (rsum I (fun i => exp (log_utility c x (fst th) (snd th) i k))
                           / rsum2 I J (fun i j => exp (log_utility c x (fst th) (snd th) i j)))
            - rsum I (fun i => t i k)).

(** The Harris-Wilson instance with totally constrained intensities: potential
    and gradient of SIM.v (the gradient autograd returns is the closed form of
    C33_totally_constrained_gradient). *)
Definition hw_physics (lg : R -> R) (I J : nat) (c : mat) (T : R) (h : hw) (nv : R) (y : vec) (bmax : R) : physics :=
  Physics (fun th => tc_sde_pot I J c (fst th) (snd th) (delta h) (kappa h) (sigma h) (epsilon h))
          (fun th x k => - (2 / (sigma h * sigma h)) *
             (epsilon h * (demand I (tc_log_flow I J c 1 x (fst th) (snd th)) k - kappa h * exp (x k) + delta h)))
          (neg_log_lik J nv y) (neg_log_lik_grad nv y)
          (tc_nll lg I J c T) (tc_dnll I J c) bmax.

(** ---- parameter step ------------------------------------------------------- *)

(** lines 639-644 and 726-731 *)
Definition reflect (v : R) : R := if Rltb v 0 then - v else if Rltb 2 v then 2 - (v - 2) else v.

(** random walk, lines 633-644 and 722-731: step size, 2x2 matrix, two normal draws *)
Definition walk (step : R) (A : mat) (n : vec) (i : nat) : R := step * rsum 2 (fun k => A i k * n k).
Definition propose_theta (step : R) (A : mat) (n : vec) (th : theta) : theta :=
  (reflect (fst th + walk step A n 0), reflect (snd th + walk step A n 1)).

(** lines 647 and 734 *)
Definition outside (th : theta) : bool :=
  Rltb (Rmin (fst th) (snd th)) 0 || Rleb 2 (Rmax (fst th) (snd th)).

(** The values carried by the chain with the current parameters. *)
Record tvals := TV { tv_V : R; tv_dV : vec; tv_lz : R; tv_sign : R }.

(** theta_gibbs_step, lines 605-686.  [zinv index theta] is z_inverse. *)
Definition theta_gibbs_step (m : physics) (zinv : nat -> theta -> R * R) (step : R) (A : mat)
    (index : nat) (prev : theta) (x : vec) (v : tvals) (n : vec) (lu : R) : theta * nat * tvals :=
  let new := propose_theta step A n prev in
  if outside new then (prev, 0%nat, v) else
  let ts := scaled m new in
  let '(lz_new, sign_new) := zinv index ts in
  let V_new := ph_V m ts x in
  let dV_new := ph_dV m ts x in
  let log_target_new := lz_new - V_new in
  let log_target := tv_lz v - tv_V v in
  if Rltb lu (log_target_new - log_target)
  then (new, 1%nat, TV V_new dV_new lz_new sign_new)
  else (prev, 0%nat, v).

(** theta_given_table_gibbs_step, lines 693-825 *)
Definition theta_given_table_gibbs_step (m : physics) (zinv : nat -> theta -> R * R) (step : R) (A : mat)
    (index : nat) (prev : theta) (x : vec) (t : mat) (v : tvals) (nll : R) (n : vec) (lu : R)
    : theta * nat * tvals * R :=
  let new := propose_theta step A n prev in
  if outside new then (prev, 0%nat, v, nll) else
  let ts := scaled m new in
  let '(lz_new, sign_new) := zinv index ts in
  let V_new := ph_V m ts x in
  let dV_new := ph_dV m ts x in
  let nll_new := ph_nll m ts x t in
  let log_target_new := lz_new - V_new - nll_new in
  let log_target := tv_lz v - tv_V v - nll in
  if Rltb lu (log_target_new - log_target)
  then (new, 1%nat, TV V_new dV_new lz_new sign_new, nll_new)
  else (prev, 0%nat, v, nll).

(** ---- leapfrog --------------------------------------------------------------- *)

(** torch.dot(p,p)/2 *)
Definition kinetic (J : nat) (p : vec) : R := 1 / 2 * rsum J (fun j => p j * p j).

(** One leapfrog step on (position, momentum, gradient): lines 396-407, 898-930,
    1068-1111; [G] is the gradient evaluated at the new position. *)
Definition leap (e : R) (G : vec -> vec) (s : vec * vec * vec) : vec * vec * vec :=
  let '(x, p, g) := s in
  let p1 : vec := fun j => p j - 1 / 2 * e * g j in
  let x1 : vec := fun j => x j + e * p1 j in
  let g1 := G x1 in
  let p2 : vec := fun j => p1 j - 1 / 2 * e * g1 j in
  (x1, p2, g1).

Fixpoint leaps (n : nat) (e : R) (G : vec -> vec) (s : vec * vec * vec) : vec * vec * vec :=
  match n with O => s | S k => leaps k e G (leap e G s) end.

(** ---- destination attraction steps ------------------------------------------- *)

(** the trajectory of log_destination_attraction_gibbs_step, lines 854-930, from
    attractions [prev] with gradient [dV] and momentum [p] *)
Definition x_trajectory (m : physics) (e : R) (steps : nat) (ts : theta) (prev : vec) (dV p : vec) : vec * vec * vec :=
  leaps steps e (fun z j => ph_dV m ts z j + ph_dlik m prev j) (prev, p, fun j => dV j + ph_dlik m prev j).

(** the trajectory of log_destination_attraction_given_table_gibbs_step, lines 996-1111 *)
Definition x_given_table_trajectory (m : physics) (e : R) (steps : nat) (ts : theta) (prev : vec) (t : mat)
    (dV p : vec) : vec * vec * vec :=
  let dtab := negative_table_log_likelihood_gradient m ts prev t in
  leaps steps e (fun z j => ph_dV m ts z j + ph_dlik m prev j + dtab j)
    (prev, p, fun j => dV j + ph_dlik m prev j + dtab j).

(** log_destination_attraction_gibbs_step, lines 832-963.  Inside the loop the
    data likelihood and its gradient are evaluated at the PREVIOUS attractions
    (lines 908-909), so they are constants of the trajectory.  [steps] = 0
    leaves V_new unbound. *)
Definition x_gibbs_step (J : nat) (m : physics) (e : R) (steps : nat) (th : theta) (prev : vec)
    (V : R) (dV : vec) (p : vec) (lu : R) : res (vec * nat * R * vec) :=
  let ts := scaled m th in
  let lik := ph_lik m prev in
  let H := kinetic J p + (V + lik) in
  let '(x1, p1, _) := x_trajectory m e steps ts prev dV p in
  let W_new := match steps with O => V + lik | S _ => ph_V m ts x1 + lik end in
  let H_new := kinetic J p1 + W_new in
  if Rltb lu (H - H_new)
  then match steps with
       | O => Raise EUnbound
       | S _ => Ok (x1, 1%nat, ph_V m ts x1, ph_dV m ts x1)
       end
  else Ok (prev, 0%nat, V, dV).

(** log_destination_attraction_given_table_gibbs_step, lines 966-1182: both the
    data likelihood (1078-1079) and the table likelihood (1096) are evaluated at
    the previous attractions inside the loop. *)
Definition x_given_table_gibbs_step (J : nat) (m : physics) (e : R) (steps : nat) (th : theta) (prev : vec)
    (t : mat) (V : R) (dV : vec) (nll : R) (p : vec) (lu : R) : res (vec * nat * R * vec * R) :=
  let ts := scaled m th in
  let lik := ph_lik m prev in
  let H := kinetic J p + (V + lik + nll) in
  let '(x1, p1, _) := x_given_table_trajectory m e steps ts prev t dV p in
  let nll_new := ph_nll m ts prev t in
  let W_new := match steps with O => V + lik + nll | S _ => ph_V m ts x1 + lik + nll_new end in
  let H_new := kinetic J p1 + W_new in
  if Rltb lu (H - H_new)
  then match steps with
       | O => Raise EUnbound
       | S _ => Ok (x1, 1%nat, ph_V m ts x1, ph_dV m ts x1, nll_new)
       end
  else Ok (prev, 0%nat, V, dV, nll).

(** ---- chains ------------------------------------------------------------------- *)

Record chain := Chain { c_theta : theta; c_x : vec; c_vals : tvals }.

Inductive xdraw := ThetaDraw (index : nat) (n : vec) (lu : R) | XDraw (p : vec) (lu : R).

(** settings of the sampler: attractions J, theta step and matrix, leapfrog step
    and number of leapfrog steps *)
Record hmc := HMC { h_J : nat; h_step : R; h_A : mat; h_eps : R; h_leaps : nat }.

(** start of SIM_MCMC.run, experiments.py:1402-1416 *)
Definition sim_start (m : physics) (zinv : nat -> theta -> R * R) (th : theta) (x : vec) : chain :=
  let ts := scaled m th in
  let '(lz, sg) := zinv 0%nat ts in
  Chain th x (TV (ph_V m ts x) (ph_dV m ts x) lz sg).

(** one sampling step of SIM_MCMC.run, experiments.py:1444-1461 and 1477-1489 *)
Definition sim_step (m : physics) (zinv : nat -> theta -> R * R) (k : hmc) (d : xdraw) (s : chain) : res chain :=
  match d with
  | ThetaDraw i n lu =>
      let '(th, _, v) := theta_gibbs_step m zinv (h_step k) (h_A k) i (c_theta s) (c_x s) (c_vals s) n lu in
      Ok (Chain th (c_x s) v)
  | XDraw p lu =>
      rbind (x_gibbs_step (h_J k) m (h_eps k) (h_leaps k) (c_theta s) (c_x s)
               (tv_V (c_vals s)) (tv_dV (c_vals s)) p lu) (fun r =>
      let '(x, _, V, dV) := r in
      Ok (Chain (c_theta s) x (TV V dV (tv_lz (c_vals s)) (tv_sign (c_vals s)))))
  end.

(** SIM_MCMC.run, experiments.py:1426-1494: the loops over theta and x steps
    are given as one list of draws, which covers every M, L and N. *)
Fixpoint sim_run (m : physics) (zinv : nat -> theta -> R * R) (k : hmc) (ds : list xdraw) (s : chain) : res chain :=
  match ds with
  | [] => Ok s
  | d :: r => rbind (sim_step m zinv k d s) (sim_run m zinv k r)
  end.

(** The joint chain also carries a table and its cached likelihood. *)
Record jchain := JChain { j_theta : theta; j_x : vec; j_vals : tvals; j_table : mat; j_nll : R }.

Inductive jdraw := JTheta (index : nat) (n : vec) (lu : R) | JX (p : vec) (lu : R) | JTable (t : mat).

(** start of JointTableSIM_MCMC.run, experiments.py:1635-1658 *)
Definition joint_start (m : physics) (zinv : nat -> theta -> R * R) (th : theta) (x : vec) (t : mat) : jchain :=
  let ts := scaled m th in
  let '(lz, sg) := zinv 0%nat ts in
  JChain th x (TV (ph_V m ts x) (ph_dV m ts x) lz sg) t (ph_nll m ts x t).

(** the intensity handed to the table sampler, experiments.py:1745-1748: the
    parameters are those of the chain, without the factor bmax *)
Definition joint_intensity_theta (s : jchain) : theta := j_theta s.

(** one step of JointTableSIM_MCMC.run, experiments.py:1686-1706, 1722-1737 and
    1750-1774; [JTable t] is the block of table steps ending in table [t] and the
    recomputation of the table likelihood with the unscaled parameters. *)
Definition joint_step (m : physics) (zinv : nat -> theta -> R * R) (k : hmc) (d : jdraw) (s : jchain) : res jchain :=
  match d with
  | JTheta i n lu =>
      let '(th, _, v, nll) := theta_given_table_gibbs_step m zinv (h_step k) (h_A k) i
                               (j_theta s) (j_x s) (j_table s) (j_vals s) (j_nll s) n lu in
      Ok (JChain th (j_x s) v (j_table s) nll)
  | JX p lu =>
      rbind (x_given_table_gibbs_step (h_J k) m (h_eps k) (h_leaps k) (j_theta s) (j_x s) (j_table s)
               (tv_V (j_vals s)) (tv_dV (j_vals s)) (j_nll s) p lu) (fun r =>
      let '(x, _, V, dV, nll) := r in
      Ok (JChain (j_theta s) x (TV V dV (tv_lz (j_vals s)) (tv_sign (j_vals s))) (j_table s) nll))
  | JTable t => Ok (JChain (j_theta s) (j_x s) (j_vals s) t (ph_nll m (j_theta s) (j_x s) t))
  end.

Fixpoint joint_run (m : physics) (zinv : nat -> theta -> R * R) (k : hmc) (ds : list jdraw) (s : jchain) : res jchain :=
  match ds with
  | [] => Ok s
  | d :: r => rbind (joint_step m zinv k d s) (joint_run m zinv k r)
  end.

(** ---- annealed importance sampling --------------------------------------------- *)

(** torch.linspace(0,1,n)[i], line 347 *)
Definition temperature (n i : nat) : R := INR i / INR (n - 1).

(** potential and gradient at temperature [t], lines 387 and 405 *)
Definition tempered (t : R) (V0 V1 : vec -> R) : vec -> R := fun x => (1 - t) * V0 x + t * V1 x.
Definition tempered_grad (t : R) (g0 g1 : vec -> vec) : vec -> vec := fun x j => (1 - t) * g0 x j + t * g1 x j.

(** One particle, lines 363-417, from temperature [it] on with [k] temperatures
    left: current position [x], accumulated log weight [w], momentum and log
    uniform draw of each temperature.  The cached V0, V1 and gradients are always
    those of [x], so they are recomputed here; with no leapfrog step an accepted
    move leaves V0_p unbound. *)
Fixpoint anneal (J n : nat) (V0 V1 : vec -> R) (g0 g1 : vec -> vec) (e : R) (steps : nat)
    (k it : nat) (draws : nat -> vec * R) (x : vec) (w : R) : res R :=
  match k with
  | O => Ok w
  | S k' =>
      let w1 := w + (temperature n it - temperature n (it - 1)) * (V0 x - V1 x) in
      let t := temperature n it in
      let '(p, lu) := draws it in
      let H := kinetic J p + tempered t V0 V1 x in
      let '(x1, p1, _) := leaps steps e (tempered_grad t g0 g1) (x, p, tempered_grad t g0 g1 x) in
      let H_p := kinetic J p1 + tempered t V0 V1 x1 in
      if Rltb lu (H - H_p)
      then match steps with
           | O => Raise EUnbound
           | S _ => anneal J n V0 V1 g0 g1 e steps k' (S it) draws x1 w1
           end
      else anneal J n V0 V1 g0 g1 e steps k' (S it) draws x w1
  end.

(** the weights of all particles, lines 351-363; [starts ip] is the initial
    position and [draws ip] the draws of particle [ip] *)
Fixpoint ais_weights (J n : nat) (V0 V1 : vec -> R) (g0 g1 : vec -> vec) (e : R) (steps S ips : nat)
    (starts : nat -> vec) (draws : nat -> nat -> vec * R) : res (list R) :=
  match ips with
  | O => Ok []
  | Datatypes.S q =>
      rbind (ais_weights J n V0 V1 g0 g1 e steps S q starts draws) (fun l =>
      rbind (anneal J n V0 V1 g0 g1 e steps (n - 1) 1 (draws q) (starts q) (- ln (INR S))) (fun w =>
      Ok (l ++ [w])))
  end.

(** annealed_importance_sampling_log_z, lines 313-426 *)
Definition ais_log_z (J n : nat) (V0 V1 : vec -> R) (g0 g1 : vec -> vec) (e : R) (steps S : nat)
    (starts : nat -> vec) (draws : nat -> nat -> vec * R) : res R :=
  rbind (ais_weights J n V0 V1 g0 g1 e steps S S starts draws) (fun l => Ok (lse S (fun i => nth i l 0))).

(** the Gamma distribution of exp of the start, line 368: (shape, rate) *)
Definition ais_start_shape (J : nat) (de si : R) : R := 2 / (si * si) * (de + 1 / INR J).
Definition ais_start_rate (ka si : R) : R := 1 / (2 / (si * si) * ka).

(** ---- Laplace approximation ------------------------------------------------------ *)

(** biased_z_inverse, lines 490-541: the candidate minima [xs] found from the J
    starting points (the optimiser is not modelled), their potentials, the
    first smallest of them and minus log of the normalising constant from the
    half log determinant of the Hessian at it ([hld]; Cholesky not modelled). *)
Fixpoint argmin_from (f : nat -> R) (best k n : nat) : nat :=
  match n with
  | O => best
  | S n' => argmin_from f (if Rltb (f k) (f best) then k else best) (S k) n'
  end.
Definition np_argmin (n : nat) (f : nat -> R) : nat := argmin_from f 0 1 (n - 1).
Definition biased_z_inverse (J : nat) (V : vec -> R) (hld : vec -> R) (xs : nat -> vec) : R * R :=
  let a := np_argmin J (fun i => V (xs i)) in (V (xs a) + hld (xs a), 1).
