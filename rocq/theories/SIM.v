(** Model of the spatial interaction models
    gensit/intensity_models/spatial_interaction_models/{Totally,Production}Constrained/__init__.py
    and of the Harris-Wilson model gensit/physics_models/HarrisWilsonModel.py.

    Floats are real numbers, torch.logsumexp is the exact [lse]/[lse2], tensors
    are functions of their indices with the sizes given separately, and
    [torch.reshape] is modelled through the flat row-major index.  Devices,
    dtypes, gradients bookkeeping and logging are dropped. *)
From Coq Require Import List ZArith Lia Bool Arith Reals Lra.
From Verif Require Import Base RealBase ProbUtils.
Import ListNotations.
Open Scope R_scope.

Definition vec := nat -> R.

(** log_utility, TotallyConstrained/__init__.py:143, ProductionConstrained/__init__.py:158 *)
Definition log_utility (c : mat) (x : vec) (al be : R) : mat := fun i j => al * x j - be * c i j.

(** TotallyConstrained log_flow_matrix for one draw, __init__.py:143-149
    (I origins, J destinations, c costs, T grand total, x log attractions) *)
Definition tc_log_flow (I J : nat) (c : mat) (T : R) (x : vec) (al be : R) : mat :=
  fun i j => log_utility c x al be i j - lse2 I J (log_utility c x al be) + ln T.

(** ProductionConstrained log_flow_matrix for one draw, __init__.py:158-164 *)
Definition pc_log_flow (I J : nat) (O : vec) (c : mat) (T : R) (x : vec) (al be : R) : mat :=
  fun i j => ln (O i) + log_utility c x al be i j - lse J (fun j' => log_utility c x al be i j') + ln T.

(** entry [k] of a matrix with [m] columns in row-major order (torch.reshape) *)
Definition flat2 (m : nat) (a : mat) (k : nat) : R := a (k / m)%nat (k mod m)%nat.

(** [cost_matrix.repeat((1,sweep))] of shape (I, J*sweep), then
    [reshape((1,sweep,I,J))]: ProductionConstrained/__init__.py:150-151 *)
Definition repeat_columns (J : nat) (c : mat) : mat := fun i k => c i (k mod J)%nat.
Definition pc_batch_cost (I J S : nat) (c : mat) (s : nat) : mat :=
  fun i j => flat2 (J * S) (repeat_columns J c) ((s * I + i) * J + j).

(** [origin_demand.repeat((1,sweep))] then [reshape((1,sweep,I,1))]: lines 148-149 *)
Definition pc_batch_demand (I : nat) (O : vec) (s : nat) : vec := fun i => O ((s * I + i) mod I)%nat.

(** [cost_matrix.repeat((1,sweep,1,1))]: TotallyConstrained/__init__.py:132 *)
Definition tc_batch_cost (c : mat) (s : nat) : mat := c.

(** The attractions of draw [n]: the xarray branch transposes them to
    (iteration, sweep, destination) (TotallyConstrained/__init__.py:113-115), so
    sweep [s] gets its own row; the torch branch reshapes an (N,J,S) tensor to
    (N,S,1,J) without transposing (lines 89-91, 131). *)
Definition lda_xarray (x : nat -> vec) (s : nat) : vec := x s.
Definition lda_torch (J S : nat) (x : mat) (s : nat) : vec := fun j => flat2 S x (s * J + j).

(** log_flow_matrix of a batch, xarray branch: draw [n], sweep [s] *)
Definition tc_batch (I J S : nat) (c : mat) (T : R) (x : nat -> nat -> vec) (al be : nat -> nat -> R)
    (n s : nat) : mat :=
  tc_log_flow I J (tc_batch_cost c s) T (lda_xarray (x n) s) (al n s) (be n s).
Definition pc_batch (I J S : nat) (O : vec) (c : mat) (T : R) (x : nat -> nat -> vec) (al be : nat -> nat -> R)
    (n s : nat) : mat :=
  pc_log_flow I J (pc_batch_demand I O s) (pc_batch_cost I J S c s) T (lda_xarray (x n) s) (al n s) (be n s).

(** the same, torch branch: [x n] is the J by S matrix of draw [n] *)
Definition tc_batch_torch (I J S : nat) (c : mat) (T : R) (x : nat -> mat) (al be : nat -> nat -> R)
    (n s : nat) : mat :=
  tc_log_flow I J (tc_batch_cost c s) T (lda_torch J S (x n) s) (al n s) (be n s).

(** intensity_demand and the demand of run_single: the logsumexp over origins of
    the log flow, spatial_interaction_models/__init__.py:250-251,
    HarrisWilsonModel.py:375-380 *)
Definition demand (I : nat) (lf : mat) : vec := fun j => exp (lse I (fun i => lf i j)).

(** ---- potential of the stationary distribution --------------------------- *)

(** sde_pot, TotallyConstrained/__init__.py:32-56 for alpha <> 0 (for alpha = 0
    the code returns -inf). *)
Definition tc_sde_pot (I J : nat) (c : mat) (al be de ka si ep : R) (x : vec) : R :=
  (- (1 / al) * lse2 I J (log_utility c x al be)
   + (ka * rsum J (fun j => exp (x j)) - de * rsum J x)) * ((2 * ep) / (si * si)).

(** sde_pot, ProductionConstrained/__init__.py:33-58 for alpha <> 0: the
    logsumexp is over dimension 0, i.e. over origins, and torch.dot requires
    both vectors to have the same length. *)
Definition pc_sde_pot (I J : nat) (O : vec) (c : mat) (al be de ka si ep : R) (x : vec) : res R :=
  if Nat.eqb I J then
    Ok ((- (1 / al) * rsum J (fun j => O j * lse I (fun i => log_utility c x al be i j))
         + (ka * rsum J (fun j => exp (x j)) - de * rsum J x)) * ((2 * ep) / (si * si)))
  else Raise EExn.

(** sde_ais_potential_and_jacobian, HarrisWilsonModel.py:311-328 *)
Definition ais_pot (J : nat) (de ka si : R) (x : vec) : R :=
  let g := 2 / (si * si) in
  - g * (de + 1 / INR J) * rsum J x + rsum J (fun j => g * ka * exp (x j)).
Definition ais_grad (J : nat) (de ka si : R) (x : vec) : vec :=
  let g := 2 / (si * si) in
  fun j => - g * (de + 1 / INR J) * 1 + g * ka * exp (x j).

(** obs_noise_percentage_to_var, HarrisWilsonModel.py:150-161 *)
Definition obs_noise_percentage_to_var (p : R) (J : nat) : R := (p / 100 * ln (INR J)) ^ 2.

(** negative_destination_attraction_log_likelihood_and_gradient,
    HarrisWilsonModel.py:225-243 *)
Definition neg_log_lik (J : nat) (nv : R) (y x : vec) : R :=
  1 / 2 * (1 / nv) * rsum J (fun j => (x j - y j) * (x j - y j)).
Definition neg_log_lik_grad (nv : R) (y x : vec) : vec := fun j => 1 / nv * (x j - y j).

(** ---- forward model ------------------------------------------------------- *)

(** Parameters of the stochastic differential equation *)
Record hw := HW { kappa : R; delta : R; epsilon : R; sigma : R; dt : R }.

(** run_single, HarrisWilsonModel.py:332-403, for attractions of shape (J,1)
    with the normal draws [xi]. *)
Definition run_single (I : nat) (h : hw) (w : vec) (lf : mat) (xi : vec) : vec :=
  fun j => w j + w j * (epsilon h * (demand I lf j - kappa h * w j + delta h)
                        + sigma h * 1 / sqrt (2 * PI * dt h) * xi j) * dt h.

(** run, HarrisWilsonModel.py:405-487: the list of states (newest last) with
    [generate_time_series], and the last state without.  [xis] holds the normal
    draws of each iteration, [logint] the intensity model at grand total one. *)
Fixpoint run_states (I : nat) (h : hw) (logint : vec -> mat) (xis : list vec) (w : vec) : list vec :=
  match xis with
  | [] => [w]
  | xi :: r => w :: run_states I h logint r (run_single I h w (logint (fun j => ln (w j))) xi)
  end.

Fixpoint run_last (I : nat) (h : hw) (logint : vec -> mat) (xis : list vec) (w : vec) : vec :=
  match xis with
  | [] => w
  | xi :: r => run_last I h logint r (run_single I h w (logint (fun j => ln (w j))) xi)
  end.

(** update_delta_and_kappa, inputs.py:196-223.  A negative or missing setting
    counts as absent; [s] smallest zone size, [W] sum of zone sizes, [F] total
    flow.  Division by zero is not modelled. *)
Definition update_delta_and_kappa (de0 ka0 : R) (J : nat) (s W F : R) : R * R :=
  let de := if Rleb 0 de0 then Some de0 else None in
  let ka := if Rleb 0 ka0 then Some ka0 else None in
  match de, ka with
  | None, None => let k := F / (W - s * INR J) in (s * k, k)
  | Some d, None => (d, (F + d * INR J) / W)
  | None, Some k => (k * s, k)
  | Some d, Some k => (d, k)
  end.
