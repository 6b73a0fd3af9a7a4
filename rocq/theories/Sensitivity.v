(** How the flows of the spatial interaction models respond to their parameters:
    flow_matrix_expanded and flow_matrix_jacobian,
    gensit/intensity_models/spatial_interaction_models/TotallyConstrained/__init__.py 175-192,
    ProductionConstrained/__init__.py 179-197; intensity_gradient, __init__.py 264-286.

    One draw and one sweep; the values of torch.autograd.functional.jacobian are
    modelled by closed forms, in the order of FLOW_MATRIX_ARGS (they are proved to
    be the derivatives of the flows). *)
From Coq Require Import List Arith Bool Reals.
From Verif Require Import Base RealBase ProbUtils SIM.
Import ListNotations.
Open Scope R_scope.

(** flow_matrix_expanded, TotallyConstrained/__init__.py:175-184 *)
Definition tc_flow (I J : nat) (c : mat) (T : R) (x : vec) (al be : R) : mat :=
  fun i j => exp (tc_log_flow I J c T x al be i j).
(** flow_matrix_expanded, ProductionConstrained/__init__.py:179-189 *)
Definition pc_flow (J : nat) (O : vec) (c : mat) (T : R) (x : vec) (al be : R) : mat :=
  fun i j => exp (pc_log_flow 0 J O c T x al be i j).

(** the mean of [g] over all trips, and over the trips of one origin *)
Definition trip_mean (I J : nat) (f g : mat) : R := rsum2 I J (fun i j => f i j * g i j) / rsum2 I J f.
Definition origin_mean (J : nat) (f g : mat) (i : nat) : R := rsum J (fun j => f i j * g i j) / rsum J (f i).

(** Jacobians, TotallyConstrained/__init__.py:186-192: entry (i,j) of the flows
    against attraction k, cost (k,l), grand total, alpha, beta. *)
Definition tc_jac_x (I J : nat) (c : mat) (T : R) (x : vec) (al be : R) (i j k : nat) : R :=
  let f := tc_flow I J c T x al be in
  al * f i j * ((if Nat.eqb j k then 1 else 0) - rsum I (fun i' => f i' k) / rsum2 I J f).
Definition tc_jac_cost (I J : nat) (c : mat) (T : R) (x : vec) (al be : R) (i j k l : nat) : R :=
  let f := tc_flow I J c T x al be in
  - be * f i j * ((if Nat.eqb i k && Nat.eqb j l then 1 else 0) - f k l / rsum2 I J f).
Definition tc_jac_total (I J : nat) (c : mat) (T : R) (x : vec) (al be : R) (i j : nat) : R :=
  tc_flow I J c T x al be i j / T.
Definition tc_jac_alpha (I J : nat) (c : mat) (T : R) (x : vec) (al be : R) (i j : nat) : R :=
  let f := tc_flow I J c T x al be in f i j * (x j - trip_mean I J f (fun _ j => x j)).
Definition tc_jac_beta (I J : nat) (c : mat) (T : R) (x : vec) (al be : R) (i j : nat) : R :=
  let f := tc_flow I J c T x al be in f i j * (trip_mean I J f c - c i j).

(** ProductionConstrained/__init__.py:191-197: against attraction k, origin demand
    k, alpha, beta, cost (k,l), grand total *)
Definition pc_jac_x (J : nat) (O : vec) (c : mat) (T : R) (x : vec) (al be : R) (i j k : nat) : R :=
  let f := pc_flow J O c T x al be in
  al * f i j * ((if Nat.eqb j k then 1 else 0) - f i k / rsum J (f i)).
Definition pc_jac_demand (J : nat) (O : vec) (c : mat) (T : R) (x : vec) (al be : R) (i j k : nat) : R :=
  if Nat.eqb i k then pc_flow J O c T x al be i j / O i else 0.
Definition pc_jac_alpha (J : nat) (O : vec) (c : mat) (T : R) (x : vec) (al be : R) (i j : nat) : R :=
  let f := pc_flow J O c T x al be in f i j * (x j - origin_mean J f (fun _ j => x j) i).
Definition pc_jac_beta (J : nat) (O : vec) (c : mat) (T : R) (x : vec) (al be : R) (i j : nat) : R :=
  let f := pc_flow J O c T x al be in f i j * (origin_mean J f c i - c i j).
Definition pc_jac_cost (J : nat) (O : vec) (c : mat) (T : R) (x : vec) (al be : R) (i j k l : nat) : R :=
  let f := pc_flow J O c T x al be in
  if Nat.eqb i k then - be * f i j * ((if Nat.eqb j l then 1 else 0) - f i l / rsum J (f i)) else 0.
Definition pc_jac_total (J : nat) (O : vec) (c : mat) (T : R) (x : vec) (al be : R) (i j : nat) : R :=
  pc_flow J O c T x al be i j / T.
