(** The Laplace (saddle point) estimate of the normalising constant,
    gensit/learning_models/HarrisWilsonModel_MCMC.py biased_z_inverse, with its
    Hessian and its Cholesky factorisation.

    Floats are real numbers; [torch.autograd.functional.hessian] is modelled by
    the closed form of the second derivatives (proved to be the second
    derivatives in LaplaceProps); [torch.linalg.cholesky] is modelled by the
    textbook factorisation in exact arithmetic, which raises at the first pivot
    that is not positive.  The optimiser's results are arguments. *)
From Coq Require Import List ZArith Lia Bool Arith Reals Lra.
From Verif Require Import Base RealBase ProbUtils SIM HMC.
Import ListNotations.
Open Scope R_scope.

(** torch.linalg.cholesky, used at HarrisWilsonModel_MCMC.py:518: the lower
    triangle of the [n] by [n] matrix [A] is read, and what is left after the
    first column is factorised in turn.  [None] stands for the LinAlgError. *)
Definition schur (A : mat) : mat := fun i j => A (S i) (S j) - A (S i) 0%nat * A (S j) 0%nat / A 0%nat 0%nat.
Definition glue (A L : mat) : mat := fun i j =>
  match i, j with
  | O, O => sqrt (A 0%nat 0%nat)
  | O, S _ => 0
  | S i', O => A (S i') 0%nat / sqrt (A 0%nat 0%nat)
  | S i', S j' => L i' j'
  end.
Fixpoint cholesky (n : nat) (A : mat) : option mat :=
  match n with
  | O => Some (fun i j => if Nat.eqb i j then 1 else 0)
  | S n' =>
      if Rltb 0 (A 0%nat 0%nat) then
        match cholesky n' (schur A) with
        | Some L => Some (glue A L)
        | None => None
        end
      else None
  end.

(** sde_pot_hessian, TotallyConstrained/__init__.py:66-73, block (0,0) selected
    by sde_potential_hessian, HarrisWilsonModel.py:211-224: what autograd
    returns for [tc_sde_pot] *)
Definition tc_hessian (I J : nat) (c : mat) (al be : R) (h : hw) (x : vec) : mat := fun j k =>
  let d := demand I (tc_log_flow I J c 1 x al be) in
  (2 * epsilon h / (sigma h * sigma h)) *
  ((if Nat.eqb j k then kappa h * exp (x j) - al * d j else 0) + al * (d j * d k)).

(** sde_pot_hessian, ProductionConstrained/__init__.py:69-76 *)
Definition pc_hessian (h : hw) (x : vec) : mat := fun j k =>
  (2 * epsilon h / (sigma h * sigma h)) * (if Nat.eqb j k then kappa h * exp (x j) else 0).

(** the starting points of the optimisation, lines 471-472: row [i] *)
Definition start (de : R) (i : nat) : vec := fun j => if Nat.eqb i j then ln de - ln de + ln (1 + de) else ln de.

(** biased_z_inverse, lines 490-541: potential [V] and Hessian [hess] at the
    candidates [xs], the first lowest candidate, half the log determinant from
    the diagonal of the Cholesky factor *)
Definition half_log_det (J : nat) (L : mat) : R := rsum J (fun j => ln (L j j)).
Definition laplace (J : nat) (V : vec -> R) (hess : vec -> mat) (xs : nat -> vec) : res (R * R) :=
  let a := np_argmin J (fun i => V (xs i)) in
  match cholesky J (hess (xs a)) with
  | Some L => Ok (V (xs a) + half_log_det J L, 1)
  | None => Raise EExn
  end.
