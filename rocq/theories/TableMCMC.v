(** Model of gensit/contingency_table/ContingencyTable_MCMC.py: proposals,
    acceptance ratios and the table step for two-way tables.

    Random draws are inputs ([draw] below).  Probabilities only decide which
    draws are possible, so they are not modelled; log intensities are reals.
    torch float32 tables are exact integers; NaN and infinite log intensities
    are not modelled.  Logging, print and device moves are dropped. *)
From Coq Require Import List ZArith Lia Bool Arith Reals.
From Verif Require Import Base RealBase Axes Tables InitTables MarkovBasis.
Import ListNotations.
Open Scope Z_scope.

(** ---- Proposal type and set-up -------------------------------------- *)

Inductive ptype := DirectSampling | DegreeOne | DegreeHigher.

(** ct.distribution_name, __init__.py:33-48 applied to the stored axes. *)
Definition distribution_of (c : ct) : res distr :=
  map_constraints_to_distribution_name (map ax_tuple (ct_caxes c)).

(** update_proposal_type, ContingencyTable_MCMC.py:118-140.  Lines 128 and 134
    compare with [==] where an assignment was meant, so they change nothing. *)
Definition update_proposal_type (c : ct) (p : ptype) : res ptype :=
  rbind (distribution_of c) (fun d =>
    match d with
    | FishersHypergeometric =>
      match p, ct_fixed c with
      | DirectSampling, _ :: _ => Ok DegreeHigher
      | _, _ => Ok p
      end
    | _ => Ok p
    end).

Record mcmc := MC { mc_ct : ct; mc_prop : ptype; mc_basis : list basis_fn }.

(** Construction, ContingencyTable_MCMC.py:26-89, 278-345: the degree-higher
    proposal exists only for Fisher's hypergeometric (lines 309-310, getattr
    raises AttributeError otherwise); a Markov basis is generated for the two
    Markov-basis proposals. *)
Definition build_mcmc (c : ct) (p : ptype) (draws : nat -> nat) : res mcmc :=
  rbind (update_proposal_type c p) (fun p' =>
  rbind (distribution_of c) (fun d =>
    match p' with
    | DirectSampling => Ok (MC c p' [])
    | DegreeOne => rbind (generate_markov_basis c draws) (fun b => Ok (MC c p' b))
    | DegreeHigher =>
      match d with
      | FishersHypergeometric => rbind (generate_markov_basis c draws) (fun b => Ok (MC c p' b))
      | _ => Raise EAttr
      end
    end)).

(** ---- Degree-one proposal ------------------------------------------- *)

(** table_new[k] = table_prev[k] + epsilon * f[k] for the keys k of the basis
    function, ContingencyTable_MCMC.py:589-609. *)
Definition apply_move (f : basis_fn) (eps : Z) (t : table) : table := fun i j =>
  if cell_in (i, j) (map fst f) then t i j + eps * bf_value f (i, j) else t i j.

(** Index of a basis function: np.random.randint(len) raises for an empty
    basis. *)
Definition pick_basis (b : list basis_fn) (idx : nat) : res basis_fn :=
  match b with
  | [] => Raise EValue
  | f :: _ => Ok (nth (Nat.modulo idx (length b)) b f)
  end.

Definition degree_one_proposal (m : mcmc) (idx : nat) (plus : bool) (t : table) : res table :=
  rbind (pick_basis (mc_basis m) idx) (fun f => Ok (apply_move f (if plus then 1 else -1) t)).

(** ---- Degree-higher proposal ----------------------------------------- *)

Definition cell_leb (a b : cell) : bool :=
  (fst a <? fst b)%nat || (Nat.eqb (fst a) (fst b) && (snd a <=? snd b)%nat).

Fixpoint cell_insert (k : cell) (l : list cell) : list cell :=
  match l with
  | [] => [k]
  | x :: l' => if cell_leb k x then k :: l else x :: cell_insert k l'
  end.

(** sorted(list(keys)). *)
Definition cell_sort (l : list cell) : list cell := fold_right cell_insert [] l.

Definition set_cell (k : cell) (v : Z) (t : table) : table := fun i j =>
  if cell_eqb (i, j) k then v else t i j.

(** degree_higher_proposal_2way_table_fishers_hypergeometric,
    ContingencyTable_MCMC.py:612-669.  [val] is the value drawn by
    nchypergeom_fisher.rvs, None when it raises (then 0 is used). *)
Definition degree_higher_minor (f : basis_fn) (val : option Z) (t : table) : res table :=
  match cell_sort (map fst f) with
  | k0 :: k1 :: k2 :: k3 :: rest =>
    let g k := t (fst k) (snd k) in
    let rsum := g k0 + g k1 in
    let csum := g k0 + g k2 in
    let total := lsum (map g (k0 :: k1 :: k2 :: k3 :: rest)) in
    let v := match val with Some v => v | None => 0 end in
    Ok (set_cell k3 (total - rsum - csum + v)
         (set_cell k2 (csum - v) (set_cell k1 (rsum - v) (set_cell k0 v t))))
  | _ => Raise EIndex
  end.

Definition degree_higher_proposal (m : mcmc) (idx : nat) (val : option Z) (t : table) : res table :=
  rbind (pick_basis (mc_basis m) idx) (fun f => degree_higher_minor f val t).

(** get_table_step_size_support, ContingencyTable_MCMC.py:370-389; the list
    range(lo, hi+1) as its two ends. *)
Definition step_size_support (t : table) (f : basis_fn) (k0 k1 k2 k3 : cell) : Z * Z :=
  let g k := t (fst k) (snd k) in
  let min1 := Z.min (g k0) (g k3) in
  let min2 := Z.min (g k1) (g k2) in
  if 0 <? bf_value f k0 then (- min1, min2) else (- min2, min1).

(** Python's list(range(a, b)). *)
Definition zrange (a b : Z) : list Z := map (fun k => a + Z.of_nat k) (seq 0 (Z.to_nat (b - a))).

Definition get_table_step_size_support (t : table) (f : basis_fn) (k0 k1 k2 k3 : cell) : list Z :=
  let '(lo, hi) := step_size_support t f k0 k1 k2 k3 in zrange lo (hi + 1).

(** ---- Direct sampling ------------------------------------------------- *)

(** table_new[free_indices] = values: the k-th value goes to the k-th cell. *)
Fixpoint assign_cells (cells : list cell) (vals : list Z) (t : table) : table :=
  match cells, vals with
  | k :: cells', v :: vals' => assign_cells cells' vals' (set_cell k v t)
  | _, _ => t
  end.

(** The zero table with the fixed cells at their supplied values,
    ContingencyTable_MCMC.py:398-410. *)
Definition fixed_table (c : ct) : table := fun i j =>
  if cell_in (i, j) (ct_fixed c) then ct_truth c i j else 0.

(** poisson_sample_2way_table and multinomial_sample_2way_table,
    ContingencyTable_MCMC.py:396-454, for the drawn counts of the free cells. *)
Definition sample_free_cells (c : ct) (vals : list Z) : table :=
  assign_cells (ct_free c) vals (fixed_table c).

(** Indexing a table with the (n,2) array of fixed cells selects rows, one for
    each row and each column index in it: ContingencyTable_MCMC.py:499. *)
Definition fixed_rows (c : ct) : list nat := flat_map (fun k => [fst k; snd k]) (ct_fixed c).

Definition overwrite_rows (c : ct) (t : table) : res table :=
  if forallb (fun r => (r <? nI (ct_shape c))%nat) (fixed_rows c) then
    Ok (fun i j => if existsb (Nat.eqb i) (fixed_rows c) then ct_truth c i j else t i j)
  else Raise EIndex.

(** One attempt of product_multinomial_sample_2way_table,
    ContingencyTable_MCMC.py:482-500: [counts] has one list per entry of the
    constrained residual margin; they are concatenated and written to the free
    cells in row-major order. *)
Definition product_multinomial_attempt (c : ct) (counts : list (list Z)) : res table :=
  overwrite_rows c (assign_cells (ct_free c) (concat counts) (fixed_table c)).

(** The draws of one attempt, for the distributions that can be sampled. *)
Inductive attempt :=
| AtPoisson (vals : list Z)
| AtMultinomial (vals : list Z)
| AtProduct (counts : list (list Z))
| AtPerm (perm : list Z).

Definition direct_attempt (c : ct) (a : attempt) : res table :=
  match a with
  | AtPoisson vals | AtMultinomial vals => Ok (sample_free_cells c vals)
  | AtProduct counts => product_multinomial_attempt c counts
  | AtPerm perm => table_monte_carlo_sample c (fun _ => None) perm
  end.

(** direct_sampling_proposal_2way_table, ContingencyTable_MCMC.py:515-586:
    repeat until the sampled table is admissible.  None: the attempts given so
    far were all inadmissible, so the loop is still running. *)
Fixpoint direct_sampling_proposal (c : ct) (attempts : list attempt) : res (option table) :=
  match attempts with
  | [] => Ok None
  | a :: rest =>
    rbind (direct_attempt c a) (fun t =>
      if table_admissible c t then Ok (Some t) else direct_sampling_proposal c rest)
  end.

(** ---- Acceptance ------------------------------------------------------ *)

(** log_factorial_sum(arange(a, b)) = sum of lgamma(k+1) = ln k! for
    a <= k < b: utils/math_utils.py:17-18. *)
Definition log_factorial_sum (a b : Z) : R :=
  fold_right Rplus 0%R (map (fun k => ln (INR (fact (Z.to_nat k)))) (zrange a b)).

(** log_target_measure_difference_2way_table, ContingencyTable_MCMC.py:718-751.
    The print in the decreasing branch (line 746) evaluates
    torch.arange(max(new,1), 1), which raises when max(new,1) > 1. *)
Fixpoint log_target_measure_difference (new prev : table) (li : nat -> nat -> R)
    (cells : list cell) (acc : R) : res R :=
  match cells with
  | [] => Ok acc
  | (i, j) :: rest =>
    let acc := (acc + IZR (new i j - prev i j) * li i j)%R in
    if prev i j <? new i j then
      log_target_measure_difference new prev li rest
        (acc - log_factorial_sum (Z.max (prev i j) 1) (Z.max (new i j) 1))%R
    else if new i j <? prev i j then
      if 1 <? Z.max (new i j) 1 then Raise EExn
      else log_target_measure_difference new prev li rest
        (acc + log_factorial_sum (Z.max (new i j) 1) (Z.max (prev i j) 1))%R
    else log_target_measure_difference new prev li rest acc
  end.

(** Log acceptance ratios; None is minus infinity. *)
Definition cells_of_interest (s : shape) (new prev : table) : list cell :=
  filter (fun k => negb (new (fst k) (snd k) =? prev (fst k) (snd k))) (all_cells s).

(** metropolis_log_acceptance_ratio_2way_table, ContingencyTable_MCMC.py:671-698. *)
Definition metropolis_log_acceptance (c : ct) (new prev : table) (li : nat -> nat -> R) : res (option R) :=
  rbind (log_target_measure_difference new prev li (cells_of_interest (ct_shape c) new prev) 0%R)
    (fun r => Ok (if table_nonnegative (ct_shape c) new then Some r else None)).

(** gibbs_log_acceptance_ratio_2way_table and
    direct_sampling_log_acceptance_ratio_2way_table return 0,
    ContingencyTable_MCMC.py:700-715. *)
Definition log_acceptance (m : mcmc) (new prev : table) (li : nat -> nat -> R) : res (option R) :=
  match mc_prop m with
  | DegreeOne => metropolis_log_acceptance (mc_ct m) new prev li
  | _ => Ok (Some 0%R)
  end.

(** (log_acc >= 0) or (log(u) < log_acc), ContingencyTable_MCMC.py:771;
    [lu] None is log 0. *)
Definition accepts (la lu : option R) : bool :=
  match la with
  | None => false
  | Some a => Rleb 0 a || match lu with None => true | Some b => Rltb b a end
  end.

(** All the randomness of one table step. *)
Record draw := Draw {
  d_idx : nat; d_plus : bool; d_val : option Z; d_attempts : list attempt; d_logu : option R }.

Definition propose (m : mcmc) (t : table) (d : draw) : res (option table) :=
  match mc_prop m with
  | DirectSampling => direct_sampling_proposal (mc_ct m) (d_attempts d)
  | DegreeOne => rbind (degree_one_proposal m (d_idx d) (d_plus d) t) (fun u => Ok (Some u))
  | DegreeHigher => rbind (degree_higher_proposal m (d_idx d) (d_val d) t) (fun u => Ok (Some u))
  end.

(** table_gibbs_step, ContingencyTable_MCMC.py:754-776. *)
Definition table_gibbs_step (m : mcmc) (li : nat -> nat -> R) (t : table) (d : draw)
    : res (option (table * Z)) :=
  rbind (propose m t d) (fun o =>
    match o with
    | None => Ok None
    | Some new =>
      rbind (log_acceptance m new t li) (fun la =>
        Ok (Some (if accepts la (d_logu d) then (new, 1) else (t, 0))))
    end).

(** A run of the sampler: the tables after each step (experiments.py:1906-1980
    calls the step once per iteration).  The log intensity may change between
    steps. *)
Inductive reaches (m : mcmc) : table -> table -> Prop :=
| reach_here : forall t, reaches m t t
| reach_step : forall t u v li d acc, reaches m t u ->
    table_gibbs_step m li u d = Ok (Some (v, acc)) -> reaches m t v.
