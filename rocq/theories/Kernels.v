(** Transition probabilities of the table samplers of
    gensit/contingency_table/ContingencyTable_MCMC.py: the random draws that
    TableMCMC.v takes as inputs get the probabilities of the generators they come
    from.

    Trusted about the libraries: np.random.randint is uniform, torch.rand is uniform
    on [0,1), scipy's nchypergeom_fisher and torch's Multinomial and Poisson have
    their documented mass functions.  Tables are exact integers, intensities reals. *)
From Coq Require Import List ZArith Lia Bool Arith Reals Lra Permutation.
From Verif Require Import Base RealBase Axes Tables InitTables MarkovBasis TableMCMC ProbUtils.
Import ListNotations.
Local Open Scope R_scope.

(** Sum over a list. *)
Fixpoint lsumf {A} (f : A -> R) (l : list A) : R :=
  match l with [] => 0 | x :: r => f x + lsumf f r end.

(** Equality of tables on their cells. *)
Definition table_eqb (s : shape) (t u : table) : bool :=
  forallb (fun k => (t (fst k) (snd k) =? u (fst k) (snd k))%Z) (all_cells s).

(** * Degree-higher steps *)

(** scipy.stats.nchypergeom_fisher(M, n, N, odds), documented mass function. *)
Definition nchf_support (M n N : Z) : list Z := zrange (Z.max 0 (N - (M - n))) (Z.min n N + 1).
Definition nchf_weight (M n N : Z) (odds : R) (x : Z) : R :=
  C (Z.to_nat n) (Z.to_nat x) * C (Z.to_nat (M - n)) (Z.to_nat (N - x)) * odds ^ Z.to_nat x.
Definition nchf_pmf (M n N : Z) (odds : R) (x : Z) : R :=
  nchf_weight M n N odds x / lsumf (nchf_weight M n N odds) (nchf_support M n N).

(** safe_cast, misc_utils.py 1556-1566; the bounds as reals. *)
Definition safe_cast (x : R) : R :=
  let y := if Rltb (/ 10 ^ 6) x then x else / 10 ^ 6 in if Rltb y (10 ^ 6) then y else 10 ^ 6.

(** omega, ContingencyTable_MCMC.py 621-641: the odds cross ratio at the positive
    cells in lexicographic order; log_odds_cross_ratio takes two cells. *)
Definition minor_odds (li : nat -> nat -> R) (f : basis_fn) : R :=
  match filter (fun k => (0 <? bf_value f k)%Z) (cell_sort (map fst f)) with
  | [a; b] => safe_cast (exp (log_odds_cross_ratio li a b))
  | _ => 1
  end.

(** The values nchypergeom_fisher.rvs can return with their probabilities,
    ContingencyTable_MCMC.py 643-651. *)
Definition minor_values (li : nat -> nat -> R) (f : basis_fn) (t : table) : list (Z * R) :=
  match cell_sort (map fst f) with
  | k0 :: k1 :: k2 :: k3 :: rest =>
    let g k := t (fst k) (snd k) in
    let rsum := (g k0 + g k1)%Z in
    let csum := (g k0 + g k2)%Z in
    let total := lsum (map g (k0 :: k1 :: k2 :: k3 :: rest)) in
    map (fun x => (x, nchf_pmf total rsum csum (minor_odds li f) x)) (nchf_support total rsum csum)
  | _ => []
  end.

(** Does a step with these draws end in [u]? *)
Definition step_hits (m : mcmc) (li : nat -> nat -> R) (t u : table) (d : draw) : bool :=
  match table_gibbs_step m li t d with
  | Ok (Some (v, _)) => table_eqb (ct_shape (mc_ct m)) v u
  | _ => false
  end.

(** Probability that a degree-higher step, ContingencyTable_MCMC.py 612-669 and
    754-776, leads from [t] to [u]: the basis function is uniform (line 617). *)
Definition higher_prob (m : mcmc) (li : nat -> nat -> R) (t u : table) : R :=
  rsum (length (mc_basis m)) (fun idx =>
    / INR (length (mc_basis m)) *
    lsumf (fun xp => snd xp * (if step_hits m li t u (Draw idx true (Some (fst xp)) [] None) then 1 else 0))
      (minor_values li (nth idx (mc_basis m) []) t)).

(** * Degree-one steps *)

(** Probability that [accepts la (log u)] for u uniform on [0,1),
    ContingencyTable_MCMC.py 771. *)
Definition accept_prob (la : option R) : R := match la with None => 0 | Some a => Rmin 1 (exp a) end.

(** Probability that a degree-one step, ContingencyTable_MCMC.py 589-609, 671-698
    and 754-776, leads from [t] to [u]: basis function and sign are uniform (lines
    594-597, probability_utils.py 15-24); steps that raise contribute nothing. *)
Definition metropolis_prob (m : mcmc) (li : nat -> nat -> R) (t u : table) : R :=
  rsum (length (mc_basis m)) (fun idx =>
    / INR (length (mc_basis m)) *
    lsumf (fun plus : bool => / 2 *
      match degree_one_proposal m idx plus t with
      | Raise _ => 0
      | Ok v =>
        match metropolis_log_acceptance (mc_ct m) v t li with
        | Raise _ => 0
        | Ok la => accept_prob la * (if table_eqb (ct_shape (mc_ct m)) v u then 1 else 0) +
                   (1 - accept_prob la) * (if table_eqb (ct_shape (mc_ct m)) t u then 1 else 0)
        end
      end) [true; false]).

(** * Direct sampling *)

(** Mass functions of torch.distributions.Multinomial(total, probs), which
    normalises probs, and of independent Poisson draws. *)
Definition multinomial_pmf (n : Z) (probs : list R) (vals : list Z) : R :=
  INR (fact (Z.to_nat n)) *
  fold_right Rmult 1 (map (fun pv => (fst pv / fold_right Rplus 0 probs) ^ Z.to_nat (snd pv) / INR (fact (Z.to_nat (snd pv)))) (combine probs vals)).
Definition poisson_pmf (rates : list R) (vals : list Z) : R :=
  fold_right Rmult 1 (map (fun rv => exp (- fst rv) * fst rv ^ Z.to_nat (snd rv) / INR (fact (Z.to_nat (snd rv)))) (combine rates vals)).

(** Probabilities handed to the generators, ContingencyTable_MCMC.py 515-551: the
    intensity divided by the exponential of [norm], its log-sum over all cells
    (multinomial), over the row (product multinomial) or 0 (Poisson). *)
Definition cell_probs (li : nat -> nat -> R) (norm : nat -> nat -> R) (cells : list cell) : list R :=
  map (fun k => exp (li (fst k) (snd k) - norm (fst k) (snd k))) cells.

(** Probability of the drawn counts: poisson_sample_2way_table,
    multinomial_sample_2way_table (residual total, free cells),
    ContingencyTable_MCMC.py 396-454; product_multinomial_sample_2way_table
    (one multinomial per entry of the residual margin over the free cells of the row,
    probability_utils.py 344-353), ContingencyTable_MCMC.py 456-512, for row totals. *)
Definition poisson_draw_prob (c : ct) (li : nat -> nat -> R) (vals : list Z) : R :=
  poisson_pmf (cell_probs li (fun _ _ => 0) (ct_free c)) vals.
Definition multinomial_draw_prob (c : ct) (li : nat -> nat -> R) (vals : list Z) : R :=
  multinomial_pmf (nth 0 (ct_resid c A01) 0%Z)
    (cell_probs li (fun _ _ => lse2 (nI (ct_shape c)) (nJ (ct_shape c)) li) (ct_free c)) vals.
Definition product_draw_prob (c : ct) (li : nat -> nat -> R) (counts : list (list Z)) : R :=
  rprod (nI (ct_shape c)) (fun i =>
    multinomial_pmf (nth i (ct_resid c A1) 0%Z)
      (cell_probs li (fun i' _ => lse (nJ (ct_shape c)) (fun j => li i' j)) (filter (fun k => Nat.eqb (fst k) i) (ct_free c)))
      (nth i counts [])).

(** Probability that torch.randperm, uniform over the permutations [perms] of the
    items, gives the table [t]: direct sampling with both margins constrained,
    ContingencyTable_MCMC.py 566-580, and the Monte Carlo start table,
    contingency_table/__init__.py 929-980. *)
Definition shuffle_draw_prob (c : ct) (perms : list (list Z)) (t : table) : R :=
  lsumf (fun p => match table_monte_carlo_sample c (fun _ => None) p with
                  | Ok v => if table_eqb (ct_shape c) v t then 1 else 0
                  | Raise _ => 0
                  end) perms / INR (length perms).
