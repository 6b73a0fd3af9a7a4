(** Model of the numerical helpers of gensit/utils/probability_utils.py and
    gensit/utils/math_utils.py.

    Floats are real numbers (no rounding, overflow, NaN or infinities);
    torch.logsumexp is the exact [lse]; torch.lgamma is a function argument
    [lg] about which the theorems assume only its values at the positive
    integers.  Matrices are functions of a row and a column index with the
    shape [n] by [m] given separately; devices and dtypes are dropped. *)
From Coq Require Import List ZArith Lia Bool Arith Reals Lra.
From Verif Require Import Base RealBase.
Import ListNotations.
Open Scope R_scope.

Definition mat := nat -> nat -> R.

(** log_factorial_sum, math_utils.py:17-18 *)
Definition lfs (lg : R -> R) (n m : nat) (T : mat) : R := rsum2 n m (fun i j => lg (T i j + 1)).

(** log_poisson_pmf_unnormalised, probability_utils.py:83-85 *)
Definition log_poisson_pmf_unnormalised (lg : R -> R) (n m : nat) (table li : mat) : R :=
  - rsum2 n m li + rsum2 n m (fun i j => table i j * li i j) - lfs lg n m table.

(** log_poisson_loss, probability_utils.py:87-93 *)
Definition log_poisson_loss (lg : R -> R) (n m : nat) (table li : mat) : R :=
  rsum2 n m li + - rsum2 n m (fun i j => table i j * li i j) + lfs lg n m table.

(** log_poisson_pmf_normalised, probability_utils.py:95-97: the arguments are
    passed in the order (log_intensity, table). *)
Definition log_poisson_pmf_normalised (lg : R -> R) (n m : nat) (table li : mat) : R :=
  log_poisson_pmf_unnormalised lg n m li table.

(** log_multinomial_pmf_unnormalised, probability_utils.py:104-108 *)
Definition log_multinomial_pmf_unnormalised (lg : R -> R) (n m : nat) (table li : mat) : R :=
  let total := lse2 n m li in
  rsum2 n m (fun i j => table i j * (li i j - total)) - lfs lg n m table.

(** math_utils.logsumexp, math_utils.py:438-440, over all entries of a vector *)
Fixpoint rmax (n : nat) (f : nat -> R) : R :=
  match n with O => f O | S O => f O | S m => Rmax (rmax m f) (f m) end.

Definition logsumexp (n : nat) (f : nat -> R) : R :=
  let mx := rmax n f in mx + ln (rsum n (fun k => exp (f k - mx))).

(** the same reduction over both dimensions: vector of length n*m *)
Definition logsumexp2 (n m : nat) (f : mat) : R :=
  logsumexp (n * m) (fun k => f (k / m)%nat (k mod m)%nat).

(** log_multinomial_loss, probability_utils.py:110-119 *)
Definition log_multinomial_loss (lg : R -> R) (n m : nat) (table li : mat) : R :=
  let total := logsumexp2 n m li in
  - rsum2 n m (fun i j => table i j * (li i j - total)) + lfs lg n m table.

(** log_multinomial_pmf_normalised, probability_utils.py:122-124 *)
Definition log_multinomial_pmf_normalised (lg : R -> R) (n m : nat) (table li : mat) : R :=
  log_multinomial_pmf_unnormalised lg n m li table + lg (rsum2 n m table + 1).

(** log_product_multinomial_pmf_unnormalised, probability_utils.py:131-137 *)
Definition log_product_multinomial_pmf_unnormalised (lg : R -> R) (n m : nat) (table li : mat) : R :=
  rsum2 n m (fun i j => table i j * (li i j - lse m (fun j' => li i j'))) - lfs lg n m table.

(** log_product_multinomial_loss, probability_utils.py:139-149: the reduction is
    over 'origin' (rows), so each column is normalised. *)
Definition log_product_multinomial_loss (lg : R -> R) (n m : nat) (table li : mat) : R :=
  - rsum2 n m (fun i j => table i j * (li i j - logsumexp n (fun i' => li i' j))) + lfs lg n m table.

(** log_product_multinomial_pmf_normalised, probability_utils.py:152-156 *)
Definition log_product_multinomial_pmf_normalised (lg : R -> R) (n m : nat) (table li : mat) : R :=
  log_product_multinomial_pmf_unnormalised lg n m li table
  + rsum n (fun i => lg (rsum m (fun j => table i j) + 1)).

(** log_odds_ratio_wrt_intensity, probability_utils.py:43-55 *)
Definition log_odds_ratio (n m : nat) (li : mat) : mat :=
  let rows := fun i => lse m (fun j => li i j) in
  let cols := fun j => lse n (fun i => li i j) in
  let tot := lse n rows in
  fun i j => li i j + tot - rows i - cols j.

(** log_odds_cross_ratio, probability_utils.py:77-79 *)
Definition log_odds_cross_ratio (li : mat) (c1 c2 : nat * nat) : R :=
  li (fst c1) (snd c1) + li (fst c2) (snd c2) - li (fst c1) (snd c2) - li (fst c2) (snd c1).

(** log_fishers_hypergeometric_pmf_unnormalised, probability_utils.py:164-171 *)
Definition log_fishers_pmf_unnormalised (lg : R -> R) (n m : nat) (table li : mat) : R :=
  let lor := log_odds_ratio n m li in
  let tot := lse2 n m lor in
  rsum2 n m (fun i j => table i j * (lor i j - tot)) - lfs lg n m table.

(** log_odds_ratio_wrt_intensity_xarray, probability_utils.py:57-74 *)
Definition log_odds_ratio_xarray (n m : nat) (li : mat) : mat :=
  let rows := fun i => logsumexp m (fun j => li i j) in
  let cols := fun j => logsumexp n (fun i => li i j) in
  let tot := logsumexp2 n m li in
  fun i j => li i j + tot - rows i - cols j.

(** log_fishers_hypergeometric_loss, probability_utils.py:173-187 *)
Definition log_fishers_loss (lg : R -> R) (n m : nat) (table li : mat) : R :=
  let lor := log_odds_ratio_xarray n m li in
  let tot := logsumexp2 n m lor in
  - rsum2 n m (fun i j => table i j * (lor i j - tot)) + lfs lg n m table.

(** log_fishers_hypergeometric_pmf_normalised, probability_utils.py:189-192 *)
Definition log_fishers_pmf_normalised (lg : R -> R) (n m : nat) (table li : mat) : R :=
  log_fishers_pmf_unnormalised lg n m li table + lg (rsum2 n m table + 1).

(** table_similarity_measure, probability_utils.py:201-207, second branch *)
Definition table_similarity_measure (lg : R -> R) (n m : nat) (tab tab0 li : mat) : R :=
  log_product_multinomial_pmf_normalised lg n m tab0 li - log_product_multinomial_pmf_normalised lg n m tab li.

(** multinomial_pmf_ground_truth, product_multinomial_pmf_ground_truth and
    fishers_hypergeometric_pmf_ground_truth, probability_utils.py:126-127,
    158-161, 194-198.  In the second one the quotient of the two vectors of row
    totals has no kept dimension, so torch broadcasts it along the LAST axis:
    entry (i,j) is scaled by the quotient of row j (an exception unless both
    dimensions are equal or one of them is 1). *)
Definition multinomial_mean (n m : nat) (table li : mat) : mat :=
  let q := rsum2 n m table / rsum2 n m (fun i j => exp (li i j)) in fun i j => q * exp (li i j).
Definition product_multinomial_mean (n m : nat) (table li : mat) : res mat :=
  if Nat.eqb n m then
    Ok (fun i j => rsum m (fun j' => table j j') / rsum m (fun j' => exp (li j j')) * exp (li i j))
  else Raise EExn.
Definition fishers_mean (n m : nat) (table li : mat) : mat :=
  let lor := log_odds_ratio n m li in
  let t := rsum2 n m (fun i j => exp (lor i j)) in
  fun i j => rsum2 n m table * (exp (lor i j) / t).

(** generate_stopping_times, probability_utils.py:242-254: the inner loop, for
    the uniform draw [u], as a function of the number of iterations allowed. *)
Fixpoint stopping_loop (fuel : nat) (k u : R) (n : nat) : option nat :=
  match fuel with
  | O => None
  | S fuel' => if Rltb u (Rpower (INR (n + 1)) (- k)) then stopping_loop fuel' k u (n + 1) else Some n
  end.

(** The loop ends with [n]. *)
Definition stops (k u : R) (n : nat) : Prop := exists fuel, stopping_loop fuel k u 1 = Some n.

(** compute_truncated_infinite_series, probability_utils.py:256-299.
    torch.range is inclusive, so ln_Y has N+2 entries, of which the first N+1
    get the log weights subtracted. *)
Definition ln_Y (N : nat) (lw : nat -> R) (i : nat) : R :=
  if (i <=? N)%nat then ln (INR (i + 1)) - lse (i + 1) lw else ln (INR (i + 1)).

Definition ln_Y_pos (N : nat) (lw : nat -> R) (k : R) (i : nat) : R :=
  match i with O => ln_Y N lw i | S _ => ln_Y N lw i + k * ln (INR i) end.

Definition ln_Y_neg (N : nat) (lw : nat -> R) (k : R) (i : nat) : R :=
  ln_Y N lw i + k * ln (INR (i + 1)).

(** The returned pair: log of the absolute value, sign.  Raises when the two
    sums are equal (the log of zero is not finite). *)
Definition truncated_series (N : nat) (lw : nat -> R) (k : R) : res (R * R) :=
  let pos := lse (N + 2) (ln_Y_pos N lw k) in
  let neg := lse (N + 1) (ln_Y_neg N lw k) in
  if Rleb neg pos then
    if Rltb neg pos then Ok (pos + ln (1 - exp (neg - pos)), 1) else Raise EExn
  else Ok (neg + ln (1 - exp (pos - neg)), -1).

(** positive_sigmoid, math_utils.py:20-21 *)
Definition positive_sigmoid (x scale : R) : R := 2 / (1 + exp (- x / scale)) - 1.

(** signed_mean, math_utils.py:458-464, over a vector of samples *)
Definition signed_mean (n : nat) (data signs : nat -> R) : R :=
  rsum n (fun k => data k * signs k) / rsum n signs.

(** signed_var, math_utils.py:466-473 *)
Definition signed_var (n : nat) (data signs : nat -> R) : R :=
  rsum n (fun k => (data k)^2 * signs k) / rsum n signs - (signed_mean n data signs)^2.
