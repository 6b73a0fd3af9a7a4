(** Distances, error measures, tests and small numerical helpers of
    gensit/utils/math_utils.py that Scores.v does not cover.

    Arrays of reals are functions of their indices with explicit sizes.  Floating
    point is replaced by reals; [None] stands for a value that is not a finite
    number (nan or infinite).  Conversions to float32 are dropped. *)
From Coq Require Import List Reals Lra Lia Bool Arith Permutation.
From Verif Require Import Base RealBase.
Import ListNotations.
Local Open Scope R_scope.

(** * Subsets *)

(** itertools.combinations(s, r). *)
Fixpoint combinations {A} (s : list A) (r : nat) : list (list A) :=
  match r, s with
  | O, _ => [[]]
  | S _, [] => []
  | S r', x :: s' => map (cons x) (combinations s' r') ++ combinations s' (S r')
  end.

(** powerset, math_utils.py 23-28, of a list whose distinct elements are, in the
    order in which Python iterates over the set, [s]. *)
Definition powerset {A} (s : list A) : list (list A) := flat_map (combinations s) (seq 1 (List.length s)).

(** * Distances between tables *)

Definition rmat := nat -> nat -> R.
Definition row_sum (m : nat) (t : rmat) (i : nat) : R := rsum m (fun j => t i j).
Definition col_sum (n : nat) (t : rmat) (j : nat) : R := rsum n (fun i => t i j).

(** np.where(x <= 0, 1, x) *)
Definition or_one (x : R) : R := if Rleb x 0 then 1 else x.

(** chi_squared_row_distance, math_utils.py 186-193. *)
Definition chi_squared_row (n m : nat) (t1 t2 : rmat) : R :=
  rsum2 n m (fun i j => (t1 i j / or_one (row_sum m t1 i) - t2 i j / or_one (row_sum m t2 i)) ^ 2 / or_one (col_sum n t1 j)).

(** chi_squared_column_distance, math_utils.py 195-202. *)
Definition chi_squared_column (n m : nat) (t1 t2 : rmat) : R :=
  rsum2 n m (fun i j => (t1 i j / or_one (col_sum n t1 j) - t2 i j / or_one (col_sum n t2 j)) ^ 2 / or_one (row_sum m t1 i)).

(** A Python call [f(a1, .., ak, key=..)] of a function that takes [nparams]
    positional parameters and **kwargs: more positional arguments raise. *)
Definition call_positional {A} (nparams nargs : nat) (r : res A) : res A := if (nargs <=? nparams)%nat then r else Raise EType.

(** chi_squared_distance, math_utils.py 204-206: both parts, which take two
    positional parameters, are called with the tables and the dimensions. *)
Definition chi_squared_distance (n m : nat) (t1 t2 : rmat) : res R :=
  rbind (call_positional 2 3 (Ok (chi_squared_column n m t1 t2))) (fun a =>
  rbind (call_positional 2 3 (Ok (chi_squared_row n m t1 t2))) (fun b => Ok (a + b))).

(** euclidean_distance, math_utils.py 164-165; [None] when the first table sums to
    zero. *)
Definition euclidean (n m : nat) (t1 t2 : rmat) : option R :=
  let s := rsum2 n m t1 in
  if Req_EM_T s 0 then None else Some (sqrt (rsum2 n m (fun i j => ((t1 i j - t2 i j) / s) ^ 2))).

(** l_p_distance with ord = '1', math_utils.py 167-171: relative to the total of the
    second table. *)
Definition l_1_norm (n m : nat) (t1 t2 : rmat) : option R :=
  let s := rsum2 n m t2 in
  if Req_EM_T s 0 then None else Some (rsum2 n m (fun i j => Rabs ((t1 i j - t2 i j) / s))).

(** * Errors cell by cell *)

(** Cells are indexed by sample, origin and destination; [None] is a missing cell. *)
Definition cells := nat -> nat -> nat -> option R.

(** x.where(mask) *)
Definition masked (mask : option (nat -> nat -> bool)) (x : cells) : cells :=
  fun s i j => match mask with Some mk => if mk i j then x s i j else None | None => x s i j end.

Definition lift2 (f : R -> R -> R) (x y : option R) : option R :=
  match x, y with Some a, Some b => Some (f a b) | _, _ => None end.

(** The ground truth has no sample dimension and is broadcast over samples. *)
Definition broadcast (g : nat -> nat -> option R) : cells := fun _ i j => g i j.

(** subtract, l_1, l2, math_utils.py 514-525, 78-93, 527-538. *)
Definition subtract mask (p : cells) g : cells := fun s i j => lift2 Rminus (masked mask p s i j) (masked mask (broadcast g) s i j).
Definition l_1 mask (p : cells) g : cells := fun s i j => lift2 (fun a b => Rabs (a - b)) (masked mask p s i j) (masked mask (broadcast g) s i j).
Definition l2 mask (p : cells) g : cells := fun s i j => lift2 (fun a b => (a - b) ^ 2) (masked mask p s i j) (masked mask (broadcast g) s i j).

(** The least of the present values, None when there are none. *)
Fixpoint opt_min (l : list (option R)) : option R :=
  match l with
  | [] => None
  | None :: r => opt_min r
  | Some a :: r => match opt_min r with Some b => Some (Rmin a b) | None => Some a end
  end.

(** relative_l_1, math_utils.py 96-112: divided by np.min(ground_truth,1), the
    least value along the axis 1, here the origins (the arrays being indexed by
    sample, origin, destination). *)
Definition relative_l_1 (n : nat) mask (p : cells) g : cells :=
  fun s i j =>
    match l_1 mask p g s i j, opt_min (map (fun k => masked mask (broadcast g) s k j) (seq 0 n)) with
    | Some e, Some d => if Req_EM_T d 0 then None else Some (e / d)
    | _, _ => None
    end.

(** mean_absolute_residual_percentage_error, math_utils.py 387-404, for one sample,
    no mask, summing over origins: one value per destination. *)
Definition residual_error (n : nat) (p g : rmat) (j : nat) : option R :=
  let s := col_sum n g j in if Req_EM_T s 0 then None else Some (Rabs (col_sum n p j - s) / s).

(** * One-tailed tests *)

Definition lsumR (l : list R) : R := fold_right Rplus 0 l.
Definition lmean (l : list R) : R := lsumR l / INR (List.length l).
Definition lvar (l : list R) : R := lsumR (map (fun x => (x - lmean l) ^ 2) l) / (INR (List.length l) - 1).

(** Welch's statistic and degrees of freedom, math_utils.py 633-643. *)
Definition se_sq (std : R) (n : nat) : R := std ^ 2 / INR n.
Definition welch_t (m1 s1 : R) (n1 : nat) (m2 s2 : R) (n2 : nat) : R := (m1 - m2) / sqrt (se_sq s1 n1 + se_sq s2 n2).
Definition welch_df (s1 : R) (n1 : nat) (s2 : R) (n2 : nat) : R :=
  (se_sq s1 n1 + se_sq s2 n2) ^ 2 / (se_sq s1 n1 ^ 2 / (INR n1 - 1) + se_sq s2 n2 ^ 2 / (INR n2 - 1)).

Section TTest.
  (** stats.t.cdf *)
  Variable tcdf : R -> R -> R.

  (** perform_one_tailed_ttest_using_summaries, math_utils.py 595-657: the p-value
      and whether the null hypothesis is rejected.  Two zero deviations divide 0.0
      by 0.0. *)
  Definition ttest_summaries (m1 s1 : R) (n1 : nat) (m2 s2 : R) (n2 : nat) (alpha : R) : res (R * bool) :=
    if (n1 <? 2)%nat || (n2 <? 2)%nat then Raise EValue
    else if Rltb s1 0 || Rltb s2 0 then Raise EValue
    else if negb (Rltb 0 alpha && Rltb alpha 1) then Raise EValue
    else if Req_EM_T (se_sq s1 n1 + se_sq s2 n2) 0 then Raise EZeroDiv
    else let p := tcdf (welch_t m1 s1 n1 m2 s2 n2) (welch_df s1 n1 s2 n2) in Ok (p, Rltb p alpha).

  (** perform_one_tailed_ttest, math_utils.py 544-587.  scipy.stats.ttest_ind with
      equal_var=False returns Welch's statistic and the two-tailed p-value, nan for
      two constant samples ([None]; nan is below no level). *)
  Definition ttest (a b : list R) (alpha : R) : res (option R * bool) :=
    if (List.length a <? 2)%nat || (List.length b <? 2)%nat then Raise EValue
    else if negb (Rltb 0 alpha && Rltb alpha 1) then Raise EValue
    else
      let sa := sqrt (lvar a) in let sb := sqrt (lvar b) in
      let na := List.length a in let nb := List.length b in
      if Req_EM_T (se_sq sa na + se_sq sb nb) 0 then Ok (None, false)
      else
        let t := welch_t (lmean a) sa na (lmean b) sb nb in
        let two := 2 * tcdf (- Rabs t) (welch_df sa na sb nb) in
        let p := if Rltb t 0 then two / 2 else 1 - two / 2 in
        Ok (Some p, Rltb p alpha).
End TTest.

(** * Small helpers *)

(** positive_sigmoid, math_utils.py 20-21. *)
Definition positive_sigmoid (x scale : R) : R := 2 / (1 + exp (- x / scale)) - 1.
(** skew_sigmoid_torch, skew_sigmoid_numpy, math_utils.py 475-481. *)
Definition skew_sigmoid (v : R) : R := 1 / (1 + exp (- 50 * v)).

(** sparsity, math_utils.py 421-436, of N tables. *)
Definition zero_cells (N n m : nat) (p : nat -> rmat) : R :=
  rsum N (fun s => rsum2 n m (fun i j => if Req_EM_T (p s i j) 0 then 1 else 0)).
Definition sparsity (N n m : nat) (p : nat -> rmat) : option R :=
  if Nat.eqb (N * n * m) 0 then None else Some (zero_cells N n m p / INR (N * n * m)).

(** reshape_null_data, math_utils.py 503-511: rows, then columns, with a present
    value are kept; both masks are those of the whole array. *)
Definition present {A} (o : option A) : bool := match o with Some _ => true | None => false end.
Definition keep_by {A} (mask : list bool) (l : list A) : list A := map snd (filter fst (combine mask l)).
Definition reshape_null {A} (m : nat) (x : list (list (option A))) : list (list (option A)) :=
  let rows := map (fun r => existsb present r) x in
  let cols := map (fun j => existsb (fun r => present (nth j r None)) x) (seq 0 m) in
  map (keep_by cols) (keep_by rows x).

(** check_symmetric, math_utils.py 540-541: np.allclose(a, a.T). *)
Definition forall_below (n : nat) (f : nat -> bool) : bool := forallb f (seq 0 n).
Definition check_symmetric (n : nat) (rtol atol : R) (a : rmat) : bool :=
  forall_below n (fun i => forall_below n (fun j => Rleb (Rabs (a i j - a j i)) (atol + rtol * Rabs (a j i)))).
