(** Model of the evaluation scores of gensit/utils/math_utils.py.

    Floats are real numbers; a NaN result is [None].  An xarray with dimensions
    origin and destination is a matrix with its shape; a boolean mask selects
    the cells that are kept ([where(mask)] turns the others into NaN). *)
From Coq Require Import List ZArith Lia Bool Arith Reals Lra.
From Verif Require Import Base RealBase ProbUtils.
Import ListNotations.
Open Scope R_scope.

Definition rmask := nat -> nat -> bool.

(** number of non-NaN cells of one table after masking *)
Definition mcount (n m : nat) (mk : rmask) : R := rsum2 n m (fun i j => if mk i j then 1 else 0).

(** sum over the non-NaN cells (skipna) *)
Definition msum (n m : nat) (mk : rmask) (f : mat) : R := rsum2 n m (fun i j => if mk i j then f i j else 0).

(** ssi, math_utils.py:247-283.  0/0 is NaN and skipped by the mean; for
    non-negative tables no other division by zero arises (for tables with
    negative cells x/0 would be infinite; the model skips such a cell too). *)
Definition ssi_valid (mk : rmask) (p g : mat) : rmask :=
  fun i j => mk i j && (if Req_EM_T (g i j + p i j) 0 then false else true).

Definition ssi (n m : nat) (mk : rmask) (p g : mat) : option R :=
  let v := ssi_valid mk p g in
  if Req_EM_T (mcount n m v) 0 then None
  else Some (msum n m v (fun i j => 2 * Rmin (g i j) (p i j) / (g i j + p i j)) / mcount n m v).

(** srmse, math_utils.py:209-245, for a prediction holding [N] samples (after
    [xr.broadcast] the ground truth has [N] copies too): the squares are summed
    per sample, but the counts of lines 241-242 are over every dimension. *)
Definition srmse_batch (N n m : nat) (mk : rmask) (p : nat -> mat) (g : mat) (s : nat) : option R :=
  let cnt := INR N * mcount n m mk in
  if Req_EM_T cnt 0 then None
  else if Req_EM_T (msum n m mk g) 0 then None
  else Some (sqrt (msum n m mk (fun i j => (p s i j - g i j) * (p s i j - g i j)) / cnt) / (msum n m mk g / cnt)).

(** the same for one table *)
Definition srmse (n m : nat) (mk : rmask) (p g : mat) : option R := srmse_batch 1 n m mk (fun _ => p) g 0.

(** ssi of a batch: every reduction of math_utils.py:270-282 is per sample *)
Definition ssi_batch (N n m : nat) (mk : rmask) (p : nat -> mat) (g : mat) (s : nat) : option R :=
  ssi n m mk (p s) g.

(** edit_distance_degree_one, math_utils.py:173-178 *)
Definition edit_distance_degree_one (n m : nat) (p g : mat) : R :=
  rsum2 n m (fun i j => Rabs (p i j - g i j)) / 2.

(** edit_distance_degree_higher, math_utils.py:183-184: torch.sum is given a
    slice as axis and raises TypeError. *)
Definition edit_distance_degree_higher (n m : nat) (p g : mat) : res R := Raise EType.

(** is_sorted, misc_utils.py:1196-1197 (plain arrays; xarray index alignment is
    not modelled) *)
Fixpoint is_sorted (l : list R) : bool :=
  match l with
  | x :: l' => match l' with y :: _ => Rleb x y | [] => true end && is_sorted l'
  | [] => true
  end.

(** np.argmin: the first minimum of a non-empty list *)
Fixpoint argmin_from (best : R) (bi k : nat) (l : list R) : nat :=
  match l with
  | [] => bi
  | x :: r => if Rltb x best then argmin_from x k (S k) r else argmin_from best bi (S k) r
  end.

Definition argmin (l : list R) : nat :=
  match l with [] => O | x :: r => argmin_from x O 1 r end.

(** calculate_min_interval, math_utils.py:341-385, for one cell: the samples
    [x] and the mass 1-alpha.  Masses above one make the two boundary arrays
    differ in size and also raise ValueError. *)
Definition window_size (mass : R) (N : nat) : Z := Int_part (mass * INR N).

Definition calculate_min_interval (x : list R) (mass : R) : res (R * R) :=
  let N := length x in
  let K := window_size mass N in
  if (Z.of_nat N <=? K)%Z then Raise EValue
  else
    let k0 := Z.to_nat K in
    let left := firstn (N - k0) x in
    let right := skipn k0 x in
    if negb (is_sorted left && is_sorted right) then Raise EValue
    else
      let widths := map (fun ab => snd ab - fst ab) (combine left right) in
      let k := argmin widths in
      Ok (nth k x 0, nth (k + k0) x 0).

(** np.sort *)
Fixpoint rinsert (x : R) (l : list R) : list R :=
  match l with
  | [] => [x]
  | y :: r => if Rleb x y then x :: l else y :: rinsert x r
  end.
Fixpoint rsort (l : list R) : list R :=
  match l with [] => [] | x :: r => rinsert x (rsort r) end.

(** coverage_probability, math_utils.py:299-339, for one cell without mask:
    is the true value inside the shortest interval? *)
Definition coverage_probability (samples : list R) (truth mass : R) : res bool :=
  match calculate_min_interval (rsort samples) mass with
  | Raise e => Raise e
  | Ok (lo, hi) => Ok (Rleb lo truth && Rleb truth hi)
  end.
