(** Model of gensit/contingency_table/MarkovBasis.py: candidate cells and
    generators of Markov basis moves for two-way tables.

    A basis function (a Python dict from cells to integers) is the list of its
    items in insertion order.  [sorted(self.ct.cells)] is [ct_free], which is
    kept in lexicographic order (Tables.v).  Progress bars, the export to file
    and the disabled validity check (lines 80-88) are dropped. *)
From Coq Require Import List ZArith Lia Bool Arith.
From Verif Require Import Base Tables.
Import ListNotations.
Open Scope Z_scope.

Definition basis_fn := list (cell * Z).

(** Value of a basis function at a cell (dict lookup; cells that are not a key
    are left alone by a move, so count as 0). *)
Fixpoint bf_value (f : basis_fn) (k : cell) : Z :=
  match f with
  | [] => 0
  | (k', v) :: f' => if cell_eqb k k' then v else bf_value f' k
  end.

(** Set comparison of constrained axes, MarkovBasis.py:104-109
    ([symmetric_difference] empty). *)
Definition axes_are (l want : list ax) : bool :=
  forallb (fun a => Bool.eqb (ax_in a l) (ax_in a want)) all_axes.

(** active_candidates, MarkovBasis.py:92-112. *)
Definition active_candidates (c : ct) (k : cell) (cells : list cell) : res (list cell) :=
  if axes_are (ct_caxes c) [A1; A01] then
    Ok (filter (fun d => (snd k <? snd d)%nat && Nat.eqb (fst d) (fst k)) cells)
  else if axes_are (ct_caxes c) [A0; A01] then
    Ok (filter (fun d => (fst k <? fst d)%nat && Nat.eqb (snd d) (snd k)) cells)
  else if axes_are (ct_caxes c) [A0; A1; A01] then
    Ok (filter (fun d => negb (Nat.eqb (fst d) (fst k)) && (snd k <? snd d)%nat) cells)
  else Raise EExn.

(** generate_one_margin_preserving_markov_basis, MarkovBasis.py:173-229: the
    pairs (first loop); [free] is the set of free cells. *)
Fixpoint one_margin_pairs (c : ct) (free : list cell) (cells : list cell) : res (list (cell * cell)) :=
  match cells with
  | [] => Ok []
  | k :: rest =>
    rbind (match rest with [] => Ok [] | _ => active_candidates c k rest end) (fun cand =>
    rbind (one_margin_pairs c free rest) (fun r =>
      Ok (map (fun d => (k, d)) (filter (fun d => cell_in k free && cell_in d free) cand) ++ r)))
  end.

(** The move of a pair, MarkovBasis.py:214-221: the dict of the two cells with
    f_i(x) = [x == first] - [x == second]. *)
Definition pair_move (p : cell * cell) : basis_fn :=
  let f x := (if cell_eqb x (fst p) then 1 else 0) - (if cell_eqb x (snd p) then 1 else 0) in
  [(fst p, f (fst p)); (snd p, f (snd p))].

Definition generate_one_margin (c : ct) : res (list basis_fn) :=
  rbind (one_margin_pairs c (ct_free c) (ct_free c)) (fun ps => Ok (map pair_move ps)).

(** The four cells and signs of a two-margin move, MarkovBasis.py:262-274. *)
Definition square_move (k d : cell) : basis_fn :=
  [(k, 1); (d, 1); ((fst k, snd d), -1); ((fst d, snd k), -1)].

Definition square_free (free : list cell) (k d : cell) : bool :=
  cell_in k free && cell_in d free && cell_in (fst k, snd d) free && cell_in (fst d, snd k) free.

(** construct_both_margin_preserving_markov_basis_for_cell,
    MarkovBasis.py:231-276: one partner drawn at random per cell; [draw] modulo
    the number of candidates covers exactly the indices np.random.choice can
    return. *)
Definition both_margin_for_cell (c : ct) (free : list cell) (draw : nat) (k : cell)
    (rest : list cell) : res (list basis_fn) :=
  rbind (match rest with [] => Ok [] | _ => active_candidates c k rest end) (fun cand =>
    match cand with
    | [] => Ok []
    | d0 :: _ =>
      let d := nth (Nat.modulo draw (length cand)) cand d0 in
      Ok (if square_free free k d then [square_move k d] else [])
    end).

(** build_basis_dictionaries_in_sequence, MarkovBasis.py:278-299. *)
Fixpoint both_margin_loop (c : ct) (free : list cell) (draws : nat -> nat) (n : nat)
    (cells : list cell) : res (list basis_fn) :=
  match cells with
  | [] => Ok []
  | k :: rest =>
    rbind (both_margin_for_cell c free (draws n) k rest) (fun a =>
    rbind (both_margin_loop c free draws (S n) rest) (fun b => Ok (a ++ b)))
  end.

(** MarkovBasis2DTable.generate, MarkovBasis.py:656-664. *)
Definition generate_markov_basis (c : ct) (draws : nat -> nat) : res (list basis_fn) :=
  if Nat.eqb (length (ct_caxes c)) 2 then generate_one_margin c
  else if Nat.eqb (length (ct_caxes c)) 3 then both_margin_loop c (ct_free c) draws 0 (ct_free c)
  else Raise EValue.

(** The generator in the commented-out loop, MarkovBasis.py:241-256: every
    candidate partner instead of a random one. *)
Fixpoint all_squares (c : ct) (free : list cell) (cells : list cell) : res (list basis_fn) :=
  match cells with
  | [] => Ok []
  | k :: rest =>
    rbind (match rest with [] => Ok [] | _ => active_candidates c k rest end) (fun cand =>
    rbind (all_squares c free rest) (fun b =>
      Ok (map (square_move k) (filter (square_free free k) cand) ++ b)))
  end.

(** true_markov_basis_length, MarkovBasis.py:647-654: the ragged
    [np.asarray([[1],[0,1]],dtype='int32')] evaluated first raises ValueError
    for every table. *)
Definition true_markov_basis_length (c : ct) : res Z := Raise EValue.

(** The formulas it would return, MarkovBasis.py:650,652. *)
Definition row_basis_length (s : shape) : Z := Z.of_nat (nJ s) * (Z.of_nat (nJ s) - 1) * Z.of_nat (nI s) / 2.
Definition col_basis_length (s : shape) : Z := Z.of_nat (nI s) * (Z.of_nat (nI s) - 1) * Z.of_nat (nJ s) / 2.

(** basis_function_admissible, MarkovBasis.py:114-124, on the move written as a
    full table: constrained margins all zero, some entry non-zero, fixed cells
    untouched. *)
Definition basis_function_admissible (c : ct) (f : basis_fn) : bool :=
  let t : table := fun i j => bf_value f (i, j) in
  forallb (Z.eqb 0) (flat_map (axis_margin (ct_shape c) t) (ct_caxes c)) &&
  existsb (fun k => negb (t (fst k) (snd k) =? 0)) (all_cells (ct_shape c)) &&
  forallb (fun k => t (fst k) (snd k) =? 0) (ct_fixed c).

(** update_markov_basis, MarkovBasis.py:599-609. *)
Definition update_markov_basis (c : ct) (fs : list basis_fn) : list basis_fn :=
  filter (basis_function_admissible c) fs.
