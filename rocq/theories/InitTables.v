(** Model of the start-table solvers of ContingencyTable2D,
    gensit/contingency_table/__init__.py:822-1144.

    Random draws are inputs: the Monte Carlo solver gets the permutation, the
    random solver the drawn integers, the maximum-entropy solver the list of
    cells picked one after the other. *)
From Coq Require Import List ZArith Lia Bool Arith Permutation.
From Verif Require Import Base Tables.
Import ListNotations.
Open Scope Z_scope.

(** admissibility_debugging, __init__.py:822-866: raises unless the table is
    admissible (the debug output in the except branch is dropped). *)
Definition admissibility_debugging (c : ct) (t : table) : res table :=
  if table_admissible c t then Ok t else Raise EExn.

(** update_margins, __init__.py:547-555: overwrite supplied margins in both
    dictionaries; entries the caller does not pass are kept. *)
Definition update_margins (c : ct) (m : ax -> option (list Z)) : ct :=
  let upd (old : margins) : margins := fun a => match m a with Some v => v | None => old a end in
  CT (ct_shape c) (ct_truth c) (upd (ct_margins c)) (upd (ct_resid c))
     (ct_caxes c) (ct_fixed c) (ct_free c).

(** Python slice [l[a:b]] with clamping and negative indices. *)
Definition py_index (n x : Z) : Z :=
  if x <? 0 then Z.max 0 (x + n) else Z.min x n.

Definition py_slice {A} (l : list A) (a b : Z) : list A :=
  let n := Z.of_nat (length l) in
  let a' := Z.to_nat (py_index n a) in
  let b' := Z.to_nat (py_index n b) in
  firstn (b' - a') (skipn a' l).

Definition prefix_sum (l : list Z) (k : nat) : Z := lsum (firstn k l).

(** Number of entries of [l] in the half-open interval (lo, hi],
    __init__.py:965-977. *)
Definition count_between (lo hi : Z) (l : list Z) : Z :=
  Z.of_nat (length (filter (fun x => (lo + 1 <=? x) && (x <=? hi)) l)).

(** Table filled by table_monte_carlo_sample, __init__.py:938-977, for a given
    permutation of 1..N. *)
Definition monte_carlo_fill (c : ct) (perm : list Z) : table := fun i j =>
  let sub := py_slice perm (prefix_sum (ct_resid c A1) i) (prefix_sum (ct_resid c A1) (S i)) in
  if cell_in (i, j) (ct_fixed c) then ct_truth c i j
  else count_between (prefix_sum (ct_resid c A0) j) (prefix_sum (ct_resid c A0) (S j)) sub.

(** table_monte_carlo_sample, __init__.py:929-980.  [torch.randperm] raises for
    a negative N. *)
Definition table_monte_carlo_sample (c0 : ct) (m : ax -> option (list Z)) (perm : list Z) : res table :=
  let c := update_margins c0 m in
  if nth 0 (ct_resid c A01) 0 <? 0 then Raise EExn
  else admissibility_debugging c (monte_carlo_fill c perm).

(** The permutations [torch.randperm(N) + 1] can return. *)
Definition is_randperm (n : Z) (perm : list Z) : Prop :=
  Permutation perm (map Z.of_nat (seq 1 (Z.to_nat n))).

(** table_random_sample, __init__.py:1013-1036.  [draw] gives the integer drawn
    for each free cell.  [torch.randint] gets a float tensor as upper bound when
    a fixed cell is at least 100, and as lower bound when a fixed cell is
    negative; whether that is accepted depends on the torch version, so it is
    the parameter [float_bound_ok]. *)
Definition rs_low (c : ct) : Z :=
  Z.min (fold_left (fun a k => Z.min a (ct_truth c (fst k) (snd k))) (ct_fixed c) 0) 1.
Definition rs_high (c : ct) : Z :=
  Z.max (fold_left (fun a k => Z.max a (ct_truth c (fst k) (snd k))) (ct_fixed c) 1) 100.

Definition rs_fill (c : ct) (draw : table) : table := fun i j =>
  if cell_in (i, j) (ct_free c) then draw i j
  else if cell_in (i, j) (ct_fixed c) then ct_truth c i j else 0.

Definition rs_bounds_are_tensors (c : ct) : bool :=
  existsb (fun k => (ct_truth c (fst k) (snd k) <? 0) || (100 <=? ct_truth c (fst k) (snd k))) (ct_fixed c).

Definition table_random_sample (float_bound_ok : bool) (c : ct) (draw : table) : res table :=
  match ct_caxes c with
  | _ :: _ => Raise EExn
  | [] =>
    if rs_bounds_are_tensors c && negb float_bound_ok && negb (Nat.eqb (length (ct_free c)) 0)
    then Raise EType
    else admissibility_debugging c (rs_fill c draw)
  end.

(** What [torch.randint(low, high)] may draw. *)
Definition rs_draw_ok (c : ct) (draw : table) : Prop :=
  forall i j, In (i, j) (ct_free c) -> rs_low c <= draw i j < rs_high c.

(** ---- Maximum entropy solver --------------------------------------- *)

(** State of the loop of table_maximum_entropy_solution, __init__.py:1048-1116. *)
Record me_state := ME {
  me_table : table;
  me_free : list cell;
  me_unchosen : list cell;
  me_resid : margins }.

(** minres_given_constraints, __init__.py:1125-1144. *)
Definition minres_given_constraints (c : ct) (k : cell) (m : margins) : Z :=
  match ct_caxes c with
  | [] => 1
  | a :: l =>
    let entry a := match a with
      | A01 => nth 0 (m A01) 0
      | A0 => nth (snd k) (m A0) 0
      | A1 => nth (fst k) (m A1) 0
      end in
    fold_left (fun acc b => Z.min acc (entry b)) l (entry a)
  end.

Definition remove_cell (k : cell) (l : list cell) : list cell :=
  filter (fun x => negb (cell_eqb k x)) l.

Definition add_one (k : cell) (t : table) : table := fun i j =>
  if cell_eqb (i, j) k then t i j + 1 else t i j.

(** Start of the loop, __init__.py:1057-1078: fixed cells at their values,
    everything else zero. *)
Definition me_init (c : ct) : me_state :=
  ME (fun i j => if cell_in (i, j) (ct_fixed c) then ct_truth c i j else 0)
     (ct_free c) (ct_free c) (ct_resid c).

(** One loop iteration with picked cell [k], __init__.py:1086-1112. *)
Definition me_step (c : ct) (k : cell) (st : me_state) : me_state :=
  let st1 :=
    if minres_given_constraints c k (me_resid st) <=? 0 then
      ME (me_table st) (remove_cell k (me_free st)) (remove_cell k (me_unchosen st)) (me_resid st)
    else
      ME (add_one k (me_table st)) (me_free st) (remove_cell k (me_unchosen st))
         (sub_cell (ct_caxes c) k 1 (me_resid st)) in
  match me_unchosen st1 with
  | [] => ME (me_table st1) (me_free st1) (me_free st1) (me_resid st1)
  | _ => st1
  end.

(** The test guarding the admissibility check, __init__.py:1114-1116:
    [torch.equal] of the one-element integer residual total with a float zero
    scalar.  Whether that comparison can succeed depends on torch's treatment of
    the different shapes, so it is the parameter [teq]. *)
Definition me_check (teq : bool) (st : me_state) : bool :=
  (teq && (nth 0 (me_resid st A01) 0 =? 0)) || Nat.eqb (length (me_free st)) 0.

Inductive me_out :=
| MEDone (t : table)        (** returned table *)
| MEErr (e : err)           (** exception *)
| MERun (st : me_state).    (** still looping when the draws are used up *)

(** The cell picked by [list(unchosen)[np.random.randint(len(unchosen))]],
    __init__.py:1086-1087; reducing an arbitrary number modulo the length
    covers exactly the indices randint can return. *)
Definition me_pick (draw : nat) (st : me_state) : cell :=
  nth (Nat.modulo draw (length (me_unchosen st))) (me_unchosen st) (0, 0)%nat.

(** The loop of table_maximum_entropy_solution on a list of draws,
    __init__.py:1083-1116.  An empty choice set makes [np.random.randint(0)]
    raise ValueError. *)
Fixpoint me_run (teq : bool) (c : ct) (draws : list nat) (st : me_state) : me_out :=
  match me_unchosen st with
  | [] => MEErr EValue
  | _ =>
    match draws with
    | [] => MERun st
    | d :: draws' =>
      let st' := me_step c (me_pick d st) st in
      if me_check teq st' && table_admissible c (me_table st')
      then match admissibility_debugging c (me_table st') with Ok t => MEDone t | Raise e => MEErr e end
      else me_run teq c draws' st'
    end
  end.

(** Whole solver, __init__.py:1048-1123; a KeyError at line 1101 or 1114 when
    no margin is constrained (the residual total was filtered away). *)
Definition table_maximum_entropy_solution (teq : bool) (c0 : ct) (m : ax -> option (list Z))
    (draws : list nat) : me_out :=
  let c := update_margins c0 m in
  match ct_caxes c with
  | [] => match me_unchosen (me_init c) with [] => MEErr EValue | _ => MEErr EKey end
  | _ => me_run teq c draws (me_init c)
  end.
