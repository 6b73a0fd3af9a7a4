(** Model of the two grid searches of gensit/experiments.py:
    RSquared_Analysis.run (lines 925-1122) and LogTarget_Analysis.run (lines
    1169-1306).

    A score is the float an evaluation of the model yields: a number or nan.
    Only the order of numbers matters, so they are integers here; parameters
    are integers counted in a small unit (bmax is a plain factor).  The physics
    is an arbitrary function from the keyword arguments handed to it to a
    score; a point whose optimisation returned None (torch_optimize,
    math_utils.py:142-151) has the score nan, because storing None in the
    float dataset stores nan.  torch.linspace is replaced by the list of its
    values. *)
From Coq Require Import List ZArith Lia Bool Arith String.
From Verif Require Import Base.
Import ListNotations.
Open Scope Z_scope.
Open Scope list_scope.

Inductive score := Num (z : Z) | NaN.
Definition kws := list (string * Z).

(** theta_sample[0] = a; theta_sample[1] = b; dict(zip(params_to_learn,
    theta_sample)): experiments.py:1016-1017, 1025 and 1252-1253, 1258, 1264.
    [theta] holds the initial values, one per learned parameter
    (initialise_parameters, experiments.py:484-490); assigning to a position
    past its end raises. *)
Definition set_pos (k : nat) (v : Z) (l : list Z) : res (list Z) :=
  if (k <? List.length l)%nat then Ok (firstn k l ++ v :: skipn (S k) l) else Raise EIndex.

Definition positional (names : list string) (theta : list Z) (a b : Z) : res kws :=
  rbind (set_pos 0 a theta) (fun t => rbind (set_pos 1 b t) (fun t => Ok (combine names t))).

(** ---- RSquared_Analysis -------------------------------------------------- *)

Inductive method := Potential | Solver.

(** One grid point, experiments.py:1016-1066: the potential method passes the
    learned parameters by position with beta scaled; the solver passes alpha
    and beta by name, beta unscaled. *)
Definition r2_point (m : method) (names : list string) (theta : list Z) (bmax : Z)
    (physics : kws -> score) (a b : Z) : res score :=
  rbind (positional names theta a (b * bmax)) (fun kw =>
    match m with
    | Potential => Ok (physics kw)
    | Solver => Ok (physics [("alpha"%string, a); ("beta"%string, b)])
    end).

(** [r2 > max_r2] (line 1074) is false for nan. *)
Definition exceeds (s : score) (best : Z) : bool :=
  match s with Num z => best <? z | NaN => false end.

(** State of the double loop: the r2 dataset as the list of (index, value)
    assignments, max_r2, and the grid point whose prediction is kept in
    max_w_prediction ([None]: the initial vector of lines 978-984). *)
Record gstate := GState {
  g_cells : list (nat * nat * score);
  g_max : Z;
  g_pred : option (nat * nat) }.

(** write_data(r2 = ..., index = (i,j)), lines 1036-1039 and 1069-1072, 732-736:
    an index outside the shape of the dataset raises. *)
Definition grid_step (shape : nat * nat) (eval : nat -> nat -> res score) (st : gstate) (ij : nat * nat)
    : res gstate :=
  let (i, j) := ij in
  rbind (eval i j) (fun s =>
  if (i <? fst shape)%nat && (j <? snd shape)%nat then
    let st' := GState ((i, j, s) :: g_cells st) (g_max st) (g_pred st) in
    Ok (match s with
        | NaN => st'
        | Num z => if g_max st <? z then GState (g_cells st') z (Some (i, j)) else st'
        end)
  else Raise EIndex).

Fixpoint grid_loop (shape : nat * nat) (eval : nat -> nat -> res score) (pts : list (nat * nat)) (st : gstate)
    : res gstate :=
  match pts with
  | [] => Ok st
  | p :: rest => rbind (grid_step shape eval st p) (grid_loop shape eval rest)
  end.

(** The points in the order of the two loops, lines 1012-1013. *)
Definition grid_points (na nb : nat) : list (nat * nat) :=
  flat_map (fun i => map (fun j => (i, j)) (seq 0 nb)) (seq 0 na).

(** r2[:]: what was last stored at an index, 0 (the fill value) elsewhere. *)
Fixpoint stored (cells : list (nat * nat * score)) (i j : nat) : score :=
  match cells with
  | [] => Num 0
  | (i', j', s) :: rest => if Nat.eqb i i' && Nat.eqb j j' then s else stored rest i j
  end.

(** numpy argmax over the flattened array: the first nan if there is one, else
    the first maximum.  [better s best]: s replaces best. *)
Definition better (s best : score) : bool :=
  match best, s with
  | NaN, _ => false
  | Num _, NaN => true
  | Num b, Num z => b <? z
  end.

Fixpoint argmax_from (l : list (nat * nat * score)) (best : nat * nat * score) : nat * nat * score :=
  match l with
  | [] => best
  | x :: rest => argmax_from rest (if better (snd x) (snd best) then x else best)
  end.

Definition np_argmax (l : list (nat * nat * score)) : res (nat * nat * score) :=
  match l with [] => Raise EValue | x :: rest => Ok (argmax_from rest x) end.

(** What is saved, lines 1103-1107. *)
Record r2_report := R2Report {
  f_alpha : Z; f_beta : Z; f_scaled_beta : Z; f_r2 : score; f_predicted : option (nat * nat) }.

Definition nth_res (l : list Z) (k : nat) : res Z :=
  match nth_error l k with Some v => Ok v | None => Raise EIndex end.

(** The dataset is created with the sizes of grid_ranges in the order of that
    dictionary (experiments.py:600); [alpha_first] says whether alpha is listed
    first. *)
Definition grid_shape (alpha_first : bool) (na nb : nat) : nat * nat :=
  if alpha_first then (na, nb) else (nb, na).

Definition rsquared_run (m : method) (alpha_first : bool) (names : list string) (theta : list Z) (bmax : Z)
    (alphas betas : list Z) (physics : kws -> score) : res r2_report :=
  let na := List.length alphas in let nb := List.length betas in
  let shape := grid_shape alpha_first na nb in
  let eval i j := rbind (nth_res alphas i) (fun a => rbind (nth_res betas j) (fun b =>
    r2_point m names theta bmax physics a b)) in
  rbind (grid_loop shape eval (grid_points na nb) (GState [] 0 None)) (fun st =>
  rbind (np_argmax (map (fun p => (p, stored (g_cells st) (fst p) (snd p)))
                        (grid_points (fst shape) (snd shape)))) (fun best =>
  let i := fst (fst best) in let j := snd (fst best) in
  rbind (nth_res alphas i) (fun a =>
  rbind (nth_res betas j) (fun b =>
  Ok (R2Report a b (b * bmax) (snd best) (g_pred st)))))).

(** ---- LogTarget_Analysis ------------------------------------------------- *)

(** [log_target > max_target], line 1270; max_target starts at -inf
    ([None]). *)
Definition lt_step (eval : nat -> nat -> res (kws * score)) (st : option (kws * Z)) (ij : nat * nat)
    : res (option (kws * Z)) :=
  rbind (eval (fst ij) (snd ij)) (fun ks =>
  Ok (match snd ks with
      | NaN => st
      | Num z => match st with
                 | None => Some (fst ks, z)
                 | Some (_, best) => if best <? z then Some (fst ks, z) else st
                 end
      end)).

Fixpoint lt_loop (eval : nat -> nat -> res (kws * score)) (pts : list (nat * nat)) (st : option (kws * Z))
    : res (option (kws * Z)) :=
  match pts with
  | [] => Ok st
  | p :: rest => rbind (lt_step eval st p) (lt_loop eval rest)
  end.

Fixpoint kw_at (kw : kws) (x : string) : res Z :=
  match kw with
  | [] => Raise EKey
  | (y, v) :: rest => if String.eqb x y then Ok v else kw_at rest x
  end.

(** What is saved, lines 1288-1291. *)
Record lt_report := LTReport { l_alpha : Z; l_beta : Z; l_scaled_beta : Z; l_target : Z }.

(** argmax_theta is None when no score was a number: subscripting it raises
    TypeError (line 1282).  [argmax_theta['beta']/bmax] is exact division. *)
Definition logtarget_run (names : list string) (theta : list Z) (bmax : Z)
    (alphas betas : list Z) (physics : kws -> score) : res lt_report :=
  let eval i j := rbind (nth_res alphas i) (fun a => rbind (nth_res betas j) (fun b =>
    rbind (positional names theta a (b * bmax)) (fun kw => Ok (kw, physics kw)))) in
  rbind (lt_loop eval (grid_points (List.length alphas) (List.length betas)) None) (fun st =>
  match st with
  | None => Raise EType
  | Some (kw, t) =>
    rbind (kw_at kw "alpha") (fun a => rbind (kw_at kw "beta") (fun b =>
    Ok (LTReport a b (b / bmax) t)))
  end).
