(** Applying functions to a loaded array for several values of their arguments:
    the composition of functions over a sweep of arguments, the slice of samples
    it is used with, and the application by group.
    gensit/utils/misc_utils.py 1264-1313, 1315-1377, 1379-1499,
    gensit/utils/math_utils.py 449-456. *)
From Coq Require Import List ZArith Lia Bool Arith String Reals.
From Verif Require Import Base PyMonad CommandLine.
Import ListNotations.
Local Open Scope string_scope.
Local Open Scope Z_scope.
Local Open Scope list_scope.

(** The value of an argument, which is also the label it becomes: a number, a
    string, or None.  Arrays and lists given as arguments are seen through a
    number that identifies them (misc_utils.py 1473-1479 spreads a swept list over
    several labels; this is not modelled). *)
Inductive value := Num (z : Z) | Text (s : string) | Nothing.
Definition value_eq_dec (a b : value) : {a = b} + {a <> b}.
Proof. decide equality; [apply Z.eq_dec|apply string_dec]. Defined.
Definition labels_eq_dec : forall a b : list value, {a = b} + {a <> b} := list_eq_dec value_eq_dec.

(** An array with a multi-index dimension: the name of that dimension, the names
    of its levels, the names of the other dimensions, and the content (an array
    over the other dimensions) at each entry of the multi-index. *)
Record arr (X : Type) := Arr {
  a_index : string;
  a_levels : list string;
  a_others : list string;
  a_rows : list (list value * X)
}.
Arguments Arr {X} _ _ _ _. Arguments a_index {X} _. Arguments a_levels {X} _.
Arguments a_others {X} _. Arguments a_rows {X} _.

(** A Python callable: its name in the list of functions, the name of its first
    (positional) argument, the names of its keyword arguments, whether it takes
    further keywords, and what it computes.  Whether xarray calls it on the array
    or on the values of the array (apply_ufunc, misc_utils.py 1449-1459) is part of
    [f_run]. *)
Record fn (X : Type) := Fn {
  f_name : string;
  f_first : string;
  f_params : list string;
  f_any : bool;
  f_run : (string -> option value) -> arr X -> res (arr X)
}.
Arguments Fn {X} _ _ _ _ _. Arguments f_name {X} _. Arguments f_first {X} _. Arguments f_params {X} _.
Arguments f_any {X} _. Arguments f_run {X} _.

Definition in_strs (k : string) (l : list string) : bool := existsb (String.eqb k) l.

(** The call function(data, **kwargs): Python's TypeError for an argument given
    twice or not known. *)
Definition call {X} (f : fn X) (kw : list (string * value)) (x : arr X) : res (arr X) :=
  if forallb (fun kv => negb (String.eqb (fst kv) (f_first f)) && (f_any f || in_strs (fst kv) (f_params f))) kw
  then f_run f (fun k => sget k kw) x
  else Raise EType.

(** {**a, **b} *)
Definition merged (a b : list (string * value)) : list (string * value) :=
  b ++ filter (fun kv => negb (in_strs (fst kv) (map fst b))) a.

(** itertools.product *)
Fixpoint prod {A} (ls : list (list A)) : list (list A) :=
  match ls with [] => [[]] | l :: r => flat_map (fun a => map (cons a) (prod r)) l end.

Notation kwargs := (list (string * value)).
Notation swept := (list (string * list value)).

(** The values to sweep, misc_utils.py 1390-1402.  [list(d.values)] is handed the
    method and not its result: a TypeError for every coupled sweep. *)
Definition sweep_vals (iso : swept) (cpl : list (string * swept)) : res (list (list value)) :=
  match cpl with
  | _ :: _ => Raise EType
  | [] =>
    match iso with
    | _ :: _ => Ok (prod (map snd iso))
    | [] => Ok []
    end
  end.

(** The functions in order, misc_utils.py 1429-1470: whatever goes wrong becomes
    FunctionFailed. *)
Fixpoint compose {X} (fixed : list (string * kwargs)) (args : kwargs) (fs : list (fn X)) (x : arr X) : res (arr X) :=
  match fs with
  | [] => Ok x
  | f :: r =>
    match call f (merged (match sget (f_name f) fixed with Some kw => kw | None => [] end) args) x with
    | Ok y => compose fixed args r y
    | Raise _ => Raise EExn
    end
  end.

(** One pass of the loop, misc_utils.py 1422-1485.  The name function_sweeped_kwargs
    is bound inside the loop over functions (1443): without functions line 1476 is
    an UnboundLocalError.  expand_dims refuses a name the array already has. *)
Definition one_output {X} (fixed : list (string * kwargs)) (keys : list string) (fs : list (fn X)) (x : arr X)
  (vs : list value) : res (list value * arr X) :=
  do y <- compose fixed (combine keys vs) fs x ;
  match fs with
  | [] => Raise EUnbound
  | _ :: _ =>
    if existsb (fun k => in_strs k (a_index y :: a_levels y ++ a_others y)) keys then Raise EValue
    else Ok (vs, y)
  end.

Fixpoint outputs {X} (fixed : list (string * kwargs)) (keys : list string) (fs : list (fn X)) (x : arr X)
  (vals : list (list value)) : res (list (list value * arr X)) :=
  match vals with
  | [] => Ok []
  | vs :: r => do o <- one_output fixed keys fs x vs ; do os <- outputs fixed keys fs x r ; Ok (o :: os)
  end.

(** xr.combine_by_coords, misc_utils.py 1490-1493: nothing to combine gives an
    empty dataset, whose index cannot be found by the restacking; several outputs
    none of whose coordinates differ cannot be ordered; of two outputs at the same
    place the later is kept.  Outputs over different entries of the multi-index
    would be joined by xarray; the model gives up on them (ValueError). *)
Definition same_index {X} (x y : arr X) : bool :=
  String.eqb (a_index x) (a_index y)
  && (if list_eq_dec string_dec (a_levels x) (a_levels y) then true else false)
  && (if list_eq_dec labels_eq_dec (map fst (a_rows x)) (map fst (a_rows y)) then true else false).

Definition combined {X} (os : list (list value * arr X)) : res (list (list value * arr X)) :=
  match os with
  | [] => Raise EKey
  | [o] => Ok [o]
  | (vs, y) :: r =>
    if forallb (fun o => if labels_eq_dec vs (fst o) then true else false) r then Raise EValue
    else if forallb (fun o => same_index y (snd o)) r then Ok (rev os)
    else Raise EValue
  end.

Fixpoint lget {A} (l : list value) (m : list (list value * A)) : option A :=
  match m with
  | [] => None
  | (l', a) :: r => if labels_eq_dec l l' then Some a else lget l r
  end.

(** xr_restack, misc_utils.py 1278-1291: unstacking the multi-index makes one
    dimension per level, stacking it again with the added dimensions runs through
    every combination of labels; [None] where there was no entry (NaN). *)
Definition labels_at {A} (rows : list (list value * A)) (i : nat) : list value :=
  nodup value_eq_dec (flat_map (fun r => match nth_error (fst r) i with Some v => [v] | None => [] end) rows).

Definition restack {X} (dim : string) (keys : list string) (os : list (list value * arr X)) : res (arr (option X)) :=
  match os with
  | [] => Raise EKey
  | (_, y) :: _ =>
    if negb (String.eqb dim (a_index y)) then Raise EKey
    else
      let old := prod (map (labels_at (a_rows y)) (seq 0 (List.length (a_levels y)))) in
      let new := prod (map (labels_at os) (seq 0 (List.length keys))) in
      Ok (Arr dim (a_levels y ++ keys) (a_others y)
            (map (fun p =>
               (fst p ++ snd p, match lget (snd p) os with Some z => lget (fst p) (a_rows z) | None => None end))
               (list_prod old new)))
  end.

(** xr_apply_and_combine_wrapper, misc_utils.py 1379-1499.  The clash test
    (1406-1420) compares the names of swept arguments with the keys of
    fixed_kwargs, which are names of functions. *)
Definition apply_and_combine {X} (x : arr X) (fs : list (fn X)) (fixed : list (string * kwargs)) (iso : swept)
  (cpl : list (string * swept)) (dim : string) : res (arr (option X)) :=
  do vals <- sweep_vals iso cpl ;
  let keys := map fst iso ++ map fst cpl in
  if existsb (fun k => in_strs k (map fst fixed)) keys then Raise EExn
  else
    do os <- outputs fixed keys fs x vals ;
    do cs <- combined os ;
    restack dim keys cs.

(** * The functions it is used with *)

(** Python's slice.indices for a sequence of length n. *)
Definition slice_positions (n s e st : Z) : list Z :=
  let clip lo hi v := if v <? 0 then Z.max lo (v + n) else Z.min hi v in
  if 0 <? st then
    let a := clip 0 n s in let b := clip 0 n e in
    if a <? b then map (fun k => a + Z.of_nat k * st) (seq 0 (Z.to_nat ((b - a - 1) / st + 1))) else []
  else
    let a := clip (-1) (n - 1) s in let b := clip (-1) (n - 1) e in
    if b <? a then map (fun k => a + Z.of_nat k * st) (seq 0 (Z.to_nat ((a - b - 1) / (- st) + 1))) else [].

Definition select {A} (l : list A) (ps : list Z) : list A :=
  flat_map (fun p => match nth_error l (Z.to_nat p) with Some a => [a] | None => [] end) ps.

(** xr_islice, misc_utils.py 1294-1313, on arrays whose content is a list along the
    dimension 'id'.  Line 1308 takes min(size, None) when end is None. *)
Definition islice {A} (kw : string -> option value) (x : arr (list A)) : res (arr (list A)) :=
  match kw "dim" with
  | Some (Text d) =>
    if negb (in_strs d (a_index x :: a_others x)) then Raise EExn
    else
      do s <- match kw "start" with None | Some Nothing => Ok 0 | Some (Num s) => Ok s | Some (Text _) => Raise EType end ;
      do e <- match kw "end" with None | Some Nothing => Raise EType | Some (Num e) => Ok e | Some (Text _) => Raise EType end ;
      do st <- match kw "step" with None | Some Nothing => Ok 1 | Some (Num st) => Ok st | Some (Text _) => Raise EType end ;
      if st =? 0 then Raise EValue
      else Ok (Arr (a_index x) (a_levels x) (a_others x)
        (map (fun r => (fst r, select (snd r) (slice_positions (Z.of_nat (List.length (snd r))) s e st))) (a_rows x)))
  | _ => Raise EExn
  end.
Definition islice_fn {A} : fn (list A) := Fn "islice" "data" ["dim"; "start"; "step"; "end"] true islice.

(** sample_mean over 'id', math_utils.py 452-456; the mean of no sample is NaN
    (here: no value). *)
Definition mean_of (l : list R) : list R :=
  match l with [] => [] | _ => [(fold_right Rplus 0 l / INR (List.length l))%R] end.
Definition sample_mean (kw : string -> option value) (x : arr (list R)) : res (arr (list R)) :=
  match kw "dim" with
  | Some (Text d) =>
    if negb (in_strs d (a_others x)) then Raise EValue
    else Ok (Arr (a_index x) (a_levels x) (filter (fun o => negb (String.eqb d o)) (a_others x))
      (map (fun r => (fst r, mean_of (snd r))) (a_rows x)))
  | _ => Raise EValue
  end.
Definition sample_mean_fn : fn (list R) := Fn "sample_mean" "data" [] true sample_mean.

(** roundint takes the data and nothing else, math_utils.py 449-450. *)
Definition roundint_fn {A} (round : A -> A) : fn (list A) :=
  Fn "roundint" "data" [] false (fun _ x =>
    Ok (Arr (a_index x) (a_levels x) (a_others x) (map (fun r => (fst r, map round (snd r))) (a_rows x)))).

(** * Application by group *)

Fixpoint position (d : string) (l : list string) : nat :=
  match l with [] => 0%nat | k :: r => if String.eqb d k then 0%nat else S (position d r) end.

(** The part of the label of a group that selects its arguments,
    misc_utils.py 1318-1340.  The labels of dimensions outside the sweep are read
    one place too early. *)
Definition group_dimensions (levels others group_dims : list string) : list string * list string :=
  let sw := filter (fun d => in_strs d levels) group_dims in
  (sw, filter (fun d => in_strs d others && negb (in_strs d sw)) group_dims).

Fixpoint all_some {A} (l : list (option A)) : option (list A) :=
  match l with
  | [] => Some []
  | Some a :: r => match all_some r with Some b => Some (a :: b) | None => None end
  | None :: _ => None
  end.

Definition sublabel (levels others group_dims : list string) (label : list value) : res (list value) :=
  let (sw, ns) := group_dimensions levels others group_dims in
  match all_some (map (fun d =>
    if in_strs d levels then nth_error label (position d levels)
    else nth_error label (List.length levels - 1 + position d ns)) (sw ++ ns)) with
  | Some l => Ok l
  | None => Raise EIndex
  end.

(** Arguments by label: a dictionary whose values may be dictionaries. *)
Inductive argtree := Value (v : value) | Dict (d : list (list value * argtree)).

(** The loop over groups, misc_utils.py 1324-1374: line 1352 overwrites the
    dictionary of all groups with that of the group just found.  The strings used
    as keys are seen as the lists of labels they show; the keys that are names of
    arguments as one text label. *)
Fixpoint by_group {G} (key : list value -> res (list value)) (sweeped : argtree)
  (groups : list (list value * G)) : res (list (G * argtree)) :=
  match groups with
  | [] => Ok []
  | (label, g) :: r =>
    do k <- key label ;
    match sweeped with
    | Value _ => Raise EType
    | Dict d =>
      match lget k d with
      | None => Raise EExn
      | Some (Value _) => Raise EType
      | Some (Dict a) => do rest <- by_group key (Dict a) r ; Ok ((g, Dict a) :: rest)
      end
    end
  end.

Definition apply_by_group {G} (levels others group_dims : list string) (sweeped : argtree)
  (groups : list (list value * G)) : res (list (G * argtree)) :=
  by_group (sublabel levels others group_dims) sweeped groups.
