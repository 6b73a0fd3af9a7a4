(** Grouping of sweep parameters, slicing of loaded outputs by coordinate values,
    labelling of the arrays of a run, and the rows of an evaluation summary:
    gensit/config.py 570-618; gensit/outputs.py 330-436, 552-687, 1586-1603,
    2752-2883. *)
From Coq Require Import List ZArith Lia Bool Arith String.
From Verif Require Import Base PyMonad CommandLine Collections.
Import ListNotations.
Local Open Scope string_scope.
Local Open Scope nat_scope.
Local Open Scope list_scope.

(** * Which sweep parameters separate groups *)

(** [sorted(list(s))] of a set of names. *)
Fixpoint insert_name (x : string) (l : list string) : list string :=
  match l with
  | [] => [x]
  | y :: r => if String.eqb x y then l else if String.ltb x y then x :: l else y :: insert_name x r
  end.
Definition sorted_set (l : list string) : list string := fold_right insert_name [] l.

Section Groups.
  (** CORE_COORDINATES_DTYPES, global_variables.py 528-535. *)
  Variable core : list string.
  (** sweep_params['isolated'].keys(); sweep_params['coupled']: for each target
      name the variables swept together with it. *)
  Variable isolated : list string.
  Variable coupled : list (string * list string).

  (** target_names_by_sweep_var, filled by parse_sweep_params (config.py
      1036-1037, 1069): only names of isolated parameters and of targets. *)
  Definition target_of (gb : string) : option string :=
    if smem gb isolated then Some gb
    else match sget gb coupled with
         | Some (_ :: _) => Some gb
         | _ => None
         end.

  (** The names added for one [gb], config.py 584-606. *)
  Definition added (gb : string) : list string :=
    (if smem gb isolated then [gb] else []) ++
    (match sget gb coupled with Some vs => gb :: vs | None => [] end) ++
    (match target_of gb with
     | Some t => match sget t coupled with Some vs => flat_map (fun v => [t; v]) vs | None => [] end
     | None => []
     end).

  (** get_group_id, config.py 570-618. *)
  Definition nonshared (group_by : list string) : list string :=
    flat_map added (group_by ++ filter (fun k => negb (smem k core)) (isolated ++ map fst coupled)).
  Definition get_group_id (group_by : list string) : list string * list string :=
    let ns := nonshared group_by in
    (sorted_set ns,
     sorted_set (filter (fun d => negb (smem d ns)) isolated ++
                 filter (fun d => negb (smem d ns)) (flat_map snd coupled))).
End Groups.

(** * Slicing by coordinate values *)

Definition labelling := string -> string.

Section ByValue.
  Context {V : Type}.

  (** A labelled array; None is NaN. *)
  Record larr := Larr { l_dims : list (string * list string); l_val : labelling -> option V }.

  (** A slicing expression: the dimensions it mentions and its truth at labels. *)
  Record slice := Slice { s_dims : list string; s_test : labelling -> bool }.

  (** All labellings of some dimensions. *)
  Fixpoint labellings (ds : list (string * list string)) : list labelling :=
    match ds with
    | [] => [fun _ => ""]
    | (d, ls) :: r => flat_map (fun l => map (fun e x => if String.eqb x d then l else e x) (labellings r)) ls
    end.

  (** [da.where(cond, drop = True)]: along every dimension of the condition the
      labels at which it holds somewhere are kept, and what is left where it does
      not hold becomes NaN. *)
  Definition where_drop (s : slice) (a : larr) : larr :=
    let own := filter (fun e => smem (fst e) (s_dims s)) (l_dims a) in
    Larr (map (fun e => if smem (fst e) (s_dims s)
                        then (fst e, filter (fun l => existsb (fun g => String.eqb (g (fst e)) l && s_test s g) (labellings own)) (snd e))
                        else e) (l_dims a))
         (fun g => if s_test s g then l_val a g else None).

  (** [da.size <= 0] *)
  Definition is_empty (a : larr) : bool := existsb (fun e => match snd e with [] => true | _ => false end) (l_dims a).

  (** slice_coordinates_by_value, outputs.py 400-436: an expression mentioning a
      name that is not a coordinate raises and is skipped. *)
  Definition evaluable (s : slice) (a : larr) : bool := forallb (fun d => smem d (map fst (l_dims a))) (s_dims s).
  Fixpoint slice_by_value (ss : list slice) (a : larr) : res larr :=
    match ss with
    | [] => Ok a
    | s :: r =>
      if evaluable s a then
        let a' := where_drop s a in
        if is_empty a' then Raise EExn else slice_by_value r a'
      else slice_by_value r a
    end.

  (** create_slicing_conditions, outputs.py 1586-1603: [sweepable] is
      config.is_sweepable, [any_sweep] whether the configuration has sweeps. *)
  Definition slicing_conditions (any_sweep : bool) (sweepable : string -> bool) (ss : list slice) : list slice :=
    if any_sweep then filter (fun s => forallb sweepable (s_dims s)) ss else [].

  (** slice_coordinates, outputs.py 330-367, without the slices by index: None
      means the array is left out. *)
  Definition slice_coordinates (ss : list slice) (a : larr) : option larr :=
    match slice_by_value ss a with Ok a' => Some a' | Raise _ => None end.
End ByValue.
Arguments larr : clear implicits.

(** * The arrays of a run *)

(** A dataset of data.h5: its name, shape and content in row-major order. *)
Record dataset := Dataset { d_name : string; d_shape : list nat; d_rows : list Z }.

Section ReadRun.
  (** OUTPUT_SCHEMA: is_iterable and dims. *)
  Variable iterable : string -> bool.
  Variable dims_of : string -> list string.

  Definition global_dims (n : string) : list string := (if iterable n then ["iter"] else []) ++ dims_of n.

  (** Coordinates 1..n of every dimension, each dataset overwriting those of the
      previous ones (outputs.py 633-669); a shape with too few axes raises. *)
  Fixpoint set_coords (ds : list string) (shape : list nat) (g : list (string * nat)) : res (list (string * nat)) :=
    match ds with
    | [] => Ok g
    | d :: r => match shape with
                | [] => Raise EIndex
                | n :: shape' => set_coords r shape' (sset d n g)
                end
    end.

  (** read_h5_file, outputs.py 611-687. *)
  Fixpoint read_file (names : list string) (f : list dataset) (g : list (string * nat)) (acc : list dataset)
      : res (list (string * nat) * list dataset) :=
    match f with
    | [] => Ok (g, acc)
    | d :: r =>
      if smem (d_name d) names then
        do g' <- set_coords (global_dims (d_name d)) (d_shape d) g ;
        read_file names r g' (acc ++ [d])
      else read_file names r g acc
    end.

  Definition product (l : list nat) : nat := fold_right Nat.mul 1 l.

  (** load_h5_data, outputs.py 552-609: [sweep] holds the names of the sweep
      parameters, each with one value.  A missing or unreadable file gives {}
      (556-575); a reshape to another size raises.  The result gives, for each
      sample, its dimensions with their lengths, and its content. *)
  Fixpoint label_all (sweep : list string) (g : list (string * nat)) (ds : list dataset)
      : res (list (string * (list (string * nat) * list Z))) :=
    match ds with
    | [] => Ok []
    | d :: r =>
      do gs <- (fix get (l : list string) : res (list (string * nat)) :=
                  match l with
                  | [] => Ok []
                  | k :: l' => match sget k g with
                               | Some n => do t <- get l' ; Ok ((k, n) :: t)
                               | None => Raise EKey
                               end
                  end) (global_dims (d_name d)) ;
      let coords := map (fun k => (k, 1)) (filter (fun k => negb (String.eqb k (d_name d))) sweep) ++ gs in
      if Nat.eqb (product (map snd coords)) (List.length (d_rows d)) then
        do t <- label_all sweep g r ; Ok ((d_name d, (coords, d_rows d)) :: t)
      else Raise EValue
    end.
  Definition load_run (file : option (list dataset)) (sweep names : list string)
      : res (list (string * (list (string * nat) * list Z))) :=
    match file with
    | None => Ok []
    | Some f =>
      match read_file names f [] [] with
      | Raise _ => Ok []
      | Ok (g, ds) => label_all sweep g ds
      end
    end.
End ReadRun.

(** * The rows of a summary *)

(** Numbers, texts and lists. *)
Inductive dat := DNum (z : Z) | DText (s : string) | DList (l : list dat).

(** What an expression evaluates to: an array over sweep configurations (each with
    its parameters and its data), another array, something else, or an error.
    The data are a number, or a list of several. *)
Inductive evaluation :=
| OverSweeps (rows : list (list (string * string) * dat))
| PlainArray (d : dat)
| NotArray (d : dat)
| Failed.

Notation row := (list (string * dat)) (only parsing).

(** ' & '.join of k_v, outputs.py 2813. *)
Fixpoint join_amp (l : list string) : string :=
  match l with [] => "" | [x] => x | x :: r => (x ++ " & " ++ join_amp r)%string end.
Definition sweep_id (name : string) (sweep : list (string * string)) : string :=
  join_amp (map (fun e => (fst e ++ "_" ++ snd e)%string)
    (filter (fun e => negb (String.eqb (fst e) name || String.eqb (fst e) "sweep")) sweep)).

(** {**{n_expression: e, n: data}, **sweep} *)
Definition new_row (name expr : string) (d : dat) (sweep : list (string * string)) : row :=
  fold_left (fun r e => sset (fst e) (DText (snd e)) r) sweep
    (sset name d (sset (name ++ "_expression")%string (DText expr) [])).

(** Outputs over sweeps, outputs.py 2797-2832. *)
Definition add_sweep_row (name expr : string) (st : list (string * row)) (e : list (string * string) * dat)
    : list (string * row) :=
  let id := sweep_id name (fst e) in
  match sget id st with
  | None => sset id (new_row name expr (snd e) (fst e)) st
  | Some r => sset id (sset name (snd e) r) st
  end.

(** Data added to every row, 2843-2848 and 2866-2871: a value already there is
    appended to, which a number cannot be. *)
Fixpoint add_to_rows (name : string) (d : dat) (st : list (string * row)) : res (list (string * row)) :=
  match st with
  | [] => Ok []
  | (id, r) :: t =>
    do r' <- (match sget name r with
              | Some (DList l) => Ok (sset name (DList (l ++ [d])) r)
              | Some _ => Raise EAttr
              | None => Ok (sset name d r)
              end) ;
    do t' <- add_to_rows name d t ; Ok ((id, r') :: t')
  end.

(** One turn of the loop, outputs.py 2752-2881, for an evaluation that did not
    fail. *)
Definition record_metric (swept : bool) (experiment : string) (name expr : string) (ev : evaluation)
    (st : list (string * row)) : res (list (string * row)) :=
  match ev with
  | OverSweeps rows => Ok (fold_left (add_sweep_row name expr) rows st)
  | PlainArray d =>
    do st' <- add_to_rows name d st ;
    Ok (if negb swept && Nat.leb (List.length st') 0 then sset experiment [(name, d)] st' else st')
  | NotArray d =>
    do st' <- add_to_rows name d st ;
    Ok (if negb swept || Nat.leb (List.length st') 0 then sset experiment [(name, d)] st' else st')
  | Failed => Ok st
  end.

(** The loop over settings['evaluate']: a name met before is not evaluated
    again, but the branches below still use the latest evaluation ([last]).
    [eval] is the evaluation of an expression given those made so far. *)
Fixpoint evaluate_all (swept : bool) (experiment : string) (eval : list (string * evaluation) -> string -> evaluation)
    (todo : list (string * string)) (done_ : list (string * evaluation)) (last : evaluation) (st : list (string * row))
    : res (list (string * row)) :=
  match todo with
  | [] => Ok st
  | (name, expr) :: r =>
    match sget name done_ with
    | Some _ =>
      do st' <- record_metric swept experiment name expr last st ;
      evaluate_all swept experiment eval r done_ last st'
    | None =>
      match eval done_ expr with
      | Failed => evaluate_all swept experiment eval r done_ last st
      | ev =>
        do st' <- record_metric swept experiment name expr ev st ;
        evaluate_all swept experiment eval r (sset name ev done_) ev st'
      end
    end
  end.

(** evaluate_expressions, outputs.py 2752-2883: the rows of the summary. *)
Definition evaluate_expressions (swept : bool) (experiment : string)
    (eval : list (string * evaluation) -> string -> evaluation) (todo : list (string * string)) : res (list row) :=
  do st <- evaluate_all swept experiment eval todo [] Failed [] ; Ok (map snd st).
