(** Summarise: what [gensit summarise] does with evaluated runs: the settings
    attached to every row (outputs.py 2430-2501), the rows of all folders
    (2300-2358, 2362-2428), their order and the file they are written to
    (2559-2617, misc_utils.py 476-531). *)
From Coq Require Import List String Ascii Bool Arith.
From Verif Require Import Base PyMonad ConfigTree Inputs OutputSearch.
Import ListNotations.
Open Scope string_scope.
Open Scope nat_scope.
Open Scope list_scope.

(** * Settings attached to the rows of a run *)

Section Metadata.
  (** Cell values, NaN, and how a value of the configuration is written (texts,
      lists and dictionaries as text). *)
  Context {V : Type}.
  Variable nan : V.
  Variable conv : option node -> V.
  Definition record := list (string * V).

  (** key if key != 'iter' else 'N', outputs.py 2466-2467. *)
  Definition config_name (key : string) : string := if String.eqb key "iter" then "N" else key.

  (** The loop of outputs.py 2464-2491: a swept setting is not stored, but read
      back immediately. *)
  Fixpoint metadata (s : node) (keys : list string) (acc : record) : res record :=
    match keys with
    | [] => Ok acc
    | k :: r =>
        match path_find (KS (config_name k)) s with
        | [] => metadata s r acc
        | p :: _ =>
            if has_sweep p s
            then match aget k acc with
                 | None => Raise EKey
                 | Some _ => metadata s r acc
                 end
            else metadata s r (aset k (conv (fst (path_get p s))) acc)
        end
    end.

  (** pd.DataFrame(records): every column any record has, NaN where missing. *)
  Definition columns (rows : list record) : list string :=
    fold_left (fun acc r => fold_left (fun a e => if memb (fst e) a then a else a ++ [fst e]) r acc) rows [].
  Definition frame (rows : list record) : list record :=
    map (fun r => map (fun c => (c, match aget c r with Some v => v | None => nan end)) (columns rows)) rows.

  (** get_experiment_metadata, outputs.py 2445-2501: [rows] are those of
      evaluate_expressions.  A key called folder clashes with the keyword of
      assign (line 2497). *)
  Definition get_experiment_metadata (folder : V) (s : node) (keys : list string) (rows : list record)
    : res (list record) :=
    match rows with
    | [] => Raise EExn
    | _ =>
        do useful <- metadata s keys [] ;
        match aget "folder" useful with
        | Some _ => Raise EType
        | None => Ok (map (fun r => fold_left (fun a e => aset (fst e) (snd e) a) (("folder", folder) :: useful) r)
                          (frame rows))
        end
    end.

  (** * The rows of all folders *)

  (** collect_folder_metadata, outputs.py 2324-2358: [elements] are the outcomes
      for the members of a folder's collection.  One after the other
      (2360-2377): the first failure stops everything. *)
  Definition folder_sequential (elements : list (res (list record))) : res (list (list record)) :=
    do l <- mapR (fun e => e) elements ;
    match l with [] => Raise EExn | _ => Ok l end.
  (** By workers (2379-2428): results in the order of completion [done]; a
      failure raises inside the callback, which is logged and ignored. *)
  Definition folder_concurrent (done : list (res (list record))) : res (list (list record)) :=
    let l := flat_map (fun e => match e with Ok x => [x] | Raise _ => [] end) done in
    match l with [] => Raise EExn | _ => Ok l end.

  (** collect_metadata, outputs.py 2300-2322. *)
  Definition add_rows (folder : string) (acc : list (string * list record)) (rows : list record)
    : list (string * list record) :=
    match rows with
    | [] => acc
    | _ => match aget folder acc with
           | Some old => aset folder (old ++ rows) acc
           | None => aset folder rows acc
           end
    end.
  Fixpoint collect_metadata (folders : list (string * res (list (list record)))) (acc : list (string * list record))
    : res (list (string * list record)) :=
    match folders with
    | [] => Ok acc
    | (f, r) :: rest => do els <- r ; collect_metadata rest (fold_left (add_rows f) els acc)
    end.

  (** * The table that is written *)

  (** write_metadata_summaries, outputs.py 2561-2571: all rows, sorted when every
      column named is there; folder has become the index. [sort_rows] is
      DataFrame.sort_values. *)
  Definition summary_rows (sort_rows : list string -> bool -> list record -> list record)
      (sort_by : list string) (ascending : bool) (em : list (string * list record)) : list record :=
    let rows := List.concat (map snd em) in
    let cols := filter (fun c => negb (String.eqb c "folder")) (columns rows) in
    match sort_by with
    | [] => rows
    | _ => if forallb (fun c => memb c cols) sort_by then sort_rows sort_by ascending rows else rows
    end.
End Metadata.

(** * The file *)

Fixpoint prefix_of (a b : text) : bool :=
  match a, b with
  | [], _ => true
  | x :: a', y :: b' => Ascii.eqb x y && prefix_of a' b'
  | _ :: _, [] => false
  end.
Fixpoint inside (a b : text) : bool :=
  prefix_of a b || match b with [] => false | _ :: b' => inside a b' end.
(** The longest start of [a] that occurs in [b]. *)
Fixpoint longest_start (a b : text) : text :=
  match a with
  | [] => []
  | c :: a' => (fix down (n : nat) : text :=
                  match n with
                  | 0 => []
                  | S n' => if inside (firstn n a) b then firstn n a else down n'
                  end) (List.length a)
  end.
(** SequenceMatcher(None,a,b).find_longest_match, difflib (texts shorter than
    200 characters): a longest common piece, the first in [a]. *)
Fixpoint longest_match (a b : text) : text :=
  match a with
  | [] => []
  | _ :: a' =>
      let here := longest_start a b in let later := longest_match a' b in
      if List.length here <? List.length later then later else here
  end.

(** find_common_substring, misc_utils.py 476-490: how often each piece occurs. *)
Fixpoint count_piece (p : text) (l : list (text * nat)) : list (text * nat) :=
  match l with
  | [] => [(p, 1)]
  | (q, n) :: r => if teqb p q then (q, S n) :: r else (q, n) :: count_piece p r
  end.
Fixpoint common_pieces (names : list text) (acc : list (text * nat)) : list (text * nat) :=
  match names with
  | [] => acc
  | a :: r => common_pieces r (fold_left (fun acc b => count_piece (longest_match a b) acc) r acc)
  end.
(** max by count: the first maximum, misc_utils.py 531. *)
Definition most_frequent (l : list (text * nat)) : res text :=
  match l with
  | [] => Raise EValue
  | x :: r => Ok (fst (fold_left (fun best y => if snd best <? snd y then y else best) r x))
  end.
(** find_dataset_directory, misc_utils.py 514-525. *)
Definition dataset_directory (names : list text) : res text :=
  match names with
  | [n] => Ok n
  | _ => do p <- most_frequent (common_pieces names []) ;
         Ok (match p with [] => tx "multiple_datasets" | _ => p ++ tx "datasets" end)
  end.

(** '_'.join *)
Fixpoint tjoin (sep : text) (l : list text) : text :=
  match l with [] => [] | [x] => x | x :: r => x ++ sep ++ tjoin sep r end.
Definition nonempty (t : text) : bool := match t with [] => false | _ => true end.

(** The settings the file name depends on; [sm_slices] are the texts
    (var,burninB,thinningT,trimmingR). *)
Record request := mkrequest {
  sm_out : text; sm_datasets : list text; sm_directories : list text;
  sm_types : list text; sm_titles : list text; sm_dates : list text;
  sm_slices : list text; sm_ending : text }.

(** outputs.py 2601: 'multiple_dates' if len(date_strings) > 4. *)
Definition date_text (dates : list text) : text :=
  let d := tjoin (tx "__") dates in
  if 4 <? List.length d then tx "multiple_dates" else d.
(** outputs.py 2584-2613. *)
Definition name_pieces (r : request) : list text :=
  let last := (if nonempty (sm_ending r) then sm_ending r else tx "summaries") ++ tx ".csv" in
  match sm_directories r with
  | [] => [tjoin [us] (sm_types r); tjoin [us] (sm_titles r); date_text (sm_dates r);
           tjoin [us] (sm_slices r); last]
  | _ => [tjoin [us] (sm_slices r); last]
  end.
Definition summary_name (r : request) : text := tjoin [us] (filter nonempty (name_pieces r)).
(** outputs.py 2574-2582, 2589-2613. *)
Definition summary_path (r : request) : res text :=
  do d <- dataset_directory (sm_datasets r) ;
  let sub := match sm_directories r with [x] => x | _ => [] end in
  Ok (pjoin (pjoin (pjoin (pjoin (sm_out r) d) sub) (tx "summaries")) (summary_name r)).
