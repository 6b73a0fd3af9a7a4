(** Model of parameter sweeps: /repo/gensit/config.py (sweep configurations,
    experiment configurations, sweep identifiers, resuming) and the parts of
    ExperimentSweep in /repo/gensit/experiments.py that use them. *)
From Coq Require Import List ZArith Lia Bool Arith String Ascii.
From Coq Require Import DecimalString.
From Verif Require Import Base ConfigTree.
Import ListNotations.
Local Open Scope nat_scope.

(** * prepare_sweep_configurations *)
(** A swept value: an atom or a Python tuple of values. *)
Inductive item (A : Type) :=
| Atom (a : A)
| Tup (l : list (item A)).
Arguments Atom {A} a.
Arguments Tup {A} l.

(** misc_utils.py 1115-1122 for one element. *)
Fixpoint expand {A} (i : item A) : list A :=
  match i with
  | Atom a => [a]
  | Tup l => flat_map expand l
  end.

(** misc_utils.py 1115-1122: [expand_tuple]. *)
Definition expand_tuple {A} (t : list (item A)) : list A := flat_map expand t.

(** itertools.product( *ls ): the last factor varies fastest. *)
Fixpoint product {X} (ls : list (list X)) : list (list X) :=
  match ls with
  | [] => [[]]
  | l :: r => flat_map (fun x => map (cons x) (product r)) l
  end.

(** zip( *ls ): truncated to the shortest list, empty for no list. *)
Fixpoint zip_star {X} (ls : list (list X)) : list (list X) :=
  match ls with
  | [] => []
  | [l] => map (fun x => [x]) l
  | l :: r => map (fun p => fst p :: snd p) (combine l (zip_star r))
  end.

(** [' === '.join(list(map(str,x)))] (config.py 966, 989). *)
Definition join_str {X} (str : X -> string) (x : list X) : string :=
  String.concat " === " (map str x).

(** Python [list.index(x)] for an element that is present. *)
Fixpoint index_of (x : string) (l : list string) : nat :=
  match l with
  | [] => 0
  | y :: t => if String.eqb y x then 0 else S (index_of x t)
  end.

(** config.py 966-970: rows whose printed form occurred before are dropped.
    [set(...)] is the list without duplicates; only membership in
    [unique_elem_indices] is used, so its order does not matter. *)
Definition unique_rows {X} (str : X -> string) (rows : list (list X)) : list (list X) :=
  let strs := map (join_str str) rows in
  let unique_elem_indices := map (fun x => index_of x strs) (nodup string_dec strs) in
  map snd (filter (fun p => existsb (Nat.eqb (fst p)) unique_elem_indices)
             (combine (seq 0 (List.length rows)) rows)).

(** config.py 947-1010.  [isolated] are the value lists of the isolated sweep
    parameters, [coupled] the value lists of the parameters of each coupled
    group; [str] prints a swept value before expansion, [str_atom] one after
    expansion.  The size texts returned besides are left out. *)
Definition prepare_sweep_configurations {A} (str : item A -> string) (str_atom : A -> string)
    (isolated : list (list (item A))) (coupled : list (list (list (item A))))
  : res (list (list A)) :=
  let combos :=
    if 0 <? List.length coupled then
      product (isolated ++ map (fun g => map Tup (unique_rows str (zip_star g))) coupled)
    else if 0 <? List.length isolated then product isolated
    else [] in
  let confs := map expand_tuple combos in
  let printed := map (join_str str_atom) confs in
  if List.length printed =? List.length (nodup string_dec printed) then Ok confs
  else Raise EExn.

(** Python [str] of a scalar (containers: not modelled, a fixed text). *)
Definition py_str (n : node) : string :=
  match n with
  | Leaf LNone => "None"
  | Leaf (LBool true) => "True"
  | Leaf (LBool false) => "False"
  | Leaf (LNum z) => NilZero.string_of_int (Z.to_int z)
  | Leaf (LStr s) => s
  | _ => "container"
  end.

Definition py_str_item (i : item node) : string :=
  match i with Atom a => py_str a | Tup _ => "tuple" end.

(** * prepare_experiment_config *)
(** The argument: the values of one configuration (a tuple), or - as passed by
    [trim_sweep_configurations] - the dictionary of sweep parameters, which
    has no integer keys. *)
Inductive conf_arg := ATuple (c : list node) | AParams.

(** [sweep_configuration[i]] *)
Definition conf_item (c : conf_arg) (i : nat) : res node :=
  match c with
  | ATuple l => match nth_error l i with Some v => Ok v | None => Raise EIndex end
  | AParams => Raise EKey
  end.

(** config.py 1093-1118.  The isolated parameters are followed by the coupled
    ones, group by group, with one running index; [params] is that sequence of
    (variable, path).  [sweep] is the dictionary of chosen values (with
    [cast_to_str] the values would be printed; not modelled, no caller that
    gets this far asks for it). *)
Fixpoint set_params (params : list (string * list key)) (c : conf_arg) (i : nat)
    (settings : node) (sweep : list (key * node)) : res (node * list (key * node)) :=
  match params with
  | [] => Ok (settings, sweep)
  | (var, path) :: rest =>
      rbind (conf_item c i) (fun v =>
        rbind (path_set false settings v path) (fun r =>
          set_params rest c (S i) (fst r) (dset (KS var) v sweep)))
  end.

(** config.py 1083-1120. *)
Definition prepare_experiment_config (settings : node) (params : list (string * list key))
    (c : conf_arg) : res (node * list (key * node)) :=
  rbind (set_item settings (KS "sweep_mode") (Leaf (LBool false))) (fun s1 =>
    rbind (set_item s1 (KS "export_samples") (Leaf (LBool true))) (fun s2 =>
      set_params params c 0 s2 [])).

(** * Sweep identifiers *)
(** misc_utils.py 1058-1071, for integer noise levels: [2/sigma^2 >= 10000]
    is [2 >= 10000*sigma^2]. *)
Definition sigma_to_noise_regime (sigma : node) : node :=
  match sigma with
  | Leaf (LStr s) =>
      if String.eqb s "" then Leaf (LStr "learned")
      else if String.eqb s "none" then Leaf (LStr "learned")
      else sigma
  | Leaf (LNum z) =>
      if (z =? 0)%Z then Leaf (LStr "learned")
      else if (10000 * (z * z) <=? 2)%Z then Leaf (LStr "low")
      else if (0 <? z)%Z then Leaf (LStr "high")
      else Leaf (LStr "learned")
  | Leaf (LBool true) => Leaf (LStr "high")
  | _ => Leaf (LStr "learned")
  end.

(** [x.split('_')[0]] *)
Fixpoint first_token (s : string) : string :=
  match s with
  | EmptyString => EmptyString
  | String a t => if Ascii.eqb a "_" then EmptyString else String a (first_token t)
  end.

(** Python text comparison. *)
Fixpoint str_leb (a b : string) : bool :=
  match a, b with
  | EmptyString, _ => true
  | String _ _, EmptyString => false
  | String x s, String y t =>
      if nat_of_ascii x <? nat_of_ascii y then true
      else if nat_of_ascii y <? nat_of_ascii x then false
      else str_leb s t
  end.

(** Python [sorted(l, key = k)], which is stable: insertion from the right
    puts an element before equal ones that came after it. *)
Fixpoint insert_by (k : string -> string) (x : string) (l : list string) : list string :=
  match l with
  | [] => [x]
  | y :: t => if str_leb (k x) (k y) then x :: y :: t else y :: insert_by k x t
  end.

Fixpoint sort_by (k : string -> string) (l : list string) : list string :=
  match l with
  | [] => []
  | x :: t => insert_by k x (sort_by k t)
  end.

(** config.py 491-513.  [names] lists [set(target names) - {'dataset'}] in
    the order Python happens to iterate that set; [stringify] is
    misc_utils.py 680-705 with [scientific=False].  [sweep[v]] raises KeyError
    for a missing variable.  Components are joined with "/" (none starts with
    it). *)
Definition sweep_entry (stringify : node -> string) (sweep : list (key * node)) (v : string) : res string :=
  match dget (KS v) sweep with
  | None => Raise EKey
  | Some x =>
      let value := if String.eqb v "sigma" then sigma_to_noise_regime x else x in
      Ok (v ++ "_" ++ stringify value)%string
  end.

Fixpoint map_res {A B} (f : A -> res B) (l : list A) : res (list B) :=
  match l with
  | [] => Ok []
  | x :: t => rbind (f x) (fun y => rbind (map_res f t) (fun ys => Ok (y :: ys)))
  end.

Definition get_sweep_id (stringify : node -> string) (names : list string)
    (sweep : list (key * node)) : res string :=
  if 0 <? List.length sweep then
    rbind (map_res (sweep_entry stringify sweep) names) (fun es =>
      Ok (String.concat "/" (sort_by first_token es)))
  else Ok EmptyString.

(** * Resuming *)
(** config.py 1186-1202: [file_exists] is computed for three names, but the
    path looked at is always that of outputs.log. *)
Definition data_exists (is_file : list string -> bool) (sweep_id : string) : bool :=
  let file_exists (file : string) := is_file ["samples"; sweep_id; "outputs.log"]%string in
  file_exists "metadata.json"%string && file_exists "data.h5"%string && file_exists "outputs.log"%string.

(** config.py 1176-1206, consumed by [list(...)].  The call passes the sweep
    parameters as configuration and the configuration as [cast_to_str]. *)
Fixpoint trim_sweep_configurations (stringify : node -> string) (names : list string)
    (is_file : list string -> bool) (settings : node) (params : list (string * list key))
    (confs : list (list node)) : res (list (list node)) :=
  match confs with
  | [] => Ok []
  | c :: rest =>
      rbind (prepare_experiment_config settings params AParams) (fun r =>
        rbind (get_sweep_id stringify names (snd r)) (fun sid =>
          rbind (trim_sweep_configurations stringify names is_file settings params rest) (fun t =>
            Ok (if data_exists is_file sid then t else c :: t))))
  end.

(** experiments.py 3677-3681 and 3731-3744: the configurations an
    ExperimentSweep runs.  The trimmed list is stored in [outputs.config];
    [run] uses [config.sweep_configurations]. *)
Definition sweep_to_run (load_data : bool) (stringify : node -> string) (names : list string)
    (is_file : list string -> bool) (settings : node) (params : list (string * list key))
    (confs : list (list node)) : res (list (list node)) :=
  if load_data then
    rbind (trim_sweep_configurations stringify names is_file settings params confs) (fun _ => Ok confs)
  else Ok confs.
