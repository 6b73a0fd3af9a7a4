(** Model of the commands that run experiments: from the command line to the
    settings (main.py 24-37, 186-225, 253-316, 325-552), and the selection,
    setting up and running of experiments (experiments.py 35-127).

    Validation of a configuration, construction of an experiment and its run are
    parameters here; they are modelled in Validate, StartUp, Recorder, Sweep. *)
From Coq Require Import String List ZArith Lia Bool Arith Ascii.
From Verif Require Import Base PyMonad ConfigTree DictUtils.
From Verif Require Import Inputs.
Import ListNotations.
Local Open Scope string_scope.
Local Open Scope nat_scope.
Local Open Scope list_scope.

(** * From the command line to the settings *)

(** The parameters of a command with the value click passes when the option is
    not given: [None] for a single value, an empty list for one that may be
    repeated, otherwise the declared default.  Real numbers are integers here,
    as everywhere in [node]. *)
Definition none : node := Leaf LNone.

(** _common_options, main.py 49-66. *)
Definition common_parameters : list (string * node) :=
  [("norm", Leaf (LStr "relative_l_1")); ("n_workers", Leaf (LNum 1)); ("n_threads", none);
   ("logging_mode", Leaf (LStr "info")); ("n", none); ("table", none); ("device", Leaf (LStr "cpu"));
   ("out_directory", none); ("out_group", Leaf (LStr ""))].

(** _create_and_run_options, main.py 68-91; config_path is required. *)
Definition create_and_run_parameters : list (string * node) :=
  [("data_generation_seed", none); ("alpha", none); ("beta", none); ("bmax", none); ("delta", none);
   ("kappa", none); ("epsilon", none); ("sigma", none); ("dt", none); ("noise_percentage", none)].

(** _run_and_optimise_options, main.py 93-174. *)
Definition run_and_optimise_parameters : list (string * node) :=
  [("sweep_mode", none); ("experiment_type", LList []); ("title", none); ("validate_samples", none);
   ("overwrite", none); ("dataset", none); ("in_directory", none); ("to_learn", LList []);
   ("mcmc_workers", none); ("name", none); ("grand_total", none); ("origin_demand", none);
   ("region_features", none); ("cost_matrix", none); ("destination_attraction_ts", none);
   ("margins", none); ("train_cells", none); ("sparse_margins", Leaf (LBool false));
   ("store_progress", Leaf (LNum 1)); ("axes", LList []); ("cells", none); ("seed", none);
   ("proposal", none); ("loss_name", LList []); ("loss_function", LList []); ("loss_kwarg_keys", LList []);
   ("theta_steps", none); ("destination_attraction_steps", none); ("table_steps", none); ("table0", none);
   ("margin0", none); ("alpha0", none); ("beta0", none); ("beta_max", none); ("covariance", none);
   ("step_size", none); ("leapfrog_steps", none); ("leapfrog_step_size", none); ("ais_leapfrog_steps", none);
   ("ais_leapfrog_step_size", none); ("ais_samples", none); ("n_bridging_distributions", none)].

(** create, main.py 246-252; run, 322-324; optimise, 428-434. *)
Definition create_parameters : list (string * node) :=
  common_parameters ++ create_and_run_parameters ++
  [("dims", none); ("synthesis_method", Leaf (LStr "sde_solver")); ("synthesis_n_samples", none)].
Definition run_parameters : list (string * node) :=
  ("load_experiment", none) :: common_parameters ++ create_and_run_parameters ++ run_and_optimise_parameters.
Definition optimise_parameters : list (string * node) :=
  [("n_trials", none); ("timeout", none); ("metric_evaluation", none)] ++
  common_parameters ++ create_and_run_parameters ++ run_and_optimise_parameters.

(** locals() in the body of a command, given the options present on the command
    line (after their callbacks). *)
Definition locals (params : list (string * node)) (path : node) (given : list (string * node))
  : list (string * node) :=
  ("config_path", path) ::
  map (fun p => (fst p, match aget (fst p) given with Some v => v | None => snd p end)) params.

(** "Remove all nulls", main.py 289, 397, 500. *)
Definition is_null (v : node) : bool := match v with Leaf LNone => true | _ => false end.
Definition drop_null (l : list (string * node)) : list (string * node) :=
  filter (fun kv => negb (is_null (snd kv))) l.

(** "Remove empty lists", main.py 399, 502: texts, dictionaries and lists of
    length zero.  The command create does not do this. *)
Definition is_empty (v : node) : bool :=
  match v with
  | Leaf (LStr s) => String.length s =? 0
  | Leaf _ => false
  | Dict l => List.length l =? 0
  | LList l => List.length l =? 0
  end.
Definition drop_empty (l : list (string * node)) : list (string * node) :=
  filter (fun kv => negb (is_empty (snd kv))) l.

(** "Capitalise all single-letter arguments", main.py 291, 401, 504. *)
Definition upper (c : ascii) : ascii :=
  let n := nat_of_ascii c in
  if (97 <=? n) && (n <=? 122) then ascii_of_nat (n - 32) else c.
Definition option_name (k : string) : string :=
  match k with String c EmptyString => String (upper c) EmptyString | _ => k end.
Definition capitalise (l : list (string * node)) : list (string * node) :=
  fold_left (fun d kv => aset (option_name (fst kv)) (snd kv) d) l [].

(** update_settings, main.py 24-37, for the commands without evaluations. *)
Definition update_settings (l : list (string * node)) : list (string * node) :=
  let l1 := aset "n_threads" (match aget "n_threads" l with Some v => v | None => none end) l in
  let l2 := aset "n_workers" (match aget "n_workers" l1 with Some v => v | None => Leaf (LNum 1) end) l1 in
  aset "sample" (LList []) l2.

(** main.py 286-294 and 394-407, 497-510. *)
Definition create_settings (path : node) (given : list (string * node)) : list (string * node) :=
  update_settings (capitalise (drop_null (locals create_parameters path given))).
Definition run_settings (path : node) (given : list (string * node)) : list (string * node) :=
  update_settings (capitalise (drop_empty (drop_null (locals run_parameters path given)))).
(** The optimise command switches the export off, main.py 524-525. *)
Definition optimise_settings (path : node) (given : list (string * node)) : list (string * node) :=
  aset "export_metadata" (Leaf (LBool false)) (aset "export_samples" (Leaf (LBool false))
    (update_settings (capitalise (drop_empty (drop_null (locals optimise_parameters path given)))))).

(** main.py 199-215: deep_updates, then inputs>device.  [device] of the settings
    is never missing; an empty one (excluded by click) is not modelled. *)
Definition with_settings (config : node) (settings : list (string * node)) : node :=
  apply_settings config (map (fun kv => (KS (fst kv), snd kv)) settings).

(** create, main.py 276-284: dims given as pairs (later ones replace earlier
    ones); all three must be there. *)
Definition dims_option (given : list (string * nat)) : res (option (list (string * nat))) :=
  match given with
  | [] => Ok None
  | _ =>
    let d := fold_left (fun d kv => aset (fst kv) (snd kv) d) given [] in
    if mem "origin" d && mem "destination" d && mem "time" d then Ok (Some d) else Raise EExn
  end.

(** * Selecting, setting up and running experiments *)

Section Handler.
  (** The configuration apart from its list of experiments, an entry of that
      list, an experiment object. *)
  Context {config entry object : Type}.

  (** entry['type']; [None]: KeyError. *)
  Variable type_of : entry -> option string.

  (** experiments.py 68-71: from the last to the first. *)
  Fixpoint keep_asked (asked : list string) (es : list entry) : res (list entry) :=
    match es with
    | [] => Ok []
    | e :: r =>
      do r' <- keep_asked asked r ;
      match type_of e with
      | None => Raise EKey
      | Some t => Ok (if memb t asked then e :: r' else r')
      end
    end.

  (** {exp['type']:i for i,exp in enumerate(...)}, experiments.py 72-75: keys in
      order of first occurrence, values of the last one. *)
  Fixpoint index_types (i : nat) (es : list entry) (acc : list (string * nat)) : list (string * nat) :=
    match es with
    | [] => acc
    | e :: r =>
      index_types (S i) r (match type_of e with Some t => aset t i acc | None => acc end)
    end.

  (** What an experiment is given: its own copy of the configuration with one
      experiment in it, and its type (experiments.py 93-101). *)
  Record job := mkjob { job_config : config; job_entry : entry; job_type : string }.

  (** Config.experiment_validate, the class look-up and the constructors;
      whether sweep_mode is on.  All of them may change the configuration they
      are given, including the entry. *)
  Variable validate : job -> res job.
  Variable class_exists : string -> bool.
  Variable sweeping : job -> bool.
  Variable make_sweep : job -> res (object * entry).
  Variable make_single : string -> job -> res (object * entry).

  (** instantiate_experiment, experiments.py 35-46. *)
  Definition instantiate (t : string) (j : job) : res (object * entry) :=
    if class_exists t then
      if sweeping j then make_sweep j else make_single t j
    else Raise EExn.

  (** setup_experiments, experiments.py 87-114.  The configuration is copied for
      each experiment, but the entry put into the copy is the handler's own
      (experiments.py 97-99), so what the experiment does to it is written back. *)
  Fixpoint setup (c : config) (es : list entry) (types : list (string * nat)) : res (list (string * object)) :=
    match types with
    | [] => Ok []
    | (t, i) :: r =>
      match nth_error es i with
      | None => Raise EIndex
      | Some e =>
        do j <- validate (mkjob c e t) ;
        do oe <- instantiate t j ;
        do rest <- setup c (upd_nth i (fun _ => snd oe) es) r ;
        Ok ((t, fst oe) :: rest)
      end
    end.

  (** ExperimentHandler.__init__, experiments.py 54-85. *)
  Definition handler (c : config) (es : list entry) (asked : list string) : res (list (string * object)) :=
    do kept <- keep_asked asked es ;
    setup c kept (index_types 0 kept []).

  (** run_experiments_sequentially, experiments.py 116-126: a failing reset is
      ignored, a failing run ends the command.  The first component lists the
      experiments whose run was started. *)
  Variable run : object -> res unit.
  Fixpoint run_all (l : list (string * object)) : list string * res unit :=
    match l with
    | [] => ([], Ok tt)
    | (t, o) :: r =>
      match run o with
      | Raise e => ([t], Raise e)
      | Ok _ => let '(started, out) := run_all r in (t :: started, out)
      end
    end.

  (** exec, main.py 227-240. *)
  Definition exec (c : config) (es : list entry) (asked : list string) : list string * res unit :=
    match handler c es asked with
    | Raise e => ([], Raise e)
    | Ok l => run_all l
    end.
End Handler.
