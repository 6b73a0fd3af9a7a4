(** Evaluate: what the names in the expressions of [gensit summarise] /
    [gensit plot] stand for.  Modelled: evaluate_expressions, outputs.py
    2620-2778 (samples, keyword expressions, metrics), get_sample, outputs.py
    1450-1583 (where a sample comes from), Outputs.__init__, outputs.py 54-60,
    174-218 (which recorded arrays are read), update_settings, main.py 24-37,
    evaluate_kwargs_callback, utils/click_parsers.py 31-42, safe_list_get,
    utils/misc_utils.py 1501-1505, static/global_variables.py 56-110, 129-492.
    The rows made of the values are in Summaries, the objects built for an
    expression in Expressions. *)
From Coq Require Import List String Bool Arith Lia.
From Verif Require Import Base PyMonad Recorder Inputs.
Import ListNotations.
Open Scope string_scope.
Open Scope nat_scope.
Open Scope list_scope.

(** A program that goes on, ends by sys.exit() or raises to its caller. *)
Inductive run (A : Type) := Running (a : A) | Exits | Raises.
Arguments Running {A} a.
Arguments Exits {A}.
Arguments Raises {A}.

(** {**a, **b} for lookups: the entries of [b] count first. *)
Definition over {V} (a b : list (string * V)) : list (string * V) := b ++ a.

Section Env.
Context {V : Type}.
(** [v is None]; the builtins; application of the functions and methods of the
    libraries, [None] when it raises; iteration and list(). *)
Variable is_none : V -> bool.
Variable builtins : string -> option V.
Variable prim1 : string -> V -> option V.
Variable prim2 : string -> V -> V -> option V.
Variable items : V -> option (list V).
Variable collect : list V -> V.

(** The Python expressions given on the command line: names, constants,
    operations, and [list(map(lambda x: body, src))]. *)
Inductive expr :=
| EName (x : string)
| EConst (v : V)
| EUn (f : string) (a : expr)
| EBin (f : string) (a b : expr)
| EEach (x : string) (src body : expr).

Definition orelse (a b : option V) : option V := match a with Some v => Some v | None => b end.
Fixpoint all_of (l : list (option V)) : option (list V) :=
  match l with
  | [] => Some []
  | None :: _ => None
  | Some v :: r => match all_of r with Some vs => Some (v :: vs) | None => None end
  end.

(** eval(expression, globals, locals), outputs.py 2699-2715, 2759-2774: a name
    at the top is looked up in the locals, the globals and the builtins; the
    body of a lambda is a scope of its own, which sees its own variables, the
    globals and the builtins but not the locals. *)
Fixpoint ev (bound locs globs : list (string * V)) (e : expr) : option V :=
  match e with
  | EName x => orelse (aget x bound) (orelse (aget x locs) (orelse (aget x globs) (builtins x)))
  | EConst v => Some v
  | EUn f a => match ev bound locs globs a with Some u => prim1 f u | None => None end
  | EBin f a b =>
    match ev bound locs globs a with
    | Some u => match ev bound locs globs b with Some w => prim2 f u w | None => None end
    | None => None
    end
  | EEach x src body =>
    match ev bound locs globs src with
    | Some u =>
      match items u with
      | Some l =>
        match all_of (map (fun v => ev ((x, v) :: bound) [] globs body) l) with
        | Some vs => Some (collect vs)
        | None => None
        end
      | None => None
      end
    | None => None
    end
  end.

(** What evaluate_expressions has at hand. *)
Record session := mksession {
  in_vars : list (string * V);   (* outputs.inputs.data_vars() *)
  in_dims : list (string * V);   (* outputs.inputs.data.dims *)
  out_vars : list (string * V);  (* outputs.data_vars() *)
  out_self : V;                  (* outputs *)
  library : list (string * V);   (* evaluation_library *)
  folder_kwargs : list (option (list (string * V))) (* --folder_kwargs; None: not a dictionary *)
}.

(** safe_list_get(settings.get('folder_kwargs',[]), index, {}), misc_utils.py
    1501-1505.  A text that is not a dictionary makes ** raise (inside the try
    of every expression). *)
Definition folder_at (s : session) (index : nat) : option (list (string * V)) :=
  nth index (folder_kwargs s) (Some []).

(** The globals of a keyword expression, outputs.py 2701-2707. *)
Definition keyword_globals (s : session) : list (string * V) :=
  over (over (over (over (in_vars s) (in_dims s)) (out_vars s)) [("outputs", out_self s)]) (library s).
(** The globals of a metric, outputs.py 2761-2765. *)
Definition metric_globals (s : session) : list (string * V) :=
  over (over (in_vars s) (in_dims s)) (library s).

(** What get_sample does: a value, MissingData or CoordinateSliceMismatch
    (skipped), another exception (sys.exit()), or sys.exit() itself. *)
Inductive sample := Got (v : V) | Skipped | Fatal.

(** "First, gather all input/outputs", outputs.py 2652-2677. *)
Fixpoint gather (get : string -> sample) (keys : list string) (acc : list (string * V)) : run (list (string * V)) :=
  match keys with
  | [] => Running acc
  | k :: r =>
    match get k with
    | Got v => gather get r (aset k v acc)
    | Skipped => gather get r acc
    | Fatal => Exits
    end
  end.

(** keyword_args.get(key,None) is None. *)
Definition undefined (k : string) (acc : list (string * V)) : bool :=
  match aget k acc with Some v => is_none v | None => true end.

(** One eval with the folder's own arguments last; a failure is logged. *)
Definition try (folder : option (list (string * V))) (locs globs : list (string * V)) (e : expr) : option V :=
  match folder with Some f => ev [] (over locs f) globs e | None => None end.

(** "Second, gather all data derivative arguments", outputs.py 2679-2735.
    [wants] is 'outputs.' in expression; [builds] says whether the objects it
    asks for can be built (Expressions). *)
Fixpoint keywords (wants builds : expr -> bool) (folder : option (list (string * V)))
    (globs : list (string * V)) (defs : list (string * expr)) (acc : list (string * V)) : run (list (string * V)) :=
  match defs with
  | [] => Running acc
  | (k, e) :: r =>
    if wants e && negb (builds e) then Raises
    else if undefined k acc then
      match try folder acc globs e with
      | Some v => keywords wants builds folder globs r (if is_none v then acc else aset k v acc)
      | None => keywords wants builds folder globs r acc
      end
    else keywords wants builds folder globs r acc
  end.

(** The metrics, outputs.py 2748-2785: the values by name (the rows made of
    them are in Summaries). *)
Fixpoint metrics (folder : option (list (string * V))) (kw globs : list (string * V))
    (todo : list (string * expr)) (acc : list (string * V)) : list (string * V) :=
  match todo with
  | [] => acc
  | (n, e) :: r =>
    match aget n acc with
    | Some _ => metrics folder kw globs r acc
    | None =>
      match try folder (over kw acc) globs e with
      | Some v => metrics folder kw globs r (aset n v acc)
      | None => metrics folder kw globs r acc
      end
    end
  end.

(** raw_data_keys and keyword_expressions, outputs.py 2649-2650, 2679; [known]
    is k in DATA_SCHEMA. *)
Definition raw_keys (known : string -> bool) (defs : list (string * expr)) : list string :=
  filter known (map fst defs).
Definition keyword_defs (known : string -> bool) (defs : list (string * expr)) : list (string * expr) :=
  filter (fun d => negb (memb (fst d) (raw_keys known defs))) defs.

(** keyword_args after both loops. *)
Definition keyword_args (known : string -> bool) (get : string -> sample) (wants builds : expr -> bool)
    (s : session) (index : nat) (defs : list (string * expr)) : run (list (string * V)) :=
  match gather get (raw_keys known defs) [] with
  | Running acc => keywords wants builds (folder_at s index) (keyword_globals s) (keyword_defs known defs) acc
  | Exits => Exits
  | Raises => Raises
  end.

(** evaluate_expressions, outputs.py 2620-2785, up to the rows: the values of
    the metrics.  Without data nothing is evaluated (2622-2623): not modelled. *)
Definition evaluate (known : string -> bool) (get : string -> sample) (wants builds : expr -> bool)
    (s : session) (index : nat) (defs todo : list (string * expr)) : run (list (string * V)) :=
  match keyword_args known get wants builds s index defs with
  | Running kw => Running (metrics (folder_at s index) kw (metric_globals s) todo [])
  | Exits => Exits
  | Raises => Raises
  end.

(** * Where a sample comes from *)

(** The keys of LOSS_DATA_REQUIREMENTS, global_variables.py 83-110. *)
Definition loss_keys : list string :=
  ["dest_attraction_ts_loss"; "table_loss"; "total_table_distance_loss"; "total_intensity_distance_loss";
   "total_loss"; "loss"; "dest_attraction_ts_likelihood_loss"; "table_likelihood_loss";
   "total_table_distance_likelihood_loss"; "total_intensity_distance_likelihood_loss"].
(** The keys of OUTPUT_SCHEMA, global_variables.py 307-463. *)
Definition output_schema : list string :=
  ["loss"; "total_loss"; "log_target"; "theta_acc"; "log_destination_attraction_acc"; "table_acc"; "sign"; "r2";
   "log_posterior_approximation"; "compute_time"; "table_compute_time"; "intensity_compute_time"; "intensity";
   "log_destination_attraction"; "log_origin_attraction"; "alpha"; "beta"; "delta"; "kappa"; "sigma";
   "noise_percentage"; "table"] ++ loss_keys.
Definition train_name (x : string) : bool := memb x (map fst train_schema).
Definition validation_name (x : string) : bool := memb x (map fst validation_schema).
(** DATA_SCHEMA, global_variables.py 465-466. *)
Definition data_name (x : string) : bool := memb x (map fst input_schema) || memb x output_schema.
(** TRAIN_SCHEMA[name]['dtype'] exists and names a tensor type. *)
Definition train_typed (x : string) : bool :=
  negb (String.eqb x "dims") && match aget x train_schema with Some (Some _) => true | _ => false end.

(** INTENSITY_INPUTS, INTENSITY_OUTPUTS, global_variables.py 56-64. *)
Definition intensity_inputs (model : string) : option (list string) :=
  if String.eqb model "TotallyConstrained" then Some ["cost_matrix"; "grand_total"]
  else if String.eqb model "ProductionConstrained" then Some ["cost_matrix"; "origin_demand"; "grand_total"]
  else None.
Definition intensity_outputs (model : string) : option (list string) :=
  if String.eqb model "TotallyConstrained" || String.eqb model "ProductionConstrained"
  then Some ["alpha"; "beta"; "log_destination_attraction"] else None.

(** The outputs of one sweep.  An attribute of the inputs is a DataArray
    ([true]) or something else; a collection has a size and a first element. *)
Record source := mksource {
  has_sim : bool;                           (* intensity_model_class != '' *)
  sim_name : string;                        (* its name, as configured *)
  input_attr : string -> option (bool * V); (* inputs.data *)
  to_tensor : string -> V -> option V;      (* torch.clone(.to(dtype)) or torch.tensor(...) *)
  val_file : string -> option (option V);   (* --validation_data: read_file and apply_function *)
  recorded : string -> option (nat * V);    (* the loaded collections *)
  times_bmax : V -> V;
  flow : list V -> list V -> option V }.    (* exp of log_intensity *)

Fixpoint got_all (l : list sample) : option (list V) :=
  match l with
  | [] => Some []
  | Got v :: r => match got_all r with Some vs => Some (v :: vs) | None => None end
  | _ => None
  end.

(** get_sample for every name but 'intensity', outputs.py 1509-1583. *)
Definition get_plain (s : source) (x : string) : sample :=
  if train_name x then
    match input_attr s x with
    | None => Fatal
    | Some (true, v) => Got v
    | Some (false, v) =>
      if train_typed x then match to_tensor s x v with Some w => Got w | None => Fatal end else Fatal
    end
  else if validation_name x then
    match input_attr s x with
    | Some (_, v) => Got v
    | None =>
      match val_file s x with
      | Some (Some v) => Got v
      | Some None => Fatal
      | None => Skipped
      end
    end
  else
    match recorded s x with
    | None => Skipped
    | Some (n, v) =>
      if 1 <? n then Fatal
      else if String.eqb x "beta" && has_sim s then Got (times_bmax s v) else Got v
    end.

(** get_sample, outputs.py 1450-1583.  A missing part of the intensity ends the
    program (1495-1502, and 2668-2672 for the inputs); check_data_availability
    (1474-1478) only logs. *)
Definition get_sample (s : source) (x : string) : sample :=
  if String.eqb x "intensity" && has_sim s then
    match intensity_inputs (sim_name s), intensity_outputs (sim_name s) with
    | Some ins, Some outs =>
      match got_all (map (get_plain s) ins) with
      | Some iv =>
        match got_all (map (get_plain s) outs) with
        | Some ov => match flow s iv ov with Some v => Got v | None => Fatal end
        | None => Fatal
        end
      | None => Fatal
      end
    | _, _ => Fatal
    end
  else get_plain s x.

End Env.

Arguments expr : clear implicits.
Arguments session : clear implicits.
Arguments source : clear implicits.
Arguments sample : clear implicits.

(** * Which recorded arrays are read *)

(** EXPERIMENT_OUTPUT_NAMES, global_variables.py 475-492; the MCMC and NN lists
    are in Recorder. *)
Definition experiment_outputs (t : string) : option (list string) :=
  aget t [
    ("RSquared_Analysis", ["r2"]);
    ("LogTarget_Analysis", ["log_posterior_approximation"]);
    ("SIM_MCMC", sim_mcmc_outputs);
    ("JointTableSIM_MCMC", joint_mcmc_outputs);
    ("Table_MCMC", table_mcmc_outputs);
    ("SIM_NN", sim_nn_outputs);
    ("NonJointTableSIM_NN", joint_nn_outputs);
    ("JointTableSIM_NN", joint_nn_outputs);
    ("XGBoost_Comparison", ["intensity"; "compute_time"]);
    ("RandomForest_Comparison", ["intensity"; "compute_time"]);
    ("GBRT_Comparison", ["intensity"; "compute_time"]);
    ("GraphAttentionNetwork_Comparison", ["intensity"; "compute_time"])].

(** What the configuration says: the type of the experiment, the names of the
    intensity model ([None] without one; several in a sweep) and of the losses
    ([None] without a neural_network section), flattened over a sweep. *)
Record stored := mkstored {
  exp_type : string;
  sim_models : option (list string);
  losses : option (list string) }.

(** One name of avail_output_names, outputs.py 191-212; KeyError for an
    experiment type or an intensity model that is not listed. *)
Definition names_for (c : stored) (sam : string) : res (list string) :=
  match String.eqb sam "intensity", sim_models c with
  | true, Some models =>
    do l <- mapM (fun m => match intensity_outputs m with Some l => Ok l | None => Raise EKey end) models ;
    match experiment_outputs (exp_type c) with
    | Some outs => Ok (List.concat l ++ (if memb "sign" outs then ["sign"] else []))
    | None => Raise EKey
    end
  | _, _ =>
    match experiment_outputs (exp_type c) with
    | None => Raise EKey
    | Some outs =>
      match losses c with
      | Some ls =>
        if memb sam loss_keys && memb "loss" outs then
          Ok (if memb sam (ls ++ ["total_loss"]) then [sam] else [])
        else if memb sam outs then Ok [sam]
        else if memb "theta" outs && mem sam parameter_defaults then Ok [sam] else Ok []
      | None =>
        if memb sam outs then Ok [sam]
        else if memb "theta" outs && mem sam parameter_defaults then Ok [sam] else Ok []
      end
    end
  end.

(** Outputs.output_names, outputs.py 183-215, for the names asked for
    (data_names, outputs.py 57-60; settings['sample'] = the names of
    --evaluation_kwargs in DATA_SCHEMA, main.py 29-35).  The order of a set is
    arbitrary, so only membership is meant. *)
Definition loaded_names (c : stored) (asked : list string) : res (list string) :=
  do l <- mapM (names_for c) (filter (fun x => memb x output_schema) asked) ; Ok (List.concat l).
