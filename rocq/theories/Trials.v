(** Model of the hyper-parameter search: optimise_experiments_sequentially
    (experiments.py 128-190), what one trial does to the experiment object
    (the run methods of SIM_NN 2037-2204, XGBoost_Comparison 2811-2947,
    RandomForest_Comparison 3016-3158, GBRT_Comparison 3225-3368,
    GraphAttentionNetwork_Comparison 3436-3597) and update_optimisation_progress
    (786-810).

    optuna is described by what its documentation promises: n_jobs threads call
    the objective, each with its own trial, trials are numbered in the order
    they start; a second report for a step already reported is ignored; an
    objective that raises TrialPruned is pruned, one that returns None fails, any
    other exception ends the search; best_trial raises ValueError when no trial
    is complete. *)
From Coq Require Import String List ZArith Lia Bool Arith QArith.
From Verif Require Import Base PyMonad Inputs Summaries Learning.
Import ListNotations.
Local Open Scope string_scope.
Local Open Scope nat_scope.
Local Open Scope list_scope.

(** * Trials on one experiment object *)

(** np.mean(validation_metrics). *)
Definition mean (l : list Q) : Q := (fold_left Qplus l 0 / inject_Z (Z.of_nat (List.length l)))%Q.

Section Search.
  (** training.N, at least one iteration. *)
  Variable N : nat.
  (** The validation metric of what the model built for trial [m] predicts in
      iteration [i] when [k] calls were made on it before. *)
  Variable metric : nat -> nat -> nat -> Q.
  (** The step under which iteration [i] is reported: [i], but 0 in
      RandomForest_Comparison (experiments.py 3137) and GBRT_Comparison (3347). *)
  Variable step_of : nat -> nat.

  (** A report: trial, step, value. *)
  Notation report := (nat * nat * Q)%type.
  (** trial.should_prune(), from everything reported so far. *)
  Variable should_prune : list report -> nat -> bool.

  (** Where the thread running a trial is: before the next prediction, between
      the prediction and the report, done. *)
  Inductive place :=
  | Predict (i : nat)
  | Tell (i : nat) (prediction : Q)
  | Complete (value : Q)
  | Pruned.

  (** The experiment object is shared by all threads: [self.learning_model] is
      the model of the trial [model]; [calls m] counts the calls on the model of
      trial [m].  [trials] lists, by trial number, where each is and its list
      validation_metrics. *)
  Record world := { model : nat; calls : nat -> nat; trials : list (place * list Q); reports : list report }.

  Inductive event := Start | Go (t : nat).

  Definition active (p : place * list Q) : bool := match fst p with Predict _ | Tell _ _ => true | _ => false end.

  (** Trial.report of optuna. *)
  Definition add_report (t s : nat) (v : Q) (l : list report) : list report :=
    if existsb (fun r => (fst (fst r) =? t) && (snd (fst r) =? s)) l then l else l ++ [((t, s), v)].

  (** One step of one thread.  [Start]: a worker is free; the next trial builds
      its model and stores it in self.learning_model (experiments.py 2821-2826).
      [Go t] at [Predict i]: self.learning_model.run_single (2892-2896);
      at [Tell i v]: update_optimisation_progress (2924-2930, 786-810), which
      reads self.learning_model.trial, then the end of the iteration.  Reading or
      assigning the attribute is atomic in CPython.  Not modelled: the race of
      two threads on pop_variable (2828), which may raise. *)
  Definition step (w : nat) (s : world) (e : event) : option world :=
    match e with
    | Start =>
      if List.length (filter active (trials s)) <? w then
        let t := List.length (trials s) in
        Some {| model := t; calls := calls s; trials := trials s ++ [(Predict 0, [])]; reports := reports s |}
      else None
    | Go t =>
      match nth_error (trials s) t with
      | Some (Predict i, ms) =>
        let m := model s in
        Some {| model := m; calls := (fun x => if x =? m then S (calls s m) else calls s x);
                trials := upd_nth t (fun _ => (Tell i (metric m i (calls s m)), ms)) (trials s);
                reports := reports s |}
      | Some (Tell i v, ms) =>
        let rs := add_report (model s) (step_of i) v (reports s) in
        let next :=
          if should_prune rs (model s) then (Pruned, ms)
          else if S i <? N then (Predict (S i), ms ++ [v])
          else (Complete (mean (ms ++ [v])), ms ++ [v]) in
        Some {| model := model s; calls := calls s; trials := upd_nth t (fun _ => next) (trials s); reports := rs |}
      | _ => None
      end
    end.

  Fixpoint steps (w : nat) (s : world) (es : list event) : option world :=
    match es with
    | [] => Some s
    | e :: r => match step w s e with Some s' => steps w s' r | None => None end
    end.

  Definition initially : world := {| model := 0; calls := (fun _ => 0); trials := []; reports := [] |}.
End Search.

(** * The outcome of the study *)

(** study.best_trial, experiments.py 169; [values] are those of the complete
    trials with their numbers.  The direction is 'minimize' when
    metric_minimise is set (143-144). *)
Fixpoint best_from (minimise : bool) (b : nat * Q) (l : list (nat * Q)) : nat * Q :=
  match l with
  | [] => b
  | x :: r =>
    let better := if minimise then negb (Qle_bool (snd b) (snd x)) else negb (Qle_bool (snd x) (snd b)) in
    best_from minimise (if better then x else b) r
  end.
Definition best_trial (minimise : bool) (values : list (nat * Q)) : res (nat * Q) :=
  match values with
  | [] => Raise EValue
  | x :: r => Ok (best_from minimise x r)
  end.

(** What an experiment does when called with a trial: the sweep and the data
    generation take no positional argument (experiments.py 866, 3731:
    TypeError); the analyses and the MCMC experiments return nothing; the others
    return the mean metric. *)
Inductive objective := Rejects | ReturnsNothing | ReturnsMean.
Definition objective_of (sweep : bool) (type : string) : objective :=
  if sweep || String.eqb type "DataGeneration" then Rejects
  else if memb type ["RSquared_Analysis"; "LogTarget_Analysis"; "SIM_MCMC"; "JointTableSIM_MCMC"; "Table_MCMC"] then ReturnsNothing
  else ReturnsMean.
(** n trials run to completion with the given values. *)
Definition optimise (minimise : bool) (o : objective) (values : list Q) : res (nat * Q) :=
  match o, values with
  | Rejects, _ :: _ => Raise EType
  | Rejects, [] => best_trial minimise []
  | ReturnsNothing, _ => best_trial minimise []
  | ReturnsMean, _ => best_trial minimise (combine (seq 0 (List.length values)) values)
  end.

(** * Hyper-parameters suggested and used *)

Section Hyperparameters.
  Context {V : Type}.

  (** The names suggested by a trial and the names with a default, per model:
      RandomForest.py 10-15, 63-69; GBRT.py 16-20, 62-68; XGB.py 19-30, 68-75;
      HarrisWilsonModel_NeuralNet.py 20-37, 245-276 (the layers' values are
      collected under one name); GraphAttentionNetwork.py 19-29, 136-144. *)
  Definition suggested_names (kind : string) : list string :=
    if String.eqb kind "RF_Model" then ["max_depth"; "min_samples_split"; "min_samples_leaf"; "oob_score"]
    else if String.eqb kind "GBRT_Model" then ["n_estimators"; "max_depth"; "min_samples_split"; "min_samples_leaf"]
    else if String.eqb kind "XGB_Model" then
      ["n_estimators"; "max_depth"; "learning_rate"; "tree_method"; "max_delta_step"; "min_child_weight"]
    else if String.eqb kind "HarrisWilson_NN" then
      ["num_hidden_layers"; "learning_rate"; "nodes_per_layer"; "biases"; "activation_funcs"]
    else if String.eqb kind "GAT_Model" then
      ["nodes_per_layer"; "num_hidden_layers"; "reg_param"; "learning_rate"; "multitask_weights"]
    else [].
  Definition default_names (kind : string) : list string :=
    if String.eqb kind "RF_Model" then ["max_depth"; "min_samples_split"; "min_samples_leaf"; "oob_score"]
    else if String.eqb kind "GBRT_Model" then ["max_depth"; "min_samples_split"; "min_samples_leaf"]
    else if String.eqb kind "XGB_Model" then
      ["max_depth"; "learning_rate"; "eval_metric"; "tree_method"; "max_delta_step"; "min_child_weight"]
    else if String.eqb kind "HarrisWilson_NN" then
      ["nodes_per_layer"; "num_hidden_layers"; "optimizer"; "learning_rate"; "biases"; "activation_funcs"]
    else if String.eqb kind "GAT_Model" then
      ["nodes_per_layer"; "num_hidden_layers"; "dropout"; "reg_param"; "negative_sampling_rate"; "grad_norm";
       "optimizer"; "learning_rate"; "multitask_weights"]
    else [].

  (** One model after the other on the same configuration: the trials of a
      search with one worker (self.config is handed to every model and taken
      back, experiments.py 2821-2828). *)
  Fixpoint search (prefix : string) (defaults start : list (string * V)) (config : list (string * V))
      (trials : list (list (string * V))) : res (list (list (string * V)) * list (string * V)) :=
    match trials with
    | [] => Ok ([], config)
    | t :: r =>
      do hc <- update_hyperparameters prefix (Some t) defaults start (Some config) ;
      match snd hc with
      | Some c => do rest <- search prefix defaults start c r ; Ok (fst hc :: fst rest, snd rest)
      | None => Raise EType
      end
    end.
End Hyperparameters.

(** * Recorded computation time *)

(** self.total_time: set by the constructor (experiments.py 2748 and the same
    line of every experiment), replaced at the end of every run by the time
    elapsed "since" it (2937-2938), which is also what is recorded. *)
Fixpoint recorded_times (total : Z) (ends : list Z) : list Z :=
  match ends with
  | [] => []
  | e :: r => (e - total)%Z :: recorded_times (e - total)%Z r
  end.
