(** The shipped template of parameters, data/inputs/configs/schemas/cfg_parameters.json,
    and its shape: the hypotheses on templates of C117 and C118 hold of it. *)
From Coq Require Import List ZArith Bool String.
From Verif Require Import Base ConfigTree ConfigSpec ConfigProps Validate ValidateProps.
Import ListNotations.
Local Open Scope string_scope.
Local Open Scope nat_scope.
Local Open Scope list_scope.

(** data/inputs/configs/schemas/cfg_parameters.json 1-686, key by key. *)
Definition cfg_parameters : node :=
  Dict [(KS "sweep_mode", Leaf (LBool true));
    (KS "log_level", Leaf (LBool true));
    (KS "inputs", Dict [(KS "seed", Dict [(KS "sweep", Dict [(KS "default", Leaf (LBool true));
          (KS "range", Leaf (LBool true))])]);
      (KS "n_workers", Leaf (LBool true));
      (KS "n_threads", Leaf (LBool true));
      (KS "device", Leaf (LBool true));
      (KS "in_directory", Leaf (LBool true));
      (KS "dataset", Dict [(KS "sweep", Dict [(KS "default", Leaf (LBool true));
          (KS "range", Leaf (LBool true))])]);
      (KS "load_experiment", Leaf (LBool true));
      (KS "data", Dict [(KS "data_generation_seed", Leaf (LBool true));
        (KS "adjacency_matrix", Dict [(KS "file", Dict [(KS "sweep", Dict [(KS "default", Leaf (LBool false));
              (KS "range", Leaf (LBool false))])])]);
        (KS "region_features", Dict [(KS "file", Dict [(KS "sweep", Dict [(KS "default", Leaf (LBool false));
              (KS "range", Leaf (LBool false))])])]);
        (KS "origin_region_features", Dict [(KS "file", Dict [(KS "sweep", Dict [(KS "default", Leaf (LBool false));
              (KS "range", Leaf (LBool false))])])]);
        (KS "destination_region_features", Dict [(KS "file", Dict [(KS "sweep", Dict [(KS "default", Leaf (LBool false));
              (KS "range", Leaf (LBool false))])])]);
        (KS "region_geometries", Dict [(KS "file", Dict [(KS "sweep", Dict [(KS "default", Leaf (LBool false));
              (KS "range", Leaf (LBool false))])])]);
        (KS "train_cells", Dict [(KS "file", Dict [(KS "sweep", Dict [(KS "default", Leaf (LBool false));
              (KS "range", Leaf (LBool false))])])]);
        (KS "test_cells", Dict [(KS "file", Dict [(KS "sweep", Dict [(KS "default", Leaf (LBool false));
              (KS "range", Leaf (LBool false))])])]);
        (KS "validation_cells", Dict [(KS "file", Dict [(KS "sweep", Dict [(KS "default", Leaf (LBool false));
              (KS "range", Leaf (LBool false))])])]);
        (KS "origin_demand", Dict [(KS "file", Dict [(KS "sweep", Dict [(KS "default", Leaf (LBool false));
              (KS "range", Leaf (LBool false))])]);
          (KS "distribution", Leaf (LBool false));
          (KS "parameters", Dict [(KS "lower", Leaf (LBool false));
            (KS "upper", Leaf (LBool false));
            (KS "mean", Leaf (LBool false));
            (KS "std", Leaf (LBool false))])]);
        (KS "destination_demand", Dict [(KS "file", Dict [(KS "sweep", Dict [(KS "default", Leaf (LBool false));
              (KS "range", Leaf (LBool false))])]);
          (KS "distribution", Leaf (LBool false));
          (KS "parameters", Dict [(KS "lower", Leaf (LBool false));
            (KS "upper", Leaf (LBool false));
            (KS "mean", Leaf (LBool false));
            (KS "std", Leaf (LBool false))])]);
        (KS "origin_attraction_ts", Dict [(KS "file", Dict [(KS "sweep", Dict [(KS "default", Leaf (LBool false));
              (KS "range", Leaf (LBool false))])]);
          (KS "distribution", Leaf (LBool false));
          (KS "parameters", Dict [(KS "lower", Leaf (LBool false));
            (KS "upper", Leaf (LBool false));
            (KS "mean", Leaf (LBool false));
            (KS "std", Leaf (LBool false))])]);
        (KS "destination_attraction_ts", Dict [(KS "file", Dict [(KS "sweep", Dict [(KS "default", Leaf (LBool false));
              (KS "range", Leaf (LBool false))])]);
          (KS "distribution", Leaf (LBool false));
          (KS "parameters", Dict [(KS "lower", Leaf (LBool false));
            (KS "upper", Leaf (LBool false));
            (KS "mean", Leaf (LBool false));
            (KS "std", Leaf (LBool false))])]);
        (KS "cost_matrix", Dict [(KS "file", Dict [(KS "sweep", Dict [(KS "default", Leaf (LBool false));
              (KS "range", Leaf (LBool false))])]);
          (KS "distribution", Leaf (LBool false));
          (KS "parameters", Dict [(KS "lower", Leaf (LBool false));
            (KS "upper", Leaf (LBool false));
            (KS "mean", Leaf (LBool false));
            (KS "std", Leaf (LBool false))])]);
        (KS "ground_truth_table", Dict [(KS "file", Dict [(KS "sweep", Dict [(KS "default", Leaf (LBool false));
              (KS "range", Leaf (LBool false))])]);
          (KS "distribution", Leaf (LBool false));
          (KS "parameters", Dict [(KS "lam", Leaf (LBool false))])]);
        (KS "margins", LList [Dict [(KS "file", Dict [(KS "sweep", Dict [(KS "default", Leaf (LBool true));
                (KS "range", Leaf (LBool true))])]);
            (KS "value", Leaf (LBool true))]]);
        (KS "cells_subset", LList [Dict [(KS "file", Dict [(KS "sweep", Dict [(KS "default", Leaf (LBool true));
                (KS "range", Leaf (LBool true))])]);
            (KS "value", Leaf (LBool true))]]);
        (KS "dims", Dict [(KS "time", Dict [(KS "sweep", Dict [(KS "default", Leaf (LBool true));
              (KS "range", Leaf (LBool true))])]);
          (KS "origin", Dict [(KS "sweep", Dict [(KS "default", Leaf (LBool true));
              (KS "range", Leaf (LBool true))])]);
          (KS "destination", Dict [(KS "sweep", Dict [(KS "default", Leaf (LBool true));
              (KS "range", Leaf (LBool true))])])])])]);
    (KS "contingency_table", Dict [(KS "disable_tqdm", Leaf (LBool true));
      (KS "sparse_margins", Leaf (LBool true));
      (KS "constraints", Dict [(KS "axes", Dict [(KS "sweep", Dict [(KS "default", Leaf (LBool true));
            (KS "range", Leaf (LBool true))])]);
        (KS "cells", Dict [(KS "sweep", Dict [(KS "default", Leaf (LBool true));
            (KS "range", Leaf (LBool true))])])])]);
    (KS "spatial_interaction_model", Dict [(KS "name", Dict [(KS "sweep", Dict [(KS "default", Leaf (LBool true));
          (KS "range", Leaf (LBool true))])]);
      (KS "grand_total", Dict [(KS "sweep", Dict [(KS "default", Leaf (LBool true));
          (KS "range", Leaf (LBool true))])]);
      (KS "parameters", Dict [(KS "alpha", Dict [(KS "sweep", Dict [(KS "default", Leaf (LBool true));
            (KS "range", Leaf (LBool true))])]);
        (KS "beta", Dict [(KS "sweep", Dict [(KS "default", Leaf (LBool true));
            (KS "range", Leaf (LBool true))])]);
        (KS "bmax", Dict [(KS "sweep", Dict [(KS "default", Leaf (LBool true));
            (KS "range", Leaf (LBool true))])])])]);
    (KS "harris_wilson_model", Dict [(KS "dt", Dict [(KS "sweep", Dict [(KS "default", Leaf (LBool true));
          (KS "range", Leaf (LBool true))])]);
      (KS "parameters", Dict [(KS "delta", Dict [(KS "sweep", Dict [(KS "default", Leaf (LBool true));
            (KS "range", Leaf (LBool true))])]);
        (KS "kappa", Dict [(KS "sweep", Dict [(KS "default", Leaf (LBool true));
            (KS "range", Leaf (LBool true))])]);
        (KS "sigma", Dict [(KS "sweep", Dict [(KS "default", Leaf (LBool true));
            (KS "range", Leaf (LBool true))])]);
        (KS "epsilon", Dict [(KS "sweep", Dict [(KS "default", Leaf (LBool true));
            (KS "range", Leaf (LBool true))])]);
        (KS "noise_percentage", Dict [(KS "sweep", Dict [(KS "default", Leaf (LBool true));
            (KS "range", Leaf (LBool true))])])])]);
    (KS "hyperparameter_optimisation", Dict [(KS "n_trials", Leaf (LBool true));
      (KS "timeout", Leaf (LBool true));
      (KS "metric_minimise", Leaf (LBool true));
      (KS "metric_evaluation", Leaf (LBool true))]);
    (KS "training", Dict [(KS "N", Dict [(KS "sweep", Dict [(KS "default", Leaf (LBool true));
          (KS "range", Leaf (LBool true))])]);
      (KS "num_steps", Dict [(KS "sweep", Dict [(KS "default", Leaf (LBool true));
          (KS "range", Leaf (LBool true))])]);
      (KS "batch_size", Leaf (LBool true));
      (KS "to_learn", Dict [(KS "sweep", Dict [(KS "default", Leaf (LBool true));
          (KS "range", Leaf (LBool true))])])]);
    (KS "mcmc", Dict [(KS "disable_tqdm", Leaf (LBool true));
      (KS "mcmc_workers", Leaf (LBool true));
      (KS "parameters", Dict [(KS "theta_steps", Dict [(KS "sweep", Dict [(KS "default", Leaf (LBool true));
            (KS "range", Leaf (LBool true))])]);
        (KS "covariance", Dict [(KS "sweep", Dict [(KS "default", Leaf (LBool true));
            (KS "range", Leaf (LBool true))])]);
        (KS "step_size", Dict [(KS "sweep", Dict [(KS "default", Leaf (LBool true));
            (KS "range", Leaf (LBool true))])])]);
      (KS "destination_attraction", Dict [(KS "destination_attraction_steps", Dict [(KS "sweep", Dict [(KS "default", Leaf (LBool true));
            (KS "range", Leaf (LBool true))])]);
        (KS "leapfrog_steps", Dict [(KS "sweep", Dict [(KS "default", Leaf (LBool true));
            (KS "range", Leaf (LBool true))])]);
        (KS "ais_leapfrog_steps", Dict [(KS "sweep", Dict [(KS "default", Leaf (LBool true));
            (KS "range", Leaf (LBool true))])]);
        (KS "ais_samples", Dict [(KS "sweep", Dict [(KS "default", Leaf (LBool true));
            (KS "range", Leaf (LBool true))])]);
        (KS "n_bridging_distributions", Dict [(KS "sweep", Dict [(KS "default", Leaf (LBool true));
            (KS "range", Leaf (LBool true))])]);
        (KS "leapfrog_step_size", Dict [(KS "sweep", Dict [(KS "default", Leaf (LBool true));
            (KS "range", Leaf (LBool true))])]);
        (KS "ais_leapfrog_step_size", Dict [(KS "sweep", Dict [(KS "default", Leaf (LBool true));
            (KS "range", Leaf (LBool true))])])]);
      (KS "contingency_table", Dict [(KS "table_steps", Dict [(KS "sweep", Dict [(KS "default", Leaf (LBool true));
            (KS "range", Leaf (LBool true))])]);
        (KS "proposal", Dict [(KS "sweep", Dict [(KS "default", Leaf (LBool true));
            (KS "range", Leaf (LBool true))])]);
        (KS "table0", Leaf (LBool true));
        (KS "margin0", Leaf (LBool true))])]);
    (KS "random_forest", Dict [(KS "disable_tqdm", Leaf (LBool true));
      (KS "hyperparameters", Dict [(KS "rf_oob_score", Dict [(KS "sweep", Dict [(KS "default", Leaf (LBool true));
            (KS "range", Leaf (LBool true))])]);
        (KS "rf_max_depth", Dict [(KS "sweep", Dict [(KS "default", Leaf (LBool true));
            (KS "range", Leaf (LBool true))])]);
        (KS "rf_min_samples_split", Dict [(KS "sweep", Dict [(KS "default", Leaf (LBool true));
            (KS "range", Leaf (LBool true))])]);
        (KS "rf_min_samples_leaf", Dict [(KS "sweep", Dict [(KS "default", Leaf (LBool true));
            (KS "range", Leaf (LBool true))])])])]);
    (KS "gradient_boosted_regression_trees", Dict [(KS "disable_tqdm", Leaf (LBool true));
      (KS "hyperparameters", Dict [(KS "gbrt_max_depth", Dict [(KS "sweep", Dict [(KS "default", Leaf (LBool true));
            (KS "range", Leaf (LBool true))])]);
        (KS "gbrt_min_samples_split", Dict [(KS "sweep", Dict [(KS "default", Leaf (LBool true));
            (KS "range", Leaf (LBool true))])]);
        (KS "gbrt_min_samples_leaf", Dict [(KS "sweep", Dict [(KS "default", Leaf (LBool true));
            (KS "range", Leaf (LBool true))])])])]);
    (KS "xgboost", Dict [(KS "disable_tqdm", Leaf (LBool true));
      (KS "hyperparameters", Dict [(KS "xg_max_depth", Dict [(KS "sweep", Dict [(KS "default", Leaf (LBool true));
            (KS "range", Leaf (LBool true))])]);
        (KS "xg_learning_rate", Dict [(KS "sweep", Dict [(KS "default", Leaf (LBool true));
            (KS "range", Leaf (LBool true))])]);
        (KS "xg_eval_metric", Dict [(KS "sweep", Dict [(KS "default", Leaf (LBool true));
            (KS "range", Leaf (LBool true))])]);
        (KS "xg_gpu_id", Dict [(KS "sweep", Dict [(KS "default", Leaf (LBool true));
            (KS "range", Leaf (LBool true))])]);
        (KS "xg_tree_method", Dict [(KS "sweep", Dict [(KS "default", Leaf (LBool true));
            (KS "range", Leaf (LBool true))])]);
        (KS "xg_max_delta_step", Dict [(KS "sweep", Dict [(KS "default", Leaf (LBool true));
            (KS "range", Leaf (LBool true))])]);
        (KS "xg_min_child_weight", Dict [(KS "sweep", Dict [(KS "default", Leaf (LBool true));
            (KS "range", Leaf (LBool true))])]);
        (KS "xg_alpha", Dict [(KS "sweep", Dict [(KS "default", Leaf (LBool true));
            (KS "range", Leaf (LBool true))])]);
        (KS "xg_lambda", Dict [(KS "sweep", Dict [(KS "default", Leaf (LBool true));
            (KS "range", Leaf (LBool true))])]);
        (KS "xg_gamma", Dict [(KS "sweep", Dict [(KS "default", Leaf (LBool true));
            (KS "range", Leaf (LBool true))])]);
        (KS "xg_subsample", Dict [(KS "sweep", Dict [(KS "default", Leaf (LBool true));
            (KS "range", Leaf (LBool true))])])])]);
    (KS "graph_attention_network", Dict [(KS "disable_tqdm", Leaf (LBool true));
      (KS "hyperparameters", Dict [(KS "gat_nodes_per_layer", Dict [(KS "sweep", Dict [(KS "default", Leaf (LBool true));
            (KS "range", Leaf (LBool true))])]);
        (KS "gat_num_hidden_layers", Dict [(KS "sweep", Dict [(KS "default", Leaf (LBool true));
            (KS "range", Leaf (LBool true))])]);
        (KS "gat_dropout", Dict [(KS "sweep", Dict [(KS "default", Leaf (LBool true));
            (KS "range", Leaf (LBool true))])]);
        (KS "gat_reg_param", Dict [(KS "sweep", Dict [(KS "default", Leaf (LBool true));
            (KS "range", Leaf (LBool true))])]);
        (KS "gat_negative_sampling_rate", Dict [(KS "sweep", Dict [(KS "default", Leaf (LBool true));
            (KS "range", Leaf (LBool true))])]);
        (KS "gat_grad_norm", Dict [(KS "sweep", Dict [(KS "default", Leaf (LBool true));
            (KS "range", Leaf (LBool true))])]);
        (KS "gat_optimizer", Dict [(KS "sweep", Dict [(KS "default", Leaf (LBool true));
            (KS "range", Leaf (LBool true))])]);
        (KS "gat_learning_rate", Dict [(KS "sweep", Dict [(KS "default", Leaf (LBool true));
            (KS "range", Leaf (LBool true))])]);
        (KS "gat_multitask_weights", Dict [(KS "sweep", Dict [(KS "default", Leaf (LBool true));
            (KS "range", Leaf (LBool true))])])])]);
    (KS "neural_network", Dict [(KS "disable_tqdm", Leaf (LBool true));
      (KS "loss", Dict [(KS "loss_name", Dict [(KS "sweep", Dict [(KS "default", Leaf (LBool true));
            (KS "range", Leaf (LBool true))])]);
        (KS "loss_function", Dict [(KS "sweep", Dict [(KS "default", Leaf (LBool true));
            (KS "range", Leaf (LBool true))])]);
        (KS "loss_kwargs", Dict [(KS "sweep", Dict [(KS "default", Leaf (LBool true));
            (KS "range", Leaf (LBool true))])])]);
      (KS "hyperparameters", Dict [(KS "num_hidden_layers", Dict [(KS "sweep", Dict [(KS "default", Leaf (LBool true));
            (KS "range", Leaf (LBool true))])]);
        (KS "optimizer", Dict [(KS "sweep", Dict [(KS "default", Leaf (LBool true));
            (KS "range", Leaf (LBool true))])]);
        (KS "learning_rate", Dict [(KS "sweep", Dict [(KS "default", Leaf (LBool true));
            (KS "range", Leaf (LBool true))])]);
        (KS "biases", Dict [(KS "default", Leaf (LBool true));
          (KS "layer_specific", Leaf (LBool true))]);
        (KS "nodes_per_layer", Dict [(KS "default", Leaf (LBool true));
          (KS "layer_specific", Leaf (LBool true))]);
        (KS "activation_funcs", Dict [(KS "default", Leaf (LBool true));
          (KS "layer_specific", Leaf (LBool true))])])]);
    (KS "experiments", LList [Dict [(KS "type", Leaf (LBool true));
        (KS "comment", Leaf (LBool true));
        (KS "disable_tqdm", Leaf (LBool true));
        (KS "export_samples", Leaf (LBool true));
        (KS "export_metadata", Leaf (LBool true));
        (KS "overwrite", Leaf (LBool true));
        (KS "validate_samples", Leaf (LBool true));
        (KS "grid_ranges", Dict [(KS "alpha", Leaf (LBool true));
          (KS "beta", Leaf (LBool true))])]]);
    (KS "outputs", Dict [(KS "write_start", Leaf (LBool true));
      (KS "write_every", Leaf (LBool true));
      (KS "out_directory", Leaf (LBool true));
      (KS "out_group", Leaf (LBool true));
      (KS "title", Dict [(KS "sweep", Dict [(KS "default", Leaf (LBool true));
          (KS "range", Leaf (LBool true))])])])].

Example shipped_template : template cfg_parameters /\ mode_first cfg_parameters.
Proof.
  unfold cfg_parameters. split.
  - apply shape_ok_template; vm_compute; reflexivity.
  - apply mode_first_check. vm_compute. reflexivity.
Qed.

(** In the shipped template two sweeps have the same name (C118_names_refuted). *)
Example shipped_names :
  (exists w, reaches cfg_parameters ([KS "inputs"; KS "data"; KS "margins"; KI 0; KS "file"] ++ [KS "sweep"]) w) /\
  (exists w, reaches cfg_parameters ([KS "inputs"; KS "data"; KS "cells_subset"; KI 0; KS "file"] ++ [KS "sweep"]) w) /\
  sweep_name [KS "inputs"; KS "data"; KS "margins"; KI 0; KS "file"] (KI 0) /\
  sweep_name [KS "inputs"; KS "data"; KS "cells_subset"; KI 0; KS "file"] (KI 0).
Proof.
  assert (G : forall p w, lookup cfg_parameters p = Some w -> exists w, reaches cfg_parameters p w).
  { intros p w H. exists w. apply lookup_reaches; [apply (t_wf _ (proj1 shipped_template))|exact H]. }
  split; [eapply G; vm_compute; reflexivity|]. split; [eapply G; vm_compute; reflexivity|].
  split; [exists [KS "inputs"; KS "data"; KS "margins"]|exists [KS "inputs"; KS "data"; KS "cells_subset"]]; right; reflexivity.
Qed.
Print Assumptions shipped_names.
