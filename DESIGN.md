# Formal model of GeNSIT in Rocq (Coq 8.16.1)

## Layout

* `rocq/theories/Base.v`, `RealBase.v`, `PyMonad.v` – finite sums, list helpers, Python exceptions as
  values (`res`), sequencing. They model no code.
* model files (definitions mirror functions of /repo, each comment cites the file and lines it models)
  and `*Props.v` files (theorems named after the property, `Cnn_…`, each followed by `Print Assumptions`;
  `Cnn_nonvacuous` shows a concrete case meeting the hypotheses). A few small models keep their theorems
  in the same file.
* `properties.jsonl` the properties in English, `MANIFEST.json` which theorem covers which property,
  `seeded/LOG.jsonl` the log of wrong programs tried against the theorems, `tools/` the generators of the
  manifest.

## Conventions

* Random draws (uniforms, shuffles, normal vectors, permutations) are universally quantified inputs of
  the functions, so a theorem holds for every outcome of the generator.
* A function that can raise returns `res`; the exception class is kept (`EKey`, `EIndex`, `EType`, …).
* Unbounded loops carry the list of draws they consume, or fuel; running out is a separate value which
  the theorem excludes or handles (and, where the property claims termination, bounds).
* Numbers: integers are `Z`/`nat` (no overflow of int32/int64), floating-point values are real numbers
  (`R`), so rounding, overflow and NaN are outside the model except where a NaN is modelled explicitly
  (`None`).
* When the code violates a property, the file holds a `_refuted` theorem (a witness computed on the
  faithful model) and the strongest true statement (`_partial`), and MANIFEST says `partial`.

## Per property

Columns: the code modelled, the theory files holding the theorems, how they are proved, the status.

| id | property | code | theories | proof | status |
|----|----------|------|----------|-------|--------|
| C01 | Admissibility test is exact | `contingency_table/__init__.py:ContingencyTable.table_admissible`, `contingency_table/__init__.py:ContingencyTable.table_margins_admissible`, `contingency_table/__init__.py:ContingencyTable.table_cells_admissible` | TablesProps | both directions of an equivalence with spelled-out row and column sums | proved |
| C02 | Implied margins are closed under summation | `contingency_table/__init__.py:ContingencyTable.infer_derivative_margin_axes`, `contingency_table/__init__.py:ContingencyTable.read_constraints` | TablesProps | induction over the powerset pass, for any number of dimensions | proved |
| C03 | Constraint set determines the sampling distribution | `contingency_table/__init__.py:map_constraints_to_distribution_name`, `contingency_table/__init__.py:ContingencyTable.read_constraints` | TablesProps | case analysis through the closure theorem | proved |
| C04 | Residual margins account exactly for the fixed cells | `contingency_table/__init__.py:ContingencyTable.propagate_cell_constraints`, `contingency_table/__init__.py:ContingencyTable.update_margins_from_cells`, `contingency_table/__init__.py:ContingencyTable.update_residual_margins_from_cell_constraints` | TablesProps | fold invariant on sums over the fixed-cell list | proved |
| C05 | Cells implied by the margins are completed | `contingency_table/__init__.py:ContingencyTable.update_cell_constraints_deterministically`, `contingency_table/__init__.py:ContingencyTable.propagate_cell_constraints` | TablesProps | refutation plus exact characterisation of when construction fails | partial |
| C06 | Monte Carlo start table always matches both margins | `contingency_table/__init__.py:ContingencyTable2D.table_monte_carlo_sample` | InitTablesProps | counting lemma for prefix intervals of a shuffled population; greedy invariant and decreasing measure | proved |
| C07 | A start table that is returned is admissible | `contingency_table/__init__.py:ContingencyTable2D.admissibility_debugging`, `contingency_table/__init__.py:ContingencyTable2D.table_monte_carlo_sample`, `contingency_table/__init__.py:ContingencyTable2D.table_maximum_entropy_solution`, `contingency_table/__init__.py:ContingencyTable2D.table_random_sample` | InitTablesProps | counting lemma for prefix intervals of a shuffled population; greedy invariant and decreasing measure | proved |
| C08 | Maximum-entropy start solver terminates with an admissible table | `contingency_table/__init__.py:ContingencyTable2D.table_maximum_entropy_solution`, `contingency_table/__init__.py:ContingencyTable2D.minres_given_constraints` | InitTablesProps | counting lemma for prefix intervals of a shuffled population; greedy invariant and decreasing measure | partial |
| C09 | Margins recomputed from a table are that table's margins | `contingency_table/__init__.py:ContingencyTable.update_margins_from_table`, `contingency_table/__init__.py:ContingencyTable.update_table` | TablesProps | computation on margins | proved |
| C10 | Unconstrained random start table respects the fixed cells | `contingency_table/__init__.py:ContingencyTable2D.table_random_sample` | InitTablesProps | counting lemma for prefix intervals of a shuffled population; greedy invariant and decreasing measure | proved |
| C11 | Markov moves leave every constrained margin unchanged | `contingency_table/MarkovBasis.py:MarkovBasis.generate_one_margin_preserving_markov_basis`, `contingency_table/MarkovBasis.py:MarkovBasis.generate_both_margin_preserving_markov_basis`, `contingency_table/MarkovBasis.py:MarkovBasis.generate` | MarkovBasisProps | membership characterisation of the generators; connectivity by induction on the L1 distance of two tables | proved |
| C12 | One-margin Markov basis connects all tables | `contingency_table/MarkovBasis.py:MarkovBasis.generate_one_margin_preserving_markov_basis` | MarkovWalks | membership characterisation of the generators; connectivity by induction on the L1 distance of two tables | proved |
| C13 | Two-margin Markov basis connects all tables | `contingency_table/MarkovBasis.py:MarkovBasis.construct_both_margin_preserving_markov_basis_for_cell`, `contingency_table/MarkovBasis.py:MarkovBasis.generate_both_margin_preserving_markov_basis` | MarkovWalks | membership characterisation of the generators; connectivity by induction on the L1 distance of two tables | partial |
| C14 | Markov basis has the advertised size and no duplicate move | `contingency_table/MarkovBasis.py:MarkovBasis2DTable.true_markov_basis_length`, `contingency_table/MarkovBasis.py:MarkovBasis.generate_one_margin_preserving_markov_basis` | MarkovWalks | membership characterisation of the generators; connectivity by induction on the L1 distance of two tables | partial |
| C15 | Pairs of cells considered for a move respect the constraint | `contingency_table/MarkovBasis.py:MarkovBasis.active_candidates` | MarkovBasisProps | membership characterisation of the generators; connectivity by induction on the L1 distance of two tables | proved |
| C16 | Degree-one proposal keeps constraints | `contingency_table/ContingencyTable_MCMC.py:ContingencyTableMarkovChainMonteCarlo.degree_one_proposal_2way_table` | TableMCMCProps | step invariants, then induction over the list of draws of a chain; random draws are universally quantified | proved |
| C17 | Degree-higher proposal keeps constraints and stays non-negative | `contingency_table/ContingencyTable_MCMC.py:ContingencyTableMarkovChainMonteCarlo.degree_higher_proposal_2way_table_fishers_hypergeometric` | TableMCMCProps | step invariants, then induction over the list of draws of a chain; random draws are universally quantified | partial |
| C18 | Sampler never leaves the constraint set | `contingency_table/ContingencyTable_MCMC.py:ContingencyTableMarkovChainMonteCarlo.table_gibbs_step`, `experiments.py:Table_MCMC.run` | TableMCMCProps | step invariants, then induction over the list of draws of a chain; random draws are universally quantified | proved |
| C19 | Step size support is exactly the non-negative moves | `contingency_table/ContingencyTable_MCMC.py:ContingencyTableMarkovChainMonteCarlo.get_table_step_size_support` | TableMCMCProps | step invariants, then induction over the list of draws of a chain; random draws are universally quantified | proved |
| C20 | Negative tables are never accepted | `contingency_table/ContingencyTable_MCMC.py:ContingencyTableMarkovChainMonteCarlo.table_gibbs_step`, `contingency_table/ContingencyTable_MCMC.py:ContingencyTableMarkovChainMonteCarlo.metropolis_log_acceptance_ratio_2way_table` | TableMCMCProps | step invariants, then induction over the list of draws of a chain; random draws are universally quantified | proved |
| C21 | Metropolis acceptance uses the true probability ratio | `contingency_table/ContingencyTable_MCMC.py:ContingencyTableMarkovChainMonteCarlo.log_target_measure_difference_2way_table`, `contingency_table/ContingencyTable_MCMC.py:ContingencyTableMarkovChainMonteCarlo.metropolis_log_acceptance_ratio_2way_table` | TableMCMCProps | step invariants, then induction over the list of draws of a chain; random draws are universally quantified | partial |
| C22 | Direct sampling keeps fixed cells and the drawn total | `contingency_table/ContingencyTable_MCMC.py:ContingencyTableMarkovChainMonteCarlo.multinomial_sample_2way_table`, `contingency_table/ContingencyTable_MCMC.py:ContingencyTableMarkovChainMonteCarlo.poisson_sample_2way_table` | TableMCMCProps | step invariants, then induction over the list of draws of a chain; random draws are universally quantified | proved |
| C23 | Product-multinomial sampling fills each row or column with its own counts | `contingency_table/ContingencyTable_MCMC.py:ContingencyTableMarkovChainMonteCarlo.product_multinomial_sample_2way_table`, `utils/probability_utils.py:sample_multinomial_row` | TableMCMCProps | step invariants, then induction over the list of draws of a chain; random draws are universally quantified | partial |
| C24 | Fixed cells switch the sampler to a proposal that supports them | `contingency_table/ContingencyTable_MCMC.py:ContingencyTableMarkovChainMonteCarlo.update_proposal_type` | TableMCMCProps | step invariants, then induction over the list of draws of a chain; random draws are universally quantified | partial |
| C25 | Table probabilities take table and intensity in the order documented | `utils/probability_utils.py:log_poisson_pmf_normalised`, `utils/probability_utils.py:log_poisson_pmf_unnormalised`, `utils/probability_utils.py:log_multinomial_pmf_normalised` | ProbUtilsProps | algebra of finite real sums; refutation by concrete reals | partial |
| C26 | Stopping times follow the inverse power law | `utils/probability_utils.py:generate_stopping_times` | ProbUtilsProps | algebra of finite real sums; refutation by concrete reals | proved |
| C27 | Truncated series estimator telescopes | `utils/probability_utils.py:compute_truncated_infinite_series` | ProbUtilsProps | algebra of finite real sums; refutation by concrete reals | partial |
| C28 | Log-sum-exp is shift invariant and exact | `utils/math_utils.py:logsumexp` | ProbUtilsProps | algebra of finite real sums; refutation by concrete reals | proved |
| C29 | Totally constrained flows sum to the total | `intensity_models/spatial_interaction_models/TotallyConstrained/__init__.py:log_flow_matrix` | SIMProps | log-sum-exp algebra; derivatives by derivable_pt_lim lemmas | proved |
| C30 | Production constrained flows meet the origin demand | `intensity_models/spatial_interaction_models/ProductionConstrained/__init__.py:log_flow_matrix` | SIMProps | log-sum-exp algebra; derivatives by derivable_pt_lim lemmas | proved |
| C31 | Batched intensities equal the single ones | `intensity_models/spatial_interaction_models/ProductionConstrained/__init__.py:log_flow_matrix`, `intensity_models/spatial_interaction_models/TotallyConstrained/__init__.py:log_flow_matrix` | SIMProps | log-sum-exp algebra; derivatives by derivable_pt_lim lemmas | partial |
| C32 | Flows ignore additive shifts of log attraction | `intensity_models/spatial_interaction_models/TotallyConstrained/__init__.py:log_flow_matrix`, `intensity_models/spatial_interaction_models/ProductionConstrained/__init__.py:log_flow_matrix` | SIMProps | log-sum-exp algebra; derivatives by derivable_pt_lim lemmas | proved |
| C33 | Potential gradient is the derivative of the potential | `intensity_models/spatial_interaction_models/TotallyConstrained/__init__.py:sde_pot`, `physics_models/HarrisWilsonModel.py:HarrisWilson.sde_potential_and_gradient` | SIMProps | log-sum-exp algebra; derivatives by derivable_pt_lim lemmas | partial |
| C34 | Gaussian data likelihood and its gradient agree | `physics_models/HarrisWilsonModel.py:HarrisWilson.negative_destination_attraction_log_likelihood_and_gradient` | SIMProps | log-sum-exp algebra; derivatives by derivable_pt_lim lemmas | proved |
| C35 | Time stepping returns the requested number of states | `physics_models/HarrisWilsonModel.py:HarrisWilson.run`, `physics_models/HarrisWilsonModel.py:HarrisWilson.run_single` | SIMProps | log-sum-exp algebra; derivatives by derivable_pt_lim lemmas | proved |
| C36 | Leapfrog integration is reversible | `learning_models/HarrisWilsonModel_MCMC.py:HarrisWilson_MCMC.log_destination_attraction_gibbs_step`, `learning_models/HarrisWilsonModel_MCMC.py:HarrisWilson_MCMC.annealed_importance_sampling_log_z` | HMCProps | induction on leapfrog steps; exact error of the irreversible step | partial |
| C37 | Reflected parameter proposals stay in the prior range | `learning_models/HarrisWilsonModel_MCMC.py:HarrisWilson_MCMC.theta_gibbs_step` | HMCProps | induction on leapfrog steps; exact error of the irreversible step | proved |
| C38 | Accept or reject returns a matching set of values | `learning_models/HarrisWilsonModel_MCMC.py:HarrisWilson_MCMC.theta_gibbs_step`, `learning_models/HarrisWilsonModel_MCMC.py:HarrisWilson_MCMC.log_destination_attraction_gibbs_step` | HMCProps | induction on leapfrog steps; exact error of the irreversible step | proved |
| C39 | Setting a configuration value makes it readable and changes nothing else | `config.py:Config.path_set`, `config.py:Config.path_get` | ConfigProps | structural induction on nested configurations against the relation `reaches` | partial |
| C40 | Key search finds exactly the occurrences of the key | `config.py:Config.path_find`, `config.py:Config.path_exists` | ConfigFind | structural induction on nested configurations against the relation `reaches` | partial |
| C41 | Schema modification reports failure | `config.py:Config.path_modify` | ConfigModify | structural induction on nested configurations against the relation `reaches` | partial |
| C42 | Parameter sweeps enumerate the full product once | `config.py:Config.prepare_sweep_configurations` | SweepProps | list induction on sweep products; injectivity of folder names | partial |
| C43 | Each sweep configuration sets exactly its parameters | `config.py:Config.prepare_experiment_config` | SweepProps | list induction on sweep products; injectivity of folder names | partial |
| C44 | Resuming a sweep re-runs exactly what is missing | `config.py:Config.trim_sweep_configurations`, `experiments.py:ExperimentSweep.run` | SweepProps | list induction on sweep products; injectivity of folder names | partial |
| C45 | Range validation accepts exactly the values in range | `utils/misc_utils.py:in_range`, `utils/config_data_structures.py:PrimitiveEntry.check_range` | SchemaProps | exact characterisation of the accepted values; arithmetic on ranges | partial |
| C46 | Range strings expand to the stated sequence | `utils/config_data_structures.py:CustomList._parse` | SchemaProps | exact characterisation of the accepted values; arithmetic on ranges | partial |
| C47 | Bounded executor never exceeds its limit | `utils/multiprocessor.py:BoundedQueuePoolExecutor`, `utils/multiprocessor.py:BoundedQueueProcessPoolExecutor` | ExecutorProps | invariant over all interleavings of events; list induction | partial |
| C48 | Work is split into chunks without loss | `utils/misc_utils.py:divide_chunks`, `experiments.py:ExperimentSweep.run_concurrent` | ExecutorProps | invariant over all interleavings of events; list induction | partial |
| C49 | Burn-in, thinning and trimming keep the stated samples | `outputs.py:Outputs.slice_coordinates_by_index` | SlicingProps | induction on coordinates; exact slice membership | proved |
| C50 | Every recorded quantity gets one row per recorded step | `experiments.py:Experiment.write_data`, `experiments.py:Table_MCMC.run` | RecorderProps | invariant over histories of writes; induction over steps | partial |
| C51 | Batches of samples cover the run | `experiments.py:Experiment.define_sample_batch_sizes` | RecorderProps | invariant over histories of writes; induction over steps | partial |
| C52 | Cell and table text codecs round-trip | `utils/misc_utils.py:tuple_to_str`, `utils/misc_utils.py:str_to_tuple`, `utils/misc_utils.py:table_to_str`, `utils/misc_utils.py:str_to_table` | TextCodecProps | inverse functions by induction on digits and characters | proved |
| C53 | Nested dictionary merge and update | `utils/misc_utils.py:deep_merge`, `utils/misc_utils.py:deep_update`, `utils/misc_utils.py:deep_get`, `utils/misc_utils.py:update_recursively` | DictUtilsProps | structural induction on nested dictionaries | partial |
| C54 | Coordinate slices keep all requested values | `utils/misc_utils.py:parse_slice_by` | CommandLineProps | induction on the option string; case analysis | partial |
| C55 | Shortest interval has the requested mass and minimal width | `utils/math_utils.py:calculate_min_interval`, `utils/math_utils.py:coverage_probability` | ScoresProps | sorting and window argument; real algebra; dynamic-programming recurrence | proved |
| C56 | Goodness-of-fit scores have their defining range | `utils/math_utils.py:ssi`, `utils/math_utils.py:srmse` | ScoresProps | sorting and window argument; real algebra; dynamic-programming recurrence | proved |
| C57 | Edit distances count the moves between tables | `utils/math_utils.py:edit_distance_degree_one`, `utils/math_utils.py:edit_distance_degree_higher` | ScoresProps | sorting and window argument; real algebra; dynamic-programming recurrence | partial |
| C58 | Learning uses every loss of a batch | `experiments.py:Experiment.model_update_and_export` | RecorderProps | invariant over histories of writes; induction over steps | partial |
| C59 | Command line statistics and dimension options are kept complete | `utils/click_parsers.py:unpack_statistics`, `utils/click_parsers.py:dims_to_list` | CommandLineProps | induction on the option string; case analysis | partial |
| C60 | Progress-bar positions of running workers are distinct | `utils/misc_utils.py:position_index`, `experiments.py:ExperimentSweep.prepare_instantiate_and_run` | ExecutorProps | invariant over all interleavings of events; list induction | partial |
| C61 | Table losses are the negated table log-probabilities | `utils/probability_utils.py:log_poisson_loss`, `utils/probability_utils.py:log_multinomial_loss`, `utils/probability_utils.py:log_product_multinomial_loss`, `utils/probability_utils.py:log_fishers_hypergeometric_loss` | ProbUtilsProps | real algebra | partial |
| C62 | Expected tables keep the constrained totals | `utils/probability_utils.py:multinomial_pmf_ground_truth`, `utils/probability_utils.py:product_multinomial_pmf_ground_truth`, `utils/probability_utils.py:fishers_hypergeometric_pmf_ground_truth` | ProbUtilsProps | real algebra | partial |
| C63 | Odds ratios ignore row and column scalings | `utils/probability_utils.py:log_odds_cross_ratio`, `utils/probability_utils.py:log_odds_ratio_wrt_intensity` | ProbUtilsProps | real algebra | proved |
| C64 | Signed averages reduce to ordinary moments | `utils/math_utils.py:signed_mean`, `utils/math_utils.py:signed_var` | ProbUtilsProps, ScoresProps | real algebra | proved |
| C65 | A sample's score does not depend on the rest of its batch | `utils/math_utils.py:srmse`, `utils/math_utils.py:ssi` | ScoresProps | real algebra over batches | partial |
| C66 | Parameter proposals are symmetric | `learning_models/HarrisWilsonModel_MCMC.py:HarrisWilson_MCMC.theta_gibbs_step`, `learning_models/HarrisWilsonModel_MCMC.py:HarrisWilson_MCMC.theta_given_table_gibbs_step` | HMCProps | densities of reflected steps; chain invariants; derivatives | partial |
| C67 | Annealing particles start from the prior | `learning_models/HarrisWilsonModel_MCMC.py:HarrisWilson_MCMC.annealed_importance_sampling_log_z` | HMCProps | densities of reflected steps; chain invariants; derivatives | partial |
| C68 | The annealed estimate tracks the normalising constant | `learning_models/HarrisWilsonModel_MCMC.py:HarrisWilson_MCMC.annealed_importance_sampling_log_z` | HMCProps | densities of reflected steps; chain invariants; derivatives | proved |
| C69 | Values cached by the joint chain are those of its state | `experiments.py:JointTableSIM_MCMC.run`, `learning_models/HarrisWilsonModel_MCMC.py:HarrisWilson_MCMC.log_destination_attraction_given_table_gibbs_step`, `learning_models/HarrisWilsonModel_MCMC.py:HarrisWilson_MCMC.theta_given_table_gibbs_step` | HMCProps | densities of reflected steps; chain invariants; derivatives | partial |
| C70 | Attraction moves are accepted by the full energy difference | `learning_models/HarrisWilsonModel_MCMC.py:HarrisWilson_MCMC.log_destination_attraction_gibbs_step` | HMCProps | densities of reflected steps; chain invariants; derivatives | partial |
| C71 | Derived capacity parameters balance the model | `inputs.py:Inputs.update_delta_and_kappa` | SIMProps | real algebra | proved |
| C72 | The table likelihood gradient is the gradient of the table likelihood | `learning_models/HarrisWilsonModel_MCMC.py:HarrisWilson_MCMC.negative_table_log_likelihood_gradient`, `learning_models/HarrisWilsonModel_MCMC.py:HarrisWilson_MCMC.negative_table_log_likelihood_expanded` | HMCProps | densities of reflected steps; chain invariants; derivatives | partial |
| C73 | The Laplace approximation uses the lowest minimum found | `learning_models/HarrisWilsonModel_MCMC.py:HarrisWilson_MCMC.biased_z_inverse` | HMCProps | densities of reflected steps; chain invariants; derivatives | proved |
| C74 | Deleting a configuration path removes it and only it | `config.py: Config.path_delete` | ConfigModify | structural induction on nested configurations against the relation `reaches` | partial |
| C75 | The folder of a sweep configuration is reproducible | `config.py: Config.get_sweep_id` | SweepId | list induction on sweep products; injectivity of folder names | partial |
| C76 | Different sweep configurations write to different folders | `config.py: Config.get_sweep_id`, `utils/misc_utils.py: sigma_to_noise_regime` | SweepId | list induction on sweep products; injectivity of folder names | partial |
| C77 | Every swept parameter is discovered | `config.py: Config.find_sweep_key_paths`, `static/global_variables.py: deep_walk` | SweepFind | list induction on sweep products; injectivity of folder names | partial |
| C78 | File and directory settings are validated | `utils/config_data_structures.py: Path.check_extension, File.check, Directory.check` | SchemaProps | exact characterisation of the accepted values; arithmetic on ranges | partial |
| C79 | Primitive settings are validated exactly | `utils/config_data_structures.py: PrimitiveEntry.check_range, check_scope, Numeric.check, Str.check, Bool` | SchemaProps | exact characterisation of the accepted values; arithmetic on ranges | partial |
| C80 | List settings are validated exactly | `utils/config_data_structures.py: NonPrimitiveEntry.check_length, check_uniqueness, check_elements, List.check` | SchemaProps | exact characterisation of the accepted values; arithmetic on ranges | partial |
| C81 | A failing sweep configuration is reported | `experiments.py: ExperimentSweep.run_sequential, run_concurrent` | ExecutorProps | invariant over all interleavings of events; list induction | partial |
| C82 | Joint slices give the same samples in every interpreter run | `outputs.py:Outputs.slice_coordinates_by_index` | SlicingProps | induction on coordinates; exact slice membership | partial |
| C83 | Training losses are recorded | `experiments.py:Experiment.model_update_and_export`, `experiments.py:Experiment.write_data` | RecorderProps | invariant over histories of writes; induction over steps | partial |
| C84 | A table and the function on cells it stands for determine each other | `utils/misc_utils.py:f_to_array`, `utils/misc_utils.py:array_to_f` | TextCodecProps | inverse functions by induction on digits and characters | proved |
| C85 | Keyword options keep their key and their complete value | `utils/click_parsers.py:evaluate_kwargs_callback` | CommandLineProps | induction on the option string; case analysis | proved |
| C86 | Looking a key up finds every outermost occurrence | `utils/misc_utils.py:deep_get`, `outputs.py:Outputs.open_output_file` | DictUtilsProps | structural induction on nested dictionaries | proved |
| C87 | Settings given on the command line take effect | `main.py:setup_experiments`, `utils/misc_utils.py:deep_updates` | DictUtilsProps | structural induction on nested dictionaries | partial |
| C88 | Exporting is switched off and restored | `experiments.py:ExperimentSweep.__init__`, `utils/misc_utils.py:deep_update`, `utils/misc_utils.py:deep_updates` | DictUtilsProps | structural induction on nested dictionaries | partial |
| C89 | Resuming takes the hardware settings of the new configuration | `experiments.py:ExperimentSweep.__init__`, `utils/misc_utils.py:deep_get`, `utils/misc_utils.py:deep_update` | DictUtilsProps | structural induction on nested dictionaries | partial |
| C90 | An existing time stamp is kept | `experiments.py:Experiment.__init__`, `utils/misc_utils.py:deep_update` | DictUtilsProps | structural induction on nested dictionaries | proved |
| C91 | Applying a function to a configuration keeps its shape | `utils/misc_utils.py:deep_apply`, `config.py:Config.apply` | DictUtilsProps | structural induction on nested dictionaries | proved |
| C92 | The Monte Carlo solver finds a start table when cells are fixed | `contingency_table/__init__.py:ContingencyTable2D.table_monte_carlo_sample` | StartMargins | exact characterisation plus refutation | partial |
| C93 | Sampled margins agree with each other and with the fixed cells | `contingency_table/ContingencyTable_MCMC.py:ContingencyTableMarkovChainMonteCarlo.sample_margins_2way_table` | StartMargins | exact characterisation plus refutation | partial |
| C94 | Cell masks mark exactly the listed cells | `utils/misc_utils.py:create_mask`, `inputs.py:Inputs.create_cell_masks` | LearningProps | fold invariant over the cell list | proved |
| C95 | Predictions are written back to the cells they were made for | `utils/misc_utils.py:populate_array` | LearningProps | fold invariant over the cell list | proved |
| C96 | Features are scaled to [-1,1] | `experiments.py:RandomForest_Comparison.run` | LearningLossProps | extremal elements of a column, monotone affine map | partial |
| C97 | Configured hyper-parameters of the learning models take effect | `learning_models/RandomForest.py:RF_Model`, `learning_models/XGB.py:XGB_Model`, `learning_models/GBRT.py:GBRT_Model`, `learning_models/GraphAttentionNetwork.py:GAT_Model` | LearningProps | induction over the list of hyper-parameters | partial |
| C98 | The neural network has the configured layers | `learning_models/HarrisWilsonModel_NeuralNet.py:get_architecture`, `learning_models/HarrisWilsonModel_NeuralNet.py:get_activation_funcs`, `learning_models/HarrisWilsonModel_NeuralNet.py:NeuralNet` | LearningProps | fold over layer settings, position lemma | partial |
| C99 | The training loss of a sample is the mean over predicted samples | `learning_models/HarrisWilsonModel_NeuralNet.py:HarrisWilson_NN.update_loss` | LearningLossProps | induction over the requested losses with a frame condition | proved |
| C100 | Mini-batches partition the training edges | `learning_models/GraphAttentionNetwork.py:GAT_Model.generate_mini_batches` | LearningProps | permutation and chunk lemma C48 | proved |
| C101 | Negative sampling adds edges absent from the graph | `learning_models/GraphAttentionNetwork.py:GAT_Model.negative_sampling` | LearningProps | permutation and chunk lemma C48 | partial |
| C102 | The graph network's loss is the mean squared error of its predictions | `learning_models/GraphAttentionNetwork.py:GAT_Model.get_loss` | LearningLossProps | algebra of sums of squares | partial |
| C103 | Sampled task weights form a probability vector | `learning_models/GraphAttentionNetwork.py:GAT_Model.update_hyperparameters` | LearningLossProps | positivity of -ln on (0,1] | proved |
| C104 | The graph has an edge for every adjacent pair | `utils/misc_utils.py:build_graph_from_matrix` | LearningProps | membership of a nested comprehension | partial |
| C105 | Every short cycle of free cells is found exactly once | `contingency_table/MarkovBasis.py:MarkovBasis.find_all_cycles`, `contingency_table/MarkovBasis.py:MarkovBasis._dfs_find_cycles`, `contingency_table/MarkovBasis.py:MarkovBasis._add_unique_cycle` | CyclesProps | Depth-first search, canonical forms and the dictionary of moves, with Python set orders as arbitrary permutations. Search soundness and completeness by induction on the fuel; canonical forms characterise cycles up to rotation and reversal; margins by balance of each node; connectivity by following arcs to a cycle (pigeonhole) and a decreasing distance. | proved |
| C106 | Cycle moves preserve the constraints | `contingency_table/MarkovBasis.py:MarkovBasis.generate_both_margin_preserving_grobner_markov_basis` | CyclesProps | Depth-first search, canonical forms and the dictionary of moves, with Python set orders as arbitrary permutations. Search soundness and completeness by induction on the fuel; canonical forms characterise cycles up to rotation and reversal; margins by balance of each node; connectivity by following arcs to a cycle (pigeonhole) and a decreasing distance. | proved |
| C107 | The cycle basis connects all tables | `contingency_table/MarkovBasis.py:MarkovBasis.generate_both_margin_preserving_grobner_markov_basis`, `contingency_table/MarkovBasis.py:MarkovBasis.find_all_cycles` | CyclesProps | Depth-first search, canonical forms and the dictionary of moves, with Python set orders as arbitrary permutations. Search soundness and completeness by induction on the fuel; canonical forms characterise cycles up to rotation and reversal; margins by balance of each node; connectivity by following arcs to a cycle (pigeonhole) and a decreasing distance. | partial |
| C108 | Sweep outputs are grouped by their shared coordinates | `outputs.py:DataCollection.group_sample`, `outputs.py:DataCollection.group_samples_sequentially` | CollectionsProps | Collections as lists of arrays per sample, an array being its name, dimensions, labels and an identity. Grouping by induction on the list with one representative per group; schedules and directory listings as arbitrary permutations; re-reading through uniqueness of sorted lists and independence of samples. | proved |
| C109 | Loading outputs does not depend on worker scheduling | `outputs.py:Outputs.get_sweep_outputs_concurrently`, `outputs.py:Outputs.get_sweep_outputs_sequentially`, `outputs.py:DataCollection.combine_by_coords` | CollectionsProps | Collections as lists of arrays per sample, an array being its name, dimensions, labels and an identity. Grouping by induction on the list with one representative per group; schedules and directory listings as arbitrary permutations; re-reading through uniqueness of sorted lists and independence of samples. | partial |
| C110 | A saved collection reads back as it was saved | `outputs.py:Outputs.write_data_collection`, `outputs.py:Outputs.read_data_collection`, `outputs.py:DataCollection.__init__` | CollectionsProps | Collections as lists of arrays per sample, an array being its name, dimensions, labels and an identity. Grouping by induction on the list with one representative per group; schedules and directory listings as arbitrary permutations; re-reading through uniqueness of sorted lists and independence of samples. | partial |
| C111 | Collections are sequences of outputs | `outputs.py:DataCollection.__getitem__`, `outputs.py:DataCollection.__setitem__`, `outputs.py:DataCollection.__delitem__`, `outputs.py:DataCollection.__len__`, `outputs.py:Outputs.pop`, `outputs.py:OutputSummary.get_experiment_metadata_sequentially` | CollectionsProps | Collections as lists of arrays per sample, an array being its name, dimensions, labels and an identity. Grouping by induction on the list with one representative per group; schedules and directory listings as arbitrary permutations; re-reading through uniqueness of sorted lists and independence of samples. | partial |
| C112 | Stripping a collection keeps what was asked for | `outputs.py:Outputs.strip_data` | CollectionsProps | Collections as lists of arrays per sample, an array being its name, dimensions, labels and an identity. Grouping by induction on the list with one representative per group; schedules and directory listings as arbitrary permutations; re-reading through uniqueness of sorted lists and independence of samples. | partial |
| C113 | Group-by separates exactly the requested parameters | `config.py:Config.get_group_id` | SummariesProps | Sets of names as sorted lists, arrays as functions of labellings, files as lists of datasets with their rows, evaluations of expressions as an arbitrary function of those made so far. Slices by induction on the list of conditions; rows by an invariant of the loop: one row per configuration, each holding the metrics met so far. | partial |
| C114 | Slicing by coordinate values keeps exactly the matching entries | `outputs.py:slice_coordinates`, `outputs.py:slice_coordinates_by_value`, `outputs.py:create_slicing_conditions` | SummariesProps | Sets of names as sorted lists, arrays as functions of labellings, files as lists of datasets with their rows, evaluations of expressions as an arbitrary function of those made so far. Slices by induction on the list of conditions; rows by an invariant of the loop: one row per configuration, each holding the metrics met so far. | partial |
| C115 | A stored run loads as it was written | `outputs.py:load_h5_data`, `outputs.py:read_h5_file` | SummariesProps | Sets of names as sorted lists, arrays as functions of labellings, files as lists of datasets with their rows, evaluations of expressions as an arbitrary function of those made so far. Slices by induction on the list of conditions; rows by an invariant of the loop: one row per configuration, each holding the metrics met so far. | partial |
| C116 | A summary has one row per configuration and loses no metric | `outputs.py:OutputSummary.evaluate_expressions` | SummariesProps | Sets of names as sorted lists, arrays as functions of labellings, files as lists of datasets with their rows, evaluations of expressions as an arbitrary function of those made so far. Slices by induction on the list of conditions; rows by an invariant of the loop: one row per configuration, each holding the metrics met so far. | partial |
| C117 | An accepted configuration has been checked setting by setting | `config.py:Config.validate`, `config.py:Config.path_get`, `config.py:Config.path_set`, `data/inputs/configs/schemas/cfg_parameters.json` | ValidateProps | Validation as a fold over the template with the shared key path as a list. The walk is shown equal to a pass over positions whose paths are pairwise unrelated, so each is visited in the original settings; the lists of sweeps by an invariant over the positions visited so far. | partial |
| C118 | Every configured sweep is discovered, under its own name | `config.py:Config.validate`, `config.py:Config.path_exists`, `config.py:Config.path_find`, `data/inputs/configs/schemas/cfg_parameters.json` | ValidateProps | Validation as a fold over the template with the shared key path as a list. The walk is shown equal to a pass over positions whose paths are pairwise unrelated, so each is visited in the original settings; the lists of sweeps by an invariant over the positions visited so far. | partial |
| C119 | The power set lists every non-empty subset once | `utils/math_utils.py:powerset`, `contingency_table/contingency_table.py:ContingencyTable` | MetricsProps | Direct models over the reals, missing values as None. Subsets by induction on the elements; chi-squared zeros through sums of squares; the triangle inequality by Cauchy-Schwarz; Welch bounds by algebra; masks as filters of index lists. | proved |
| C120 | Distances between tables are distances | `utils/math_utils.py:chi_squared_row_distance`, `utils/math_utils.py:chi_squared_column_distance`, `utils/math_utils.py:chi_squared_distance`, `utils/math_utils.py:euclidean_distance` | MetricsProps | Direct models over the reals, missing values as None. Subsets by induction on the elements; chi-squared zeros through sums of squares; the triangle inequality by Cauchy-Schwarz; Welch bounds by algebra; masks as filters of index lists. | partial |
| C121 | Cell errors are computed cell by cell inside the mask | `utils/math_utils.py:subtract`, `utils/math_utils.py:l_1`, `utils/math_utils.py:l2`, `utils/math_utils.py:relative_l_1`, `utils/math_utils.py:mean_absolute_residual_percentage_error` | MetricsProps | Direct models over the reals, missing values as None. Subsets by induction on the elements; chi-squared zeros through sums of squares; the triangle inequality by Cauchy-Schwarz; Welch bounds by algebra; masks as filters of index lists. | partial |
| C122 | One-tailed tests are antisymmetric and both routes agree | `utils/math_utils.py:perform_one_tailed_ttest`, `utils/math_utils.py:perform_one_tailed_ttest_using_summaries` | MetricsProps | Direct models over the reals, missing values as None. Subsets by induction on the elements; chi-squared zeros through sums of squares; the triangle inequality by Cauchy-Schwarz; Welch bounds by algebra; masks as filters of index lists. | partial |
| C123 | Sigmoids are increasing, bounded and antisymmetric | `utils/math_utils.py:positive_sigmoid`, `utils/math_utils.py:skew_sigmoid_numpy`, `utils/math_utils.py:skew_sigmoid_torch` | MetricsProps | Direct models over the reals, missing values as None. Subsets by induction on the elements; chi-squared zeros through sums of squares; the triangle inequality by Cauchy-Schwarz; Welch bounds by algebra; masks as filters of index lists. | proved |
| C124 | Sparsity, null rows and symmetry | `utils/math_utils.py:sparsity`, `utils/math_utils.py:reshape_null_data`, `utils/math_utils.py:check_symmetric` | MetricsProps | Direct models over the reals, missing values as None. Subsets by induction on the elements; chi-squared zeros through sums of squares; the triangle inequality by Cauchy-Schwarz; Welch bounds by algebra; masks as filters of index lists. | proved |
| C125 | Degree-higher steps leave the table distribution invariant | `contingency_table/ContingencyTable_MCMC.py:degree_higher_proposal_2way_table`, `contingency_table/ContingencyTable_MCMC.py:table_gibbs_step`, `utils/misc_utils.py:safe_cast` | KernelsProps | Transition probabilities from the mass functions of the generators. Reversibility of one minor through the ratio of the hypergeometric weights, of one Metropolis move through min(1,r); invariance by summing over a list of all tables. Direct sampling by the multinomial theorem over all compositions; the shuffle by counting orderings, one item at a time. | proved |
| C126 | Degree-one steps leave the table distribution invariant | `contingency_table/ContingencyTable_MCMC.py:degree_one_proposal_2way_table`, `contingency_table/ContingencyTable_MCMC.py:table_gibbs_step`, `contingency_table/ContingencyTable_MCMC.py:metropolis_log_acceptance_ratio_2way_table`, `contingency_table/ContingencyTable_MCMC.py:log_target_measure_difference_2way_table` | KernelsProps | Transition probabilities from the mass functions of the generators. Reversibility of one minor through the ratio of the hypergeometric weights, of one Metropolis move through min(1,r); invariance by summing over a list of all tables. Direct sampling by the multinomial theorem over all compositions; the shuffle by counting orderings, one item at a time. | partial |
| C127 | Direct sampling draws from the table distribution | `contingency_table/ContingencyTable_MCMC.py:direct_sampling_proposal_2way_table`, `contingency_table/ContingencyTable_MCMC.py:poisson_sample_2way_table`, `contingency_table/ContingencyTable_MCMC.py:multinomial_sample_2way_table`, `contingency_table/ContingencyTable_MCMC.py:product_multinomial_sample_2way_table`, `utils/probability_utils.py:sample_multinomial_row` | KernelsProps, KernelsShuffle | Transition probabilities from the mass functions of the generators. Reversibility of one minor through the ratio of the hypergeometric weights, of one Metropolis move through min(1,r); invariance by summing over a list of all tables. Direct sampling by the multinomial theorem over all compositions; the shuffle by counting orderings, one item at a time. | partial |
| C128 | The shuffled table is centrally hypergeometric | `contingency_table/__init__.py:table_monte_carlo_sample`, `contingency_table/ContingencyTable_MCMC.py:direct_sampling_proposal_2way_table` | KernelsShuffle | Transition probabilities from the mass functions of the generators. Reversibility of one minor through the ratio of the hypergeometric weights, of one Metropolis move through min(1,r); invariance by summing over a list of all tables. Direct sampling by the multinomial theorem over all compositions; the shuffle by counting orderings, one item at a time. | proved |
| C129 | The table sampler converges to the table distribution | `contingency_table/ContingencyTable_MCMC.py:table_gibbs_step`, `contingency_table/ContingencyTable_MCMC.py:degree_higher_proposal_2way_table`, `contingency_table/MarkovBasis.py:generate` | KernelsLimit | Finite Markov chains over a list of tables: positive self-loops and connectedness give a power with positive entries, hence an L1 contraction on signed vectors of sum zero. Walks of the basis are matched with steps of positive probability through the cells of one minor. | partial |
| C130 | Input files are read together or not at all | `inputs.py:Inputs.read_data`, `inputs.py:Inputs.validate_dims`, `static/global_variables.py:TRAIN_SCHEMA`, `static/global_variables.py:INPUT_SCHEMA` | InputsProps | The data object as a dictionary of arrays; every stage touches only its own attributes (frame lemmas), so the final state of each dataset is what its own step put there. Success of a consistent read by an invariant on the dims. | partial |
| C131 | Cell masks mark exactly the listed cells of the table | `inputs.py:Inputs.create_cell_masks`, `inputs.py:Inputs.read_data`, `utils/misc_utils.py:create_mask`, `utils/misc_utils.py:unpack_dims` | InputsProps | The data object as a dictionary of arrays; every stage touches only its own attributes (frame lemmas), so the final state of each dataset is what its own step put there. Success of a consistent read by an invariant on the dims. | partial |
| C132 | Configured margins and single cells are imported | `inputs.py:Inputs.import_margins`, `inputs.py:Inputs.import_cells_subset` | InputsProps | The data object as a dictionary of arrays; every stage touches only its own attributes (frame lemmas), so the final state of each dataset is what its own step put there. Success of a consistent read by an invariant on the dims. | partial |
| C133 | A copy of the inputs holds exactly the requested datasets | `inputs.py:Inputs.copy`, `inputs.py:Inputs.data_vars` | InputsProps | The data object as a dictionary of arrays; every stage touches only its own attributes (frame lemmas), so the final state of each dataset is what its own step put there. Success of a consistent read by an invariant on the dims. | proved |
| C134 | Casting inputs to labelled arrays and back loses nothing | `inputs.py:Inputs.cast_to_xarray`, `inputs.py:Inputs.cast_from_xarray` | InputsCast | The data object as a dictionary of arrays; every stage touches only its own attributes (frame lemmas), so the final state of each dataset is what its own step put there. Success of a consistent read by an invariant on the dims. | partial |
| C135 | Inputs survive a trip to the device and back | `inputs.py:Inputs.pass_to_device`, `inputs.py:Inputs.receive_from_device` | InputsCast | The data object as a dictionary of arrays; every stage touches only its own attributes (frame lemmas), so the final state of each dataset is what its own step put there. Success of a consistent read by an invariant on the dims. | partial |
| C136 | Exactly the parameters that are not learned are held fixed | `inputs.py:Inputs.read_data`, `inputs.py:Inputs.update_delta_and_kappa`, `static/global_variables.py:PARAMETER_DEFAULTS` | InputsCast | The data object as a dictionary of arrays; every stage touches only its own attributes (frame lemmas), so the final state of each dataset is what its own step put there. Success of a consistent read by an invariant on the dims. | partial |
| C137 | Two experiments never share an output directory | `outputs.py:Outputs.update_experiment_directory_id`, `outputs.py:Outputs.open_output_file`, `utils/misc_utils.py:sigma_to_noise_regime` | OutputSearchProps | Names as character lists; the date is a suffix of fixed length, so it can be read back. A pattern denotes a set of texts, and the matcher is proved equal to it; directory names are then split along the pattern. Sorting by a stable insertion sort. | partial |
| C138 | A finished run is found again by its dataset, group, type, title or date | `outputs.py:OutputSummary.find_matching_output_folders`, `utils/misc_utils.py:get_all_subdirectories`, `utils/misc_utils.py:walklevel` | OutputSearchProps | Names as character lists; the date is a suffix of fixed length, so it can be read back. A pattern denotes a set of texts, and the matcher is proved equal to it; directory names are then split along the pattern. Sorting by a stable insertion sort. | partial |
| C139 | A search returns only runs it asks for | `outputs.py:OutputSummary.find_matching_output_folders` | OutputSearchProps | Names as character lists; the date is a suffix of fixed length, so it can be read back. A pattern denotes a set of texts, and the matcher is proved equal to it; directory names are then split along the pattern. Sorting by a stable insertion sort. | partial |
| C140 | Found runs come in the order they were started; exclusions and explicit directories are respected | `outputs.py:OutputSummary.find_matching_output_folders` | OutputSearchProps | Names as character lists; the date is a suffix of fixed length, so it can be read back. A pattern denotes a set of texts, and the matcher is proved equal to it; directory names are then split along the pattern. Sorting by a stable insertion sort. | partial |
| C141 | The debiased estimate of 1/Z is right on average over its random stopping time | `utils/probability_utils.py:generate_stopping_times`, `utils/probability_utils.py:compute_truncated_infinite_series` | Debias | Telescoping: the probability of stopping at n times the n-th partial sum, summed by parts. The extra term is bounded below by a diverging harmonic sum. | partial |
| C142 | Stopping times: the right number, reproducible, and no file of the user destroyed | `learning_models/HarrisWilsonModel_MCMC.py:HarrisWilson_MCMC.load_stopping_times`, `learning_models/HarrisWilsonModel_MCMC.py:HarrisWilson_MCMC.import_stopping_times`, `learning_models/HarrisWilsonModel_MCMC.py:HarrisWilson_MCMC.export_stopping_times` | StartUpProps | Direct case analysis of load, estimate and validation over an association-list file store; file names are injective through the decimal notation; the negative sign by computing both log-sum-exps. | partial |
| C143 | Constants of the Harris-Wilson model: from the call, then the configuration, then the defaults | `physics_models/HarrisWilsonModel.py:HarrisWilson.__init__`, `physics_models/HarrisWilsonModel.py:HarrisWilson.update_hyperparameters` | StartUpHyper | The shape of the configuration (all but its scalars) is invariant under write-back, so every name keeps its place; places of different names are unrelated paths; a fold invariant collects the effects of the nine turns. | partial |
| C144 | Intensities recomputed from stored samples are those of the run | `experiments.py:SIM_MCMC.run`, `experiments.py:JointTableSIM_MCMC.run`, `outputs.py:Outputs.get_sample` | StartUpProps | Named parameters as finite maps; equality of maps for every sample decided at the sample (1,1); the intensity separated on a 1x2 table. | partial |
| C145 | The unbiased estimate uses a fresh stopping time for every parameter step and any number of workers | `learning_models/HarrisWilsonModel_MCMC.py:HarrisWilson_MCMC.unbiased_z_inverse`, `learning_models/HarrisWilsonModel_MCMC.py:HarrisWilson_MCMC.build`, `experiments.py:JointTableSIM_MCMC.run` | StartUpHyper, StartUpProps | Direct case analysis of load, estimate and validation over an association-list file store; file names are injective through the decimal notation; the negative sign by computing both log-sum-exps. | partial |
| C146 | Initial samples are valid and validation accepts exactly the legitimate samples | `experiments.py:Experiment.initialise_parameters`, `experiments.py:Experiment.validate_samples` | StartUpProps | Direct case analysis of load, estimate and validation over an association-list file store; file names are injective through the decimal notation; the negative sign by computing both log-sum-exps. | partial |
| C147 | A stored Markov basis is the basis of the table that reads it | `contingency_table/MarkovBasis.py:MarkovBasis.export_markov_basis`, `contingency_table/MarkovBasis.py:MarkovBasis.import_markov_basis`, `contingency_table/MarkovBasis.py:MarkovBasis.update_markov_basis` | StartUpBasis | File names are cut at their separators; the admissibility test reduces to the fixed cells for generated moves (C11), and the generator is characterised by its pairs. | partial |
| C148 | A grid search of R squared reports the best grid point | `experiments.py:RSquared_Analysis.run` | GridSearchProps | The loops as folds over the product grid with a best-so-far invariant; refutations on 1x2 data. | partial |
| C149 | A grid search of the log target reports the best grid point | `experiments.py:LogTarget_Analysis.run` | GridSearchProps | The loops as folds over the product grid with a best-so-far invariant; refutations on 1x2 data. | partial |
| C150 | A graph attention layer averages the neighbours with positive weights and keeps the region's own features | `learning_models/GraphAttentionNetwork.py:GATLayer.message_func`, `learning_models/GraphAttentionNetwork.py:GATLayer.reduce_func`, `learning_models/GraphAttentionNetwork.py:GATInputLayer.forward` | GraphAttentionProps | The softmax weights of the mailbox are positive and sum to one; an average lies between its bounds. | partial |
| C151 | Regions further away than the number of layers have no influence | `learning_models/GraphAttentionNetwork.py:GAT.forward`, `learning_models/GraphAttentionNetwork.py:GAT_Model.predict`, `learning_models/GraphAttentionNetwork.py:GAT_Model.predict_edge` | GraphAttentionProps | Induction on the layers: a layer reads a region and the sources of its incoming edges; sums over the mailbox are invariant under permutation and injective renaming. | proved |
| C152 | Flow predictions do not depend on how the regions are numbered | `learning_models/GraphAttentionNetwork.py:GAT.forward`, `learning_models/GraphAttentionNetwork.py:GAT_Model.predict`, `learning_models/GraphAttentionNetwork.py:GAT_Model.predict_edge` | GraphAttentionProps | Induction on the layers: a layer reads a region and the sources of its incoming edges; sums over the mailbox are invariant under permutation and injective renaming. | proved |
| C153 | Every row of a summary carries the settings of the run it came from | `outputs.py:OutputSummary.get_experiment_metadata`, `outputs.py:OutputSummary.collect_metadata` | SummariseProps | Rows as association lists; fold invariants for the assignments; the pool as any interleaving of whole results (permutation). | partial |
| C154 | No row of a summary is lost or repeated | `outputs.py:OutputSummary.collect_metadata`, `outputs.py:OutputSummary.__init__` | SummariseProps | Rows as association lists; fold invariants for the assignments; the pool as any interleaving of whole results (permutation). | partial |
| C155 | A summary is sorted as asked and written to its own file below the output directory | `outputs.py:OutputSummary.write_metadata_summaries`, `utils/misc_utils.py:find_dataset_directory` | SummariseProps | Insertion into a sorted list; file names cut at their separators. | partial |
| C156 | The objects a keyword expression uses are available when it is evaluated | `outputs.py:Outputs.check_object_availability`, `outputs.py:Outputs.instantiate_object_from_expression`, `outputs.py:Outputs.evaluate_expressions` | ExpressionsProps | Induction on the scanning of re.findall: a mention can only start where the scan stops, as names contain neither dots nor boundaries; then a fold invariant over the objects built. | partial |
| C157 | The log file of a run holds exactly what the run said | `utils/logger_class.py:CustomFileHandler`, `utils/logger_class.py:DualLogger`, `outputs.py:Outputs.write_log`, `outputs.py:Outputs.open_output_file`, `experiments.py:ExperimentHandler.setup_experiments`, `experiments.py:ExperimentSweep.prepare_instantiate_and_run` | RunLogProps | The effect of a block of messages on the buffer, composed over a run and then over the runs by induction; conservation of lines as a permutation invariant over all histories. | partial |
| C158 | The console shows exactly the messages at or above the chosen level | `utils/logger_class.py:DualLogger`, `experiments.py:ExperimentSweep.prepare_experiment` | RunLogProps | Case analysis over the kinds of messages. | partial |
| C159 | The drawing order of a figure follows the options | `plot.py:Plot.merge_plot_settings`, `plot.py:Plot.extract_plot_variable`, `main.py:plot` | PlottingProps | Stable insertion sort: induction over the sorts of lexsort with the invariant that the list is sorted by the criteria so far; ranks from positions. | partial |
| C160 | Every point of a figure is drawn with its own values | `plot.py:Plot.data_plot`, `plot.py:Plot.extract_plot_settings`, `plot.py:Plot.merge_plot_settings`, `static/plot_variables.py:PLOT_VARIABLES` | PlottingProps | Association lists with fold invariants: the value of a key after updates is the latest said. | partial |
| C161 | A figure for each experiment shows every entry of that experiment | `plot.py:Plot.data_plot`, `plot.py:Plot.merge_plot_settings` | PlottingProps | Association lists with fold invariants: the value of a key after updates is the latest said. | partial |
| C162 | The label of a point identifies its values | `plot.py:Plot.extract_plot_variable`, `utils/misc_utils.py:latex_it`, `utils/misc_utils.py:tidy_label`, `static/plot_variables.py:RAW_EXPRESSIONS` | PlottingProps | Case analysis; uniqueness within the shipped table by computation. | partial |
| C163 | On a discrete axis every point is at the tick that shows its label | `plot.py:Plot.get_discrete_ticks`, `utils/misc_utils.py:stringify_coordinate` | PlotAxesProps | Labels as a sorted duplicate-free list; exact rational places; injectivity of the mixed-radix place for two levels. | partial |
| C164 | The limits of an axis are the ones asked for, and otherwise hold the data | `plot.py:Plot.get_axes_limits`, `plot.py:Plot.plot_simple` | PlotAxesProps | Induction over the points of a subplot with minimum/maximum as invariants over exact rationals. | partial |
| C165 | Subplots separate the points by the grouping variables | `plot.py:Plot.map_groups_to_axes`, `plot.py:Plot.plot_simple`, `plot.py:Plot.merge_plot_settings`, `plot.py:Plot.get_discrete_ticks` | PlotAxesProps | The places of C163 with unit steps as ranks; coverage of the grid as a boolean test reflected. | partial |
| C166 | Expressions are evaluated in the order given, each with the names defined before it | `outputs.py:Summary.evaluate_expressions`, `utils/click_parsers.py:evaluate_kwargs_callback`, `utils/misc_utils.py:safe_list_get` | EvaluateProps | Small expression language with Python scoping; invariant of the loops as an iff characterisation, by induction over the definitions; congruence of evaluation on the names mentioned. | proved |
| C167 | A name stands for the expression given for it | `outputs.py:Summary.evaluate_expressions`, `utils/click_parsers.py:evaluate_kwargs_callback` | EvaluateProps | Frame lemma for names not defined by a loop; concrete sessions for the refutations. | partial |
| C168 | A sample has its value from its source, and a missing one is left out | `outputs.py:Outputs.get_sample`, `outputs.py:Outputs.check_data_availability`, `outputs.py:Summary.evaluate_expressions`, `static/global_variables.py:TRAIN_SCHEMA`, `static/global_variables.py:VALIDATION_SCHEMA` | EvaluateProps | Case analysis over the sources against an inductive specification; commutation of skipped names. | partial |
| C169 | Every recorded array that is asked for is read | `outputs.py:Outputs.__init__`, `static/global_variables.py:EXPERIMENT_OUTPUT_NAMES`, `static/global_variables.py:SAMPLE_DATA_REQUIREMENTS`, `main.py:update_settings` | EvaluateProps | Membership in the flattened list; the table of experiments by case analysis. | partial |
| C170 | An option left out keeps the configuration's setting | `main.py:run`, `main.py:create`, `main.py:optimise`, `main.py:update_settings`, `main.py:setup_experiments` | HandlerProps | Exact characterisation of the settings by an iff, from lemmas on association lists; composed with the theorems on deep updates (C87). | partial |
| C171 | Every experiment of a type asked for is run, from its own entry | `experiments.py:ExperimentHandler`, `experiments.py:instantiate_experiment`, `main.py:exec` | HandlerProps | Invariant of the index dictionary (order of keys, last index) by induction; set-up threaded with the aliased entries, distinct indices. | partial |
| C172 | An experiment asked for that the configuration lacks is reported | `experiments.py:ExperimentHandler`, `main.py:exec` | HandlerProps | Selection depends only on the types that occur, by induction. | partial |
| C173 | Nothing runs unless everything can be set up, and failures are reported | `experiments.py:ExperimentHandler.setup_experiments`, `experiments.py:ExperimentHandler.run_experiments_sequentially`, `main.py:exec` | HandlerProps | Induction over the list of experiments. | proved |
| C174 | Each trial is scored on its own model and reports every iteration | `experiments.py:optimise_experiments_sequentially`, `experiments.py:update_optimisation_progress`, `experiments.py:RandomForest_Comparison.run`, `experiments.py:GBRT_Comparison.run`, `experiments.py:XGBoost_Comparison.run` | TrialsProps | Invariant of the interleaving semantics by induction over schedules (one worker); for two workers a schedule is constructed for every number of iterations and every metric. | partial |
| C175 | The best parameters are those of the best trial, and take effect | `experiments.py:optimise_experiments_sequentially`, `intensity_models/GBRT.py:GBRT_Model`, `intensity_models/XGB.py:XGB_Model` | TrialsProps | Induction over the trials; the tables of names by computed decision; composed with C97. | partial |
| C176 | Every experiment type offered can be optimised | `experiments.py:optimise_experiments_sequentially`, `experiments.py:ExperimentSweep.run` | TrialsProps | Case analysis over the experiment types, best trial by C175. | partial |
| C177 | The recorded computation time is that of the run | `experiments.py:XGBoost_Comparison.run`, `experiments.py:Experiment.write_metadata` | TrialsProps | Two-step induction over the runs. | partial |
| C178 | A figure does not replace a figure of other data | `plot.py:Plot.create_plot_filename`, `utils/misc_utils.py:write_figure_data`, `utils/misc_utils.py:write_figure` | FigureFilesProps | Cancellation on both sides of the joined name (strings by length and prefix); the refutation follows both commands through the file system. | partial |
| C179 | The data of a figure are exported completely, in the format asked for | `utils/misc_utils.py:write_figure_data`, `utils/misc_utils.py:write_tex_data`, `plot.py:Plot.data_plot` | FigureFilesProps | Case analysis over formats; keys of the merged figure by induction over folders and points (Plotting). | partial |
| C180 | A figure redrawn from its exported data is the same figure | `plot.py:Plot.read_plot_data`, `plot.py:Plot.data_plot`, `plot.py:Plot.plot_simple`, `utils/misc_utils.py:unpack_data` | FigureFilesProps | Composition of the export with the reader. | partial |
| C181 | Generated synthetic data are valid | `inputs.py:Inputs.generate_synthetic_data`, `utils/probability_utils.py:random_vector`, `inputs.py:Inputs.receive_from_device` | SyntheticProps | Inversion of the whole generation; invariant of the drawing loop; maximum attained; sums of reals. | partial |
| C182 | The seed determines the synthetic data | `inputs.py:Inputs.generate_synthetic_data`, `inputs.py:Inputs.sde_solver_in_sequence`, `utils/misc_utils.py:set_seed`, `physics_models/HarrisWilsonModel.py:HarrisWilson.run` | SyntheticProps | Unfolding for equal seeds; for the refutation, induction over the drawing loop showing that without spread its data do not depend on the generator. | partial |
| C183 | An existing synthetic dataset is not replaced unless overwriting is asked for | `inputs.py:Inputs.generate_synthetic_data` | SyntheticProps | Induction over the written files; injectivity of decimal texts and of the joined name; concrete generations for the clashes. | partial |
| C184 | The stored configuration regenerates the dataset | `inputs.py:Inputs.generate_synthetic_data`, `inputs.py:Inputs.update_delta_and_kappa`, `physics_models/HarrisWilsonModel.py:HarrisWilson.update_hyperparameters` | SyntheticProps | The recomputed parameters equal the stored ones by cases over delta and kappa; congruence of the generation in its parameters. | partial |
| C185 | The synthetic table is drawn from the model's flows | `inputs.py:Inputs.generate_synthetic_data`, `inputs.py:Inputs.sde_potential_in_sequence`, `inputs.py:Inputs.sde_solver_in_sequence` | SyntheticProps | exp and logsumexp identities applied to the inverted generation. | partial |
| C186 | What a run recorded is what is loaded | `outputs.py:Outputs.load_h5_data`, `outputs.py:Outputs.read_h5_file`, `outputs.py:Outputs.load_single`, `experiments.py:Experiment.initialise_data_structures`, `experiments.py:Experiment.write_data` | LoadOutputsProps | Invariant of the reading loop (labels of the last sample read), block arithmetic of row-major arrays, composed with the recording theorem of the joint sampler. | partial |
| C187 | The row label of a loaded sample is its iteration | `outputs.py:Outputs.read_h5_file`, `experiments.py:Experiment.write_data`, `experiments.py:JointTableSIM_MCMC.run` | LoadOutputsProps | Closed form of the recording schedule by induction on the run length; block arithmetic; composed with C186. | partial |
| C188 | Runs with different swept values have different coordinates | `outputs.py:Outputs.load_h5_data`, `outputs.py:Outputs.load_single`, `utils/misc_utils.py:parse`, `utils/misc_utils.py:stringify_coordinate`, `static/global_variables.py:COORDINATES_DTYPES` | LoadOutputsProps | |rint x - x| <= 1/2 and linear arithmetic; cases over the type of the coordinate. | partial |
| C189 | Synthetic attractions are the average of independent runs | `inputs.py:Inputs.sde_solver_in_sequence`, `inputs.py:Inputs.generate_synthetic_data`, `physics_models/HarrisWilsonModel.py:HarrisWilson.run`, `physics_models/HarrisWilsonModel.py:HarrisWilson.run_single` | SyntheticPaths | Induction over the steps of one run against the Euler scheme written out; inversion of the generation. | partial |
| C190 | Laplace estimate of the normalising constant | `learning_models/HarrisWilsonModel_MCMC.py:HarrisWilson_MCMC.biased_z_inverse`, `physics_models/HarrisWilsonModel.py:HarrisWilson.sde_potential_hessian`, `intensity_models/spatial_interaction_models/TotallyConstrained/__init__.py:sde_pot_hessian`, `intensity_models/spatial_interaction_models/ProductionConstrained/__init__.py:sde_pot_hessian` | LaplaceProps | Cholesky factorisation by recursion on Schur complements: completing the square shows success iff positive definite; mathcomp determinant over the reals for the value; second derivatives of the potential from those of the destination shares; at a stationary point the quadratic form is a positive combination of squares. | partial |
| C191 | Leapfrog trajectories preserve volume | `learning_models/HarrisWilsonModel_MCMC.py:HarrisWilson_MCMC.annealed_importance_sampling_log_z`, `learning_models/HarrisWilsonModel_MCMC.py:HarrisWilson_MCMC.log_destination_attraction_gibbs_step`, `learning_models/HarrisWilsonModel_MCMC.py:HarrisWilson_MCMC.log_destination_attraction_given_table_gibbs_step` | Volume | Frechet derivatives and a chain rule on n-dimensional space; a leapfrog step is kick-drift-kick, whose Jacobians are triangular; determinants multiply (mathcomp); differentiability of the gradients from rules for sums, exp and ln; one step of the attraction sampler is a kick that also scales the momentum. | partial |
| C192 | An incomplete table is completed from what is given | `contingency_table/__init__.py:ContingencyTable.import_tabular_data`, `contingency_table/__init__.py:ContingencyTable.build`, `contingency_table/__init__.py:ContingencyTable.update_table_properties_from_table` | TableDataProps | Case analysis on the dictionary of margins; the checks are shown equivalent to agreement with the grand total, the filling steps by a closed form of the resulting dictionary; residual margins from C04. | partial |
| C193 | A sweep over function arguments computes every combination | `utils/misc_utils.py:xr_apply_and_combine_wrapper`, `utils/misc_utils.py:xr_restack`, `main.py:reproduce` | FunctionSweepProps | Induction over functions and combinations against an inductive relation of composition; the restacked array is looked up by a lemma on pairs of label lists of fixed length. | partial |
| C194 | Slices of samples and cumulative means | `utils/misc_utils.py:xr_islice`, `utils/misc_utils.py:xr_apply_and_combine_wrapper`, `utils/math_utils.py:sample_mean` | FunctionSweepProps | Position-wise characterisation of the slice by division with remainder; the cumulative mean by instantiating C193. | partial |
| C195 | A function applied by group gets the arguments of the group | `utils/misc_utils.py:xr_apply_by_group`, `utils/misc_utils.py:xr_restack` | FunctionSweepProps | Inversion of the loop over groups. | partial |
| C196 | Flows respond to the parameters in the expected direction | `intensity_models/spatial_interaction_models/TotallyConstrained/__init__.py:flow_matrix_expanded`, `intensity_models/spatial_interaction_models/TotallyConstrained/__init__.py:flow_matrix_jacobian`, `intensity_models/spatial_interaction_models/ProductionConstrained/__init__.py:flow_matrix_expanded`, `intensity_models/spatial_interaction_models/ProductionConstrained/__init__.py:flow_matrix_jacobian`, `intensity_models/spatial_interaction_models/__init__.py:intensity_gradient` | SensitivityProps | A Chebyshev (covariance) inequality for sums over pairs of cells, for weights multiplied by exponentials; shares of raised and unraised cells bounded directly; derivatives by rules for sums, exp, ln and log-sum-exp. | proved |
| C197 | Which parameters the flows determine | `intensity_models/spatial_interaction_models/TotallyConstrained/__init__.py:log_flow_matrix`, `intensity_models/spatial_interaction_models/ProductionConstrained/__init__.py:log_flow_matrix` | SensitivityProps | Totals of the shares give the totals, logarithms of the shares give the utilities up to the normalisation; conversely log-sum-exp shifts by constants. | proved |
| C198 | The potential confines the attractions and its minima are the balances | `intensity_models/spatial_interaction_models/TotallyConstrained/__init__.py:sde_pot`, `intensity_models/spatial_interaction_models/ProductionConstrained/__init__.py:sde_pot`, `physics_models/HarrisWilsonModel.py:sde_potential`, `physics_models/HarrisWilsonModel.py:sde_ais_potential_and_jacobian`, `physics_models/HarrisWilsonModel.py:run_single` | Confinement | Tangents of the exponential bound the potential below by a multiple of the 1-norm; a minimising sequence converges along coordinates (Bolzano-Weierstrass, classical choice) and the potential is sequentially continuous; minima have vanishing derivatives, which C33 gives; uniqueness by comparing the normalisations of two balances. | partial |
| C199 | Fixed margins hide row and column effects of the intensity | `contingency_table/ContingencyTable_MCMC.py:degree_higher_proposal_2way_table`, `contingency_table/ContingencyTable_MCMC.py:metropolis_log_acceptance_ratio_2way_table`, `contingency_table/ContingencyTable_MCMC.py:log_target_measure_difference_2way_table`, `contingency_table/ContingencyTable_MCMC.py:direct_sampling_proposal_2way_table`, `utils/probability_utils.py:log_odds_cross_ratio` | OddsOnly | Degree-higher steps read the intensity only through cross ratios (C125 kernel), by induction over the steps; the log ratio of a degree-one step changes by the inner product of the move with the effects, which vanishes by C11; log-sum-exp shifts for direct sampling. | proved |
| C200 | The degree-one table chain converges to the target | `contingency_table/ContingencyTable_MCMC.py:degree_one_proposal_2way_table`, `contingency_table/ContingencyTable_MCMC.py:metropolis_log_acceptance_ratio_2way_table`, `contingency_table/ContingencyTable_MCMC.py:table_gibbs_step` | MetropolisLimit | Chains: an irreducible finite chain with one holding state has a power with positive entries and contracts; moves connect by C12, repeating a move ends at a negative table, which is refused, so some table holds; stationarity is C126. | partial |
| C201 | Loaded sweeps are stacked without losing or mixing anything | `outputs.py:stack_sweep_dims`, `outputs.py:load` | StackingProps | Row-major positions and their inverse (division and remainder) by induction over the stacked sizes; labels of the product by the same induction; arrays are addressed by dimension names, so transposition is the identity on them. | partial |
| C202 | Maps show every row at its own place | `plot.py:merge_data_with_geometries` | Geometry | The join is a flat_map over the rows; with distinct ids the matching regions are none or one; induction over the session with the remembered regions as the invariant. | partial |
| C203 | The network predicts admissible parameters | `learning_models/HarrisWilsonModel_NeuralNet.py:NeuralNet.forward`, `learning_models/HarrisWilsonModel_NeuralNet.py:get_architecture`, `learning_models/HarrisWilsonModel_NeuralNet.py:get_activation_funcs` | NetForward | Induction over the layers carrying the width of the current sample; the output is the image of the last activation; exchanging the two sums composes the two affine maps of the default network. | partial |
| C204 | Options receive what was written after them | `utils/click_parsers.py:OptionEatAll`, `utils/click_parsers.py:NotRequiredIf`, `main.py:_create_and_run_options` | EatAll | Round trip: induction over the items a command line is written from, with eating stopped by the dash of the next item. | partial |
| C205 | Trained networks predict sensible preferences | `learning_models/HarrisWilsonModel_NeuralNet.py:NeuralNet.forward`, `experiments.py:SIM_NN`, `intensity_models/spatial_interaction_models/TotallyConstrained/__init__.py:log_flow_matrix`, `intensity_models/spatial_interaction_models/ProductionConstrained/__init__.py:log_flow_matrix` | Preferences | C203 gives nonnegative predictions; log flows of one origin differ by utilities, in both models, and the exponential is increasing. | partial |
| C206 | Constrained axes are received as typed | `utils/click_parsers.py:PythonLiteralOption`, `main.py:_create_and_run_options` | AxesOption | Round trip: splitting and stripping the text a list was written as gives the texts of its items, each of which reads back; a word that is no number makes the first failing occurrence stop the parse. | partial |
| C207 | The multinomial mode is a most likely table | `utils/probability_utils.py:multinomial_mode` | MultinomialMode | The corrections change the total by one each; the least quotient is finite while trips are in excess, so only positive cells are lowered; scaling the probabilities turns the weight into a product of Poisson weights, each maximal at the floor of its mean. | partial |

## What is modelled

| theory | code |
|--------|------|
| Axes | closure of constraint axes: `contingency_table/__init__.py` (unify/infer constrained axes), powerset helpers |
| Tables, InitTables, StartMargins | `contingency_table/__init__.py`: margins, residuals, fixed cells, admissibility, start-table solvers; `ContingencyTable_MCMC.py` margin sampling |
| MarkovBasis, MarkovWalks | `contingency_table/MarkovBasis.py` |
| TableMCMC | `contingency_table/ContingencyTable_MCMC.py`: proposals, acceptance, direct samplers, Gibbs step |
| ProbUtils, Scores | `utils/probability_utils.py`, `utils/math_utils.py` |
| SIM | `intensity_models/spatial_interaction_models`, `physics_models/HarrisWilsonModel.py` |
| HMC | `learning_models/HarrisWilsonModel_MCMC.py` |
| ConfigTree, ConfigFind, ConfigModify, Sweep, SweepId, SweepFind | `config.py` and the nested-path helpers of `utils/misc_utils.py` |
| Schema | `utils/config_data_structures.py`, value checks of `config.py` |
| Executor | `utils/multiprocessor.py` |
| Slicing, Recorder | `outputs.py`: slicing, sample writer, batches |
| TextCodec, DictUtils | `utils/misc_utils.py` |
| CommandLine | `utils/click_parsers.py` and option handling of `main.py` |
| Learning, LearningLoss | `learning_models/*.py`, comparison experiments of `experiments.py`, masks |
| Cycles | `MarkovBasis.py` 324-497: bipartite graph of free cells, depth-first search for cycles up to a length, canonical forms, moves read off node names. Set iteration order is an arbitrary permutation. The only call (line 661) is commented out in the code. |
| Collections | `outputs.py` 233-330, 689-770, 1038-1265, 1322-1400, 1795-2170, 2361-2378: grouping and combining the arrays of a sweep, collecting runs with and without workers, saving and re-reading collections, element access, stripping. The content of arrays and xr.combine_by_coords are abstract. |
| Summaries | `config.py` 570-618, `outputs.py` 330-436, 552-687, 1586-1603, 2752-2883: splitting swept parameters into group identifiers and shared ones, slicing arrays by coordinate values, loading a run's file, building the rows of a summary. Expression evaluation is an arbitrary function; h5py and xarray are modelled by their documented effect. |
| Validate | `config.py` 620-945: validation of a configuration against the template and the schema, replacement of sweeps by defaults, the lists of isolated and coupled sweeps. The check of one entry (instantiate_data_type) is an arbitrary function, modelled in Schema. ShippedTemplate holds cfg_parameters.json as a term. |
| Metrics | `math_utils.py` 20-28, 78-112, 164-206, 387-436, 475-541, 544-657: power set, table distances, cell errors, one-tailed tests, sigmoids, sparsity, null rows and columns, symmetry. Reals for floats, None for nan. |
| Kernels | `ContingencyTable_MCMC.py` 396-776 as probabilities: the draws of TableMCMC with the mass functions of the generators (uniform, Poisson, multinomial, Fisher's non-central hypergeometric, uniform permutations). Exact integers and reals. |
| Chains, KernelsLimit | Distribution of the degree-higher chain of Kernels after n steps, as iterated transition probabilities over a list of all admissible tables. |
| Inputs | `inputs.py` 30-490: reading, dimension checks, masks, margins, copies, xarray and device casts; schemas of `global_variables.py` 119-330, 465. Arrays are shapes with exact rational entries; float32 rounding, int32 overflow, cuda devices and non-array files are not modelled. |
| OutputSearch | `outputs.py` 880-930, 2197-2298, `misc_utils.py` 492-512, 1058-1070: directory names, the folder search with the regular expressions it builds (characters, `.`, `*`; other metacharacters are excluded by hypothesis), the date ordering. The file system is a tree of names; symbolic links are not modelled. |
| Debias | Average of `compute_truncated_infinite_series` (`probability_utils.py` 256-300) over the stopping times of `generate_stopping_times`; real numbers for floats. |
| GridSearch | `experiments.py` 925-1122, 1169-1306: the two grid searches, with the prediction of each grid point an arbitrary function (None for a failed solver). |
| StartUp | `HarrisWilsonModel_MCMC.py` 71-182, 543-602, `HarrisWilsonModel.py` 53-147, `experiments.py` 463-520, 812-850, 1403-1417, 1636-1660, 1741-1745, `outputs.py` 1578-1580, `MarkovBasis.py` 526-609: stopping times, constants, estimator choice, initial values, validation, beta scaling, stored basis. Text and compression formats of the files are taken to read back what was written. |
| GraphAttention | `GraphAttentionNetwork.py` 10-250: the attention layers, the stack and the bilinear prediction. Graphs are lists of edges with real weights; dropout (evaluation mode), batch handling and training are not modelled. |
| Summarise | `outputs.py` OutputSummary (collection of rows, sorting, file names), `misc_utils.py` find_dataset_directory. Statistics themselves are arbitrary values (their computation is in Summaries and Metrics). |
| Expressions | `outputs.py` 1678-1790, 2680-2694: which objects are built before an expression is evaluated; the regular expression is modelled on ASCII text; construction of the table and sampler may succeed or fail arbitrarily. |
| RunLog | `utils/logger_class.py`, `outputs.py` 939-957, 1012-1036, `experiments.py` 87-127, 452-457, 3746-3800: levels, the buffered file handler, one logger per command, the order of opening and closing. Formatting, colours and the processes of a concurrent sweep are not modelled. |
| Plotting | `plot.py` data_plot, extract_plot_variable, merge_plot_settings; `misc_utils.py` latex_it, tidy_label; the table of expressions: which points a figure has, with which values, drawing order and labels. Values are abstract except for the order (rationals) and labels (text); evaluation of expressions and drawing are not modelled. |
| PlotAxes | `plot.py` get_axes_limits, get_discrete_ticks, map_groups_to_axes and the subplot grid of plot_simple, over exact rationals; the order of labels is an arbitrary total order. Drawing by matplotlib is not modelled. |
| Evaluate | `outputs.py` evaluate_expressions 2620-2785 (namespaces, order, failures), get_sample 1450-1583, Outputs.__init__ 183-218 (arrays to read); schemas of `global_variables.py`. Expressions are a small language over abstract values; reading files and array arithmetic are parameters. |
| Handler | `main.py` create/run/optimise: locals, null and empty settings, capitalisation, update_settings, dims; `experiments.py` 35-126: selection, set-up (with the entries shared with the handler's configuration), sequential run. Validation, construction and run are parameters; logging and the output directory are not modelled. |
| Trials | `experiments.py` optimise_experiments_sequentially 128-190, update_optimisation_progress 786-810 and what one trial does to the shared experiment object (interleaving semantics of the worker threads); names suggested and defaulted by the five models; self.total_time. optuna is described by its documented behaviour; training and metrics are parameters. |
| FigureFiles | `plot.py` create_plot_filename 1512-1562, read_plot_data 1564-1640, data_plot (exports, redrawing), features of plot_simple 575-606; `misc_utils.py` write_figure_data, write_figure, unpack_data. Drawing is not modelled; JSON is the identity on texts, numbers, lists and null. |
| Synthetic | `inputs.py` generate_synthetic_data 614-781, sde_solver_in_sequence, sde_potential_in_sequence 782-852; `probability_utils.py` random_vector; `misc_utils.py` set_seed; write-back of parameters by the intensity model and HarrisWilson. numpy's and torch's generators and the optimiser are parameters; rounding, to_learn and a single destination are not modelled. |
| LoadOutputs | `outputs.py` load_h5_data 552-609, read_h5_file 611-689, coordinates of load_single 821-877, attributes of the file 1000-1010; `misc_utils.py` parse 338-354, stringify_coordinate 672-678, string_to_numeric 1053-1056; `global_variables.py` COORDINATES_DTYPES, OUTPUT_SCHEMA. Entries are opaque; reading a text as a number is a parameter; rounding to five decimals is exact half-even rounding of rationals. |
| SyntheticPaths | Theorem about `Synthetic` (the runs of the solver); models no further code. |
| DetR | No code: mathcomp's determinant over Coq's real numbers (canonical structures by classical choice) and det(L L^T). |
| Laplace | `HarrisWilsonModel_MCMC.py` biased_z_inverse 457-541; `HarrisWilsonModel.py` sde_potential_hessian 211-224; sde_pot_hessian of TotallyConstrained 66-73 and ProductionConstrained 69-76. torch.linalg.cholesky is the exact textbook factorisation; the optimiser and autograd are not modelled (their results are arguments / proved closed forms). |
| Volume | models no further code: the trajectories `leaps` and `x_trajectory` of HMC as maps of phase space, `HarrisWilsonModel_MCMC.py` 396-407, 898-930. |
| TableData | `contingency_table/__init__.py` import_tabular_data 346-440, the calls of build 99-128, update_table_properties_from_table 727-731. Two-way tables with at least two rows and columns; draws are arguments. |
| FunctionSweep | `misc_utils.py` xr_restack 1278-1291, xr_islice 1294-1313, xr_apply_by_group 1315-1377, xr_apply_and_combine_wrapper 1379-1499; `math_utils.py` roundint, sample_mean 449-456. Arrays are lists of entries of the multi-index with abstract content; swept values are scalars. |
| Sensitivity | flow_matrix_expanded and flow_matrix_jacobian of `TotallyConstrained/__init__.py` 175-192 and `ProductionConstrained/__init__.py` 179-197; intensity_gradient, `spatial_interaction_models/__init__.py` 264-286. Automatic differentiation is represented by closed forms. |
| Confinement | models no further code: the potentials of SIM, `TotallyConstrained/__init__.py` 32-56, `ProductionConstrained/__init__.py` 33-58, `HarrisWilsonModel.py` 311-328, and run_single. |
| OddsOnly | models no further code: kernels of Kernels and TableMCMC under the intensities of SIM. |
| MetropolisLimit | models no further code: the chain of the degree-one kernel of Kernels. |
| Stacking | outputs.py 1635-1675 (stacking of swept dimensions after loading); DataArray.stack and transpose as xarray defines them, labels as tuples. |
| Geometry | plot.py 1458-1499 (joining data to region geometries, with the memory between calls). |
| NetForward | HarrisWilsonModel_NeuralNet.py 205-232, 290-300 (forward pass over the reals; layers and activations from Learning), global_variables.py 737-766 (five activations). |
| EatAll | utils/click_parsers.py 200-267, main.py 120-121 and 559-561; click 8.1's parser loop for whole option tokens. |
| Preferences | experiments.py 2115-2137, 2363-2385, 2630-2652 (predicted parameters feeding the flows); otherwise NetForward, SIM and Sensitivity. |
| AxesOption | utils/click_parsers.py 186-198, main.py 129-132; Python expressions other than lists of integers are not modelled. |
| MultinomialMode | utils/probability_utils.py 209-239, in real arithmetic; torch.argmin takes NaN as least and the first among equals. |

## What is not modelled

* Floating-point rounding, integer overflow, device placement, memory layout.
* The numerical libraries themselves: torch autograd and optimisers, xgboost and scikit-learn fitting,
  dgl message passing, scipy root finding and `minimize` (their results are universally quantified inputs
  where they appear).
* The quality of random number generators: draws are arbitrary values in their range.
* File formats: HDF5, netCDF, pickle; only which names are written, in which order and what is read back.
* Plotting (`plot.py`, `static/plot_variables.py`, `utils/notebook_functions.py`), logging (`utils/logger_class.py`), the command line wiring of
  click beyond the option parsers listed, and GPU/MPI process start-up.
* ODE/SDE integration of the physics models beyond a single step.

## Trusted base

Coq's kernel (8.16.1); the hand reading of /repo that the model records (the code cannot be run here);
the standard-library axioms below, which `Print Assumptions` lists for the theorems named. No other axiom,
no plugin, no kernel check switched off.

* no axioms ("Closed under the global context") — 522 theorems: C01_admissible_iff, C02_closure_exact, C02_closure_idempotent, C02_two_way_closure, C03_distribution_name, C03_order_irrelevant, C03_never_fails, C04_residual_margins, C04_free_cells_sum_to_residual, C04_repeated_cell_refuted, C05_construction_fails_on_implied_cells, C05_completion_refuted, C06_monte_carlo_start_table, C07_returned_table_admissible, C08_maximum_entropy_terminates, C08_fixed_cells_refuted, C09_update_table_margins, C10_random_start_table, C11_moves_preserve_constraints, C11_generation_succeeds_iff, C12_one_margin_basis_connects, C13_all_minors_connect, C13_connects_iff_two_by_two, C13_two_margin_basis_refuted, C14_row_basis_size_partial, C14_column_basis_size_partial, C14_length_function_refuted, C15_candidates_exact, C16_markov_move_keeps_constraints, C16_degree_one_proposal, C17_degree_higher_proposal, C19_step_size_support_exact, C19_support_keeps_table_nonnegative, C22_multinomial_first_attempt, C22_returned_table_admissible, C23_rows_no_fixed_cells_partial, C23_columns_are_scrambled, C23_columns_refuted, C23_fixed_cells_copy_rows, C24_proposal_after_update_partial, C24_switch_refuted, C39_get_reads_existing_path, C39_successful_get_partial, C39_get_reads_character_refuted, C39_get_not_found_text_refuted, C39_set_then_get_partial, C39_reported_success_exact, C39_missing_parent_refuted, C39_path_through_list_refuted, C39_attribute_error_exact, C39_overwrite_sets_and_clears, C39_overwrite_loses_siblings_refuted, C40_exists_exact, C40_find_exact_partial, C40_find_up_to_order, C40_find_nonempty_exact, C40_find_wrong_path_refuted, C40_get_misses_present_key_refuted, C40_get_by_key_partial, C40_sweep_mode_exact, C41_modify_changes_only_the_path, C41_modify_existing_partial, C41_single_key_exact, C41_missing_nested_reports_success_refuted, C41_list_path_refuted, C41_checked_modification_exact_partial, C42_configurations_are_the_product_partial, C42_configurations_are_combinations, C42_distinct_values_accepted, C42_repeated_value_refused, C42_rows_printing_alike_lost_refuted, C42_tuple_values_misaligned_refuted, C43_experiment_config_partial, C43_path_through_list_refuted, C44_resume_always_fails_refuted, C44_trimmed_list_is_not_used_refuted, C44_existence_test_ignores_data_refuted, C44_fresh_sweep_runs_everything_partial, C45_inclusive_exact, C45_not_finite_exact, C45_exclusive_lower_partial, C45_exclusive_upper_refuted, C46_integer_range_partial, C46_integer_steps_partial, C46_general_steps_characterised, C46_overshoot_refuted, C46_descending_refuted, C46_large_integer_refuted, C46_plain_text_refuted, C46_repeat, C46_list_concatenates, C47_bounded, C47_finished_frees_one_slot, C47_never_blocked_forever_partial, C47_failed_submissions_block_refuted, C47_limit_of_new_pool, C47_zero_limit_blocks_refuted, C48_chunks, C48_every_configuration_submitted_once, C48_instance_numbers_repeat_refuted, C48_bad_sizes, C49_burnin_thinning_trimming, C49_joint_slice, C50_write_appends_partial, C50_joint_rows, C50_sim_rows_partial, C50_table_rows_partial, C50_table_acceptance_refuted, C50_table_every_refuted, C51_batches_refuted, C51_integer_count_partial, C52_cell_roundtrip, C52_table_roundtrip, C52_table_text_injective, C52_wrong_shape_refused, C53_merge, C53_merge_alters_argument_refuted, C53_merge_argument_partial, C53_update_nothing_else, C53_update_every_occurrence_partial, C53_update_nested_list_refuted, C53_update_no_overwrite, C53_update_recursively, C54_kept_values_partial, C54_distinct_keys_partial, C54_union_refuted, C54_single_value_refuted, C57_degree_higher_refuted, C58_updates_exact_partial, C58_batch_of_one_partial, C58_training_runs_use_all, C58_every_loss_refuted, C59_dims_refuted, C59_one_group_partial, C59_statistics_flat_partial, C59_no_statistic_lost_partial, C59_statistics_dropped_refuted, C59_repeated_metric_refuted, C60_positions_distinct_partial, C60_position_reused, C60_late_release_refuted, C60_failed_run_refuted, C60_interleaved_claims_refuted, C74_delete_dictionary_entry_partial, C74_delete_list_entry_partial, C74_unreachable_deletes_nothing, C74_numeric_text_key_refuted, C75_sweep_id_order_independent_partial, C75_shared_first_word_refuted, C76_folder_determines_values_partial, C76_noise_levels_share_folder_refuted, C77_swept_parameters_found_partial, C77_sweep_in_list_refuted, C77_coupled_without_target_dropped_refuted, C78_file_check_partial, C78_extension_never_checked_refuted, C78_kind_not_checked_refuted, C79_number_check_partial, C79_allow_nan_accepts_anything_refuted, C79_bool_unchecked_refuted, C79_text_check_partial, C80_flat_list_exact_partial, C80_nested_lists_unchecked_refuted, C80_printing_alike_refused_refuted, C81_sequential_exact, C81_concurrent_runs_all, C81_concurrent_silent_refuted, C82_joint_slice_order_refuted, C82_single_slice_order_partial, C83_losses_recorded_refuted, C83_writer_records_partial, C84_function_to_table, C84_function_to_smallest_table, C84_table_function_roundtrip, C85_keyword_arguments, C86_deep_get, C86_deep_get_empty, C87_settings_effective_partial, C87_settings_found_partial, C87_settings_nothing_else, C87_settings_dropped_refuted, C88_switched_off_partial, C88_restored_partial, C88_restored_refuted, C89_resume_missing_refuted, C89_resume_partial, C90_time_stamp, C91_deep_apply, C92_exact_partial, C92_fails_refuted, C93_known_total_partial, C93_sampled_total_exact, C93_margins_refuted, C93_residuals_refuted, C94_mask_marks_listed_cells, C94_ordinary_cells, C95_predictions_in_their_cells, C95_other_cells_raise, C95_number_of_predictions, C97_hyperparameters_exact_partial, C97_models_covered, C97_configured_value_refuted, C98_layers_as_configured, C98_activations_as_configured, C98_text_layer_raises, C98_activation_dictionary_refuted, C100_minibatches_partition, C101_negative_samples_refuted, C101_rate_zero_partial, C104_edges_exact_partial, C104_zero_cost_refuted, C105_cycles_exact, C106_cycle_moves_preserve_constraints, C107_cycle_basis_connects_partial, C107_cycle_basis_connects_refuted, C108_grouping, C108_no_output_lost, C109_workers_partial, C109_order_refuted, C109_failed_run_refuted, C110_reread_partial, C110_order_refuted, C111_access_partial, C111_deletion_refuted, C111_deletion_partial, C111_metadata_partial, C111_metadata_refuted, C112_strip_partial, C112_both_refuted, C113_groups_partial, C113_group_by_coupled_refuted, C114_slices_partial, C114_one_dimension_exact, C114_empty_refuted, C114_dropped_refuted, C115_load_partial, C115_interrupted_refuted, C116_rows_partial, C116_unswept_partial, C116_summary_refuted, C116_replaced_refuted, C117_validation_partial, C117_default_refuted, C117_unlisted_refuted, C117_list_sweep_refuted, C118_sweeps_found_partial, C118_names_refuted, C118_range_refuted, C119_powerset, C124_null_rows_and_columns, C127_columns_refuted, C130_declared_sizes, C130_agree, C130_loaded, C130_never_negative, C130_grand_total, C130_missing_file, C130_conflict, C130_destination_demand_refuted, C130_consistent_files_are_read, C131_masks_partial, C131_default_test_cells_partial, C131_dims_order_refuted, C132_margins_kept, C132_margin_missing, C132_margin_file_refuted, C132_cells_subset_refuted, C133_copy, C134_to_xarray, C134_round_trip_truncates, C134_integers_kept_partial, C134_attraction_lost_refuted, C134_all_needed_refuted, C134_unlabelled_refused, C135_pass, C135_idempotent, C135_round_trip_partial, C135_left_on_device_refuted, C136_fixed_parameters_partial, C136_delta_kappa_refuted, C137_directories_differ_partial, C137_samples_kept_partial, C137_same_second_refuted, C137_noise_label, C138_found_partial, C138_search_succeeds_partial, C138_date_alone_refuted, C138_title_alone_refuted, C139_sound_partial, C139_last_character_ignored_refuted, C140_by_date, C140_start_read_partial, C140_start_order_partial, C140_title_numbers_refuted, C140_title_date_refuted, C140_exclude_refuted, C140_directories, C140_absolute_directories, C142_exact_number, C142_second_run_partial, C142_single_refuted, C142_seed_ignored_refuted, C142_user_file_overwritten_refuted, C142_named_file, C142_default_files_apart, C143_constants_partial, C143_built_exactly, C143_noise_regime, C143_positions, C143_experiment_constants, C143_config_unused_refuted, C143_defaults_unused_refuted, C143_trial_unrecorded_refuted, C145_estimator_by_noise, C145_times_loaded, C145_shared_times_refuted, C146_initial_theta, C146_r2_refuted, C147_file_shared_exactly, C147_reused_exact_partial, C147_read_moves_safe, C147_never_overwritten, C147_fixed_first_refuted, C147_space_refuted, C148_best_point_partial, C148_failed_point_refuted, C148_prediction_refuted, C148_scaled_beta_partial, C148_solver_scale_refuted, C148_parameter_order_refuted, C148_grid_order_refuted, C148_two_parameters_needed, C149_best_target_partial, C149_names_swapped_refuted, C149_two_parameters_needed, C153_metadata_partial, C153_swept_refuted, C154_sequential, C154_workers_partial, C154_failed_run_refuted, C154_failed_folder, C155_sorted_partial, C155_folder_refuted, C155_names_partial, C155_endings, C155_dates_refuted, C155_below_output, C155_dataset, C155_outside_refuted, C156_objects_partial, C156_models_refuted, C156_unnoticed_refuted, C157_sweep_partial, C157_nothing_lost, C157_killed_refuted, C157_single_run_partial, C157_info_refuted, C157_several_refuted, C158_console_partial, C158_warnings_refuted, C158_after_sweep_refuted, C159_places, C159_documented_order_refuted, C159_descending, C159_first_criterion_refuted, C160_latest_value, C160_own_values_partial, C160_carried_over_refuted, C160_shifted_refuted, C160_failed_entry, C161_latest_only, C161_single_entry_partial, C161_every_entry_refuted, C161_failed_folder, C162_one_key, C162_known_names_partial, C162_other_names_refuted, C162_number_refuted, C162_more_keys, C162_missing_key, C163_one_level_partial, C163_two_levels_partial, C163_default_refuted, C163_no_minor_component_refuted, C163_one_pair_refuted, C163_overlap_refuted, C164_both_given, C164_covers, C164_one_given_refuted, C164_discrete_partial, C164_fraction_refuted, C164_discrete_given_refuted, C164_discrete_given_room, C165_grid_partial, C165_missing_combination_refuted, C165_rows, C165_two_variables_refuted, C166_keyword_values, C166_kept, C166_independent, C166_metric_values, C166_precedence, C167_sample_expression_ignored, C167_equation_partial, C167_inner_names, C167_bad_folder_argument, C167_sample_name_refuted, C167_fallback_refuted, C167_lambda_refuted, C168_sources, C168_intensity, C168_missing_left_out_partial, C168_missing_input_ends, C168_untyped_ends, C168_missing_refuted, C168_geometries_refuted, C169_recorded_read_partial, C169_only_asked, C169_intensity_parts, C169_no_error, C169_compute_time_refuted, C169_comparison_refuted, C170_run_settings_exact_partial, C170_left_out_kept_partial, C170_left_out_refuted, C170_create_option_given, C170_optimise_option_given, C170_create_dims, C171_selected_partial, C171_distinct_types_partial, C171_repeated_type_refuted, C172_unknown_type_ignored_refuted, C172_nothing_asked, C173_all_set_up_first, C173_run_in_turn, C173_success, C174_own_model_partial, C174_own_reports_partial, C174_reports_dropped_refuted, C174_workers_refuted, C175_best_trial, C175_suggestion_used_partial, C175_estimators_unused_refuted, C175_config_of_last_trial_refuted, C175_trials_independent, C176_trained_models_partial, C176_not_optimisable_refuted, C177_first_run_partial, C177_second_run_refuted, C178_one_option_partial, C178_labels_partial, C178_slices_partial, C178_two_options_partial, C178_directories_partial, C178_other_data_refuted, C179_json_partial, C179_keys_exported, C179_other_formats_refuted, C179_csv_partial, C179_no_points_refuted, C180_single_file_partial, C180_colour_refuted, C180_defaults_refuted, C180_feature_of_point, C180_several_refuted, C183_elsewhere, C183_overwrite_refuted, C183_names, C186_loaded_partial, C186_rows_refuted, C186_joint_refuted, C186_log_target_refuted, C186_silent_refuted, C187_labels_partial, C187_labels_exact, C187_labels_refuted, C188_numbers_partial, C188_texts_partial, C188_small_refuted, C188_same_number_refuted, C188_empty_text_refuted, C188_stops_refuted, C188_own_name_refuted, C192_accepted_partial, C192_completed, C192_complete_table, C192_disagreeing_refuted, C192_total_needed_refuted, C192_observed_cells_refuted, C192_fixed_cells_refuted, C193_missing_refuted, C193_coupled_refuted, C193_nothing_swept_refuted, C193_name_clash_refuted, C193_no_function_refuted, C194_slice_elements, C194_first_samples_partial, C194_no_end_refuted, C194_bad_step_refused, C195_one_group_partial, C195_groups_refuted, C195_outside_refuted, C201_every_cell_kept, C201_nothing_invented, C201_shape, C201_when_it_loads, C201_unswept, C201_all_samples, C201_layout_edges_refuted, C202_own_regions, C202_first_plot_partial, C202_same_regions_partial, C202_other_regions_refuted, C202_edges_refuted, C204_as_written_partial, C204_exclusive, C204_refused, C204_margins_refuted, C204_text_is_no_file, C206_axes_as_written_partial, C206_no_misreading, C206_bad_text_refuted.
* `ClassicalDedekindReals.sig_forall_dec` — 2 theorems: C144_recomputed_partial, C144_two_parameters_needed.
* `FunctionalExtensionality.functional_extensionality_dep` — 5 theorems: C193_swept_partial, C193_defined, C193_fixed_ignored_refuted, C193_strict_function_refuted, C193_roundint_refuted.
* `ClassicalDedekindReals.sig_forall_dec`, `FunctionalExtensionality.functional_extensionality_dep` — 57 theorems: C34_likelihood_and_gradient, C36_annealing_leapfrog_reversible, C36_attraction_leapfrog_partial, C36_attraction_reversal_error, C37_mirrored, C37_accepted_in_range, C37_chain_stays_in_range, C38_theta_step, C38_theta_step_accepts, C38_theta_given_table_step, C38_attraction_step, C38_chain_values_match, C55_shortest_interval, C55_interval_exists_iff, C55_coverage_flag, C56_ssi_range, C56_ssi_symmetric, C57_counts_unit_transfers, C57_metric, C64_signed_moments, C64_signed_moments_affine, C65_ssi_batch, C66_increments, C66_proposal_increments, C69_potential_values_match, C69_table_likelihood_partial, C70_acceptance_threshold, C70_acceptance_refuted, C70_acceptance_partial, C71_derived_parameters, C73_laplace_at_lowest_candidate, C96_features_scaled_partial, C96_constant_feature_refuted, C99_update_succeeds_iff, C99_loss_is_sample_mean, C99_cost_shares_sum_to_one, C102_edge_loss_exact_partial, C102_best_prediction_is_constant, C102_edge_loss_refuted, C120_chi_squared_partial, C121_errors, C121_relative_partial, C121_relative_refuted, C121_residuals, C122_degrees_of_freedom, C124_sparsity, C124_symmetric, C144_only_order, C190_hessian_unique, C194_cumulative_mean, C194_beyond_refuted, C207_has_all_trips, C207_nonnegative_partial, C207_first_guess_is_mode_partial, C207_corrected_not_mode_refuted, C207_zero_draw_negative_refuted, C207_near_the_shares.
* `ClassicalDedekindReals.sig_forall_dec`, `ClassicalDedekindReals.sig_not_dec`, `FunctionalExtensionality.functional_extensionality_dep` — 26 theorems: C33_annealing_gradient, C56_srmse_zero_iff_equal, C62_product_rows_refuted, C65_srmse_grows_with_batch, C65_srmse_refuted, C66_uncorrelated_partial, C102_flow_loss_exact_partial, C102_flow_loss_refuted, C120_euclidean_metric_partial, C120_symmetry_refuted, C122_one_tailed, C122_constant_samples_refuted, C146_accepts_exactly, C150_attention_partial, C150_between_neighbours, C150_isolated_refuted, C150_weights_unused_refuted, C151_locality, C151_prediction_locality, C152_renumbering, C152_predictions_renumbered, C152_predictions_nonnegative, C203_one_value_per_parameter, C203_ranges, C203_default_nonnegative, C203_default_hidden_layer_idle.
* `ClassicalDedekindReals.sig_forall_dec`, `Classical_Prop.classic`, `FunctionalExtensionality.functional_extensionality_dep` — 1 theorems: C56_ssi_one_iff_equal.
* `ClassicalDedekindReals.sig_forall_dec`, `ClassicalDedekindReals.sig_not_dec`, `Classical_Prop.classic`, `FunctionalExtensionality.functional_extensionality_dep` — 140 theorems: C17_fallback_refuted, C18_chain_stays_admissible, C20_metropolis_step, C20_acceptance_rule, C21_ratio_fails_iff, C21_ratio_partial, C21_ratio_refuted, C21_ratio_exact_partial, C25_poisson_refuted, C25_poisson_ratio_partial, C25_multinomial_unnormalised_partial, C25_product_multinomial_unnormalised_partial, C25_fishers_ratio_partial, C25_normalised_refuted, C26_stopping_time_exact, C26_terminates_iff, C26_unique_and_tail, C27_series_value, C27_series_exact_iff_partial, C27_unit_weights_refuted, C28_logsumexp_exact, C28_logsumexp_stable, C29_totally_constrained_total, C30_production_constrained_rows, C30_production_constrained_total, C31_totally_constrained_batch, C31_production_constrained_batch, C31_production_constrained_partial, C31_production_constrained_refuted, C31_torch_batch_partial, C31_torch_batch_refuted, C32_attraction_shift, C32_cost_shift, C33_totally_constrained_gradient, C33_annealing_prior_is_limit, C33_production_constrained_gradient, C33_production_constrained_refuted, C34_noise_variance, C35_time_series, C35_stays_positive, C35_fixed_point_balance, C36_attraction_leapfrog_refuted, C61_losses_partial, C61_product_multinomial_refuted, C62_expected_totals_partial, C63_cross_ratio_invariant, C63_margin_odds_ratio, C66_correlated_refuted, C67_start_distribution_partial, C67_start_distribution_refuted, C68_estimate_bounds, C68_exact_for_proportional_target, C68_shift, C68_estimate_exists, C69_after_table_step_refuted, C69_after_attraction_step_refuted, C72_table_gradient_partial, C72_table_gradient_refuted, C103_task_weights, C123_sigmoids, C125_fisher_step, C125_clipped_refuted, C126_metropolis_step_partial, C126_binary_tables_partial, C126_metropolis_refuted, C127_multinomial_partial, C127_poisson_partial, C127_rows_partial, C127_both_margins_refuted, C128_shuffle, C129_limit, C129_converges_iff_joined, C129_connected_basis, C129_two_by_two, C129_all_margins_refuted, C141_stop_probability, C141_announced_series_unbiased, C141_average_of_returned_partial, C141_unbiased_refuted, C144_table_intensity_refuted, C145_sequential_estimate_partial, C145_infinite_weight_noticed, C145_parallel_refuted, C146_initial_valid, C146_negative_sign_refuted, C181_vectors_partial, C181_costs_partial, C181_table_partial, C181_uniform_refuted, C181_order_refuted, C182_same_seed, C182_generator_refuted, C182_noise_refuted, C183_last_key_refuted, C183_names_refuted, C184_regenerate_partial, C184_scale_refuted, C184_dt_refuted, C185_flows_partial, C185_square_refuted, C185_potential_refuted, C189_average_partial, C190_hessian, C190_saddle_refuted, C190_starting_points, C191_annealing_gradient, C191_annealing_detailed_balance, C191_annealing_acceptance, C196_total_cost_falls, C196_cost_by_origin_falls, C196_attraction_rises, C196_attractive_destination, C196_dearer_journey, C196_totally_constrained_jacobian, C196_production_constrained_jacobian, C197_totally_constrained, C197_production_constrained, C197_beta_identified, C197_both_identified, C198_confining, C198_balanced_sizes, C198_balances_are_fixed_points, C198_unique_balance, C198_several_balances, C198_without_delta, C198_annealing_minimum, C198_production_constrained_refuted, C199_only_costs_matter, C199_effects_cancel, C199_degree_one_effects_cancel, C199_models_agree_given_rows, C199_direct_effects_cancel, C199_cross_differences_matter, C199_attractions_matter_refuted, C200_limit_partial, C200_binary_one_margin_partial, C200_wrong_limit_refuted, C203_trial_negative_refuted, C205_cheap_and_attractive_preferred, C205_trial_prefers_costly_refuted.
* `ClassicalDedekindReals.sig_forall_dec`, `ClassicalDedekindReals.sig_not_dec`, `ClassicalEpsilon.constructive_indefinite_description`, `Classical_Prop.classic`, `FunctionalExtensionality.functional_extensionality_dep` — 7 theorems: C190_laplace_estimate, C190_defined_partial, C190_production_constrained, C191_trajectory_volume, C191_annealing_volume_partial, C191_attraction_volume_refuted, C198_minimum.

