{"id": "C01", "title": "Admissibility test is exact", "statement": "The admissibility check of a two-way contingency table answers yes exactly when every row, column and grand total the user constrained equals the supplied margin and every fixed cell equals its supplied value; no table with one wrong margin or one wrong fixed cell is accepted and no correct table is rejected.", "quantifier": "every table shape, every table of integers, every set of constrained margins, every list of fixed cells", "why_tests_cant": "the space of tables and constraint sets is infinite; a test only samples some", "anchors": ["gensit/contingency_table/__init__.py:ContingencyTable.table_admissible", "gensit/contingency_table/__init__.py:ContingencyTable.table_margins_admissible", "gensit/contingency_table/__init__.py:ContingencyTable.table_cells_admissible"]}
{"id": "C02", "title": "Implied margins are closed under summation", "statement": "From the margins the user constrains, the set of constrained margins that is stored contains exactly those plus every margin that is a sum of one of them (each axis set that contains a constrained axis set), so constraining row or column totals always also constrains the grand total, and doing it again adds nothing.", "quantifier": "every number of table dimensions and every set of constrained axes", "why_tests_cant": "unbounded number of axis sets and of dimensions", "anchors": ["gensit/contingency_table/__init__.py:ContingencyTable.infer_derivative_margin_axes", "gensit/contingency_table/__init__.py:ContingencyTable.read_constraints"]}
{"id": "C03", "title": "Constraint set determines the sampling distribution", "statement": "For a two-way table the distribution chosen is Poisson when nothing is constrained, multinomial when only the grand total is, product multinomial when exactly one of row and column totals is, and Fisher's hypergeometric when both are; the choice depends only on the set of constraints, never on their order or repetition, and never fails.", "quantifier": "every list of constrained axes of a two-way table, in any order and with repetitions", "why_tests_cant": "unbounded lists of constraints", "anchors": ["gensit/contingency_table/__init__.py:map_constraints_to_distribution_name", "gensit/contingency_table/__init__.py:ContingencyTable.read_constraints"]}
{"id": "C04", "title": "Residual margins account exactly for the fixed cells", "statement": "After construction with distinct fixed cells, each stored residual row, column and grand total is the supplied margin minus the sum of the fixed cells in it, the free cells are exactly the cells that are not fixed, and for every admissible table the free cells of each row, column and of the whole table sum to the residual.", "quantifier": "every shape, every table, every list of fixed cells", "why_tests_cant": "infinitely many tables and cell subsets", "anchors": ["gensit/contingency_table/__init__.py:ContingencyTable.propagate_cell_constraints", "gensit/contingency_table/__init__.py:ContingencyTable.update_margins_from_cells", "gensit/contingency_table/__init__.py:ContingencyTable.update_residual_margins_from_cell_constraints"]}
{"id": "C05", "title": "Cells implied by the margins are completed", "statement": "When the fixed cells leave exactly one unknown cell in a constrained row, column or total, construction succeeds and that cell is added to the fixed cells, until no constrained margin has exactly one unknown.", "quantifier": "every shape, ground truth, constraint set and list of fixed cells", "why_tests_cant": "must hold for every pattern of fixed cells, including chains of implications of any length", "anchors": ["gensit/contingency_table/__init__.py:ContingencyTable.update_cell_constraints_deterministically", "gensit/contingency_table/__init__.py:ContingencyTable.propagate_cell_constraints"]}
{"id": "C06", "title": "Monte Carlo start table always matches both margins", "statement": "Without fixed cells, the Monte Carlo initial table has non-negative entries, exactly the supplied row totals and exactly the supplied column totals, whatever random permutation is drawn, so the solver never raises.", "quantifier": "every shape, every pair of non-negative margins with equal totals, every permutation", "why_tests_cant": "factorially many permutations of unbounded size", "anchors": ["gensit/contingency_table/__init__.py:ContingencyTable2D.table_monte_carlo_sample"]}
{"id": "C07", "title": "A start table that is returned is admissible", "statement": "Whatever initial-table solver is configured and whatever is drawn at random, either an exception is raised or the returned table satisfies all constrained margins and fixed cells.", "quantifier": "every constraint set, every random draw, every solver", "why_tests_cant": "infinitely many random outcomes", "anchors": ["gensit/contingency_table/__init__.py:ContingencyTable2D.admissibility_debugging", "gensit/contingency_table/__init__.py:ContingencyTable2D.table_monte_carlo_sample", "gensit/contingency_table/__init__.py:ContingencyTable2D.table_maximum_entropy_solution", "gensit/contingency_table/__init__.py:ContingencyTable2D.table_random_sample"]}
{"id": "C08", "title": "Maximum-entropy start solver terminates with an admissible table", "statement": "With row and column totals constrained and no fixed cell, the maximum-entropy solver terminates for every sequence of random cell choices, within a number of choices bounded by the table total and the number of cells, and returns a non-negative table with exactly the supplied margins. With fixed cells it finds a table whenever one exists.", "quantifier": "every shape, every consistent pair of margins, every sequence of random choices", "why_tests_cant": "termination over all random schedules cannot be tested", "anchors": ["gensit/contingency_table/__init__.py:ContingencyTable2D.table_maximum_entropy_solution", "gensit/contingency_table/__init__.py:ContingencyTable2D.minres_given_constraints"]}
{"id": "C09", "title": "Margins recomputed from a table are that table's margins", "statement": "Updating a contingency table with a new non-negative table makes every stored margin the corresponding sum of the new table and makes that table admissible for every constraint set.", "quantifier": "every shape and every table", "why_tests_cant": "infinitely many tables", "anchors": ["gensit/contingency_table/__init__.py:ContingencyTable.update_margins_from_table", "gensit/contingency_table/__init__.py:ContingencyTable.update_table"]}
{"id": "C10", "title": "Unconstrained random start table respects the fixed cells", "statement": "The random start solver refuses tables with margin constraints; otherwise it returns a table whose fixed cells are the supplied ones and whose free cells are integers between 0 and the larger of 100 and the largest fixed cell.", "quantifier": "every fixed-cell list and every draw", "why_tests_cant": "infinitely many draws and cell lists", "anchors": ["gensit/contingency_table/__init__.py:ContingencyTable2D.table_random_sample"]}
{"id": "C11", "title": "Markov moves leave every constrained margin unchanged", "statement": "Every move in a generated Markov basis adds zero to every constrained row total, column total and the grand total, and touches only free cells, so a fixed cell is never in a move.", "quantifier": "every shape, every set of free cells, every random choice made while the basis is built", "why_tests_cant": "basis size grows without bound with the table", "anchors": ["gensit/contingency_table/MarkovBasis.py:MarkovBasis.generate_one_margin_preserving_markov_basis", "gensit/contingency_table/MarkovBasis.py:MarkovBasis.generate_both_margin_preserving_markov_basis", "gensit/contingency_table/MarkovBasis.py:MarkovBasis.generate"]}
{"id": "C12", "title": "One-margin Markov basis connects all tables", "statement": "When one margin (row or column totals) and the total are constrained and no cell is fixed, any two non-negative tables with the same constrained totals are linked by a finite walk of basis moves (in either direction) through non-negative tables with those totals.", "quantifier": "every shape and every pair of tables in the same fibre", "why_tests_cant": "fibres are infinite in number and unbounded in size", "anchors": ["gensit/contingency_table/MarkovBasis.py:MarkovBasis.generate_one_margin_preserving_markov_basis"]}
{"id": "C13", "title": "Two-margin Markov basis connects all tables", "statement": "When both row and column totals are constrained, any two non-negative tables with the same totals are linked by a walk of moves of the generated basis through non-negative tables.", "quantifier": "every shape, every fibre, every random choice made while building the basis", "why_tests_cant": "ergodicity quantifies over all pairs of tables", "anchors": ["gensit/contingency_table/MarkovBasis.py:MarkovBasis.construct_both_margin_preserving_markov_basis_for_cell", "gensit/contingency_table/MarkovBasis.py:MarkovBasis.generate_both_margin_preserving_markov_basis"]}
{"id": "C14", "title": "Markov basis has the advertised size and no duplicate move", "statement": "Without fixed cells a one-margin basis has exactly the number of moves the theoretical length function reports, I*J*(J-1)/2 or J*I*(I-1)/2, and no two moves are equal.", "quantifier": "every shape", "why_tests_cant": "all table sizes", "anchors": ["gensit/contingency_table/MarkovBasis.py:MarkovBasis2DTable.true_markov_basis_length", "gensit/contingency_table/MarkovBasis.py:MarkovBasis.generate_one_margin_preserving_markov_basis"]}
{"id": "C15", "title": "Pairs of cells considered for a move respect the constraint", "statement": "The candidate partners of a free cell are exactly the free cells to its right in the same row (row totals constrained), below it in the same column (column totals constrained), or in a later row and a later column (both constrained); any other constraint set is refused.", "quantifier": "every cell list, every cell, every constraint set", "why_tests_cant": "all cells of all tables", "anchors": ["gensit/contingency_table/MarkovBasis.py:MarkovBasis.active_candidates"]}
{"id": "C16", "title": "Degree-one proposal keeps constraints", "statement": "Proposing a Markov move with any basis function, any step size and any sign from an admissible table yields a table with the same constrained margins and the same fixed cells; only the cells of the move change and each changes by exactly the step times its coefficient.", "quantifier": "every table, basis, step", "why_tests_cant": "infinite state space", "anchors": ["gensit/contingency_table/ContingencyTable_MCMC.py:ContingencyTableMarkovChainMonteCarlo.degree_one_proposal_2way_table"]}
{"id": "C17", "title": "Degree-higher proposal keeps constraints and stays non-negative", "statement": "The two-by-two resampling proposal keeps row, column and grand totals and every cell outside the chosen two-by-two minor, and, for every value inside the support of the hypergeometric it draws from, keeps the four cells non-negative; also when the draw fails and the fall-back value is used.", "quantifier": "every table, every minor, every draw", "why_tests_cant": "infinite state space", "anchors": ["gensit/contingency_table/ContingencyTable_MCMC.py:ContingencyTableMarkovChainMonteCarlo.degree_higher_proposal_2way_table_fishers_hypergeometric"]}
{"id": "C18", "title": "Sampler never leaves the constraint set", "statement": "Starting from an admissible non-negative table, after any number of table steps with any proposals, any random draws and any accept or reject decisions, the current table is admissible and its fixed cells still hold the supplied values.", "quantifier": "every chain length, every sequence of random draws", "why_tests_cant": "unbounded histories of a random process", "anchors": ["gensit/contingency_table/ContingencyTable_MCMC.py:ContingencyTableMarkovChainMonteCarlo.table_gibbs_step", "gensit/experiments.py:Table_MCMC.run"]}
{"id": "C19", "title": "Step size support is exactly the non-negative moves", "statement": "The range of step sizes offered for a move is exactly the set of integers (zero included) for which every affected cell stays non-negative.", "quantifier": "every table and move", "why_tests_cant": "infinitely many tables", "anchors": ["gensit/contingency_table/ContingencyTable_MCMC.py:ContingencyTableMarkovChainMonteCarlo.get_table_step_size_support"]}
{"id": "C20", "title": "Negative tables are never accepted", "statement": "A Metropolis table step never returns a table with a negative entry when it starts from one without, and when it rejects it returns the previous table and flag 0, when it accepts the proposal and flag 1.", "quantifier": "every proposal, every uniform draw", "why_tests_cant": "all draws and tables", "anchors": ["gensit/contingency_table/ContingencyTable_MCMC.py:ContingencyTableMarkovChainMonteCarlo.table_gibbs_step", "gensit/contingency_table/ContingencyTable_MCMC.py:ContingencyTableMarkovChainMonteCarlo.metropolis_log_acceptance_ratio_2way_table"]}
{"id": "C21", "title": "Metropolis acceptance uses the true probability ratio", "statement": "The log acceptance of a Metropolis table step equals the difference of the log target of the two tables, that is the sum over changed cells of (new-old)*log odds minus the log factorials difference.", "quantifier": "every pair of tables and intensity", "why_tests_cant": "real-valued identity over all tables", "anchors": ["gensit/contingency_table/ContingencyTable_MCMC.py:ContingencyTableMarkovChainMonteCarlo.log_target_measure_difference_2way_table", "gensit/contingency_table/ContingencyTable_MCMC.py:ContingencyTableMarkovChainMonteCarlo.metropolis_log_acceptance_ratio_2way_table"]}
{"id": "C22", "title": "Direct sampling keeps fixed cells and the drawn total", "statement": "A directly sampled multinomial table has the fixed cells at their supplied values and free cells whose sum is the residual total, so its grand total is the constrained one; the sampler returns only admissible tables.", "quantifier": "every draw of counts, every fixed-cell list", "why_tests_cant": "all random draws", "anchors": ["gensit/contingency_table/ContingencyTable_MCMC.py:ContingencyTableMarkovChainMonteCarlo.multinomial_sample_2way_table", "gensit/contingency_table/ContingencyTable_MCMC.py:ContingencyTableMarkovChainMonteCarlo.poisson_sample_2way_table"]}
{"id": "C23", "title": "Product-multinomial sampling fills each row or column with its own counts", "statement": "The counts drawn for one constrained row (or column) are placed in the free cells of that row (or column), so every table drawn satisfies the constrained margins at the first attempt.", "quantifier": "every shape, constraint axis, fixed cells and draw", "why_tests_cant": "all draws", "anchors": ["gensit/contingency_table/ContingencyTable_MCMC.py:ContingencyTableMarkovChainMonteCarlo.product_multinomial_sample_2way_table", "gensit/utils/probability_utils.py:sample_multinomial_row"]}
{"id": "C24", "title": "Fixed cells switch the sampler to a proposal that supports them", "statement": "When cells are fixed and direct sampling of that constraint set is impossible the proposal type is changed to a Markov-basis proposal for every distribution.", "quantifier": "every distribution and requested proposal", "why_tests_cant": "all configurations", "anchors": ["gensit/contingency_table/ContingencyTable_MCMC.py:ContingencyTableMarkovChainMonteCarlo.update_proposal_type"]}
{"id": "C25", "title": "Table probabilities take table and intensity in the order documented", "statement": "Each normalised table log-probability equals the unnormalised one of the same table and the same intensity minus its normalising term, and the unnormalised Poisson one is the Poisson log-density.", "quantifier": "every table and intensity", "why_tests_cant": "real identities over all tables", "anchors": ["gensit/utils/probability_utils.py:log_poisson_pmf_normalised", "gensit/utils/probability_utils.py:log_poisson_pmf_unnormalised", "gensit/utils/probability_utils.py:log_multinomial_pmf_normalised"]}
{"id": "C26", "title": "Stopping times follow the inverse power law", "statement": "The sampled stopping time for exponent k and uniform draw u is the unique n whose interval (n+1)^-k <= u < n^-k contains u (n=1 covers u up to one), so the probability of exceeding n is (n+1)^-k.", "quantifier": "every exponent and every draw", "why_tests_cant": "all draws", "anchors": ["gensit/utils/probability_utils.py:generate_stopping_times"]}
{"id": "C27", "title": "Truncated series estimator telescopes", "statement": "The series estimator equals the first term plus the weighted differences of consecutive terms up to the stopping time; with weights one it is exactly the last term.", "quantifier": "every sequence of terms and every stopping time", "why_tests_cant": "unbounded stopping times", "anchors": ["gensit/utils/probability_utils.py:compute_truncated_infinite_series"]}
{"id": "C28", "title": "Log-sum-exp is shift invariant and exact", "statement": "The helper that sums probabilities in log space returns the log of the sum of exponentials for every non-empty input.", "quantifier": "all real vectors", "why_tests_cant": "reals", "anchors": ["gensit/utils/math_utils.py:logsumexp"]}
{"id": "C29", "title": "Totally constrained flows sum to the total", "statement": "The intensities of the totally constrained model are strictly positive and sum over all origins and destinations to the grand total.", "quantifier": "every size, cost matrix, attraction, alpha, beta and positive total", "why_tests_cant": "real-valued, all sizes", "anchors": ["gensit/intensity_models/spatial_interaction_models/TotallyConstrained/__init__.py:log_flow_matrix"]}
{"id": "C30", "title": "Production constrained flows meet the origin demand", "statement": "For every origin the intensities of the production constrained model sum over destinations to the origin demand times the grand total, and are strictly positive.", "quantifier": "every size, cost, attraction, parameter, demand", "why_tests_cant": "real-valued, all sizes", "anchors": ["gensit/intensity_models/spatial_interaction_models/ProductionConstrained/__init__.py:log_flow_matrix"]}
{"id": "C31", "title": "Batched intensities equal the single ones", "statement": "Evaluating the intensity for a batch of parameter draws gives, for each draw, the intensity of that draw on its own, for every cost matrix.", "quantifier": "every batch size and cost matrix", "why_tests_cant": "all batch sizes and matrices", "anchors": ["gensit/intensity_models/spatial_interaction_models/ProductionConstrained/__init__.py:log_flow_matrix", "gensit/intensity_models/spatial_interaction_models/TotallyConstrained/__init__.py:log_flow_matrix"]}
{"id": "C32", "title": "Flows ignore additive shifts of log attraction", "statement": "Adding the same constant to every log attraction (or, per model, to the costs) changes no flow.", "quantifier": "all shifts and inputs", "why_tests_cant": "real-valued", "anchors": ["gensit/intensity_models/spatial_interaction_models/TotallyConstrained/__init__.py:log_flow_matrix", "gensit/intensity_models/spatial_interaction_models/ProductionConstrained/__init__.py:log_flow_matrix"]}
{"id": "C33", "title": "Potential gradient is the derivative of the potential", "statement": "The gradient used by the Hamiltonian sampler is the derivative of the potential with respect to each log attraction, at every point.", "quantifier": "every size, parameter and point", "why_tests_cant": "real analysis over all points", "anchors": ["gensit/intensity_models/spatial_interaction_models/TotallyConstrained/__init__.py:sde_pot", "gensit/physics_models/HarrisWilsonModel.py:HarrisWilson.sde_potential_and_gradient"]}
{"id": "C34", "title": "Gaussian data likelihood and its gradient agree", "statement": "The negative log likelihood of the observed attractions is minimal exactly at the observation and the reported gradient is its derivative.", "quantifier": "all sizes and real inputs", "why_tests_cant": "real analysis", "anchors": ["gensit/physics_models/HarrisWilsonModel.py:HarrisWilson.negative_destination_attraction_log_likelihood_and_gradient"]}
{"id": "C35", "title": "Time stepping returns the requested number of states", "statement": "Running the forward model for n iterations returns n+1 states (or one when only the last is asked for) each of which is one Euler step after its predecessor, and a state that starts positive with zero noise and small enough step stays positive.", "quantifier": "all n, states, parameters", "why_tests_cant": "unbounded runs", "anchors": ["gensit/physics_models/HarrisWilsonModel.py:HarrisWilson.run", "gensit/physics_models/HarrisWilsonModel.py:HarrisWilson.run_single"]}
{"id": "C36", "title": "Leapfrog integration is reversible", "statement": "Running the leapfrog integrator, flipping the momentum and running it again returns to the start, for every gradient function, step size and number of steps.", "quantifier": "every gradient, step size, step count", "why_tests_cant": "all trajectories", "anchors": ["gensit/learning_models/HarrisWilsonModel_MCMC.py:HarrisWilson_MCMC.log_destination_attraction_gibbs_step", "gensit/learning_models/HarrisWilsonModel_MCMC.py:HarrisWilson_MCMC.annealed_importance_sampling_log_z"]}
{"id": "C37", "title": "Reflected parameter proposals stay in the prior range", "statement": "A proposed parameter that is accepted lies in [0,2) in every component, and a proposal overshooting a bound by less than 2 is mirrored at that bound.", "quantifier": "all proposals and draws", "why_tests_cant": "all reals", "anchors": ["gensit/learning_models/HarrisWilsonModel_MCMC.py:HarrisWilson_MCMC.theta_gibbs_step"]}
{"id": "C38", "title": "Accept or reject returns a matching set of values", "statement": "A parameter step returns either all the proposed values (parameters, potential, gradient, log z inverse, sign) with flag 1 or all the previous ones with flag 0, never a mixture.", "quantifier": "all inputs and draws", "why_tests_cant": "all histories", "anchors": ["gensit/learning_models/HarrisWilsonModel_MCMC.py:HarrisWilson_MCMC.theta_gibbs_step", "gensit/learning_models/HarrisWilsonModel_MCMC.py:HarrisWilson_MCMC.log_destination_attraction_gibbs_step"]}
{"id": "C39", "title": "Setting a configuration value makes it readable and changes nothing else", "statement": "After a successful set of a key path, reading that path returns the value and every path not below or above it is unchanged; a set that reports success has taken effect.", "quantifier": "every configuration tree, path and value", "why_tests_cant": "all trees", "anchors": ["gensit/config.py:Config.path_set", "gensit/config.py:Config.path_get"]}
{"id": "C40", "title": "Key search finds exactly the occurrences of the key", "statement": "Searching a configuration for a key returns exactly the paths that end in this key, each of them readable.", "quantifier": "every tree and key", "why_tests_cant": "all trees", "anchors": ["gensit/config.py:Config.path_find", "gensit/config.py:Config.path_exists"]}
{"id": "C41", "title": "Schema modification reports failure", "statement": "Modifying a path reports success exactly when the path exists and the value was replaced.", "quantifier": "every tree and path", "why_tests_cant": "all trees", "anchors": ["gensit/config.py:Config.path_modify"]}
{"id": "C42", "title": "Parameter sweeps enumerate the full product once", "statement": "The sweep configurations are exactly the combinations of one value per isolated parameter and one row per coupled group, each combination exactly once, in as many as the product of the sizes; coupled values always stay in the same row; duplicates are refused.", "quantifier": "all numbers of parameters and values", "why_tests_cant": "unbounded products", "anchors": ["gensit/config.py:Config.prepare_sweep_configurations"]}
{"id": "C43", "title": "Each sweep configuration sets exactly its parameters", "statement": "The configuration built for a combination has every swept path set to its value of that combination and all other settings as before.", "quantifier": "all configurations and combinations", "why_tests_cant": "all trees and sweeps", "anchors": ["gensit/config.py:Config.prepare_experiment_config"]}
{"id": "C44", "title": "Resuming a sweep re-runs exactly what is missing", "statement": "When a sweep is resumed the combinations whose metadata, data and log all exist are skipped and all others are run.", "quantifier": "every crash point / set of existing files", "why_tests_cant": "every crash point", "anchors": ["gensit/config.py:Config.trim_sweep_configurations", "gensit/experiments.py:ExperimentSweep.run"]}
{"id": "C45", "title": "Range validation accepts exactly the values in range", "statement": "A value is accepted exactly when it lies in the configured range, with ends included or excluded as configured.", "quantifier": "all values and ranges", "why_tests_cant": "all numbers", "anchors": ["gensit/utils/misc_utils.py:in_range", "gensit/utils/config_data_structures.py:PrimitiveEntry.check_range"]}
{"id": "C46", "title": "Range strings expand to the stated sequence", "statement": "a:b expands to every integer from a to b, a:b:s to every a+k*s not beyond b, ends included or excluded as configured; repeat(x,n) to n copies.", "quantifier": "all bounds and steps", "why_tests_cant": "all numbers", "anchors": ["gensit/utils/config_data_structures.py:CustomList._parse"]}
{"id": "C47", "title": "Bounded executor never exceeds its limit", "statement": "At every moment of every schedule the number of submitted but unfinished tasks is at most the limit, each finished task frees exactly one slot, and with a positive limit submission is never blocked forever once tasks finish.", "quantifier": "every schedule of submissions and completions", "why_tests_cant": "all interleavings", "anchors": ["gensit/utils/multiprocessor.py:BoundedQueuePoolExecutor", "gensit/utils/multiprocessor.py:BoundedQueueProcessPoolExecutor"]}
{"id": "C48", "title": "Work is split into chunks without loss", "statement": "Splitting a list into chunks of size n gives chunks of at most n elements, all but the last full, whose concatenation is the list, so every sweep configuration is run exactly once.", "quantifier": "all lists and chunk sizes", "why_tests_cant": "unbounded", "anchors": ["gensit/utils/misc_utils.py:divide_chunks", "gensit/experiments.py:ExperimentSweep.run_concurrent"]}
{"id": "C49", "title": "Burn-in, thinning and trimming keep the stated samples", "statement": "Index slicing with burn-in b, thinning t and trimming m keeps exactly the samples b, b+t, b+2t, ... below the size, at most m of them, in order; a slice that would leave nothing is ignored.", "quantifier": "all sizes and settings", "why_tests_cant": "unbounded", "anchors": ["gensit/outputs.py:Outputs.slice_coordinates_by_index"]}
{"id": "C50", "title": "Every recorded quantity gets one row per recorded step", "statement": "After a run of n steps each sampled quantity has exactly one stored row per recorded step, in order, the last row being the latest sample; in particular the acceptance indicator of the table sampler.", "quantifier": "all run lengths and write settings", "why_tests_cant": "unbounded runs", "anchors": ["gensit/experiments.py:Experiment.write_data", "gensit/experiments.py:Table_MCMC.run"]}
{"id": "C51", "title": "Batches of samples cover the run", "statement": "The cumulative batch sizes increase and end at the number of samples N.", "quantifier": "all N and fractions", "why_tests_cant": "unbounded", "anchors": ["gensit/experiments.py:Experiment.define_sample_batch_sizes"]}
{"id": "C52", "title": "Cell and table text codecs round-trip", "statement": "Turning a cell or a table into text and back gives the same cell or table.", "quantifier": "all tables", "why_tests_cant": "unbounded", "anchors": ["gensit/utils/misc_utils.py:tuple_to_str", "gensit/utils/misc_utils.py:str_to_tuple", "gensit/utils/misc_utils.py:table_to_str", "gensit/utils/misc_utils.py:str_to_table"]}
{"id": "C53", "title": "Nested dictionary merge and update", "statement": "Merging two dictionaries keeps every key of both, concatenates list values, and does not alter its arguments; updating a nested key changes every occurrence of the key and nothing else.", "quantifier": "all dictionaries", "why_tests_cant": "unbounded trees", "anchors": ["gensit/utils/misc_utils.py:deep_merge", "gensit/utils/misc_utils.py:deep_update", "gensit/utils/misc_utils.py:deep_get", "gensit/utils/misc_utils.py:update_recursively"]}
{"id": "C54", "title": "Coordinate slices keep all requested values", "statement": "Parsing several coordinate slices for the same key keeps the union of all requested values.", "quantifier": "all slice lists", "why_tests_cant": "unbounded", "anchors": ["gensit/utils/misc_utils.py:parse_slice_by"]}
{"id": "C55", "title": "Shortest interval has the requested mass and minimal width", "statement": "The interval reported for a sample and mass level contains the stated number of sorted samples and no window with that number of samples is narrower.", "quantifier": "all samples and levels", "why_tests_cant": "all real samples", "anchors": ["gensit/utils/math_utils.py:calculate_min_interval", "gensit/utils/math_utils.py:coverage_probability"]}
{"id": "C56", "title": "Goodness-of-fit scores have their defining range", "statement": "The similarity index of two non-negative tables is between 0 and 1, equal to 1 for equal tables and symmetric; SRMSE is zero exactly for equal tables.", "quantifier": "all tables", "why_tests_cant": "all tables", "anchors": ["gensit/utils/math_utils.py:ssi", "gensit/utils/math_utils.py:srmse"]}
{"id": "C57", "title": "Edit distances count the moves between tables", "statement": "The degree-one distance between two tables with equal totals is half their L1 distance, is zero exactly for equal tables and symmetric.", "quantifier": "all tables", "why_tests_cant": "all tables", "anchors": ["gensit/utils/math_utils.py:edit_distance_degree_one", "gensit/utils/math_utils.py:edit_distance_degree_higher"]}
{"id": "C58", "title": "Learning uses every loss of a batch", "statement": "The parameters are updated once per batch with the accumulated losses of all its steps.", "quantifier": "all batch sizes and losses", "why_tests_cant": "unbounded histories", "anchors": ["gensit/experiments.py:Experiment.model_update_and_export"]}
{"id": "C59", "title": "Command line statistics and dimension options are kept complete", "statement": "Every statistic and every dimension given on the command line is present in the parsed option.", "quantifier": "all option lists", "why_tests_cant": "unbounded", "anchors": ["gensit/utils/click_parsers.py:unpack_statistics", "gensit/utils/click_parsers.py:dims_to_list"]}
{"id": "C60", "title": "Progress-bar positions of running workers are distinct", "statement": "Two workers that are running at the same time are assigned different positions as long as claims are atomic, and a finished worker's position is reused.", "quantifier": "all schedules", "why_tests_cant": "all interleavings", "anchors": ["gensit/utils/misc_utils.py:position_index", "gensit/experiments.py:ExperimentSweep.prepare_instantiate_and_run"]}
{"id": "C61", "title": "Table losses are the negated table log-probabilities", "statement": "For each table distribution the loss function offered for evaluating stored tables is minus the unnormalised log-probability used while sampling, for the same table and intensity.", "quantifier": "every table and intensity of every shape", "why_tests_cant": "real identities over all tables", "anchors": ["gensit/utils/probability_utils.py:log_poisson_loss", "gensit/utils/probability_utils.py:log_multinomial_loss", "gensit/utils/probability_utils.py:log_product_multinomial_loss", "gensit/utils/probability_utils.py:log_fishers_hypergeometric_loss"]}
{"id": "C62", "title": "Expected tables keep the constrained totals", "statement": "The expected table of the multinomial and of the Fisher distribution has the table's grand total and positive cells; the one of the product multinomial has the table's row totals.", "quantifier": "every table and intensity of every shape", "why_tests_cant": "real identities over all tables", "anchors": ["gensit/utils/probability_utils.py:multinomial_pmf_ground_truth", "gensit/utils/probability_utils.py:product_multinomial_pmf_ground_truth", "gensit/utils/probability_utils.py:fishers_hypergeometric_pmf_ground_truth"]}
{"id": "C63", "title": "Odds ratios ignore row and column scalings", "statement": "The log odds ratio of any two-by-two minor is unchanged when a row or a column of the intensity is scaled and when the intensity is replaced by its margin odds ratios, and it is the log of the cross product ratio of the four intensities.", "quantifier": "every intensity, every pair of cells, every scaling", "why_tests_cant": "real identities", "anchors": ["gensit/utils/probability_utils.py:log_odds_cross_ratio", "gensit/utils/probability_utils.py:log_odds_ratio_wrt_intensity"]}
{"id": "C64", "title": "Signed averages reduce to ordinary moments", "statement": "With equal signs the signed mean and variance are the ordinary sample mean and variance (the latter non-negative); a constant sample has its value as mean and zero variance whatever the signs.", "quantifier": "every sample and every sign vector that does not sum to zero", "why_tests_cant": "real identities over all samples", "anchors": ["gensit/utils/math_utils.py:signed_mean", "gensit/utils/math_utils.py:signed_var"]}
{"id": "C65", "title": "A sample's score does not depend on the rest of its batch", "statement": "Scoring a batch of predicted tables gives every table the score it would get on its own (similarity index and SRMSE).", "quantifier": "every batch, table shape, mask and ground truth", "why_tests_cant": "unbounded batch sizes and real-valued tables", "anchors": ["gensit/utils/math_utils.py:srmse", "gensit/utils/math_utils.py:ssi"]}
{"id": "C66", "title": "Parameter proposals are symmetric", "statement": "Moving from one parameter pair to another by the reflected random walk is as likely as moving back, which the acceptance rule (no proposal ratio) relies on.", "quantifier": "every pair of parameters in range, every step size and proposal matrix", "why_tests_cant": "a statement about densities over all pairs", "anchors": ["gensit/learning_models/HarrisWilsonModel_MCMC.py:HarrisWilson_MCMC.theta_gibbs_step", "gensit/learning_models/HarrisWilsonModel_MCMC.py:HarrisWilson_MCMC.theta_given_table_gibbs_step"]}
{"id": "C67", "title": "Annealing particles start from the prior", "statement": "The initial log attractions of the annealed importance sampler are distributed with density proportional to exp(-prior potential), the temperature-zero end of the annealing path.", "quantifier": "every number of destinations and every delta, kappa, sigma", "why_tests_cant": "equality of densities on all of R^J", "anchors": ["gensit/learning_models/HarrisWilsonModel_MCMC.py:HarrisWilson_MCMC.annealed_importance_sampling_log_z"]}
{"id": "C68", "title": "The annealed estimate tracks the normalising constant", "statement": "Whatever is drawn, adding a constant to the target potential shifts the estimated log normalising constant by exactly minus that constant, the estimate lies between the bounds of the log ratio of target to prior, and it is exact when the target is proportional to the prior; with at least one leapfrog step it always exists.", "quantifier": "every potential, gradient, number of particles, temperatures and leapfrog steps, and every random draw", "why_tests_cant": "unbounded numbers of particles, temperatures and draws", "anchors": ["gensit/learning_models/HarrisWilsonModel_MCMC.py:HarrisWilson_MCMC.annealed_importance_sampling_log_z"]}
{"id": "C69", "title": "Values cached by the joint chain are those of its state", "statement": "Along the joint chain of parameters, attractions and tables the cached potential, gradient, normalising constant and table likelihood are those of the current parameters, attractions and table.", "quantifier": "every sequence of steps and draws", "why_tests_cant": "arbitrary histories of three kinds of steps", "anchors": ["gensit/experiments.py:JointTableSIM_MCMC.run", "gensit/learning_models/HarrisWilsonModel_MCMC.py:HarrisWilson_MCMC.log_destination_attraction_given_table_gibbs_step", "gensit/learning_models/HarrisWilsonModel_MCMC.py:HarrisWilson_MCMC.theta_given_table_gibbs_step"]}
{"id": "C70", "title": "Attraction moves are accepted by the full energy difference", "statement": "A proposed move of the log attractions is accepted exactly when the log of the uniform draw is below the drop in kinetic energy plus potential plus minus log likelihood of the observed attractions.", "quantifier": "every state, momentum, step size, number of steps and uniform draw", "why_tests_cant": "real inequalities over all states and draws", "anchors": ["gensit/learning_models/HarrisWilsonModel_MCMC.py:HarrisWilson_MCMC.log_destination_attraction_gibbs_step"]}
{"id": "C71", "title": "Derived capacity parameters balance the model", "statement": "When kappa is left out of the configuration, the value derived from the data balances the model: kappa times the total observed attraction equals total demand plus J times delta; when delta is left out it is kappa times the smallest attraction; values supplied by the user are kept.", "quantifier": "every observed attraction vector with positive total, every supplied or missing delta/kappa", "why_tests_cant": "real identity over all data", "anchors": ["gensit/inputs.py:Inputs.update_delta_and_kappa"]}
{"id": "C72", "title": "The table likelihood gradient is the gradient of the table likelihood", "statement": "The gradient used in the attraction moves given a table is the vector of partial derivatives of minus the log table likelihood.", "quantifier": "every table, parameters and attractions", "why_tests_cant": "derivatives at all points", "anchors": ["gensit/learning_models/HarrisWilsonModel_MCMC.py:HarrisWilson_MCMC.negative_table_log_likelihood_gradient", "gensit/learning_models/HarrisWilsonModel_MCMC.py:HarrisWilson_MCMC.negative_table_log_likelihood_expanded"]}
{"id": "C73", "title": "The Laplace approximation uses the lowest minimum found", "statement": "Of the minima found from all starting points the approximation of the normalising constant uses one with the lowest potential.", "quantifier": "every list of candidate minima", "why_tests_cant": "unbounded number of candidates", "anchors": ["gensit/learning_models/HarrisWilsonModel_MCMC.py:HarrisWilson_MCMC.biased_z_inverse"]}
{"id": "C74", "title": "Deleting a configuration path removes it and only it", "statement": "Deleting a path of the configuration reports success exactly when the path exists, afterwards the path cannot be reached, and every path unrelated to it keeps its value (for a list entry, the later entries move up by one).", "quantifier": "every configuration tree and every path", "why_tests_cant": "trees and paths are unbounded and the in-place recursion can touch siblings in any of them", "anchors": ["gensit/config.py: Config.path_delete"]}
{"id": "C75", "title": "The folder of a sweep configuration is reproducible", "statement": "The output folder name computed for a sweep configuration depends only on the names and values of the swept parameters, not on the unspecified order in which the set of names is iterated.", "quantifier": "every set of parameter names, every iteration order of it and every assignment of values", "why_tests_cant": "set iteration order is randomised per process, a test sees one order", "anchors": ["gensit/config.py: Config.get_sweep_id"]}
{"id": "C76", "title": "Different sweep configurations write to different folders", "statement": "Two configurations of a sweep that differ in a swept value get different output folders, so no run overwrites another's results.", "quantifier": "every pair of configurations over the same swept parameters", "why_tests_cant": "it is a statement about all pairs of values", "anchors": ["gensit/config.py: Config.get_sweep_id", "gensit/utils/misc_utils.py: sigma_to_noise_regime"]}
{"id": "C77", "title": "Every swept parameter is discovered", "statement": "Discovery of sweep parameters returns, for every parameter of the configuration that has a sweep with a range, its own key path under its name, and nothing else.", "quantifier": "every configuration tree", "why_tests_cant": "nesting, position and coupling of sweeps range over all trees", "anchors": ["gensit/config.py: Config.find_sweep_key_paths", "gensit/static/global_variables.py: deep_walk"]}
{"id": "C78", "title": "File and directory settings are validated", "statement": "A file setting is accepted exactly when the file exists (if the schema demands it) and its name ends in the declared extension; a directory setting only when it names a directory.", "quantifier": "every path text, every file system and every schema", "why_tests_cant": "paths, extensions and file systems are unbounded", "anchors": ["gensit/utils/config_data_structures.py: Path.check_extension, File.check, Directory.check"]}
{"id": "C79", "title": "Primitive settings are validated exactly", "statement": "A primitive setting is accepted exactly when it has the declared type, is finite if demanded, lies in the declared range and is one of the listed values.", "quantifier": "every value and every schema of a primitive setting", "why_tests_cant": "values and schemas are unbounded", "anchors": ["gensit/utils/config_data_structures.py: PrimitiveEntry.check_range, check_scope, Numeric.check, Str.check, Bool"]}
{"id": "C80", "title": "List settings are validated exactly", "statement": "A list setting is accepted exactly when its length is permitted, its values differ if uniqueness is demanded, and every element - nested lists included - passes its own check.", "quantifier": "every list, nested to any depth", "why_tests_cant": "length and nesting are unbounded", "anchors": ["gensit/utils/config_data_structures.py: NonPrimitiveEntry.check_length, check_uniqueness, check_elements, List.check"]}
{"id": "C81", "title": "A failing sweep configuration is reported", "statement": "When the run of a sweep configuration fails the sweep reports it; configurations before it have been run, and no configuration is silently skipped.", "quantifier": "every list of configurations and every pattern of failures", "why_tests_cant": "failures may hit any subset of any number of configurations", "anchors": ["gensit/experiments.py: ExperimentSweep.run_sequential, run_concurrent"]}
{"id": "C82", "title": "Joint slices give the same samples in every interpreter run", "statement": "Slicing several dimensions at once with burn-in, thinning and trimming keeps the same samples whatever order the interpreter lists a set of dimension names in.", "quantifier": "all arrays, slices and set orders", "why_tests_cant": "the set order changes with string hashing between runs", "anchors": ["gensit/outputs.py:Outputs.slice_coordinates_by_index"]}
{"id": "C83", "title": "Training losses are recorded", "statement": "When an experiment lists the loss among its outputs, every optimiser update records each loss and the total loss.", "quantifier": "all training runs, loss functions and batch sizes", "why_tests_cant": "unbounded runs", "anchors": ["gensit/experiments.py:Experiment.model_update_and_export", "gensit/experiments.py:Experiment.write_data"]}
{"id": "C84", "title": "A table and the function on cells it stands for determine each other", "statement": "Turning a function on cells into a table gives, in every cell of the requested shape, the value of the function (zero elsewhere); without a shape the smallest table holding all cells is used; turning a table into a function and back gives the same table.", "quantifier": "all functions on cells, shapes and tables", "why_tests_cant": "unbounded tables and supports", "anchors": ["gensit/utils/misc_utils.py:f_to_array", "gensit/utils/misc_utils.py:array_to_f"]}
{"id": "C85", "title": "Keyword options keep their key and their complete value", "statement": "A keyword option key=value on the command line is kept, in order, with the complete value (any further = belongs to the value); an option without = stands for itself.", "quantifier": "all option lists", "why_tests_cant": "unbounded texts", "anchors": ["gensit/utils/click_parsers.py:evaluate_kwargs_callback"]}
{"id": "C86", "title": "Looking a key up finds every outermost occurrence", "statement": "Looking up a key in a configuration returns exactly the values stored under that key at any depth, in dictionaries and lists, not looking inside a value already returned; nothing is returned exactly when the key occurs nowhere.", "quantifier": "all configurations and keys", "why_tests_cant": "unbounded trees", "anchors": ["gensit/utils/misc_utils.py:deep_get", "gensit/outputs.py:Outputs.open_output_file"]}
{"id": "C87", "title": "Settings given on the command line take effect", "statement": "Every setting given on the command line is the value found under its name in the configuration afterwards, and nothing else changes.", "quantifier": "all configurations and settings", "why_tests_cant": "unbounded trees and setting lists", "anchors": ["gensit/main.py:setup_experiments", "gensit/utils/misc_utils.py:deep_updates"]}
{"id": "C88", "title": "Exporting is switched off and restored", "statement": "While the outputs of a sweep are being created no export is on, and afterwards every experiment has its own export settings back.", "quantifier": "all configurations", "why_tests_cant": "unbounded trees", "anchors": ["gensit/experiments.py:ExperimentSweep.__init__", "gensit/utils/misc_utils.py:deep_update", "gensit/utils/misc_utils.py:deep_updates"]}
{"id": "C89", "title": "Resuming takes the hardware settings of the new configuration", "statement": "Resuming an experiment uses the loaded configuration with the number of workers, threads, device and log level of the new one.", "quantifier": "all loaded and new configurations", "why_tests_cant": "unbounded trees", "anchors": ["gensit/experiments.py:ExperimentSweep.__init__", "gensit/utils/misc_utils.py:deep_get", "gensit/utils/misc_utils.py:deep_update"]}
{"id": "C90", "title": "An existing time stamp is kept", "statement": "Constructing an experiment keeps the time stamp of a configuration that has one, adds one otherwise, and changes nothing else.", "quantifier": "all configurations", "why_tests_cant": "unbounded trees", "anchors": ["gensit/experiments.py:Experiment.__init__", "gensit/utils/misc_utils.py:deep_update"]}
{"id": "C91", "title": "Applying a function to a configuration keeps its shape", "statement": "Applying a function to every setting keeps the keys and nesting, and replaces each setting (a list counting as one) by its image.", "quantifier": "all configurations and functions", "why_tests_cant": "unbounded trees", "anchors": ["gensit/utils/misc_utils.py:deep_apply", "gensit/config.py:Config.apply"]}
{"id": "C92", "title": "The Monte Carlo solver finds a start table when cells are fixed", "statement": "With fixed cells, the Monte Carlo start-table solver returns a table satisfying the constrained margins and holding every fixed cell at its value.", "quantifier": "all shapes, margins, fixed cells and shuffles", "why_tests_cant": "unbounded tables and all random shuffles", "anchors": ["gensit/contingency_table/__init__.py:ContingencyTable2D.table_monte_carlo_sample"]}
{"id": "C93", "title": "Sampled margins agree with each other and with the fixed cells", "statement": "After the margins are sampled, the sampled row and column sums each add up to the sampled grand total, and the residual margins account for the fixed cells.", "quantifier": "all tables, fixed cells, known margins and random draws", "why_tests_cant": "unbounded tables and all random draws", "anchors": ["gensit/contingency_table/ContingencyTable_MCMC.py:ContingencyTableMarkovChainMonteCarlo.sample_margins_2way_table"]}
{"id": "C94", "title": "Cell masks mark exactly the listed cells", "statement": "The train, test and validation masks built from lists of cells are true at exactly the positions the listed cells name (negative numbers count from the end); a cell outside the table raises.", "quantifier": "all table shapes and lists of cells", "why_tests_cant": "unbounded shapes and lists", "anchors": ["gensit/utils/misc_utils.py:create_mask", "gensit/inputs.py:Inputs.create_cell_masks"]}
{"id": "C95", "title": "Predictions are written back to the cells they were made for", "statement": "Every table written by a comparison experiment holds at each evaluation cell the prediction made for that cell in that iteration, at each other training cell the observed value and elsewhere the fill value; a wrong number of predictions (other than one) or a cell outside the table raises.", "quantifier": "all tables, cell lists and predictions", "why_tests_cant": "unbounded tables and lists", "anchors": ["gensit/utils/misc_utils.py:populate_array"]}
{"id": "C96", "title": "Features are scaled to [-1,1]", "statement": "Feature scaling maps every feature column, keeping its order, onto the interval from -1 to 1, smallest value to -1 and largest to 1.", "quantifier": "all finite real feature matrices", "why_tests_cant": "real-valued inputs, constant columns", "anchors": ["gensit/experiments.py:RandomForest_Comparison.run"]}
{"id": "C97", "title": "Configured hyper-parameters of the learning models take effect", "statement": "A hyper-parameter set in the configuration is the value the learning model is built with; otherwise its default is.", "quantifier": "all configurations and hyper-parameters", "why_tests_cant": "every configuration", "anchors": ["gensit/learning_models/RandomForest.py:RF_Model", "gensit/learning_models/XGB.py:XGB_Model", "gensit/learning_models/GBRT.py:GBRT_Model", "gensit/learning_models/GraphAttentionNetwork.py:GAT_Model"]}
{"id": "C98", "title": "The neural network has the configured layers", "statement": "The network built has the configured number of layers and widths between the input and output sizes, and each layer has its configured activation.", "quantifier": "all layer configurations", "why_tests_cant": "every configuration", "anchors": ["gensit/learning_models/HarrisWilsonModel_NeuralNet.py:get_architecture", "gensit/learning_models/HarrisWilsonModel_NeuralNet.py:get_activation_funcs", "gensit/learning_models/HarrisWilsonModel_NeuralNet.py:NeuralNet"]}
{"id": "C99", "title": "The training loss of a sample is the mean over predicted samples", "statement": "Each update adds, to each requested loss, the average over the predicted samples of the loss against its own validation data, counts one step, and touches no other loss.", "quantifier": "all losses, predictions, validation data and histories", "why_tests_cant": "all histories of updates", "anchors": ["gensit/learning_models/HarrisWilsonModel_NeuralNet.py:HarrisWilson_NN.update_loss"]}
{"id": "C100", "title": "Mini-batches partition the training edges", "statement": "Every edge is in exactly one mini-batch of an epoch, and every batch but the last has the batch size.", "quantifier": "all edge lists, permutations and batch sizes", "why_tests_cant": "all permutations", "anchors": ["gensit/learning_models/GraphAttentionNetwork.py:GAT_Model.generate_mini_batches"]}
{"id": "C101", "title": "Negative sampling adds edges absent from the graph", "statement": "With a negative sampling rate, each batch is extended by that multiple of edges, of weight zero, absent from the training edges.", "quantifier": "all graphs, batches and random draws", "why_tests_cant": "all random draws", "anchors": ["gensit/learning_models/GraphAttentionNetwork.py:GAT_Model.negative_sampling"]}
{"id": "C102", "title": "The graph network's loss is the mean squared error of its predictions", "statement": "The multi-task loss is the weighted sum of the mean squared errors of edge flows, in-flows and out-flows (of square roots) and the regulariser, so it is zero on perfect predictions.", "quantifier": "all predictions, flows and weights", "why_tests_cant": "real-valued inputs", "anchors": ["gensit/learning_models/GraphAttentionNetwork.py:GAT_Model.get_loss"]}
{"id": "C103", "title": "Sampled task weights form a probability vector", "statement": "The randomly sampled task weights are non-negative and sum to one.", "quantifier": "all uniform draws", "why_tests_cant": "all random draws", "anchors": ["gensit/learning_models/GraphAttentionNetwork.py:GAT_Model.update_hyperparameters"]}
{"id": "C104", "title": "The graph has an edge for every adjacent pair", "statement": "The graph built for the graph attention network has an edge from origin to destination for every adjacent pair, weighted by its cost, and no other.", "quantifier": "all cost matrices", "why_tests_cant": "unbounded matrices", "anchors": ["gensit/utils/misc_utils.py:build_graph_from_matrix"]}
{"id": "C105", "title": "Every short cycle of free cells is found exactly once", "statement": "The cycles listed for the cycle basis are exactly the simple cycles of at most the given number of nodes in the bipartite graph whose edges are the free cells, each once up to its starting point and direction, whatever order Python lists its sets in.", "quantifier": "all sets of free cells, length limits and set orders", "why_tests_cant": "unbounded tables and all set orders", "anchors": ["gensit/contingency_table/MarkovBasis.py:MarkovBasis.find_all_cycles", "gensit/contingency_table/MarkovBasis.py:MarkovBasis._dfs_find_cycles", "gensit/contingency_table/MarkovBasis.py:MarkovBasis._add_unique_cycle"]}
{"id": "C106", "title": "Cycle moves preserve the constraints", "statement": "Building the cycle basis never raises, and adding any of its moves leaves every row and column total unchanged, changes no fixed cell, and changes between three and the limit many free cells by one each.", "quantifier": "all tables, fixed cells, limits and set orders", "why_tests_cant": "unbounded tables and all set orders", "anchors": ["gensit/contingency_table/MarkovBasis.py:MarkovBasis.generate_both_margin_preserving_grobner_markov_basis"]}
{"id": "C107", "title": "The cycle basis connects all tables", "statement": "Any two non-negative tables with the same margins and the same fixed cells are joined by cycle moves through such tables only.", "quantifier": "all tables, fixed cells and set orders", "why_tests_cant": "unbounded walks over unbounded tables", "anchors": ["gensit/contingency_table/MarkovBasis.py:MarkovBasis.generate_both_margin_preserving_grobner_markov_basis", "gensit/contingency_table/MarkovBasis.py:MarkovBasis.find_all_cycles"]}
{"id": "C108", "title": "Sweep outputs are grouped by their shared coordinates", "statement": "Arrays of one sample end up in the same group exactly when they have the same labels along all dimensions that are core, grouped by or training settings; groups and their arrays keep the order given, and no array is lost or duplicated.", "quantifier": "all lists of arrays, dimensions, labels and group-by lists", "why_tests_cant": "unbounded lists of arrays with arbitrary labels", "anchors": ["gensit/outputs.py:DataCollection.group_sample", "gensit/outputs.py:DataCollection.group_samples_sequentially"]}
{"id": "C109", "title": "Loading outputs does not depend on worker scheduling", "statement": "Loading a sweep with several workers gives the same collection as loading it with one, whatever order the runs finish in.", "quantifier": "all runs, labels and completion orders", "why_tests_cant": "all schedules of the worker processes", "anchors": ["gensit/outputs.py:Outputs.get_sweep_outputs_concurrently", "gensit/outputs.py:Outputs.get_sweep_outputs_sequentially", "gensit/outputs.py:DataCollection.combine_by_coords"]}
{"id": "C110", "title": "A saved collection reads back as it was saved", "statement": "Writing a collection to disk and reading it back gives every requested sample with its elements in their order, whatever order the file system lists the files in; samples that were not saved are loaded afresh and line up with those read back.", "quantifier": "all collections, requested samples and directory listing orders", "why_tests_cant": "unbounded collections and all listing orders", "anchors": ["gensit/outputs.py:Outputs.write_data_collection", "gensit/outputs.py:Outputs.read_data_collection", "gensit/outputs.py:DataCollection.__init__"]}
{"id": "C111", "title": "Collections are sequences of outputs", "statement": "The length of a collection, indexing, assignment, deletion and popping act on the element at that index of every sample, and metadata computed element by element describe each element once.", "quantifier": "all collections, indices and samples", "why_tests_cant": "unbounded collections and histories of operations", "anchors": ["gensit/outputs.py:DataCollection.__getitem__", "gensit/outputs.py:DataCollection.__setitem__", "gensit/outputs.py:DataCollection.__delitem__", "gensit/outputs.py:DataCollection.__len__", "gensit/outputs.py:Outputs.pop", "gensit/outputs.py:OutputSummary.get_experiment_metadata_sequentially"]}
{"id": "C112", "title": "Stripping a collection keeps what was asked for", "statement": "Stripping with a list of outputs, a list of elements or both keeps exactly those elements of those outputs.", "quantifier": "all collections, outputs and elements to keep", "why_tests_cant": "unbounded collections", "anchors": ["gensit/outputs.py:Outputs.strip_data"]}
{"id": "C113", "title": "Group-by separates exactly the requested parameters", "statement": "Swept parameters split into those that identify a group and those shared within it: a parameter named in group_by (or that is not a core coordinate) identifies groups together with the parameters coupled to it, and every other swept parameter is shared.", "quantifier": "all sets of isolated and coupled sweep parameters and group-by lists", "why_tests_cant": "unbounded sets of parameters", "anchors": ["gensit/config.py:Config.get_group_id"]}
{"id": "C114", "title": "Slicing by coordinate values keeps exactly the matching entries", "statement": "Slicing outputs by conditions on their coordinates keeps the entries that satisfy every condition with their values, drops the others, and reports outputs left with no entry.", "quantifier": "all arrays, dimensions, labels and lists of conditions", "why_tests_cant": "unbounded arrays and lists of conditions", "anchors": ["gensit/outputs.py:slice_coordinates", "gensit/outputs.py:slice_coordinates_by_value", "gensit/outputs.py:create_slicing_conditions"]}
{"id": "C115", "title": "A stored run loads as it was written", "statement": "Loading a run gives every requested dataset of its file with its data, one entry per stored iteration, labelled by the run's sweep parameters and the dataset's own dimensions; this holds wherever the run was interrupted.", "quantifier": "all stored runs, requested samples, and points at which writing stopped", "why_tests_cant": "all crash points of the writer", "anchors": ["gensit/outputs.py:load_h5_data", "gensit/outputs.py:read_h5_file"]}
{"id": "C116", "title": "A summary has one row per configuration and loses no metric", "statement": "The summary of a sweep has one row per sweep configuration, holding its parameters and the value of each metric for it; metrics that fail are left out.", "quantifier": "all sweeps, lists of metrics and evaluation results", "why_tests_cant": "unbounded lists of metrics, any mix of results", "anchors": ["gensit/outputs.py:OutputSummary.evaluate_expressions"]}
{"id": "C117", "title": "An accepted configuration has been checked setting by setting", "statement": "If validation accepts a configuration, then every setting that the template lists is known to the schema, every value given for it passes the schema's check, and only optional settings are absent; a swept setting is sweepable, has a default, and its default and range are checked; with sweeping switched off, or without a range, the setting ends up with its checked default, and nothing else changes.", "quantifier": "all templates of the shipped shape, schemas, entry checks and configurations", "why_tests_cant": "unbounded configurations and templates", "anchors": ["gensit/config.py:Config.validate", "gensit/config.py:Config.path_get", "gensit/config.py:Config.path_set", "data/inputs/configs/schemas/cfg_parameters.json"]}
{"id": "C118", "title": "Every configured sweep is discovered, under its own name", "statement": "After validation the list of sweeps contains exactly the configured sweeps that have a range and are not coupled, each under its name; coupled sweeps are listed under their target.", "quantifier": "all templates, schemas and configurations", "why_tests_cant": "unbounded configurations, any number of sweeps and couplings", "anchors": ["gensit/config.py:Config.validate", "gensit/config.py:Config.path_exists", "gensit/config.py:Config.path_find", "data/inputs/configs/schemas/cfg_parameters.json"]}
{"id": "C119", "title": "The power set lists every non-empty subset once", "statement": "For a collection of distinct elements, every non-empty subset occurs exactly once in the power set, nothing else does, there are 2^n - 1 of them, and smaller subsets come first.", "quantifier": "all collections of distinct elements", "why_tests_cant": "unbounded sizes", "anchors": ["gensit/utils/math_utils.py:powerset", "gensit/contingency_table/contingency_table.py:ContingencyTable"]}
{"id": "C120", "title": "Distances between tables are distances", "statement": "The distances between contingency tables are non-negative, zero only for equal tables (or equal profiles), symmetric and satisfy the triangle inequality.", "quantifier": "all pairs and triples of real tables of any size", "why_tests_cant": "ranges over all real tables of all sizes", "anchors": ["gensit/utils/math_utils.py:chi_squared_row_distance", "gensit/utils/math_utils.py:chi_squared_column_distance", "gensit/utils/math_utils.py:chi_squared_distance", "gensit/utils/math_utils.py:euclidean_distance"]}
{"id": "C121", "title": "Cell errors are computed cell by cell inside the mask", "statement": "Differences, absolute, squared and relative errors of a predicted table against the ground truth are those of the cell itself, missing exactly where the mask excludes the cell or a value is missing; residual percentage errors are zero exactly when totals agree and do not depend on the unit.", "quantifier": "all masks, samples, tables and cells", "why_tests_cant": "all real tables of all sizes", "anchors": ["gensit/utils/math_utils.py:subtract", "gensit/utils/math_utils.py:l_1", "gensit/utils/math_utils.py:l2", "gensit/utils/math_utils.py:relative_l_1", "gensit/utils/math_utils.py:mean_absolute_residual_percentage_error"]}
{"id": "C122", "title": "One-tailed tests are antisymmetric and both routes agree", "statement": "The one-tailed t-test rejects ill-formed input, gives a p-value below one half exactly when the first mean is smaller, gives one minus the p-value when the samples are exchanged, and the version using summaries agrees with the one using samples; Welch's degrees of freedom lie between the smaller of n-1 and the pooled n1+n2-2.", "quantifier": "all samples, levels and symmetric increasing t-distributions", "why_tests_cant": "ranges over all real samples", "anchors": ["gensit/utils/math_utils.py:perform_one_tailed_ttest", "gensit/utils/math_utils.py:perform_one_tailed_ttest_using_summaries"]}
{"id": "C123", "title": "Sigmoids are increasing, bounded and antisymmetric", "statement": "The positive sigmoid maps the reals increasingly and oddly into (-1,1) for every positive scale; the skew sigmoid maps them increasingly into (0,1), with value one half at zero and complement under sign change.", "quantifier": "all real arguments and positive scales", "why_tests_cant": "ranges over all reals", "anchors": ["gensit/utils/math_utils.py:positive_sigmoid", "gensit/utils/math_utils.py:skew_sigmoid_numpy", "gensit/utils/math_utils.py:skew_sigmoid_torch"]}
{"id": "C124", "title": "Sparsity, null rows and symmetry", "statement": "Sparsity is a fraction, zero exactly when no cell is empty and one exactly when all are; removing null rows and columns loses no present value and leaves none without one; the symmetry check accepts exactly matrices whose mirrored entries differ by at most the tolerance of the smaller one.", "quantifier": "all tables, arrays with missing values and tolerances", "why_tests_cant": "unbounded sizes", "anchors": ["gensit/utils/math_utils.py:sparsity", "gensit/utils/math_utils.py:reshape_null_data", "gensit/utils/math_utils.py:check_symmetric"]}
{"id": "C125", "title": "Degree-higher steps leave the table distribution invariant", "statement": "With both margins constrained, the degree-higher Markov step satisfies detailed balance with respect to the distribution that weighs every table by the product of its intensities to the counts over the factorials of the counts, and leaves it invariant over the tables that meet the constraints, for every table, intensity, margins and fixed cells, as long as the odds ratios of two rows and two columns lie within the documented range of 1e-6 to 1e6.", "quantifier": "all shapes, margins, fixed cells, intensities with odds ratios in range and pairs of tables", "why_tests_cant": "invariance is a statement about all pairs of tables and exact probabilities", "anchors": ["gensit/contingency_table/ContingencyTable_MCMC.py:degree_higher_proposal_2way_table", "gensit/contingency_table/ContingencyTable_MCMC.py:table_gibbs_step", "gensit/utils/misc_utils.py:safe_cast"]}
{"id": "C126", "title": "Degree-one steps leave the table distribution invariant", "statement": "The degree-one Metropolis step satisfies detailed balance with respect to the distribution of the tables and leaves it invariant over the tables that meet the constraints.", "quantifier": "all shapes, margins, fixed cells, intensities and pairs of tables", "why_tests_cant": "invariance is a statement about all pairs of tables and exact probabilities", "anchors": ["gensit/contingency_table/ContingencyTable_MCMC.py:degree_one_proposal_2way_table", "gensit/contingency_table/ContingencyTable_MCMC.py:table_gibbs_step", "gensit/contingency_table/ContingencyTable_MCMC.py:metropolis_log_acceptance_ratio_2way_table", "gensit/contingency_table/ContingencyTable_MCMC.py:log_target_measure_difference_2way_table"]}
{"id": "C127", "title": "Direct sampling draws from the table distribution", "statement": "Without margin constraints, with the grand total or with one margin constrained, and with both, direct sampling returns each table that meets the constraints with probability proportional to its weight in the table distribution.", "quantifier": "all shapes, margins, fixed cells and intensities", "why_tests_cant": "exact probabilities over all tables", "anchors": ["gensit/contingency_table/ContingencyTable_MCMC.py:direct_sampling_proposal_2way_table", "gensit/contingency_table/ContingencyTable_MCMC.py:poisson_sample_2way_table", "gensit/contingency_table/ContingencyTable_MCMC.py:multinomial_sample_2way_table", "gensit/contingency_table/ContingencyTable_MCMC.py:product_multinomial_sample_2way_table", "gensit/utils/probability_utils.py:sample_multinomial_row"]}
{"id": "C128", "title": "The shuffled table is centrally hypergeometric", "statement": "The Monte Carlo start table, also used for direct sampling with both margins constrained, takes each table with the given row and column totals with probability proportional to the inverse product of the factorials of its counts.", "quantifier": "all row and column totals with the same sum", "why_tests_cant": "counts all permutations of all sizes", "anchors": ["gensit/contingency_table/__init__.py:table_monte_carlo_sample", "gensit/contingency_table/ContingencyTable_MCMC.py:direct_sampling_proposal_2way_table"]}
{"id": "C129", "title": "The table sampler converges to the table distribution", "statement": "With both margins constrained, the degree-higher table sampler run from any admissible start table converges to the table distribution over all tables with these margins and fixed cells, as the number of steps grows.", "quantifier": "all shapes, margins, fixed cells, intensities with odds ratios in range, start tables and numbers of steps", "why_tests_cant": "a limit over runs of every length, for every state space", "anchors": ["gensit/contingency_table/ContingencyTable_MCMC.py:table_gibbs_step", "gensit/contingency_table/ContingencyTable_MCMC.py:degree_higher_proposal_2way_table", "gensit/contingency_table/MarkovBasis.py:generate"]}
{"id": "C130", "title": "Input files are read together or not at all", "statement": "When reading the inputs succeeds, every configured training file has been loaded verbatim, has no negative entry unless negatives are allowed for it, has the sizes of its declared dimensions, agrees with every other file on shared dimensions, and the grand total is the sum of the table. A missing training file or two files that disagree stop the read. Files that fit together are always read.", "quantifier": "all configurations and file contents", "why_tests_cant": "the check is over all subsets of datasets and all sizes", "anchors": ["gensit/inputs.py:Inputs.read_data", "gensit/inputs.py:Inputs.validate_dims", "gensit/static/global_variables.py:TRAIN_SCHEMA", "gensit/static/global_variables.py:INPUT_SCHEMA"]}
{"id": "C131", "title": "Cell masks mark exactly the listed cells of the table", "statement": "After a read, each configured list of cells has a mask of the table's shape (origin by destination) that marks exactly the cells in its file; with no test list every cell is a test cell.", "quantifier": "all configurations, cell files, table sizes and orders of the configured dimensions", "why_tests_cant": "ranges over all tables, cell lists and dimension orders", "anchors": ["gensit/inputs.py:Inputs.create_cell_masks", "gensit/inputs.py:Inputs.read_data", "gensit/utils/misc_utils.py:create_mask", "gensit/utils/misc_utils.py:unpack_dims"]}
{"id": "C132", "title": "Configured margins and single cells are imported", "statement": "After a successful read every configured margin, from a file or a value, is held under its axis (the last setting of an axis wins), and configured single cells are imported into the table. A margin with neither file nor value stops the read.", "quantifier": "all margin lists and cell files", "why_tests_cant": "holds for every list of margins, in every order", "anchors": ["gensit/inputs.py:Inputs.import_margins", "gensit/inputs.py:Inputs.import_cells_subset"]}
{"id": "C133", "title": "A copy of the inputs holds exactly the requested datasets", "statement": "Copying the inputs with a list of names gives, unchanged, the named input datasets and everything that is not an input dataset; an empty list copies everything.", "quantifier": "all data and lists of names", "why_tests_cant": "ranges over all sets of datasets", "anchors": ["gensit/inputs.py:Inputs.copy", "gensit/inputs.py:Inputs.data_vars"]}
{"id": "C134", "title": "Casting inputs to labelled arrays and back loses nothing", "statement": "Casting to labelled arrays keeps shapes and values and labels axis positions from 1. Casting back gives tensors with the same values, for the datasets that are present.", "quantifier": "all datasets, values and selections of datasets", "why_tests_cant": "ranges over all values", "anchors": ["gensit/inputs.py:Inputs.cast_to_xarray", "gensit/inputs.py:Inputs.cast_from_xarray"]}
{"id": "C135", "title": "Inputs survive a trip to the device and back", "statement": "Passing the inputs to the device gives tensors of the declared type and dimensions; receiving them gives numpy arrays with the original values, after which they can be passed again. Doing either twice is doing it once.", "quantifier": "all input data", "why_tests_cant": "ranges over all histories of passing and receiving and all data", "anchors": ["gensit/inputs.py:Inputs.pass_to_device", "gensit/inputs.py:Inputs.receive_from_device"]}
{"id": "C136", "title": "Exactly the parameters that are not learned are held fixed", "statement": "A parameter is held fixed exactly when it has a default and is not among the parameters to learn, at its physics-model setting, else its intensity-model setting, else its default.", "quantifier": "all settings and lists of parameters to learn", "why_tests_cant": "ranges over all subsets of parameters", "anchors": ["gensit/inputs.py:Inputs.read_data", "gensit/inputs.py:Inputs.update_delta_and_kappa", "gensit/static/global_variables.py:PARAMETER_DEFAULTS"]}
{"id": "C137", "title": "Two experiments never share an output directory", "statement": "Each experiment writes its samples into a directory of its own, named after its type, noise level or proposal, title and start time, and a later experiment does not destroy the samples of an earlier one. The noise level in the name is Low exactly when 2/sigma^2 is at least 10000.", "quantifier": "all pairs of experiments: all types, titles, settings and start times", "why_tests_cant": "collisions depend on all pairs of configurations and times", "anchors": ["gensit/outputs.py:Outputs.update_experiment_directory_id", "gensit/outputs.py:Outputs.open_output_file", "gensit/utils/misc_utils.py:sigma_to_noise_regime"]}
{"id": "C138", "title": "A finished run is found again by its dataset, group, type, title or date", "statement": "Searching the outputs with any combination of a run's dataset, group, a prefix of its type, title and start date returns the run's directory.", "quantifier": "all runs, directory trees and search options", "why_tests_cant": "ranges over all names, patterns and directory contents", "anchors": ["gensit/outputs.py:OutputSummary.find_matching_output_folders", "gensit/utils/misc_utils.py:get_all_subdirectories", "gensit/utils/misc_utils.py:walklevel"]}
{"id": "C139", "title": "A search returns only runs it asks for", "statement": "Every directory returned by a search holds a configuration at most two levels below a searched directory, and has the dataset, group, type, title and date searched for in its path.", "quantifier": "all directory trees and search options", "why_tests_cant": "ranges over all names and patterns", "anchors": ["gensit/outputs.py:OutputSummary.find_matching_output_folders"]}
{"id": "C140", "title": "Found runs come in the order they were started; exclusions and explicit directories are respected", "statement": "Found directories are ordered by start time. Directories matching an exclusion are left out. Directories named explicitly are returned exactly when they exist; finding nothing is an error.", "quantifier": "all directory trees, titles, start times and search options", "why_tests_cant": "ranges over all names and all sets of runs", "anchors": ["gensit/outputs.py:OutputSummary.find_matching_output_folders"]}
{"id": "C141", "title": "The debiased estimate of 1/Z is right on average over its random stopping time", "statement": "Averaged over the stopping times the generator draws (each with its own probability), the returned estimate is the limit of the importance sampling estimates, so that pseudo-marginal inference targets the right posterior.", "quantifier": "all truncation powers and all sequences of importance weights", "why_tests_cant": "an expectation over an unbounded random stopping time", "anchors": ["gensit/utils/probability_utils.py:generate_stopping_times", "gensit/utils/probability_utils.py:compute_truncated_infinite_series"]}
{"id": "C142", "title": "Stopping times: the right number, reproducible, and no file of the user destroyed", "statement": "A run has exactly N times theta_steps stopping times, determined by its configuration including the seed; a second run with the same configuration uses the same ones; files of the user are left alone.", "quantifier": "all settings, seeds, generators and file contents", "why_tests_cant": "ranges over histories of runs sharing a directory", "anchors": ["gensit/learning_models/HarrisWilsonModel_MCMC.py:HarrisWilson_MCMC.load_stopping_times", "gensit/learning_models/HarrisWilsonModel_MCMC.py:HarrisWilson_MCMC.import_stopping_times", "gensit/learning_models/HarrisWilsonModel_MCMC.py:HarrisWilson_MCMC.export_stopping_times"]}
{"id": "C143", "title": "Constants of the Harris-Wilson model: from the call, then the configuration, then the defaults", "statement": "Every parameter that is not learned gets the value of the optimisation trial, of the call, of the configuration or the default, in this order; learned parameters are not constants; the configuration then shows the values used. The noise regime follows sigma.", "quantifier": "all calls, configurations and sets of learned parameters", "why_tests_cant": "ranges over all configurations and subsets of parameters", "anchors": ["gensit/physics_models/HarrisWilsonModel.py:HarrisWilson.__init__", "gensit/physics_models/HarrisWilsonModel.py:HarrisWilson.update_hyperparameters"]}
{"id": "C144", "title": "Intensities recomputed from stored samples are those of the run", "statement": "The intensity computed afterwards from the stored parameters (with beta scaled by bmax) is the intensity the run itself used.", "quantifier": "all learned parameters, orders, scales and samples", "why_tests_cant": "a relation between two programs over all samples", "anchors": ["gensit/experiments.py:SIM_MCMC.run", "gensit/experiments.py:JointTableSIM_MCMC.run", "gensit/outputs.py:Outputs.get_sample"]}
{"id": "C145", "title": "The unbiased estimate uses a fresh stopping time for every parameter step and any number of workers", "statement": "For high noise, 1/Z is estimated by the truncated series over the weights of the step's own stopping time, whatever the number of workers; a weight that is not finite is an error.", "quantifier": "all numbers of workers, stopping times and weights", "why_tests_cant": "ranges over all random draws and worker counts", "anchors": ["gensit/learning_models/HarrisWilsonModel_MCMC.py:HarrisWilson_MCMC.unbiased_z_inverse", "gensit/learning_models/HarrisWilsonModel_MCMC.py:HarrisWilson_MCMC.build", "gensit/experiments.py:JointTableSIM_MCMC.run"]}
{"id": "C146", "title": "Initial samples are valid and validation accepts exactly the legitimate samples", "statement": "The initial sample of a run passes the sample validation, and the validation accepts a sample exactly when its attractions sum to one, its sign is one of those the estimators return and its table satisfies the constraints.", "quantifier": "all dimensions, tables and samples", "why_tests_cant": "ranges over all samples and tables", "anchors": ["gensit/experiments.py:Experiment.initialise_parameters", "gensit/experiments.py:Experiment.validate_samples"]}
{"id": "C147", "title": "A stored Markov basis is the basis of the table that reads it", "statement": "Reading a stored basis gives the moves that would have been generated for the table at hand, never one that breaks its constraints; a stored basis is never overwritten.", "quantifier": "all dimensions, constraint sets, fixed cells and directories", "why_tests_cant": "relates two runs over all pairs of tables", "anchors": ["gensit/contingency_table/MarkovBasis.py:MarkovBasis.export_markov_basis", "gensit/contingency_table/MarkovBasis.py:MarkovBasis.import_markov_basis", "gensit/contingency_table/MarkovBasis.py:MarkovBasis.update_markov_basis"]}
{"id": "C148", "title": "A grid search of R squared reports the best grid point", "statement": "The reported parameters maximise R squared over the grid, the reported prediction is that of this point, and the parameters are reported under their own names and scale.", "quantifier": "all grids, data and predictions", "why_tests_cant": "ranges over all grids and all outcomes of the solver", "anchors": ["gensit/experiments.py:RSquared_Analysis.run"]}
{"id": "C149", "title": "A grid search of the log target reports the best grid point", "statement": "The reported parameters maximise the log target over the grid and are reported under their own names.", "quantifier": "all grids and targets", "why_tests_cant": "ranges over all grids and targets", "anchors": ["gensit/experiments.py:LogTarget_Analysis.run"]}
{"id": "C150", "title": "A graph attention layer averages the neighbours with positive weights and keeps the region's own features", "statement": "For every region, the new representation is the rectified sum of a linear function of its own features and an average of a linear function of its neighbours' features, with positive weights that sum to one; the weight against the neighbours can be chosen.", "quantifier": "all graphs, weights and features", "why_tests_cant": "all graphs and real inputs", "anchors": ["gensit/learning_models/GraphAttentionNetwork.py:GATLayer.message_func", "gensit/learning_models/GraphAttentionNetwork.py:GATLayer.reduce_func", "gensit/learning_models/GraphAttentionNetwork.py:GATInputLayer.forward"]}
{"id": "C151", "title": "Regions further away than the number of layers have no influence", "statement": "Two sets of features that agree on every region within as many edges as there are layers give the same representation of a region, and the same predicted flow between an origin and a destination.", "quantifier": "all graphs, numbers of layers, weights and features", "why_tests_cant": "a two-run property over all graphs and inputs", "anchors": ["gensit/learning_models/GraphAttentionNetwork.py:GAT.forward", "gensit/learning_models/GraphAttentionNetwork.py:GAT_Model.predict", "gensit/learning_models/GraphAttentionNetwork.py:GAT_Model.predict_edge"]}
{"id": "C152", "title": "Flow predictions do not depend on how the regions are numbered", "statement": "Renumbering the regions and listing the edges in another order renumbers the representations and leaves the predictions of the renumbered cells unchanged; there is one prediction per cell, in the order of the cells, none negative.", "quantifier": "all graphs, renumberings, weights and features", "why_tests_cant": "a symmetry over all permutations and graphs", "anchors": ["gensit/learning_models/GraphAttentionNetwork.py:GAT.forward", "gensit/learning_models/GraphAttentionNetwork.py:GAT_Model.predict", "gensit/learning_models/GraphAttentionNetwork.py:GAT_Model.predict_edge"]}
{"id": "C153", "title": "Every row of a summary carries the settings of the run it came from", "statement": "Each row collected for a sweep contains the chosen settings of the run with the values of the sweep in force, next to the computed statistics.", "quantifier": "all configurations, sweeps, chosen settings and statistics", "why_tests_cant": "all configurations and sweeps", "anchors": ["gensit/outputs.py:OutputSummary.get_experiment_metadata", "gensit/outputs.py:OutputSummary.collect_metadata"]}
{"id": "C154", "title": "No row of a summary is lost or repeated", "statement": "Summarising any number of runs, in one process or by a pool of workers, collects every row of every run exactly once.", "quantifier": "all numbers of runs, rows and workers and all orders in which workers finish", "why_tests_cant": "ranges over all schedules of the workers", "anchors": ["gensit/outputs.py:OutputSummary.collect_metadata", "gensit/outputs.py:OutputSummary.__init__"]}
{"id": "C155", "title": "A summary is sorted as asked and written to its own file below the output directory", "statement": "Rows are sorted by the chosen columns without being changed; the file lies below the output directory and different requests write different files.", "quantifier": "all requests, tables and directories", "why_tests_cant": "all strings and tables", "anchors": ["gensit/outputs.py:OutputSummary.write_metadata_summaries", "gensit/utils/misc_utils.py:find_dataset_directory"]}
{"id": "C156", "title": "The objects a keyword expression uses are available when it is evaluated", "statement": "Before an expression is evaluated, every object it mentions as an attribute of outputs is there, or an error is raised.", "quantifier": "all expressions and all sets of objects already built", "why_tests_cant": "all expressions (texts)", "anchors": ["gensit/outputs.py:Outputs.check_object_availability", "gensit/outputs.py:Outputs.instantiate_object_from_expression", "gensit/outputs.py:Outputs.evaluate_expressions"]}
{"id": "C157", "title": "The log file of a run holds exactly what the run said", "statement": "Every message of a run at or above the file level is in the run's own log file, in order and once, and nothing of another run is; a run that is interrupted leaves what it said so far.", "quantifier": "all histories of messages, level changes, openings and closings of runs, and all crash points", "why_tests_cant": "ranges over histories of several runs sharing one logger and over crash points", "anchors": ["gensit/utils/logger_class.py:CustomFileHandler", "gensit/utils/logger_class.py:DualLogger", "gensit/outputs.py:Outputs.write_log", "gensit/outputs.py:Outputs.open_output_file", "gensit/experiments.py:ExperimentHandler.setup_experiments", "gensit/experiments.py:ExperimentSweep.prepare_instantiate_and_run"]}
{"id": "C158", "title": "The console shows exactly the messages at or above the chosen level", "statement": "A message is shown exactly when its level is at least the level chosen on the command line, throughout the command.", "quantifier": "all levels, kinds of messages and histories", "why_tests_cant": "all levels and histories", "anchors": ["gensit/utils/logger_class.py:DualLogger", "gensit/experiments.py:ExperimentSweep.prepare_experiment"]}
{"id": "C159", "title": "The drawing order of a figure follows the options", "statement": "With `--zorder`, every point of a figure has its own place in the drawing order; a point is above another as the direction and the variables asked for say, the first variable counting first, and equal points keep their order.", "quantifier": "all lists of criteria, directions, figures and values, missing ones included", "why_tests_cant": "ranges over all lists of criteria and all values of all points", "anchors": ["gensit/plot.py:Plot.merge_plot_settings", "gensit/plot.py:Plot.extract_plot_variable", "gensit/main.py:plot"]}
{"id": "C160", "title": "Every point of a figure is drawn with its own values", "statement": "Each point of a figure over several experiments has the coordinates, label, colour and size of its own entry, whatever the other entries have or lack.", "quantifier": "all lists of folders, entries, variables and failures", "why_tests_cant": "all combinations of present, missing and failing entries", "anchors": ["gensit/plot.py:Plot.data_plot", "gensit/plot.py:Plot.extract_plot_settings", "gensit/plot.py:Plot.merge_plot_settings", "gensit/static/plot_variables.py:PLOT_VARIABLES"]}
{"id": "C161", "title": "A figure for each experiment shows every entry of that experiment", "statement": "With figures by experiment, each experiment has a figure with all of its entries, and a failing experiment does not affect the others.", "quantifier": "all lists of folders, entries and failures", "why_tests_cant": "all combinations of entries and failures", "anchors": ["gensit/plot.py:Plot.data_plot", "gensit/plot.py:Plot.merge_plot_settings"]}
{"id": "C162", "title": "The label of a point identifies its values", "statement": "The label made of the keys asked for is defined for all metadata and differs when a value differs.", "quantifier": "all keys and metadata values, textual or numeric", "why_tests_cant": "all metadata values", "anchors": ["gensit/plot.py:Plot.extract_plot_variable", "gensit/utils/misc_utils.py:latex_it", "gensit/utils/misc_utils.py:tidy_label", "gensit/static/plot_variables.py:RAW_EXPRESSIONS"]}
{"id": "C163", "title": "On a discrete axis every point is at the tick that shows its label", "statement": "Points with the same labels share a place, points with different labels do not, places follow the order of the labels, and the tick at a place shows the label of the points there; with one or two levels of labels.", "quantifier": "all data, orders of labels, tick starts and steps, one or two levels", "why_tests_cant": "all data sets, orders and rational tick settings", "anchors": ["gensit/plot.py:Plot.get_discrete_ticks", "gensit/utils/misc_utils.py:stringify_coordinate"]}
{"id": "C164", "title": "The limits of an axis are the ones asked for, and otherwise hold the data", "statement": "A limit given on the command line is the limit of the axis; a limit not given is that of the data drawn, so nothing drawn lies outside.", "quantifier": "all limits given or not, all data, all sequences of points of a subplot, continuous and discrete axes", "why_tests_cant": "all rational data and limits and all sequences of updates", "anchors": ["gensit/plot.py:Plot.get_axes_limits", "gensit/plot.py:Plot.plot_simple"]}
{"id": "C165", "title": "Subplots separate the points by the grouping variables", "statement": "Every figure with grouping variables is drawn, two points share a subplot exactly when they agree on all grouping variables, and the rows and columns follow the order of the values.", "quantifier": "all numbers of points, values and orders, one or two grouping variables", "why_tests_cant": "all data sets and orders of values", "anchors": ["gensit/plot.py:Plot.map_groups_to_axes", "gensit/plot.py:Plot.plot_simple", "gensit/plot.py:Plot.merge_plot_settings", "gensit/plot.py:Plot.get_discrete_ticks"]}
{"id": "C166", "title": "Expressions are evaluated in the order given, each with the names defined before it", "statement": "After `summarise` has gathered its arguments, a name stands for the sample of that name, or for the value of the first of its expressions that gives one, under the names defined before it; what a name stands for never changes later; a metric has the value of the first of its expressions under the arguments and the metrics before it; removing a definition nothing mentions changes no other name.", "quantifier": "all lists of definitions and metrics, all expressions, all inputs, outputs, libraries, folder arguments and failures", "why_tests_cant": "ranges over all expressions, all orders of definitions and all failures of their evaluation", "anchors": ["gensit/outputs.py:Summary.evaluate_expressions", "gensit/utils/click_parsers.py:evaluate_kwargs_callback", "gensit/utils/misc_utils.py:safe_list_get"]}
{"id": "C167", "title": "A name stands for the expression given for it", "statement": "A definition `name=expression` makes the name stand for the value of the expression wherever it is used.", "quantifier": "all lists of definitions, expressions, names and scopes", "why_tests_cant": "ranges over all definitions and expressions", "anchors": ["gensit/outputs.py:Summary.evaluate_expressions", "gensit/utils/click_parsers.py:evaluate_kwargs_callback"]}
{"id": "C168", "title": "A sample has its value from its source, and a missing one is left out", "statement": "Each sample name has the value of its source (inputs, validation file, recorded array, computed intensity); a sample that is not available is left out, and the command goes on with the others.", "quantifier": "all names, all inputs, validation files and recorded arrays, all lists of names asked for", "why_tests_cant": "ranges over all combinations of present and missing data", "anchors": ["gensit/outputs.py:Outputs.get_sample", "gensit/outputs.py:Outputs.check_data_availability", "gensit/outputs.py:Summary.evaluate_expressions", "gensit/static/global_variables.py:TRAIN_SCHEMA", "gensit/static/global_variables.py:VALIDATION_SCHEMA"]}
{"id": "C169", "title": "Every recorded array that is asked for is read", "statement": "For every type of experiment, every array that it records and the command asks for is read from its outputs, and nothing else but the parts of an intensity.", "quantifier": "all experiment types, configured losses, intensity models and lists of names asked for", "why_tests_cant": "ranges over all configurations and all sets of names", "anchors": ["gensit/outputs.py:Outputs.__init__", "gensit/static/global_variables.py:EXPERIMENT_OUTPUT_NAMES", "gensit/static/global_variables.py:SAMPLE_DATA_REQUIREMENTS", "gensit/main.py:update_settings"]}
{"id": "C170", "title": "An option left out keeps the configuration's setting", "statement": "The settings changed by the commands create, run and optimise are exactly those given on the command line, each under its name; every other setting of the configuration file keeps its value.", "quantifier": "all command lines, all configuration files and all settings", "why_tests_cant": "ranges over all command lines and configurations", "anchors": ["gensit/main.py:run", "gensit/main.py:create", "gensit/main.py:optimise", "gensit/main.py:update_settings", "gensit/main.py:setup_experiments"]}
{"id": "C171", "title": "Every experiment of a type asked for is run, from its own entry", "statement": "For every list of types asked for, the experiments run are exactly the entries of the configuration file of these types, in the order of the file, each built from the configuration with its own entry alone, whatever the validation and construction of the others do to their configuration.", "quantifier": "all configuration files, lists of types, validators and constructors", "why_tests_cant": "ranges over all lists of experiments and all side effects of setting others up", "anchors": ["gensit/experiments.py:ExperimentHandler", "gensit/experiments.py:instantiate_experiment", "gensit/main.py:exec"]}
{"id": "C172", "title": "An experiment asked for that the configuration lacks is reported", "statement": "Asking for a type of experiment which the configuration file does not contain is reported to the user.", "quantifier": "all configuration files and lists of types", "why_tests_cant": "ranges over all lists of types and configurations", "anchors": ["gensit/experiments.py:ExperimentHandler", "gensit/main.py:exec"]}
{"id": "C173", "title": "Nothing runs unless everything can be set up, and failures are reported", "statement": "If any selected experiment cannot be validated or built none is run; experiments run in turn, the first failing run ends the command with its error; success is reported only when all selected experiments ran without error.", "quantifier": "all configuration files, lists of types, failing validations, constructions and runs", "why_tests_cant": "ranges over all failure points", "anchors": ["gensit/experiments.py:ExperimentHandler.setup_experiments", "gensit/experiments.py:ExperimentHandler.run_experiments_sequentially", "gensit/main.py:exec"]}
{"id": "C174", "title": "Each trial is scored on its own model and reports every iteration", "statement": "In every interleaving of the trials of a hyper-parameter search, each trial's value is the mean of the validation metric of the model built with its own hyper-parameters, and the optimiser is told the metric of every iteration of the trial, under that trial.", "quantifier": "all numbers of trials, workers and iterations, all interleavings, metrics and pruning decisions", "why_tests_cant": "ranges over all schedules of concurrent trials", "anchors": ["gensit/experiments.py:optimise_experiments_sequentially", "gensit/experiments.py:update_optimisation_progress", "gensit/experiments.py:RandomForest_Comparison.run", "gensit/experiments.py:GBRT_Comparison.run", "gensit/experiments.py:XGBoost_Comparison.run"]}
{"id": "C175", "title": "The best parameters are those of the best trial, and take effect", "statement": "A hyper-parameter search returns a completed trial with no better one in the configured direction; every parameter it tunes is the one the trial's model is built with, independently of earlier trials; the configuration it writes holds the best parameters.", "quantifier": "all lists of trials, suggestions, defaults and configurations", "why_tests_cant": "ranges over all sequences of trials", "anchors": ["gensit/experiments.py:optimise_experiments_sequentially", "gensit/intensity_models/GBRT.py:GBRT_Model", "gensit/intensity_models/XGB.py:XGB_Model"]}
{"id": "C176", "title": "Every experiment type offered can be optimised", "statement": "Optimising any experiment the command accepts ends with a best trial once a trial was run.", "quantifier": "all experiment types, with and without sweeps, all values of trials", "why_tests_cant": "ranges over all experiment types and outcomes of trials", "anchors": ["gensit/experiments.py:optimise_experiments_sequentially", "gensit/experiments.py:ExperimentSweep.run"]}
{"id": "C177", "title": "The recorded computation time is that of the run", "statement": "The computation time recorded in a run's metadata is the time that run took, for every sequence of runs of an experiment.", "quantifier": "all sequences of runs of one experiment and all clocks", "why_tests_cant": "ranges over all histories of runs", "anchors": ["gensit/experiments.py:XGBoost_Comparison.run", "gensit/experiments.py:Experiment.write_metadata"]}
{"id": "C178", "title": "A figure does not replace a figure of other data", "statement": "Plots of different variables, or with different options, from the same outputs are written to different files; an earlier figure and its data stay.", "quantifier": "all pairs of plot commands, options, outputs and data", "why_tests_cant": "ranges over all histories of plot commands", "anchors": ["gensit/plot.py:Plot.create_plot_filename", "gensit/utils/misc_utils.py:write_figure_data", "gensit/utils/misc_utils.py:write_figure"]}
{"id": "C179", "title": "The data of a figure are exported completely, in the format asked for", "statement": "For every figure the exported file has, in the format asked for, every plotted variable with the values drawn, and the configuration of the outputs; no other file changes.", "quantifier": "all figures, data formats and contents of the directory", "why_tests_cant": "ranges over all figures and formats", "anchors": ["gensit/utils/misc_utils.py:write_figure_data", "gensit/utils/misc_utils.py:write_tex_data", "gensit/plot.py:Plot.data_plot"]}
{"id": "C180", "title": "A figure redrawn from its exported data is the same figure", "statement": "Plotting from exported data draws, for every point, the features the original figure had, for every set of exported files given.", "quantifier": "all figures, points, features and sets of files", "why_tests_cant": "ranges over all figures and all sets of exported files", "anchors": ["gensit/plot.py:Plot.read_plot_data", "gensit/plot.py:Plot.data_plot", "gensit/plot.py:Plot.plot_simple", "gensit/utils/misc_utils.py:unpack_data"]}
{"id": "C181", "title": "Generated synthetic data are valid", "statement": "For every configuration of the generation: each drawn dataset is non-negative and sums to one, costs lie in [0,1] with maximum one and are symmetric for a square problem, the cost shares sum to one, and the table has origins in rows, destinations in columns and exactly the configured total.", "quantifier": "all configurations, distributions, dimensions, seeds and random draws", "why_tests_cant": "ranges over all configurations and all random draws", "anchors": ["gensit/inputs.py:Inputs.generate_synthetic_data", "gensit/utils/probability_utils.py:random_vector", "gensit/inputs.py:Inputs.receive_from_device"]}
{"id": "C182", "title": "The seed determines the synthetic data", "statement": "Two generations with the same configuration and seed give the same data whatever was drawn before; different seeds give different noise; the process's generators are released afterwards.", "quantifier": "all configurations, seeds and states of the generators", "why_tests_cant": "ranges over all seeds and generator states", "anchors": ["gensit/inputs.py:Inputs.generate_synthetic_data", "gensit/inputs.py:Inputs.sde_solver_in_sequence", "gensit/utils/misc_utils.py:set_seed", "gensit/physics_models/HarrisWilsonModel.py:HarrisWilson.run"]}
{"id": "C183", "title": "An existing synthetic dataset is not replaced unless overwriting is asked for", "statement": "Datasets of different dimensions or totals go to different directories, a generation changes no file outside its own, and files of an existing dataset stay unless overwrite is set.", "quantifier": "all configurations and contents of the data directory", "why_tests_cant": "ranges over all histories of generations", "anchors": ["gensit/inputs.py:Inputs.generate_synthetic_data"]}
{"id": "C184", "title": "The stored configuration regenerates the dataset", "statement": "Generating from the config.json stored with a dataset gives the same data and the same config.json; the stored values are those the configuration asked for.", "quantifier": "all configurations, parameters and generators", "why_tests_cant": "ranges over all configurations and generators", "anchors": ["gensit/inputs.py:Inputs.generate_synthetic_data", "gensit/inputs.py:Inputs.update_delta_and_kappa", "gensit/physics_models/HarrisWilsonModel.py:HarrisWilson.update_hyperparameters"]}
{"id": "C185", "title": "The synthetic table is drawn from the model's flows", "statement": "The ground truth table is a multinomial draw with probabilities proportional to the spatial interaction model's flows at the configured parameters, the stored costs and the stored attractions.", "quantifier": "all configurations, synthesis methods and random draws", "why_tests_cant": "ranges over all configurations and draws", "anchors": ["gensit/inputs.py:Inputs.generate_synthetic_data", "gensit/inputs.py:Inputs.sde_potential_in_sequence", "gensit/inputs.py:Inputs.sde_solver_in_sequence"]}
{"id": "C186", "title": "What a run recorded is what is loaded", "statement": "Loading samples of a run's data file gives, for every sample asked for, an array with the recorded values in the recorded order, labelled with the swept values, the rows and the positions along the dimensions of its schema; any set of the recorded samples can be loaded together; damaged or missing files are reported.", "quantifier": "all files, runs, recording settings and sets of samples", "why_tests_cant": "ranges over all recorded histories and all sets of samples", "anchors": ["gensit/outputs.py:Outputs.load_h5_data", "gensit/outputs.py:Outputs.read_h5_file", "gensit/outputs.py:Outputs.load_single", "gensit/experiments.py:Experiment.initialise_data_structures", "gensit/experiments.py:Experiment.write_data"]}
{"id": "C187", "title": "The row label of a loaded sample is its iteration", "statement": "In loaded arrays the coordinate iter of a row is the number of the iteration that produced it.", "quantifier": "all recording settings, lengths of run and numbers of samples per iteration", "why_tests_cant": "ranges over all run lengths and recording settings", "anchors": ["gensit/outputs.py:Outputs.read_h5_file", "gensit/experiments.py:Experiment.write_data", "gensit/experiments.py:JointTableSIM_MCMC.run"]}
{"id": "C188", "title": "Runs with different swept values have different coordinates", "statement": "Two runs of a sweep that differ in a swept value get different coordinates for it, every sweepable value can be loaded, and the samples carry all swept values.", "quantifier": "all swept parameters and values", "why_tests_cant": "ranges over all values", "anchors": ["gensit/outputs.py:Outputs.load_h5_data", "gensit/outputs.py:Outputs.load_single", "gensit/utils/misc_utils.py:parse", "gensit/utils/misc_utils.py:stringify_coordinate", "gensit/static/global_variables.py:COORDINATES_DTYPES"]}
{"id": "C189", "title": "Synthetic attractions are the average of independent runs", "statement": "With the SDE solver the stored destination attractions are the mean of the states after the configured number of steps over the configured number of runs, each with its own noise and all with the configured parameters.", "quantifier": "all configurations, numbers of runs and steps and generators", "why_tests_cant": "ranges over all numbers of runs and steps", "anchors": ["gensit/inputs.py:Inputs.sde_solver_in_sequence", "gensit/inputs.py:Inputs.generate_synthetic_data", "gensit/physics_models/HarrisWilsonModel.py:HarrisWilson.run", "gensit/physics_models/HarrisWilsonModel.py:HarrisWilson.run_single"]}
{"id": "C190", "title": "Laplace estimate of the normalising constant", "statement": "When the candidates found by the optimiser are stationary points of the potential, the low-noise estimate of the normalising constant is defined and its exponential is exp(V(m)) times the square root of the determinant of the matrix of second partial derivatives of the potential V at m, the first candidate of lowest potential; its sign is +1. The optimiser starts once from each destination being of size 1+delta with the others of size delta.", "quantifier": "all costs, parameters, hyperparameters and candidates", "why_tests_cant": "ranges over all real parameters, sizes of zones and candidates", "anchors": ["gensit/learning_models/HarrisWilsonModel_MCMC.py:HarrisWilson_MCMC.biased_z_inverse", "gensit/physics_models/HarrisWilsonModel.py:HarrisWilson.sde_potential_hessian", "gensit/intensity_models/spatial_interaction_models/TotallyConstrained/__init__.py:sde_pot_hessian", "gensit/intensity_models/spatial_interaction_models/ProductionConstrained/__init__.py:sde_pot_hessian"]}
{"id": "C191", "title": "Leapfrog trajectories preserve volume", "statement": "Each leapfrog trajectory of the samplers follows the gradient of the energy it is accepted by and, as a map from (log attractions, momentum) to (log attractions, momentum), is differentiable and its Jacobian determinant is 1, whatever the number of steps, the step size and the starting point, so that accepting on the energy difference alone leaves the target distribution unchanged. With the accept/reject step it is in detailed balance with the distribution it samples: leaving the end with reversed momentum it comes back to the start, and both directions have the same weight.", "quantifier": "all gradients, step sizes, numbers of steps and points of phase space", "why_tests_cant": "volume preservation is a statement about the derivative of the map at every point", "anchors": ["gensit/learning_models/HarrisWilsonModel_MCMC.py:HarrisWilson_MCMC.annealed_importance_sampling_log_z", "gensit/learning_models/HarrisWilsonModel_MCMC.py:HarrisWilson_MCMC.log_destination_attraction_gibbs_step", "gensit/learning_models/HarrisWilsonModel_MCMC.py:HarrisWilson_MCMC.log_destination_attraction_given_table_gibbs_step"]}
{"id": "C192", "title": "An incomplete table is completed from what is given", "statement": "When the ground truth table is missing or partly observed (negative entries), the table object is built from the margins given: margins that agree are kept exactly, disagreeing ones are rejected, the margins not given are drawn with the same total, and the observed cells keep their values. A complete table determines its margins.", "quantifier": "all tables, sizes, dictionaries of margins, fixed cells and random draws", "why_tests_cant": "ranges over all tables, margins and draws", "anchors": ["gensit/contingency_table/__init__.py:ContingencyTable.import_tabular_data", "gensit/contingency_table/__init__.py:ContingencyTable.build", "gensit/contingency_table/__init__.py:ContingencyTable.update_table_properties_from_table"]}
{"id": "C193", "title": "A sweep over function arguments computes every combination", "statement": "Applying a list of functions to loaded outputs for several values of their arguments gives, for every combination of the swept values and every loaded sweep, the composition of the functions under those values, labelled by them, and nothing else. A swept argument reaches the functions that take it, swept and fixed arguments are told apart, coupled arguments are swept together, and without a sweep the functions are applied once.", "quantifier": "all arrays, lists of functions, fixed arguments and swept values", "why_tests_cant": "ranges over all functions, arguments and arrays", "anchors": ["gensit/utils/misc_utils.py:xr_apply_and_combine_wrapper", "gensit/utils/misc_utils.py:xr_restack", "gensit/main.py:reproduce"]}
{"id": "C194", "title": "Slices of samples and cumulative means", "statement": "A slice of samples from a start to an end in steps keeps exactly the samples at those positions, an end or start left out meaning the last or first sample; swept over the end it gives the mean of the first n samples of every sweep for every n, labelled by n.", "quantifier": "all arrays of samples, starts, ends, steps and lists of ends", "why_tests_cant": "ranges over all sizes and slices", "anchors": ["gensit/utils/misc_utils.py:xr_islice", "gensit/utils/misc_utils.py:xr_apply_and_combine_wrapper", "gensit/utils/math_utils.py:sample_mean"]}
{"id": "C195", "title": "A function applied by group gets the arguments of the group", "statement": "When a function is applied to every group of a loaded array, each group gets the arguments given under its labels along the grouping dimensions.", "quantifier": "all arrays, grouping dimensions, groups and arguments", "why_tests_cant": "ranges over all groups and arguments", "anchors": ["gensit/utils/misc_utils.py:xr_apply_by_group", "gensit/utils/misc_utils.py:xr_restack"]}
{"id": "C196", "title": "Flows respond to the parameters in the expected direction", "statement": "A larger cost sensitivity never raises the total cost of the trips (of each origin's trips in the production constrained model) and lowers it unless all costs are equal; a larger attraction exponent never lowers the mean attraction travelled to; a destination that becomes more attractive gains flow from every origin and no other destination gains; a journey that becomes dearer loses flow and no competing journey does. The gradient of the intensity is the derivative of the flows in every argument.", "quantifier": "all sizes, costs, demands, totals, attractions and parameters", "why_tests_cant": "ranges over all real matrices, vectors and parameters", "anchors": ["gensit/intensity_models/spatial_interaction_models/TotallyConstrained/__init__.py:flow_matrix_expanded", "gensit/intensity_models/spatial_interaction_models/TotallyConstrained/__init__.py:flow_matrix_jacobian", "gensit/intensity_models/spatial_interaction_models/ProductionConstrained/__init__.py:flow_matrix_expanded", "gensit/intensity_models/spatial_interaction_models/ProductionConstrained/__init__.py:flow_matrix_jacobian", "gensit/intensity_models/spatial_interaction_models/__init__.py:intensity_gradient"]}
{"id": "C197", "title": "Which parameters the flows determine", "statement": "Two settings of the totally constrained model give the same flows exactly when the totals agree and the utilities differ by one constant; of the production constrained model exactly when every origin sends out as many trips and the utilities differ by one constant per origin. So the cost sensitivity can be told from the flows exactly when not all costs (of some origin) are equal, and both parameters exactly when no combination of attractions and costs is constant.", "quantifier": "all sizes, costs, demands, totals, attractions and pairs of settings", "why_tests_cant": "compares all pairs of settings", "anchors": ["gensit/intensity_models/spatial_interaction_models/TotallyConstrained/__init__.py:log_flow_matrix", "gensit/intensity_models/spatial_interaction_models/ProductionConstrained/__init__.py:log_flow_matrix"]}
{"id": "C198", "title": "The potential confines the attractions and its minima are the balances", "statement": "With positive attraction exponent, size penalty and minimum inflow the potential of the stationary distribution is bounded below, every set of bounded potential is bounded, and a minimum is attained. Every minimum is in balance: size penalty times size equals demand plus minimum inflow in every zone, the balances being the sizes the noise-free time stepping leaves unchanged, with sizes in known bounds and of known total; for exponents up to one there is only one balance. Without a minimum inflow a zone can empty at bounded potential. The annealing prior has exactly one minimum, with equal zones.", "quantifier": "all sizes, costs, parameters and attractions", "why_tests_cant": "ranges over all attractions, needs existence of minima", "anchors": ["gensit/intensity_models/spatial_interaction_models/TotallyConstrained/__init__.py:sde_pot", "gensit/intensity_models/spatial_interaction_models/ProductionConstrained/__init__.py:sde_pot", "gensit/physics_models/HarrisWilsonModel.py:sde_potential", "gensit/physics_models/HarrisWilsonModel.py:sde_ais_potential_and_jacobian", "gensit/physics_models/HarrisWilsonModel.py:run_single"]}
{"id": "C199", "title": "Fixed margins hide row and column effects of the intensity", "statement": "With both margins of the table fixed, the law of the chain of the degree-higher sampler after any number of steps depends on the intensity only through its cross differences: under either interaction model it is the law under minus beta times cost, whatever the attractions, alpha, origin demands and grand total. For the degree-one sampler row effects cancel when row totals are fixed, column effects when column totals are fixed, constants always; so with row totals fixed the two interaction models give the same transitions. Direct sampling likewise. Cross differences do matter, and with one margin open so do the attractions.", "quantifier": "all shapes, margins, fixed cells, intensities, start tables, numbers of steps", "why_tests_cant": "ranges over all intensities and laws of chains", "anchors": ["gensit/contingency_table/ContingencyTable_MCMC.py:degree_higher_proposal_2way_table", "gensit/contingency_table/ContingencyTable_MCMC.py:metropolis_log_acceptance_ratio_2way_table", "gensit/contingency_table/ContingencyTable_MCMC.py:log_target_measure_difference_2way_table", "gensit/contingency_table/ContingencyTable_MCMC.py:direct_sampling_proposal_2way_table", "gensit/utils/probability_utils.py:log_odds_cross_ratio"]}
{"id": "C200", "title": "The degree-one table chain converges to the target", "statement": "From any start table that meets the constraints, the probabilities of the degree-one (Metropolis) table chain converge geometrically to the table distribution given the intensity, over all tables that meet the constraints when one margin is fixed, whatever the intensity, the fixed cells and the shape.", "quantifier": "all shapes, margins, fixed cells, intensities, start tables", "why_tests_cant": "a limit over infinitely many steps of a random chain", "anchors": ["gensit/contingency_table/ContingencyTable_MCMC.py:degree_one_proposal_2way_table", "gensit/contingency_table/ContingencyTable_MCMC.py:metropolis_log_acceptance_ratio_2way_table", "gensit/contingency_table/ContingencyTable_MCMC.py:table_gibbs_step"]}
{"id": "C201", "title": "Loaded sweeps are stacked without losing or mixing anything", "statement": "After loading, a sample's swept dimensions become one sweep dimension placed last: every stored value is found unchanged at the same iteration, origin, destination and so on, under the sweep entry labelled with exactly its swept parameter values; nothing else is in the stacked sample, and a sample without swept parameters only has its dimensions reordered.", "quantifier": "all samples, dimension lists, coordinate labels and values", "why_tests_cant": "needs every shape and every combination of swept parameters", "anchors": ["gensit/outputs.py:stack_sweep_dims", "gensit/outputs.py:load"]}
{"id": "C202", "title": "Maps show every row at its own place", "statement": "Joining plotted data to region shapes keeps every data row, once and in order, and gives it the shape of the region its origin (or destination, whichever column comes first) names in the geometries of its own experiment, and no shape when there is none.", "quantifier": "all data frames, region tables and sequences of plotted experiments", "why_tests_cant": "quantifies over every table and every history of one plotting session", "anchors": ["gensit/plot.py:merge_data_with_geometries"]}
{"id": "C203", "title": "The network predicts admissible parameters", "statement": "Whatever the configured layers, the weights reached by training and the sample, the neural network predicts exactly one value per parameter, each within the range of the last layer's activation; with the default hyperparameters no parameter is ever predicted negative.", "quantifier": "all layer counts, sizes, weights, biases, activations and samples", "why_tests_cant": "weights are reached by training; all weights and samples cannot be enumerated", "anchors": ["gensit/learning_models/HarrisWilsonModel_NeuralNet.py:NeuralNet.forward", "gensit/learning_models/HarrisWilsonModel_NeuralNet.py:get_architecture", "gensit/learning_models/HarrisWilsonModel_NeuralNet.py:get_activation_funcs"]}
{"id": "C204", "title": "Options receive what was written after them", "statement": "On the command line every option receives exactly the values written after it, the margin files all values up to the next option, and every argument is kept; experiment types, titles and exclusions are refused together with explicit directories, wherever they stand, and never otherwise.", "quantifier": "all command lines of options and arguments", "why_tests_cant": "quantifies over every command line", "anchors": ["gensit/utils/click_parsers.py:OptionEatAll", "gensit/utils/click_parsers.py:NotRequiredIf", "gensit/main.py:_create_and_run_options"]}
{"id": "C205", "title": "Trained networks predict sensible preferences", "statement": "Whatever weights training reaches and whatever is observed, the flows computed from the parameters a network predicts never send fewer trips from an origin to a destination that is no costlier and no less attractive.", "quantifier": "all network weights, samples, costs, attractions, scalings of beta, both models", "why_tests_cant": "weights are reached by training; all of them cannot be enumerated", "anchors": ["gensit/learning_models/HarrisWilsonModel_NeuralNet.py:NeuralNet.forward", "gensit/experiments.py:SIM_NN", "gensit/intensity_models/spatial_interaction_models/TotallyConstrained/__init__.py:log_flow_matrix", "gensit/intensity_models/spatial_interaction_models/ProductionConstrained/__init__.py:log_flow_matrix"]}
{"id": "C206", "title": "Constrained axes are received as typed", "statement": "Every list of margin axes given on the command line by repeating --axes, each written as a bracketed list of numbers with any spacing, reaches the experiment as the same lists in the same order; without the option the configuration is left alone.", "quantifier": "all sequences of axis lists, all integers, any number of spaces before the bracket and after the commas", "why_tests_cant": "the texts a user can type cannot be enumerated", "anchors": ["gensit/utils/click_parsers.py:PythonLiteralOption", "gensit/main.py:_create_and_run_options"]}
{"id": "C207", "title": "The multinomial mode is a most likely table", "statement": "For every number of trips, every vector of cell probabilities and whatever uniform numbers are drawn, the multinomial mode has one nonnegative cell per probability, sums to the number of trips, and no table with as many trips is more likely.", "quantifier": "all numbers of trips, all probability vectors, all uniform draws", "why_tests_cant": "correctness concerns all competing tables and all random draws", "anchors": ["gensit/utils/probability_utils.py:multinomial_mode"]}
