STATUS={
'C01':('proved','exact equivalence for every two-way table, margins and fixed-cell list'),
'C02':('proved','any number of dimensions; two-way corollary'),
'C03':('proved',''),
'C04':('proved','for lists of distinct fixed cells; C04_repeated_cell_refuted shows the hypothesis is needed (a repeated cell is subtracted twice)'),
'C05':('partial','the claimed completion is false of the code (C05_completion_refuted: construction raises TypeError); proved: exactly when construction fails'),
'C09':('proved',''),
'C06':('proved','every permutation, shape and consistent non-negative margins'),
'C07':('proved','all solvers, any draws'),
'C08':('partial','proved for every constraint set without fixed cells and for one-axis constraints with fixed cells (C08_maximum_entropy_terminates); the last sentence is false of the code when both margins are constrained with fixed cells (C08_fixed_cells_refuted)'),
'C10':('proved',''),
'C11':('proved','every draw, constraint set and fixed-cell list; also: generation succeeds exactly when row or column totals are constrained'),
'C12':('proved','stronger: also with fixed cells, for tables agreeing on them'),
'C13':('partial','false of the code except for 2x2 tables: C13_connects_iff_two_by_two is the exact condition, C13_two_margin_basis_refuted the refutation for every larger table and every draw; a basis with all minors connects (C13_all_minors_connect)'),
'C14':('partial','number of moves and distinctness (up to sign) proved; the length function itself always raises (ragged array), C14_length_function_refuted'),
'C15':('proved',''),
'C16':('proved','every draw, constraint set, step size and fixed-cell list'),
'C17':('partial','margins, fixed cells and non-negativity on the support proved; the fall-back clause is false of the code: C17_degree_higher_proposal gives the exact condition and C17_fallback_refuted a reachable negative table that is always accepted'),
'C18':('proved','any proposal type, log intensities that may change between steps, any draws, any number of steps'),
'C19':('proved',''),
'C20':('proved',''),
'C21':('partial','false of the code: C21_ratio_fails_iff says exactly when the ratio raises, C21_ratio_refuted exhibits a wrong ratio; C21_ratio_partial: it is the true one when every changed cell is 0 or 1 before and after'),
'C22':('proved','draws of the multinomial are any non-negative counts with the requested sum'),
'C23':('partial','holds for row totals without fixed cells (C23_rows_no_fixed_cells_partial); false for column totals (C23_columns_are_scrambled, C23_columns_refuted) and with fixed cells (C23_fixed_cells_copy_rows)'),
'C24':('partial','exact outcome of the update proved; the switch happens only for doubly constrained tables (C24_switch_refuted)'),
'C25':('partial','unnormalised multinomial, product multinomial and (as a ratio) Poisson and Fisher log-probabilities are right; the unnormalised Poisson one is never the density (C25_poisson_refuted) and all normalised ones swap their arguments (C25_normalised_refuted)'),
'C26':('proved','every exponent and draw, including exactly when the loop ends'),
'C27':('partial','false of the code: C27_series_value is what is computed (one spurious last term), C27_series_exact_iff_partial when it is the announced estimator, C27_unit_weights_refuted the refutation for every stopping time'),
'C28':('proved',''),
'C61':('partial','holds for Poisson, multinomial and Fisher; false for the product multinomial (columns instead of rows are normalised)'),
'C62':('partial','holds for multinomial and Fisher; false for the product multinomial (C62_product_rows_refuted)'),
'C63':('proved',''),
'C64':('proved',''),
'C55':('proved','any sample and mass; the interval is optimal among all intervals, not only windows of the sorted samples; also exactly when it exists'),
'C56':('proved',''),
'C57':('partial','degree one: metric, and for count tables with equal totals the least number of unit transfers; the higher-degree distance always raises (C57_degree_higher_refuted)'),
'C65':('partial','holds for SSI; false for SRMSE: each score of a batch of N is sqrt N times the single one (C65_srmse_grows_with_batch, C65_srmse_refuted)'),
'C29':('proved',''),
'C30':('proved',''),
'C31':('partial','true of the totally constrained batch; the production constrained batch uses the wrong cost row unless there is one sweep value (C31_production_constrained_partial, refuted by C31_production_constrained_refuted) and the torch branch mixes attractions (C31_torch_batch_refuted)'),
'C32':('proved',''),
'C33':('partial','totally constrained potential, hand written annealing gradient and prior potential proved; the production constrained potential raises for I<>J and its slope ignores the flows (C33_production_constrained_refuted)'),
'C34':('proved',''),
'C35':('proved',''),
'C71':('proved',''),
'C36':('partial','true of the annealing integrator; the attraction steps evaluate the data likelihood gradient at the previous attractions, so a reversed step returns only if nothing moved (C36_attraction_leapfrog_refuted)'),
'C37':('proved','both versions of the step; the whole chain stays in range'),
'C38':('proved','each step and along the whole chain; without leapfrog steps an accepted attraction step fails'),
'C66':('partial','true for uncorrelated proposals; false for correlated ones (C66_correlated_refuted)'),
'C67':('partial','true exactly when 2*kappa/sigma^2 = 1 (shape,rate used where shape,scale is meant); refuted otherwise'),
'C68':('proved','bounds, shift, exactness and existence for all draws; unbiasedness over the draws is not stated (no measure theory)'),
'C69':('partial','potential, gradient and normalising constant proved; the table likelihood is stale after an accepted attraction move and uses unscaled beta after a table step'),
'C70':('partial','the data likelihood cancels from the decision: right only where it is equal at both ends; refuted otherwise'),
'C72':('partial','the code returns minus the gradient; equal only where the gradient vanishes'),
'C73':('proved','the optimiser and Cholesky factorisation are not modelled'),
'C39':('partial','full effect proved when the container of the last key exists (C39_set_then_get_partial); exact characterisation of reported success and of the AttributeError; false in general: a missing parent reports success without effect'),
'C40':('partial','existence test exact for every configuration; the paths are exact when no key repeats along a path, otherwise a rearrangement of the true ones (C40_find_wrong_path_refuted)'),
'C41':('partial','exact for single keys; for longer dictionary paths modification of an existing path is proved, a missing last key is reported as success (refuted for every such path)'),
'C42':('partial','proved for non-tuple values that print differently; tuple values and values printing alike refute the general statement'),
'C43':('partial','proved for swept paths through dictionaries that do not contain each other; paths through lists raise'),
'C44':('partial','false of the code: resuming raises KeyError for every non-empty sweep, the trimmed list is not used and only the log is tested; a fresh sweep runs everything (proved)'),
'C74':('partial','proved for dictionary and list entries when no earlier key is a numeric text (needed: C74_numeric_text_key_refuted)'),
'C75':('partial','proved when names differ before their first underscore, refuted otherwise'),
'C76':('partial','proved up to the noise level, for which two values in one regime share a folder (refuted)'),
'C77':('partial','proved for uncoupled sweeps outside lists; sweeps inside lists raise, coupled ones without target are dropped'),
'C45':('partial','exact with ends included, for non-finite values and for excluded lower ends; false with an excluded upper end: every value is refused (C45_exclusive_upper_refuted)'),
'C46':('partial','exact for integers up to 2^24 (with any positive step), repetitions and lists; fractional steps overshoot, descending ranges lose the end, larger integers are rounded'),
'C47':('partial','bound, exact release and progress proved for all schedules; a submission that raises keeps its permit and a zero limit blocks (refuted)'),
'C48':('partial','chunks and submissions proved for every list and positive size; instance numbers repeat between chunks'),
'C60':('partial','proved for atomic claims and prompt callbacks; late callbacks, failed runs and interleaved claims give shared positions (refuted)'),
'C78':('partial','exact when both extension keys are present; with one key (as in the shipped schema) nothing is checked, and the kind of path never is'),
'C79':('partial','exact for numbers and texts without allow-nan; allow-nan disables the type check and booleans are never checked (refuted)'),
'C80':('partial','exact for flat lists; length and uniqueness of nested lists are not checked, values are compared as text (refuted)'),
'C81':('partial','exact for sequential sweeps; concurrent sweeps run everything but report no failure (refuted)'),
'C49':('proved','Exact characterisation for lists of single-dimension slices with non-negative burn-in/trimming and thinning >= 1; C49_joint_slice covers one slice over several dimensions. Out-of-range settings are shown by example to raise or be skipped.'),
'C50':('partial','Holds for the joint sampler (C50_joint_rows); for SIM_MCMC theta_acc and compute_time are never recorded (missing comma in the output names); for Table_MCMC the acceptance is never recorded and with write_every > 1 nothing is: refuted, exact behaviour proved.'),
'C51':('partial','The function raises on every input (numpy.repeat with a float count): refuted. With an integer count the property is proved.'),
'C58':('partial','Losses of steps without an update are dropped: refuted for batch size 2. Proved: exact updates for all batch sizes; all losses used for batch size 1 and in the one-step epochs the experiments actually run.'),
'C82':('partial','Refuted by two set orders; proved for slices over a single dimension.'),
'C83':('partial','Refuted for every run (the writer looks for a key the caller removes); the writer itself records losses if handed that key.'),
'C52':('proved','Cells with any number of coordinates, tables of any shape; the text of a table is injective and a text of the wrong size is refused.'),
'C54':('partial','False as stated: the result of the union is discarded for a second text (C54_union_refuted) and a single text without an underscore is taken apart into characters (C54_single_value_refuted). Proved: the exact values kept for every list, and the property for distinct keys.'),
'C59':('partial','False as stated: only the last group of dimensions is kept (C59_dims_refuted), surplus statistics are dropped silently (C59_statistics_dropped_refuted) and a repeated metric nests its entries (C59_repeated_metric_refuted). Proved: one group per option, and completeness of statistics whenever numbers match.'),
'C84':('proved',''),
'C85':('proved',''),
'C53':('partial','False as stated: merging extends the lists of its first argument (C53_merge_alters_argument_refuted) and dictionaries in lists of lists are not updated (C53_update_nested_list_refuted). Proved: the merged value of every key; updates reach every outermost occurrence in trees without lists of lists and change nothing else in any tree; recursive update.'),
'C86':('proved',''),
'C87':('partial','False for settings whose name is not in the configuration: they are dropped (C87_settings_dropped_refuted). Proved for names present, in trees without lists of lists; nothing else changes in any tree.'),
'C88':('partial',"False when experiments differ: all get the first experiment's value (C88_restored_refuted). Proved when they agree; switching off proved for trees without lists of lists."),
'C89':('partial','Raises when the new configuration lacks one of the settings (C89_resume_missing_refuted). Proved when it has all four.'),
'C90':('proved',''),
'C91':('proved',''),
'C92':('partial','False: an item shuffled into a fixed cell is lost and the final margin check fails (C92_fails_refuted). Proved: the exact condition on the shuffle under which the solver succeeds.'),
'C93':('partial','False: rows are drawn from the stale stored total (C93_margins_refuted) and the residual margins are reset ignoring the fixed cells (C93_residuals_refuted). Proved when the total is known, and the exact totals otherwise.'),
'C94':('proved',''),
'C95':('proved',''),
'C96':('partial','False for a constant feature, which divides zero by zero (C96_constant_feature_refuted). Proved for every feature taking two values.'),
'C97':('partial','False: hyper-parameters are looked up as attributes of a dictionary and never found, so the default wins (C97_configured_value_refuted). Proved: the exact value used, for every model.'),
'C98':('partial','False when activations are given in dictionary form (C98_activation_dictionary_refuted) and when widths or biases are keyed by texts, as configuration files require (C98_text_layer_raises). Proved for integer layer numbers and named activations.'),
'C99':('proved',''),
'C100':('proved',''),
'C101':('partial','False: a positive rate raises because the number of regions is never set (C101_negative_samples_refuted). Proved: rate zero returns the batch unchanged.'),
'C102':('partial','False: predictions and flows broadcast against each other (C102_edge_loss_refuted) and the flow rows include the region number (C102_flow_loss_refuted). Proved: the exact value of each loss and its minimiser.'),
'C103':('proved',''),
'C104':('partial','False: an adjacent pair with zero cost has no edge (C104_zero_cost_refuted). Proved: the exact edges.'),
'C105':('proved',''),
'C106':('proved','The caller at MarkovBasis.py:661 is commented out: the generator is modelled as written, called on a constructed table.'),
'C107':('partial','False: cycles of more than ten nodes are not listed, so a six by six table whose free cells form one long cycle has an empty basis (C107_cycle_basis_connects_refuted). Proved whenever no cycle can exceed the limit: at most five rows or five columns, any fixed cells.'),
'C108':('proved',''),
'C109':('partial',"False: the order of the collection's elements depends on which run finishes first (C109_order_refuted), and a run that fails to be processed raises without workers but is silently left out with them, since concurrent.futures ignores errors in callbacks (C109_failed_run_refuted). Proved: the same elements up to order when every run is readable and sort keys are distinct within groups."),
'C110':('partial','False: the list of arrays is popped from its end, so the elements come back reversed and no longer line up with freshly loaded samples (C110_order_refuted). Proved: every requested saved sample is read back complete and exactly reversed, for every listing order.'),
'C111':('partial',"Reading, length and assignment of one sample's element are exact. False for the rest: del raises TypeError, pop removes nothing, assigning one collection's element from another raises (C111_deletion_refuted), so metadata computed by popping repeat the first element (C111_metadata_refuted)."),
'C112':('partial','Exact when outputs or elements alone are given. False when both are given: no output is removed, the kept outputs stay whole and the others are cut (C112_both_refuted).'),
'C113':('partial','False for a non-target coupled parameter: naming it in group_by has no effect (C113_group_by_coupled_refuted). Proved: the split is a partition, and a parameter identifies groups exactly when its target does.'),
'C114':('partial','Exact for conditions on one dimension each (C114_one_dimension_exact); for conditions on several dimensions matching entries are kept and the others blanked (C114_slices_partial), but an array left all blank is not reported (C114_empty_refuted) and conditions naming a coordinate that cannot be swept are dropped silently (C114_dropped_refuted).'),
'C115':('partial','Proved for runs whose datasets have equal lengths. False for a run interrupted between the writes of two datasets of one iteration: loading both raises (C115_interrupted_refuted).'),
'C116':('partial','Proved when names are distinct and the first metric that succeeds is over the configurations, and for unswept outputs whose metrics are arrays. False otherwise: values are replaced, lost, placed in a row of their own, or taken from another metric (C116_summary_refuted, C116_replaced_refuted).'),
'C117':('partial','C117_validation_partial proves the statement with exceptions that are false of the code: a default without range is not checked while sweeping (C117_default_refuted), settings outside the template are never checked (C117_unlisted_refuted), and sweeps below a list are refused once sweeping is switched off (C117_list_sweep_refuted). Values equal to the text not-found count as absent. The shape of the shipped template is shown to meet the hypotheses (shipped_template).'),
'C118':('partial',"Proved: everything listed is a configured sweep, and sweeps whose name is unique are listed (C118_sweeps_found_partial). False: list entries below 'file' are named by their position, so margins[0] and cells_subset[0] collide and one is lost (C118_names_refuted, and shipped_names for the shipped template); coupled sweeps are listed even without a range (C118_range_refuted)."),
'C119':('proved','The order of iteration over the set is arbitrary; elements are distinct as in a Python set.'),
'C120':('partial','Proved: non-negativity, zero characterisation, invariance and duality of the chi-squared parts; the metric laws of the euclidean distance between tables of equal non-zero totals. False in general: distances are normalised by the first table only, so they are not symmetric, and chi_squared_distance passes too many positional arguments and always raises (C120_symmetry_refuted). l_p distances with other orders are not modelled.'),
'C121':('partial',"Absolute, squared and residual errors proved in full. The relative error divides by the smallest truth along the second axis, not by the cell's own (C121_relative_refuted); C121_relative_partial covers columns of constant truth. Residual errors are modelled for one sample without mask."),
'C122':('partial','Proved whenever a sample varies. For two constant samples the routes disagree: one returns nan and does not reject, the other divides by zero (C122_constant_samples_refuted). The t-distribution is an arbitrary increasing symmetric function into (0,1).'),
'C123':('proved','Reals instead of floats; the scale is positive.'),
'C124':('proved','Reals instead of floats; arrays are rectangular.'),
'C125':('proved',"Fisher's non-central hypergeometric mass function of scipy and the uniform choice of the basis function are trusted. The range of the odds ratio is needed: outside it the clipped ratio gives another distribution (C125_clipped_refuted)."),
'C126':('partial','False as stated: the ratio sums log factorials where logs are needed (C21), so with two items in a row the target is not invariant (C126_metropolis_refuted). Proved: detailed balance and invariance with respect to the distribution the ratio belongs to, wherever the step does not raise, and with respect to the target when no table has a count above one.'),
'C127':('partial',"Proved without margin constraints and with the grand total constrained (any fixed cells), and for row totals without fixed cells. False for column totals, where some tables are never drawn (C127_columns_refuted), and with both margins constrained, where the intensities are not used (C127_both_margins_refuted). Mass functions of torch's generators are trusted."),
'C128':('proved','No fixed cells, as in every use with direct sampling (C24). torch.randperm is trusted to be uniform.'),
'C129':('partial','False as stated: the generated basis does not connect the tables of larger shapes (C13), and a chain can stay at its start table for ever (C129_all_margins_refuted). Proved: geometric convergence, from any start table, to the table distribution restricted to the tables the moves reach; convergence to the full distribution exactly when they reach every table, in particular for two-by-two tables.'),
'C130':('partial','Proved, with files that fit together always read, except that a destination demand vector can never be read: its schema declares axis 1 of a one-dimensional array (C130_destination_demand_refuted).'),
'C131':('partial','Proved when the dims are in the usual order (always, unless the configuration lists them otherwise). False otherwise: masks then take the configured order and valid inputs are rejected (C131_dims_order_refuted).'),
'C132':('partial','Margin values are imported. A margin file that exists always stops the read, and single cells are never imported (C132_margin_file_refuted, C132_cells_subset_refuted).'),
'C133':('proved',''),
'C134':('partial','Casting to labelled arrays is exact; casting back truncates to integers, so attraction shares below one become zero (C134_attraction_lost_refuted), and needs every castable dataset to be present (C134_all_needed_refuted). Exact for integer data.'),
'C135':('partial','Proved for six datasets (integer tables); five others stay on the device and make the next pass fail (C135_left_on_device_refuted).'),
'C136':('partial','Proved for all parameters but delta and kappa, which are always held fixed (C136_delta_kappa_refuted).'),
'C137':('partial','Different start seconds give different directories; started within the same second, experiments that differ only in settings the name omits overwrite each other (C137_same_second_refuted).'),
'C138':('partial','Proved when the type is given and names hold no pattern characters. A search by date or title alone finds nothing (C138_date_alone_refuted, C138_title_alone_refuted).'),
'C139':('partial','Proved but for the last character of the date, which is never compared: searching for 2024 also returns 2023 (C139_last_character_ignored_refuted).'),
'C140':('partial','Order by the date in the path is proved, and is the start order unless the title ends in numbers (C140_title_numbers_refuted, C140_title_date_refuted). Exclusions always fail (C140_exclude_refuted).'),
'C141':('partial','The announced series is exactly unbiased (C141_announced_series_unbiased); the returned one carries an extra last term and its averages exceed every bound (C141_unbiased_refuted).'),
'C142':('partial',"Number, reuse and untouched other files are proved; a single stopping time fails on the second run, later seeds are ignored, and a user's file of another length is overwritten (three refutations)."),
'C143':('partial','Trial and call values are proved, and experiments always give them (C143_experiment_constants); the configuration and the defaults are never usable (C143_built_exactly, two refutations), trial values are not recorded.'),
'C144':('partial','Exactly when beta is the second learned parameter (or bmax is 1); tables of joint runs are drawn with the unscaled beta (C144_table_intensity_refuted).'),
'C145':('partial','One worker: the truncated series. More workers always fail (C145_parallel_refuted); the parameter steps of an iteration share one stopping time (C145_shared_times_refuted).'),
'C146':('partial','Initial samples are valid and the accepted set is characterised; negative signs, which the estimator returns, are refused, and validation with r2 always fails.'),
'C147':('partial','Exact when the stored basis came from a table without fixed cells (one family of margins); otherwise moves are missing (C147_fixed_first_refuted); a space in the directory defeats it (C147_space_refuted).'),
'C148':('partial',"The best of the points that were evaluated is reported; a failed point, a stale prediction, the solver's scale and the order of names are refuted."),
'C149':('partial','The best point is reported, with the two names swapped (C149_names_swapped_refuted).'),
'C150':('partial','The average is proved for every region with an incoming edge; a region without one forgets its own features (C150_isolated_refuted) and the weight against the neighbours has no effect (C150_weights_unused_refuted).'),
'C151':('proved','For every graph and any number of layers.'),
'C152':('proved','For every injective renumbering and any order of the edges.'),
'C153':('partial','Proved when no chosen setting is itself swept; a chosen swept setting raises KeyError (C153_swept_refuted).'),
'C154':('partial','Proved sequentially and for workers that all succeed; a failing run loses rows (C154_failed_run_refuted).'),
'C155':('partial','Sorting, names and place are proved conditionally; dates are replaced by a constant, a sort by folder and shared path endings fail (three refutations).'),
'C156':('partial','Table and sampler are built and config and inputs checked whenever every mention is a name followed by a dot; models can never be had and other mentions go unnoticed (two refutations).'),
'C157':('partial',"In sequential sweeps every run's messages are in its file, with what was said after the previous run was closed; nothing is lost when the process ends itself. A killed run leaves nothing, a single run only logs warnings, and of several experiments in one command only the last has a log (three refutations)."),
'C158':('partial','Holds but for warnings at levels between info and warning, which are hidden (C158_warnings_refuted); a sweep fixes the level for the rest of the command (C158_after_sweep_refuted).'),
'C159':('partial','Every point has its own place and the order is exactly characterised for all criteria (C159_places). The order is the reverse of the documented one, and the last criterion counts first (two refutations).'),
'C160':('partial','Holds for a variable that all entries have. A point whose entry lacks a variable takes the value of an earlier entry of its folder, or that of another point (two refutations); the failure of an entry drops the rest of its folder only.'),
'C161':('partial','Holds for an experiment with one entry; otherwise only the last value of every variable is drawn (C161_every_entry_refuted). A failed entry removes the figure of its folder only.'),
'C162':('partial','Known names have different labels; all other texts have the same, empty label and a number other than sigma raises (two refutations).'),
'C163':('partial','Holds for one level with a given start and positive step, and for two levels when the minor step leaves room for the major labels. Without the option the program ends, with one pair for two levels no point is placed, and equal steps overlap (three refutations).'),
'C164':('partial','Both limits given on a continuous axis are kept; with none or one given nothing drawn lies outside. One given limit is widened by the data; on a discrete axis fractions are dropped and given limits are widened (three refutations).'),
'C165':('partial','Holds for one variable on the rows, and for one on each axis when every combination of values occurs. A missing combination raises; with two variables on one axis everything is in one subplot (two refutations).'),
'C166':('proved','Expressions are names, constants, unary and binary operations of the libraries (arbitrary functions that may raise) and map over a lambda; keyword and metric loops, all namespaces.'),
'C167':('partial','Proved as an equation between the final values for a name that is not that of a sample, is defined once, and whose expression mentions no later name. An expression for the name of a sample is never evaluated; a failed definition falls back to a global of the same name; inside a lambda no definition is visible (three refutations).'),
'C168':('partial','Sources characterised for every name, and the intensity of a model. A missing validation or recorded array is left out; a missing training input, a collection of two arrays, a missing part of the intensity and six accepted names end the program; the region geometries are never available (two refutations).'),
'C169':('partial','Holds for every recorded array but the intensity of a configuration with an intensity model; compute_time and theta_acc of SIM_MCMC are neither recorded nor read because of a missing comma (two refutations).'),
'C170':('partial','Exact description of the settings of run; options given take effect (run, create, optimise). False as stated: the number of workers, threads, device, norm, logging mode, sparse_margins and store_progress of the file are replaced by the defaults of the command line in every configuration.'),
'C171':('partial',"Proved when no type occurs twice in the file; of several entries of one type only the last is run (at the place of the first), the others are dropped without a message. Independence of the experiments' configurations holds in general."),
'C172':('partial','False: types that do not occur in the file change nothing at all, for every file; asking for nothing runs nothing and succeeds.'),
'C173':('proved','Validation, construction and run are arbitrary functions that may fail and may change their configuration.'),
'C174':('partial','Proved with one worker, for all metrics and prunings (reports: of models that report each iteration under its own step). False with two workers (each thread works on whatever model the shared experiment holds) and of random forests and gradient boosting, which report every iteration under step 0, of which the optimiser keeps the first only.'),
'C175':('partial','Best trial, independence of trials and use of suggestions proved; false of the number of estimators of gradient boosting and XGBoost, which is tuned and reported but not used, and of the written configuration, whose hyper-parameters are those of the last trial.'),
'C176':('partial','Proved of the neural and regression experiments; false of the analyses and the MCMC experiments (no value, ValueError after all trials have run) and of sweeps (TypeError).'),
'C177':('partial',"Proved of the first run; false of every second run, whose recorded time is too large by the clock's reading at construction, for all clocks."),
'C178':('partial','Changing any single text option that is part of the name gives another file. False of every other change: the variables drawn, groups and kind of plot are not part of the name, and the earlier figure, data and settings are replaced.'),
'C179':('partial','Proved of json. dat always fails (a tuple is indexed with a text), txt writes no data and reports success, csv fails when lists differ in length, a figure without points raises.'),
'C180':('partial','Proved of one directory with one file, for every feature the figure had. False of missing features (black points lose their colour), of several directories (always an error) and several files (all but the first dropped).'),
'C181':('partial',"Proved: drawn vectors non-negative with the dimensions of their schema and sum one (unless all draws are zero), costs in [0,1] reaching one, symmetric if square, cost shares, total of the table (given that torch's multinomial keeps the total). Refuted: the uniform distribution (the schema's default) never generates anything; with destination listed before origin in dims the files of costs and table have swapped dimensions."),
'C182':('partial',"Same seed, same data, files and generator states from any state before. Refuted: the noise of the solver and the draw of the table do not come from the seed (with distributions without spread all seeds give the same data), and numpy's generator is left in a state that depends only on the number of samples."),
'C183':('partial','No file outside the directory changes; for a last entry of inputs.data with both dimensions names agree exactly when dimensions and total agree. Refuted: the files of an existing dataset are replaced whatever the flag; the name depends on the last entry of inputs.data, so that datasets with different destinations can share a directory; if that entry has no dimensions, nothing is written.'),
'C184':('partial','Exact regeneration if bmax is one (or beta zero) and no negative delta or kappa is listed. Refuted otherwise: the stored beta is already scaled and is scaled again; the configured time step is ignored and replaced by 0.001.'),
'C185':('partial','With different numbers of origins and destinations the probabilities are exactly the flows of the totally and production constrained models. Refuted for square problems (attraction over cost, whatever alpha, beta and demand) and for sde_potential (fails unless square, and then the attractions cancel).'),
'C186':('partial',"Proved for samples with equally many rows: values, order and labels. Refuted: samples with different numbers of rows cannot be loaded together (every joint run with different numbers of parameter and table samples per iteration; log_target, which is never written, with anything recorded); damaged, missing or busy files give no arrays and no error. The conversion to the schema's dtype is not modelled."),
'C187':('partial',"Proved what the label means: row r is sample (r-1) mod b of iteration recorded_at(start, every, (r-1)/b); it is the iteration's number exactly when recording starts at once with every iteration and one sample each. Refuted otherwise."),
'C188':('partial','Proved for numbers further apart than 1e-5 (not integer coordinates) and for texts that are not numbers. Refuted: values below 5e-6 all become 0; names reading as the same number coincide; parameters without a coordinate type (epsilon) and texts for numeric ones stop the loading; the samples of a swept parameter lose its value.'),
'C189':('partial','Proved for a positive number of steps, from the Euler scheme written out and consecutive draws of a generator seeded with the number of the run; the time step is 0.001 whatever the configuration says (C184) and the initial attractions are existentially quantified.'),
'C190':('partial',"Proved: the matrix factorised is the (unique) Hessian of the potential; whenever a value is returned it is the stated formula (determinant: mathcomp's); it is returned at stationary points when alpha < 1 + delta; the production constrained instance always returns. Refuted: for alpha > 1 + 2 delta stationary points exist where the Cholesky factorisation raises. torch.linalg.cholesky is the textbook factorisation in exact arithmetic; the optimiser's results are arguments; autograd is modelled by the closed form proved to be the derivative."),
'C191':('partial','Proved for annealed importance sampling: for every differentiable gradient, and for the tempered gradient of the code (totally constrained model), the trajectory has Jacobian determinant 1 everywhere; it follows the gradient of the energy, retraces itself, and the accept/reject step is in detailed balance. Refuted for the attraction step: because the gradient of the data likelihood is held at the attractions before the trajectory, one leapfrog step has Jacobian determinant (1 + e^2/(2 nu))^J > 1 (e the step size, nu the variance of the observations), which the acceptance rule ignores. Not derived from it: invariance of the distribution (a change of variables for integrals in J dimensions). Exact real arithmetic; autograd is modelled by the closed form.'),
'C192':('partial','Proved for two-way tables: exactly which margins are accepted, that those given are kept, that the completed ones are non-negative, have the right lengths and add up to the same total, and that a complete table is kept with its own sums as margins. Refuted: margins of rows or columns without the grand total are rejected although they determine it; margins given beside a complete table are replaced unchecked; the observed cells of a partly observed table are all replaced by -1, so fixing k of them in a row leaves k more than the row total for the free cells. Random draws are arguments (torch.randint, multinomial); a sampled margin is an array of integers here, of floats in the code.'),
'C193':('partial','Proved: whenever something comes out it holds exactly the compositions, for every combination and entry, and the conditions under which it comes out. Refuted: coupled sweeps always raise TypeError (a method is not called); without a sweep nothing is applied and a KeyError is raised; every swept argument is handed to every function, so a function without that keyword (roundint) can never be in the list; a fixed value of a swept argument is silently ignored because the clash test looks at names of functions; an argument named like a function is refused; combinations of levels that were not run appear as missing. Swept values are numbers, strings or None; outputs over different entries are not joined.'),
'C194':('partial','Proved: the elements of a slice with non-negative start and end and positive step, the first n samples, and the cumulative means of figure 2 through the whole sweep. Refuted: without an end (the default) the slice raises TypeError; an end beyond the number of samples is a label under which the mean of all the samples is repeated. Real arithmetic.'),
'C195':('partial','Proved for a single group and grouping by levels of the sweep. Refuted: with two groups or more it always fails (the dictionary of arguments is overwritten by that of the first group); a dimension outside the sweep is looked up under the last label of the sweep.'),
'C196':('proved','One draw and one sweep; the values torch.autograd computes are modelled by closed forms, proved to be the partial derivatives. Real arithmetic.'),
'C197':('proved','One draw and one sweep, real arithmetic.'),
'C198':('partial','Proved for the totally constrained model and the annealing prior, with several balances exhibited for exponent two. Refuted for the production constrained model: its potential (defined only for as many origins as destinations) has its minimum at sizes that do not depend on the costs or parameters. Real arithmetic.'),
'C199':('proved','Laws as in C125-C129: uniform choices, documented mass functions, exact integers, real intensities. C199_attractions_matter_refuted is the counterexample showing that the row-total theorem does not extend to column effects.'),
'C200':('partial','Proved for one fixed margin when counts are zero or one, for instance with one item per row (C200_binary_one_margin_partial), and in general, whatever is fixed, up to counts of two: geometric convergence to the distribution of the acceptance ratio restricted to the tables the moves reach. Refuted with counts of two: the limit is one third where the target is one quarter, because the ratio sums log factorials (C21). With counts of three steps can raise.'),
'C201':('partial','Proved for every layout (C201_every_cell_kept, C201_nothing_invented, C201_shape, C201_unswept, C201_all_samples), with the exact condition under which a sample can be laid out (C201_when_it_loads). Refuted edges: a further core dimension makes the whole load raise, and a sample with no iteration, schema or swept dimension comes back with its dimensions reversed (C201_layout_edges_refuted).'),
'C202':('partial',"Proved when region ids are distinct and all experiments of the session share their regions (C202_own_regions, C202_first_plot_partial, C202_same_regions_partial). Refuted otherwise: the first experiment's regions are remembered and reused for every later one (C202_other_regions_refuted); a region listed twice doubles its rows and a frame without a location column raises (C202_edges_refuted)."),
'C203':('partial','Proved for the activations the code itself uses, over the reals (C203_one_value_per_parameter, C203_ranges, C203_default_nonnegative), together with the fact that the default hidden layer adds nothing to what the network can represent (C203_default_hidden_layer_idle). Refuted for hyperparameter trials, which may end the network with a linear or tanh layer and then predict negative parameters (C203_trial_negative_refuted).'),
'C204':('partial','Proved for command lines of whole option tokens where the margin files are followed by an option or by nothing (C204_as_written_partial, C204_refused, C204_exclusive). Refuted otherwise (C204_margins_refuted): an argument after the margins is swallowed, an option right after --margins is taken for a file name, and what the program receives is one text that is none of the names (C204_text_is_no_file).'),
'C205':('partial','Proved for the default hyperparameters, learning alpha and beta, in both models (C205_cheap_and_attractive_preferred). Refuted for networks a hyperparameter trial may choose, which can predict that costlier destinations are preferred (C205_trial_prefers_costly_refuted).'),
'C206':('partial','Proved for well-formed texts (C206_axes_as_written_partial): any spacing before the bracket and after the commas, with or without a last comma; a word that is not a number is never read as something else, it stops the parse (C206_no_misreading). Refuted half: a malformed text is not reported as a usage error, the failure of eval passes through (C206_bad_text_refuted). Python expressions other than lists of integers are not modelled.'),
'C207':('partial','Proved: the shape and the total always (C207_has_all_trips); nonnegative cells when no draw is exactly zero (C207_nonnegative_partial); within 3/2 trips per cell in total of the shares (n + r/2) p, whatever the draws (C207_near_the_shares); a mode whenever the first guess floor((n + r/2) p) already has n trips (C207_first_guess_is_mode_partial). Refuted: a corrected table need not be a mode, because the corrections go by random numbers instead of the fractional parts (C207_corrected_not_mode_refuted), and a draw of exactly zero can make a cell negative (C207_zero_draw_negative_refuted). Exact real arithmetic; the function is in the library and called by nothing else in it.'),
}
